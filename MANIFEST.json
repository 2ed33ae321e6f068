{
 "claims": [
  {
   "property": "C01",
   "status": "proved",
   "theorems": [
    "C01_inline_lossless"
   ],
   "note": "All word sizes from 1 to 25 bytes, both endiannesses."
  },
  {
   "property": "C02",
   "status": "proved",
   "theorems": [
    "C02_tag_unambiguous",
    "C02_reachable"
   ],
   "note": "Assumes vtable addresses are even and non-null (their alignment)."
  },
  {
   "property": "C03",
   "status": "proved",
   "theorems": [
    "C03_refinement",
    "C03_frame"
   ],
   "note": "Every history of API calls refines immutable strings. Excluded by [admissible]: the calls refuted under C05 and C08 (noalloc_upgrade of a borrowed value, out-of-range ends on inlined values, usize::MAX bounds in release builds)."
  },
  {
   "property": "C04",
   "status": "proved",
   "theorems": [
    "C04_no_undefined_behaviour",
    "C04_programs",
    "C04_alive",
    "C04_no_leak",
    "C04_all_freed",
    "C04_ends"
   ],
   "note": "Same exclusions as C03. Counts are unbounded naturals."
  },
  {
   "property": "C05",
   "status": "partial",
   "theorems": [
    "C05_upgrade_detaches",
    "C05_noalloc_exact",
    "C05_noalloc_upgrade_refuted",
    "C05_noalloc_upgrade_owned_refuted"
   ],
   "note": "Proved for upgrade(). False for noalloc_upgrade(): its condition is inverted (bytes.rs L349); what it does is said exactly; use-after-free witness."
  },
  {
   "property": "C06",
   "status": "partial",
   "theorems": [
    "C06_exact",
    "C06_big_endian_exact",
    "C06_predicted_happens_partial",
    "C06_little_endian_refuted"
   ],
   "note": "Exactly: an allocation is predicted iff it happens and the value has at least five words. So exact on big-endian targets; on little-endian ones 33..39-byte values allocate although predicted not to (witness)."
  },
  {
   "property": "C07",
   "status": "proved",
   "theorems": [
    "C07_into_arc"
   ],
   "note": ""
  },
  {
   "property": "C08",
   "status": "partial",
   "theorems": [
    "C08_subslicing_partial",
    "C08_inline",
    "C08_inline_spurious_panic_refuted",
    "C08_inline_corruption_refuted",
    "C08_inline_undefined_refuted",
    "C08_usize_max_refuted"
   ],
   "note": "Proved for out-of-line values. False for inlined values (spurious panics, accepted out-of-range ends, undefined behaviour), for which exactly what happens is proved: ends are compared with the second word of the bytes. False for usize::MAX bounds without overflow checks."
  },
  {
   "property": "C09",
   "status": "proved",
   "theorems": [
    "C09_observers",
    "C09_order"
   ],
   "note": ""
  },
  {
   "property": "C10",
   "status": "partial",
   "theorems": [
    "C10_reads_partial",
    "C10_zero_is_end",
    "C10_out_of_line_reads_succeed",
    "C10_inline",
    "C10_readable",
    "C10_short_values_panic",
    "C10_chunked_read_refuted",
    "C10_rest_refuted"
   ],
   "note": "Successful reads return consecutive chunks. Out-of-line values can always be read; inlined ones exactly if the second word of their bytes is at least their length, so never with 1 to 8 bytes, and chunked reads do not reach the end."
  },
  {
   "property": "C11",
   "status": "partial",
   "theorems": [
    "C11_split_partial",
    "C11_inline",
    "C11_short_values_panic",
    "C11_split_refuted"
   ],
   "note": "Exact for all values: out-of-line ones are split; inlined ones are iff the second word of their bytes is at least their length, and panic otherwise."
  },
  {
   "property": "C12",
   "status": "proved",
   "theorems": [
    "C12_programs",
    "C12_round_trip",
    "C12_new"
   ],
   "note": "After any history of operations on strings, C strings, Arc<CStr> and SharedCStr."
  },
  {
   "property": "C13",
   "status": "proved",
   "theorems": [
    "C13_no_undefined_behaviour",
    "C13_live_iff_owned",
    "C13_all_freed",
    "C13_unique",
    "C13_drop"
   ],
   "note": "Wrong-size frees, double frees and reads after free are the undefined outcome, shown unreachable. C code mutating the characters behind the pointer is outside the model."
  },
  {
   "property": "C14",
   "status": "proved",
   "theorems": [
    "C14_borrowed",
    "C14_from_cstr",
    "C14_foreign",
    "C14_equality"
   ],
   "note": ""
  },
  {
   "property": "C15",
   "status": "proved",
   "theorems": [
    "C15_c_macro",
    "C15_c_macro_error",
    "C15_js_string",
    "C15_same_as_borrowed"
   ],
   "note": "JS strings are taken as the UTF-8 bytes N-API returns."
  },
  {
   "property": "C16",
   "status": "partial",
   "theorems": [
    "C16_round_trip_partial",
    "C16_nonnull_refuted",
    "C16_transparent_refuted",
    "C16_unit_refuted"
   ],
   "note": "Proved for every type of the class good (any nesting). False of misaligned NonNull<T>, of transparent structs that start with a zero-sized field, and of () inside arrays or TaggedOption: refuted with witnesses."
  },
  {
   "property": "C17",
   "status": "partial",
   "theorems": [
    "C17_exact_partial",
    "C17_nothing_invalid",
    "C17_out_refuted"
   ],
   "note": "Proved for every type of the class good. False of Out (null accepted): refuted."
  },
  {
   "property": "C18",
   "status": "proved",
   "theorems": [
    "C18_niche",
    "C18_null"
   ],
   "note": "Every HasNiche type of the crate (references, NonNull family, Out, function pointers, slices, Vec, Bytes, BoxDynFnMut, VirtualPtr, transparent wrappers)."
  },
  {
   "property": "C19",
   "status": "partial",
   "theorems": [
    "C19_conversions",
    "C19_accepts_partial",
    "C19_none_payload",
    "C19_decodes",
    "C19_unit_refuted"
   ],
   "note": "Proved for every payload type of the class good; a payload of () panics: refuted."
  },
  {
   "property": "C20",
   "status": "partial",
   "theorems": [
    "C20_header_struct_partial",
    "C20_printed",
    "C20_attributes_refuted"
   ],
   "note": "Proved for every field list, C and C#, when repr(C) is the only layout attribute. With a second attribute such as repr(align(16)) or repr(packed), which the derive accepts, it is false: refuted."
  },
  {
   "property": "C21",
   "status": "partial",
   "theorems": [
    "C21_numbering",
    "C21_variants_partial",
    "C21_integer_repr_partial",
    "C21_shadowing_refuted",
    "C21_wide_refuted",
    "C21_two_attributes_refuted"
   ],
   "note": "Proved for every variant list with the integer in the only repr attribute (and for repr(C) enums that fit c_int). False when a variant is called discriminant (everything is accepted), for repr(C) enums wider than c_int and for two repr attributes (panic): refuted."
  },
  {
   "property": "C22",
   "status": "partial",
   "theorems": [
    "C22_once",
    "C22_order_partial",
    "C22_ssize_partial",
    "C22_isize_refuted",
    "C22_function_refuted",
    "C22_modules_refuted"
   ],
   "note": "At most once: unconditional. Before use: when names do not clash; isize prints ssize_t which the included headers do not define (refuted); a function named like a type and same-named types of different modules are refuted."
  },
  {
   "property": "C23",
   "status": "partial",
   "theorems": [
    "C23_stable_partial",
    "C23_same_name_refuted",
    "C23_unstable_refuted"
   ],
   "note": "Proved when item names are distinct; refuted for items of one name (the last registered wins)."
  },
  {
   "property": "C24",
   "status": "partial",
   "theorems": [
    "C24_printed_partial",
    "C24_nothing_else",
    "C24_same_name_refuted",
    "C24_same_function",
    "C24_csharp_refuted"
   ],
   "note": "Proved for C and C# when names are distinct and do not clash; with the stable option a same-named item is dropped silently (refuted); C# drops untyped constants (refuted)."
  },
  {
   "property": "C25",
   "status": "partial",
   "theorems": [
    "C25_distinct_partial",
    "C25_short_partial",
    "C25_no_clash_partial",
    "C25_generic_refuted",
    "C25_fn_refuted",
    "C25_underscore_refuted",
    "C25_const_refuted"
   ],
   "note": "Injective on names without underscores with generics over such types, under any pointers and arrays; refuted for pointers as type arguments, function pointers, names with underscores, and structs with const parameters (all instances share a name)."
  },
  {
   "property": "C26",
   "status": "partial",
   "theorems": [
    "C26_values_partial",
    "C26_python_partial",
    "C26_not_refuted",
    "C26_shift_refuted",
    "C26_python_refuted",
    "C26_backing"
   ],
   "note": "C and C#: proved when explicit discriminants are typed or have no shift and no ! at an unsigned type; otherwise refuted. Python prints 0, 1, ... always: proved exactly, refuted as soon as Rust differs."
  },
  {
   "property": "C27",
   "status": "partial",
   "theorems": [
    "C27_collisions",
    "C27_within",
    "C27_distinct_partial",
    "C27_within_refuted",
    "C27_across_refuted"
   ],
   "note": "Exact characterisation of the collisions; distinct within an enum when no name has _ before a lower case letter; refuted otherwise and across enums."
  },
  {
   "property": "C28",
   "status": "partial",
   "theorems": [
    "C28_chars",
    "C28_ends",
    "C28_name_partial",
    "C28_opaque_partial",
    "C28_tuple_refuted",
    "C28_generic_refuted",
    "C28_slice_refuted",
    "C28_fn_refuted",
    "C28_layout_partial"
   ],
   "note": "Identifier characters and termination: all strings. No panic: types whose generic arguments have no comma and slice items no semicolon; refuted for Vec<(u8, u8)>, Option<Result<A, B>>, [[u8; 4]], fn(Vec<u8>)."
  },
  {
   "property": "C29",
   "status": "partial",
   "theorems": [
    "C29_names_partial",
    "C29_kept",
    "C29_c_partial",
    "C29_csharp_partial",
    "C29_python_partial",
    "C29_macro_refuted",
    "C29_raw_refuted",
    "C29_keyword_refuted",
    "C29_csharp_keyword_refuted",
    "C29_unit_refuted"
   ],
   "note": "One parameter per Rust parameter, in order, with distinct names, read back by independent readers of C, C# and cffi prototypes, for every pattern list Rust accepts. Refuted for parameters of which one comes from a macro (hygiene), for r# names, names that are keywords of C or C#, and parameters of unit type."
  },
  {
   "property": "C30",
   "status": "partial",
   "theorems": [
    "C30_comments_partial",
    "C30_python",
    "C30_c_refuted",
    "C30_splice_refuted",
    "C30_csharp_refuted"
   ],
   "note": "Proved against a reader of C (with line splicing) and C# comments for documentation without */ (C) or inner line breaks (C#); refuted otherwise. Python headers never contain documentation."
  },
  {
   "property": "C31",
   "status": "proved",
   "theorems": [
    "C31_no_unwinding",
    "C31_call",
    "C31_invalid",
    "C31_adequate"
   ],
   "note": "Programs with nested calls in both directions, catch_unwind, destructors and effects; both the toolchains in which an extern \"C\" function may unwind and those in which it aborts. The interpreter of the shim, step by step, is equivalent to a relational specification without any guard. In release builds an invalid argument is undefined behaviour (from_raw_unchecked), not a panic."
  },
  {
   "property": "C32",
   "status": "partial",
   "theorems": [
    "C32_sync",
    "C32_js_partial",
    "C32_async_partial",
    "C32_async_js_partial",
    "C32_async_refuted",
    "C32_blank_refuted",
    "C32_js_feature_refuted"
   ],
   "note": "Holds for functions that are not async, for every attribute list. Refuted for async functions: the attribute of the expanded function has no rename. With the feature js an async function without js is not exported at all. Blanks in the literal are kept in the symbol and dropped in JS."
  },
  {
   "property": "C33",
   "status": "partial",
   "theorems": [
    "C33_threads_partial",
    "C33_written_partial",
    "C33_exact",
    "C33_rc_refuted",
    "C33_ref_refuted"
   ],
   "note": "Proved when Send/Sync are written in the type of the object, and for every trait without automatic supertraits. Exact description of what goes wrong otherwise. Refuted for traits with Send or Sync as supertrait: Rc<T> (StaticDropGlue of the crate itself) and &T with T not Sync."
  },
  {
   "property": "C34",
   "status": "proved",
   "theorems": [
    "C34_exclusive",
    "C34_clone",
    "C34_receivers",
    "C34_shared",
    "C34_clone_sound",
    "C34_box",
    "C34_dynamic"
   ],
   "note": "Every trait shape, flavour and pointer kind, including pinned receivers."
  },
  {
   "property": "C35",
   "status": "proved",
   "theorems": [
    "C35_exact",
    "C35_life",
    "C35_owners",
    "C35_held",
    "C35_drop"
   ],
   "note": "Every program, as a list of operations, that Rust's borrow and type checkers accept (they are specified, with leaking left out), with calls that overlap; the log of the model with its counts and virtual tables is that of a specification that only knows handles."
  },
  {
   "property": "C36",
   "status": "proved",
   "theorems": [
    "C36_arc",
    "C35_exact",
    "C35_life"
   ],
   "note": "Same histories; a closure from C without retain panics when cloned."
  },
  {
   "property": "C37",
   "status": "proved",
   "theorems": [
    "C37_boxed",
    "C37_borrowed",
    "C37_null",
    "C35_exact",
    "C35_life"
   ],
   "note": "Same histories; null function pointers panic."
  },
  {
   "property": "C38",
   "status": "proved",
   "theorems": [
    "C38_poll",
    "C38_over",
    "C38_drop",
    "C38_polls",
    "C38_bytes",
    "C38_invalid_refuted"
   ],
   "note": "Every behaviour of the underlying future (pending, ready, panicking, aborting) and every number of polls, in Rust with and without aborting at extern \"C\" unwinding. A result byte of a foreign implementation that is neither 0 nor -1 is undefined behaviour (the refuted theorem)."
  },
  {
   "property": "C39",
   "status": "partial",
   "theorems": [
    "C39_sound",
    "C39_once",
    "C39_output",
    "C39_panic_partial",
    "C39_panic_refuted",
    "C39_delivered",
    "C39_value",
    "C39_wake",
    "C39_handle",
    "C39_ub",
    "C39_abort"
   ],
   "note": "Every schedule and every behaviour of the executor and of its task handle. Missing: the join future also panics, blaming the executor, when the future itself panicked (refuted) and when the handle of the executor panics."
  },
  {
   "property": "C40",
   "status": "proved",
   "theorems": [
    "C40_returns",
    "C40_more",
    "C40_gives_up",
    "C40_panics",
    "C40_unwinds",
    "C40_only"
   ],
   "note": "Every number of polls by the executor, also after completion, and an executor that unwinds."
  },
  {
   "property": "C41",
   "status": "proved",
   "theorems": [
    "C41_sound",
    "C41_once",
    "C41_result",
    "C41_panic",
    "C41_delivered",
    "C41_canceled",
    "C41_runs",
    "C41_value",
    "C41_wake",
    "C41_handle"
   ],
   "note": "Every schedule and every behaviour of the executor; an action that panics is reported as cancelled."
  },
  {
   "property": "C42",
   "status": "partial",
   "theorems": [
    "C42_roundtrip",
    "C42_exact_partial",
    "C42_sound",
    "C42_node",
    "C42_wasm",
    "C42_fraction_refuted",
    "C42_range_refuted"
   ],
   "note": "Round trip proved for every integer and platform. Acceptance is exact among integers in the range of 32 bits; refuted otherwise: fractions are truncated, on Node.js integers are taken modulo 2^32, on wasm they saturate, NaN is 0. Two theorems say exactly what is accepted."
  },
  {
   "property": "C43",
   "status": "partial",
   "theorems": [
    "C43_roundtrip",
    "C43_number",
    "C43_bigint_partial",
    "C43_bigint_wasm",
    "C43_bigint_refuted",
    "C43_number_refuted",
    "C43_size",
    "C43_size_sound"
   ],
   "note": "Round trip and choice of representation proved for every integer and platform, usize included. BigInts: exact on Node.js and for i64; refuted for u64 on wasm, where small negative BigInts are read as 0."
  },
  {
   "property": "C44",
   "status": "partial",
   "theorems": [
    "C44_null",
    "C44_null_only",
    "C44_mut_roundtrip",
    "C44_const_roundtrip_partial",
    "C44_exact",
    "C44_only_weakening",
    "C44_mut_to_const",
    "C44_const_to_mut",
    "C44_object",
    "C44_rejected",
    "C44_range",
    "C44_roundtrip_refuted",
    "C44_name_refuted"
   ],
   "note": "Exactly which pointer types and which texts are accepted is proved; never more than added const. Round trip proved but for *const to pointers with a mutable level, which do not survive it (refuted); names that end in const prevent weakening (refuted)."
  },
  {
   "property": "C45",
   "status": "partial",
   "theorems": [
    "C45_lawful",
    "C45_value",
    "C45_once",
    "C45_order",
    "C45_ends",
    "C45_aborts",
    "C45_gone",
    "C45_progress",
    "C45_wait_refuted",
    "C45_own_thread",
    "C45_direct",
    "C45_detached",
    "C45_bound"
   ],
   "note": "Proved for every interleaving: a waiting call ends only by returning the value sent for that call or by a panic (which aborts), and as long as a timeout is set it can end; detached calls never wait and run at most once. Refuted: with the timeout disabled, two JS threads waiting for each other, or a call on a closing queue without debug assertions, wait for ever."
  },
  {
   "property": "C46",
   "status": "proved",
   "theorems": [
    "C46_first",
    "C46_js",
    "C46_js_refuted"
   ],
   "note": "Every sequence of reads and settings. From JavaScript proved for integers in the range of u32; C46_js_refuted shows what other numbers do (NaN and fractions below 1 disable the timeout)."
  },
  {
   "property": "C47",
   "status": "partial",
   "theorems": [
    "C47_f64",
    "C47_f32_partial",
    "C47_f32_exact",
    "C47_nan_refuted"
   ],
   "note": "Proved for everything but NaN, which is rejected on the way back (refuted); infinities, zeros and subnormals included. A number is accepted as f32 exactly when it is one."
  },
  {
   "property": "C48",
   "status": "proved",
   "theorems": [
    "C48_refines",
    "C48_safe",
    "C48_memory",
    "C48_no_leak",
    "C48_convert",
    "C48_round_trip"
   ],
   "note": "Every program built from creation, all conversions (Vec, String, Box<[T]>, Box<str>, Box<T> and their C forms), vector operations, reads, writes, clones, drops, panics and with_rust_mut, over a memory in which a wrong size, a double free or a use after free is undefined behaviour. Elements are numbers; the allocator never fails; capacities the standard library picks are arguments."
  },
  {
   "property": "C49",
   "status": "proved",
   "theorems": [
    "C49_written_back",
    "C49_given",
    "C48_memory"
   ],
   "note": "The closure is any program, nested with_rust_mut included. That nothing is freed twice or leaked is C48_memory, which holds of every state after it."
  },
  {
   "property": "C50",
   "status": "proved",
   "theorems": [
    "C50_null",
    "C50_some",
    "C50_misaligned",
    "C50_slices",
    "C50_views"
   ],
   "note": "The first three are about bytes and hold for slice_raw, slice_ref, slice_mut, slice_boxed and Vec, any pointer size and endianness; misaligned pointers are rejected. The last two are about elements in the memory model."
  },
  {
   "property": "C51",
   "status": "proved",
   "theorems": [
    "C51_shared",
    "C51_count",
    "C12_programs",
    "C13_all_freed"
   ],
   "note": ""
  },
  {
   "property": "C52",
   "status": "proved",
   "theorems": [
    "C52_js"
   ],
   "note": ""
  },
  {
   "property": "C53",
   "status": "partial",
   "theorems": [
    "C53_reads_partial",
    "C53_fn_ptr_refuted",
    "C53_fn_fn_refuted",
    "C53_alias_refuted",
    "C53_unit_refuted",
    "C53_keyword_refuted"
   ],
   "note": "Proved against an independent reader of C declarators for types without pointers to, or functions returning, function pointers; those are refuted."
  },
  {
   "property": "C54",
   "status": "partial",
   "theorems": [
    "C54_csharp_partial",
    "C54_python_refuted",
    "C54_enum_bytes_partial",
    "C54_enum_bytes_refuted"
   ],
   "note": "C#: proved when names do not clash. Python: refuted (aliases; enum size)."
  },
  {
   "property": "C55",
   "status": "proved",
   "theorems": [
    "C55_pinned",
    "C55_unpinned"
   ],
   "note": "All trait shapes."
  },
  {
   "property": "C57",
   "status": "partial",
   "theorems": [
    "C57_partial",
    "C57_high",
    "C57_refuted"
   ],
   "note": "Proved below 2^63; from there on the result is 2^64 less (refuted)."
  },
  {
   "property": "C56",
   "status": "partial",
   "theorems": [
    "C56_total",
    "C56_roundtrip_partial",
    "C56_sound",
    "C56_no_panic",
    "C56_enum",
    "C56_enum_to",
    "C56_invalid",
    "C56_bool",
    "C56_bytes",
    "C56_struct",
    "C56_roundtrip_refuted"
   ],
   "note": "Totality and soundness proved for all types. Round trip proved but for NaN and *const to mutable pointers (both refuted). No panic from JS is proved without overflow checks; with them an empty Buffer for a C string panics (C58)."
  },
  {
   "property": "C58",
   "status": "partial",
   "theorems": [
    "C58_buffer_partial",
    "C58_empty",
    "C58_buffer_refuted",
    "C58_string",
    "C58_read",
    "C58_null",
    "C58_other",
    "C58_bytes",
    "C58_null_bytes"
   ],
   "note": "Proved but for the empty Buffer, which panics when overflow is checked instead of being rejected (refuted)."
  },
  {
   "property": "C59",
   "status": "partial",
   "theorems": [
    "C59_c_integers_partial",
    "C59_c_exact",
    "C59_c_untyped_exact",
    "C59_csharp_exact",
    "C59_c_large_refuted",
    "C59_c_smallest_refuted",
    "C59_c_float_refuted",
    "C59_c_untyped_float_refuted",
    "C59_c_non_finite_refuted",
    "C59_c_char_refuted",
    "C59_c_enum_refuted",
    "C59_c_reference_refuted",
    "C59_csharp_float_refuted",
    "C59_csharp_usize_refuted",
    "C59_csharp_untyped_refuted"
   ],
   "note": "The exact theorems say for which values the headers are right, for every value of the modelled types. Wrong or not compilable: i64::MIN and u64 from 2^63 on in C, infinities and NaN, some f32 in C (rounded through double) and all f32 in C#, c_char, enums (printed with the Rust name of the variant), references (the referent is printed as the address), large usize in C#; untyped constants are missing in C#. Pointers other than null and function pointers are not modelled."
  },
  {
   "property": "C60",
   "status": "partial",
   "theorems": [
    "C60_no_unwinding_partial",
    "C60_calm_partial",
    "C60_exact",
    "C60_call_refuted",
    "C60_free_refuted",
    "C60_virtual_refuted"
   ],
   "note": "Proved for compilers that abort when an extern \"C\" function unwinds (Rust 1.81 and later). False with 1.72.1, which the repository asks for: callbacks, destructors and virtual methods have no guard, and unwind into C exactly when they panic."
  },
  {
   "property": "C61",
   "status": "partial",
   "theorems": [
    "C61_call",
    "C61_no_unwinding_partial",
    "C61_nested_refuted"
   ],
   "note": "True when the thread is not panicking at the call, and with standard libraries in which a second panic aborts at once (the code says it relies on that). False with those that let a second panic be caught inside a destructor: the guard is left out while panicking."
  },
  {
   "property": "C62",
   "status": "proved",
   "theorems": [
    "C62_first",
    "C62_again",
    "C62_csharp",
    "C62_banner",
    "C62_python"
   ],
   "note": "For every body, banner of comments, guard that is an identifier and text after the guard; the preprocessor is a specification of its own (comments, strings, conditionals, definitions; no line splicing, no conditions other than names). That the body is one it can read is a hypothesis; an example has docs in comments and an include."
  },
  {
   "property": "C63",
   "status": "partial",
   "theorems": [
    "C63_guard_ident",
    "C63_namespace_ident",
    "C63_guard_exact",
    "C63_guard_distinct_partial",
    "C63_guard_refuted",
    "C63_namespace_distinct_partial",
    "C63_namespace_refuted",
    "C63_panics",
    "C63_lib_name"
   ],
   "note": "Identifiers and keywords proved. Guards are equal exactly when the names are equal up to case (refuted for names that differ in case only: the second header is skipped). Namespaces differ for names in snake case whose words start with letters; refuted for core_2 and core2."
  },
  {
   "property": "C64",
   "status": "partial",
   "theorems": [
    "C64_returns",
    "C64_call",
    "C64_throws",
    "C64_first",
    "C64_once",
    "C64_extra",
    "C64_missing",
    "C64_undefined",
    "C64_undefined_async",
    "C64_safe_partial",
    "C64_null_refuted"
   ],
   "note": "All but the absence of undefined behaviour is proved in full. When a call is undefined behaviour is said exactly, for plain and for async functions: without debug assertions, when an argument is converted to a value that its Rust type does not have. That is so for null given for a reference (refuted); it is not for parameters that take all values of their C types. Borrows of the arguments are not modelled beyond the addresses in them."
  },
  {
   "property": "C65",
   "status": "partial",
   "theorems": [
    "C65_promise",
    "C65_own",
    "C65_stable",
    "C65_resolved",
    "C65_settles",
    "C65_safe_partial",
    "C65_collect_safe",
    "C65_alive_refuted"
   ],
   "note": "Proved but for the last sentence, which is refuted: on Node.js nothing keeps the Buffers given to an async_worker function from being collected before the worker reads them. It holds for async functions and on wasm, and if no such buffer is collected. Futures are assumed not to panic."
  },
  {
   "property": "C66",
   "status": "partial",
   "theorems": [
    "C66_exact",
    "C66_order",
    "C66_name",
    "C66_twice_refuted",
    "C66_failed_refuted"
   ],
   "note": "Proved for functions of different names when N-API makes all the properties. Two functions of one name (async functions have no symbol the linker could find twice) leave one of them out, and errors of N-API are ignored."
  },
  {
   "property": "C67",
   "status": "partial",
   "theorems": [
    "C67_node_partial",
    "C67_number_wasm",
    "C67_void_wasm",
    "C67_checked",
    "C67_missing_wasm",
    "C67_bytes_wasm",
    "C67_wasm_refuted",
    "C67_pointer_refuted",
    "C67_bytes_refuted"
   ],
   "note": "Proved for Node.js, at any depth. Refuted on wasm, where numbers, booleans, undefined and arrays of bytes are cast unchecked: what each value is read as there is said exactly, so a missing integer or address is zero, and arrays of bytes are read from strings and array-like objects. 64-bit integers and enums are checked on both platforms. Left out on wasm: lengths of array-likes beyond what can be allocated; functions are taken to have no parameter."
  },
  {
   "property": "C68",
   "status": "partial",
   "theorems": [
    "C68_safe",
    "C68_no_panic",
    "C68_life",
    "C68_once",
    "C68_last",
    "C68_kept",
    "C68_queued",
    "C68_freed",
    "C68_failed",
    "C68_failed_balanced",
    "C68_reference",
    "C68_loop",
    "C68_threads_partial",
    "C68_threads_refuted"
   ],
   "note": "All but the last sentence is proved, with the exact log of what N-API is asked; freed memory is used iff someone uses a function they do not own. The last sentence is refuted: a last release (or a setting) on another thread calls napi_delete_reference there; it holds if these are on the thread of the function. Dropping the ThreadsafeFunction of the napi crate is assumed to release it."
  },
  {
   "property": "C69",
   "status": "partial",
   "theorems": [
    "C69_agrees",
    "C69_copies",
    "C69_borrowed",
    "C69_balanced",
    "C69_once",
    "C69_left",
    "C69_throws",
    "C69_nothing",
    "C69_leak_refuted",
    "C69_callback_partial",
    "C69_callback_refuted"
   ],
   "note": "Proved: arguments point to copies of exactly the buffers given, in memory when the function is called; calls that give a value or return an error free each copy once, after the call. Refuted: an argument that makes JavaScript throw (a bool given null, say) or a panic leaves all copies made before; and what a JS callback returns is freed before its caller gets it, so it can be read iff it borrows from no buffer. That exceptions and traps run no destructors of Rust is assumed (wasm32 without exception handling)."
  },
  {
   "property": "C70",
   "status": "partial",
   "theorems": [
    "C70_value",
    "C70_round_trip",
    "C70_detached",
    "C70_accepts",
    "C70_errors",
    "C70_safe_partial",
    "C70_hint",
    "C70_too_many",
    "C70_hint_refuted"
   ],
   "note": "All but the last sentence is proved. The last is false of sequences: visit_seq allocates what the format announces, so it panics exactly when that exceeds isize::MAX and aborts if it exceeds the memory; it holds of formats that announce (and have) no more than fits."
  },
  {
   "property": "C71",
   "status": "partial",
   "theorems": [
    "C71_kind",
    "C71_rejected",
    "C71_panics",
    "C71_never_panics_refuted",
    "C71_js_not_asked",
    "C71_js_partial",
    "C71_js_adds_refuted",
    "C71_names",
    "C71_rename_refuted",
    "C71_trait",
    "C71_once_refuted",
    "C71_visibility",
    "C71_visibility_refuted",
    "C71_compiles_partial",
    "C71_compiles_refuted",
    "C71_fptr"
   ],
   "note": "Exact: what is taken and as what; when the macro panics. False of the code: that it never panics (repr(C, align(8)); braced function newtypes with lifetimes; 256 fields; const parameters with js), that the feature js rejects nothing taken without it, that rename is always used, that each argument is taken at most once (Clone), that visibility matters for function newtypes only, and that what is taken compiles (repr(C) tuple structs, braced function newtypes). Of compiling, only the shape of the item is modelled."
  },
  {
   "property": "C72",
   "status": "partial",
   "theorems": [
    "C72_layout",
    "C72_layout_partial",
    "C72_layout_refuted",
    "C72_where",
    "C72_names_refuted",
    "C72_bounds_partial",
    "C72_bounds_refuted",
    "C72_null"
   ],
   "note": "Proved but for function pointers within the types. Those that bind lifetimes (for) make the layout ill-formed, exactly those (for<static>); those that elide them get a bound about another type. A lifetime the user calls __elided_0 may be bound twice."
  },
  {
   "property": "C73",
   "status": "partial",
   "theorems": [
    "C73_same",
    "C73_lifetimes",
    "C73_aliases_static",
    "C73_aliases",
    "C73_accepted_partial",
    "C73_accepted_refuted",
    "C73_captures",
    "C73_captures_exact",
    "C73_apart",
    "C73_captures_refuted",
    "C73_lent_refuted"
   ],
   "note": "Proved for all types of the model. The glue is shown to compile only for types without for<..> and Fn(..); for<'c> fn(&'c u8) is refused (C73_accepted_refuted). rustc's rules on lifetimes are a small specification of their own; type parameters are left out."
  },
  {
   "property": "C74",
   "status": "partial",
   "theorems": [
    "C74_functions_partial",
    "C74_one_way",
    "C74_memory_partial",
    "C74_left_out",
    "C74_renamed_bool_refuted",
    "C74_renamed_bool_field_refuted",
    "C74_c_int_refuted",
    "C74_words_refuted",
    "C74_enum_refuted",
    "C74_callback_refuted",
    "C74_return_refuted",
    "C74_win32_refuted",
    "C74_refuted"
   ],
   "note": "Exact (iff) for headers without clashing names. False of the code: a renamed bool is passed as a BOOL of 4 bytes, c_int is marshalled as SysInt (refused), arrays of usize and enums repr(usize) are no C#, neither are pointers to structs with callbacks; structs with a bool or a callback cannot be returned; on 32-bit Windows the calling convention is stdcall. .NET is a small specification of its own."
  },
  {
   "property": "C75",
   "status": "partial",
   "theorems": [
    "C75_accepts_partial",
    "C75_rust_call",
    "C75_c_slots",
    "C75_c_call",
    "C75_const_first_refuted",
    "C75_clone_generic_refuted",
    "C75_name_refuted",
    "C75_unsafe_refuted",
    "C75_static_refuted"
   ],
   "note": "Calls and slots are proved for every trait that is accepted; which ones are is characterised exactly. Simple traits that are refused: const parameters before type parameters, generics together with Clone, methods called release_vptr, retain_vptr or _invariant, unsafe traits, traits with a lifetime as supertrait. Types are names (lifetimes are in C73), rustc is a small specification."
  },
  {
   "property": "C76",
   "status": "partial",
   "theorems": [
    "C76_wellformed_partial",
    "C76_tags",
    "C76_generics_refuted",
    "C76_ampersand_refuted",
    "C76_lines_refuted"
   ],
   "note": "Proved, with the exact XML, for documentation of text, code between paired backticks and fences, without < and & and of single lines. Refuted for the rest: nothing is escaped, so `Vec<u8>`, a && b or code over two lines make the comment ill formed (the compiler warns and drops it)."
  },
  {
   "property": "C77",
   "status": "proved",
   "theorems": [
    "C77_send",
    "C77_sync",
    "C77_exact",
    "C77_counterpart",
    "C77_char_raw",
    "C77_clones",
    "C77_borrows",
    "C77_shared"
   ],
   "note": "Auto traits, the explicit impls and the bounds of constructors are modelled; the safe methods are listed per type with what they give. VirtualPtr (C33, C34) and the closures of JavaScript are left out."
  },
  {
   "property": "C78",
   "status": "proved",
   "theorems": [
    "C78_sound",
    "C78_same",
    "C78_variance"
   ],
   "note": "Variances are computed from the fields of the structs as rustc does; the variances of std's types are part of the specification."
  },
  {
   "property": "C79",
   "status": "proved",
   "theorems": [
    "C79_alive",
    "C79_erased",
    "C79_no_longer"
   ],
   "note": "For the safe methods listed in the model; VirtualPtr is left out."
  },
  {
   "property": "C80",
   "status": "partial",
   "theorems": [
    "C80_shim",
    "C80_calls",
    "C80_accepts",
    "C80_param",
    "C80_captured_refuted",
    "C80_types_refuted",
    "C80_js",
    "C80_js_calls",
    "C80_js_accepts",
    "C80_alias_refuted",
    "C80_async",
    "C80_async_binds",
    "C80_async_sub_refuted",
    "C80_async_param",
    "C80_async_names",
    "C80_async_self"
   ],
   "note": "False if the body of the function declares or imports an item of the function's own name: the generated code, which is put into the body, calls that item (C80_captured_refuted), and its types may then differ from those in the header (C80_types_refuted). Proved for all other functions. A parameter named like a type of another (or its own) parameter is accepted for C and rejected for JavaScript (C80_alias_refuted). Of a parameter x @ y of an async function, y is lost (C80_async_sub_refuted)."
  },
  {
   "property": "C81",
   "status": "partial",
   "theorems": [
    "C81_into_stabby",
    "C81_round_trip",
    "C81_clone_taken",
    "C81_upgrade_taken",
    "C81_short_clone_refuted",
    "C81_shrunk_refuted"
   ],
   "note": "Proved but for two sentences of the documentation that are false of the code: the clone or upgrade of a short value is inline and is not converted (it is whenever memory was allocated); a value shrunk at its end only is converted to an ArcSlice, of the shorter length. ArcSlice itself is modelled after its documentation."
  },
  {
   "property": "C82",
   "status": "proved",
   "theorems": [
    "C82_text",
    "C82_file",
    "C82_cffi",
    "C82_erased",
    "C82_types",
    "C82_docs_refuted",
    "C82_doxygen_refuted"
   ],
   "note": "The lexer, the preprocessor and the reader of types are independent of the writer. C82_erased connects the text with the declarations of C22-C25, C53, C54. Checked against the repository: the model's text for the items of ffi_tests is byte for byte the checked-in generated.h, generated.cs and generated.cffi (C82_golden_c, C82_golden_csharp, C82_golden_cffi). The two refuted theorems show that the conditions on documentation and on the names of constants are needed. C# is C83."
  },
  {
   "property": "C83",
   "status": "proved",
   "theorems": [
    "C83_text",
    "C83_file",
    "C83_decls",
    "C83_docs_refuted"
   ],
   "note": "The reader (comments, line terminators, conditional compilation, tokens) is independent of the writer; C83_decls connects the text with the declarations of C74 and so with HeaderModel. The example is the checked-in generated.cs. The refuted theorem shows that documentation in one line each is needed. Whether an identifier is a keyword of C# is not asked."
  },
  {
   "property": "C84",
   "status": "proved",
   "theorems": [
    "C84_file",
    "C84_twice",
    "C84_abi",
    "C84_call",
    "C84_char_refuted",
    "C84_enumerators_refuted",
    "C84_constant_refuted",
    "C84_parameter_refuted"
   ],
   "note": "End to end: from the text of the file through the reader of C82, cutting into declarations, scopes of names, struct bodies, enumerators, prototypes, to resolved types and their layouts. The compiler (CompSpec) is independent of the writer and knows only C; C84_file gives the record delivers of everything there is afterwards. C84_example: the checked-in generated.h of ffi_tests meets all hypotheses and compiles. The refuted theorems show programs that break the conditions on names: Foo::BarBaz beside FooBar::Baz, a constant named like an enumerator, or like a parameter; and a signed char. nf_enums is what derive(ReprC) enforces. C++ sees the same declarations in extern C (C82), but is not compiled here."
  },
  {
   "property": "C85",
   "status": "partial",
   "theorems": [
    "C85_ok",
    "C85_prefix",
    "C85_delivered",
    "C85_clash",
    "C85_name_panics",
    "C85_name_needed",
    "C85_options",
    "C85_any_order",
    "C85_naming",
    "C85_not_for_csharp",
    "C85_file",
    "C85_buffered",
    "C85_buffered_delivered",
    "C85_naming_refuted",
    "C85_buffered_refuted",
    "C85_utf8"
   ],
   "note": "Proved for every writer but for the last sentence, which is false: the naming convention is read and ignored (proved for all; refuted), and generate() does not flush, so with a BufWriter it may return Ok although the end of the text (at most its capacity) is lost when the writer is dropped. The text is that of C82/C83; write! may cut it in any way."
  },
  {
   "property": "C86",
   "status": "partial",
   "theorems": [
    "C86_layout",
    "C86_round_trip",
    "C86_exact_partial",
    "C86_slice",
    "C86_null",
    "C86_upcast",
    "C86_upcast_object",
    "C86_drop",
    "C86_stabbied",
    "C86_slice_refuted",
    "C86_slice_part_refuted"
   ],
   "note": "Proved but for the last sentence, which is false: the checks of BoxedSlice, ArcSlice and WeakSlice (and of the strings) look at the two addresses separately, so a slice that ends before it starts, or in the midst of an element, is accepted. Every real slice of any length is (C86_slice). As C16/C17, for types whose parts are covered there."
  },
  {
   "property": "C87",
   "status": "partial",
   "theorems": [
    "C87_executor",
    "C87_sound",
    "C87_fates",
    "C87_pending",
    "C87_output",
    "C87_panic",
    "C87_dropped",
    "C87_never",
    "C87_wake",
    "C87_completes",
    "C87_dropped_refuted"
   ],
   "note": "Proved but for the last sentence, which is false: for a future dropped with the runtime (JoinError of a cancellation) dyn_spawn calls into_panic, which itself panics, so awaiting panics with tokio's `JoinError` reason is not a panic; the message about the dropped task never appears (C87_never), and the process aborts where panics may not leave extern \"C\" functions. tokio itself is modelled from its documentation."
  },
  {
   "property": "C88",
   "status": "proved",
   "theorems": [
    "C88_eq",
    "C88_partial_cmp",
    "C88_cmp",
    "C88_hash",
    "C88_hash_eq",
    "C88_contents",
    "C88_total",
    "C88_default",
    "C88_clone",
    "C88_clone_panic"
   ],
   "note": "For every memory in which the slices can be read (which by C48 is every reachable one); the impls for [T] of the standard library are modelled by their documentation."
  },
  {
   "property": "C89",
   "status": "proved",
   "theorems": [
    "C89_choice",
    "C89_names",
    "C89_compiles",
    "C89_exports",
    "C89_only_types",
    "C89_asserts",
    "C89_bare",
    "C89_newtypes"
   ],
   "note": "Name resolution (namespaces, explicit over glob, clashes) is modelled for the modules that the macro lays out; what ::libc defines is an arbitrary oracle. The general theorems assume that no replacement is a bare identifier of the list itself (C89_names has no hypothesis)."
  },
  {
   "property": "C90",
   "status": "proved",
   "theorems": [
    "C90_convert",
    "C90_std",
    "C90_once",
    "C90_closures",
    "C90_eq",
    "C90_partial_cmp",
    "C90_cmp",
    "C90_hash",
    "C90_hash_differs",
    "C90_clone"
   ],
   "note": "Programs are sequences of statements on variables that hold options; closures answer or panic as oracles say. Hashing differs from that of Option (C90_hash_differs), which the documentation does not exclude."
  },
  {
   "property": "C91",
   "status": "partial",
   "theorems": [
    "C91_box",
    "C91_raw",
    "C91_by_hand",
    "C91_dealloc",
    "C91_new",
    "C91_put",
    "C91_clone",
    "C91_vec",
    "C91_slice",
    "C91_abort",
    "C91_raw_leaks_refuted"
   ],
   "note": "Exact for all of them. False of NonNullOwned::drop_in_place_and_dealloc: when the destructor panics the memory leaks (C91_raw says exactly when, C91_raw_leaks_refuted is a witness). The destructors of Rust's Box, Vec and slices are taken as documented."
  }
 ]
}