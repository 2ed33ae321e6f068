# Formal model of `safer_ffi`: design

Source: `/repo` (Rust), read as text.  Nothing in `/repo` is built or run.
Proof assistant: Coq 8.16.1 with its standard library and std++ (for lists and tactics).

## Layout of the development

For every area `X` there are several files in `rocq/theories/`:

* `XModel.v`  executable Gallina definitions, each with a comment citing file and lines in `/repo`
  and the simplifications made;
* `XSpec.v`  an independent description of what the user expects; it does not use the functions of
  the model (types of inputs are shared);
* `XProofs.v`, `XRefine.v` and the like: lemmas;
* `XProps.v`  the property theorems, the examples showing that hypotheses are met by concrete,
  non-trivial states, and `Print Assumptions`.

Conventions.  A panic is an explicit result value; undefined behaviour (reading freed memory, freeing
with a wrong size, calling through a null function pointer...) is another explicit result value, so
"memory safe" means "the undefined result is unreachable".  Machine words are `N` or `Z` with explicit
wrap-around where it matters.  Foreign code (C callers, the JS engine, executors, schedulers, the
linker, the allocator) is universally quantified: it is an argument (an oracle, a list of choices) of
the step function, never an assumption.

A property that the code does not satisfy is kept in its full form; the strongest part that holds is
proved as `..._partial` and the failure as `..._refuted : exists ...` with a concrete witness checked
by computation.

## Trusted base

* Coq's kernel (8.16.1), and its virtual machine where examples and witnesses are computed.
* The axioms that `Print Assumptions` lists: none, for every theorem (last section).
* The faithfulness of each model definition to the Rust lines it cites, and of the descriptions of
  languages and environments to them: Rust's layout and borrow rules, C and C# declarations and
  comments, N-API, the standard library.  These are written out in Model and Spec files.

## Mutation tests

`seeded/LOG.jsonl` has one line per wrong program tried: `definition` and `edit` (what was changed in
a scratch copy of the model), `claim` (the property that is then false), `failed` (where the build of
the edited copy stopped: a theorem, or a lemma it depends on, or the unfolding of a definition),
`not_rebuilt` (the property theorems whose proofs depend on what failed: they were not checked again,
this is no observation that they fail), `tightened` (theorems strengthened because the edit had been
accepted).  A `note` says when an edit was accepted because it does not change what can be observed.

## Per property: model, theorems, method

`status` is that of MANIFEST.json.  Names ending in `_partial` prove a part of the property (the note
says what is missing), names ending in `_refuted` prove that the code, as modelled, violates the
property as first stated, with a concrete witness.  Every theorem quantifies over all inputs, states
and executions; bounds occur only where the code has them.

| id | status | theorems | method | note |
|----|--------|----------|--------|------|
| C01 | proved | `BytesProps.v`: `C01_inline_lossless` | a `Bytes` is five machine words; encode/decode lemmas for every word size and endianness | All word sizes from 1 to 25 bytes, both endiannesses. |
| C02 | proved | `BytesProps.v`: `C02_tag_unambiguous`, `C02_reachable` | parity of the tag byte of the encoded words; vtable addresses are arbitrary even non-zero words | Assumes vtable addresses are even and non-null (their alignment). |
| C03 | proved | `BytesProps.v`: `C03_refinement`, `C03_frame` | refinement of the state machine (regions, handles, counts, adversarial allocator) to a map from handles to immutable strings; induction over histories | Every history of API calls refines immutable strings. Excluded by [admissible]: the calls refuted under C05 and C08 (noalloc_upgrade of a borrowed value, out-of-range ends on inlined values, usize::MAX bounds in release builds). |
| C04 | proved | `BytesProps.v`: `C04_no_undefined_behaviour`, `C04_programs`, `C04_alive`, `C04_no_leak`, `C04_all_freed`, `C04_ends` | inductive invariant: counts equal owners, regions disjoint; undefined outcome unreachable | Same exclusions as C03. Counts are unbounded naturals. |
| C05 | partial | `BytesInlineProps.v`, `BytesProps.v`: `C05_upgrade_detaches`, `C05_noalloc_exact`, `C05_noalloc_upgrade_refuted`, `C05_noalloc_upgrade_owned_refuted` | same state machine; witness history for `noalloc_upgrade` | Proved for upgrade(). False for noalloc_upgrade(): its condition is inverted (bytes.rs L349); what it does is said exactly; use-after-free witness. |
| C06 | partial | `BytesInlineProps.v`, `BytesProps.v`: `C06_exact`, `C06_big_endian_exact`, `C06_predicted_happens_partial`, `C06_little_endian_refuted` | exact characterisation of allocation by each constructor | Exactly: an allocation is predicted iff it happens and the value has at least five words. So exact on big-endian targets; on little-endian ones 33..39-byte values allocate although predicted not to (witness). |
| C07 | proved | `BytesProps.v`: `C07_into_arc` | case analysis on reachable states |  |
| C08 | partial | `BytesInlineProps.v`, `BytesProps.v`: `C08_subslicing_partial`, `C08_inline`, `C08_inline_spurious_panic_refuted`, `C08_inline_corruption_refuted`, `C08_inline_undefined_refuted`, `C08_usize_max_refuted` | exact bounds for out-of-line values; witnesses for inlined ones | Proved for out-of-line values. False for inlined values (spurious panics, accepted out-of-range ends, undefined behaviour), for which exactly what happens is proved: ends are compared with the second word of the bytes. False for usize::MAX bounds without overflow checks. |
| C09 | proved | `BytesProps.v`: `C09_observers`, `C09_order` | functions of the contents; laws of the lexicographic order |  |
| C10 | partial | `BytesInlineProps.v`, `BytesProps.v`: `C10_reads_partial`, `C10_zero_is_end`, `C10_out_of_line_reads_succeed`, `C10_inline`, `C10_readable`, `C10_short_values_panic`, `C10_chunked_read_refuted`, `C10_rest_refuted` | induction on the list of buffer sizes | Successful reads return consecutive chunks. Out-of-line values can always be read; inlined ones exactly if the second word of their bytes is at least their length, so never with 1 to 8 bytes, and chunked reads do not reach the end. |
| C11 | partial | `BytesInlineProps.v`, `BytesProps.v`: `C11_split_partial`, `C11_inline`, `C11_short_values_panic`, `C11_split_refuted` | case analysis on the thresholds | Exact for all values: out-of-line ones are split; inlined ones are iff the second word of their bytes is at least their length, and panic otherwise. |
| C12 | proved | `CStrProps.v`: `C12_programs`, `C12_round_trip`, `C12_new` | refinement of programs over strings to plain byte lists; lists up to the first NUL | After any history of operations on strings, C strings, Arc<CStr> and SharedCStr. |
| C13 | proved | `CStrProps.v`: `C13_no_undefined_behaviour`, `C13_live_iff_owned`, `C13_all_freed`, `C13_unique`, `C13_drop` | heap of sized blocks; ownership invariant over histories | Wrong-size frees, double frees and reads after free are the undefined outcome, shown unreachable. C code mutating the characters behind the pointer is outside the model. |
| C14 | proved | `CStrProps.v`: `C14_borrowed`, `C14_from_cstr`, `C14_foreign`, `C14_equality` | equivalence with an independent reading of the literal |  |
| C15 | proved | `CStrProps.v`: `C15_c_macro`, `C15_c_macro_error`, `C15_js_string`, `C15_same_as_borrowed` | same heap, UTF-8 of the JS string | JS strings are taken as the UTF-8 bytes N-API returns. |
| C16 | partial | `LayoutProps.v`: `C16_round_trip_partial`, `C16_nonnull_refuted`, `C16_transparent_refuted`, `C16_unit_refuted` | induction on a universe of types; `rep` describes Rust values by their bytes | Proved for every type of the class good (any nesting). False of misaligned NonNull<T>, of transparent structs that start with a zero-sized field, and of () inside arrays or TaggedOption: refuted with witnesses. |
| C17 | partial | `LayoutProps.v`: `C17_exact_partial`, `C17_nothing_invalid`, `C17_out_refuted` | induction on types: accepted exactly when some Rust value has these bytes | Proved for every type of the class good. False of Out (null accepted): refuted. |
| C18 | proved | `LayoutProps.v`: `C18_niche`, `C18_null` | case analysis on the crate's implementations, induction under transparent wrappers | Every HasNiche type of the crate (references, NonNull family, Out, function pointers, slices, Vec, Bytes, BoxDynFnMut, VirtualPtr, transparent wrappers). |
| C19 | partial | `LayoutProps.v`: `C19_conversions`, `C19_accepts_partial`, `C19_none_payload`, `C19_decodes`, `C19_unit_refuted` | induction on types | Proved for every payload type of the class good; a payload of () panics: refuted. |
| C20 | partial | `LayoutProps.v`: `C20_header_struct_partial`, `C20_printed`, `C20_attributes_refuted` | induction on the field list; Rust and C placement algorithms | Proved for every field list, C and C#, when repr(C) is the only layout attribute. With a second attribute such as repr(align(16)) or repr(packed), which the derive accepts, it is false: refuted. |
| C21 | partial | `EnumProps.v`: `C21_numbering`, `C21_variants_partial`, `C21_integer_repr_partial`, `C21_shadowing_refuted`, `C21_wide_refuted`, `C21_two_attributes_refuted` | induction on the variant list; Rust's rule for discriminants as specification | Proved for every variant list with the integer in the only repr attribute (and for repr(C) enums that fit c_int). False when a variant is called discriminant (everything is accepted), for repr(C) enums wider than c_int and for two repr attributes (panic): refuted. |
| C22 | partial | `HeaderProps.v`: `C22_once`, `C22_order_partial`, `C22_ssize_partial`, `C22_isize_refuted`, `C22_function_refuted`, `C22_modules_refuted` | induction on types and items with the set of names seen | At most once: unconditional. Before use: when names do not clash; isize prints ssize_t which the included headers do not define (refuted); a function named like a type and same-named types of different modules are refuted. |
| C23 | partial | `HeaderProps.v`: `C23_stable_partial`, `C23_same_name_refuted`, `C23_unstable_refuted` | list of items sorted and deduplicated by name | Proved when item names are distinct; refuted for items of one name (the last registered wins). |
| C24 | partial | `HeaderProps.v`: `C24_printed_partial`, `C24_nothing_else`, `C24_same_name_refuted`, `C24_same_function`, `C24_csharp_refuted` | induction on items; declared names and kinds read back | Proved for C and C# when names are distinct and do not clash; with the stable option a same-named item is dropped silently (refuted); C# drops untyped constants (refuted). |
| C25 | partial | `HeaderProps.v`: `C25_distinct_partial`, `C25_short_partial`, `C25_no_clash_partial`, `C25_generic_refuted`, `C25_fn_refuted`, `C25_underscore_refuted`, `C25_const_refuted` | injectivity by induction; witnesses of collisions | Injective on names without underscores with generics over such types, under any pointers and arrays; refuted for pointers as type arguments, function pointers, names with underscores, and structs with const parameters (all instances share a name). |
| C26 | partial | `EnumProps.v`: `C26_values_partial`, `C26_python_partial`, `C26_not_refuted`, `C26_shift_refuted`, `C26_python_refuted`, `C26_backing` | printed enums read back by each target language's rule | C and C#: proved when explicit discriminants are typed or have no shift and no ! at an unsigned type; otherwise refuted. Python prints 0, 1, ... always: proved exactly, refuted as soon as Rust differs. |
| C27 | partial | `EnumProps.v`: `C27_collisions`, `C27_within`, `C27_distinct_partial`, `C27_within_refuted`, `C27_across_refuted` | exact characterisation of collisions of SCREAMING_CASE names | Exact characterisation of the collisions; distinct within an enum when no name has _ before a lower case letter; refuted otherwise and across enums. |
| C28 | partial | `NameProps.v`: `C28_chars`, `C28_ends`, `C28_name_partial`, `C28_opaque_partial`, `C28_tuple_refuted`, `C28_generic_refuted`, `C28_slice_refuted`, `C28_fn_refuted`, `C28_layout_partial` | string processing by induction on length | Identifier characters and termination: all strings. No panic: types whose generic arguments have no comma and slice items no semicolon; refuted for Vec<(u8, u8)>, Option<Result<A, B>>, [[u8; 4]], fn(Vec<u8>). |
| C29 | partial | `ExportProps.v`: `C29_names_partial`, `C29_kept`, `C29_c_partial`, `C29_csharp_partial`, `C29_python_partial`, `C29_macro_refuted`, `C29_raw_refuted`, `C29_keyword_refuted`, `C29_csharp_keyword_refuted`, `C29_unit_refuted` | independent readers of C, C# and cffi prototypes applied to the printed tokens | One parameter per Rust parameter, in order, with distinct names, read back by independent readers of C, C# and cffi prototypes, for every pattern list Rust accepts. Refuted for parameters of which one comes from a macro (hygiene), for r# names, names that are keywords of C or C#, and parameters of unit type. |
| C30 | partial | `DocProps.v`: `C30_comments_partial`, `C30_python`, `C30_c_refuted`, `C30_splice_refuted`, `C30_csharp_refuted` | independent lexers of comments applied to the printed text | Proved against a reader of C (with line splicing) and C# comments for documentation without */ (C) or inner line breaks (C#); refuted otherwise. Python headers never contain documentation. |
| C31 | proved | `ExportProps.v`: `C31_no_unwinding`, `C31_call`, `C31_invalid`, `C31_adequate` | small-step shim with unwinding against a relational specification without guard; induction on programs | Programs with nested calls in both directions, catch_unwind, destructors and effects; both the toolchains in which an extern "C" function may unwind and those in which it aborts. The interpreter of the shim, step by step, is equivalent to a relational specification without any guard. In release builds an invalid argument is undefined behaviour (from_raw_unchecked), not a panic. |
| C32 | partial | `ExportProps.v`: `C32_sync`, `C32_js_partial`, `C32_async_partial`, `C32_async_js_partial`, `C32_async_refuted`, `C32_blank_refuted`, `C32_js_feature_refuted` | macro expansion as data; all attribute lists | Holds for functions that are not async, for every attribute list. Refuted for async functions: the attribute of the expanded function has no rename. With the feature js an async function without js is not exported at all. Blanks in the literal are kept in the symbol and dropped in JS. |
| C33 | partial | `DynProps.v`: `C33_threads_partial`, `C33_written_partial`, `C33_exact`, `C33_rc_refuted`, `C33_ref_refuted` | Rust's automatic trait rules as specification; case analysis over shapes | Proved when Send/Sync are written in the type of the object, and for every trait without automatic supertraits. Exact description of what goes wrong otherwise. Refuted for traits with Send or Sync as supertrait: Rc<T> (StaticDropGlue of the crate itself) and &T with T not Sync. |
| C34 | proved | `DynProps.v`, `OwnProps.v`: `C34_exclusive`, `C34_clone`, `C34_receivers`, `C34_shared`, `C34_clone_sound`, `C34_box`, `C34_dynamic` | every trait shape, receiver and pointer kind | Every trait shape, flavour and pointer kind, including pinned receivers. |
| C35 | proved | `OwnProps.v`: `C35_exact`, `C35_life`, `C35_owners`, `C35_held`, `C35_drop` | simulation between the model with counts and a specification with handles only; induction over operations | Every program, as a list of operations, that Rust's borrow and type checkers accept (they are specified, with leaking left out), with calls that overlap; the log of the model with its counts and virtual tables is that of a specification that only knows handles. |
| C36 | proved | `OwnProps.v`: `C36_arc`, `C35_exact`, `C35_life` | same simulation | Same histories; a closure from C without retain panics when cloned. |
| C37 | proved | `OwnProps.v`: `C37_boxed`, `C37_borrowed`, `C37_null`, `C35_exact`, `C35_life` | same simulation | Same histories; null function pointers panic. |
| C38 | proved | `FutProps.v`: `C38_poll`, `C38_over`, `C38_drop`, `C38_polls`, `C38_bytes`, `C38_invalid_refuted` | futures as functions from polls to outcomes; induction on polls | Every behaviour of the underlying future (pending, ready, panicking, aborting) and every number of polls, in Rust with and without aborting at extern "C" unwinding. A result byte of a foreign implementation that is neither 0 nor -1 is undefined behaviour (the refuted theorem). |
| C39 | partial | `FutProps.v`: `C39_sound`, `C39_once`, `C39_output`, `C39_panic_partial`, `C39_panic_refuted`, `C39_delivered`, `C39_value`, `C39_wake`, `C39_handle`, `C39_ub`, `C39_abort` | executors as adversarial lists of moves; invariant of the channel | Every schedule and every behaviour of the executor and of its task handle. Missing: the join future also panics, blaming the executor, when the future itself panicked (refuted) and when the handle of the executor panics. |
| C40 | proved | `FutMore.v`, `FutProps.v`: `C40_returns`, `C40_more`, `C40_gives_up`, `C40_panics`, `C40_unwinds`, `C40_only` | induction on the polls of the executor | Every number of polls by the executor, also after completion, and an executor that unwinds. |
| C41 | proved | `FutProps.v`: `C41_sound`, `C41_once`, `C41_result`, `C41_panic`, `C41_delivered`, `C41_canceled`, `C41_runs`, `C41_value`, `C41_wake`, `C41_handle` | invariant over schedules | Every schedule and every behaviour of the executor; an action that panics is reported as cancelled. |
| C42 | partial | `JsNumProps.v`: `C42_roundtrip`, `C42_exact_partial`, `C42_sound`, `C42_node`, `C42_wasm`, `C42_fraction_refuted`, `C42_range_refuted` | arithmetic on ECMAScript's and Rust's conversions | Round trip proved for every integer and platform. Acceptance is exact among integers in the range of 32 bits; refuted otherwise: fractions are truncated, on Node.js integers are taken modulo 2^32, on wasm they saturate, NaN is 0. Two theorems say exactly what is accepted. |
| C43 | partial | `JsNumProps.v`: `C43_roundtrip`, `C43_number`, `C43_bigint_partial`, `C43_bigint_wasm`, `C43_bigint_refuted`, `C43_number_refuted`, `C43_size`, `C43_size_sound` | arithmetic, BigInt words | Round trip and choice of representation proved for every integer and platform, usize included. BigInts: exact on Node.js and for i64; refuted for u64 on wasm, where small negative BigInts are read as 0. |
| C44 | partial | `NapiProps.v`: `C44_null`, `C44_null_only`, `C44_mut_roundtrip`, `C44_const_roundtrip_partial`, `C44_exact`, `C44_only_weakening`, `C44_mut_to_const`, `C44_const_to_mut`, `C44_object`, `C44_rejected`, `C44_range`, `C44_roundtrip_refuted`, `C44_name_refuted` | exact set of accepted type texts; induction on pointer types | Exactly which pointer types and which texts are accepted is proved; never more than added const. Round trip proved but for *const to pointers with a mutable level, which do not survive it (refuted); names that end in const prevent weakening (refuted). |
| C45 | partial | `JsCallProps.v`: `C45_lawful`, `C45_value`, `C45_once`, `C45_order`, `C45_ends`, `C45_aborts`, `C45_gone`, `C45_progress`, `C45_wait_refuted`, `C45_own_thread`, `C45_direct`, `C45_detached`, `C45_bound` | invariant over interleavings of threads and event loops | Proved for every interleaving: a waiting call ends only by returning the value sent for that call or by a panic (which aborts), and as long as a timeout is set it can end; detached calls never wait and run at most once. Refuted: with the timeout disabled, two JS threads waiting for each other, or a call on a closing queue without debug assertions, wait for ever. |
| C46 | proved | `JsCallProps.v`: `C46_first`, `C46_js`, `C46_js_refuted` | induction over the sequence of calls | Every sequence of reads and settings. From JavaScript proved for integers in the range of u32; C46_js_refuted shows what other numbers do (NaN and fractions below 1 disable the timeout). |
| C47 | partial | `JsNumProps.v`: `C47_f64`, `C47_f32_partial`, `C47_f32_exact`, `C47_nan_refuted` | binary floating point by Coq's `SpecFloat` | Proved for everything but NaN, which is rejected on the way back (refuted); infinities, zeros and subnormals included. A number is accepted as f32 exactly when it is one. |
| C48 | proved | `VecProps.v`: `C48_refines`, `C48_safe`, `C48_memory`, `C48_no_leak`, `C48_convert`, `C48_round_trip` | separation-style refinement: variables own disjoint blocks; programs against plain lists; induction on programs | Every program built from creation, all conversions (Vec, String, Box<[T]>, Box<str>, Box<T> and their C forms), vector operations, reads, writes, clones, drops, panics and with_rust_mut, over a memory in which a wrong size, a double free or a use after free is undefined behaviour. Elements are numbers; the allocator never fails; capacities the standard library picks are arguments. |
| C49 | proved | `VecProps.v`: `C49_written_back`, `C49_given`, `C48_memory` | same refinement; closures are programs | The closure is any program, nested with_rust_mut included. That nothing is freed twice or leaked is C48_memory, which holds of every state after it. |
| C50 | proved | `SliceProps.v`, `VecProps.v`: `C50_null`, `C50_some`, `C50_misaligned`, `C50_slices`, `C50_views` | bytes: universe of types of C16; elements: the refinement of C48 | The first three are about bytes and hold for slice_raw, slice_ref, slice_mut, slice_boxed and Vec, any pointer size and endianness; misaligned pointers are rejected. The last two are about elements in the memory model. |
| C51 | proved | `CStrProps.v`: `C51_shared`, `C51_count`, `C12_programs`, `C13_all_freed` | reference counts equal handles, over histories |  |
| C52 | proved | `EnumProps.v`: `C52_js` | arithmetic on the JS form of enums |  |
| C53 | partial | `HeaderProps.v`: `C53_reads_partial`, `C53_fn_ptr_refuted`, `C53_fn_fn_refuted`, `C53_alias_refuted`, `C53_unit_refuted`, `C53_keyword_refuted` | independent reader of C declarators | Proved against an independent reader of C declarators for types without pointers to, or functions returning, function pointers; those are refuted. |
| C54 | partial | `HeaderProps.v`: `C54_csharp_partial`, `C54_python_refuted`, `C54_enum_bytes_partial`, `C54_enum_bytes_refuted` | induction on types, C# and Python | C#: proved when names do not clash. Python: refuted (aliases; enum size). |
| C55 | proved | `DynProps.v`: `C55_pinned`, `C55_unpinned` | rows of the generated table against the trait's methods | All trait shapes. |
| C56 | partial | `NapiProps.v`: `C56_total`, `C56_roundtrip_partial`, `C56_sound`, `C56_no_panic`, `C56_enum`, `C56_enum_to`, `C56_invalid`, `C56_bool`, `C56_bytes`, `C56_struct`, `C56_roundtrip_refuted` | induction on types, Rust to JS and back | Totality and soundness proved for all types. Round trip proved but for NaN and *const to mutable pointers (both refuted). No panic from JS is proved without overflow checks; with them an empty Buffer for a C string panics (C58). |
| C57 | partial | `JsNumProps.v`: `C57_partial`, `C57_high`, `C57_refuted` | arithmetic | Proved below 2^63; from there on the result is 2^64 less (refuted). |
| C58 | partial | `NapiProps.v`: `C58_buffer_partial`, `C58_empty`, `C58_buffer_refuted`, `C58_string`, `C58_read`, `C58_null`, `C58_other`, `C58_bytes`, `C58_null_bytes` | case analysis on arguments | Proved but for the empty Buffer, which panics when overflow is checked instead of being rejected (refuted). |
| C59 | partial | `ConstProps.v`: `C59_c_integers_partial`, `C59_c_exact`, `C59_c_untyped_exact`, `C59_csharp_exact`, `C59_c_large_refuted`, `C59_c_smallest_refuted`, `C59_c_float_refuted`, `C59_c_untyped_float_refuted`, `C59_c_non_finite_refuted`, `C59_c_char_refuted`, `C59_c_enum_refuted`, `C59_c_reference_refuted`, `C59_csharp_float_refuted`, `C59_csharp_usize_refuted`, `C59_csharp_untyped_refuted` | texts of Rust's Debug against a lexer, typing rules and values of C17 and of C#; exact characterisation | The exact theorems say for which values the headers are right, for every value of the modelled types. Wrong or not compilable: i64::MIN and u64 from 2^63 on in C, infinities and NaN, some f32 in C (rounded through double) and all f32 in C#, c_char, enums (printed with the Rust name of the variant), references (the referent is printed as the address), large usize in C#; untyped constants are missing in C#. Pointers other than null and function pointers are not modelled. |
| C60 | partial | `ExportProps.v`: `C60_no_unwinding_partial`, `C60_calm_partial`, `C60_exact`, `C60_call_refuted`, `C60_free_refuted`, `C60_virtual_refuted` | the model of C31 with closures, destructors and virtual methods, which have no guard; induction on executions | Proved for compilers that abort when an extern "C" function unwinds (Rust 1.81 and later). False with 1.72.1, which the repository asks for: callbacks, destructors and virtual methods have no guard, and unwind into C exactly when they panic. |
| C61 | partial | `ExportProps.v`: `C61_call`, `C61_no_unwinding_partial`, `C61_nested_refuted` | the same model, with the state of the thread (panicking or not) and both behaviours of a second panic; induction on executions | True when the thread is not panicking at the call, and with standard libraries in which a second panic aborts at once (the code says it relies on that). False with those that let a second panic be caught inside a destructor: the guard is left out while panicking. |
| C62 | proved | `FrameProps.v`: `C62_first`, `C62_again`, `C62_csharp`, `C62_banner`, `C62_python` | independent preprocessor (comments, lines, conditionals) applied to the printed file; its composition over lines | For every body, banner of comments, guard that is an identifier and text after the guard; the preprocessor is a specification of its own (comments, strings, conditionals, definitions; no line splicing, no conditions other than names). That the body is one it can read is a hypothesis; an example has docs in comments and an include. |
| C63 | partial | `FrameProps.v`: `C63_guard_ident`, `C63_namespace_ident`, `C63_guard_exact`, `C63_guard_distinct_partial`, `C63_guard_refuted`, `C63_namespace_distinct_partial`, `C63_namespace_refuted`, `C63_panics`, `C63_lib_name` | induction on names; characters by cases | Identifiers and keywords proved. Guards are equal exactly when the names are equal up to case (refuted for names that differ in case only: the second header is skipped). Namespaces differ for names in snake case whose words start with letters; refuted for core_2 and core2. |
| C64 | partial | `JsFnProps.v`: `C64_returns`, `C64_call`, `C64_throws`, `C64_first`, `C64_once`, `C64_extra`, `C64_missing`, `C64_undefined`, `C64_undefined_async`, `C64_safe_partial`, `C64_null_refuted` | case analysis of one call; induction on parameters; witness for null references | All but the absence of undefined behaviour is proved in full. When a call is undefined behaviour is said exactly, for plain and for async functions: without debug assertions, when an argument is converted to a value that its Rust type does not have. That is so for null given for a reference (refuted); it is not for parameters that take all values of their C types. Borrows of the arguments are not modelled beyond the addresses in them. |
| C65 | partial | `JsFnProps.v`: `C65_promise`, `C65_own`, `C65_stable`, `C65_resolved`, `C65_settles`, `C65_safe_partial`, `C65_collect_safe`, `C65_alive_refuted` | invariant over histories of calls, workers, settlements and collections; witness for collected buffers | Proved but for the last sentence, which is refuted: on Node.js nothing keeps the Buffers given to an async_worker function from being collected before the worker reads them. It holds for async functions and on wasm, and if no such buffer is collected. Futures are assumed not to panic. |
| C66 | partial | `JsFnProps.v`: `C66_exact`, `C66_order`, `C66_name`, `C66_twice_refuted`, `C66_failed_refuted` | induction on the entries registered; witnesses | Proved for functions of different names when N-API makes all the properties. Two functions of one name (async functions have no symbol the linker could find twice) leave one of them out, and errors of N-API are ignored. |
| C67 | partial | `NapiKindProps.v`: `C67_node_partial`, `C67_number_wasm`, `C67_void_wasm`, `C67_checked`, `C67_missing_wasm`, `C67_bytes_wasm`, `C67_wasm_refuted`, `C67_pointer_refuted`, `C67_bytes_refuted` | induction on types; exact relation to the conversions of JavaScript; witnesses on wasm | Proved for Node.js, at any depth. Refuted on wasm, where numbers, booleans, undefined and arrays of bytes are cast unchecked: what each value is read as there is said exactly, so a missing integer or address is zero, and arrays of bytes are read from strings and array-like objects. 64-bit integers and enums are checked on both platforms. Left out on wasm: lengths of array-likes beyond what can be allocated; functions are taken to have no parameter. |
| C68 | partial | `JsLifeProps.v`: `C68_safe`, `C68_no_panic`, `C68_life`, `C68_once`, `C68_last`, `C68_kept`, `C68_queued`, `C68_freed`, `C68_failed`, `C68_failed_balanced`, `C68_reference`, `C68_loop`, `C68_threads_partial`, `C68_threads_refuted` | invariant of all histories relating counts, owners and the log of N-API; witness on another thread | All but the last sentence is proved, with the exact log of what N-API is asked; freed memory is used iff someone uses a function they do not own. The last sentence is refuted: a last release (or a setting) on another thread calls napi_delete_reference there; it holds if these are on the thread of the function. Dropping the ThreadsafeFunction of the napi crate is assumed to release it. |
| C69 | partial | `WasmMemProps.v`: `C69_agrees`, `C69_copies`, `C69_borrowed`, `C69_balanced`, `C69_once`, `C69_left`, `C69_throws`, `C69_nothing`, `C69_leak_refuted`, `C69_callback_partial`, `C69_callback_refuted` | induction on types and parameters; log of allocations and frees; witnesses | Proved: arguments point to copies of exactly the buffers given, in memory when the function is called; calls that give a value or return an error free each copy once, after the call. Refuted: an argument that makes JavaScript throw (a bool given null, say) or a panic leaves all copies made before; and what a JS callback returns is freed before its caller gets it, so it can be read iff it borrows from no buffer. That exceptions and traps run no destructors of Rust is assumed (wasm32 without exception handling). |
| C70 | partial | `SerdeProps.v`: `C70_value`, `C70_round_trip`, `C70_detached`, `C70_accepts`, `C70_errors`, `C70_safe_partial`, `C70_hint`, `C70_too_many`, `C70_hint_refuted` | composition of steps of the Bytes machine (C03, C05); induction on the sequence; witnesses | All but the last sentence is proved. The last is false of sequences: visit_seq allocates what the format announces, so it panics exactly when that exceeds isize::MAX and aborts if it exceeds the memory; it holds of formats that announce (and have) no more than fits. |
| C71 | partial | `DeriveProps.v`: `C71_kind`, `C71_rejected`, `C71_panics`, `C71_never_panics_refuted`, `C71_js_not_asked`, `C71_js_partial`, `C71_js_adds_refuted`, `C71_names`, `C71_rename_refuted`, `C71_trait`, `C71_once_refuted`, `C71_visibility`, `C71_visibility_refuted`, `C71_compiles_partial`, `C71_compiles_refuted`, `C71_fptr` | case analysis of the dispatch; permutation lemma for swap_remove; induction on argument lists; witnesses | Exact: what is taken and as what; when the macro panics. False of the code: that it never panics (repr(C, align(8)); braced function newtypes with lifetimes; 256 fields; const parameters with js), that the feature js rejects nothing taken without it, that rename is always used, that each argument is taken at most once (Clone), that visibility matters for function newtypes only, and that what is taken compiles (repr(C) tuple structs, braced function newtypes). Of compiling, only the shape of the item is modelled. |
| C72 | partial | `FptrProps.v`: `C72_layout`, `C72_layout_partial`, `C72_layout_refuted`, `C72_where`, `C72_names_refuted`, `C72_bounds_partial`, `C72_bounds_refuted`, `C72_null` | nested induction on types, with an invariant on the counter of names; substitution lemma both ways; witnesses | Proved but for function pointers within the types. Those that bind lifetimes (for) make the layout ill-formed, exactly those (for<static>); those that elide them get a bound about another type. A lifetime the user calls __elided_0 may be bound twice. |
| C73 | partial | `RemapProps.v`: `C73_same`, `C73_lifetimes`, `C73_aliases_static`, `C73_aliases`, `C73_accepted_partial`, `C73_accepted_refuted`, `C73_captures`, `C73_captures_exact`, `C73_apart`, `C73_captures_refuted`, `C73_lent_refuted` | nested induction on types: the rewritten type is well-formed iff the original is portable, and static iff all its lifetimes are; distinct names by injectivity of printing; witnesses | Proved for all types of the model. The glue is shown to compile only for types without for<..> and Fn(..); for<'c> fn(&'c u8) is refused (C73_accepted_refuted). rustc's rules on lifetimes are a small specification of their own; type parameters are left out. |
| C74 | partial | `CsProps.v`: `C74_functions_partial`, `C74_one_way`, `C74_memory_partial`, `C74_left_out`, `C74_renamed_bool_refuted`, `C74_renamed_bool_field_refuted`, `C74_c_int_refuted`, `C74_words_refuted`, `C74_enum_refuted`, `C74_callback_refuted`, `C74_return_refuted`, `C74_win32_refuted`, `C74_refuted` | induction on types for what C# makes of each declaration, given a file in which every name is declared once; that generated files are such by the invariants of C22/C54; layouts by the lemmas on offsets; determinism of the reading by mutual induction; witnesses | Exact (iff) for headers without clashing names. False of the code: a renamed bool is passed as a BOOL of 4 bytes, c_int is marshalled as SysInt (refused), arrays of usize and enums repr(usize) are no C#, neither are pointers to structs with callbacks; structs with a bool or a callback cannot be returned; on 32-bit Windows the calling convention is stdcall. .NET is a small specification of its own. |
| C75 | partial | `VtProps.v`: `C75_accepts_partial`, `C75_rust_call`, `C75_c_slots`, `C75_c_call`, `C75_const_first_refuted`, `C75_clone_generic_refuted`, `C75_name_refuted`, `C75_unsafe_refuted`, `C75_static_refuted` | the expansion is data and a small interpreter of Rust runs it: acceptance by case analysis of every check as an equivalence with the specification; calls by lookup lemmas on the table made for a value; slots by induction on the methods; witnesses | Calls and slots are proved for every trait that is accepted; which ones are is characterised exactly. Simple traits that are refused: const parameters before type parameters, generics together with Clone, methods called release_vptr, retain_vptr or _invariant, unsafe traits, traits with a lifetime as supertrait. Types are names (lifetimes are in C73), rustc is a small specification. |
| C76 | partial | `DocXmlProps.v`: `C76_wellformed_partial`, `C76_tags`, `C76_generics_refuted`, `C76_ampersand_refuted`, `C76_lines_refuted` | an independent XML reader is run on the printed text: lemmas that carry it over text, tags and lines; strong induction for the backticks; witnesses | Proved, with the exact XML, for documentation of text, code between paired backticks and fences, without < and & and of single lines. Refuted for the rest: nothing is escaped, so `Vec<u8>`, a && b or code over two lines make the comment ill formed (the compiler warns and drops it). |
| C77 | proved | `MarkProps.v`: `C77_send`, `C77_sync`, `C77_exact`, `C77_counterpart`, `C77_char_raw`, `C77_clones`, `C77_borrows`, `C77_shared` | an invariant kept by every operation (what is held may be held); the converse by induction on types, with a path to what must not be reached | Auto traits, the explicit impls and the bounds of constructors are modelled; the safe methods are listed per type with what they give. VirtualPtr (C33, C34) and the closures of JavaScript are left out. |
| C78 | proved | `MarkProps.v`: `C78_sound`, `C78_same`, `C78_variance` | a relation of the type a value was made at and the type it is used at, kept by every operation and call, the direction flipped for arguments | Variances are computed from the fields of the structs as rustc does; the variances of std's types are part of the specification. |
| C79 | proved | `MarkProps.v`: `C79_alive`, `C79_erased`, `C79_no_longer` | an invariant kept by every operation: visible lifetimes last | For the safe methods listed in the model; VirtualPtr is left out. |
| C80 | partial | `ScopeProps.v`: `C80_shim`, `C80_calls`, `C80_accepts`, `C80_param`, `C80_captured_refuted`, `C80_types_refuted`, `C80_js`, `C80_js_calls`, `C80_js_accepts`, `C80_alias_refuted`, `C80_async`, `C80_async_binds`, `C80_async_sub_refuted`, `C80_async_param`, `C80_async_names`, `C80_async_self` | name resolution (ribs, boundaries of functions, contexts of identifiers) is a function; lemmas on what every name of the generated code finds, by induction on the parameters; inversion of acceptance; witnesses of capture | False if the body of the function declares or imports an item of the function's own name: the generated code, which is put into the body, calls that item (C80_captured_refuted), and its types may then differ from those in the header (C80_types_refuted). Proved for all other functions. A parameter named like a type of another (or its own) parameter is accepted for C and rejected for JavaScript (C80_alias_refuted). Of a parameter x @ y of an async function, y is lost (C80_async_sub_refuted). |
| C81 | partial | `BytesStabProps.v`: `C81_into_stabby`, `C81_round_trip`, `C81_clone_taken`, `C81_upgrade_taken`, `C81_short_clone_refuted`, `C81_shrunk_refuted` | the invariant of C03/C04 extended with ArcSlice regions and the end pointer kept as capacity; acceptance read off the invariant; witnesses with stabby on and off | Proved but for two sentences of the documentation that are false of the code: the clone or upgrade of a short value is inline and is not converted (it is whenever memory was allocated); a value shrunk at its end only is converted to an ArcSlice, of the shorter length. ArcSlice itself is modelled after its documentation. |
| C82 | proved | `TextProps.v`: `C82_text`, `C82_file`, `C82_cffi`, `C82_erased`, `C82_types`, `C82_docs_refuted`, `C82_doxygen_refuted` | the reader runs over the text piece by piece: every printed piece leaves the lexer where it found it, at the top of a line or between tokens, by induction on types; documentation by C30; golden files by computation | The lexer, the preprocessor and the reader of types are independent of the writer. C82_erased connects the text with the declarations of C22-C25, C53, C54. Checked against the repository: the model's text for the items of ffi_tests is byte for byte the checked-in generated.h, generated.cs and generated.cffi (C82_golden_c, C82_golden_csharp, C82_golden_cffi). The two refuted theorems show that the conditions on documentation and on the names of constants are needed. C# is C83. |
| C83 | proved | `TextCsProps.v`: `C83_text`, `C83_file`, `C83_decls`, `C83_docs_refuted` | as C82: every printed piece is code with comments that leaves the reader between tokens, lines inside a conditional by its stack; golden file by computation | The reader (comments, line terminators, conditional compilation, tokens) is independent of the writer; C83_decls connects the text with the declarations of C74 and so with HeaderModel. The example is the checked-in generated.cs. The refuted theorem shows that documentation in one line each is needed. Whether an identifier is a keyword of C# is not asked. |
| C84 | proved | `CompProps.v`: `C84_file`, `C84_twice`, `C84_abi`, `C84_call`, `C84_char_refuted`, `C84_enumerators_refuted`, `C84_constant_refuted`, `C84_parameter_refuted` | an independent reader of C translation units (scopes, declarations before use, completeness of types, layouts) is run over the printed file: every declaration is read in the environment the ones before it have made, by induction on the run of the definer (C22) and on types; the checks on names and enumerators are boolean; golden file by computation; witnesses | End to end: from the text of the file through the reader of C82, cutting into declarations, scopes of names, struct bodies, enumerators, prototypes, to resolved types and their layouts. The compiler (CompSpec) is independent of the writer and knows only C; C84_file gives the record delivers of everything there is afterwards. C84_example: the checked-in generated.h of ffi_tests meets all hypotheses and compiles. The refuted theorems show programs that break the conditions on names: Foo::BarBaz beside FooBar::Baz, a constant named like an enumerator, or like a parameter; and a signed char. nf_enums is what derive(ReprC) enforces. C++ sees the same declarations in extern C (C82), but is not compiled here. |
| C85 | partial | `BuildProps.v`: `C85_ok`, `C85_prefix`, `C85_delivered`, `C85_clash`, `C85_name_panics`, `C85_name_needed`, `C85_options`, `C85_any_order`, `C85_naming`, `C85_not_for_csharp`, `C85_file`, `C85_buffered`, `C85_buffered_delivered`, `C85_naming_refuted`, `C85_buffered_refuted`, `C85_utf8` | the traversal is run once more, writing as it goes: a simulation of the pure one (C22, C82) for every writer; the writer of std (write_all, BufWriter) by induction on its answers; witnesses | Proved for every writer but for the last sentence, which is false: the naming convention is read and ignored (proved for all; refuted), and generate() does not flush, so with a BufWriter it may return Ok although the end of the text (at most its capacity) is lost when the writer is dropped. The text is that of C82/C83; write! may cut it in any way. |
| C86 | partial | `StabProps.v`: `C86_layout`, `C86_round_trip`, `C86_exact_partial`, `C86_slice`, `C86_null`, `C86_upcast`, `C86_upcast_object`, `C86_drop`, `C86_stabbied`, `C86_slice_refuted`, `C86_slice_part_refuted` | layouts and validity as in C16, C17 by induction on the types; tables by induction on the list of traits; witnesses for slices | Proved but for the last sentence, which is false: the checks of BoxedSlice, ArcSlice and WeakSlice (and of the strings) look at the two addresses separately, so a slice that ends before it starts, or in the midst of an element, is accepted. Every real slice of any length is (C86_slice). As C16/C17, for types whose parts are covered there. |
| C87 | partial | `TokioProps.v`: `C87_executor`, `C87_sound`, `C87_fates`, `C87_pending`, `C87_output`, `C87_panic`, `C87_dropped`, `C87_never`, `C87_wake`, `C87_completes`, `C87_dropped_refuted` | every step of the runtime is simulated by steps of an executor of C39/C41, with the answers of the handle put together afterwards; an invariant relates the stage of the task, the state of the join future and the log; witness | Proved but for the last sentence, which is false: for a future dropped with the runtime (JoinError of a cancellation) dyn_spawn calls into_panic, which itself panics, so awaiting panics with tokio's `JoinError` reason is not a panic; the message about the dropped task never appears (C87_never), and the process aborts where panics may not leave extern "C" functions. tokio itself is modelled from its documentation. |
| C88 | proved | `CmpProps.v`: `C88_eq`, `C88_partial_cmp`, `C88_cmp`, `C88_hash`, `C88_hash_eq`, `C88_contents`, `C88_total`, `C88_default`, `C88_clone`, `C88_clone_panic` | induction on the contents; the lexicographic order is characterised by relations (equal beginnings, then a difference) that determine their result; memory of clones followed step by step | For every memory in which the slices can be read (which by C48 is every reachable one); the impls for [T] of the standard library are modelled by their documentation. |
| C89 | proved | `LibcProps.v`: `C89_choice`, `C89_names`, `C89_compiles`, `C89_exports`, `C89_only_types`, `C89_asserts`, `C89_bare`, `C89_newtypes` | name resolution is computed module by module for an arbitrary list: lookups by induction on items without duplicates; the converse by inspecting which lookup fails | Name resolution (namespaces, explicit over glob, clashes) is modelled for the modules that the macro lays out; what ::libc defines is an arbitrary oracle. The general theorems assume that no replacement is a bare identifier of the list itself (C89_names has no hypothesis). |
| C90 | proved | `OptProps.v`: `C90_convert`, `C90_std`, `C90_once`, `C90_closures`, `C90_eq`, `C90_partial_cmp`, `C90_cmp`, `C90_hash`, `C90_hash_differs`, `C90_clone` | simulation of the run with Option, statement by statement; counts of events by induction on the run; cases for the derives | Programs are sequences of statements on variables that hold options; closures answer or panic as oracles say. Hashing differs from that of Option (C90_hash_differs), which the documentation does not exclude. |
| C91 | partial | `DtorProps.v`: `C91_box`, `C91_raw`, `C91_by_hand`, `C91_dealloc`, `C91_new`, `C91_put`, `C91_clone`, `C91_vec`, `C91_slice`, `C91_abort`, `C91_raw_leaks_refuted` | destructors in order by induction on the values; what is owned determines every block after the drop; witness | Exact for all of them. False of NonNullOwned::drop_in_place_and_dealloc: when the destructor panics the memory leaks (C91_raw says exactly when, C91_raw_leaks_refuted is a witness). The destructors of Rust's Box, Vec and slices are taken as documented. |

## What is modelled, file by file (`/repo/src` unless said otherwise)

| file | modelled in | left out |
|------|-------------|----------|
| `bytes.rs` | `Bytes*`, `Serde*` (serde) | one instantiation of `From<Arc<T>>`, none of `From<stabby::sync::Arc<T>>`; stabby's `ArcSlice` is taken as documented; overflow of counts |
| `char_p.rs`, `shared_cstr.rs`, `proc_macro/c_str.rs` | `CStr*` | weak pointers; failure of allocation; formatting traits |
| `layout/_mod.rs` (from_raw, into_raw), `layout/niche.rs`, `layout/impls.rs` (ReprC) | `Layout*` | aligned pointees are not read |
| `proc_macro/derives/repr_c/struct_.rs`, `c_type/struct_.rs` | `Layout*` (layout, validity), `Header*` (declarations) | generics of the derives; js parts are in `Napi*` |
| `proc_macro/derives/repr_c/enum_.rs` | `Enum*` | attributes other than `repr` |
| `headers/definer.rs`, `headers/_mod.rs`, `headers/templates/*`, `headers/languages/*.rs` | `Header*`, `Doc*` (comments, XML of C#), `Enum*`, `Export*`, `Const*` (emit_constant), `Frame*` (banner, guard, namespace), `Text*`, `TextCs*` (the whole text, character by character), `Cs*` (C# attributes, marshalers, sizes), `Comp*` (what a C compiler makes of the file), `Build*` (builder, writers, errors) | pretty printing, warnings |
| `_lib.rs` (append_unqualified_name, UnwindGuard) | `Name*`, `Export*` | re-exports |
| `proc_macro/ffi_export/*` | `Export*` (functions), `Const*` (constants), `Header*` (types), `JsFn*` (calls from JavaScript, async), `Scope*` (what the names in the generated code refer to) | `static_.rs` (unsupported by the crate) |
| `proc_macro/derives/dyn_trait/*`, `dyn_traits/_mod.rs` | `Dyn*` (shapes, automatic traits), `Own*` (life of the objects), `Vt*` (tables and calls of methods, generics) | lifetimes of traits (in `Remap*`); syntax of attributes |
| `closure/*.rs` | `Own*`, `Fut*` (calls), `Export*` (panics), `Mark*` (Send, Sync, variance, bounds) | arities are one function |
| `dyn_traits/futures/*` | `Fut*`, `Tokio*` (executor of tokio) | tokio itself (its documentation is modelled); `dyn_enter`; wake-ups among futures |
| `vec.rs`, `slice.rs`, `string/*`, `boxed.rs`, `ptr.rs`, `utils/markers.rs` | `Vec*`, `SliceProps.v`, `Dtor*` (destructors that panic), `Mark*` (Send, Sync, variance), `Cmp*` (comparing, hashing, cloning slices) | formatting traits; destructors that panic in programs of `Vec*` |
| `js/impls.rs`, `/repo/napi-dispatcher/wasm/src/{values,utils}.rs` | `JsNum*`, `Napi*` | getters and prototypes of objects; pointers to functions |
| `js/ffi_helpers.rs` | `CStr*`, `JsNum*`, `Napi*`, `JsCall*` | `wrap_ptr` display |
| `js/closures/node_js.rs` | `JsCall*` (queue, timeout, trampoline), `Export*` (panics), `JsLife*` (counts, creation failures) | |
| `js/registering.rs`, `js/_mod.rs` (promises), `/repo/napi-dispatcher/*/proc_macros` | `JsFn*` | the executors; syntax of attributes |
| `js/closures/wasm.rs`, `/repo/napi-dispatcher/wasm/src/{lib,env}.rs` | `WasmMem*` (guards of an environment, trampoline), `Napi*` (creation of values) | counts of the raw parts (as on Node.js) |
| `layout/macros.rs` | `CType!` and `@js_enum` in `Napi*`, `WasmMem*`; `ReprC!` forwards to the derive (`Derive*`) | |
| `stabby/*` | `Stab*` (layouts and validity, upcasting); `bytes.rs` in `Bytes*` | the crate stabby itself |
| `libc.rs`, assertions of `c_char.rs`, `layout/impls.rs` 4-9 | `LibcModel.v` | macro namespace, visibility inside the macro's modules, documentation |
| `option.rs` | `Layout*` (layout, validity), `Opt*` (conversions, methods, derives) | `Debug` |
| `tuple.rs` (other than names) | not modelled | |
| `proc_macro/derives/_mod.rs`, `repr_c/_mod.rs`, `repr_c/args.rs`, `dyn_trait/args.rs`, `handle_fptr.rs` 10-92 | `Derive*` (which derive an item goes to, what is rejected, panics) | expressions in arguments; what rustc makes of the expansion beyond its shape |
| `proc_macro/derives/handle_fptr.rs` 92-475 | `Fptr*` (layout, bounds, lifetimes) | paths that hide lifetimes (`Foo` for `Foo<'_>`); C# and Python parts; the `_Layout` struct, which is not emitted |
| `proc_macro/utils/_mod.rs` 136-183, its use in `ffi_export/fn_/{mod,async_fn}.rs`, `dyn_trait/_mod.rs` | `Remap*` (lifetimes in the JavaScript glue) | type parameters |
| rest of `proc_macro/utils/*` | `my_split` in `Derive*`; else not modelled: token rewriting; the macros are functions from the parsed item to the generated item | |

Also left out throughout: compilation of Rust to machine code; the Rust type checker (where programs
must be well typed or well borrowed, the rule is part of the specification); data races inside the
standard library's atomics (operations on counts are atomic steps).

## Print Assumptions

Output of `Print Assumptions` for every theorem named in MANIFEST.json (598 theorems):

* `Closed under the global context`: `C01_inline_lossless`, `C02_reachable`, `C02_tag_unambiguous`, `C03_frame`, `C03_refinement`, `C04_alive`, `C04_all_freed`, `C04_ends`, `C04_no_leak`, `C04_no_undefined_behaviour`, `C04_programs`, `C05_noalloc_exact`, `C05_noalloc_upgrade_owned_refuted`, `C05_noalloc_upgrade_refuted`, `C05_upgrade_detaches`, `C06_big_endian_exact`, `C06_exact`, `C06_little_endian_refuted`, `C06_predicted_happens_partial`, `C07_into_arc`, `C08_inline`, `C08_inline_corruption_refuted`, `C08_inline_spurious_panic_refuted`, `C08_inline_undefined_refuted`, `C08_subslicing_partial`, `C08_usize_max_refuted`, `C09_observers`, `C09_order`, `C10_chunked_read_refuted`, `C10_inline`, `C10_out_of_line_reads_succeed`, `C10_readable`, `C10_reads_partial`, `C10_rest_refuted`, `C10_short_values_panic`, `C10_zero_is_end`, `C11_inline`, `C11_short_values_panic`, `C11_split_partial`, `C11_split_refuted`, `C12_new`, `C12_programs`, `C12_round_trip`, `C13_all_freed`, `C13_drop`, `C13_live_iff_owned`, `C13_no_undefined_behaviour`, `C13_unique`, `C14_borrowed`, `C14_equality`, `C14_foreign`, `C14_from_cstr`, `C15_c_macro`, `C15_c_macro_error`, `C15_js_string`, `C15_same_as_borrowed`, `C16_nonnull_refuted`, `C16_round_trip_partial`, `C16_transparent_refuted`, `C16_unit_refuted`, `C17_exact_partial`, `C17_nothing_invalid`, `C17_out_refuted`, `C18_niche`, `C18_null`, `C19_accepts_partial`, `C19_conversions`, `C19_decodes`, `C19_none_payload`, `C19_unit_refuted`, `C20_attributes_refuted`, `C20_header_struct_partial`, `C20_printed`, `C21_integer_repr_partial`, `C21_numbering`, `C21_shadowing_refuted`, `C21_two_attributes_refuted`, `C21_variants_partial`, `C21_wide_refuted`, `C22_function_refuted`, `C22_isize_refuted`, `C22_modules_refuted`, `C22_once`, `C22_order_partial`, `C22_ssize_partial`, `C23_same_name_refuted`, `C23_stable_partial`, `C23_unstable_refuted`, `C24_csharp_refuted`, `C24_nothing_else`, `C24_printed_partial`, `C24_same_function`, `C24_same_name_refuted`, `C25_const_refuted`, `C25_distinct_partial`, `C25_fn_refuted`, `C25_generic_refuted`, `C25_no_clash_partial`, `C25_short_partial`, `C25_underscore_refuted`, `C26_backing`, `C26_not_refuted`, `C26_python_partial`, `C26_python_refuted`, `C26_shift_refuted`, `C26_values_partial`, `C27_across_refuted`, `C27_collisions`, `C27_distinct_partial`, `C27_within`, `C27_within_refuted`, `C28_chars`, `C28_ends`, `C28_fn_refuted`, `C28_generic_refuted`, `C28_layout_partial`, `C28_name_partial`, `C28_opaque_partial`, `C28_slice_refuted`, `C28_tuple_refuted`, `C29_c_partial`, `C29_csharp_keyword_refuted`, `C29_csharp_partial`, `C29_kept`, `C29_keyword_refuted`, `C29_macro_refuted`, `C29_names_partial`, `C29_python_partial`, `C29_raw_refuted`, `C29_unit_refuted`, `C30_c_refuted`, `C30_comments_partial`, `C30_csharp_refuted`, `C30_python`, `C30_splice_refuted`, `C31_adequate`, `C31_call`, `C31_invalid`, `C31_no_unwinding`, `C32_async_js_partial`, `C32_async_partial`, `C32_async_refuted`, `C32_blank_refuted`, `C32_js_feature_refuted`, `C32_js_partial`, `C32_sync`, `C33_exact`, `C33_rc_refuted`, `C33_ref_refuted`, `C33_threads_partial`, `C33_written_partial`, `C34_box`, `C34_clone`, `C34_clone_sound`, `C34_dynamic`, `C34_exclusive`, `C34_receivers`, `C34_shared`, `C35_drop`, `C35_exact`, `C35_held`, `C35_life`, `C35_owners`, `C36_arc`, `C37_borrowed`, `C37_boxed`, `C37_null`, `C38_bytes`, `C38_drop`, `C38_invalid_refuted`, `C38_over`, `C38_poll`, `C38_polls`, `C39_abort`, `C39_delivered`, `C39_handle`, `C39_once`, `C39_output`, `C39_panic_partial`, `C39_panic_refuted`, `C39_sound`, `C39_ub`, `C39_value`, `C39_wake`, `C40_gives_up`, `C40_more`, `C40_only`, `C40_panics`, `C40_returns`, `C40_unwinds`, `C41_canceled`, `C41_delivered`, `C41_handle`, `C41_once`, `C41_panic`, `C41_result`, `C41_runs`, `C41_sound`, `C41_value`, `C41_wake`, `C42_exact_partial`, `C42_fraction_refuted`, `C42_node`, `C42_range_refuted`, `C42_roundtrip`, `C42_sound`, `C42_wasm`, `C43_bigint_partial`, `C43_bigint_refuted`, `C43_bigint_wasm`, `C43_number`, `C43_number_refuted`, `C43_roundtrip`, `C43_size`, `C43_size_sound`, `C44_const_roundtrip_partial`, `C44_const_to_mut`, `C44_exact`, `C44_mut_roundtrip`, `C44_mut_to_const`, `C44_name_refuted`, `C44_null`, `C44_null_only`, `C44_object`, `C44_only_weakening`, `C44_range`, `C44_rejected`, `C44_roundtrip_refuted`, `C45_aborts`, `C45_bound`, `C45_detached`, `C45_direct`, `C45_ends`, `C45_gone`, `C45_lawful`, `C45_once`, `C45_order`, `C45_own_thread`, `C45_progress`, `C45_value`, `C45_wait_refuted`, `C46_first`, `C46_js`, `C46_js_refuted`, `C47_f32_exact`, `C47_f32_partial`, `C47_f64`, `C47_nan_refuted`, `C48_convert`, `C48_memory`, `C48_no_leak`, `C48_refines`, `C48_round_trip`, `C48_safe`, `C49_given`, `C49_written_back`, `C50_misaligned`, `C50_null`, `C50_slices`, `C50_some`, `C50_views`, `C51_count`, `C51_shared`, `C52_js`, `C53_alias_refuted`, `C53_fn_fn_refuted`, `C53_fn_ptr_refuted`, `C53_keyword_refuted`, `C53_reads_partial`, `C53_unit_refuted`, `C54_csharp_partial`, `C54_enum_bytes_partial`, `C54_enum_bytes_refuted`, `C54_python_refuted`, `C55_pinned`, `C55_unpinned`, `C56_bool`, `C56_bytes`, `C56_enum`, `C56_enum_to`, `C56_invalid`, `C56_no_panic`, `C56_roundtrip_partial`, `C56_roundtrip_refuted`, `C56_sound`, `C56_struct`, `C56_total`, `C57_high`, `C57_partial`, `C57_refuted`, `C58_buffer_partial`, `C58_buffer_refuted`, `C58_bytes`, `C58_empty`, `C58_null`, `C58_null_bytes`, `C58_other`, `C58_read`, `C58_string`, `C59_c_char_refuted`, `C59_c_enum_refuted`, `C59_c_exact`, `C59_c_float_refuted`, `C59_c_integers_partial`, `C59_c_large_refuted`, `C59_c_non_finite_refuted`, `C59_c_reference_refuted`, `C59_c_smallest_refuted`, `C59_c_untyped_exact`, `C59_c_untyped_float_refuted`, `C59_csharp_exact`, `C59_csharp_float_refuted`, `C59_csharp_untyped_refuted`, `C59_csharp_usize_refuted`, `C60_call_refuted`, `C60_calm_partial`, `C60_exact`, `C60_free_refuted`, `C60_no_unwinding_partial`, `C60_virtual_refuted`, `C61_call`, `C61_nested_refuted`, `C61_no_unwinding_partial`, `C62_again`, `C62_banner`, `C62_csharp`, `C62_first`, `C62_python`, `C63_guard_distinct_partial`, `C63_guard_exact`, `C63_guard_ident`, `C63_guard_refuted`, `C63_lib_name`, `C63_namespace_distinct_partial`, `C63_namespace_ident`, `C63_namespace_refuted`, `C63_panics`, `C64_call`, `C64_extra`, `C64_first`, `C64_missing`, `C64_null_refuted`, `C64_once`, `C64_returns`, `C64_safe_partial`, `C64_throws`, `C64_undefined`, `C64_undefined_async`, `C65_alive_refuted`, `C65_collect_safe`, `C65_own`, `C65_promise`, `C65_resolved`, `C65_safe_partial`, `C65_settles`, `C65_stable`, `C66_exact`, `C66_failed_refuted`, `C66_name`, `C66_order`, `C66_twice_refuted`, `C67_bytes_refuted`, `C67_bytes_wasm`, `C67_checked`, `C67_missing_wasm`, `C67_node_partial`, `C67_number_wasm`, `C67_pointer_refuted`, `C67_void_wasm`, `C67_wasm_refuted`, `C68_failed`, `C68_failed_balanced`, `C68_freed`, `C68_kept`, `C68_last`, `C68_life`, `C68_loop`, `C68_no_panic`, `C68_once`, `C68_queued`, `C68_reference`, `C68_safe`, `C68_threads_partial`, `C68_threads_refuted`, `C69_agrees`, `C69_balanced`, `C69_borrowed`, `C69_callback_partial`, `C69_callback_refuted`, `C69_copies`, `C69_leak_refuted`, `C69_left`, `C69_nothing`, `C69_once`, `C69_throws`, `C70_accepts`, `C70_detached`, `C70_errors`, `C70_hint`, `C70_hint_refuted`, `C70_round_trip`, `C70_safe_partial`, `C70_too_many`, `C70_value`, `C71_compiles_partial`, `C71_compiles_refuted`, `C71_fptr`, `C71_js_adds_refuted`, `C71_js_not_asked`, `C71_js_partial`, `C71_kind`, `C71_names`, `C71_never_panics_refuted`, `C71_once_refuted`, `C71_panics`, `C71_rejected`, `C71_rename_refuted`, `C71_trait`, `C71_visibility`, `C71_visibility_refuted`, `C72_bounds_partial`, `C72_bounds_refuted`, `C72_layout`, `C72_layout_partial`, `C72_layout_refuted`, `C72_names_refuted`, `C72_null`, `C72_where`, `C73_accepted_partial`, `C73_accepted_refuted`, `C73_aliases`, `C73_aliases_static`, `C73_apart`, `C73_captures`, `C73_captures_exact`, `C73_captures_refuted`, `C73_lent_refuted`, `C73_lifetimes`, `C73_same`, `C74_c_int_refuted`, `C74_callback_refuted`, `C74_enum_refuted`, `C74_functions_partial`, `C74_left_out`, `C74_memory_partial`, `C74_one_way`, `C74_refuted`, `C74_renamed_bool_field_refuted`, `C74_renamed_bool_refuted`, `C74_return_refuted`, `C74_win32_refuted`, `C74_words_refuted`, `C75_accepts_partial`, `C75_c_call`, `C75_c_slots`, `C75_clone_generic_refuted`, `C75_const_first_refuted`, `C75_name_refuted`, `C75_rust_call`, `C75_static_refuted`, `C75_unsafe_refuted`, `C76_ampersand_refuted`, `C76_generics_refuted`, `C76_lines_refuted`, `C76_tags`, `C76_wellformed_partial`, `C77_borrows`, `C77_char_raw`, `C77_clones`, `C77_counterpart`, `C77_exact`, `C77_send`, `C77_shared`, `C77_sync`, `C78_same`, `C78_sound`, `C78_variance`, `C79_alive`, `C79_erased`, `C79_no_longer`, `C80_accepts`, `C80_alias_refuted`, `C80_async`, `C80_async_binds`, `C80_async_names`, `C80_async_param`, `C80_async_self`, `C80_async_sub_refuted`, `C80_calls`, `C80_captured_refuted`, `C80_js`, `C80_js_accepts`, `C80_js_calls`, `C80_param`, `C80_shim`, `C80_types_refuted`, `C81_clone_taken`, `C81_into_stabby`, `C81_round_trip`, `C81_short_clone_refuted`, `C81_shrunk_refuted`, `C81_upgrade_taken`, `C82_cffi`, `C82_docs_refuted`, `C82_doxygen_refuted`, `C82_erased`, `C82_file`, `C82_text`, `C82_types`, `C83_decls`, `C83_docs_refuted`, `C83_file`, `C83_text`, `C84_abi`, `C84_call`, `C84_char_refuted`, `C84_constant_refuted`, `C84_enumerators_refuted`, `C84_file`, `C84_parameter_refuted`, `C84_twice`, `C85_any_order`, `C85_buffered`, `C85_buffered_delivered`, `C85_buffered_refuted`, `C85_clash`, `C85_delivered`, `C85_file`, `C85_name_needed`, `C85_name_panics`, `C85_naming`, `C85_naming_refuted`, `C85_not_for_csharp`, `C85_ok`, `C85_options`, `C85_prefix`, `C85_utf8`, `C86_drop`, `C86_exact_partial`, `C86_layout`, `C86_null`, `C86_round_trip`, `C86_slice`, `C86_slice_part_refuted`, `C86_slice_refuted`, `C86_stabbied`, `C86_upcast`, `C86_upcast_object`, `C87_completes`, `C87_dropped`, `C87_dropped_refuted`, `C87_executor`, `C87_fates`, `C87_never`, `C87_output`, `C87_panic`, `C87_pending`, `C87_sound`, `C87_wake`, `C88_clone`, `C88_clone_panic`, `C88_cmp`, `C88_contents`, `C88_default`, `C88_eq`, `C88_hash`, `C88_hash_eq`, `C88_partial_cmp`, `C88_total`, `C89_asserts`, `C89_bare`, `C89_choice`, `C89_compiles`, `C89_exports`, `C89_names`, `C89_newtypes`, `C89_only_types`, `C90_clone`, `C90_closures`, `C90_cmp`, `C90_convert`, `C90_eq`, `C90_hash`, `C90_hash_differs`, `C90_once`, `C90_partial_cmp`, `C90_std`, `C91_abort`, `C91_box`, `C91_by_hand`, `C91_clone`, `C91_dealloc`, `C91_new`, `C91_put`, `C91_raw`, `C91_raw_leaks_refuted`, `C91_slice`, `C91_vec`.

So no theorem rests on an axiom, not even one of the standard library.  The files also end with
`Print Assumptions` commands, so that a build prints this.  (Files of the libraries that are loaded,
such as `Coq.ssr.ssrunder` through std++, declare axioms of their own; no theorem uses them.)
