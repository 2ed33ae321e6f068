{"id": "C01", "title": "Inline byte buffers are lossless", "statement": "Bytes::inline_slice(s) returns None exactly when s is longer than the inline capacity of the platform; otherwise the value it returns has len() == s.len() and as_slice() == s, byte for byte, on every pointer width and endianness.", "quantifier": "every byte slice, every word size, both endiannesses", "why_tests_cant": "The crate only runs on the developer's own little-endian 64-bit host; the length/tag packing must be right for every length and byte content on all targets.", "anchors": ["src/bytes.rs: Bytes::inline_slice", "src/bytes.rs: Bytes::inline_unchecked", "src/bytes.rs: Bytes::len", "src/bytes.rs: Bytes::as_slice", "src/bytes.rs: MAX_INLINE_SIZE"]}
{"id": "C02", "title": "Storage tag and niche are unambiguous", "statement": "A Bytes built from out-of-line storage is never mistaken for an inlined one nor the reverse, whatever the addresses, lengths and contents; and no Bytes value ever has an all-zero vtable word, so Option<Bytes> can use it as None.", "quantifier": "every inlined content, every pointer/length/capacity word, every even vtable address", "why_tests_cant": "The tag shares bits with a live pointer; only an argument about all addresses and contents rules out confusion.", "anchors": ["src/bytes.rs: Bytes::is_inlined", "src/bytes.rs: Bytes::vtable", "src/bytes.rs: BytesVt"]}
{"id": "C03", "title": "Bytes histories refine an immutable byte string", "statement": "After any sequence of constructing, cloning, subslicing, splitting, converting and dropping (other than noalloc_upgrade of a borrowed value, an out-of-range end on an inlined value, and a usize::MAX bound in a release build: see C05 and C08), each live handle reads exactly the bytes of the corresponding slice of the original input; no operation on one handle changes what another handle reads.", "quantifier": "every finite history of API calls over any number of handles", "why_tests_cant": "Aliasing between handles sharing one allocation is a property of histories, not of single calls.", "anchors": ["src/bytes.rs: Bytes::from_slice", "src/bytes.rs: Bytes::from_static", "src/bytes.rs: Bytes::copied_from_slice", "src/bytes.rs: Clone for Bytes", "src/bytes.rs: Bytes::shrink_to", "src/bytes.rs: Bytes::split_at", "src/bytes.rs: From<Arc<[u8]>> for Bytes", "src/bytes.rs: From<Box<[u8]>> for Bytes"]}
{"id": "C04", "title": "Bytes storage is freed exactly once, never early, never leaked", "statement": "In any history of API calls (other than noalloc_upgrade of a borrowed value, an out-of-range end on an inlined value, and a usize::MAX bound in a release build: see C05 and C08), every heap allocation backing Bytes handles is alive while some handle refers to it, is freed exactly once with the size it was allocated with, and is freed once the last handle is dropped.", "quantifier": "every finite history, every interleaving of drops", "why_tests_cant": "Double free, use after free and leaks depend on the order of clones, splits, conversions and drops.", "anchors": ["src/bytes.rs: Drop for Bytes", "src/bytes.rs: Clone for Bytes", "src/bytes.rs: BytesVt", "src/bytes.rs: TryFrom<Bytes> for Arc<[u8]>", "src/bytes.rs: From<Vec<u8>> for Bytes"]}
{"id": "C05", "title": "Upgrading to 'static detaches from the borrow", "statement": "The Bytes<'static> returned by upgrade() (and by noalloc_upgrade() when it returns Ok) stays readable after the buffer the original value borrowed from has been released.", "quantifier": "every Bytes value and every later release of the borrowed buffer", "why_tests_cant": "The result is only observably wrong after the borrow ends, and then only by undefined behaviour.", "anchors": ["src/bytes.rs: Bytes::upgrade", "src/bytes.rs: Bytes::noalloc_upgrade"]}
{"id": "C06", "title": "Allocation predictions are exact", "statement": "upgrade_will_allocate() returns true exactly when upgrade() would allocate, and clone_will_allocate() returns true exactly when clone() would allocate.", "quantifier": "every Bytes value on every platform", "why_tests_cant": "Depends on the length thresholds for every length and platform, including the few lengths between the two constants involved.", "anchors": ["src/bytes.rs: Bytes::upgrade_will_allocate", "src/bytes.rs: Bytes::clone_will_allocate", "src/bytes.rs: Bytes::upgrade", "src/bytes.rs: Bytes::noalloc_clone"]}
{"id": "C07", "title": "Bytes to Arc<[u8]> succeeds exactly for the whole Arc", "statement": "Converting a Bytes back into Arc<[u8]> succeeds exactly when it was made from an Arc<[u8]> (or copied into one) and still spans the whole of it; the strong count is then unchanged, and on failure the original value is returned intact.", "quantifier": "every Bytes value in every reachable state", "why_tests_cant": "Success must be correct for every history of clones and shrinks, and the count bookkeeping is invisible to a content test.", "anchors": ["src/bytes.rs: TryFrom<Bytes> for Arc<[u8]>"]}
{"id": "C08", "title": "Subslicing honours its range", "statement": "shrink_to(range)/subsliced(range) on a value of length n yields exactly the bytes of that range when it lies within 0..n, panics otherwise, and never alters the value when it panics.", "quantifier": "every value (inlined or not), every pair of range bounds including usize::MAX", "why_tests_cant": "The bounds arithmetic has to hold for all bounds and for all inlined contents.", "anchors": ["src/bytes.rs: Bytes::shrink_to", "src/bytes.rs: Bytes::subsliced"]}
{"id": "C09", "title": "Comparison, ordering and hashing see only the contents", "statement": "Two Bytes compare equal, order and hash according to their byte contents alone, independently of how each is stored (inlined, borrowed, Arc, Box, static).", "quantifier": "every pair of values however produced", "why_tests_cant": "Storage kind depends on the construction history and platform.", "anchors": ["src/bytes.rs: PartialEq for Bytes", "src/bytes.rs: Ord for Bytes", "src/bytes.rs: Hash for Bytes"]}
{"id": "C10", "title": "Reading from Bytes yields the contents in order", "statement": "Repeated io::Read::read calls on a Bytes return consecutive chunks whose concatenation is the contents, and return 0 only at the end (or for an empty buffer).", "quantifier": "every contents and every sequence of buffer sizes", "why_tests_cant": "Each read mutates the storage representation the next read depends on.", "anchors": ["src/bytes.rs: io::Read for Bytes", "src/bytes.rs: Bytes::shrink_to"]}
{"id": "C11", "title": "split_at partitions", "statement": "split_at(i) on a value of length n succeeds exactly when i <= n; the two halves then hold the first i bytes and the remaining n - i, and both keep the storage alive.", "quantifier": "every value and index", "why_tests_cant": "Combines a clone with two shrinks; needs all indices and storage kinds.", "anchors": ["src/bytes.rs: Bytes::split_at"]}
{"id": "C12", "title": "Owned C strings: accepted exactly without interior NUL, round trip", "statement": "char_p::Box::try_from(String) succeeds exactly when the string has no NUL before its last byte; converting back gives the string without the trailing NUL; on failure the very same string is returned.", "quantifier": "every string", "why_tests_cant": "The NUL position condition must be right for every string, including empty and single-NUL ones.", "anchors": ["src/char_p.rs: TryFrom<rust::String> for char_p_boxed", "src/char_p.rs: char_p_boxed::into_vec", "src/char_p.rs: char_p::new"]}
{"id": "C13", "title": "Owned C strings: allocation balance", "statement": "Dropping or converting an owned C string releases exactly the allocation that was made for it, with the same size, and never releases the shared empty-string sentinel.", "quantifier": "every string and every way to consume it", "why_tests_cant": "The size is recomputed by scanning for NUL when freeing; an undefined behaviour mismatch shows no symptom in tests.", "anchors": ["src/char_p.rs: Drop for char_p_boxed", "src/char_p.rs: EMPTY_SENTINEL", "src/char_p.rs: TryFrom<rust::String> for char_p_boxed", "src/char_p.rs: From<CString> for char_p_boxed"]}
{"id": "C14", "title": "Borrowed C strings: exact acceptance and contents", "statement": "char_p::Ref::try_from(&str) succeeds exactly for the empty string and for strings whose first NUL is their last byte, and to_str() of the result is the string without that NUL; to_bytes_with_nul() adds exactly one NUL.", "quantifier": "every string", "why_tests_cant": "Must hold for every NUL position.", "anchors": ["src/char_p.rs: TryFrom<&str> for char_p_ref", "src/char_p.rs: char_p_ref::to_str", "src/char_p.rs: char_p_ref::to_bytes", "src/char_p.rs: char_p_ref::to_bytes_with_null"]}
{"id": "C15", "title": "String literals and JS strings follow the same NUL rule", "statement": "c!(\"...\") accepts exactly the literals with no NUL before the last character and always yields a string with exactly one NUL, at the end; the JS helper withCString accepts the same set and passes the same bytes.", "quantifier": "every literal / JS string", "why_tests_cant": "Three independent implementations of one rule must agree everywhere.", "anchors": ["src/proc_macro/c_str.rs", "src/js/ffi_helpers.rs: with_js_string_as_utf8"]}
{"id": "C16", "title": "FFI conversion round trip", "statement": "For every ReprC type, converting a Rust value to its C layout and back gives the same value, and into_raw never produces a C value that from_raw would reject.", "quantifier": "every type built from the supported constructors, every value", "why_tests_cant": "Types nest without bound.", "anchors": ["src/layout/_mod.rs: from_raw", "src/layout/_mod.rs: into_raw", "src/layout/_mod.rs: from_raw_unchecked"]}
{"id": "C17", "title": "Validity checks are exact", "statement": "from_raw accepts a C value exactly when it is the representation of some Rust value of the type: no invalid bool, null or misaligned reference, null function pointer or unknown enum discriminant is ever accepted, at any depth inside arrays, tuples, structs and options, and no valid value is rejected.", "quantifier": "every type built from the supported constructors, every C value", "why_tests_cant": "Nesting is unbounded and each layer's check must compose.", "anchors": ["src/layout/_mod.rs: ReprC::is_valid", "src/layout/impls.rs", "src/layout/niche.rs", "src/proc_macro/derives/repr_c/struct_.rs", "src/proc_macro/derives/repr_c/enum_.rs"]}
{"id": "C18", "title": "Option niche encoding is faithful", "statement": "For pointer-like types, None is represented by the null pattern and nothing else, Some(x) by x's own pattern, and no valid x has the null pattern.", "quantifier": "every pointer-like type and value", "why_tests_cant": "Confusing Some with None is a matter of all bit patterns.", "anchors": ["src/layout/niche.rs: HasNiche", "src/layout/niche.rs: ReprC for Option"]}
{"id": "C19", "title": "TaggedOption is a faithful option", "statement": "TaggedOption converts to and from Option losslessly; its C form is accepted exactly when the tag is 0, or the tag is 1 and the payload is valid; the payload bytes of None are irrelevant.", "quantifier": "every payload type and every tag/payload pattern", "why_tests_cant": "All 256 tags and all payloads.", "anchors": ["src/option.rs: TaggedOption", "src/option.rs: is_valid"]}
{"id": "C20", "title": "The struct in the header has the layout of the Rust struct", "statement": "For every #[repr(C)] struct the header generator accepts, the C struct it prints (which omits zero-sized fields) has the same size, alignment and field offsets as the Rust struct.", "quantifier": "every list of field sizes and alignments", "why_tests_cant": "Padding depends on all fields together.", "anchors": ["src/headers/languages/c.rs: emit_struct", "src/headers/languages/csharp.rs: emit_struct", "src/proc_macro/derives/c_type/struct_.rs"]}
{"id": "C21", "title": "Field-less enums accept exactly their variants", "statement": "A #[derive_ReprC] field-less enum accepts a discriminant from C exactly when it is the value of one of its variants, for every assignment of explicit and implicit discriminants.", "quantifier": "every list of variants with optional explicit discriminants, every integer", "why_tests_cant": "Implicit discriminants depend on all previous variants.", "anchors": ["src/proc_macro/derives/repr_c/enum_.rs"]}
{"id": "C22", "title": "Headers define each type once and before use", "statement": "In a generated C header each type name is defined at most once, and every type a declaration mentions has been defined earlier in the file.", "quantifier": "every set of exported items over every nesting of types", "why_tests_cant": "Definition order follows recursive traversal with a shared seen-set.", "anchors": ["src/headers/definer.rs: Definer::define_once", "src/headers/_mod.rs: Builder::write_body", "src/layout/_mod.rs: CType::define_self", "src/layout/impls.rs"]}
{"id": "C23", "title": "Stable headers do not depend on registration order", "statement": "With the (default) stable header option, the text produced is the same whatever order the linker registered the exported items in.", "quantifier": "every permutation of the registered items", "why_tests_cant": "Link order is outside the tests' control.", "anchors": ["src/headers/_mod.rs: Builder::write_body"]}
{"id": "C24", "title": "Every exported item reaches the header", "statement": "Every registered item is printed in the generated header exactly once, or generation reports an error.", "quantifier": "every list of registered items, including same-named ones", "why_tests_cant": "Needs all combinations of names.", "anchors": ["src/headers/_mod.rs: Builder::write_body", "src/proc_macro/ffi_export/fn_/mod.rs: gen_def", "src/proc_macro/ffi_export/const_.rs"]}
{"id": "C25", "title": "Distinct types get distinct C names", "statement": "Two different types used in one header never share a C name (so neither definition is silently skipped).", "quantifier": "every pair of types built from the supported constructors", "why_tests_cant": "Name building is compositional over unbounded nesting.", "anchors": ["src/proc_macro/derives/c_type/struct_.rs: short_name", "src/layout/impls.rs: short_name", "src/headers/definer.rs"]}
{"id": "C26", "title": "Enum constants in the header have the Rust values", "statement": "In every supported header language, each variant constant printed for an enum has the value of the Rust discriminant.", "quantifier": "every list of variants with optional explicit discriminants", "why_tests_cant": "Implicit numbering depends on the prefix of the list and on the target language's own rule.", "anchors": ["src/headers/languages/c.rs: emit_simple_enum", "src/headers/languages/csharp.rs: emit_simple_enum", "src/headers/languages/python.rs: emit_simple_enum"]}
{"id": "C27", "title": "Enum constant names are distinct", "statement": "Distinct variants of the exported enums are printed under distinct C constants.", "quantifier": "every enum name and every pair of variant names", "why_tests_cant": "Case folding can merge unboundedly many pairs of names.", "anchors": ["src/utils/_mod.rs: screaming_case", "src/headers/languages/c.rs: emit_simple_enum"]}
{"id": "C28", "title": "Names derived for opaque types are identifiers", "statement": "The name derived from a Rust type name for an opaque type contains only identifier characters, and deriving it never fails.", "quantifier": "every type name string, any nesting of generics, tuples and arrays", "why_tests_cant": "The parser is recursive over arbitrary nested type names.", "anchors": ["src/_lib.rs: append_unqualified_name"]}
{"id": "C29", "title": "Function prototypes are faithful", "statement": "The printed prototype of an exported function has one parameter per Rust parameter, in order, with pairwise distinct names.", "quantifier": "every parameter list (identifiers, wildcard and destructuring patterns)", "why_tests_cant": "Synthesised names must avoid all user names.", "anchors": ["src/proc_macro/ffi_export/fn_/mod.rs", "src/headers/languages/c.rs: emit_function"]}
{"id": "C30", "title": "Documentation stays inside comments", "statement": "Whatever the Rust documentation of an item says, the generated header differs only inside comments.", "quantifier": "every documentation text", "why_tests_cant": "Every text, including comment terminators.", "anchors": ["src/headers/languages/c.rs: emit_docs", "src/headers/languages/csharp.rs: emit_docs"]}
{"id": "C31", "title": "Panics never cross the FFI boundary", "statement": "If the body of an exported function (or an argument/return conversion) panics, the process aborts; control never unwinds into the C caller, and without a panic the caller gets exactly the body's result.", "quantifier": "every body and every panic point, nested calls included", "why_tests_cant": "Unwinding through C frames is undefined behaviour, so cannot be observed by a test.", "anchors": ["src/proc_macro/ffi_export/fn_/mod.rs", "src/_lib.rs: UnwindGuard"]}
{"id": "C32", "title": "rename selects the exported symbol", "statement": "A function exported with rename = \"x\" is available under x and under no other symbol, whether or not it is async.", "quantifier": "every attribute combination", "why_tests_cant": "Combination of attributes through two macro layers.", "anchors": ["src/proc_macro/ffi_export/fn_/mod.rs", "src/proc_macro/ffi_export/fn_/async_fn.rs"]}
{"id": "C33", "title": "Dynamic trait objects are only thread-safe if their source is", "statement": "A VirtualPtr that safe code may send to (or share with) another thread can only have been built from a smart pointer that is itself Send (Sync).", "quantifier": "every trait shape, every auto-trait combination, every smart pointer kind", "why_tests_cant": "A thread-safety hole shows only under racing schedules.", "anchors": ["src/proc_macro/derives/dyn_trait/coercions.rs: is_eligible", "src/proc_macro/derives/dyn_trait/_mod.rs", "src/dyn_traits/_mod.rs: Send for VirtualPtr"]}
{"id": "C34", "title": "Mutable dyn methods need exclusive sources", "statement": "A trait with &mut self methods can only be made dynamic from a uniquely owning or uniquely borrowing pointer, and a cloneable dynamic object never aliases a mutable borrow.", "quantifier": "every trait shape and pointer kind", "why_tests_cant": "Aliasing violations are undefined behaviour without symptom.", "anchors": ["src/proc_macro/derives/dyn_trait/coercions.rs: is_eligible"]}
{"id": "C35", "title": "Virtual pointers own their referent correctly", "statement": "Across any history of coercions, clones, method calls and drops of VirtualPtrs, the referent of an owning pointer is alive during every call, destroyed exactly once after the last owner goes, and borrowed referents are never destroyed.", "quantifier": "every finite history", "why_tests_cant": "Counting depends on the whole history.", "anchors": ["src/dyn_traits/_mod.rs: VirtualPtr", "src/proc_macro/derives/dyn_trait/vtable_entry.rs", "src/proc_macro/derives/dyn_trait/coercions.rs"]}
{"id": "C36", "title": "Reference-counted closures", "statement": "Across any history of clone, call and drop of ArcDynFn values, the closure is alive at every call and destroyed exactly once, with the last handle; cloning when no retain function is present panics instead of aliasing.", "quantifier": "every finite history", "why_tests_cant": "Counting depends on the whole history.", "anchors": ["src/closure/arc.rs"]}
{"id": "C37", "title": "Boxed closures", "statement": "A BoxDynFnMut closure environment is destroyed exactly once, when the handle is dropped, and is alive at each call; consuming or borrowing it never destroys it early.", "quantifier": "every finite history", "why_tests_cant": "Ownership through raw pointers.", "anchors": ["src/closure/boxed.rs", "src/closure/borrowed.rs"]}
{"id": "C38", "title": "Poll results survive the FFI", "statement": "Polling a future through its dynamic FFI object completes exactly when the underlying future completes, the value is transferred exactly once, and a pending poll has no result.", "quantifier": "every behaviour of the underlying future, every number of polls", "why_tests_cant": "Sequences of polls of unbounded length.", "anchors": ["src/dyn_traits/futures/_mod.rs"]}
{"id": "C39", "title": "Spawned tasks deliver their result exactly once", "statement": "A future handed to an FFI executor with spawn is run at most once and the join future yields precisely its output; it panics only if the executor dropped the task before completion.", "quantifier": "every executor scheduling behaviour", "why_tests_cant": "All schedules and cancellation points.", "anchors": ["src/dyn_traits/futures/executor.rs: spawn"]}
{"id": "C40", "title": "block_on returns the future's output", "statement": "block_on returns exactly the future's output if the executor polls it to completion, and panics if the executor returns before completion.", "quantifier": "every executor behaviour", "why_tests_cant": "All foreign executor behaviours.", "anchors": ["src/dyn_traits/futures/executor.rs: block_on"]}
{"id": "C41", "title": "spawn_blocking runs the action once", "statement": "An action passed to spawn_blocking is executed at most once; its result is delivered iff it ran, and cancellation is reported otherwise.", "quantifier": "every executor behaviour, including calling the task twice or never", "why_tests_cant": "All foreign executor behaviours.", "anchors": ["src/dyn_traits/futures/executor.rs: spawn_blocking"]}
{"id": "C42", "title": "Small integers: exact JS conversion", "statement": "Converting an 8/16/32-bit integer to a JS number and back gives the same integer, and a JS number is accepted for such a type exactly when it is an integer in range.", "quantifier": "every integer, every JS number", "why_tests_cant": "All numbers.", "anchors": ["src/js/impls.rs: ReprNapi for u8/u16/u32/i8/i16/i32"]}
{"id": "C43", "title": "64-bit integers: exact JS conversion", "statement": "Every 64-bit integer survives the round trip to JS; those outside the safe integer range travel as BigInt, those inside as number; a BigInt is accepted exactly when in range.", "quantifier": "every 64-bit integer, every BigInt", "why_tests_cant": "All values including the extremes.", "anchors": ["src/js/impls.rs: ReprNapi for u64/i64"]}
{"id": "C44", "title": "Typed pointers: JS round trip", "statement": "A raw pointer converted to JS and back to the same pointer type is unchanged, null maps to null, and a pointer of another pointee type is rejected (only mut-to-const weakening is allowed).", "quantifier": "every pointer type (pointers to pointers included), every address", "why_tests_cant": "Textual type matching over all type names.", "anchors": ["src/js/impls.rs: ReprNapi for *const T / *mut T"]}
{"id": "C45", "title": "JS callbacks from other threads", "statement": "Each blocking call of a JS callback from a non-main thread either returns the value JS produced for that very call or panics (timeout, closed); a detached call never blocks and is executed at most once.", "quantifier": "every interleaving of caller threads, the JS thread and timeouts", "why_tests_cant": "Concurrent schedules.", "anchors": ["src/js/closures/node_js.rs: call_trampoline", "src/js/closures/node_js.rs: convert_params"]}
{"id": "C46", "title": "The deadlock timeout is write-once", "statement": "The first accepted setting of the JS deadlock timeout is the value every later read sees; later settings are rejected; without a setting the default is 5000 ms, and 0 means no timeout.", "quantifier": "every sequence of get/set calls", "why_tests_cant": "Sequences of unbounded length.", "anchors": ["src/js/closures/node_js.rs: set_deadlock_timeout", "src/js/closures/node_js.rs: get_deadlock_timeout", "src/js/ffi_helpers.rs"]}
{"id": "C47", "title": "Floating point: JS conversion", "statement": "Every f64 (including NaN and infinities) and every f32 survives the round trip through a JS number.", "quantifier": "every floating-point value", "why_tests_cant": "Special values.", "anchors": ["src/js/impls.rs: ReprNapi for f32/f64"]}
{"id": "C48", "title": "Vectors and boxed slices: ownership conversions are lossless", "statement": "Converting Vec, String, Box<[T]>, Box<str> to their C forms and back preserves contents, length and capacity, and the storage is freed exactly once with its original size whatever sequence of conversions is applied.", "quantifier": "every contents, every sequence of conversions", "why_tests_cant": "Raw parts mismatches are silent undefined behaviour.", "anchors": ["src/vec.rs", "src/string/_mod.rs", "src/slice.rs: slice_boxed", "src/boxed.rs"]}
{"id": "C49", "title": "with_rust_mut is exception safe", "statement": "After with_rust_mut the C vector holds exactly what the closure left in the Rust vector, whether the closure returned or panicked; nothing is freed twice or leaked.", "quantifier": "every closure behaviour and panic point", "why_tests_cant": "Panic points.", "anchors": ["src/vec.rs: Vec::with_rust_mut"]}
{"id": "C50", "title": "Null slices", "statement": "A C slice with a null pointer is read as absent (None), any other valid one as exactly its elements; converting a Rust slice to C and back gives the same elements, empty slices included.", "quantifier": "every pointer/length pair", "why_tests_cant": "All patterns.", "anchors": ["src/slice.rs: slice_raw", "src/slice.rs: slice_ref", "src/slice.rs: slice_mut"]}
{"id": "C51", "title": "Shared C strings", "statement": "SharedCStr / Arc-based C strings hold the bytes given, are NUL-terminated once, and their storage is released exactly when the last clone is dropped.", "quantifier": "every string and every history of clones and drops", "why_tests_cant": "Histories.", "anchors": ["src/shared_cstr.rs"]}
{"id": "C52", "title": "JS enums are strings naming the variant", "statement": "For a #[derive_ReprC(js)] enum whose repr names its integer, each variant is handed to JS as the string naming it, that string converts back to the same variant, every other string is rejected, and only the values of variants can be converted.", "quantifier": "every list of variants with optional explicit discriminants, every string, every value", "why_tests_cant": "All enums and strings.", "anchors": ["src/layout/macros.rs: CType!(@js_enum)", "src/proc_macro/derives/repr_c/enum_.rs"]}
{"id": "C53", "title": "C declarators mean the Rust type", "statement": "Every declarator in a generated C header (struct field, prototype, array, alias, constant), read by the rules of C, declares the printed name with exactly the C type that stands for the Rust type: the same pointers with the same constness, the same function types with the same parameters.", "quantifier": "every list of exported items over every nesting of types", "why_tests_cant": "Declarator syntax nests inside out; the tests compile a few examples.", "anchors": ["src/layout/_mod.rs: CType::name_wrapping_var", "src/layout/impls.rs: c_var_fmt", "src/headers/languages/c.rs"]}
{"id": "C54", "title": "C# and Python headers define types before use, enums with their size", "statement": "In generated C# and Python headers every type a declaration mentions has been defined earlier in the file, and an enum is declared with an integer type of as many bytes as the Rust enum has.", "quantifier": "every list of exported items over every nesting of types", "why_tests_cant": "The traversal differs per language; the tests only check that a few headers compile.", "anchors": ["src/layout/_mod.rs: CType::define_self", "src/layout/impls.rs", "src/headers/languages/csharp.rs", "src/headers/languages/python.rs"]}
{"id": "C55", "title": "Pinned receivers", "statement": "A trait with a pinned receiver is made dynamic from pinned pointers only, and no method of such a trait takes &mut self, through which the value could be moved; a trait without pinned receivers takes plain pointers.", "quantifier": "every trait shape, flavour and pointer kind", "why_tests_cant": "Soundness of pinning over all traits users may write.", "anchors": ["src/proc_macro/derives/dyn_trait/_mod.rs: has_pin", "src/proc_macro/derives/dyn_trait/coercions.rs: as_type"]}
{"id": "C57", "title": "withOutU64 reports what was written", "statement": "The JS helper withOutU64 returns exactly the u64 that the callee wrote through the out pointer.", "quantifier": "every u64", "why_tests_cant": "Needs values above 2^63, which no test writes.", "anchors": ["src/js/ffi_helpers.rs: with_out_u64"]}
{"id": "C56", "title": "Compound types: JS round trip", "statement": "Structs, enums, booleans, byte arrays and pointers, nested at will, are converted to JS without error and back to the same value; whatever JS value is accepted yields a well-typed C value; no conversion from JS panics.", "quantifier": "every type built from these, every value, every JS value", "why_tests_cant": "Unbounded nesting of types and arbitrary JS values.", "anchors": ["src/layout/macros.rs: CType! (js)", "src/layout/impls.rs: ReprNapi for Bool", "src/js/impls.rs"]}
{"id": "C58", "title": "JS strings and buffers as C strings and slices", "statement": "A Buffer given for a C string is accepted exactly when it is UTF-8 with its only NUL at the end, else rejected; withCString gives C exactly the contents of the JS string and rejects inner NULs; null gives a null pointer; withCBytes and slice arguments give the buffer's address and length.", "quantifier": "every string, every buffer", "why_tests_cant": "All contents, empty ones included.", "anchors": ["src/js/impls.rs: from_napi_value for *const c_char", "src/js/ffi_helpers.rs: with_js_string_as_utf8", "src/js/ffi_helpers.rs: with_js_buffer_as_slice_uint8_t_ref"]}
{"id": "C59", "title": "Exported constants have their Rust value in the headers", "statement": "A constant exported with #[ffi_export] is, in the C header, a macro that can be used as an expression, of the C type of the constant and with the value the constant has in Rust; with (untyped) it is the same number. In the C# header it is a constant of the C# type with that value.", "quantifier": "every name, every type and every value of a constant", "why_tests_cant": "The values at the ends of every integer type, all floats, and the typing rules of two languages for literals.", "anchors": ["src/proc_macro/ffi_export/const_.rs: handle", "src/headers/languages/c.rs: emit_constant", "src/headers/languages/csharp.rs: emit_constant"]}
{"id": "C60", "title": "Panics in callbacks, destructors and virtual methods never unwind into foreign callers", "statement": "When C code calls a Rust closure through the pointers it was given, releases or retains one, or calls a method of a Rust object through its virtual table, a panic in it never unwinds into the C code: the process stops instead, as it does for exported functions.", "quantifier": "every program, every set of callbacks, destructors and methods calling each other in either language, both kinds of build and both behaviours of the compiler", "why_tests_cant": "Unwinding into C is undefined behaviour; a test that has it may well seem to work, and it depends on the compiler.", "anchors": ["src/closure/boxed.rs: new", "src/closure/arc.rs: new", "src/closure/borrowed.rs: new", "src/proc_macro/derives/dyn_trait/vtable_entry.rs: type_and_value", "src/proc_macro/derives/dyn_trait/coercions.rs: release_vptr, retain_vptr", "rust-toolchain.toml"]}
{"id": "C61", "title": "A JavaScript callback never unwinds into its foreign caller", "statement": "When C code calls a JavaScript function through the pointers made from it, and the call panics (JavaScript threw, a value cannot be converted, the pointer is null, the wait timed out), the process aborts and nothing unwinds into the C code, even if the call happens while another panic is unwinding the thread.", "quantifier": "every program, every set of functions calling each other in either language, with destructors and catch_unwind, both kinds of build, both behaviours of the compiler and of the standard library", "why_tests_cant": "Needs a panic in a callback made by a destructor that runs because of another panic; the result is undefined behaviour.", "anchors": ["src/js/closures/node_js.rs: call_trampoline", "src/js/closures/wasm.rs: call_trampoline"]}
{"id": "C62", "title": "A generated header can be included by C and C++, any number of times", "statement": "Preprocessing a generated C header gives the text the user asked for and the body; in C++ the body is in exactly one extern \"C\" block. Preprocessing it again, with the include guard defined, gives nothing and changes no macro. A generated C# header has its body in exactly one namespace and declares exactly one name of the native library, chosen by the platform.", "quantifier": "every body, banner, guard and text after the guard, every set of macros defined before", "why_tests_cant": "Needs a preprocessor and all bodies; the tests compile one header once.", "anchors": ["src/headers/_mod.rs: write_banner, write_prelude, write_epilogue, guard, text_after_guard", "src/headers/templates/c/_prelude.h", "src/headers/templates/c/epilogue.h", "src/headers/templates/csharp/_prelude.cs", "src/headers/templates/csharp/epilogue.cs"]}
{"id": "C63", "title": "Guards and namespaces are identifiers and tell libraries apart", "statement": "The default include guard and the C# namespace of a library are identifiers and no keywords, whatever its name; libraries of different names have different guards and different namespaces. The name is that of the crate or of the package; if neither is known and it is needed, there is a panic.", "quantifier": "every name of a library", "why_tests_cant": "All names.", "anchors": ["src/headers/_mod.rs: guard, lib_name, pascal_cased_lib_name"]}
{"id": "C64", "title": "A call from JavaScript is one call of the Rust function with the arguments given", "statement": "Calling an exported function from JavaScript runs the Rust function at most once, with the arguments given as values of the parameters (missing ones are undefined, extra ones ignored) and only if they are valid values of the Rust types; what JavaScript gets is what the function returned. If an argument is not a value of its parameter an error is thrown and nothing is run. No arguments cause undefined behaviour.", "quantifier": "every function, every list of arguments, every history of calls", "why_tests_cant": "All lists of arguments and all types of parameters; undefined behaviour may not show.", "anchors": ["src/proc_macro/ffi_export/fn_/mod.rs: ffi_export js_body", "src/proc_macro/ffi_export/fn_/async_fn.rs: export", "napi-dispatcher/nodejs-derive/src/proc_macros/mod.rs: js_export", "napi-dispatcher/wasm/src/proc_macros/mod.rs: js_export"]}
{"id": "C65", "title": "Promises of async functions and of async_worker settle once, with the result of their own call", "statement": "A call of an async function or of one exported with js(async_worker) gives a promise of its own. It resolves, once, to what the Rust function returned when run once on the arguments of that very call, however the calls, the workers and the main thread are interleaved, and it can always be settled. Arguments stay alive until the function has read them.", "quantifier": "every function, every history of calls, workers, settlements and collections of buffers", "why_tests_cant": "All interleavings, and the garbage collector at the worst time.", "anchors": ["src/proc_macro/ffi_export/fn_/mod.rs: ffi_export async_worker", "src/proc_macro/ffi_export/fn_/async_fn.rs: export", "src/js/_mod.rs: JsPromise::spawn, AsyncWorkerTask, from_task_spawned_on_worker_pool"]}
{"id": "C66", "title": "Each exported function is in the module under its name", "statement": "Loading the Node.js module defines, for each function exported to JavaScript, a property with its name that calls it, and no others, in whatever order the functions are registered.", "quantifier": "every list of functions and every order", "why_tests_cant": "The order of registration depends on the linker.", "anchors": ["src/js/registering.rs: napi_register_module_v1", "napi-dispatcher/nodejs-derive/src/proc_macros/mod.rs: js_export"]}
{"id": "C67", "title": "A JavaScript value of another kind is refused, not reinterpreted", "statement": "Where a C type is converted from JavaScript, on its own or within structs at any depth, only values of the kinds that represent it are accepted: numbers for numbers (and BigInts for 64 bits and usize), booleans for bool, strings for enums, Buffers for arrays of bytes, null or objects with a type and an address for pointers. A missing field or argument is not read as some value.", "quantifier": "every type, every JavaScript value, both platforms", "why_tests_cant": "All pairs of types and values, nested; the two platforms differ.", "anchors": ["src/js/impls.rs: from_napi_value", "src/layout/macros.rs: CType", "napi-dispatcher/wasm/src/values.rs: get_named_property, get_value, TryFrom<JsNumber>", "napi-dispatcher/wasm/src/utils.rs: new_type_wrappers"]}
{"id": "C68", "title": "A JavaScript function given to Rust lives as long as Rust owns it", "statement": "On Node.js a JavaScript function given to Rust can be called while an owner is left (by value, or a retained raw handle) or a call of it is queued, and is not collected before. When the last owner lets go of it, on whatever thread, its reference is deleted and its thread-safe function released, once, and nothing more is asked of N-API for it. If its creation fails, what was made is unmade. It keeps the event loop running only if asked to. N-API functions that take the environment are called on its thread.", "quantifier": "every history of creations (failing or not), retains, releases, calls and settings by any threads, and of the collector", "why_tests_cant": "All interleavings of owners on several threads with the garbage collector.", "anchors": ["src/js/closures/node_js.rs: ThreadTiedJsFunction, from_napi_value, into_raw_parts, call_trampoline, make_nodejs_wait_for_this_to_be_dropped", "src/js/closures/common.rs: ArcClosureRawParts"]}
{"id": "C69", "title": "On wasm, Rust borrows what JavaScript gave, for as long as the call", "statement": "On wasm a function exported to JavaScript that takes C strings or slices of bytes, on their own or within structs, is given pointers to copies in Rust's memory of exactly the Buffers that were passed. They are there when the function is called, and once it returns, or an argument is refused, each is freed exactly once: no call leaves memory behind. The same goes for what a JavaScript callback returns to Rust: it can be read by who called it.", "quantifier": "every signature, every arguments, every Rust function and JS callback", "why_tests_cant": "All nested types and all ways for a conversion to fail, after any number of copies.", "anchors": ["src/js/impls.rs: from_napi_value", "src/layout/macros.rs: CType", "src/proc_macro/ffi_export/fn_/mod.rs: __js", "src/js/closures/wasm.rs: call_trampoline", "napi-dispatcher/wasm/src/lib.rs: Env, CallContext"]}
{"id": "C70", "title": "Serialised Bytes come back equal, and outlive the buffers of the format", "statement": "Deserialising a Bytes gives exactly the bytes the format handed over (in whichever way: borrowed from the input, lent, given, or as a sequence), so that what was serialised comes back equal. Unless borrowed from the input itself, the value stays readable after the buffers of the format are gone. An input that is not bytes gives an error and changes nothing. No input makes deserialising panic or abort.", "quantifier": "every state, every format (each method of the visitor, every slice, every sequence with any announced length and any errors)", "why_tests_cant": "All behaviours of data formats, those of malicious inputs included.", "anchors": ["src/bytes.rs: Serialize, Deserialize, BytesVisitor"]}
{"id": "C71", "title": "derive_ReprC takes what it documents, and makes of it what the repr says", "statement": "An item under #[derive_ReprC(..)] becomes the C counterpart its repr attribute names (struct, transparent newtype, opaque type, enum of an integer type, newtype of a C function, trait object), exactly if the arguments are the documented ones, each at most once, and the item has the shape that counterpart needs; a `rename` it is given is used. Anything else is an error of compilation that says so, not a panic, and what is taken compiles. Visibility matters for newtypes of functions only. Turning on the feature `js` changes nothing for an item that does not ask for it, and rejects no item taken without.", "quantifier": "every item (attributes, visibility, generics, fields, variants), every argument list, every combination of features", "why_tests_cant": "All combinations of attributes and features; most do not occur in the test suite, which compiles with one set of features.", "anchors": ["src/proc_macro/derives/_mod.rs: derive_ReprC", "src/proc_macro/derives/repr_c/_mod.rs: derive", "src/proc_macro/derives/repr_c/struct_.rs: derive", "src/proc_macro/derives/repr_c/enum_.rs: derive", "src/proc_macro/derives/handle_fptr.rs: try_handle_fptr", "src/proc_macro/derives/dyn_trait/args.rs: Args", "src/layout/macros.rs: ReprC!"]}
{"id": "C72", "title": "A newtype of a C function has the layout of a nullable C function, whatever its lifetimes", "statement": "#[derive_ReprC] on a newtype of an extern \"C\" function gives it the layout of a nullable C function with the layouts of its argument types and result type, in order, with no trace of its lifetimes; all of that is well-formed Rust. It asks exactly that each of these types be ReprC whatever the lifetimes bound or elided in it: each bound is closed, elides nothing and is about that very type. A value is valid exactly if it is not null, and null is what None is made of.", "quantifier": "every such newtype: all nestings of paths, references, pointers, tuples and function pointers, all ways to name, bind and elide lifetimes", "why_tests_cant": "All types and all ways of writing lifetimes; a mistake shows up as a compile error in the user's crate, for types no test has.", "anchors": ["src/proc_macro/derives/handle_fptr.rs: try_handle_fptr", "src/proc_macro/derives/handle_fptr.rs: UnelideLifetimes", "src/proc_macro/derives/handle_fptr.rs: StripLifetimeParams"]}
{"id": "C73", "title": "A future of an async exported function captures no borrowed argument, and the glue for JavaScript names no lifetime", "statement": "For the JavaScript side of an exported function, the types of its arguments are written once more, in type aliases next to the function, in the layouts of vtables and, for an async function, in the parameters of the function that makes the future. This changes nothing of a type but its lifetimes. In aliases every lifetime outside of Fn(..) is 'static; in the parameters every lifetime that is not 'static, written or elided, becomes that of its own argument, and those of two arguments differ. If the result compiles, whatever the future can capture from before ffi_await! is an argument whose declared type borrows nothing, exactly the arguments whose every written lifetime is 'static. The result compiles for all arguments with no for<..>, no Fn(..) and all their lifetimes; a path that leaves out its lifetimes is rejected. It does not for a function pointer with for<..>; a callback that takes a reference can not be captured though it borrows nothing; and an argument declared 'static can, though JavaScript lends it for the call only.", "quantifier": "All types built from paths with lifetimes, references, pointers, function pointers with binders, Fn(..), trait objects and tuples; all lists of arguments; all assignments of lifetime parameters to names.", "why_tests_cant": "Whether a wrong signature is accepted is seen only by writing it, and the future that keeps a dead borrow fails only when the buffer is reused.", "anchors": ["src/proc_macro/utils/_mod.rs RemapNonStaticLifetimesTo", "src/proc_macro/ffi_export/fn_/async_fn.rs export", "src/proc_macro/ffi_export/fn_/mod.rs handle", "src/proc_macro/derives/dyn_trait/_mod.rs CType"]}
{"id": "C74", "title": "C# calls exported functions with the ABI Rust defines them with", "statement": "With a generated C# header, .NET calls each exported function with the calling convention, the parameters and the result that the Rust function has: same sizes, offsets, signs and kinds of numbers, one-byte booleans, callbacks called back in the same way. Structs behind pointers have the layout Rust gives them.", "quantifier": "every exported function, every types of parameters and results at any depth, every platform", "why_tests_cant": "Needs .NET and all types; a wrong marshaler shows only in the upper bytes of an argument or in the offsets of later fields.", "anchors": ["src/headers/languages/csharp.rs: emit_struct, emit_function, emit_simple_enum, emit_opaque_type", "src/layout/impls.rs: csharp_define_self, legacy_csharp_marshaler", "src/layout/_mod.rs: csharp_marshaler", "src/proc_macro/derives/c_type/struct_.rs: derive_transparent"]}
{"id": "C75", "title": "Calling a method of a VirtualPtr calls that method of the object, from Rust and from C", "statement": "A simple trait (only methods, with &Self or &mut Self receivers, possibly pinned) under #[derive_ReprC(dyn)] becomes a dynamic trait. Whatever pointer a VirtualPtr was made of and however often it was cloned, a call of a method on it is one call of the method of that name on the object it points to, with the arguments in order, and returns its result. C finds release_vptr, then retain_vptr if Clone was asked for, then one function pointer per method in the order of the trait, with the layouts of its arguments, and calling the i-th of them is calling the i-th method.", "quantifier": "every trait, with any methods, argument lists, generics and supertraits; every source pointer; any number of clones; all argument values; every implementation", "why_tests_cant": "Tests call a few methods of a few traits; a swapped slot of two methods with the same signature, or generics in another order, shows only for some traits.", "anchors": ["src/proc_macro/derives/dyn_trait/vtable_entry.rs: virtual_forwarding, type_and_value, vtable_entries", "src/proc_macro/derives/dyn_trait/_mod.rs: try_handle_trait", "src/dyn_traits/_mod.rs: VirtualPtr", "guide/src/dyn_traits/derive_reprc_dyn.md"]}
{"id": "C76", "title": "Documentation comments of C# headers are well-formed XML that says what the documentation says", "statement": "The C# compiler reads the /// lines before a declaration as XML. For every documented item, the comment safer_ffi prints is well-formed XML: a summary element that contains the lines of the documentation, code between backticks being in c elements, and nothing else.", "quantifier": "for all documentation (any number of lines, any text in them) and all indentations", "why_tests_cant": "Tests print a few items whose documentation is plain text; whether angle brackets, ampersands or unpaired backticks of the documentation break the XML depends on the text of users, and the compiler only warns about it.", "anchors": ["src/headers/languages/csharp.rs:9-53", "src/headers/languages/_mod.rs", "src/proc_macro/utils/_mod.rs:213-238"]}
{"id": "C77", "title": "Wrappers cross threads exactly when what they hold may", "statement": "A wrapper of safer_ffi (boxes, vectors, slices, strings, C strings, tagged options, tuples, boxed, counted and borrowed closures, Bytes) that is Send can be given to another thread, one that is Sync can be shared with it, and through no sequence of safe operations does that thread then own, or borrow mutably, a value of a type that is not Send, or share one of a type that is not Sync, also if the type of a closure or of an owner has been erased. Wrappers are Send and Sync exactly when the Rust types they stand for are (a char_p_raw always, and it gives access to nothing), and types without raw pointers and mutable closures are exactly when it is harmless.", "quantifier": "for all types built from the wrappers and Rust references, boxes, vectors, counted pointers and pairs around any types, at any depth; for all sequences of operations", "why_tests_cant": "The bounds of an unsafe impl are checked by nobody; a missing one shows up as a data race in a program that nests the right types.", "anchors": ["src/slice.rs", "src/vec.rs", "src/boxed.rs", "src/char_p.rs", "src/closure/arc.rs", "src/closure/boxed.rs", "src/closure/borrowed.rs", "src/bytes.rs:643-668", "src/ptr.rs", "src/utils/markers.rs"]}
{"id": "C78", "title": "Subtyping of wrappers is sound: nothing is used for longer than it is there", "statement": "Where rustc takes a wrapper for one with other lifetimes, by the variance of its fields, this is sound: whatever is done with the value at its new type, everything read from it lasts as long as its type there says, everything written through it to a place of someone else lasts as long as that one expects, and arguments and results of closures do too. Owning wrappers and slice_ref are covariant, slice_mut is invariant in its elements, closures are contravariant in their arguments.", "quantifier": "for all pairs of types in the subtype relation, at any depth, and all sequences of operations and calls", "why_tests_cant": "rustc infers variance from private fields and markers; a wrong marker compiles, and only a program that stores a short-lived reference through a longer-lived handle shows it.", "anchors": ["src/utils/markers.rs", "src/ptr.rs:14-40", "src/slice.rs", "src/vec.rs", "src/boxed.rs", "src/char_p.rs", "src/closure/borrowed.rs", "src/bytes.rs:24-41"]}
{"id": "C79", "title": "A handle reaches nothing that is dead while its own type can be named", "statement": "As long as the lifetimes written in the type of a handle last, whatever is reached from it by safe operations lasts too, including what its type does not mention: closures and owners that have been erased hold nothing with a lifetime shorter than the handle's. A handle got from another expires no later than it, unless it was stored in it.", "quantifier": "for all types that can be built, all times, all sequences of operations", "why_tests_cant": "Lifetime bounds of constructors that erase types are invisible at run time; a missing one is a use after free in some program nobody has written yet.", "anchors": ["src/closure/arc.rs:85-123", "src/closure/boxed.rs:82-115", "src/closure/borrowed.rs:51-107", "src/bytes.rs:500", "src/slice.rs"]}
{"id": "C80", "title": "The exported symbol runs the function it was made for, whatever names are in it", "statement": "A call of the symbol that #[ffi_export] makes for a function is a call of that function with the arguments in order, and the types of the symbol are those in the header, whatever names the function, its parameters, its types and the items around it have; if names clash, compilation fails. The same holds of the function made for JavaScript, with each argument converted at the type of its parameter, and in the body of an async function names mean what they mean in the function the user wrote.", "quantifier": "for all functions that rustc accepts, with all names of parameters, types, items around and in the body, including those the macro itself generates", "why_tests_cant": "Tests use the names that come to mind; names that collide with generated ones, or shadow the function itself, compile into a call of something else only in the programs nobody tests.", "anchors": ["src/proc_macro/ffi_export/fn_/mod.rs:86-191", "src/proc_macro/ffi_export/fn_/mod.rs:193-352", "src/proc_macro/ffi_export/fn_/async_fn.rs:129-312"]}
{"id": "C81", "title": "Bytes convert to and from the counted slices behind them, as documented", "statement": "With the feature stabby, Bytes are made of and turned back into stabby's ArcSlice<u8>, and copies are made into one. Converting back succeeds exactly for values backed by an ArcSlice that start where it starts; the ArcSlice then holds the bytes of the value and no count changes; otherwise the value is handed back as it was. An ArcSlice made into Bytes and back is the same one. As documented, the conversion (to Arc<[u8]> without stabby) succeeds for every clone or upgrade of a value whose type requires an allocation for it, and fails for values that have been shrunk.", "quantifier": "for all programs of operations on any number of values, arcs, boxes, statics and borrows, on all platforms, with and without stabby", "why_tests_cant": "Tests convert a value they just made; which of the values that are shared, shrunk, short or backed by something else are taken, and what becomes of the counts, depends on the history.", "anchors": ["src/bytes.rs:550-642", "src/bytes.rs:706-767", "src/bytes.rs:322-332", "src/bytes.rs:338-372"]}
{"id": "C82", "title": "A C compiler reads the generated header as exactly the declarations meant", "statement": "Read the way C reads a file, character by character (comments, preprocessor, tokens), a generated C header consists of exactly its declarations: one prototype per function with its name, its parameters and their types, the typedefs of structs, aliases and opaque types with their fields, the enums with their constants, the #defines of constants with their values, each ended where it must be, and nothing from the documentation. It declares them once however often it is included, inside extern \"C\" for C++, and with plain C enums under Doxygen. The file for Python's cffi reads as the same declarations. For this names must be identifiers, documentation must not end the comment it is in, the texts of constants must be lexically closed, and no constant may be named DOXYGEN or __cplusplus.", "quantifier": "for all lists of exported items with types nested to any depth, any documentation that ends no comment, all platforms, both function styles, all macros defined before", "why_tests_cant": "Snapshot tests compare one header with itself; a missing space, semicolon, line end or endif in a combination of nested types, documentation and options that is not in the snapshot is seen only by the C compiler of a user.", "anchors": ["src/headers/_mod.rs:326-423", "src/headers/languages/c.rs", "src/headers/languages/python.rs", "src/headers/languages/mod.rs", "src/headers/templates/c", "ffi_tests/generated.h", "ffi_tests/generated.cffi", "ffi_tests/generated.cs"]}
{"id": "C83", "title": "A C# compiler reads the generated file as exactly the declarations meant", "statement": "Read the way C# reads a file, character by character (comments, documentation lines, #pragma and #if, tokens), a generated C# file consists of exactly its declarations inside one namespace named after the library: structs with their layout attribute, size, fields and marshalers, numbered or fixed fields for arrays, enums with their base and values, opaque structs, delegates and functions with the attributes of parameters and results, typed constants with their values. Each is ended where it must be and nothing of the documentation is code. The name of the library is the framework's path exactly if IOS is defined. For this names must be identifiers, documentation lines must be single lines, and the texts of constants must be lexically closed.", "quantifier": "for all lists of exported items with types nested to any depth, any documentation without line ends in a line, all platforms, all conditional compilation symbols", "why_tests_cant": "The one snapshot is compared with itself and compiled for one set of types; attributes, separators and line ends for other combinations of arguments, nested pointers, arrays and callbacks are seen only by the C# compiler of a user.", "anchors": ["src/headers/languages/csharp.rs", "src/layout/impls.rs:152-198", "src/layout/impls.rs:314-378", "src/headers/_mod.rs:326-446", "src/headers/templates/csharp", "ffi_tests/generated.cs"]}
{"id": "C84", "title": "The generated header compiles, and what it declares is what the Rust code exports", "statement": "A C compiler that reads a generated header (characters to tokens to declarations, each name looked up among those declared before it, sizes and layouts computed from the definitions it has seen) accepts it. Afterwards exactly the exported functions are declared, each with the C equivalents of its Rust parameter and return types, all typedefs resolved; every exported type has its name; the enumerators of an enum have the values of the Rust variants; every constant is a macro. A call compiled against the header is passed as the Rust function receives it: same registers' worth of integers, signedness, sizes, alignments, field offsets, and calling convention. A second inclusion declares nothing. This holds if no two types, functions, enumerators, macros and parameters get one C name, no keyword is used as a name, arrays and parameters are of sized types, isize is not used, and c_char is not passed where char is signed.", "quantifier": "for all lists of exported items with types nested to any depth, all platforms with 4- or 8-byte pointers, sorted or unsorted declarations", "why_tests_cant": "Whether a combination of types compiles in C, and compiles to the right layout and calling sequence, shows only when a C program using that combination is compiled and run; the test suite has one such program.", "anchors": ["src/headers/_mod.rs:326-446", "src/headers/languages/c.rs", "src/headers/definer.rs", "src/layout/impls.rs", "src/layout/_mod.rs", "src/headers/templates/c", "ffi_tests/generated.h"]}
{"id": "C85", "title": "generate() tells the truth about the header it wrote, and the options of the builder mean what they say", "statement": "If safer_ffi::headers::builder()….generate() returns Ok, the writer (or the file given to to_file, whatever it held before) holds exactly the header for the exported items and the options, each option at the last value it was given, in whatever order. If the writer fails, the first error is returned and the writer holds the beginning of that header. A writer that does not fail gets all of it. If an exported function has a name that is taken, the error names it and the items before it have been written; if the name of the library is needed and unknown, it panics after the banner; no other file is touched. The naming convention is followed; Ok also means that a buffered writer has passed everything on.", "quantifier": "every sequence of option calls, every list of exported items, every writer (short writes, interruptions, errors at any byte), every way write! cuts the text, every capacity of a BufWriter", "why_tests_cant": "Tests write to files and vectors that never fail; failures at every byte, interrupted writes and every sequence of options cannot be enumerated.", "anchors": ["src/headers/_mod.rs: Builder, generate_with_definer, write_body, to_file, to_writer", "src/headers/definer.rs: define_once, HashSetDefiner", "src/proc_macro/ffi_export/fn_/mod.rs: gen_def"]}
{"id": "C86", "title": "The types of stabby cross the FFI boundary as what they are, and trait objects can be upcast", "statement": "For the types of the stabby crate that have a C layout here (Box, Arc, Weak, their slices and strings, Dyn, DynRef, the tables VtDrop, VTable, VtSend and VtSync, StableIf, StableLike, Stabbied): the C layout has the size and the alignment of the type; every value crosses unchanged in both directions; from_raw accepts exactly the byte patterns of values: a null or misaligned pointer, start, end or table is refused, anywhere inside. For an Option of an owning pointer null is None, and any other pattern is treated as without the Option. A table of functions accepted for several traits is, in its first bytes, an accepted table for the traits before the last; it starts with a drop function that is not null; and a trait object with the larger table is accepted as one with the smaller. Stabbied<T> accepts what stabby does not call invalid, its Option everything. A slice whose end lies before its start, or within an element, is refused.", "quantifier": "all byte patterns, all pointees, tables of any number of traits, both endiannesses, every pointer size", "why_tests_cant": "All byte patterns of two pointers and of tables of any length cannot be enumerated; there are no tests of these impls.", "anchors": ["src/stabby/_mod.rs", "src/stabby/boxed_impl.rs", "src/stabby/sync_impl.rs", "src/stabby/fatptr_impl.rs", "src/layout/niche.rs"]}
{"id": "C87", "title": "What awaiting a task spawned on a tokio runtime gives is what has become of the task", "statement": "For futures and blocking calls spawned through the FFI onto tokio::runtime::Handle: awaiting is pending while the task runs; it yields the output, at once and unchanged, if the task has given one; it panics with the payload of the user's panic if the task has panicked; a blocking call that the runtime dropped before calling it yields None. Whoever awaits is woken exactly once, when the task has come to its end, and no earlier. Whatever the runtime does, including shutting down at any time and detaching, the guarantees for arbitrary executors hold (nothing is yielded that was not computed, outputs are not lost or dropped twice). A future that completes at its poll k, polled that often, is awaited with its output. Awaiting a future that was dropped with the runtime panics saying that the executor dropped the task.", "quantifier": "all futures and actions (any number of pending polls, panics), all interleavings of work, shutdown, awaiting with any wakers, and detaching; toolchains where panics leave extern \"C\" functions and where they abort", "why_tests_cant": "Shutdowns between any two polls, with the waiter at any point, are not reachable by tests in a controlled way; the cancellation branch is not tested at all.", "anchors": ["src/dyn_traits/futures/executor.rs:141-192", "src/dyn_traits/futures/executor.rs:51-99"]}
{"id": "C88", "title": "Slices with a C layout compare, hash, clone and default as their contents", "statement": "slice_ref, slice_mut and slice_boxed: == holds exactly if the lengths are equal and the elements are, pairwise; cmp and partial_cmp are lexicographic in those of the elements (incomparable exactly if, after equal beginnings, two elements are), so a total order of the elements gives a total order of the slices that agrees with ==. A hasher is told the length and then the elements, exactly as for the Rust slice, so equal slices hash equally. Addresses, kinds of slices and what follows the last element do not matter. The default is empty and owns nothing. A clone of slice_boxed has the same elements, in memory of its own: dropping it frees exactly that and leaves the original. If cloning an element panics, the elements cloned so far are dropped once and nothing stays allocated.", "quantifier": "all contents and addresses, all element types (zero-sized, not reflexive, partially ordered), panics at any element", "why_tests_cant": "Orders of arbitrary element types, elements that are not equal to themselves and panics in the midst of a clone are not covered by tests of sample slices.", "anchors": ["src/slice.rs:562-739"]}
{"id": "C89", "title": "safer_ffi::libc has each C type: that of ::libc where it has one, the replacement elsewhere", "statement": "Whatever ::libc defines on a platform, the module compiles, and c_char, c_int, size_t and uintptr_t are ::libc's type of that name exactly if it has one, and u8, ::core::ffi::c_int, usize and usize otherwise. It exports these types and nothing else (neither constants nor other items of ::libc), and depends on nothing but which of these types there are. More generally the macro does so for every list of names, and compiles exactly if no name is repeated and none is that of one of its own modules. The crate's assertions refuse exactly the platforms whose char is neither u8 nor i8 or (with std, not on wasm32) whose uintptr_t and size_t differ in size; where they pass, the newtypes c_char and c_int are as large as the types they stand for.", "quantifier": "every set of items of ::libc in both namespaces, every list of names and replacements, every platform", "why_tests_cant": "Tests run on platforms on which ::libc has all of these types; the replacements are never compiled.", "anchors": ["src/libc.rs:13-75", "src/c_char.rs:22-46", "src/layout/impls.rs:4-9", "src/layout/impls.rs:896-899"]}
{"id": "C90", "title": "TaggedOption is used as Option is", "statement": "Every program that converts options to and from TaggedOption, reads and writes them through as_ref and as_mut, and uses map_or_else, unwrap_or_else, and_then, take, moves and drops does exactly what it does with the standard Option: the same closures are called with the same values, the same values are seen, returned and dropped, in the same order, whatever the closures answer and wherever they panic. Each payload ends exactly once (dropped, moved into a closure, or handed out) and each closure is called or dropped exactly once. Equality and order are those of Option (None first, then by payload); equal values hash equally, though not as the Option does.", "quantifier": "all programs, stores, payloads, closures (answers and panics), element comparisons and hashes", "why_tests_cant": "Tests use sample options; no test looks at drops or at panics in closures.", "anchors": ["src/option.rs:17-23", "src/option.rs:45-116"]}
{"id": "C91", "title": "Memory is freed and values are dropped once even if destructors panic", "statement": "Dropping a repr_c Box, Vec or slice_boxed, and NonNullOwned::drop_in_place_and_dealloc, drop each value exactly once, in order, and free the memory with the layout it was allocated with, also when a destructor panics; when a second one panics meanwhile the process aborts without having dropped anything twice. Zero-sized values have no memory to free. Assigning through a Box drops the old value once and leaves the new one even if that panics; a clone that panics changes nothing. NonNullOwned::dealloc::<U> is defined exactly if U is zero-sized or the block is allocated with the layout of U.", "quantifier": "all heaps, values, layouts, lengths and capacities, all sets of destructors that panic", "why_tests_cant": "Destructors of tests do not panic, and leaks are not seen by tests.", "anchors": ["src/boxed.rs:16-110", "src/ptr.rs:178-206", "src/vec.rs:89-102", "src/slice.rs:202-219"]}
