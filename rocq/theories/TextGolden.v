(** The crate /repo/ffi_tests: its exported items, and the headers checked in beside it.

    Sources: ffi_tests/src/lib.rs 1-266 and 305-340, ffi_tests/generated.h, ffi_tests/generated.cs,
    ffi_tests/generated.cffi (all in /repo); src/futures/{executor,future}.rs and src/futures/_mod.rs for the
    exports of [ffi_export_future_helpers!], src/closure/*.rs, src/slice.rs 262-297 for the types of the
    library.  The three texts are copies of the files, line by line. *)

From Coq Require Import NArith ZArith List Bool String Ascii.
From stdpp Require Import base numbers list strings.
From Verif Require Import NameModel HeaderModel TextModel.
Local Open Scope string_scope.

(** ** The items *)

Definition lines_of (l : list string) : docs := map chars l.
Definition no : docs := [].
Definition foo_ty : xty := XOpaque no "foo".
Definition enum_ty : xty := XOpaque no "Enum".
Definition opaque (ty_name short : string) : xty :=
  XOpaque [chars ("The layout of `" +:+ ty_name +:+ "` is opaque/subject to changes.")] short.
Definition context : xty := opaque "core::task::wake::Context" "Opaque_Context".
Definition erased : xty := XOpaque no "Erased".
Definition void_ptr : xty := XPtr false XVoid.
Definition bar : xty := XEnum no "Bar" (Some I8) [(no, chars "A", Some 43%Z); (no, chars "B", Some 42%Z)].
Definition some_repr_c_enum : xty :=
  XEnum (lines_of [" This is a `#[repr(C)]` enum, which leads to a classic enum def."]) "SomeReprCEnum" None
    [(lines_of [" This is some variant."], chars "SomeVariant", None)].
Definition wow : xty := XEnum no "Wow" (Some U8) [(no, chars "Leroy", None); (no, chars "Jenkins", None)].
Definition triforce : xty :=
  XEnum (lines_of [" Hello, `World`!"]) "triforce" (Some U8)
    [(no, chars "Din", Some 3%Z); (no, chars "Farore", Some 1%Z); (no, chars "Naryu", None)].
(** [CVoid] is the layout of the field [bar: ()], which an alias has no use for. *)
Definition my_renamed_ptr : xty := XAlias no "my_renamed_ptr" void_ptr.
Definition next : xty :=
  XStruct (lines_of ["Hello, `World`!"]) "next_generation" []
    [(lines_of [" I test some `gen`-eration."], "gen", bar);
     (lines_of [" with function pointers and everything!"], "cb", XFn void_ptr [XBool])].
Definition an_unused_struct : xty := XStruct no "AnUnusedStruct" [] [(no, "are_you_still_there", wow)].

Definition arc_dyn_fn0 : xty :=
  XStruct (lines_of ["`Arc<dyn Send + Sync + Fn() -> Ret>`"]) "ArcDynFn0" [XVoid]
    [(no, "env_ptr", void_ptr); (no, "call", XFn XVoid [void_ptr]); (no, "release", XFn XVoid [void_ptr]);
     (no, "retain", XFn XVoid [void_ptr]); (no, "_phantom", XVoid)].
Definition box_dyn_fn_mut0 : xty :=
  XStruct (lines_of ["`Box<dyn 'static + Send + FnMut() -> Ret>`"]) "BoxDynFnMut0" [XVoid]
    [(no, "env_ptr", void_ptr); (no, "call", XFn XVoid [void_ptr]); (no, "free", XFn XVoid [void_ptr]);
     (no, "_phantom", XVoid)].
Definition str_ref : xty := XPtr true XChar.
Definition ref_dyn_fn_mut1 : xty :=
  XStruct (lines_of ["`&'lt mut (dyn 'lt + Send + FnMut(A1) -> Ret)`"]) "RefDynFnMut1" [XVoid; str_ref]
    [(no, "env_ptr", void_ptr); (no, "call", XFn XVoid [void_ptr; str_ref]); (no, "_lt", XVoid)].
Definition slice_ref_i32 : xty :=
  XStruct (lines_of [" `&'lt [T]` but with a guaranteed `#[repr(C)]` layout."; "";
                     " # C layout (for some given type T)"; ""; " ```c"; " typedef struct {";
                     "     // Cannot be NULL"; "     T * ptr;"; "     size_t len;"; " } slice_T;"; " ```"; "";
                     " # Nullable pointer?"; "";
                     " If you want to support the above typedef, but where the `ptr` field is";
                     " allowed to be `NULL` (with the contents of `len` then being undefined)";
                     " use the `Option< slice_ptr<_> >` type."]) "slice_ref" [XInt I32]
    [(lines_of [" Pointer to the first element (if any)."], "ptr", XPtr true (XInt I32));
     (lines_of [" Element count"], "len", XInt Usize);
     (no, "_lt", XVoid)].

(** [dyn_trait]: the table of a trait, and a pointer with it. *)
Definition virtual_ptr (vtable : xty) : xty :=
  XStruct no "VirtualPtr_" [XPtr false erased; vtable] [(no, "ptr", XPtr false erased); (no, "vtable", vtable)].
Definition release_vptr : docs * string * xty := (no, "release_vptr", XFn XVoid [XPtr false erased]).
Definition poll_future : xty :=
  XEnum (lines_of [" An FFI-safe `Poll<()>`."]) "PollFuture" (Some I8)
    [(no, chars "Completed", Some 0%Z); (no, chars "Pending", Some (-1)%Z)].
Definition future_vtable : xty :=
  XStruct no "FfiFutureVTable" []
    [release_vptr; (no, "dyn_poll", XFn poll_future [XPtr false erased; XPtr false context]); (no, "_phantom", XVoid)].
Definition drop_glue_vtable : xty := XStruct no "DropGlueVTable" [] [release_vptr; (no, "_phantom", XVoid)].
Definition executor_vtable : xty :=
  XStruct no "FfiFutureExecutorVTable" []
    [release_vptr;
     (no, "retain_vptr", XFn (XPtr false erased) [XPtr true erased]);
     (no, "dyn_spawn", XFn (virtual_ptr future_vtable) [XPtr true erased; virtual_ptr future_vtable]);
     (no, "dyn_spawn_blocking", XFn (virtual_ptr future_vtable) [XPtr true erased; box_dyn_fn_mut0]);
     (no, "dyn_block_on", XFn XVoid [XPtr true erased; virtual_ptr future_vtable]);
     (no, "dyn_enter", XFn (virtual_ptr drop_glue_vtable) [XPtr true erased]);
     (no, "_phantom", XVoid)].

Definition ffi_tests : list xitem := [
  JFn (lines_of [" Concatenate the two input strings into a new one."; "";
                 " The returned string must be freed using `free_char_p`."])
    "concat" [("fst", str_ref); ("snd", str_ref)] (XPtr false XChar);
  JFn (lines_of [" Frees a string created by `concat`."]) "free_char_p" [("_string", XPtr false XChar)] XVoid;
  JFn no "returns_a_fn_ptr" [] (XFn (XInt U16) [XInt U8]);
  JFn no "call_in_the_background" [("f", arc_dyn_fn0)] XVoid;
  JFn (lines_of [" https://github.com/getditto/safer_ffi/issues/45"]) "_issue_45" [("__arg_0", XInt I32)] (XInt I32);
  JFn (lines_of [" Same as `concat`, but with a callback-based API to auto-free the created"; " string."])
    "with_concat" [("fst", str_ref); ("snd", str_ref); ("cb", ref_dyn_fn_mut1)] XVoid;
  JFn (lines_of [" Returns a pointer to the maximum integer of the input slice, or `NULL` if"; " it is empty."])
    "max" [("xs", slice_ref_i32)] (XPtr true (XInt I32));
  JFn no "read_foo" [("foo", XPtr true foo_ty)] (XInt I32);
  JFn no "new_foo" [] (XPtr false foo_ty);
  JFn no "free_foo" [("foo", XPtr false foo_ty)] XVoid;
  JFn no "with_foo" [("cb", XFn XVoid [XPtr false foo_ty])] XBool;
  JFn no "check_bar" [("_bar", bar)] XVoid;
  JFn no "check_SomeReprCEnum" [("_baz", some_repr_c_enum)] XVoid;
  JType "Wow" wow;
  JType "Triforce" triforce;
  JFn no "my_renamed_ptr_api" [] my_renamed_ptr;
  JType "Next" next;
  JType "AnUnusedStruct" an_unused_struct;
  JFn no "async_get_ft" [] (XInt I32);
  JConst no "FOO" (XInt I32) false (chars "42");
  JConst no "SOME_NAME" (opaque "&str" "Opaque__str") true (chars """hello there""");
  JFn no "_some_opaque_std_lib_type" [] (XPtr false (opaque "alloc::string::String" "Opaque_String"));
  JFn no "_my_enum_is_opaque" [] (XPtr false enum_ty);
  JFn no "rust_future_task_context_wake" [("task_context", XPtr true context)] XVoid;
  JFn no "rust_future_task_context_get_waker" [("task_context", XPtr true context)] arc_dyn_fn0;
  JFn no "test_spawner" [("executor", virtual_ptr executor_vtable)] (XInt I32)].

(** ** The files *)

(** ffi_tests/generated.h *)
Definition generated_h : list string := [
  "/*! \file */";
  "/*******************************************";
  " *                                         *";
  " *  File auto-generated by `::safer_ffi`.  *";
  " *                                         *";
  " *  Do not manually edit this file.        *";
  " *                                         *";
  " *******************************************/";
  "";
  "#ifndef __RUST_FFI_TESTS__";
  "#define __RUST_FFI_TESTS__";
  "#ifdef __cplusplus";
  "extern ""C"" {";
  "#endif";
  "";
  "";
  "#include <stddef.h>";
  "#include <stdint.h>";
  "";
  "/** <No documentation available> */";
  "/** \remark Has the same ABI as `uint8_t` **/";
  "#ifdef DOXYGEN";
  "typedef";
  "#endif";
  "enum Wow {";
  "    /** <No documentation available> */";
  "    WOW_LEROY,";
  "    /** <No documentation available> */";
  "    WOW_JENKINS,";
  "}";
  "#ifndef DOXYGEN";
  "; typedef uint8_t";
  "#endif";
  "Wow_t;";
  "";
  "/** <No documentation available> */";
  "typedef struct AnUnusedStruct {";
  "    /** <No documentation available> */";
  "    Wow_t are_you_still_there;";
  "} AnUnusedStruct_t;";
  "";
  "/** <No documentation available> */";
  "#define FOO ((int32_t) 42)";
  "";
  "/** <No documentation available> */";
  "/** \remark Has the same ABI as `int8_t` **/";
  "#ifdef DOXYGEN";
  "typedef";
  "#endif";
  "enum Bar {";
  "    /** <No documentation available> */";
  "    BAR_A = 43,";
  "    /** <No documentation available> */";
  "    BAR_B = 42,";
  "}";
  "#ifndef DOXYGEN";
  "; typedef int8_t";
  "#endif";
  "Bar_t;";
  "";
  "";
  "#include <stdbool.h>";
  "";
  "/** \brief";
  " *  Hello, `World`!";
  " */";
  "typedef struct next_generation {";
  "    /** \brief";
  "     *  I test some `gen`-eration.";
  "     */";
  "    Bar_t gen;";
  "";
  "    /** \brief";
  "     *  with function pointers and everything!";
  "     */";
  "    void * (*cb)(bool);";
  "} next_generation_t;";
  "";
  "/** \brief";
  " *  The layout of `&str` is opaque/subject to changes.";
  " */";
  "typedef struct Opaque__str Opaque__str_t;";
  "";
  "/** <No documentation available> */";
  "#define SOME_NAME ""hello there""";
  "";
  "/** \brief";
  " *  Hello, `World`!";
  " */";
  "/** \remark Has the same ABI as `uint8_t` **/";
  "#ifdef DOXYGEN";
  "typedef";
  "#endif";
  "enum triforce {";
  "    /** <No documentation available> */";
  "    TRIFORCE_DIN = 3,";
  "    /** <No documentation available> */";
  "    TRIFORCE_FARORE = 1,";
  "    /** <No documentation available> */";
  "    TRIFORCE_NARYU,";
  "}";
  "#ifndef DOXYGEN";
  "; typedef uint8_t";
  "#endif";
  "triforce_t;";
  "";
  "/** \brief";
  " *  https://github.com/getditto/safer_ffi/issues/45";
  " */";
  "int32_t";
  "_issue_45 (";
  "    int32_t __arg_0);";
  "";
  "/** <No documentation available> */";
  "typedef struct Enum Enum_t;";
  "";
  "/** <No documentation available> */";
  "Enum_t *";
  "_my_enum_is_opaque (void);";
  "";
  "/** \brief";
  " *  The layout of `alloc::string::String` is opaque/subject to changes.";
  " */";
  "typedef struct Opaque_String Opaque_String_t;";
  "";
  "/** <No documentation available> */";
  "Opaque_String_t *";
  "_some_opaque_std_lib_type (void);";
  "";
  "/** <No documentation available> */";
  "int32_t";
  "async_get_ft (void);";
  "";
  "/** \brief";
  " *  `Arc<dyn Send + Sync + Fn() -> Ret>`";
  " */";
  "typedef struct ArcDynFn0_void {";
  "    /** <No documentation available> */";
  "    void * env_ptr;";
  "";
  "    /** <No documentation available> */";
  "    void (*call)(void *);";
  "";
  "    /** <No documentation available> */";
  "    void (*release)(void *);";
  "";
  "    /** <No documentation available> */";
  "    void (*retain)(void *);";
  "} ArcDynFn0_void_t;";
  "";
  "/** <No documentation available> */";
  "void";
  "call_in_the_background (";
  "    ArcDynFn0_void_t f);";
  "";
  "/** \brief";
  " *  This is a `#[repr(C)]` enum, which leads to a classic enum def.";
  " */";
  "typedef enum SomeReprCEnum {";
  "    /** \brief";
  "     *  This is some variant.";
  "     */";
  "    SOME_REPR_C_ENUM_SOME_VARIANT,";
  "} SomeReprCEnum_t;";
  "";
  "/** <No documentation available> */";
  "void";
  "check_SomeReprCEnum (";
  "    SomeReprCEnum_t _baz);";
  "";
  "/** <No documentation available> */";
  "void";
  "check_bar (";
  "    Bar_t _bar);";
  "";
  "/** \brief";
  " *  Concatenate the two input strings into a new one.";
  " *";
  " *  The returned string must be freed using `free_char_p`.";
  " */";
  "char *";
  "concat (";
  "    char const * fst,";
  "    char const * snd);";
  "";
  "/** \brief";
  " *  Frees a string created by `concat`.";
  " */";
  "void";
  "free_char_p (";
  "    char * _string);";
  "";
  "/** <No documentation available> */";
  "typedef struct foo foo_t;";
  "";
  "/** <No documentation available> */";
  "void";
  "free_foo (";
  "    foo_t * foo);";
  "";
  "/** \brief";
  " *  `&'lt [T]` but with a guaranteed `#[repr(C)]` layout.";
  " *";
  " *  # C layout (for some given type T)";
  " *";
  " *  ```c";
  " *  typedef struct {";
  " *  // Cannot be NULL";
  " *  T * ptr;";
  " *  size_t len;";
  " *  } slice_T;";
  " *  ```";
  " *";
  " *  # Nullable pointer?";
  " *";
  " *  If you want to support the above typedef, but where the `ptr` field is";
  " *  allowed to be `NULL` (with the contents of `len` then being undefined)";
  " *  use the `Option< slice_ptr<_> >` type.";
  " */";
  "typedef struct slice_ref_int32 {";
  "    /** \brief";
  "     *  Pointer to the first element (if any).";
  "     */";
  "    int32_t const * ptr;";
  "";
  "    /** \brief";
  "     *  Element count";
  "     */";
  "    size_t len;";
  "} slice_ref_int32_t;";
  "";
  "/** \brief";
  " *  Returns a pointer to the maximum integer of the input slice, or `NULL` if";
  " *  it is empty.";
  " */";
  "int32_t const *";
  "max (";
  "    slice_ref_int32_t xs);";
  "";
  "/** <No documentation available> */";
  "typedef void * my_renamed_ptr_t;";
  "";
  "/** <No documentation available> */";
  "my_renamed_ptr_t";
  "my_renamed_ptr_api (void);";
  "";
  "/** <No documentation available> */";
  "foo_t *";
  "new_foo (void);";
  "";
  "/** <No documentation available> */";
  "int32_t";
  "read_foo (";
  "    foo_t const * foo);";
  "";
  "/** <No documentation available> */";
  "uint16_t (*";
  "returns_a_fn_ptr (void))(uint8_t);";
  "";
  "/** \brief";
  " *  The layout of `core::task::wake::Context` is opaque/subject to changes.";
  " */";
  "typedef struct Opaque_Context Opaque_Context_t;";
  "";
  "/** <No documentation available> */";
  "ArcDynFn0_void_t";
  "rust_future_task_context_get_waker (";
  "    Opaque_Context_t const * task_context);";
  "";
  "/** <No documentation available> */";
  "void";
  "rust_future_task_context_wake (";
  "    Opaque_Context_t const * task_context);";
  "";
  "/** <No documentation available> */";
  "typedef struct Erased Erased_t;";
  "";
  "/** \brief";
  " *  An FFI-safe `Poll<()>`.";
  " */";
  "/** \remark Has the same ABI as `int8_t` **/";
  "#ifdef DOXYGEN";
  "typedef";
  "#endif";
  "enum PollFuture {";
  "    /** <No documentation available> */";
  "    POLL_FUTURE_COMPLETED = 0,";
  "    /** <No documentation available> */";
  "    POLL_FUTURE_PENDING = -1,";
  "}";
  "#ifndef DOXYGEN";
  "; typedef int8_t";
  "#endif";
  "PollFuture_t;";
  "";
  "/** <No documentation available> */";
  "typedef struct FfiFutureVTable {";
  "    /** <No documentation available> */";
  "    void (*release_vptr)(Erased_t *);";
  "";
  "    /** <No documentation available> */";
  "    PollFuture_t (*dyn_poll)(Erased_t *, Opaque_Context_t *);";
  "} FfiFutureVTable_t;";
  "";
  "/** <No documentation available> */";
  "typedef struct VirtualPtr__Erased_ptr_FfiFutureVTable {";
  "    /** <No documentation available> */";
  "    Erased_t * ptr;";
  "";
  "    /** <No documentation available> */";
  "    FfiFutureVTable_t vtable;";
  "} VirtualPtr__Erased_ptr_FfiFutureVTable_t;";
  "";
  "/** \brief";
  " *  `Box<dyn 'static + Send + FnMut() -> Ret>`";
  " */";
  "typedef struct BoxDynFnMut0_void {";
  "    /** <No documentation available> */";
  "    void * env_ptr;";
  "";
  "    /** <No documentation available> */";
  "    void (*call)(void *);";
  "";
  "    /** <No documentation available> */";
  "    void (*free)(void *);";
  "} BoxDynFnMut0_void_t;";
  "";
  "/** <No documentation available> */";
  "typedef struct DropGlueVTable {";
  "    /** <No documentation available> */";
  "    void (*release_vptr)(Erased_t *);";
  "} DropGlueVTable_t;";
  "";
  "/** <No documentation available> */";
  "typedef struct VirtualPtr__Erased_ptr_DropGlueVTable {";
  "    /** <No documentation available> */";
  "    Erased_t * ptr;";
  "";
  "    /** <No documentation available> */";
  "    DropGlueVTable_t vtable;";
  "} VirtualPtr__Erased_ptr_DropGlueVTable_t;";
  "";
  "/** <No documentation available> */";
  "typedef struct FfiFutureExecutorVTable {";
  "    /** <No documentation available> */";
  "    void (*release_vptr)(Erased_t *);";
  "";
  "    /** <No documentation available> */";
  "    Erased_t * (*retain_vptr)(Erased_t const *);";
  "";
  "    /** <No documentation available> */";
  "    VirtualPtr__Erased_ptr_FfiFutureVTable_t (*dyn_spawn)(Erased_t const *, VirtualPtr__Erased_ptr_FfiFutureVTable_t);";
  "";
  "    /** <No documentation available> */";
  "    VirtualPtr__Erased_ptr_FfiFutureVTable_t (*dyn_spawn_blocking)(Erased_t const *, BoxDynFnMut0_void_t);";
  "";
  "    /** <No documentation available> */";
  "    void (*dyn_block_on)(Erased_t const *, VirtualPtr__Erased_ptr_FfiFutureVTable_t);";
  "";
  "    /** <No documentation available> */";
  "    VirtualPtr__Erased_ptr_DropGlueVTable_t (*dyn_enter)(Erased_t const *);";
  "} FfiFutureExecutorVTable_t;";
  "";
  "/** <No documentation available> */";
  "typedef struct VirtualPtr__Erased_ptr_FfiFutureExecutorVTable {";
  "    /** <No documentation available> */";
  "    Erased_t * ptr;";
  "";
  "    /** <No documentation available> */";
  "    FfiFutureExecutorVTable_t vtable;";
  "} VirtualPtr__Erased_ptr_FfiFutureExecutorVTable_t;";
  "";
  "/** <No documentation available> */";
  "int32_t";
  "test_spawner (";
  "    VirtualPtr__Erased_ptr_FfiFutureExecutorVTable_t executor);";
  "";
  "/** \brief";
  " *  `&'lt mut (dyn 'lt + Send + FnMut(A1) -> Ret)`";
  " */";
  "typedef struct RefDynFnMut1_void_char_const_ptr {";
  "    /** <No documentation available> */";
  "    void * env_ptr;";
  "";
  "    /** <No documentation available> */";
  "    void (*call)(void *, char const *);";
  "} RefDynFnMut1_void_char_const_ptr_t;";
  "";
  "/** \brief";
  " *  Same as `concat`, but with a callback-based API to auto-free the created";
  " *  string.";
  " */";
  "void";
  "with_concat (";
  "    char const * fst,";
  "    char const * snd,";
  "    RefDynFnMut1_void_char_const_ptr_t cb);";
  "";
  "/** <No documentation available> */";
  "bool";
  "with_foo (";
  "    void (*cb)(foo_t *));";
  "";
  "";
  "#ifdef __cplusplus";
  "} /* extern \""C\"" */";
  "#endif";
  "";
  "#endif /* __RUST_FFI_TESTS__ */"].

(** ffi_tests/generated.cs *)
Definition generated_cs : list string := [
  "/*! \file */";
  "/*******************************************";
  " *                                         *";
  " *  File auto-generated by `::safer_ffi`.  *";
  " *                                         *";
  " *  Do not manually edit this file.        *";
  " *                                         *";
  " *******************************************/";
  "";
  "#pragma warning disable IDE0044, IDE0049, IDE0055, IDE1006,";
  "#pragma warning disable SA1004, SA1008, SA1023, SA1028,";
  "#pragma warning disable SA1121, SA1134,";
  "#pragma warning disable SA1201,";
  "#pragma warning disable SA1300, SA1306, SA1307, SA1310, SA1313,";
  "#pragma warning disable SA1500, SA1505, SA1507,";
  "#pragma warning disable SA1600, SA1601, SA1604, SA1605, SA1611, SA1615, SA1649,";
  "";
  "namespace FfiTests {";
  "using System;";
  "using System.Runtime.InteropServices;";
  "";
  "public unsafe partial class Ffi {";
  "#if IOS";
  "    private const string RustLib = ""ffi_tests.framework/ffi_tests"";";
  "#else";
  "    private const string RustLib = ""ffi_tests"";";
  "#endif";
  "}";
  "";
  "public enum Wow_t : byte {";
  "    Leroy,";
  "    Jenkins,";
  "}";
  "";
  "[StructLayout(LayoutKind.Sequential, Size = 1)]";
  "public unsafe struct AnUnusedStruct_t {";
  "    public Wow_t are_you_still_there;";
  "}";
  "";
  "public unsafe partial class Ffi {";
  "    public const Int32 FOO = 42;";
  "}";
  "";
  "public enum Bar_t : sbyte {";
  "    A = 43,";
  "    B = 42,";
  "}";
  "";
  "[UnmanagedFunctionPointer(CallingConvention.Winapi)]";
  "public unsafe /* static */ delegate";
  "    void *";
  "    void_ptr_bool_fptr (";
  "        [MarshalAs(UnmanagedType.U1)]";
  "        bool _0);";
  "";
  "/// <summary>";
  "/// Hello, <c>World</c>!";
  "/// </summary>";
  "[StructLayout(LayoutKind.Sequential, Size = 16)]";
  "public unsafe struct next_generation_t {";
  "    /// <summary>";
  "    /// I test some <c>gen</c>-eration.";
  "    /// </summary>";
  "    public Bar_t gen;";
  "";
  "    /// <summary>";
  "    /// with function pointers and everything!";
  "    /// </summary>";
  "    [MarshalAs(UnmanagedType.FunctionPtr)]";
  "    public void_ptr_bool_fptr cb;";
  "}";
  "";
  "/// <summary>";
  "/// The layout of <c>&str</c> is opaque/subject to changes.";
  "/// </summary>";
  "public struct Opaque__str_t {";
  "    #pragma warning disable 0169";
  "    private byte OPAQUE;";
  "    #pragma warning restore 0169";
  "}";
  "";
  "/// <summary>";
  "/// Hello, <c>World</c>!";
  "/// </summary>";
  "public enum triforce_t : byte {";
  "    Din = 3,";
  "    Farore = 1,";
  "    Naryu,";
  "}";
  "";
  "public unsafe partial class Ffi {";
  "    /// <summary>";
  "    /// https://github.com/getditto/safer_ffi/issues/45";
  "    /// </summary>";
  "    [DllImport(RustLib, ExactSpelling = true)] public static unsafe extern";
  "    Int32 _issue_45 (";
  "        Int32 __arg_0);";
  "}";
  "";
  "public struct Enum_t {";
  "    #pragma warning disable 0169";
  "    private byte OPAQUE;";
  "    #pragma warning restore 0169";
  "}";
  "";
  "public unsafe partial class Ffi {";
  "    [DllImport(RustLib, ExactSpelling = true)] public static unsafe extern";
  "    Enum_t * _my_enum_is_opaque ();";
  "}";
  "";
  "/// <summary>";
  "/// The layout of <c>alloc::string::String</c> is opaque/subject to changes.";
  "/// </summary>";
  "public struct Opaque_String_t {";
  "    #pragma warning disable 0169";
  "    private byte OPAQUE;";
  "    #pragma warning restore 0169";
  "}";
  "";
  "public unsafe partial class Ffi {";
  "    [DllImport(RustLib, ExactSpelling = true)] public static unsafe extern";
  "    Opaque_String_t * _some_opaque_std_lib_type ();";
  "}";
  "";
  "public unsafe partial class Ffi {";
  "    [DllImport(RustLib, ExactSpelling = true)] public static unsafe extern";
  "    Int32 async_get_ft ();";
  "}";
  "";
  "[UnmanagedFunctionPointer(CallingConvention.Winapi)]";
  "public unsafe /* static */ delegate";
  "    void";
  "    void_void_ptr_fptr (";
  "        void * _0);";
  "";
  "/// <summary>";
  "/// <c>Arc<dyn Send + Sync + Fn() -> Ret></c>";
  "/// </summary>";
  "[StructLayout(LayoutKind.Sequential, Size = 32)]";
  "public unsafe struct ArcDynFn0_void_t {";
  "    public void * env_ptr;";
  "";
  "    [MarshalAs(UnmanagedType.FunctionPtr)]";
  "    public void_void_ptr_fptr call;";
  "";
  "    [MarshalAs(UnmanagedType.FunctionPtr)]";
  "    public void_void_ptr_fptr release;";
  "";
  "    [MarshalAs(UnmanagedType.FunctionPtr)]";
  "    public void_void_ptr_fptr retain;";
  "}";
  "";
  "public unsafe partial class Ffi {";
  "    [DllImport(RustLib, ExactSpelling = true)] public static unsafe extern";
  "    void call_in_the_background (";
  "        ArcDynFn0_void_t f);";
  "}";
  "";
  "/// <summary>";
  "/// This is a <c>#[repr(C)]</c> enum, which leads to a classic enum def.";
  "/// </summary>";
  "public enum SomeReprCEnum_t  {";
  "    /// <summary>";
  "    /// This is some variant.";
  "    /// </summary>";
  "    SomeVariant,";
  "}";
  "";
  "public unsafe partial class Ffi {";
  "    [DllImport(RustLib, ExactSpelling = true)] public static unsafe extern";
  "    void check_SomeReprCEnum (";
  "        SomeReprCEnum_t _baz);";
  "}";
  "";
  "public unsafe partial class Ffi {";
  "    [DllImport(RustLib, ExactSpelling = true)] public static unsafe extern";
  "    void check_bar (";
  "        Bar_t _bar);";
  "}";
  "";
  "public unsafe partial class Ffi {";
  "    /// <summary>";
  "    /// Concatenate the two input strings into a new one.";
  "    ///";
  "    /// The returned string must be freed using <c>free_char_p</c>.";
  "    /// </summary>";
  "    [DllImport(RustLib, ExactSpelling = true)] public static unsafe extern";
  "    byte * concat (";
  "        byte /*const*/ * fst,";
  "        byte /*const*/ * snd);";
  "}";
  "";
  "public unsafe partial class Ffi {";
  "    /// <summary>";
  "    /// Frees a string created by <c>concat</c>.";
  "    /// </summary>";
  "    [DllImport(RustLib, ExactSpelling = true)] public static unsafe extern";
  "    void free_char_p (";
  "        byte * _string);";
  "}";
  "";
  "public struct foo_t {";
  "    #pragma warning disable 0169";
  "    private byte OPAQUE;";
  "    #pragma warning restore 0169";
  "}";
  "";
  "public unsafe partial class Ffi {";
  "    [DllImport(RustLib, ExactSpelling = true)] public static unsafe extern";
  "    void free_foo (";
  "        foo_t * foo);";
  "}";
  "";
  "/// <summary>";
  "/// <c>&'lt [T]</c> but with a guaranteed <c>#[repr(C)]</c> layout.";
  "///";
  "/// # C layout (for some given type T)";
  "///";
  "/// ```c";
  "/// typedef struct {";
  "/// // Cannot be NULL";
  "/// T * ptr;";
  "/// size_t len;";
  "/// } slice_T;";
  "/// ```";
  "///";
  "/// # Nullable pointer?";
  "///";
  "/// If you want to support the above typedef, but where the <c>ptr</c> field is";
  "/// allowed to be <c>NULL</c> (with the contents of <c>len</c> then being undefined)";
  "/// use the <c>Option< slice_ptr<_> ></c> type.";
  "/// </summary>";
  "[StructLayout(LayoutKind.Sequential, Size = 16)]";
  "public unsafe struct slice_ref_int32_t {";
  "    /// <summary>";
  "    /// Pointer to the first element (if any).";
  "    /// </summary>";
  "    public Int32 /*const*/ * ptr;";
  "";
  "    /// <summary>";
  "    /// Element count";
  "    /// </summary>";
  "    public UIntPtr len;";
  "}";
  "";
  "public unsafe partial class Ffi {";
  "    /// <summary>";
  "    /// Returns a pointer to the maximum integer of the input slice, or <c>NULL</c> if";
  "    /// it is empty.";
  "    /// </summary>";
  "    [DllImport(RustLib, ExactSpelling = true)] public static unsafe extern";
  "    Int32 /*const*/ * max (";
  "        slice_ref_int32_t xs);";
  "}";
  "";
  "public unsafe partial class Ffi {";
  "    [DllImport(RustLib, ExactSpelling = true)] public static unsafe extern";
  "    void * my_renamed_ptr_api ();";
  "}";
  "";
  "public unsafe partial class Ffi {";
  "    [DllImport(RustLib, ExactSpelling = true)] public static unsafe extern";
  "    foo_t * new_foo ();";
  "}";
  "";
  "public unsafe partial class Ffi {";
  "    [DllImport(RustLib, ExactSpelling = true)] public static unsafe extern";
  "    Int32 read_foo (";
  "        foo_t /*const*/ * foo);";
  "}";
  "";
  "[UnmanagedFunctionPointer(CallingConvention.Winapi)]";
  "public unsafe /* static */ delegate";
  "    UInt16";
  "    uint16_uint8_fptr (";
  "        byte _0);";
  "";
  "public unsafe partial class Ffi {";
  "    [return: MarshalAs(UnmanagedType.FunctionPtr)]";
  "    [DllImport(RustLib, ExactSpelling = true)] public static unsafe extern";
  "    uint16_uint8_fptr returns_a_fn_ptr ();";
  "}";
  "";
  "/// <summary>";
  "/// The layout of <c>core::task::wake::Context</c> is opaque/subject to changes.";
  "/// </summary>";
  "public struct Opaque_Context_t {";
  "    #pragma warning disable 0169";
  "    private byte OPAQUE;";
  "    #pragma warning restore 0169";
  "}";
  "";
  "public unsafe partial class Ffi {";
  "    [DllImport(RustLib, ExactSpelling = true)] public static unsafe extern";
  "    ArcDynFn0_void_t rust_future_task_context_get_waker (";
  "        Opaque_Context_t /*const*/ * task_context);";
  "}";
  "";
  "public unsafe partial class Ffi {";
  "    [DllImport(RustLib, ExactSpelling = true)] public static unsafe extern";
  "    void rust_future_task_context_wake (";
  "        Opaque_Context_t /*const*/ * task_context);";
  "}";
  "";
  "public struct Erased_t {";
  "    #pragma warning disable 0169";
  "    private byte OPAQUE;";
  "    #pragma warning restore 0169";
  "}";
  "";
  "[UnmanagedFunctionPointer(CallingConvention.Winapi)]";
  "public unsafe /* static */ delegate";
  "    void";
  "    void_Erased_ptr_fptr (";
  "        Erased_t * _0);";
  "";
  "[UnmanagedFunctionPointer(CallingConvention.Winapi)]";
  "public unsafe /* static */ delegate";
  "    Erased_t *";
  "    Erased_ptr_Erased_const_ptr_fptr (";
  "        Erased_t /*const*/ * _0);";
  "";
  "/// <summary>";
  "/// An FFI-safe <c>Poll<()></c>.";
  "/// </summary>";
  "public enum PollFuture_t : sbyte {";
  "    Completed = 0,";
  "    Pending = -1,";
  "}";
  "";
  "[UnmanagedFunctionPointer(CallingConvention.Winapi)]";
  "public unsafe /* static */ delegate";
  "    PollFuture_t";
  "    PollFuture_Erased_ptr_Opaque_Context_ptr_fptr (";
  "        Erased_t * _0,";
  "        Opaque_Context_t * _1);";
  "";
  "[StructLayout(LayoutKind.Sequential, Size = 16)]";
  "public unsafe struct FfiFutureVTable_t {";
  "    [MarshalAs(UnmanagedType.FunctionPtr)]";
  "    public void_Erased_ptr_fptr release_vptr;";
  "";
  "    [MarshalAs(UnmanagedType.FunctionPtr)]";
  "    public PollFuture_Erased_ptr_Opaque_Context_ptr_fptr dyn_poll;";
  "}";
  "";
  "[StructLayout(LayoutKind.Sequential, Size = 24)]";
  "public unsafe struct VirtualPtr__Erased_ptr_FfiFutureVTable_t {";
  "    public Erased_t * ptr;";
  "";
  "    public FfiFutureVTable_t vtable;";
  "}";
  "";
  "[UnmanagedFunctionPointer(CallingConvention.Winapi)]";
  "public unsafe /* static */ delegate";
  "    VirtualPtr__Erased_ptr_FfiFutureVTable_t";
  "    VirtualPtr__Erased_ptr_FfiFutureVTable_Erased_const_ptr_VirtualPtr__Erased_ptr_FfiFutureVTable_fptr (";
  "        Erased_t /*const*/ * _0,";
  "        VirtualPtr__Erased_ptr_FfiFutureVTable_t _1);";
  "";
  "/// <summary>";
  "/// <c>Box<dyn 'static + Send + FnMut() -> Ret></c>";
  "/// </summary>";
  "[StructLayout(LayoutKind.Sequential, Size = 24)]";
  "public unsafe struct BoxDynFnMut0_void_t {";
  "    public void * env_ptr;";
  "";
  "    [MarshalAs(UnmanagedType.FunctionPtr)]";
  "    public void_void_ptr_fptr call;";
  "";
  "    [MarshalAs(UnmanagedType.FunctionPtr)]";
  "    public void_void_ptr_fptr free;";
  "}";
  "";
  "[UnmanagedFunctionPointer(CallingConvention.Winapi)]";
  "public unsafe /* static */ delegate";
  "    VirtualPtr__Erased_ptr_FfiFutureVTable_t";
  "    VirtualPtr__Erased_ptr_FfiFutureVTable_Erased_const_ptr_BoxDynFnMut0_void_fptr (";
  "        Erased_t /*const*/ * _0,";
  "        BoxDynFnMut0_void_t _1);";
  "";
  "[UnmanagedFunctionPointer(CallingConvention.Winapi)]";
  "public unsafe /* static */ delegate";
  "    void";
  "    void_Erased_const_ptr_VirtualPtr__Erased_ptr_FfiFutureVTable_fptr (";
  "        Erased_t /*const*/ * _0,";
  "        VirtualPtr__Erased_ptr_FfiFutureVTable_t _1);";
  "";
  "[StructLayout(LayoutKind.Sequential, Size = 8)]";
  "public unsafe struct DropGlueVTable_t {";
  "    [MarshalAs(UnmanagedType.FunctionPtr)]";
  "    public void_Erased_ptr_fptr release_vptr;";
  "}";
  "";
  "[StructLayout(LayoutKind.Sequential, Size = 16)]";
  "public unsafe struct VirtualPtr__Erased_ptr_DropGlueVTable_t {";
  "    public Erased_t * ptr;";
  "";
  "    public DropGlueVTable_t vtable;";
  "}";
  "";
  "[UnmanagedFunctionPointer(CallingConvention.Winapi)]";
  "public unsafe /* static */ delegate";
  "    VirtualPtr__Erased_ptr_DropGlueVTable_t";
  "    VirtualPtr__Erased_ptr_DropGlueVTable_Erased_const_ptr_fptr (";
  "        Erased_t /*const*/ * _0);";
  "";
  "[StructLayout(LayoutKind.Sequential, Size = 48)]";
  "public unsafe struct FfiFutureExecutorVTable_t {";
  "    [MarshalAs(UnmanagedType.FunctionPtr)]";
  "    public void_Erased_ptr_fptr release_vptr;";
  "";
  "    [MarshalAs(UnmanagedType.FunctionPtr)]";
  "    public Erased_ptr_Erased_const_ptr_fptr retain_vptr;";
  "";
  "    [MarshalAs(UnmanagedType.FunctionPtr)]";
  "    public VirtualPtr__Erased_ptr_FfiFutureVTable_Erased_const_ptr_VirtualPtr__Erased_ptr_FfiFutureVTable_fptr dyn_spawn;";
  "";
  "    [MarshalAs(UnmanagedType.FunctionPtr)]";
  "    public VirtualPtr__Erased_ptr_FfiFutureVTable_Erased_const_ptr_BoxDynFnMut0_void_fptr dyn_spawn_blocking;";
  "";
  "    [MarshalAs(UnmanagedType.FunctionPtr)]";
  "    public void_Erased_const_ptr_VirtualPtr__Erased_ptr_FfiFutureVTable_fptr dyn_block_on;";
  "";
  "    [MarshalAs(UnmanagedType.FunctionPtr)]";
  "    public VirtualPtr__Erased_ptr_DropGlueVTable_Erased_const_ptr_fptr dyn_enter;";
  "}";
  "";
  "[StructLayout(LayoutKind.Sequential, Size = 56)]";
  "public unsafe struct VirtualPtr__Erased_ptr_FfiFutureExecutorVTable_t {";
  "    public Erased_t * ptr;";
  "";
  "    public FfiFutureExecutorVTable_t vtable;";
  "}";
  "";
  "public unsafe partial class Ffi {";
  "    [DllImport(RustLib, ExactSpelling = true)] public static unsafe extern";
  "    Int32 test_spawner (";
  "        VirtualPtr__Erased_ptr_FfiFutureExecutorVTable_t executor);";
  "}";
  "";
  "[UnmanagedFunctionPointer(CallingConvention.Winapi)]";
  "public unsafe /* static */ delegate";
  "    void";
  "    void_void_ptr_char_const_ptr_fptr (";
  "        void * _0,";
  "        byte /*const*/ * _1);";
  "";
  "/// <summary>";
  "/// <c>&'lt mut (dyn 'lt + Send + FnMut(A1) -> Ret)</c>";
  "/// </summary>";
  "[StructLayout(LayoutKind.Sequential, Size = 16)]";
  "public unsafe struct RefDynFnMut1_void_char_const_ptr_t {";
  "    public void * env_ptr;";
  "";
  "    [MarshalAs(UnmanagedType.FunctionPtr)]";
  "    public void_void_ptr_char_const_ptr_fptr call;";
  "}";
  "";
  "public unsafe partial class Ffi {";
  "    /// <summary>";
  "    /// Same as <c>concat</c>, but with a callback-based API to auto-free the created";
  "    /// string.";
  "    /// </summary>";
  "    [DllImport(RustLib, ExactSpelling = true)] public static unsafe extern";
  "    void with_concat (";
  "        byte /*const*/ * fst,";
  "        byte /*const*/ * snd,";
  "        RefDynFnMut1_void_char_const_ptr_t cb);";
  "}";
  "";
  "[UnmanagedFunctionPointer(CallingConvention.Winapi)]";
  "public unsafe /* static */ delegate";
  "    void";
  "    void_foo_ptr_fptr (";
  "        foo_t * _0);";
  "";
  "public unsafe partial class Ffi {";
  "    [return: MarshalAs(UnmanagedType.U1)]";
  "    [DllImport(RustLib, ExactSpelling = true)] public static unsafe extern";
  "    bool with_foo (";
  "        [MarshalAs(UnmanagedType.FunctionPtr)]";
  "        void_foo_ptr_fptr cb);";
  "}";
  "";
  "";
  "} /* FfiTests */"].

(** ffi_tests/generated.cffi *)
Definition generated_cffi : list string := [
  "/*! \file */";
  "/*******************************************";
  " *                                         *";
  " *  File auto-generated by `::safer_ffi`.  *";
  " *                                         *";
  " *  Do not manually edit this file.        *";
  " *                                         *";
  " *******************************************/";
  "";
  "";
  "#include <stddef.h>";
  "#include <stdint.h>";
  "";
  "typedef enum Wow {";
  "    WOW_LEROY,";
  "    WOW_JENKINS,";
  "} Wow_t;";
  "";
  "typedef struct AnUnusedStruct {";
  "    Wow_t are_you_still_there;";
  "} AnUnusedStruct_t;";
  "";
  "#define FOO ...";
  "";
  "typedef enum Bar {";
  "    BAR_A,";
  "    BAR_B,";
  "} Bar_t;";
  "";
  "";
  "#include <stdbool.h>";
  "";
  "typedef struct next_generation {";
  "    Bar_t gen;";
  "";
  "    void * (*cb)(bool);";
  "} next_generation_t;";
  "";
  "typedef ... Opaque__str_t;";
  "";
  "#define SOME_NAME ...";
  "";
  "typedef enum triforce {";
  "    TRIFORCE_DIN,";
  "    TRIFORCE_FARORE,";
  "    TRIFORCE_NARYU,";
  "} triforce_t;";
  "";
  "int32_t";
  "_issue_45 (";
  "    int32_t __arg_0);";
  "";
  "/** <No documentation available> */";
  "typedef struct Enum Enum_t;";
  "";
  "Enum_t *";
  "_my_enum_is_opaque (void);";
  "";
  "/** \brief";
  " *  The layout of `alloc::string::String` is opaque/subject to changes.";
  " */";
  "typedef struct Opaque_String Opaque_String_t;";
  "";
  "Opaque_String_t *";
  "_some_opaque_std_lib_type (void);";
  "";
  "int32_t";
  "async_get_ft (void);";
  "";
  "typedef struct ArcDynFn0_void {";
  "    void * env_ptr;";
  "";
  "    void (*call)(void *);";
  "";
  "    void (*release)(void *);";
  "";
  "    void (*retain)(void *);";
  "} ArcDynFn0_void_t;";
  "";
  "void";
  "call_in_the_background (";
  "    ArcDynFn0_void_t f);";
  "";
  "typedef enum SomeReprCEnum {";
  "    SOME_REPR_C_ENUM_SOME_VARIANT,";
  "} SomeReprCEnum_t;";
  "";
  "void";
  "check_SomeReprCEnum (";
  "    SomeReprCEnum_t _baz);";
  "";
  "void";
  "check_bar (";
  "    Bar_t _bar);";
  "";
  "char *";
  "concat (";
  "    char const * fst,";
  "    char const * snd);";
  "";
  "void";
  "free_char_p (";
  "    char * _string);";
  "";
  "/** <No documentation available> */";
  "typedef struct foo foo_t;";
  "";
  "void";
  "free_foo (";
  "    foo_t * foo);";
  "";
  "typedef struct slice_ref_int32 {";
  "    int32_t const * ptr;";
  "";
  "    size_t len;";
  "} slice_ref_int32_t;";
  "";
  "int32_t const *";
  "max (";
  "    slice_ref_int32_t xs);";
  "";
  "void *";
  "my_renamed_ptr_api (void);";
  "";
  "foo_t *";
  "new_foo (void);";
  "";
  "int32_t";
  "read_foo (";
  "    foo_t const * foo);";
  "";
  "uint16_t (*";
  "returns_a_fn_ptr (void))(uint8_t);";
  "";
  "/** \brief";
  " *  The layout of `core::task::wake::Context` is opaque/subject to changes.";
  " */";
  "typedef struct Opaque_Context Opaque_Context_t;";
  "";
  "ArcDynFn0_void_t";
  "rust_future_task_context_get_waker (";
  "    Opaque_Context_t const * task_context);";
  "";
  "void";
  "rust_future_task_context_wake (";
  "    Opaque_Context_t const * task_context);";
  "";
  "/** <No documentation available> */";
  "typedef struct Erased Erased_t;";
  "";
  "/** \brief";
  " *  An FFI-safe `Poll<()>`.";
  " */";
  "/** \remark Has the same ABI as `int8_t` **/";
  "#ifdef DOXYGEN";
  "typedef";
  "#endif";
  "enum PollFuture {";
  "    /** <No documentation available> */";
  "    POLL_FUTURE_COMPLETED = 0,";
  "    /** <No documentation available> */";
  "    POLL_FUTURE_PENDING = -1,";
  "}";
  "#ifndef DOXYGEN";
  "; typedef int8_t";
  "#endif";
  "PollFuture_t;";
  "";
  "/** <No documentation available> */";
  "typedef struct FfiFutureVTable {";
  "    /** <No documentation available> */";
  "    void (*release_vptr)(Erased_t *);";
  "";
  "    /** <No documentation available> */";
  "    PollFuture_t (*dyn_poll)(Erased_t *, Opaque_Context_t *);";
  "} FfiFutureVTable_t;";
  "";
  "/** <No documentation available> */";
  "typedef struct VirtualPtr__Erased_ptr_FfiFutureVTable {";
  "    /** <No documentation available> */";
  "    Erased_t * ptr;";
  "";
  "    /** <No documentation available> */";
  "    FfiFutureVTable_t vtable;";
  "} VirtualPtr__Erased_ptr_FfiFutureVTable_t;";
  "";
  "/** \brief";
  " *  `Box<dyn 'static + Send + FnMut() -> Ret>`";
  " */";
  "typedef struct BoxDynFnMut0_void {";
  "    /** <No documentation available> */";
  "    void * env_ptr;";
  "";
  "    /** <No documentation available> */";
  "    void (*call)(void *);";
  "";
  "    /** <No documentation available> */";
  "    void (*free)(void *);";
  "} BoxDynFnMut0_void_t;";
  "";
  "/** <No documentation available> */";
  "typedef struct DropGlueVTable {";
  "    /** <No documentation available> */";
  "    void (*release_vptr)(Erased_t *);";
  "} DropGlueVTable_t;";
  "";
  "/** <No documentation available> */";
  "typedef struct VirtualPtr__Erased_ptr_DropGlueVTable {";
  "    /** <No documentation available> */";
  "    Erased_t * ptr;";
  "";
  "    /** <No documentation available> */";
  "    DropGlueVTable_t vtable;";
  "} VirtualPtr__Erased_ptr_DropGlueVTable_t;";
  "";
  "typedef struct FfiFutureExecutorVTable {";
  "    void (*release_vptr)(Erased_t *);";
  "";
  "    Erased_t * (*retain_vptr)(Erased_t const *);";
  "";
  "    VirtualPtr__Erased_ptr_FfiFutureVTable_t (*dyn_spawn)(Erased_t const *, VirtualPtr__Erased_ptr_FfiFutureVTable_t);";
  "";
  "    VirtualPtr__Erased_ptr_FfiFutureVTable_t (*dyn_spawn_blocking)(Erased_t const *, BoxDynFnMut0_void_t);";
  "";
  "    void (*dyn_block_on)(Erased_t const *, VirtualPtr__Erased_ptr_FfiFutureVTable_t);";
  "";
  "    VirtualPtr__Erased_ptr_DropGlueVTable_t (*dyn_enter)(Erased_t const *);";
  "} FfiFutureExecutorVTable_t;";
  "";
  "typedef struct VirtualPtr__Erased_ptr_FfiFutureExecutorVTable {";
  "    Erased_t * ptr;";
  "";
  "    FfiFutureExecutorVTable_t vtable;";
  "} VirtualPtr__Erased_ptr_FfiFutureExecutorVTable_t;";
  "";
  "int32_t";
  "test_spawner (";
  "    VirtualPtr__Erased_ptr_FfiFutureExecutorVTable_t executor);";
  "";
  "typedef struct RefDynFnMut1_void_char_const_ptr {";
  "    void * env_ptr;";
  "";
  "    void (*call)(void *, char const *);";
  "} RefDynFnMut1_void_char_const_ptr_t;";
  "";
  "void";
  "with_concat (";
  "    char const * fst,";
  "    char const * snd,";
  "    RefDynFnMut1_void_char_const_ptr_t cb);";
  "";
  "bool";
  "with_foo (";
  "    void (*cb)(foo_t *));";
  ""].
