(** Model of the frame of a header file: banner, include guard, [extern "C"],
    C# namespace, and the names that come from the name of the library.

    Sources (all in /repo/src/headers):
    - _mod.rs 120-176 the options, 326-344 generate_with_definer, 346-360
      write_banner, 362-387 write_prelude, 425-446 write_epilogue, 448-455 guard,
      457-464 text_after_guard, 467-477 lib_name, 479-502 pascal_cased_lib_name
    - templates/c/_prelude.h, templates/c/epilogue.h,
      templates/csharp/_prelude.cs, templates/csharp/epilogue.cs

    The body (_mod.rs 389-423, see [HeaderModel]) is a text here. *)

From Coq Require Import NArith List Bool Lia String Ascii.
From stdpp Require Import base numbers list.
From Verif Require Import HeaderModel.

Definition text := list ascii.
Definition tx (s : string) : text := list_ascii_of_string s.
Definition nl : ascii := "010"%char.
(** The double quote, the backslash. *)
Definition dq : ascii := "034"%char.
Definition bs : ascii := "092"%char.
Definition quoted (s : text) : text := dq :: s ++ [dq].
(** Lines of a template, each with its end. *)
Fixpoint lines (ls : list text) : text :=
  match ls with [] => [] | l :: ls => l ++ nl :: lines ls end.

(** ** Names *)

(** [u8::to_ascii_uppercase]. *)
Definition upper (c : ascii) : ascii :=
  let n := N_of_ascii c in
  if ((97 <=? n) && (n <=? 122))%N then ascii_of_N (n - 32) else c.
(** [replace('-', "_")] *)
Definition dash (c : ascii) : ascii := if Ascii.eqb c "-" then "_"%char else c.

(** The environment variables CARGO_CRATE_NAME and CARGO_PKG_NAME. *)
Record vars := Vars { crate_name : option text; pkg_name : option text }.
(** _mod.rs 467-477; [None]: panics. *)
Definition lib_name (e : vars) : option text :=
  match crate_name e with
  | Some s => Some s
  | None => match pkg_name e with Some s => Some (map dash s) | None => None end
  end.

(** _mod.rs 479-502. *)
Fixpoint pascal (underscore : bool) (s : text) : text :=
  match s with
  | [] => []
  | c :: s =>
      if underscore then upper c :: pascal false s
      else if Ascii.eqb c "_" then pascal true s
      else c :: pascal false s
  end.
Definition pascal_cased (s : text) : text := pascal true s.

(** ** The file *)

(** The options of the builder that matter here. *)
Record options := Options {
  o_guard : option text;
  o_text_after_guard : option text;
  o_banner : option text;
}.

(** _mod.rs 349-358 *)
Definition default_banner : text := lines [
  tx "/*! \file */";
  tx "/*******************************************";
  tx " *                                         *";
  tx " *  File auto-generated by `::safer_ffi`.  *";
  tx " *                                         *";
  tx " *  Do not manually edit this file.        *";
  tx " *                                         *";
  tx " *******************************************/"].
(** _mod.rs 346-360; [writeln!] adds a line end. *)
Definition write_banner (o : options) : text := default default_banner (o_banner o) ++ [nl].

(** _mod.rs 448-455 *)
Definition guard_of (o : options) (lib : text) : text :=
  match o_guard o with
  | Some g => g
  | None => tx "__RUST_" ++ map upper lib ++ tx "__"
  end.
(** _mod.rs 457-464 *)
Definition text_after_guard (o : options) : text :=
  match o_text_after_guard o with None => [] | Some s => nl :: nl :: s ++ [nl] end.

(** templates/c/_prelude.h *)
Definition c_prelude (g after : text) : text := lines [
  tx "#ifndef " ++ g;
  tx "#define " ++ g ++ after;
  tx "#ifdef __cplusplus";
  tx "extern " ++ quoted (tx "C") ++ tx " {";
  tx "#endif"].
(** templates/c/epilogue.h *)
Definition c_epilogue (g : text) : text := lines [
  [];
  tx "#ifdef __cplusplus";
  tx "} /* extern " ++ bs :: dq :: tx "C" ++ bs :: dq :: tx " */";
  tx "#endif";
  [];
  tx "#endif /* " ++ g ++ tx " */"].
(** templates/csharp/_prelude.cs *)
Definition cs_prelude (ns lib : text) : text := lines [
  tx "#pragma warning disable IDE0044, IDE0049, IDE0055, IDE1006,";
  tx "#pragma warning disable SA1004, SA1008, SA1023, SA1028,";
  tx "#pragma warning disable SA1121, SA1134,";
  tx "#pragma warning disable SA1201,";
  tx "#pragma warning disable SA1300, SA1306, SA1307, SA1310, SA1313,";
  tx "#pragma warning disable SA1500, SA1505, SA1507,";
  tx "#pragma warning disable SA1600, SA1601, SA1604, SA1605, SA1611, SA1615, SA1649,";
  [];
  tx "namespace " ++ ns ++ tx " {";
  tx "using System;";
  tx "using System.Runtime.InteropServices;";
  [];
  tx "public unsafe partial class Ffi {";
  tx "#if IOS";
  tx "    private const string RustLib = " ++ quoted (lib ++ tx ".framework/" ++ lib) ++ tx ";";
  tx "#else";
  tx "    private const string RustLib = " ++ quoted lib ++ tx ";";
  tx "#endif";
  tx "}"].
(** templates/csharp/epilogue.cs *)
Definition cs_epilogue (ns : text) : text := lines [[]; tx "} /* " ++ ns ++ tx " */"].

(** _mod.rs 362-387, 425-446; Python headers have neither. *)
Definition write_prelude (l : lang) (o : options) (lib : text) : text :=
  match l with
  | LC => c_prelude (guard_of o lib) (text_after_guard o) ++ [nl]
  | LCSharp => cs_prelude (pascal_cased lib) lib ++ [nl]
  | LPython => []
  end.
Definition write_epilogue (l : lang) (o : options) (lib : text) : text :=
  match l with
  | LC => c_epilogue (guard_of o lib)
  | LCSharp => cs_epilogue (pascal_cased lib)
  | LPython => []
  end.

(** _mod.rs 326-344; the name of the library is asked for also when it is not
    used ([guard] in 367). *)
Definition generate (l : lang) (o : options) (e : vars) (body : text) : option text :=
  let file lib := write_banner o ++ write_prelude l o lib ++ body ++ write_epilogue l o lib in
  match l, o_guard o with
  | LCSharp, _ | _, None => match lib_name e with Some lib => Some (file lib) | None => None end
  | _, Some _ => Some (file [])
  end.
