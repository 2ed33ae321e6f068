(** C83: the text of a C# file. *)

From Coq Require Import NArith ZArith List Bool String Ascii Lia ZifyBool ZifyNat ZifyN.
From stdpp Require Import base numbers list strings pretty.
From Verif Require Import NameModel NameSpec DocModel DocSpec HeaderModel HeaderSpec CsModel TextModel TextSpec TextLex TextProofs TextGolden.
From Verif Require Import TextCsSpec TextCs TextProps.
From Verif Require FrameModel.
Local Open Scope N_scope.

(** ** C83: the text of a C# file is read as exactly its declarations *)

Theorem C83_text P ws fn_style stable is s defs :
  (∀ c, c < 128 → ws c = ascii_ws c) → Forall (cs_item_ok ws) is → xwrite_body LCSharp stable is = XOk s →
  read_cs defs (body_text P ws fn_style (xout s)) = Some (flat_map (λ d, cs_expected P d.2) (xout s)).
Proof.
  intros HW Hi E. pose proof (csr_body P ws HW fn_style s (cs_body_ok ws stable is s Hi E) defs [] []) as H.
  rewrite app_nil_r in H. unfold read_cs. rewrite H. change (cs_from defs [] []) with (Some (@nil ctok)). cbn [option_map].
  by rewrite app_nil_r.
Qed.
Print Assumptions C83_text.

(** The whole file, with the default banner: a namespace around all, the name of the library for iOS or not. *)
Theorem C83_file P ws fn_style stable is s o lib defs :
  (∀ c, c < 128 → ws c = ascii_ws c) → Forall (cs_item_ok ws) is → xwrite_body LCSharp stable is = XOk s →
  FrameModel.o_banner o = None →
  let ns := of_text (FrameModel.pascal_cased lib) in
  wordy ns → wordy (of_text lib) →
  read_cs defs (file_text LCSharp o lib (body_text P ws fn_style (xout s))) =
  Some (cs_file_toks ns (of_text lib) defs (flat_map (λ d, cs_expected P d.2) (xout s))).
Proof.
  intros HW Hi E Hb ns Hns Hlib. pose proof (csr_body P ws HW fn_style s (cs_body_ok ws stable is s Hi E)) as HB.
  unfold file_text, FrameModel.write_banner, FrameModel.write_prelude, FrameModel.write_epilogue. rewrite Hb. cbn [default].
  unfold read_cs. rewrite (cs_banner_reads defs []), sel_nil, opt_nil.
  rewrite (cs_prelude_reads _ lib Hns Hlib), HB.
  pose proof (cs_epilogue_reads _ Hns defs [] []) as HE. rewrite app_nil_r in HE. rewrite HE.
  change (cs_from defs [] []) with (Some (@nil ctok)). rewrite opt_app. cbn [option_map]. f_equal.
Qed.
Print Assumptions C83_file.

(** Its types, delegates and functions are those of C74. *)
Theorem C83_decls P stable is s ds :
  xwrite_body LCSharp stable is = XOk s → write_body LCSharp stable (map erase_item is) = Ok ds →
  flat_map (λ d, cs_decl P (erase_decl d.2)) (xout s) = cs_file P (HeaderModel.out ds).
Proof.
  intros E1 E2. pose proof (C82_erased LCSharp stable is) as H. rewrite E1, E2 in H. cbn [abs] in H. injection H as <-.
  cbn [HeaderModel.out]. unfold cs_file. by rewrite flat_map_map.
Qed.
Print Assumptions C83_decls.

(** ** The crate ffi_tests *)

Example ffi_tests_cs_ok : Forall (cs_item_ok ascii_ws) ffi_tests.
Proof. apply cs_items_sound. by vm_compute. Qed.
Lemma cs_reading (is : list xitem) (lib : FrameModel.text) (t ns l : ntext) :
  match xwrite_body LCSharp true is with
  | XOk s => Some (file_text LCSharp defaults lib (body_text linux64 ascii_ws false (xout s)))
  | _ => None
  end = Some t → Forall (cs_item_ok ascii_ws) is →
  of_text (FrameModel.pascal_cased lib) = ns → wordy ns → of_text lib = l → wordy l →
  match xwrite_body LCSharp true is with
  | XOk s => ∀ defs, read_cs defs t = Some (cs_file_toks ns l defs (flat_map (λ d, cs_expected linux64 d.2) (xout s)))
  | _ => False
  end.
Proof.
  intros HT Hi Hn Hw Hl Hlw. destruct (xwrite_body LCSharp true is) as [s| |] eqn:E; [|done..]. injection HT as <-. subst ns l.
  intros defs. by apply (C83_file linux64 ascii_ws false true is s defaults lib defs).
Qed.
(** The checked-in C# file is read as its declarations. *)
Example C83_example :
  match xwrite_body LCSharp true ffi_tests with
  | XOk s => ∀ defs, read_cs defs (golden generated_cs) =
      Some (cs_file_toks (chars "FfiTests") (chars "ffi_tests") defs (flat_map (λ d, cs_expected linux64 d.2) (xout s)))
  | _ => False
  end.
Proof.
  assert (HT := C82_golden_csharp). unfold written in HT.
  refine (cs_reading ffi_tests ffi_tests_lib (golden generated_cs) (chars "FfiTests") (chars "ffi_tests") HT ffi_tests_cs_ok _ _ _ _).
  - by vm_compute.
  - apply wordy_sound. by vm_compute.
  - by vm_compute.
  - apply wordy_sound. by vm_compute.
Qed.
(** Reading is not vacuous: an enum, a function with a callback. *)
Example C83_example_enum :
  cs_expected linux64 (YEnum no "Bar" (Some I8) [(no, chars "A", Some 43%Z); (no, chars "B", None)]) =
  words "public enum Bar_t : sbyte { A = 43, B, }".
Proof. by vm_compute. Qed.
Example C83_example_fn :
  cs_expected linux64 (YFn no "call" [("f", XFn XVoid [XInt I32]); ("on", XBool)] (XPtr true XVoid)) =
  words "public unsafe partial class Ffi { [DllImport(RustLib, ExactSpelling = true)] public static unsafe extern void * call (
    [MarshalAs(UnmanagedType.FunctionPtr)] void_int32_fptr f, [MarshalAs(UnmanagedType.U1)] bool on); }".
Proof. by vm_compute. Qed.
Example C83_example_array :
  cs_expected linux64 (YArr "uint16_3_array_t" (XInt U16) 3) =
  words "[StructLayout(LayoutKind.Sequential, Size = 6)] public unsafe struct uint16_3_array_t { public fixed UInt16 arr[3]; }".
Proof. by vm_compute. Qed.
(** A [#if] that is not closed, an [#else] too many and other directives are not accepted. *)
Example C83_example_bad :
  read_cs [] (chars "#if IOS" ++ [10] ++ chars "a") = None ∧ read_cs [] (chars "#else" ++ [10]) = None ∧
  read_cs [] (chars "#define A" ++ [10]) = None ∧ read_cs [] (chars "a /* b") = None ∧
  read_cs [chars "IOS"] (chars "#if IOS" ++ [10] ++ chars "a" ++ [10] ++ chars "#else" ++ [10] ++ chars "b" ++ [10] ++ chars "#endif") = Some (words "a").
Proof. by vm_compute. Qed.
(** Documentation must be in one line each: the rest of a block comment would be code. *)
Theorem C83_docs_refuted : let d := [chars "a" ++ [10] ++ chars "b"] in
  ∃ s, xwrite_body LCSharp true [JFn d "f" [] XVoid] = XOk s ∧
    read_cs [] (body_text linux64 ascii_ws false (xout s)) ≠ Some (flat_map (λ d, cs_expected linux64 d.2) (xout s)).
Proof. cbn zeta. eexists. split; [by vm_compute|]. by vm_compute. Qed.
