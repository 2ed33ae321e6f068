(** Theorems about what a C compiler makes of the whole header: C84.

    The text that is written is read ([TextSpec.read_c]), cut into declarations, each of which is resolved
    with the names declared before it ([CompSpec.compile]). *)

From Coq Require Import NArith ZArith List Bool String Ascii Lia.
From stdpp Require Import base numbers list strings pretty option.
From Verif Require Import LayoutModel NameModel NameSpec HeaderModel HeaderSpec CsModel
  TextModel TextSpec TextProofs TextGolden TextProps CompSpec CompProofs CompStep CompWhole CompAbi CompCheck.
From Verif Require FrameModel CsSpec CsProofs.
Import stdpp.list CompSpec.

(** The file compiles, and in it is what the items want: functions with the right types and no others, types
    under their names, enumerators with the values of Rust, constants.
    Not for programs that are not [source_ok] or whose names are not [names_fresh], see the refutations;
    C++; [isize], see C22; banners and text of one's own. *)
Theorem C84_file P ws fn_style stable is s o lib defs :
  (∀ c, (c < 128)%N → ws c = ascii_ws c) → Forall (item_ok ws) is → xwrite_body LC stable is = XOk s →
  FrameModel.o_banner o = None → FrameModel.o_text_after_guard o = None →
  let g := of_text (FrameModel.guard_of o lib) in
  wordy g → g ∉ asked → g ∉ defs → chars "DOXYGEN" ∉ defs → chars "__cplusplus" ∉ defs →
  source_ok (map erase_item is) → NoDup (map xitem_name is) → enums_agree is → names_fresh [g] (map snd (xout s)) →
  ∃ es w, read_c defs (file_text LC o lib (body_text P ws fn_style (xout s))) = Some es ∧ compiles es w ∧ delivers is w.
Proof.
  intros HW Hi E Hb Ht g Hg Ha D1 D2 D3 Hs HN HA Hf.
  pose proof (C82_file P ws fn_style stable is s o lib defs HW Hi E Hb Ht Hg Ha) as HR. fold g in HR.
  unfold file_evs in HR. rewrite (bool_decide_eq_false_2 (g ∈ defs)) in HR by done.
  rewrite (bool_decide_eq_false_2 (chars "__cplusplus" ∈ defs)) in HR by done.
  rewrite (bool_decide_eq_false_2 (chars "DOXYGEN" ∈ defs)) in HR by done. cbn [app] in HR. rewrite app_nil_r in HR.
  rewrite (ys_texts stable is s E) in HR.
  destruct (whole stable is s E Hs HN HA [g] Hf (World [] [] [] [] [] [(g, [])])) as (w & Hw & f0 & HF).
  { by apply inv_start. }
  eexists _, w. split; [exact HR|]. split; [|done]. exists f0. intros f Hle. unfold compile. cbn [group].
  rewrite group_all. 2: { intros y n r args Hy ->. by apply (ys_made stable is s E) in Hy as [_ []]. }
  cbn [fmap option_fmap option_map all one]. unfold add_macro. rewrite bool_decide_false by apply not_elem_of_nil. by apply HF.
Qed.
Print Assumptions C84_file.

(** The second time there is nothing. *)
Theorem C84_twice P ws fn_style stable is s o lib defs :
  (∀ c, (c < 128)%N → ws c = ascii_ws c) → Forall (item_ok ws) is → xwrite_body LC stable is = XOk s →
  FrameModel.o_banner o = None → FrameModel.o_text_after_guard o = None →
  let g := of_text (FrameModel.guard_of o lib) in
  wordy g → g ∉ asked → g ∈ defs →
  read_c defs (file_text LC o lib (body_text P ws fn_style (xout s))) = Some [] ∧ compiles [] nothing.
Proof.
  intros HW Hi E Hb Ht g Hg Ha D1. rewrite (C82_file P ws fn_style stable is s o lib defs HW Hi E Hb Ht Hg Ha). fold g.
  unfold file_evs. rewrite (bool_decide_eq_true_2 (g ∈ defs)) by done. split; [done|]. by exists 0.
Qed.
Print Assumptions C84_twice.

(** Values are passed alike on both sides. *)
Theorem C84_abi P sg t : CsSpec.sane P → CsSpec.value false t ∨ CsSpec.is_void t = true → c_exact sg t →
  c_abi P sg (view t) = CsSpec.abi_of P t.
Proof.
  intros HP Hv He. apply view_abi; try done. destruct Hv as [Hv|Hv]; [by apply CsProofs.value_weaken|].
  clear -Hv. induction t; try done. by apply IHt.
Qed.
Print Assumptions C84_abi.
(** So a call from C is received as it is made. *)
Theorem C84_call P sg is w d n args r :
  CsSpec.sane P → delivers is w → JFn d n args r ∈ is →
  (∀ a, a ∈ args → CsSpec.value false (erase a.2) ∧ c_exact sg (erase a.2)) →
  (CsSpec.value false (erase r) ∨ CsSpec.is_void (erase r) = true) → c_exact sg (erase r) →
  ∃ p, find n (w_funs w) = Some p ∧
    fn_abi P sg p = CsSpec.AFun CsSpec.Cdecl (CsSpec.abi_of P (erase r)) (map (λ a, CsSpec.abi_of P (erase a.2)) args).
Proof.
  intros HP Hd Hi Ha Hr Hr'. eexists. split; [apply (d_funs _ _ Hd); eauto|]. unfold fn_abi. cbn [fst snd].
  rewrite C84_abi by done. f_equal. rewrite map_map. cbn [snd]. apply map_ext_in. intros a Hin%elem_of_list_In.
  destruct (Ha a Hin). apply C84_abi; [done|by left|done].
Qed.
Print Assumptions C84_call.
(** Where [char] is signed, it is not the [u8] of Rust. *)
Theorem C84_char_refuted : ∃ P t, CsSpec.sane P ∧ CsSpec.value false t ∧ c_abi P true (view t) ≠ CsSpec.abi_of P t.
Proof. exists linux64, TChar. split; [split; by right|]. done. Qed.
Print Assumptions C84_char_refuted.

(** ** The crate ffi_tests *)

Example ffi_tests_source : source_ok (map erase_item ffi_tests).
Proof. apply source_okb_sound. vm_compute. reflexivity. Qed.
Example ffi_tests_names : NoDup (map xitem_name ffi_tests) ∧ enums_agree ffi_tests.
Proof.
  split; [apply (bool_decide_unpack _); vm_compute; exact I|]. apply enums_agreeb_sound. vm_compute. reflexivity.
Qed.
Lemma compiling (is : list xitem) (lib : FrameModel.text) (t g : ntext) :
  match xwrite_body LC true is with
  | XOk s => Some (file_text LC defaults lib (body_text linux64 ascii_ws false (xout s)))
  | _ => None
  end = Some t → Forall (item_ok ascii_ws) is → of_text (FrameModel.guard_of defaults lib) = g → wordy g → g ∉ asked →
  source_ok (map erase_item is) → NoDup (map xitem_name is) ∧ enums_agree is →
  match xwrite_body LC true is with XOk s => names_freshb [g] (map snd (xout s)) | _ => false end = true →
  ∃ es w, read_c [] t = Some es ∧ compiles es w ∧ delivers is w.
Proof.
  intros HT Hi Hg Hw Ha Hs [HN HA] HF. destruct (xwrite_body LC true is) as [s| |] eqn:E; [|done..]. injection HT as <-. subst g.
  apply names_freshb_sound in HF.
  by apply (C84_file linux64 ascii_ws false true is s defaults lib []); try done; try apply not_elem_of_nil.
Qed.
(** The header that is checked in compiles to what its items want. *)
Example C84_example : ∃ es w, read_c [] (golden generated_h) = Some es ∧ compiles es w ∧ delivers ffi_tests w.
Proof.
  assert (HT := C82_golden_c). unfold written in HT.
  assert (HG : of_text (FrameModel.guard_of defaults ffi_tests_lib) = chars "__RUST_FFI_TESTS__") by by vm_compute.
  refine (compiling ffi_tests ffi_tests_lib (golden generated_h) (chars "__RUST_FFI_TESTS__") HT ffi_tests_ok HG _ _
    ffi_tests_source ffi_tests_names _).
  - apply wordy_sound. by vm_compute.
  - apply (bool_decide_unpack _). by vm_compute.
  - vm_compute. reflexivity.
Qed.
(** Some of it, computed. *)
Definition compiled (t : ntext) : option world := match read_c [] t with Some es => compile 60 es | None => None end.
Example C84_example_max :
  match compiled (golden generated_h) with
  | Some w =>
      find "max" (w_funs w) =
        Some ([("xs", RStruct (Some "slice_ref_int32") [("ptr", RPtr true (RBase "int32_t")); ("len", RBase "size_t")])],
              RPtr true (RBase "int32_t")) ∧
      find "PollFuture_t" (w_types w) = Some (RBase "int8_t") ∧
      find "POLL_FUTURE_PENDING" (w_consts w) = Some (-1)%Z ∧
      length (w_types w) = 34 ∧ length (w_funs w) = 20
  | None => False
  end.
Proof. vm_compute. repeat split. Qed.
Example C84_example_call : CsSpec.sane linux64 ∧
  CsSpec.value false (erase slice_ref_i32) ∧ c_exact true (erase slice_ref_i32) ∧
  c_abi linux64 true (view (erase slice_ref_i32)) =
    CsSpec.AStruct 16 8 [(0, CsSpec.APtr); (8, CsSpec.AInt false 8)].
Proof. split; [split; by right|]. vm_compute. repeat split; done. Qed.

(** ** Programs without a header that compiles *)

Definition header (is : list xitem) : option ntext :=
  match xwrite_body LC true is with
  | XOk s => Some (file_text LC defaults (FrameModel.tx "lib") (body_text linux64 ascii_ws false (xout s)))
  | _ => None
  end.
(** [Foo::BarBaz] and [FooBar::Baz] are both [FOO_BAR_BAZ]. *)
Theorem C84_enumerators_refuted : ∃ is t es,
  Forall (item_ok ascii_ws) is ∧ source_ok (map erase_item is) ∧ NoDup (map xitem_name is) ∧ enums_agree is ∧
  header is = Some t ∧ read_c [] t = Some es ∧ ∀ w, ¬ compiles es w.
Proof.
  exists [JType "Foo" (XEnum TextGolden.no "Foo" None [(TextGolden.no, chars "BarBaz", None)]);
          JType "FooBar" (XEnum TextGolden.no "FooBar" None [(TextGolden.no, chars "Baz", None)])].
  do 2 eexists. split; [apply items_sound; by vm_compute|]. split; [apply source_okb_sound; by vm_compute|].
  split; [apply (bool_decide_unpack _); vm_compute; exact I|]. split; [apply enums_agreeb_sound; by vm_compute|].
  split; [by vm_compute|]. split; [by vm_compute|].
  intros w [f H]. specialize (H f ltac:(lia)). vm_compute in H. discriminate H.
Qed.
Print Assumptions C84_enumerators_refuted.
(** A constant called like a variant of an enum. *)
Theorem C84_constant_refuted : ∃ is t es,
  Forall (item_ok ascii_ws) is ∧ source_ok (map erase_item is) ∧ NoDup (map xitem_name is) ∧ enums_agree is ∧
  header is = Some t ∧ read_c [] t = Some es ∧ ∀ w, ¬ compiles es w.
Proof.
  exists [JConst TextGolden.no "KIND_MAX" (XInt I32) false (chars "3");
          JType "Kind" (XEnum TextGolden.no "Kind" None [(TextGolden.no, chars "Min", None); (TextGolden.no, chars "Max", None)])].
  do 2 eexists. split; [apply items_sound; by vm_compute|]. split; [apply source_okb_sound; by vm_compute|].
  split; [apply (bool_decide_unpack _); vm_compute; exact I|]. split; [apply enums_agreeb_sound; by vm_compute|].
  split; [by vm_compute|]. split; [by vm_compute|].
  intros w [f H]. specialize (H f ltac:(lia)). vm_compute in H. discriminate H.
Qed.
Print Assumptions C84_constant_refuted.
(** A constant called like a parameter. *)
Theorem C84_parameter_refuted : ∃ is t es,
  Forall (item_ok ascii_ws) is ∧ source_ok (map erase_item is) ∧ NoDup (map xitem_name is) ∧ enums_agree is ∧
  header is = Some t ∧ read_c [] t = Some es ∧ ∀ w, ¬ compiles es w.
Proof.
  exists [JConst TextGolden.no "N" (XInt I32) false (chars "3"); JFn TextGolden.no "f" [("N", XInt I32)] XVoid].
  do 2 eexists. split; [apply items_sound; by vm_compute|]. split; [apply source_okb_sound; by vm_compute|].
  split; [apply (bool_decide_unpack _); vm_compute; exact I|]. split; [apply enums_agreeb_sound; by vm_compute|].
  split; [by vm_compute|]. split; [by vm_compute|].
  intros w [f H]. specialize (H f ltac:(lia)). vm_compute in H. discriminate H.
Qed.
Print Assumptions C84_parameter_refuted.
