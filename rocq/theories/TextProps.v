(** C82: the text of a header. *)

From Coq Require Import NArith ZArith List Bool String Ascii Lia ZifyBool ZifyNat ZifyN.
From stdpp Require Import base numbers list strings pretty.
From Verif Require Import NameModel NameSpec DocModel DocSpec HeaderModel HeaderSpec CsModel TextModel TextSpec TextLex TextProofs TextGolden.
From Verif Require FrameModel HeaderProps.
Local Open Scope N_scope.

(** ** C82: the text of a C header, or of a cffi one, is read as exactly its declarations *)

(** The part between the prelude and the epilogue. *)
Theorem C82_text P ws fn_style l stable is s defs :
  (∀ c, c < 128 → ws c = ascii_ws c) → l ≠ LCSharp → Forall (item_ok ws) is →
  xwrite_body l stable is = XOk s →
  read_c defs (body_text P ws fn_style (xout s)) =
  Some (flat_map (λ d, expected (bool_decide (chars "DOXYGEN" ∈ defs)) d.1 d.2) (xout s)).
Proof.
  intros HW Hl Hi E. pose proof (body_ok ws l stable is s Hl Hi E) as Hf.
  destruct (body_reads ws HW P fn_style (xout s) [] Hf defs) as (defs' & HR & _). unfold read_c.
  specialize (HR []). rewrite app_nil_r in HR. rewrite HR.
  change (read_from defs' [] []) with (Some (@nil ev)). cbn [option_map]. by rewrite app_nil_r.
Qed.
Print Assumptions C82_text.

(** The whole file, with the default banner and nothing after the guard. *)
Theorem C82_file P ws fn_style stable is s o lib defs :
  (∀ c, c < 128 → ws c = ascii_ws c) → Forall (item_ok ws) is → xwrite_body LC stable is = XOk s →
  FrameModel.o_banner o = None → FrameModel.o_text_after_guard o = None →
  let g := of_text (FrameModel.guard_of o lib) in
  wordy g → g ∉ asked →
  read_c defs (file_text LC o lib (body_text P ws fn_style (xout s))) =
  Some (file_evs g defs (flat_map (λ d, expected (bool_decide (chars "DOXYGEN" ∈ defs)) d.1 d.2) (xout s))).
Proof.
  intros HW Hi E Hb Ht g Hg Ha. pose proof (body_ok ws LC stable is s ltac:(done) Hi E) as Hf.
  unfold file_text, FrameModel.write_banner, FrameModel.write_prelude, FrameModel.write_epilogue, FrameModel.text_after_guard.
  rewrite Hb, Ht. cbn [default]. set (G := FrameModel.guard_of o lib) in *.
  pose proof (banner_reads defs []) as H1.
  pose proof (prelude_reads ws HW G Hg Ha defs) as H2. fold g in H2.
  set (b := bool_decide (g ∈ defs)) in *. set (defs1 := if b then defs else g :: defs) in *.
  destruct (body_reads ws HW P fn_style (xout s) [negb b] Hf defs1) as (defs2 & H3 & A3 & _).
  pose proof (epilogue_reads G Hg defs2 (negb b)) as H4.
  assert (A1 : agree defs1 defs).
  { subst defs1. destruct b; [done|]. intros x Hx. apply bool_decide_ext. rewrite elem_of_cons. split; [|by right].
    intros [->|?]; done. }
  assert (ED : bool_decide (chars "DOXYGEN" ∈ defs1) = bool_decide (chars "DOXYGEN" ∈ defs)) by (apply A1; by left).
  assert (EC : bool_decide (chars "__cplusplus" ∈ defs2) = bool_decide (chars "__cplusplus" ∈ defs)).
  { apply (eq_trans (A3 (chars "__cplusplus") ltac:(right; by left))). apply A1. right. by left. }
  rewrite ED in H3. rewrite EC in H4.
  pose proof (reads_app _ _ _ _ _ _ _ _ _ _ H1 (reads_app _ _ _ _ _ _ _ _ _ _ H2 (reads_app _ _ _ _ _ _ _ _ _ _ H3 H4))) as HR.
  unfold read_c. specialize (HR []). rewrite app_nil_r in HR. rewrite HR.
  change (read_from defs2 [] []) with (Some (@nil ev)). cbn [option_map]. f_equal. rewrite app_nil_r. unfold file_evs. fold b.
  unfold on. destruct b; [done|]. cbn [negb forallb id andb app].
  by destruct (bool_decide (chars "__cplusplus" ∈ defs)).
Qed.
Print Assumptions C82_file.

(** What cffi is given: the same without a frame. *)
Theorem C82_cffi P ws fn_style stable is s o lib defs :
  (∀ c, c < 128 → ws c = ascii_ws c) → Forall (item_ok ws) is → xwrite_body LPython stable is = XOk s →
  FrameModel.o_banner o = None →
  read_c defs (file_text LPython o lib (body_text P ws fn_style (xout s))) =
  Some (flat_map (λ d, expected (bool_decide (chars "DOXYGEN" ∈ defs)) d.1 d.2) (xout s)).
Proof.
  intros HW Hi E Hb. pose proof (body_ok ws LPython stable is s ltac:(done) Hi E) as Hf.
  assert (ET : ∀ B, file_text LPython o lib B = of_text (FrameModel.default_banner ++ [FrameModel.nl]) ++ B).
  { intros B. unfold file_text, FrameModel.write_banner. rewrite Hb. change (of_text (FrameModel.write_epilogue LPython o lib)) with (@nil N).
    by rewrite app_nil_r. }
  rewrite ET.
  destruct (body_reads ws HW P fn_style (xout s) [] Hf defs) as (defs' & HR & _). unfold read_c.
  pose proof (reads_app _ _ _ _ _ _ _ _ _ _ (banner_reads defs []) HR) as H. specialize (H []). rewrite app_nil_r in H. rewrite H.
  change (read_from defs' [] []) with (Some (@nil ev)). cbn [option_map]. by rewrite app_nil_r.
Qed.
Print Assumptions C82_cffi.

(** The declarations are those of [HeaderModel] (C22 to C25, C53, C54): nothing else is written, in the same order,
    and generation fails for the same programs. *)
Theorem C82_erased l stable is : abs (xwrite_body l stable is) = write_body l stable (map erase_item is).
Proof. apply write_erase. Qed.
Print Assumptions C82_erased.

(** So each declarator in the text of a C header is there as C53 has it, to be read as the type it stands for. *)
Theorem C82_types stable is s l y :
  (∀ i d, i ∈ map erase_item is → own_decl i = Some d → good_decl d) →
  (∀ t d, occurs t (map erase_item is) → own_decl (IType "" t) = Some d → good_decl d) →
  xwrite_body LC stable is = XOk s → (l, y) ∈ xout s → l = LC ∧
  Forall2 (λ ts m, HeaderSpec.reads ts m.1 m.2 ∧
      ∃ a b, (∃ n d t u v w, y = YConst d n t u v ∧ (u = false → expected false l y = [EDefine (chars n) w] ∧ w = a ++ map tk ts ++ b)) ∨
             decl_toks false l y = a ++ map tk ts ++ b)
    (texts (erase_decl y)) (meanings (erase_decl y)).
Proof.
  intros H1 H2 E Hin. assert (HL : l = LC).
  { clear -E Hin. unfold xwrite_body in E. revert E. generalize (if stable then xbtree is else rev is). intros js E.
    assert (HF : ∀ d, d ∈ xout s → d.1 = LC); [|exact (HF _ Hin)].
    set (only := λ s : xst, Forall (λ d : lang * xdecl, d.1 = LC) (xout s)).
    set (keep := λ f : xst → xres, ∀ s, only s → match f s with XOk s' => only s' | _ => True end).
    assert (Kok : keep XOk) by (by intros ? ?).
    assert (Kemit : ∀ y, keep (xemit LC y)) by (intros z x Hx; apply Forall_app; split; [done|by repeat constructor]).
    assert (Kbind : ∀ f g, keep f → keep g → keep (λ s, xbind (f s) g)).
    { intros f g Hf Hg x Hx. specialize (Hf x Hx). destruct (f x) as [x'| |]; [by apply Hg|done|done]. }
    assert (Konce : ∀ k f, keep f → keep (xonce k f)).
    { intros k f Hf x Hx. unfold xonce. case_bool_decide; [done|]. by apply Hf. }
    assert (Kint : keep (xdefine_int LC)) by (by apply Konce).
    assert (Kdef : ∀ t, keep (xdefine LC t)).
    { intros t. induction t as [i|d| | | | |c t IH|t n IH|r args IHr IHa|d n gs fs IHg IHf|d n i vs|d n t IH|d n] using xty_ind';
        cbn [xdefine legacy]; try done.
      - by apply Konce.
      - by apply Konce, Kbind.
      - apply Kbind; [done|]. apply Kbind; [|done]. clear -IHa Kok Kbind.
        induction IHa as [|a args Ia _ IH]; [done|]. by apply Kbind.
      - apply Konce, Kbind.
        + clear -IHf Kok Kbind. induction IHf as [|[q t] fs If _ IH]; [done|]. by apply Kbind.
        + intros x Hx. destruct (zst _); [done|]. by apply (Kemit _ x).
      - by apply Konce, Kbind.
      - by apply Konce, Kbind.
      - by apply Konce. }
    assert (Kgen : ∀ i, keep (xgen_def LC i)).
    { intros [d n args r|d n t u v|n t].
      - intros x Hx. unfold xgen_def. destruct (bool_decide (n ∈ xseen x)); [done|].
        apply (Kbind (xdefine_all LC (map snd args)) (λ s, xbind (xdefine LC r s) (xemit LC (YFn d n args r)))); [| |exact Hx].
        + clear -Kok Kbind Kdef. induction args as [|a args IH]; [done|]. by apply Kbind.
        + by apply Kbind.
      - unfold xgen_def. apply Kbind; [done|]. destruct u; apply Kemit.
      - exact (Kdef t). }
    assert (Kall : keep (xgen_all LC js)).
    { clear -Kok Kbind Kgen. induction js as [|i js IH]; [done|]. by apply Kbind. }
    specialize (Kall (Xst [] []) (List.Forall_nil _)). rewrite E in Kall. intros d Hd. unfold only in Kall. rewrite Forall_forall in Kall. by apply Kall. }
  subst l. split; [done|].
  pose proof (C82_erased LC stable is) as HE. rewrite E in HE. cbn [abs] in HE. symmetry in HE.
  assert (Hd : erase_decl y ∈ map (λ d : lang * xdecl, erase_decl d.2) (xout s)).
  { apply elem_of_list_In, in_map_iff. exists (LC, y). split; [done|by apply elem_of_list_In]. }
  pose proof (HeaderProps.C53_reads_partial stable (map erase_item is) _ (erase_decl y) H1 H2 HE Hd) as HR.
  clear -HR.
  assert (HG : ∀ ts, ts ∈ texts (erase_decl y) → ∃ a b,
    (∃ n d t u v w, y = YConst d n t u v ∧ (u = false → expected false LC y = [EDefine (chars n) w] ∧ w = a ++ map tk ts ++ b)) ∨
             decl_toks false LC y = a ++ map tk ts ++ b).
  { destruct y as [| |d n fs|n t len|d n i vs|d n t|d n|n r args|d n args r|d n t u v]; cbn [erase_decl texts]; intros ts Hts;
      try (by apply elem_of_nil in Hts).
    - rewrite map_map in Hts. apply elem_of_list_In, in_map_iff in Hts as ([[fd fn] t] & <- & Hf%elem_of_list_In).
      apply elem_of_list_split in Hf as (l1 & l2 & ->). cbn [decl_toks fst snd].
      exists ([wd "typedef"; wd "struct"; wd n; lbrace] ++
        flat_map (λ f : field, map tk (var_toks LC (erase f.2) [TkId f.1.2]) ++ [semi]) l1).
      eexists. right. rewrite flat_map_app. cbn [flat_map fst snd]. rewrite <-!app_assoc. cbn [app].
      replace (var_toks LC (erase t) [TkId fn]) with (field_text (erase t) fn) by (by destruct (erase t)). reflexivity.
    - apply elem_of_list_singleton in Hts as ->. cbn [decl_toks]. exists [wd "typedef"; wd "struct"; lbrace]. eexists. right. reflexivity.
    - destruct i as [i|]; [|by apply elem_of_nil in Hts]. apply elem_of_list_singleton in Hts as ->. cbn [decl_toks].
      exists (enum_toks LC n vs ++ [semi; wd "typedef"]), [semi]. right. rewrite <-app_assoc. reflexivity.
    - apply elem_of_list_singleton in Hts as ->. cbn [decl_toks]. exists [wd "typedef"]. eexists. right. reflexivity.
    - apply elem_of_list_singleton in Hts as ->. cbn [decl_toks]. exists [], [semi]. right. reflexivity.
    - apply elem_of_list_singleton in Hts as ->. exists [Pn 40; Pn 40], ([Pn 41] ++ lex v ++ [Pn 41]). left.
      exists n, d, t, u, v. eexists. split; [done|]. intros ->. cbn [expected]. split; reflexivity. }
  revert HR HG. generalize (texts (erase_decl y)) as tss, (meanings (erase_decl y)) as ms. intros tss ms HR.
  induction HR as [|ts m tss ms HR _ IH]; intros HG; constructor.
  - split; [done|]. apply HG. by left.
  - apply IH. intros ts' Hts. apply HG. by right.
Qed.
Print Assumptions C82_types.

(** ** The crate ffi_tests *)

Definition linux64 : platform := Platform 8 8 false.
Definition defaults : FrameModel.options := FrameModel.Options None None None.
Definition ffi_tests_lib : FrameModel.text := FrameModel.tx "ffi_tests".
Definition golden (ls : list string) : ntext := of_text (FrameModel.lines (map FrameModel.tx ls)).
Definition written (l : lang) : option ntext :=
  match xwrite_body l true ffi_tests with
  | XOk s => Some (file_text l defaults ffi_tests_lib (body_text linux64 ascii_ws false (xout s)))
  | _ => None
  end.

(** What the model writes for its items is, byte by byte, what is checked in. *)
Example C82_golden_c : written LC = Some (golden generated_h).
Proof. by vm_compute. Qed.
Example C82_golden_csharp : written LCSharp = Some (golden generated_cs).
Proof. by vm_compute. Qed.
Example C82_golden_cffi : written LPython = Some (golden generated_cffi).
Proof. by vm_compute. Qed.

Example ffi_tests_ok : Forall (item_ok ascii_ws) ffi_tests.
Proof. apply items_sound. by vm_compute. Qed.
(** A file written with the default options: once, inside extern "C" for C++, and nothing the second time. *)
Lemma reading (is : list xitem) (lib : FrameModel.text) (t g : ntext) :
  match xwrite_body LC true is with
  | XOk s => Some (file_text LC defaults lib (body_text linux64 ascii_ws false (xout s)))
  | _ => None
  end = Some t → Forall (item_ok ascii_ws) is →
  of_text (FrameModel.guard_of defaults lib) = g → wordy g → g ∉ asked →
  match xwrite_body LC true is with
  | XOk s =>
      let es := flat_map (λ d, expected false d.1 d.2) (xout s) in
      read_c [] t = Some (EDefine g [] :: es) ∧
      read_c [chars "__cplusplus"] t = Some (EDefine g [] :: extern_c ++ es ++ [ETok rbrace]) ∧
      read_c [g] t = Some []
  | _ => False
  end.
Proof.
  intros HT Hi Hg Hw Ha. destruct (xwrite_body LC true is) as [s| |] eqn:E; [|done..]. injection HT as <-. subst g. cbn zeta.
  set (g := of_text (FrameModel.guard_of defaults lib)) in *.
  assert (H : ∀ defs, read_c defs (file_text LC defaults lib (body_text linux64 ascii_ws false (xout s))) =
    Some (file_evs g defs (flat_map (λ d, expected (bool_decide (chars "DOXYGEN" ∈ defs)) d.1 d.2) (xout s)))).
  { intros defs. by apply (C82_file linux64 ascii_ws false true is s defaults lib defs). }
  rewrite !H. clearbody g. clear H E Hi Hw. unfold file_evs. rewrite (bool_decide_eq_true_2 (g ∈ [g])) by by left.
  rewrite (bool_decide_eq_false_2 (g ∈ [chars "__cplusplus"])).
  2:{ intros Hx%elem_of_list_singleton. apply Ha. rewrite Hx. right. by left. }
  rewrite (bool_decide_eq_false_2 (g ∈ [])) by apply not_elem_of_nil.
  rewrite (bool_decide_eq_false_2 (chars "DOXYGEN" ∈ [])) by apply not_elem_of_nil.
  rewrite (bool_decide_eq_false_2 (chars "__cplusplus" ∈ [])) by apply not_elem_of_nil.
  rewrite (bool_decide_eq_true_2 (chars "__cplusplus" ∈ [chars "__cplusplus"])) by by left.
  rewrite (bool_decide_eq_false_2 (chars "DOXYGEN" ∈ [chars "__cplusplus"])) by by intros ?%elem_of_list_singleton.
  cbn [app]. rewrite app_nil_r. done.
Qed.
(** So the checked-in C header is read as its declarations. *)
Example C82_example :
  match xwrite_body LC true ffi_tests with
  | XOk s =>
      let es := flat_map (λ d, expected false d.1 d.2) (xout s) in
      let g := chars "__RUST_FFI_TESTS__" in
      read_c [] (golden generated_h) = Some (EDefine g [] :: es) ∧
      read_c [chars "__cplusplus"] (golden generated_h) = Some (EDefine g [] :: extern_c ++ es ++ [ETok rbrace]) ∧
      read_c [g] (golden generated_h) = Some []
  | _ => False
  end.
Proof.
  assert (HT := C82_golden_c). unfold written in HT.
  assert (HG : of_text (FrameModel.guard_of defaults ffi_tests_lib) = chars "__RUST_FFI_TESTS__") by by vm_compute.
  refine (reading ffi_tests ffi_tests_lib (golden generated_h) (chars "__RUST_FFI_TESTS__") HT ffi_tests_ok HG _ _).
  - apply wordy_sound. by vm_compute.
  - apply (bool_decide_unpack _). by vm_compute.
Qed.
Example C82_example_length : match xwrite_body LC true ffi_tests with XOk s => length (xout s) | _ => 0%nat end = 48%nat.
Proof. by vm_compute. Qed.
(** One of its functions, one of its enums. *)
Example C82_example_fn : decl_toks false LC (YFn no "takes_out_vec" [("v", XPtr false (XStruct no "Vec" [XInt U8] []))] XVoid) =
  map tk [TkId "void"; TkId "takes_out_vec"; TkLp; TkId "Vec_uint8_t"; TkStar; TkId "v"; TkRp] ++ [semi].
Proof. done. Qed.
Example C82_example_enum : decl_toks false LC (YEnum no "Bar" (Some I8) [(no, chars "A", Some 43%Z); (no, chars "B", Some (-2)%Z)]) =
  [wd "enum"; wd "Bar"; lbrace; wd "BAR_A"; Pn 61; wd "43"; Pn 44; wd "BAR_B"; Pn 61; Pn 45; wd "2"; Pn 44; rbrace; semi;
   wd "typedef"; wd "int8_t"; wd "Bar_t"; semi].
Proof. done. Qed.
(** Documentation may hold anything but the end of a comment. *)
Theorem C82_docs_refuted : let d := [chars "a */ b /* c"] in
  ∃ s, xwrite_body LC true [JFn d "f" [] XVoid] = XOk s ∧
    read_c [] (body_text linux64 ascii_ws false (xout s)) ≠
    Some (flat_map (λ d, expected false d.1 d.2) (xout s)).
Proof. cbn zeta. eexists. split; [by vm_compute|]. by vm_compute. Qed.
(** A constant called DOXYGEN changes what enums are. *)
Theorem C82_doxygen_refuted :
  let e := XEnum no "E" (Some U8) [(no, chars "A", None)] in
  ∃ s, xwrite_body LC false [JType "E" e; JConst no "DOXYGEN" (XInt U8) false (chars "1")] = XOk s ∧
    read_c [] (body_text linux64 ascii_ws false (xout s)) ≠
    Some (flat_map (λ d, expected false d.1 d.2) (xout s)).
Proof. cbn zeta. eexists. split; [by vm_compute|]. by vm_compute. Qed.
