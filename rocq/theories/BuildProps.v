(** C85: the builder of headers. *)

From Coq Require Import NArith List Bool String Ascii Lia.
From stdpp Require Import base numbers list strings.
From Verif Require Import NameModel NameSpec DocModel HeaderModel CsModel TextModel TextProofs TextGolden BuildModel BuildSpec BuildProofs.
From Verif Require FrameModel CStrModel.
Import stdpp.list.

(** ** C85: what generate() says of the file is so *)

(** If it says all went well, the writer was given exactly the text for the options and items, and failed nowhere. *)
Theorem C85_ok P ws fn_style cut b e is ans got r : (∀ t, concat (cut t) = t) →
  generate P ws fn_style cut raw_write b e is (Raw ans got) = (r, None) →
  ∃ T used, whole P ws fn_style b e is = Some T ∧ sunk r = got ++ T ∧ ans = used ++ answers r ∧ Forall fine used.
Proof.
  intros Hc H. destruct (generate_ok P ws fn_style cut raw_write b e is _ _ H) as (lib & x & El & Ex).
  rewrite (generate_whole P ws fn_style cut raw_write b e is lib x _ El Ex) in H. apply pieces_took in H as (us & Ea & Es & F).
  rewrite (file_concat P ws fn_style cut b lib (xout x) Hc) in Es. cbn [answers sunk] in *.
  eexists _, us. unfold whole. unfold xwrite_body. fold (ordered b is). rewrite El, Ex. done.
Qed.
Print Assumptions C85_ok.

(** If the items can be written, the only errors are those of the writer: the first one is returned, and the
    writer then holds the beginning of the text. *)
Theorem C85_prefix P ws fn_style cut b e is ans got r o T : (∀ t, concat (cut t) = t) →
  whole P ws fn_style b e is = Some T →
  generate P ws fn_style cut raw_write b e is (Raw ans got) = (r, Some o) →
  ∃ done_ missing used, T = done_ ++ missing ∧ sunk r = got ++ done_ ∧ ans = used ++ answers r ∧
    (first_failure used o ∨ o = SHang ∧ answers r = []).
Proof.
  intros Hc HT H. apply whole_inv in HT as (lib & x & El & Ex & ->).
  rewrite (generate_whole P ws fn_style cut raw_write b e is lib x _ El Ex) in H. apply pieces_took in H as (us & Ea & (u & v & Eu & Es) & F).
  rewrite (file_concat P ws fn_style cut b lib (xout x) Hc) in Eu. cbn [answers sunk] in *.
  exists u, v, us. split; [done|]. split; [done|]. split; [done|]. destruct o; try done; [by left|by left|]. right. by destruct F.
Qed.
Print Assumptions C85_prefix.

(** A writer that does not fail gets all of it. *)
Theorem C85_delivered P ws fn_style cut b e is ans got T : (∀ t, concat (cut t) = t) →
  whole P ws fn_style b e is = Some T → Forall fine ans → length T ≤ writes ans →
  ∃ rest, generate P ws fn_style cut raw_write b e is (Raw ans got) = (Raw rest (got ++ T), None).
Proof.
  intros Hc HT Hf Hl. apply whole_inv in HT as (lib & x & El & Ex & ->).
  rewrite (generate_whole P ws fn_style cut raw_write b e is lib x _ El Ex).
  rewrite <- (file_concat P ws fn_style cut b lib (xout x) Hc) in *.
  destruct (pieces_enough (file_pieces P ws fn_style cut b lib (xout x)) (Raw ans got) Hf Hl) as [[rest s] Er].
  exists rest. rewrite Er. f_equal. apply pieces_took in Er as (us & _ & Es & _). cbn [sunk] in Es. by subst.
Qed.
Print Assumptions C85_delivered.

(** A function whose name is taken: the items before it are in the file, the error names it. *)
Theorem C85_clash P ws fn_style cut b e is is1 d n args ret is2 x lib ans got : (∀ t, concat (cut t) = t) →
  lib_of b e = Some lib → ordered b is = is1 ++ JFn d n args ret :: is2 →
  xgen_all (language b) is1 (Xst [] []) = XOk x → n ∈ xseen x →
  let T := utf8_text (of_text (FrameModel.write_banner (frame b)) ++
    of_text (FrameModel.write_prelude (language b) (frame b) lib) ++ body_text P ws fn_style (xout x)) in
  Forall fine ans → length T ≤ writes ans →
  ∃ rest, generate P ws fn_style cut raw_write b e is (Raw ans got) = (Raw rest (got ++ T), Some (SDup n)).
Proof.
  intros Hc El Eo Ex Hn T Hf Hl.
  set (ts := cut (utf8_text (of_text (FrameModel.write_banner (frame b)))) ++
    cut (utf8_text (of_text (FrameModel.write_prelude (language b) (frame b) lib))) ++ texts P ws fn_style cut (xout x)).
  assert (ET : concat ts = T).
  { subst T ts. rewrite !concat_app, !utf8_app, !Hc, texts_concat by done. done. }
  destruct (pieces_enough ts (Raw ans got) Hf ltac:(by rewrite ET)) as [[rest s] Er].
  pose proof (pieces_took _ _ _ _ Er) as (us & _ & Es & _). cbn [sunk] in Es. subst s. rewrite ET in Er. exists rest.
  subst ts. rewrite pieces_app in Er. unfold generate, generate_with. rewrite El. unfold puts at 1. cbn [out seen].
  destruct (pieces raw_write (cut (utf8_text (of_text (FrameModel.write_banner (frame b))))) _) as [w1 [e1|]] eqn:E1; [done|]. rewrite pieces_app in Er. cbn [then_].
  unfold puts at 1. cbn [out seen].
  destruct (pieces raw_write (cut (utf8_text (of_text (FrameModel.write_prelude (language b) (frame b) lib)))) w1) as [w2 [e2|]] eqn:E2; [done|]. cbn [then_].
  unfold write_body. change (if stable b then xbtree is else rev is) with (ordered b is). rewrite Eo, gen_all_app.
  pose proof (sim_gen_all P ws fn_style cut raw_write (language b) is1 (State [] w2) (Xst [] []) eq_refl) as H.
  unfold follows in H. rewrite Ex in H. destruct H as (new & En & H). cbn [xout app out] in En, H. rewrite En in Er. rewrite Er in H. rewrite H.
  cbn [then_ gen_all gen_def seen]. by rewrite bool_decide_eq_true_2.
Qed.
Print Assumptions C85_clash.

(** Without a name for the library, where one is needed, it panics, after the banner. *)
Theorem C85_name_panics P ws fn_style cut b e is ans got : (∀ t, concat (cut t) = t) →
  lib_of b e = None →
  let T := utf8_text (of_text (FrameModel.write_banner (frame b))) in
  Forall fine ans → length T ≤ writes ans →
  ∃ rest, generate P ws fn_style cut raw_write b e is (Raw ans got) = (Raw rest (got ++ T), Some SPanic).
Proof.
  intros Hc El T Hf Hl. destruct (pieces_enough (cut T) (Raw ans got) Hf ltac:(by rewrite Hc)) as [[rest s] Er].
  pose proof (pieces_took _ _ _ _ Er) as (us & _ & Es & _). cbn [sunk] in Es. rewrite Hc in Es. subst s. exists rest.
  unfold generate, generate_with, puts. rewrite El. cbn [out seen]. fold T. rewrite Er. done.
Qed.
Print Assumptions C85_name_panics.
Theorem C85_name_needed b e : lib_of b e = None ↔
  FrameModel.crate_name e = None ∧ FrameModel.pkg_name e = None ∧ (language b = LCSharp ∨ b_guard b = None).
Proof.
  unfold lib_of, asks, FrameModel.lib_name. destruct (language b), (b_guard b), (FrameModel.crate_name e), (FrameModel.pkg_name e);
    split; try done; try (by intros (? & ? & [?|?])); intros _; (split; [done|]); (split; [done|]); first [by left|by right].
Qed.
Print Assumptions C85_name_needed.

(** ** Options: the last value counts, in whatever order they are given *)

Theorem C85_options cs : b_guard (build cs) = last_of guard_in cs ∧ b_text_after_guard (build cs) = last_of after_in cs ∧
  b_banner (build cs) = last_of banner_in cs ∧ language (build cs) = default LC (last_of language_in cs) ∧
  stable (build cs) = default true (last_of stable_in cs).
Proof. destruct (build_options cs) as (? & ? & ? & H4 & H5). unfold language, stable. by rewrite H4, H5. Qed.
Print Assumptions C85_options.
Theorem C85_any_order P ws fn_style cut W (wr : list N → W → W * option stop) cs ds e is w :
  last_of guard_in cs = last_of guard_in ds → last_of after_in cs = last_of after_in ds →
  last_of banner_in cs = last_of banner_in ds → last_of language_in cs = last_of language_in ds →
  last_of stable_in cs = last_of stable_in ds →
  generate P ws fn_style cut wr (build cs) e is w = generate P ws fn_style cut wr (build ds) e is w.
Proof.
  intros H1 H2 H3 H4 H5. destruct (build_options cs) as (A1 & A2 & A3 & A4 & A5). destruct (build_options ds) as (B1 & B2 & B3 & B4 & B5).
  apply generate_same; unfold frame, language, stable; congruence.
Qed.
Print Assumptions C85_any_order.

(** No header depends on the naming convention. *)
Theorem C85_naming P ws fn_style cut W (wr : list N → W → W * option stop) cs e is w :
  generate P ws fn_style cut wr (build cs) e is w =
  generate P ws fn_style cut wr (build (filter (λ c, is_naming c = false) cs)) e is w.
Proof.
  assert (H : ∀ A (f : call → option A), (∀ n, f (WithNaming n) = None) → last_of f cs = last_of f (filter (λ c, is_naming c = false) cs)).
  { intros A f Hf. induction cs as [|c cs IH]; [done|].
    destruct c as [g|t|t|l|n|k]; [..|rewrite filter_cons_False by done; cbn [last_of]; rewrite Hf, IH; by destruct (last_of f (filter _ cs))|];
      rewrite filter_cons_True by done; cbn [last_of]; by rewrite IH. }
  by apply C85_any_order; apply H.
Qed.
Print Assumptions C85_naming.

(** The guard and what comes after it are for C only. *)
Theorem C85_not_for_csharp P ws fn_style b e is lib g t : language b = LCSharp → FrameModel.lib_name e = Some lib →
  whole P ws fn_style b e is =
  whole P ws fn_style (Builder g t (b_banner b) (b_language b) (b_naming b) (b_stable b)) e is.
Proof.
  intros Hl He. unfold whole, lib_of, asks. rewrite Hl.
  change (language (Builder g t (b_banner b) (b_language b) (b_naming b) (b_stable b))) with (language b). rewrite Hl, He. done.
Qed.
Print Assumptions C85_not_for_csharp.

(** ** Files *)

Theorem C85_file P ws fn_style cut opens fs p b e is ans fs' o : (∀ t, concat (cut t) = t) →
  to_file_generate P ws fn_style cut opens fs p b e is ans = (fs', o) →
  (∀ q, q ≠ p → fs' q = fs q) ∧
  match o with
  | Some None => ∃ T, whole P ws fn_style b e is = Some T ∧ fs' p = Some T
  | Some (Some _) => ∀ T, whole P ws fn_style b e is = Some T → ∃ done_ missing, T = done_ ++ missing ∧ fs' p = Some done_
  | None => fs' p = fs p
  end.
Proof.
  intros Hc. unfold to_file_generate. destruct opens; [|intros [= <- <-]; done].
  destruct (generate _ _ _ _ _ _ _ _ _) as [r o'] eqn:E. intros [= <- <-]. split.
  { intros q Hq. unfold set_file. by rewrite (proj2 (String.eqb_neq q p) Hq). }
  unfold set_file. rewrite String.eqb_refl. destruct o' as [o'|].
  - intros T HT. destruct (C85_prefix P ws fn_style cut b e is ans [] r o' T Hc HT E) as (u & v & _ & -> & Es & _). exists u, v. by rewrite Es.
  - destruct (C85_ok P ws fn_style cut b e is ans [] r Hc E) as (T & _ & HT & Es & _). exists T. by rewrite Es.
Qed.
Print Assumptions C85_file.

(** ** Behind a BufWriter *)

(** When generate() says all went well, what the writer misses is the end of the text, which the
    BufWriter held when it was dropped; nothing is missing if the writer does not fail. *)
Theorem C85_buffered P ws fn_style cut cap b e is ans r : (∀ t, concat (cut t) = t) →
  to_buffered_generate P ws fn_style cut cap b e is ans = (r, None) →
  ∃ T lost, whole P ws fn_style b e is = Some T ∧ T = sunk r ++ lost ∧ length lost ≤ cap.
Proof.
  intros Hc. unfold to_buffered_generate. destruct (generate _ _ _ _ _ _ _ _ _) as [w o] eqn:E. intros [= <- ->].
  destruct (generate_ok P ws fn_style cut buffered_write b e is _ _ E) as (lib & x & El & Ex).
  rewrite (generate_whole P ws fn_style cut buffered_write b e is lib x _ El Ex) in E.
  pose proof (buffered_cap _ _ _ _ E) as Ecap. cbn [b_cap] in Ecap.
  apply buffered_pieces in E as [F H]; [|unfold fits; cbn; lia]. rewrite (file_concat P ws fn_style cut b lib (xout x) Hc) in H.
  unfold held in H. cbn [b_inner b_buf sunk app] in H. unfold buffered_drop. destruct (flush_buf w) as [w' o] eqn:Ef.
  pose proof (flush_spec _ _ _ Ef) as (_ & Ec & Eh & _). cbn [fst]. rewrite H in Eh.
  eexists _, (b_buf w'). unfold whole, xwrite_body. fold (ordered b is). rewrite El, Ex. split; [done|]. split; [done|].
  unfold flush_buf in Ef. destruct (raw_write _ _) in Ef. injection Ef as <- _. cbn [b_buf]. rewrite drop_length. unfold fits in F.
  lia.
Qed.
Print Assumptions C85_buffered.
Theorem C85_buffered_delivered P ws fn_style cut cap b e is ans T : (∀ t, concat (cut t) = t) →
  whole P ws fn_style b e is = Some T → Forall fine ans → length T ≤ writes ans →
  ∃ rest, to_buffered_generate P ws fn_style cut cap b e is ans = (Raw rest T, None).
Proof.
  intros Hc HT Hf Hl. apply whole_inv in HT as (lib & x & El & Ex & ->). unfold to_buffered_generate.
  rewrite (generate_whole P ws fn_style cut buffered_write b e is lib x _ El Ex).
  rewrite <- (file_concat P ws fn_style cut b lib (xout x) Hc) in *.
  set (ts := file_pieces P ws fn_style cut b lib (xout x)) in *.
  destruct (buffered_pieces_ready ts (Buffered (Raw ans []) [] cap) 0) as (w & Ew & Hr).
  { unfold fits. cbn. lia. }
  { cbn [b_buf b_inner length]. split; [done|]. cbn [answers]. lia. }
  rewrite Ew. apply flush_ready in Hr as (w' & Ef & Eb & _ & _). unfold buffered_drop. rewrite Ef. cbn [fst].
  apply buffered_pieces in Ew as [_ Hh]; [|unfold fits; cbn; lia]. apply flush_spec in Ef as (_ & _ & Eh & _).
  rewrite Eb, app_nil_r in Eh. unfold held in Hh. rewrite <- Eh in Hh. cbn [b_inner b_buf sunk app] in Hh.
  destruct (b_inner w') as [rest g] eqn:Ei. cbn [sunk] in Hh. exists rest. by rewrite Hh.
Qed.
Print Assumptions C85_buffered_delivered.

(** The bytes are those of the text: well-formed, and read back as it is. *)
Lemma utf8_char_read c l : scalar c →
  utf8_read (utf8_char c ++ l) = cons c <$> utf8_read l ∧ CStrModel.utf8 (utf8_char c ++ l) = CStrModel.utf8 l.
Proof.
  intros [Hs Hc]. unfold utf8_char.
  assert (D : ∀ x, (x = 64 * (x / 64) + x mod 64 ∧ x mod 64 < 64)%N).
  { intros x. split; [by apply N.div_mod|by apply N.mod_lt]. }
  replace (c / 4096)%N with (c / 64 / 64)%N by by rewrite N.div_div.
  replace (c / 262144)%N with (c / 64 / 64 / 64)%N by by rewrite !N.div_div.
  pose proof (D c) as [D1 M1]. pose proof (D (c / 64)%N) as [D2 M2]. pose proof (D (c / 64 / 64)%N) as [D3 M3].
  set (q1 := (c / 64)%N) in *. set (m1 := (c mod 64)%N) in *. set (q2 := (q1 / 64)%N) in *. set (m2 := (q1 mod 64)%N) in *.
  set (q3 := (q2 / 64)%N) in *. set (m3 := (q2 mod 64)%N) in *. clearbody q1 m1 q2 m2 q3 m3. clear D.
  destruct (N.ltb_spec c 0x80); [|destruct (N.ltb_spec c 0x800); [|destruct (N.ltb_spec c 0x10000)]];
    cbn [app utf8_read CStrModel.utf8]; unfold CStrModel.cont.
  - by rewrite (proj2 (N.ltb_lt c 0x80)).
  - rewrite (proj2 (N.ltb_ge (0xC0 + q1) 0x80)) by lia. rewrite (proj2 (N.ltb_lt (0xC0 + q1) 0xE0)) by lia.
    split; [do 2 f_equal; lia|].
    rewrite (proj2 (N.leb_le 194 (0xC0 + q1))), (proj2 (N.leb_le (0xC0 + q1) 223)), (proj2 (N.leb_le 128 (0x80 + m1))), (proj2 (N.leb_le (0x80 + m1) 191)) by lia.
    done.
  - rewrite (proj2 (N.ltb_ge (0xE0 + q2) 0x80)), (proj2 (N.ltb_ge (0xE0 + q2) 0xE0)), (proj2 (N.ltb_lt (0xE0 + q2) 0xF0)) by lia.
    split; [do 2 f_equal; lia|].
    rewrite (proj2 (N.leb_gt (0xE0 + q2) 223)), andb_false_r by lia.
    rewrite (proj2 (N.leb_le 224 (0xE0 + q2))), (proj2 (N.leb_le (0xE0 + q2) 239)) by lia.
    rewrite (proj2 (N.leb_le 128 (0x80 + m1))), (proj2 (N.leb_le (0x80 + m1) 191)) by lia. cbn [andb]. rewrite andb_true_r.
    assert (HB : (if 224 + q2 =? 224 then (160 <=? 128 + m2) && (128 + m2 <=? 191)
       else if 224 + q2 =? 237 then (128 <=? 128 + m2) && (128 + m2 <=? 159) else (128 <=? 128 + m2) && (128 + m2 <=? 191))%N = true); [|by rewrite HB].
    destruct (N.eqb_spec (224 + q2) 224); [|destruct (N.eqb_spec (224 + q2) 237)]; apply andb_true_iff; rewrite !N.leb_le; lia.
  - rewrite (proj2 (N.ltb_ge (0xF0 + q3) 0x80)), (proj2 (N.ltb_ge (0xF0 + q3) 0xE0)), (proj2 (N.ltb_ge (0xF0 + q3) 0xF0)) by lia.
    split; [do 2 f_equal; lia|].
    rewrite (proj2 (N.leb_gt (0xF0 + q3) 223)), (proj2 (N.leb_gt (0xF0 + q3) 239)), !andb_false_r by lia.
    rewrite (proj2 (N.leb_le 240 (0xF0 + q3))), (proj2 (N.leb_le (0xF0 + q3) 244)) by lia.
    rewrite (proj2 (N.leb_le 128 (0x80 + m1))), (proj2 (N.leb_le (0x80 + m1) 191)), (proj2 (N.leb_le 128 (0x80 + m2))), (proj2 (N.leb_le (0x80 + m2) 191)) by lia. cbn [andb]. rewrite !andb_true_r.
    assert (HB : (if 240 + q3 =? 240 then (144 <=? 128 + m3) && (128 + m3 <=? 191)
       else if 240 + q3 =? 244 then (128 <=? 128 + m3) && (128 + m3 <=? 143) else (128 <=? 128 + m3) && (128 + m3 <=? 191))%N = true); [|by rewrite HB].
    destruct (N.eqb_spec (240 + q3) 240); [|destruct (N.eqb_spec (240 + q3) 244)]; apply andb_true_iff; rewrite !N.leb_le; lia.
Qed.
Theorem C85_utf8 t : Forall scalar t → utf8_read (utf8_text t) = Some t ∧ CStrModel.utf8 (utf8_text t) = true.
Proof.
  induction 1 as [|c t Hc _ [IH1 IH2]]; [done|]. unfold utf8_text in *. cbn [flat_map].
  destruct (utf8_char_read c (flat_map utf8_char t) Hc) as [-> ->]. by rewrite IH1.
Qed.
Example C85_utf8_example : utf8_text [97; 233; 8364; 128512]%N = [97; 195; 169; 226; 130; 172; 240; 159; 152; 128]%N ∧
  Forall scalar [97; 233; 8364; 128512]%N.
Proof. split; [done|]. repeat constructor; lia. Qed.

(** ** Examples *)

Definition linux64 : platform := Platform 8 8 false.
Definition foo : xitem := JFn [] "foo" [("x", XInt I32)] XBool.
Definition env1 : FrameModel.vars := FrameModel.Vars (Some (FrameModel.tx "my_lib")) None.
Definition one_piece (t : list N) : list (list N) := [t].
Definition by_bytes (t : list N) : list (list N) := map (λ c, [c]) t.
Lemma by_bytes_concat t : concat (by_bytes t) = t.
Proof. induction t as [|c t IH]; [done|]. unfold by_bytes in *. cbn. by rewrite IH. Qed.
Definition text_of (b : builder) (is : list xitem) : list N := default [] (whole linux64 ascii_ws false b env1 is).

(** The text: its length; a writer that takes seven bytes at a time gets it all; one that fails does not. *)
Example C85_example :
  length (text_of new_builder [foo]) = 625 ∧
  (generate linux64 ascii_ws false by_bytes raw_write new_builder env1 [foo] (Raw (replicate 625 (Take 7)) [])).2 = None ∧
  sunk (generate linux64 ascii_ws false one_piece raw_write new_builder env1 [foo] (Raw (Interrupted :: replicate 625 (Take 7)) [])).1 =
    text_of new_builder [foo] ∧
  generate linux64 ascii_ws false one_piece raw_write new_builder env1 [foo] (Raw [Take 3; Fails 28] []) =
    (Raw [] (take 3 (text_of new_builder [foo])), Some (SIo 28)).
Proof. by vm_compute. Qed.
(** Two functions of one name: what is before the second is in the file, and the error is returned. *)
Example C85_clash_example :
  let b := build [WithStable false] in
  (generate linux64 ascii_ws false one_piece raw_write b env1 [foo; foo] (Raw (replicate 20 (Take 1000)) [])).2 = Some (SDup "foo") ∧
  sunk (generate linux64 ascii_ws false one_piece raw_write b env1 [foo; foo] (Raw (replicate 20 (Take 1000)) [])).1 =
    take 547 (text_of b [foo]).
Proof. by vm_compute. Qed.
Example C85_options_example :
  let b := build [WithGuard (FrameModel.tx "A_H"); WithLanguage LPython; WithStable false; WithGuard (FrameModel.tx "B_H"); WithLanguage LC] in
  b_guard b = Some (FrameModel.tx "B_H") ∧ language b = LC ∧ stable b = false ∧ b_banner b = None.
Proof. done. Qed.

(** ** What is not so *)

(** A naming convention is not followed: it is ignored. *)
Fixpoint is_prefix (p t : list N) : bool :=
  match p, t with [], _ => true | c :: p, d :: t => N.eqb c d && is_prefix p t | _, _ => false end.
Fixpoint occurs (p t : list N) : bool := is_prefix p t || match t with [] => false | _ :: t => occurs p t end.
Theorem C85_naming_refuted : ∃ b p is T, b_naming b = Some (NPrefix p) ∧ is = [foo] ∧
  whole linux64 ascii_ws false b env1 is = Some T ∧
  occurs (chars (p ++ "foo")) T = false ∧ occurs (chars "foo (") T = true ∧
  whole linux64 ascii_ws false new_builder env1 is = Some T.
Proof.
  exists (build [WithNaming (NPrefix "my_")]), "my_"%string, [foo], (text_of new_builder [foo]).
  by vm_compute.
Qed.
(** Behind a BufWriter, generate() may say all went well although nothing was written. *)
Theorem C85_buffered_refuted : ∃ cap is ans T, whole linux64 ascii_ws false new_builder env1 is = Some T ∧
  to_buffered_generate linux64 ascii_ws false one_piece cap new_builder env1 is ans = (Raw [] [], None) ∧ T ≠ [].
Proof.
  exists 8192, [foo], [Fails 28], (text_of new_builder [foo]). split; [by vm_compute|]. split; [by vm_compute|]. by vm_compute.
Qed.
Print Assumptions C85_utf8.
