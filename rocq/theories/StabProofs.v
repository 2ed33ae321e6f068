(** Proofs about the types of [stabby]. *)

From Coq Require Import Arith NArith List Bool Lia.
From stdpp Require Import base numbers list.
From Verif Require Import LayoutModel LayoutSpec LayoutProofs StabModel StabSpec.
Import stdpp.list.

Lemma slayout_described w s : slayout w s = layout w (described s).
Proof.
  induction s; cbn [slayout described layout map]; try done; by rewrite ?IHs, ?IHs1, ?IHs2.
Qed.

Lemma sclayout_described s : sclayout s = clayout (described s).
Proof.
  induction s; cbn [sclayout described clayout map]; try done; by rewrite ?IHs, ?IHs1, ?IHs2.
Qed.

Lemma sub_sub_0 o n (bs : list N) : sub 0 n (sub o n bs) = sub o n bs.
Proof. unfold sub. rewrite drop_0, take_take. f_equal. lia. Qed.

Lemma two_pointers w : 0 < w → offsets 0 [(w, w); (w, w)] = [0; w].
Proof.
  intros Hw. cbn [offsets]. rewrite round_up_0 by done. cbn [Nat.add].
  rewrite (round_up_div w w) by (done || exists 1; lia). done.
Qed.

Lemma two_offsets l : length l = 2 → ∃ o1 o2, offsets 0 l = [o1; o2].
Proof.
  intros Hl. pose proof (offsets_length 0 l) as H. rewrite Hl in H.
  destruct (offsets 0 l) as [|o1 [|o2 [|]]]; try done. by exists o1, o2.
Qed.

Lemma svalid_described w le s bs :
  0 < w → compiles s → svalid w le s bs = is_valid w le (described s) bs.
Proof.
  intros Hw. assert (Hw0 : w =? 0 = false) by (apply Nat.eqb_neq; lia).
  revert bs. induction s as [t|o t|o t|o|s IH|p IHp v IHv|v IHv| |h IHh t IHt|t IH|t IH|s IH|s IH]; intros bs Hc.
  - done.
  - done.
  - cbn [svalid described]. rewrite is_valid_struct. cbn [map clayout csa].
    rewrite two_pointers by done. cbn [fields_valid].
    unfold size_of, csize. cbn [layout clayout csa fst]. rewrite Hw0.
    unfold slice_valid, address. cbn [is_valid both]. rewrite !sub_sub_0.
    rewrite negb_orb. f_equal. unfold aligned, align_of. rewrite andb_true_r.
    repeat match goal with |- context [N.eqb ?a ?b] => destruct (N.eqb a b) end; done.
  - cbn [svalid described]. rewrite is_valid_struct. cbn [map clayout csa].
    rewrite two_pointers by done. cbn [fields_valid].
    unfold size_of, csize. cbn [layout clayout csa fst]. rewrite Hw0.
    unfold slice_valid, address. cbn [is_valid both]. rewrite !sub_sub_0.
    rewrite negb_orb. f_equal. unfold aligned, align_of. cbn [layout snd]. rewrite andb_true_r.
    repeat match goal with |- context [N.eqb ?a ?b] => destruct (N.eqb a b) end; done.
  - destruct s; done.
  - destruct Hc as [Hp Hv]. cbn [svalid described]. rewrite is_valid_struct.
    unfold struct_valid. cbn [map fst snd clayout csa]. rewrite sclayout_described.
    match goal with |- context [offsets 0 ?l] => destruct (two_offsets l eq_refl) as (o1 & o2 & ->) end.
    cbn [checks fields_valid]. unfold size_of, csize.
    rewrite (IHp _ Hp), (slayout_described w p), (slayout_described w v). cbn [layout clayout csa fst]. rewrite Hw0.
    done.
  - cbn [svalid described]. rewrite is_valid_struct.
    unfold struct_valid. cbn [map fst snd clayout csa].
    match goal with |- context [offsets 0 ?l] => destruct (two_offsets l eq_refl) as (o1 & o2 & ->) end.
    cbn [checks fields_valid]. unfold size_of, csize.
    rewrite (slayout_described w v). cbn [layout clayout csa fst]. rewrite Hw0. done.
  - cbn [svalid described]. rewrite is_valid_struct.
    unfold struct_valid. cbn [map fst snd clayout csa].
    destruct (offsets 0 _) as [|o1 os] eqn:E; [done|].
    cbn [checks fields_valid]. unfold size_of, csize. cbn [layout clayout csa fst]. rewrite Hw0. done.
  - destruct Hc as [Hh Ht]. cbn [svalid described]. rewrite is_valid_struct.
    unfold struct_valid. cbn [map fst snd]. rewrite !sclayout_described.
    match goal with |- context [offsets 0 ?l] => destruct (two_offsets l eq_refl) as (o1 & o2 & ->) end.
    cbn [checks fields_valid]. unfold size_of, csize.
    by rewrite (IHh _ Hh), (IHt _ Ht), !slayout_described.
  - by apply IH.
  - by apply IH.
  - by apply IH.
  - by apply IH.
Qed.

Lemma sfrom_raw_described w le s bs :
  0 < w → compiles s → sfrom_raw w le s bs = from_raw w le (described s) bs.
Proof.
  intros Hw Hc. unfold sfrom_raw, from_raw, csize, size_of.
  by rewrite svalid_described, sclayout_described, slayout_described.
Qed.

Lemma sinto_raw_described w s bs : sinto_raw w s bs = into_raw w (described s) bs.
Proof.
  unfold sinto_raw, into_raw, csize, size_of. by rewrite sclayout_described, slayout_described.
Qed.

(** ** Tables of functions *)

Lemma up_vtable s s' : upcast s s' → vtable s' → vtable s.
Proof. induction 1; cbn [vtable]; tauto. Qed.

Lemma vtable_not_unit s : vtable s → described s ≠ TUnit.
Proof. induction s; cbn; try done; auto. Qed.

Lemma up_good w s s' : upcast s s' → vtable s' → good w (described s) → good w (described s').
Proof.
  induction 1 as [|h t s' Hu IH|t s' Hu IH|t s' Hu IH]; intros Hv Hg; [done| |by apply IH..].
  apply IH; [done|]. cbn [described] in Hg. apply good_struct in Hg as [Hg _].
  apply Forall_cons in Hg as [[Hg|Hg] _]; [|done].
  by destruct (vtable_not_unit t (up_vtable _ _ Hu Hv)).
Qed.

Lemma up_compiles s s' : upcast s s' → compiles s → compiles s'.
Proof. induction 1; cbn [compiles]; tauto. Qed.

Lemma sub_sub_le n m (bs : list N) : n ≤ m → sub 0 n (sub 0 m bs) = sub 0 n bs.
Proof. intros H. unfold sub. rewrite !drop_0, take_take. f_equal. lia. Qed.

Lemma seal_two_ge s1 a1 s2 a2 : 0 < a1 → 0 < a2 →
  s1 ≤ fst (LayoutModel.seal [(s1, a1); (s2, a2)]) ∧ a1 ≤ snd (LayoutModel.seal [(s1, a1); (s2, a2)]).
Proof.
  intros H1 H2. split.
  - etrans; [|apply seal_ge]. cbn [ending]. rewrite round_up_0 by done. cbn [Nat.add].
    pose proof (round_up_ge s1 a2 H2). lia.
  - unfold LayoutModel.seal. cbn [snd max_align]. lia.
Qed.

(** The layout of a table starts with that of the tables it extends. *)
Lemma up_fits w s s' :
  0 < w → upcast s s' → vtable s' → good w (described s) →
  fst (slayout w s') ≤ fst (slayout w s) ∧ snd (slayout w s') ≤ snd (slayout w s).
Proof.
  intros Hw Hu Hv. induction Hu as [|h t s' Hu IH|t s' Hu IH|t s' Hu IH]; intros Hg; [done| |by apply IH..].
  assert (Hgt : good w (described t)).
  { eapply (up_good w (SVTable h t)); [apply up_table, up_refl|by eapply up_vtable|done]. }
  destruct (IH Hv Hgt) as [H1 H2].
  cbn [slayout]. rewrite !slayout_described in *.
  destruct (good_layout w _ Hw Hgt) as (_ & _ & Ha & _).
  assert (Hah : 0 < snd (layout w (described h))).
  { cbn [described] in Hg. apply good_struct in Hg as [Hg _].
    apply Forall_cons in Hg as [_ Hg]. apply Forall_cons in Hg as [Hg _].
    by apply field_align. }
  destruct (layout w (described t)) as [a1 b1], (layout w (described h)) as [a2 b2]. cbn [snd] in *.
  destruct (seal_two_ge a1 b1 a2 b2 Ha Hah). cbn [fst] in *. lia.
Qed.

Lemma up_valid w le s s' bs :
  0 < w → upcast s s' → vtable s' → good w (described s) →
  length bs = fst (slayout w s) →
  svalid w le s bs = Some true →
  svalid w le s' (sub 0 (fst (slayout w s')) bs) = Some true.
Proof.
  intros Hw Hu Hv. revert bs.
  induction Hu as [|h t s' Hu IH|t s' Hu IH|t s' Hu IH]; intros bs Hg Hl HV; [by rewrite sub_all| |by apply IH..].
  assert (Hgt : good w (described t)).
  { eapply (up_good w (SVTable h t)); [apply up_table, up_refl|by eapply up_vtable|done]. }
  assert (Hf : fst (slayout w t) ≤ length bs).
  { rewrite Hl. eapply (up_fits w (SVTable h t)); [done|apply up_table, up_refl|by eapply up_vtable|done]. }
  destruct (good_layout w _ Hw Hgt) as (Hc & Hs & Ha & _).
  assert (HT : svalid w le t (sub 0 (fst (slayout w t)) bs) = Some true).
  { clear Hf. cbn [svalid] in HV. unfold struct_valid in HV. cbn [map fst snd] in HV.
    rewrite !sclayout_described, !slayout_described, Hc in HV. rewrite !slayout_described.
    destruct (layout w (described t)) as [a1 b1]. cbn [snd fst] in *.
    destruct (csa w (clayout (described h))) as [a2 b2] eqn:Eh. cbn [offsets] in HV.
    rewrite round_up_0 in HV by done. cbn [checks] in HV.
    assert (a1 =? 0 = false) as E by (apply Nat.eqb_neq; lia). rewrite E, Hc in HV.
    cbn [fst] in HV.
    destruct (svalid w le t _) as [[]|]; [done| |done].
    by destruct (both _ (Some true)) as [[]|]. }
  specialize (IH Hv _ Hgt (sub_length 0 _ bs Hf) HT).
  rewrite sub_sub_le in IH; [done|]. by apply up_fits.
Qed.

Lemma drop_upcast s : vtable s → upcast s SVtDrop.
Proof. induction s; cbn [vtable]; try done; intros H; constructor; auto. Qed.

Lemma pow2_divide j k : 2 ^ j ≤ 2 ^ k → Nat.divide (2 ^ j) (2 ^ k).
Proof.
  intros H. apply Nat.pow_le_mono_r_iff in H; [|lia].
  exists (2 ^ (k - j)). rewrite <-Nat.pow_add_r. f_equal. lia.
Qed.

Lemma aligned_divide a b p : Nat.divide a b → 0 < a → 0 < b → aligned b p = true → aligned a p = true.
Proof.
  intros [k ->] Ha Hb. unfold aligned. rewrite !N.eqb_eq.
  rewrite !N.mod_divide by lia. intros [c ->]. exists (c * N.of_nat k)%N. lia.
Qed.
