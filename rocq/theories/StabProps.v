(** C86: the types of [stabby] cross the boundary as what they are. *)

From Coq Require Import Arith NArith List Bool Lia.
From stdpp Require Import base numbers list.
From Verif Require Import LayoutModel LayoutSpec LayoutProofs LayoutProps StabModel StabSpec StabProofs.
Import stdpp.list.

(** The C layout has the size and the alignment of the type, and it is that of
    the type's description. *)
Theorem C86_layout w s :
  0 < w → good w (described s) →
  csa w (sclayout s) = slayout w s ∧ slayout w s = layout w (described s).
Proof.
  intros Hw Hg. rewrite sclayout_described, slayout_described.
  split; [|done]. by apply good_layout.
Qed.

(** Every value crosses unchanged in both directions. *)
Theorem C86_round_trip w le s v bs :
  0 < w → compiles s → good w (described s) → rep w le (described s) v bs →
  sinto_raw w s bs = Value bs ∧ sfrom_raw w le s bs = Value bs ∧
  (∀ v', rep w le (described s) v' bs → v' = v).
Proof.
  intros Hw Hc Hg Hr. rewrite sfrom_raw_described, sinto_raw_described by done.
  destruct (C16_round_trip_partial w le _ v bs Hw Hg Hr) as (H1 & H2 & _ & H4). done.
Qed.

(** Accepted is exactly what represents a value.  Missing: that a slice ends
    after it starts, see the refutation. *)
Theorem C86_exact_partial w le s bs :
  0 < w → compiles s → good w (described s) → all_bytes bs → length bs = fst (slayout w s) →
  (sfrom_raw w le s bs = Value bs ∧ ∃ v, rep w le (described s) v bs) ∨
  (sfrom_raw w le s bs = Rejected ∧ ¬ ∃ v, rep w le (described s) v bs).
Proof.
  intros Hw Hc Hg Hb Hl. rewrite sfrom_raw_described by done.
  apply C17_exact_partial; [done..|]. by rewrite Hl, slayout_described.
Qed.

(** A slice of two [u32] that ends 4 bytes before it starts, and one that ends
    in the midst of an element, are taken for slices. *)
Theorem C86_slice_refuted :
  ∀ o, ∃ t bs v, sfrom_raw 8 true (SSlice o t) bs = Value bs ∧
    rep 8 true (described (SSlice o t)) v bs ∧ ¬ slice_ok (size_of 8 t) v.
Proof.
  intros o. exists (TPrim 4 4), [8;16;0;0;0;0;0;0; 4;16;0;0;0;0;0;0]%N, (VStruct [VPtr 4104; VPtr 4100]).
  split; [by vm_compute|]. split.
  - cbn [described]. rewrite rep_struct. split; [done|].
    cbn [map layout]. rewrite two_pointers by lia. cbn [fields_rep].
    repeat split; try done; by apply N.mod_divide; vm_compute.
  - cbn [slice_ok]. intros [H _]. by vm_compute in H.
Qed.
Theorem C86_slice_part_refuted :
  ∀ o, ∃ t bs v, sfrom_raw 8 true (SSlice o t) bs = Value bs ∧
    rep 8 true (described (SSlice o t)) v bs ∧ ¬ slice_ok (size_of 8 t) v.
Proof.
  intros o. exists (TStruct NicheNone [TPrim 4 4; TPrim 4 4]), [0;16;0;0;0;0;0;0; 4;16;0;0;0;0;0;0]%N, (VStruct [VPtr 4096; VPtr 4100]).
  split; [by vm_compute|]. split.
  - cbn [described]. rewrite rep_struct. split; [done|].
    cbn [map layout]. rewrite two_pointers by lia. cbn [fields_rep].
    repeat split; try done; by apply N.mod_divide; vm_compute.
  - cbn [slice_ok]. intros [_ [k H]].
    change (N.of_nat (size_of 8 (TStruct NicheNone [TPrim 4 4; TPrim 4 4]))) with 8%N in H. lia.
Qed.

(** Every slice is accepted, whatever its length. *)
Theorem C86_slice w le o t a n bs :
  0 < w → length bs = 2 * w →
  word le (sub 0 w bs) = a → word le (sub w w bs) = (a + N.of_nat (n * size_of w t))%N →
  a ≠ 0%N → (N.of_nat (align_of w t) | a)%N → 0 < align_of w t → Nat.divide (align_of w t) (size_of w t) →
  sfrom_raw w le (SSlice o t) bs = Value bs.
Proof.
  intros Hw Hl Ha Hb Hz [c Hc] Hp [d Hd]. unfold sfrom_raw. cbn [svalid]. unfold slice_valid, address.
  rewrite sub_sub_0, Ha, Hb. unfold aligned.
  assert (E0 : N.eqb a 0 = false) by (by apply N.eqb_neq). rewrite E0.
  assert (E1 : N.eqb (a + N.of_nat (n * size_of w t)) 0 = false) by (apply N.eqb_neq; lia). rewrite E1.
  assert (E2 : N.eqb (a mod N.of_nat (align_of w t)) 0 = true).
  { apply N.eqb_eq, N.mod_divide; [lia|]. by exists c. } rewrite E2.
  assert (E3 : N.eqb ((a + N.of_nat (n * size_of w t)) mod N.of_nat (align_of w t)) 0 = true).
  { apply N.eqb_eq, N.mod_divide; [lia|]. exists (c + N.of_nat (n * d))%N. rewrite Hc, Hd. lia. } rewrite E3.
  cbn [negb orb andb sclayout slayout csa map]. unfold transmute_unchecked. by rewrite Nat.eqb_refl.
Qed.

(** Null is no pointer, and is [None] for an [Option]. *)
Theorem C86_null w le o t bs :
  0 < w → all_bytes bs → length bs = w →
  (bs = repeat 0%N w →
   sfrom_raw w le (SPtr o t) bs = Rejected ∧ sfrom_raw w le (SOption (SPtr o t)) bs = Value bs) ∧
  (bs ≠ repeat 0%N w →
   sfrom_raw w le (SOption (SPtr o t)) bs = sfrom_raw w le (SPtr o t) bs).
Proof.
  intros Hw Hb Hl.
  assert (HZ : bs = repeat 0%N w ↔ address w le bs = 0%N).
  { rewrite <-(C18_null w le PAligned t bs Hw ltac:(done) Hb).
    cbn [rep]. unfold address. split.
    - intros (_ & n & [= <-] & H). done.
    - intros H. split; [done|]. by exists 0. }
  unfold sfrom_raw. cbn [svalid sniche sclayout slayout csa fst].
  unfold transmute_unchecked. rewrite Nat.eqb_refl. split.
  - intros E. apply HZ in E. by rewrite E.
  - intros E. rewrite HZ in E. apply N.eqb_neq in E. by rewrite E.
Qed.

(** ** Trait objects *)

(** The table of a trait object with more traits can be read as that of one
    with fewer, and so can the trait object. *)
Theorem C86_upcast w le s s' bs :
  0 < w → compiles s → good w (described s) → upcast s s' → vtable s' →
  length bs = fst (slayout w s) → sfrom_raw w le s bs = Value bs →
  let bs' := sub 0 (fst (slayout w s')) bs in
  length bs' = fst (slayout w s') ∧ sfrom_raw w le s' bs' = Value bs'.
Proof.
  intros Hw Hc Hg Hu Hv Hl HF bs'. destruct (up_fits w s s' Hw Hu Hv Hg) as [Hs _].
  split; [apply sub_length; lia|].
  unfold sfrom_raw in *. destruct (svalid w le s bs) as [[]|] eqn:E; try done.
  unfold bs'. rewrite (up_valid w le s s' bs) by done.
  unfold transmute_unchecked. rewrite sclayout_described, slayout_described.
  assert (Hg' : good w (described s')) by (by eapply up_good).
  destruct (good_layout w _ Hw Hg') as (-> & _). by rewrite Nat.eqb_refl.
Qed.

Theorem C86_upcast_object w le p s s' bs j k :
  0 < w → compiles p → compiles s → good w (described s) → good w (described p) →
  upcast s s' → vtable s' →
  (* alignments in Rust are powers of two *)
  snd (slayout w s) = 2 ^ j → snd (slayout w s') = 2 ^ k →
  sfrom_raw w le (SDyn p s) bs = Value bs → sfrom_raw w le (SDyn p s') bs = Value bs.
Proof.
  intros Hw Hcp Hcs Hg Hgp Hu Hv Hj Hk. destruct (up_fits w s s' Hw Hu Hv Hg) as [_ Ha].
  unfold sfrom_raw. cbn [svalid]. unfold struct_valid. cbn [map fst snd csa].
  match goal with |- context [offsets 0 ?l] => destruct (two_offsets l eq_refl) as (o1 & o2 & ->) end.
  cbn [checks]. unfold ref_valid. rewrite Hj, Hk in *. cbn [sclayout slayout csa].
  destruct (if fst (slayout w p) =? 0 then _ else _) as [b|]; [|done].
  destruct (w =? 0) eqn:Ew; [done|].
  cbn [both]. set (q := address w le _).
  destruct b; [|done]. destruct (N.eqb q 0); [done|]. cbn [negb andb].
  destruct (aligned (2 ^ j) q) eqn:E; [|done].
  rewrite (aligned_divide (2 ^ k) (2 ^ j) q); [done| | | |done].
  - by apply pow2_divide.
  - apply Nat.neq_0_lt_0, Nat.pow_nonzero. lia.
  - apply Nat.neq_0_lt_0, Nat.pow_nonzero. lia.
Qed.

(** Every accepted table starts with a drop function, which is not null. *)
Theorem C86_drop w le s bs :
  0 < w → compiles s → good w (described s) → vtable s →
  length bs = fst (slayout w s) → sfrom_raw w le s bs = Value bs →
  word le (sub 0 w bs) ≠ 0%N.
Proof.
  intros Hw Hc Hg Hv Hl HF.
  destruct (C86_upcast w le s SVtDrop bs Hw Hc Hg (drop_upcast s Hv) I Hl HF) as [_ H].
  cbn [slayout] in H. rewrite seal_single in H by (done || exists 1; lia). cbn [fst] in H.
  unfold sfrom_raw in H. cbn [svalid] in H. unfold struct_valid in H.
  cbn [map fst snd csa offsets checks] in H. rewrite round_up_0 in H by done.
  assert (Ew : w =? 0 = false) by (apply Nat.eqb_neq; lia). rewrite Ew in H.
  rewrite !sub_sub_0 in H. cbn [is_valid both] in H. rewrite sub_sub_0 in H.
  intros E. by rewrite E in H.
Qed.

(** ** [Stabbied<T>] *)

(** Accepted is what [stabby] does not call invalid.  [Option]s of types with
    one invalid pattern accept everything, that pattern being [None]. *)
Theorem C86_stabbied (is_invalid : list N → bool) bs :
  (stabbied_valid is_invalid bs = true ↔ is_invalid bs = false) ∧
  (stabbied_niche is_invalid bs = true ↔ is_invalid bs = true) ∧
  opt_stabbied_valid is_invalid bs = true ∧
  (∀ p, (∀ bs, is_invalid bs = true ↔ bs = p) →
    (stabbied_niche is_invalid bs = true ↔ bs = p) ∧
    (stabbied_valid is_invalid bs = true ↔ bs ≠ p)).
Proof.
  unfold opt_stabbied_valid, stabbied_niche, stabbied_valid.
  split; [by destruct (is_invalid bs)|]. split; [by destruct (is_invalid bs)|].
  split; [by destruct (is_invalid bs)|].
  intros p Hp. specialize (Hp bs). destruct (is_invalid bs); cbn; naive_solver.
Qed.

(** ** Examples *)

(** [Dyn<Box<()>, VTable<Head, VTable<Head', VtDrop>>>] *)
Definition ex_head := SReprC (TStruct NicheNone [TFn; TFn]).
Definition ex_small := SVTable ex_head SVtDrop.
Definition ex_table := SVtSend (SVTable (SReprC (TStruct NicheNone [TFn])) ex_small).
Definition ex_dyn := SDyn (SPtr OBox (TPrim 4 4)) ex_table.

Example C86_ex_upcast : upcast ex_table ex_small ∧ vtable ex_small ∧ compiles ex_dyn.
Proof. split; [|by repeat split]. repeat constructor. Qed.
Example C86_ex_good : good 8 (described ex_table) ∧ good 8 (described ex_dyn).
Proof.
  assert (H : ∀ nk ts, Forall (good 8) ts → ts ≠ [] → good 8 (TStruct nk ts)).
  { intros nk ts HF Hn. apply good_struct. split.
    - eapply Forall_impl; [done|]. by right.
    - intros HT. destruct ts as [|t ts]; [done|]. apply Forall_cons in HF as [Hg _].
      by rewrite (HT t ltac:(left)) in Hg. }
  assert (H1 : ∀ t, good 8 t → Forall (good 8) [t]).
  { intros t Ht. constructor; [done|constructor]. }
  assert (H2 : ∀ t t', good 8 t → good 8 t' → Forall (good 8) [t; t']).
  { intros t t' Ht Ht'. constructor; [done|]. by apply H1. }
  assert (HT : good 8 (described ex_table)).
  { unfold ex_table, ex_small, ex_head. cbn [described].
    apply H; [apply H2|done].
    - apply H; [apply H2|done].
      + apply H; [by apply H1|done].
      + apply H; [by apply H2|done].
    - apply H; [by apply H1|done]. }
  split; [done|]. unfold ex_dyn. cbn [described].
  apply H; [|done]. by apply H2.
Qed.
Example C86_ex_layout : slayout 8 ex_table = (32, 8) ∧ slayout 8 ex_small = (24, 8) ∧ slayout 8 ex_dyn = (16, 8) ∧ 8 = 2 ^ 3.
Proof. by vm_compute. Qed.
Example C86_ex_accepted :
  sfrom_raw 8 true ex_dyn [4;16;0;0;0;0;0;0; 8;32;0;0;0;0;0;0]%N = Value [4;16;0;0;0;0;0;0; 8;32;0;0;0;0;0;0]%N ∧
  sfrom_raw 8 true ex_dyn [4;16;0;0;0;0;0;0; 4;32;0;0;0;0;0;0]%N = Rejected ∧
  sfrom_raw 8 true ex_dyn [0;0;0;0;0;0;0;0; 8;32;0;0;0;0;0;0]%N = Rejected ∧
  sfrom_raw 8 true ex_dyn [4;16;0;0;0;0;0;0; 0;0;0;0;0;0;0;0]%N = Rejected ∧
  sfrom_raw 8 true (SDynRef ex_small) [1;16;0;0;0;0;0;0; 8;32;0;0;0;0;0;0]%N = Value [1;16;0;0;0;0;0;0; 8;32;0;0;0;0;0;0]%N ∧
  sfrom_raw 8 true (SStr OArc) [1;16;0;0;0;0;0;0; 9;16;0;0;0;0;0;0]%N = Value [1;16;0;0;0;0;0;0; 9;16;0;0;0;0;0;0]%N.
Proof. by vm_compute. Qed.
Example C86_ex_table :
  let f := [1;16;0;0;0;0;0;0]%N in let z := repeat 0%N 8 in
  sfrom_raw 8 true ex_table (f ++ f ++ f ++ f) = Value (f ++ f ++ f ++ f) ∧
  sfrom_raw 8 true ex_table (z ++ f ++ f ++ f) = Rejected ∧
  sfrom_raw 8 true ex_table (f ++ f ++ f ++ z) = Rejected ∧
  sfrom_raw 8 true ex_small (f ++ f ++ f) = Value (f ++ f ++ f).
Proof. by vm_compute. Qed.
Example C86_ex_stabbied :
  (* [NonZeroU8] *)
  let inv := λ bs : list N, bool_decide (bs = [0]%N) in
  stabbied_valid inv [0]%N = false ∧ stabbied_niche inv [0]%N = true ∧
  stabbied_valid inv [7]%N = true ∧ opt_stabbied_valid inv [0]%N = true.
Proof. by vm_compute. Qed.

Print Assumptions C86_layout.
Print Assumptions C86_round_trip.
Print Assumptions C86_exact_partial.
Print Assumptions C86_slice_refuted.
Print Assumptions C86_slice_part_refuted.
Print Assumptions C86_slice.
Print Assumptions C86_null.
Print Assumptions C86_upcast.
Print Assumptions C86_upcast_object.
Print Assumptions C86_drop.
Print Assumptions C86_stabbied.
