(** Property C50, the part about bytes: what the crate makes of the slices
    (and vectors) that C passes.  [w] is the size of a pointer, [le] the
    endianness. *)

From Coq Require Import Arith NArith List Bool Lia.
From stdpp Require Import base numbers list.
From Verif Require Import LayoutModel LayoutSpec LayoutProofs.

(** slice.rs 48-56 [slice_raw], 282-298 [slice_ref], 412-428 [slice_mut],
    121-129 [slice_boxed]; vec.rs 5-18 [Vec].  Their niche is a null [ptr]:
    niche.rs 67-72, 89-92. *)
Inductive kind := Raw | Ref | Boxed | Vect.
Definition slice_ty (w : nat) (k : kind) (t : ty) : ty :=
  TStruct NicheFirst
    match k with
    | Raw => [TPtr PNonNull t; TPrim w w]
    | Ref => [TPtr PAligned t; TPrim w w; TUnit]
    | Boxed => [TPtr PAligned t; TPrim w w]
    | Vect => [TPtr PAligned t; TPrim w w; TPrim w w]
    end.
(** What C passes: a pointer, a length, and a capacity for vectors. *)
Definition words (k : kind) : nat := match k with Vect => 3 | _ => 2 end.
Definition slice_value (k : kind) (p : N) (len cap : list N) : value :=
  VStruct
    match k with
    | Raw | Boxed => [VPtr p; VPrim len]
    | Ref => [VPtr p; VPrim len; VUnit]
    | Vect => [VPtr p; VPrim len; VPrim cap]
    end.

Lemma seal_words w : 0 < w → seal [(w, w); (w, w)] = (2 * w, w) ∧ seal [(w, w); (w, w); (0, 1)] = (2 * w, w) ∧
  seal [(w, w); (w, w); (w, w)] = (3 * w, w).
Proof.
  intros Hw. assert (O : ∀ j, round_up (j * w) w = j * w) by (intros j; by apply (round_up_mul _ _ j)).
  pose proof (O 0) as O0. pose proof (O 1) as O1. pose proof (O 2) as O2. pose proof (O 3) as O3.
  replace (0 * w) with 0 in O0 by lia. replace (1 * w) with (0 + w) in O1 by lia. replace (2 * w) with (0 + w + w) in O2 by lia. replace (3 * w) with (0 + w + w + w) in O3 by lia.
  unfold seal. cbn [ending max_align]. rewrite !Nat.max_l by lia. rewrite !O0, !O1, ?round_up_1, !O2, !Nat.add_0_r, ?O3, ?O2. split_and!; f_equal; lia.
Qed.
Lemma slice_size w k t : 0 < w → size_of w (slice_ty w k t) = words k * w ∧ csize w (slice_ty w k t) = words k * w.
Proof.
  intros Hw. destruct (seal_words w Hw) as (S1 & S2 & S3). unfold size_of, csize, slice_ty.
  destruct k; cbn [layout clayout csa map words]; rewrite ?S1, ?S2, ?S3; done.
Qed.
Lemma slice_valid w le k t bs : 0 < w → is_valid w le (slice_ty w k t) bs =
  Some (negb (N.eqb (word le (sub 0 w bs)) 0) && N.eqb (word le (sub 0 w bs) mod N.of_nat (align_of w t)) 0).
Proof.
  intros Hw. assert (Hs : sub 0 w (sub 0 w bs) = sub 0 w bs) by (unfold sub; rewrite !drop_0, firstn_firstn; by rewrite Nat.min_id).
  unfold slice_ty. destruct k; cbn [is_valid map clayout csa offsets]; rewrite (round_up_0 w Hw); unfold size_of, csize; cbn [layout clayout csa fst snd];
    rewrite (proj2 (Nat.eqb_neq w 0)) by lia; rewrite Hs; cbn [both Nat.eqb]; by rewrite ?andb_true_r.
Qed.

(** A null pointer: [None], whatever the length; and nothing else. *)
Theorem C50_null w le k t bs p a : 0 < w → length bs = words k * w → p = word le (sub 0 w bs) → a = N.of_nat (align_of w t) →
  p = 0%N →
  from_raw w le (TOption (slice_ty w k t)) bs = Value bs ∧ from_raw w le (slice_ty w k t) bs = Rejected ∧
  ∀ v, rep w le (TOption (slice_ty w k t)) v bs ↔ v = VNone.
Proof.
  intros Hw Hl Dp Da Hp. destruct (slice_size w k t Hw) as [S1 S2]. unfold from_raw. pose proof (slice_valid w le k t bs Hw) as V. rewrite <-Dp in V. rewrite Hp in V.
  assert (is_valid w le (TOption (slice_ty w k t)) bs = Some true) as ->.
  { cbn [is_valid]. rewrite V. unfold slice_ty. cbn [is_niche]. rewrite <-Dp. by rewrite Hp. }
  rewrite V. cbn [negb N.eqb andb]. split_and!; [|done|].
  - unfold transmute_unchecked. unfold csize in *. cbn [clayout]. unfold size_of in *. cbn [layout]. rewrite S1, S2. by rewrite Nat.eqb_refl.
  - intros v. split; [|intros ->].
    + destruct v; try done. cbn [rep]. destruct v; try done; try (by destruct k). unfold slice_ty. cbn [rep].
      intros (_ & Hr). exfalso. destruct k; cbn [map layout offsets] in Hr; destruct vs as [|v vs]; try done; rewrite (round_up_0 w Hw) in Hr; destruct Hr as [Hr _];
        destruct v; try done; cbn [rep] in Hr; unfold size_of in Hr; cbn [layout fst] in Hr; destruct Hr as (_ & E & Ha); rewrite <-Dp in E; [|destruct Ha..]; congruence.
    + cbn [rep]. split; [unfold size_of in *; lia|]. exists 0. split; [|by rewrite <-Dp]. unfold slice_ty. cbn [niche_at]. destruct k; cbn [map layout offsets niche_at]; by rewrite (round_up_0 w Hw).
Qed.

(** A pointer that is not null and aligned: exactly that pointer and length
    (and capacity). *)
Theorem C50_some w le k t bs p a : 0 < w → length bs = words k * w → p = word le (sub 0 w bs) → a = N.of_nat (align_of w t) →
  p ≠ 0%N → (a | p)%N →
  from_raw w le (TOption (slice_ty w k t)) bs = Value bs ∧ from_raw w le (slice_ty w k t) bs = Value bs ∧
  (∀ v, rep w le (slice_ty w k t) v bs ↔ v = slice_value k p (sub w w bs) (sub (2 * w) w bs)) ∧
  ∀ v, rep w le (TOption (slice_ty w k t)) v bs ↔ v = VSome (slice_value k p (sub w w bs) (sub (2 * w) w bs)).
Proof.
  intros Hw Hl Dp Da Hp Ha. destruct (slice_size w k t Hw) as [S1 S2]. unfold from_raw. pose proof (slice_valid w le k t bs Hw) as V. rewrite <-Dp in V.
  assert (Hm : (p mod a)%N = 0%N). { destruct Ha as [q ->]. destruct (N.eq_dec a 0) as [->|]; [by rewrite N.mul_0_r|]. by apply N.mod_mul. }
  rewrite <-Da in V. rewrite Hm, (proj2 (N.eqb_neq p 0) Hp) in V. cbn [negb andb N.eqb] in V.
  assert (is_valid w le (TOption (slice_ty w k t)) bs = Some true) as ->.
  { cbn [is_valid]. rewrite V. unfold slice_ty. cbn [is_niche]. rewrite <-Dp. by rewrite (proj2 (N.eqb_neq p 0) Hp). }
  rewrite V.
  assert (G : ∀ v, rep w le (slice_ty w k t) v bs ↔ v = slice_value k p (sub w w bs) (sub (2 * w) w bs)).
  { assert (L1 : length (sub 0 w bs) = w) by (unfold sub; rewrite take_length, drop_length; destruct k; cbn [words] in Hl; lia).
    assert (L2 : length (sub w w bs) = w) by (unfold sub; rewrite take_length, drop_length; destruct k; cbn [words] in Hl; lia).
    assert (L3 : k = Vect → length (sub (2 * w) w bs) = w) by (intros ->; unfold sub; rewrite take_length, drop_length; cbn [words] in Hl; lia).
    assert (O1 : round_up (0 + w) w = w) by (rewrite Nat.add_0_l; apply (round_up_mul w w 1); lia).
    assert (O2 : round_up (w + w) w = 2 * w) by (rewrite (round_up_mul (w + w) w 2) by lia; lia).
    intros v. destruct v; try (by destruct k). unfold slice_ty. cbn [rep]. fold (slice_ty w k t). rewrite S1, Hl.
    unfold slice_value. destruct k; cbn [map layout offsets]; rewrite (round_up_0 w Hw), O1, ?O2, ?round_up_1; unfold size_of; cbn [layout fst]; (split;
      [intros (_ & Hr)|intros [= ->]; cbn [rep]; rewrite <-?Da, <-?Dp; specialize (L3 eq_refl) || clear L3; split_and!; done]).
    all: destruct vs as [|x [|y [|u [|]]]]; try (by cbn in Hr; destruct_and?); destruct_and? Hr; destruct x; try done; destruct y; try done; try (destruct u; try done); cbn [rep] in *; destruct_and?; subst; done. }
  split_and!; try done.
  - unfold transmute_unchecked. unfold csize in *. cbn [clayout]. unfold size_of in *. cbn [layout]. rewrite S1, S2. by rewrite Nat.eqb_refl.
  - unfold transmute_unchecked. rewrite S1, S2. by rewrite Nat.eqb_refl.
  - intros v. destruct v; try (by destruct k); cbn [rep].
    + split; [|done]. intros (_ & n & En & Ez). exfalso. apply Hp. unfold slice_ty in En. cbn [niche_at] in En. destruct k; cbn [map layout offsets niche_at] in En;
        rewrite (round_up_0 w Hw) in En; injection En as <-; congruence.
    + rewrite G. split; [by intros ->|by intros [= ->]].
Qed.

(** A misaligned pointer is rejected, optional or not. *)
Theorem C50_misaligned w le k t bs p a : 0 < w → length bs = words k * w → p = word le (sub 0 w bs) → a = N.of_nat (align_of w t) →
  p ≠ 0%N → ¬ (a | p)%N →
  from_raw w le (TOption (slice_ty w k t)) bs = Rejected ∧ from_raw w le (slice_ty w k t) bs = Rejected.
Proof.
  intros Hw Hl Dp Da Hp Ha. unfold from_raw. pose proof (slice_valid w le k t bs Hw) as V. rewrite <-Dp in V. rewrite <-Da in V. rewrite (proj2 (N.eqb_neq p 0) Hp) in V.
  assert (Hm : (p mod a)%N ≠ 0%N).
  { intros Hm. apply Ha. destruct (N.eq_dec a 0) as [E|E].
    - rewrite E in Hm. exfalso. apply Hp. clear -Hm. by destruct p.
    - apply N.mod_divide; [done|]. done. }
  rewrite (proj2 (N.eqb_neq _ 0) Hm) in V. cbn [negb andb] in V.
  assert (is_valid w le (TOption (slice_ty w k t)) bs = Some false) as ->.
  { cbn [is_valid]. rewrite V. unfold slice_ty. cbn [is_niche]. rewrite <-Dp. by rewrite (proj2 (N.eqb_neq p 0) Hp). }
  by rewrite V.
Qed.

Definition u32 := TPrim 4 4.
Definition some_slice (low : N) : list N := [low; 16; 0; 0; 0; 0; 0; 0; 2; 0; 0; 0; 0; 0; 0; 0]%N.
Example slice_ref_read :
  from_raw 8 true (TOption (slice_ty 8 Ref u32)) (some_slice 4) = Value (some_slice 4) ∧
  word true (sub 0 8 (some_slice 4)) = 4100%N ∧ (N.of_nat (align_of 8 u32) | 4100)%N ∧
  from_raw 8 true (TOption (slice_ty 8 Ref u32)) (some_slice 3) = Rejected ∧ ¬ (N.of_nat (align_of 8 u32) | 4099)%N.
Proof. split; [done|]. split; [done|]. split; [by exists 1025%N|]. split; [done|]. intros [q E]. cbn in E. lia. Qed.
Example slice_null_read : let bs := (repeat 0%N 8 ++ [5; 0; 0; 0; 0; 0; 0; 0]%N)%list in
  from_raw 8 true (TOption (slice_ty 8 Raw u32)) bs = Value bs ∧ from_raw 8 true (slice_ty 8 Raw u32) bs = Rejected.
Proof. done. Qed.

Print Assumptions C50_null.
Print Assumptions C50_some.
Print Assumptions C50_misaligned.
