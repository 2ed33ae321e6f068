(** What the comparisons of slices mean: in terms of the elements. *)

From Coq Require Import NArith List Bool.
From stdpp Require Import base numbers list.
From Verif Require Import VecModel CmpModel.
Import stdpp.list.

(** [xs] and [ys] differ, if at all, as [r] says after equal beginnings. *)
Definition decided (equal : N → N → Prop) (at_ : N → N → Prop) (xs ys : list N) : Prop :=
  ∃ p q x y xs' ys', xs = p ++ x :: xs' ∧ ys = q ++ y :: ys' ∧ Forall2 equal p q ∧ at_ x y.
(** [xs] is a beginning of [ys], and shorter. *)
Definition begins (equal : N → N → Prop) (xs ys : list N) : Prop :=
  ∃ q y ys', ys = q ++ y :: ys' ∧ Forall2 equal xs q.
Definition lexicographic (c : N → N → comparison → Prop) (xs ys : list N) (r : comparison) : Prop :=
  let equal x y := c x y Datatypes.Eq in
  match r with
  | Datatypes.Eq => Forall2 equal xs ys
  | Lt => begins equal xs ys ∨ decided equal (λ x y, c x y Lt) xs ys
  | Gt => begins (λ x y, equal y x) ys xs ∨ decided equal (λ x y, c x y Gt) xs ys
  end.

(** A lawful [Ord] with its [PartialEq]. *)
Record lawful (eqt : N → N → bool) (cmpt : N → N → comparison) : Prop := {
  l_opp : ∀ x y, cmpt y x = CompOpp (cmpt x y);
  l_trans : ∀ x y z, cmpt x y ≠ Gt → cmpt y z ≠ Gt → cmpt x z ≠ Gt;
  l_trans_lt : ∀ x y z, cmpt x y = Lt → cmpt y z ≠ Gt → cmpt x z = Lt;
  l_lt_trans : ∀ x y z, cmpt x y ≠ Gt → cmpt y z = Lt → cmpt x z = Lt;
  l_eq : ∀ x y, eqt x y = true ↔ cmpt x y = Datatypes.Eq }.

(** The blocks of memory that are allocated. *)
Definition allocated (h : heap) (b : nat) : Prop := ∃ n xs, blocks h !! b = Some (Block n xs false).
