(** What owning a value behind a pointer means, and what is left of it. *)
From Coq Require Import NArith List Bool.
From stdpp Require Import base numbers list.
From Verif Require Import DtorModel.
Import stdpp.list.

(** [p] owns the values [vs] in memory for [cap] of them. *)
Definition owns (t : layout) (h : heap) (p : ptr) (vs : list N) (cap : N) : Prop :=
  (N.of_nat (length vs) ≤ cap)%N ∧
  if (lsize t =? 0)%N || (cap =? 0)%N then p = Dangling ∧ vs = replicate (length vs) 0%N
  else ∃ b, p = At b ∧ blocks h !! b = Some (Block (array t cap) vs true).

(** Memory after [p] is gone: freed, with nothing else changed. *)
Definition freed (t : layout) (p : ptr) (cap : N) (bs : list mblock) : list mblock :=
  match p with At b => <[b := Block (array t cap) [] false]> bs | Dangling => bs end.
Definition frees (p : ptr) : list event :=
  match p with At b => [EFree b] | Dangling => [] end.
(** Memory when the values are gone but not their block. *)
Definition leaked (t : layout) (p : ptr) (cap : N) (bs : list mblock) : list mblock :=
  match p with At b => <[b := Block (array t cap) [] true]> bs | Dangling => bs end.

(** The number of destructors that panic. *)
Definition panics (pan : N → bool) (vs : list N) : nat := length (filter (λ v, pan v = true) vs).
