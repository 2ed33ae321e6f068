(** Specification of field-less enums, in terms of Rust's and the header
    languages' own rules; does not use the functions that model safer_ffi. *)

From Coq Require Import ZArith NArith List Bool Lia String Ascii ZifyBool ZifyN.
From stdpp Require Import base numbers list.
From Verif Require Import EnumModel.

(** ** What Rust itself guarantees about a definition *)

(** [valid_enum d ds]: rustc accepts [d] and gives the variants the
    discriminants [ds]: they are pairwise distinct, and the variants have
    distinct names. *)
Definition valid_enum (d : edef) (ds : list Z) : Prop :=
  discriminants d = Some ds ∧ NoDup ds ∧ NoDup (names d) ∧
  (∀ t, WInt t ∈ concat (e_reprs d) → (0 < bits t)%Z).

(** The meaning of discriminants, independently of [number]: an explicit one
    has its own value, an implicit one is the successor of the previous one. *)
Definition rust_numbering (t : intty) (vs : list (list N * option expr)) (ds : list Z) : Prop :=
  length ds = length vs ∧
  ∀ i n e, vs !! i = Some (n, e) →
    match e with
    | Some e => ∃ v, eval t e = Some v ∧ ds !! i = Some v
    | None => ∃ v, ds !! i = Some v ∧
        match i with O => v = 0%Z | S j => ∃ p, ds !! j = Some p ∧ v = (p + 1)%Z end
    end.

(** Two integers the size of the enum with the same bit pattern. *)
Definition same_bits (n : Z) (a b : Z) : Prop := (a mod 2 ^ n = b mod 2 ^ n)%Z.

(** ** Names *)

(** Names with the same constant: [_x] stands for [X]. *)
Fixpoint camel (s : list N) : list N :=
  match s with
  | c :: ((x :: r) as t) =>
      if decide (c = 95%N ∧ (97 ≤ x ≤ 122)%N) then (x - 32)%N :: camel r else c :: camel t
  | _ => s
  end.
Definition no_snake (s : list N) : Prop :=
  ∀ i c, s !! i = Some 95%N → s !! S i = Some c → ¬ (97 ≤ c ≤ 122)%N.
(** One letter in two cases. *)
Definition same_letter (a b : N) : Prop :=
  a = b ∨ ((97 ≤ a ≤ 122)%N ∧ b = (a - 32)%N) ∨ ((97 ≤ b ≤ 122)%N ∧ a = (b - 32)%N).

(** ** Discriminant expressions whose value does not depend on their type *)

Fixpoint portable (sgn : bool) (e : expr) : bool :=
  match e with
  | ELit _ | EConst _ => true
  | ENeg e => portable sgn e
  | ENot e => sgn && portable sgn e
  | EShl _ _ => false
  | EAdd a b => portable sgn a && portable sgn b
  end.
