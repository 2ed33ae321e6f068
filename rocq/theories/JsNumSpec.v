(** Specification of the conversions of numbers: ranges and values. *)

From Coq Require Import ZArith Bool List.
From stdpp Require Import base numbers list.
From Verif Require Import JsNumModel.
Local Open Scope Z_scope.

(** The range of an integer type. *)
Definition in_range (signed : bool) (bits z : Z) : Prop :=
  if signed then - 2 ^ (bits - 1) ≤ z < 2 ^ (bits - 1) else 0 ≤ z < 2 ^ bits.
Global Instance in_range_dec signed bits z : Decision (in_range signed bits z).
Proof. unfold in_range. destruct signed; apply _. Defined.
(** Number.isSafeInteger *)
Definition safe (z : Z) : Prop := - 2 ^ 53 < z < 2 ^ 53.
Global Instance safe_dec z : Decision (safe z).
Proof. unfold safe. apply _. Defined.
Global Instance num_eq_dec : EqDecision num.
Proof. solve_decision. Defined.

(** A number is the integer [z]. *)
Definition is_int (x : num) (z : Z) : Prop :=
  match x with
  | Fin neg m e =>
      let s := if neg then - m else m in
      if 0 <=? e then z = s * 2 ^ e else z * 2 ^ (- e) = s
  | _ => False
  end.
(** The integer part is [z]. *)
Definition int_part (x : num) (z : Z) : Prop :=
  match x with
  | Fin neg m e =>
      0 ≤ m → (if neg then z ≤ 0 else 0 ≤ z) ∧
      if 0 <=? e then Z.abs z = m * 2 ^ e else Z.abs z * 2 ^ (- e) ≤ m < (Z.abs z + 1) * 2 ^ (- e)
  | _ => False
  end.
(** Two numbers, perhaps of different formats, have the same value and sign. *)
Definition same (x y : num) : Prop :=
  match x, y with
  | NaN, NaN => True
  | Inf a, Inf b => a = b
  | Fin a m e, Fin b m' e' => a = b ∧ m * 2 ^ (e - Z.min e e') = m' * 2 ^ (e' - Z.min e e')
  | _, _ => False
  end.
Definition double (x : num) : Prop := canon f64 x.
Definition single (x : num) : Prop := canon f32 x.
