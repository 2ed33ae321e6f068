(** Specification of C64-C66: what a call from JavaScript of an exported
    function should do. *)

From Coq Require Import ZArith NArith Bool List.
From stdpp Require Import base numbers list.
From Verif Require Import JsNumModel NapiModel NapiSpec JsFnModel.

(** The values of the parameters: the i-th argument, or undefined if it is not
    given, as the type of the i-th parameter. *)
Definition reads (chk : bool) (p : plat) (f : fn) (args : list js) (vs : list val) : Prop :=
  length vs = length (params f) ∧
  ∀ i q v, params f !! i = Some q → vs !! i = Some v →
    from_napi chk p (p_ty q) (default JUndefined (args !! i)) = Ok v.
(** They are values of the Rust types. *)
Definition valid_args (f : fn) (vs : list val) : Prop :=
  length vs = length (params f) ∧
  ∀ i q v, params f !! i = Some q → vs !! i = Some v → p_valid q v = true.
(** What a value points to. *)
Inductive points_to : val → Z → Prop :=
| points_ptr a : points_to (VPtr a) a
| points_field vs v a : v ∈ vs → points_to v a → points_to (VStruct vs) a.
Definition uses (vs : list val) (a : Z) : Prop := ∃ v, v ∈ vs ∧ points_to v a.

(** The function returns values of its type. *)
Definition typed (p : plat) (f : fn) (rust : nat → list val → outcome) : Prop :=
  plat_ok p ∧ well_formed (ret f) ∧ ∀ k vs v, rust k vs = Returns v → has_type p (ret f) v.
(** All values of the C types are values of the Rust types. *)
Definition liberal (p : plat) (f : fn) : Prop :=
  plat_ok p ∧ ∀ q, q ∈ params f → well_formed (p_ty q) ∧ ∀ v, has_type p (p_ty q) v → p_valid q v = true.

(** The arguments of the calls of a history. *)
Fixpoint given (ms : list move) : list (list js) :=
  match ms with
  | [] => []
  | MCall args _ :: ms => args :: given ms
  | _ :: ms => given ms
  end.
(** No call is given a buffer that has been collected before. *)
Fixpoint lawful (chk : bool) (p : plat) (f : fn) (gone : list Z) (ms : list move) : Prop :=
  match ms with
  | [] => True
  | MCall args _ :: ms => (∀ vs a, reads chk p f args vs → uses vs a → a ∉ gone) ∧ lawful chk p f gone ms
  | MCollect a :: ms => lawful chk p f (a :: gone) ms
  | _ :: ms => lawful chk p f gone ms
  end.
(** No buffer is collected that a task still waiting was given. *)
Definition patient (dbg chk : bool) (p : plat) (fresh : Z) (rust : nat → list val → outcome) (f : fn) (ms : list move) : Prop :=
  ∀ ms1 a ms2 vs, ms = ms1 ++ MCollect a :: ms2 →
    TQueued vs ∈ tasks (runs dbg chk p fresh rust f init ms1).1 → ¬ uses vs a.
