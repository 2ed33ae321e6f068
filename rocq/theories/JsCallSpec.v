(** Specification of calls of JavaScript callbacks: what a log of calls, runs,
    results and returns may look like; and of the deadlock timeout. *)

From Coq Require Import ZArith Bool List.
From stdpp Require Import base numbers list.
From Verif Require Import JsCallModel.
Local Open Scope Z_scope.

(** What may happen next: a call is new; it is run once, as it was called;
    one result is sent for it, after it was run; and that very result is
    returned, once. *)
Definition allowed (past : list obs) (o : obs) : Prop :=
  match o with
  | OCall i _ _ => ∀ c a, OCall i c a ∉ past
  | ORun i c a => OCall i c a ∈ past ∧ ∀ c a, ORun i c a ∉ past
  | OSend i _ => (∃ c a, ORun i c a ∈ past) ∧ ∀ r, OSend i r ∉ past
  | ORet i v => OSend i (Some v) ∈ past ∧ ∀ v, ORet i v ∉ past
  | OAbort => OAbort ∉ past
  end.
Definition lawful (l : list obs) : Prop := ∀ past o future, l = (past ++ o :: future)%list → allowed past o.

(** The states that can be reached. *)
Definition reaches (checks : bool) (cl : list closure) (s : state) : Prop := ∃ es, steps checks cl init es = Some s.

(** Reading and setting the timeout: the first setting counts. *)
Inductive top := TGet | TSet (t : option Z).
Inductive tres := TGot (t : option Z) | TSetOk | TSetErr.
Definition first_set (past : list top) : option (option Z) :=
  match List.find (λ o, match o with TSet _ => true | TGet => false end) past with
  | Some (TSet t) => Some t
  | _ => None
  end.
Definition expected (past : list top) (o : top) : tres :=
  match o, first_set past with
  | TGet, Some t => TGot t
  | TGet, None => TGot (Some 5000)
  | TSet _, None => TSetOk
  | TSet _, Some _ => TSetErr
  end.
