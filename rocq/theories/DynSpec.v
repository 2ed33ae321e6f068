(** Specification of dynamic traits. *)

From Coq Require Import List Bool String.
From stdpp Require Import base list strings.
From Verif Require Import DynModel.

(** Receivers through which the method may, or may not, change [self]. *)
Inductive mut_access : rty → Prop :=
| MA_ref : mut_access (RRef true RSelf)
| MA_pin : mut_access (RWrap "Pin" (RRef true RSelf)).
Inductive shared_access : rty → Prop :=
| SA_ref : shared_access (RRef false RSelf)
| SA_pin : shared_access (RWrap "Pin" (RRef false RSelf)).

(** [Box<T> : Send] and so on; [Pin<P>] is as [P]. *)
Definition ptr_send (c : coercible) (T : ty) : bool :=
  match c with
  | CBox => t_send T
  | CRc true => t_send T && t_sync T
  | CRc false => false
  | CRef true => t_send T
  | CRef false => t_sync T
  end.
Definition ptr_sync (c : coercible) (T : ty) : bool :=
  match c with
  | CBox => t_sync T
  | CRc true => t_send T && t_sync T
  | CRc false => false
  | CRef _ => t_sync T
  end.

(** No other pointer to the same value. *)
Definition exclusive (c : coercible) : Prop := c = CBox ∨ c = CRef true.

(** [Box<T> : Clone] and so on. *)
Definition ptr_clone (c : coercible) (T : ty) : bool :=
  match c with CBox => t_clone T | CRc _ => true | CRef m => negb m end.

(** Receivers that are pinned. *)
Inductive pinned_access : rty → Prop := PA m : pinned_access (RWrap "Pin" (RRef m RSelf)).
