(** Model of [#[derive_ReprC(dyn)]] on traits: receivers, flavours of
    [dyn Trait], pointers that may be coerced, automatic traits.

    Sources (all in /repo/src):
    - proc_macro/derives/dyn_trait/receiver_types.rs 21-171
    - proc_macro/derives/dyn_trait/vtable_entry.rs 205-400 vtable_entries
    - proc_macro/derives/dyn_trait/_mod.rs 56-62 coercibles, 180-266 flavours,
      267-372 constructors, 386-407 DynClone
    - proc_macro/derives/dyn_trait/coercions.rs 20-40 is_eligible
    - dyn_traits/_mod.rs 189-206 Send and Sync for VirtualPtr

    A type is described by the automatic traits it has; generics and lifetimes
    are left out.  The trait objects of the standard library ([dyn Trait]) have
    the automatic traits listed and those of the supertraits. *)

From Coq Require Import List Bool String.
From stdpp Require Import base list strings.

(** ** Receivers *)

(** The type of [self]: [Self], [&[mut] T], [path::Name<T>], anything else. *)
Inductive rty := RSelf | RRef (mut : bool) (t : rty) | RWrap (name : string) (t : rty) | ROther.
Inductive kind := KRef (mut : bool) | KBox | KArc.
Record receiver := Receiver { r_kind : kind; r_pinned : bool }.

(** receiver_types.rs 67-171; [None]: an error. *)
Fixpoint from_type_of_self (t : rty) (pinned : bool) : option receiver :=
  match t with
  | RSelf => None
  | RRef m RSelf => Some (Receiver (KRef m) pinned)
  | RRef _ _ => None
  | RWrap n t' =>
      match t' with
      | RSelf =>
          if String.eqb n "Box" then Some (Receiver KBox pinned)
          else if String.eqb n "Arc" then Some (Receiver KArc pinned)
          else None
      | _ =>
          if pinned then None
          else if String.eqb n "Pin" then from_type_of_self t' true
          else None
      end
  | ROther => None
  end.

(** A method, as far as its receiver goes: vtable_entry.rs 291-313. *)
Definition entry (t : rty) : option receiver :=
  match from_type_of_self t false with
  | Some r => match r_kind r with KRef _ => Some r | _ => None end
  | None => None
  end.
Fixpoint entries (ms : list rty) : option (list receiver) :=
  match ms with
  | [] => Some []
  | t :: ms => match entry t, entries ms with Some r, Some rs => Some (r :: rs) | _, _ => None end
  end.

(** ** Traits *)

(** A trait: the receivers of its methods, [Clone] in the attribute?, and
    whether [Send] and [Sync] are among its supertraits. *)
Record trait := Trait { methods : list rty; klone : bool; sup_send : bool; sup_sync : bool }.

(** _mod.rs 180-194. *)
Definition has_mutability (m : bool) (rs : list receiver) : bool :=
  existsb (λ r, match r_kind r with KRef m' => Bool.eqb m' m | _ => false end) rs.
(** _mod.rs 195-236. *)
Definition has_pin (rs : list receiver) : bool := existsb r_pinned rs.
Definition has_non_pin_non_ref (rs : list receiver) : bool :=
  existsb (λ r, negb (r_pinned r) && match r_kind r with KRef false => false | _ => true end) rs.
Definition shape_of (t : trait) : option (list receiver) :=
  match entries (methods t) with
  | Some rs => if has_pin rs && has_non_pin_non_ref rs then None else Some rs
  | None => None
  end.

(** [dyn Trait] with [+ Send] and [+ Sync] or not. *)
Record flavour := Flavour { is_send : bool; is_sync : bool }.
(** _mod.rs 241-259. *)
Definition flavours (rs : list receiver) : list flavour :=
  filter (λ f, (is_sync f && negb (is_send f) || has_mutability false rs && is_send f && negb (is_sync f)) = false)
    [Flavour false false; Flavour true true; Flavour true false; Flavour false true].

(** ** Pointers *)

Inductive coercible := CBox | CRc (thread_safe : bool) | CRef (mut : bool).
Definition coercibles : list coercible := [CBox; CRef false; CRef true; CRc true; CRc false].

(** coercions.rs 20-40. *)
Definition is_eligible (c : coercible) (k : bool) (rs : list receiver) (f : flavour) : bool :=
  let has_mut := has_mutability true rs in
  match c with
  | CBox => true
  | CRc thread_safe =>
      negb has_mut && (Bool.eqb thread_safe (is_send f) && Bool.eqb (is_send f) (is_sync f))
  | CRef true => negb k
  | CRef false => negb has_mut && Bool.eqb (is_sync f) (is_send f)
  end.

(** ** Types *)

(** Automatic traits of a type, and whether it is [Clone]. *)
Record ty := Ty { t_send : bool; t_sync : bool; t_clone : bool }.

(** [T : Trait] implies its supertraits. *)
Definition implements (t : trait) (T : ty) : bool :=
  implb (sup_send t) (t_send T) && implb (sup_sync t) (t_sync T).

(** The [impl VirtualPtrFrom<Ptr<T>> for dyn Trait + ..] that are written:
    _mod.rs 312-372. *)
Definition constructors (t : trait) : list (flavour * coercible) :=
  match shape_of t with
  | Some rs =>
      flat_map (λ f, map (λ c, (f, c)) (filter (λ c, is_eligible c (klone t) rs f = true) coercibles))
        (flavours rs)
  | None => []
  end.
(** Their conditions on [T]: _mod.rs 270-303, 323-341. *)
Definition bounds (t : trait) (f : flavour) (c : coercible) (T : ty) : bool :=
  implements t T && implb (is_send f) (t_send T) && implb (is_sync f) (t_sync T) &&
  match c with CBox => implb (klone t) (t_clone T) | _ => true end.

(** dyn_traits/_mod.rs 189-206. *)
Definition vptr_send (t : trait) (f : flavour) : bool := is_send f || sup_send t.
Definition vptr_sync (t : trait) (f : flavour) : bool := is_sync f || sup_sync t.
(** _mod.rs 386-407 *)
Definition vptr_clone (t : trait) : bool := klone t.
(** coercions.rs 258-264: the pointers taken are [Pin<..>]. *)
Definition takes_pinned (t : trait) : bool :=
  match shape_of t with Some rs => has_pin rs | None => false end.
