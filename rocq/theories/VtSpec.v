(** What the guide says about the traits [#[derive_ReprC(dyn)]] takes, and the
    calls of their methods (guide/src/dyn_traits/derive_reprc_dyn.md, _.md). *)
From stdpp Require Import base numbers list strings.
From Verif Require Import VtModel.
From Verif Require DynModel.
Local Open Scope string_scope.

(** "A Trait definition is deemed simple if it only has methods in it, is
    dyn-safe, with only [&Self] and [&mut Self] receivers; [Pin<>]-wrapping them
    is, however, accepted." *)
Definition receiver_of (mut pinned : bool) : DynModel.rty :=
  let r := DynModel.RRef mut DynModel.RSelf in
  if pinned then DynModel.RWrap "Pin" r else r.
Definition simple_method (m : method) : Prop :=
  m_const m = false ∧ m_async m = false ∧ m_variadic m = false ∧
  ∃ mut pinned, m_recv m = Some (receiver_of mut pinned).
Definition is_method (i : item) : Prop := match i with IMethod _ => True | _ => False end.
Fixpoint methods_of (is : list item) : list method :=
  match is with [] => [] | IMethod m :: is => m :: methods_of is | _ :: is => methods_of is end.
Definition simple (t : trait) : Prop :=
  Forall is_method (t_items t) ∧ Forall simple_method (methods_of (t_items t)).

(** "thereby making the [From] impls require it": no [&mut Self] next to a pinned one. *)
Definition pins_agree (t : trait) : Prop :=
  ∀ m m', m ∈ methods_of (t_items t) → m' ∈ methods_of (t_items t) →
  ∀ b, m_recv m = Some (receiver_of b true) → m_recv m' ≠ Some (receiver_of true false).

(** Rust's own conditions on any trait. *)
Definition rust_trait (t : trait) : Prop :=
  NoDup (m_name <$> methods_of (t_items t)) ∧
  (** lifetimes come before the other parameters *)
  (∀ i j x g, t_generics t !! i = Some (GLt x) → t_generics t !! j = Some g → is_lt g = false → i < j).

(** What the guide does not mention. *)
Definition types_before_consts (gs : list gparam) : Prop :=
  ∀ i j x y, gs !! i = Some (GConst x) → gs !! j = Some (GTy y) → j < i.
Definition names_free (t : trait) : Prop :=
  ∀ m, m ∈ methods_of (t_items t) →
  m_name m ≠ "release_vptr" ∧ m_name m ≠ "_invariant" ∧ (t_clone t = true → m_name m ≠ "retain_vptr").
Definition supported (t : trait) : Prop :=
  simple t ∧ pins_agree t ∧ names_free t ∧
  (methods_of (t_items t) = [] ∨ types_before_consts (t_generics t)) ∧
  (t_clone t = true → t_generics t = []) ∧
  t_unsafe t = false ∧
  (∀ s, s ∈ t_supers t → s = SAuto ∨ s = STrait true).

(** ** Calls *)

Definition takes_mut (m : method) : bool :=
  match m_recv m with
  | Some (DynModel.RRef b _) | Some (DynModel.RWrap _ (DynModel.RRef b _)) => b
  | _ => false
  end.
(** The method called, on what is at [a], with the arguments in order. *)
Definition the_call (m : method) (a : nat) (args : list val) : called :=
  Called (m_name m) (VAddr a) (takes_mut m) args.

(** The vtable in the header: [release_vptr], [retain_vptr] for
    [#[derive_ReprC(dyn, Clone)]], and the methods as they are in the trait. *)
Definition slot (t : trait) (i : nat) : nat := (if t_clone t then 2 else 1) + i.

(** A [VirtualPtr] to [a], made of a pointer, or a clone of one. *)
Inductive made (t : trait) (es : list entry) : nat → vptr → Prop :=
| made_from c a : made t es a (make t es c a)
| made_clone a v a' : made t es a v → made t es a' (dyn_clone v a').

(** The C type of a field: pointers to functions of the object (to be written to
    or not) and of the layouts of the arguments. *)
Definition slot_type (m : method) : fty :=
  FFn (XErased (takes_mut m) :: (XC <$> m_args m)) (XC (default "()" (m_ret m))).
Definition slots (t : trait) : list (string * fty) :=
  ("release_vptr", FRelease) :: (if t_clone t then [("retain_vptr", FRetain)] else []) ++
  ((λ m, (m_name m, slot_type m)) <$> methods_of (t_items t)).
