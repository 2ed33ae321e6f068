(** Specification of the names derived for opaque types: Rust types, how
    [core::any::type_name] writes them, and the name expected. *)

From Coq Require Import NArith List Bool Lia String Ascii.
From stdpp Require Import base numbers list strings.
From Verif Require Import NameModel.
Local Open Scope N_scope.

(** Letters and digits of ASCII. *)
Definition ascii_alnum (c : N) : bool :=
  ((48 <=? c) && (c <=? 57)) || ((65 <=? c) && (c <=? 90)) || ((97 <=? c) && (c <=? 122)).
(** White space of ASCII as Rust has it. *)
Definition ascii_ws (c : N) : bool := ((9 <=? c) && (c <=? 13)) || (c =? 32).
(** What is assumed of the tables of Unicode: their start. *)
Definition tables (alnum ws : N → bool) : Prop :=
  (∀ c, c < 128 → alnum c = ascii_alnum c ∧ ws c = ascii_ws c) ∧
  ∀ c, alnum c = true → ws c = false.

(** Types by the shape of their names. *)
Inductive rty :=
(** [a::b::Name<args>] *)
| RPath (mods : list (list N)) (name : list N) (args : list rty)
(** [dyn a::b::Name<args>] *)
| RDyn (mods : list (list N)) (name : list N) (args : list rty)
(** [*const a::b::Name<args>], [&mut &Name<args>] *)
| RPtr (pre : list N) (mods : list (list N)) (name : list N) (args : list rty)
| RTuple (ts : list rty)
| RSlice (t : rty)
| RArray (t : rty) (len : list N).

Definition comma_sep (l : list (list N)) : list N :=
  match l with [] => [] | x :: l => x ++ flat_map (λ y, chars ", " ++ y) l end.
Definition qualified (mods : list (list N)) (name : list N) : list N :=
  flat_map (λ m, m ++ chars "::") mods ++ name.
Definition angle (l : list (list N)) : list N :=
  match l with [] => [] | _ => chars "<" ++ comma_sep l ++ chars ">" end.

(** [core::any::type_name]. *)
Fixpoint type_name (t : rty) : list N :=
  match t with
  | RPath mods name args =>
      qualified mods name ++
      angle ((fix go (l : list rty) : list (list N) :=
                match l with [] => [] | t :: l => type_name t :: go l end) args)
  | RDyn mods name args =>
      chars "dyn " ++ qualified mods name ++
      angle ((fix go (l : list rty) : list (list N) :=
                match l with [] => [] | t :: l => type_name t :: go l end) args)
  | RPtr pre mods name args =>
      pre ++ qualified mods name ++
      angle ((fix go (l : list rty) : list (list N) :=
                match l with [] => [] | t :: l => type_name t :: go l end) args)
  | RTuple ts =>
      let l := (fix go (l : list rty) : list (list N) :=
                  match l with [] => [] | t :: l => type_name t :: go l end) ts in
      chars "(" ++ comma_sep l ++ (match ts with [_] => chars "," | _ => [] end) ++ chars ")"
  | RSlice t => chars "[" ++ type_name t ++ chars "]"
  | RArray t n => chars "[" ++ type_name t ++ chars "; " ++ n ++ chars "]"
  end.

(** An identifier of Rust. *)
Definition ident (alnum : N → bool) (s : list N) : Prop :=
  s ≠ [] ∧ Forall (λ c, ident_char alnum c = true) s.

(** How a pointer's prefix and path are written: all that is no identifier
    character is an underscore. *)
Definition flat (alnum : N → bool) (s : list N) : list N :=
  map (λ c, if ident_char alnum c then c else 95) s.

(** The name expected: an underscore and the last component of the path, and
    so on for the arguments. *)
Fixpoint nice (alnum : N → bool) (t : rty) : list N :=
  let all := fix go (l : list rty) : list N :=
    match l with [] => [] | t :: l => nice alnum t ++ go l end in
  match t with
  | RPath _ name args => chars "_" ++ name ++ all args
  | RDyn _ name args => chars "_dyn_" ++ name ++ all args
  | RPtr pre mods name args => chars "_" ++ flat alnum (pre ++ qualified mods name) ++ all args
  | RTuple [] => chars "_"
  | RTuple [t] => nice alnum t ++ chars "_"
  | RTuple ts => all ts
  | RSlice t => nice alnum t
  | RArray t n => nice alnum t ++ chars "_" ++ n
  end.

(** Prefixes of pointer and reference types. *)
Inductive pointer : list N → Prop :=
| P_one p : p ∈ [chars "&"; chars "&mut "; chars "*const "; chars "*mut "] → pointer p
| P_more p q : p ∈ [chars "&"; chars "&mut "; chars "*const "; chars "*mut "] → pointer q → pointer (p ++ q).

(** Types made of identifiers, where no argument of a generic type or member of
    a tuple has a comma in its name. *)
Fixpoint tame (alnum : N → bool) (t : rty) : Prop :=
  let all := fix go (l : list rty) : Prop :=
    match l with [] => True | t :: l => tame alnum t ∧ 44 ∉ type_name t ∧ go l end in
  match t with
  | RPath mods name args | RDyn mods name args =>
      Forall (ident alnum) mods ∧ ident alnum name ∧ all args
  | RPtr pre mods name args =>
      pointer pre ∧ Forall (ident alnum) mods ∧ ident alnum name ∧ all args
  | RTuple ts => all ts
  | RSlice t => tame alnum t ∧ 59 ∉ type_name t
  | RArray t n => tame alnum t ∧ ident alnum n
  end.
