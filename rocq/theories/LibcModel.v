(** * [safer_ffi::libc]: the C types of [::libc], or their replacements

    libc.rs.  The module is a macro that lays out four nested modules and
    leaves the choice between [::libc]'s type and the fallback to Rust's name
    resolution.  So what is modelled is that name resolution: two namespaces,
    explicit items and imports that win over globs, and the errors (two
    explicit items of one name, an import that resolves in no namespace, two
    globs that disagree, an alias that expands to itself).

    What [::libc] defines on the platform is an oracle: for each namespace and
    name, whether there is a public item.  The macro namespace is left out
    (nothing here defines or names a macro of [::libc]); so are attributes and
    documentation. *)
From stdpp Require Import base strings list.
Import stdpp.list.
Open Scope string_scope.

(** The two namespaces of items. *)
Inductive nspace := NT | NV.
#[global] Instance nspace_eq : EqDecision nspace.
Proof. solve_decision. Defined.

(** Types, with aliases of this crate expanded: a primitive, an item of
    [::core::ffi], an item of [::libc]. *)
Inductive ty := TPrim (s : string) | TCore (s : string) | TLibc (s : string).
#[global] Instance ty_eq : EqDecision ty.
Proof. solve_decision. Defined.

(** What a name may stand for: a type, the unit constant of libc.rs 48, a
    value of [::libc], a module. *)
Inductive ent := EType (t : ty) | EUnit | ELibcVal (s : string) | EMod (s : string).
#[global] Instance ent_eq : EqDecision ent.
Proof. solve_decision. Defined.

Definition key : Type := nspace * string.

(** What [::libc] has in its root. *)
Definition libc := nspace → string → bool.
Definition libc_glob (L : libc) (k : key) : option ent :=
  if L k.1 k.2 then Some (match k.1 with NT => EType (TLibc k.2) | NV => ELibcVal k.2 end)
  else None.

(** A module: its own items and single imports, and its glob imports. *)
Record modl := Modl { items : list (key * ent); globs : list (key → option ent) }.

Inductive found := Found (e : ent) | Missing | Conflict.

Fixpoint nub (l : list ent) : list ent :=
  match l with
  | [] => []
  | e :: l => if bool_decide (e ∈ l) then nub l else e :: nub l
  end.

(** Explicit items shadow globs, each in its own namespace; globs have to
    agree. *)
Definition lookup_in (m : modl) (k : key) : found :=
  match filter (λ i, i.1 = k) (items m) with
  | [i] => Found i.2
  | _ :: _ :: _ => Conflict
  | [] =>
      match nub (omap (λ g, g k) (globs m)) with
      | [e] => Found e
      | [] => Missing
      | _ => Conflict
      end
  end.

Definition glob_of (m : modl) (k : key) : option ent :=
  match lookup_in m k with Found e => Some e | _ => None end.

(** No two explicit items of the same name and namespace (E0428, E0252,
    E0255). *)
Definition no_clash (m : modl) : bool := bool_decide (NoDup (items m).*1).

(** The fallback as written: an identifier, or a path from [::core::ffi]. *)
Inductive fty := FName (s : string) | FCore (s : string).

(** One line of the list: [c_type else FallbackTy]. *)
Definition entry : Type := string * fty.

(** libc.rs 14-24. *)
Definition the_list : list entry :=
  [("c_char", FName "u8"); ("c_int", FCore "c_int");
   ("size_t", FName "usize"); ("uintptr_t", FName "usize")].

(** The alias [n] in [mod fallback] (libc.rs 60-64), expanded: a bare
    identifier is looked up in that module first, and in the language's
    primitives next.  The fuel is the number of aliases there are: an alias
    that takes more goes through itself (E0391). *)
Fixpoint expand (l : list entry) (fuel : nat) (f : fty) : option ty :=
  match f with
  | FCore s => Some (TCore s)
  | FName s =>
      match list_find (λ e, e.1 = s) l with
      | None => Some (TPrim s)
      | Some (_, e) => match fuel with 0 => None | S fuel => expand l fuel e.2 end
      end
  end.

(** libc.rs 60-64: [mod fallback]. *)
Definition fallback (l : list entry) : option modl :=
  its ← mapM (λ e : entry, t ← expand l (length l) e.2; Some ((NT, e.1), EType t)) l;
  Some (Modl its []).

(** libc.rs 45-50: [mod real_libc]. *)
Definition real_libc (L : libc) (l : list entry) : modl :=
  Modl ((λ e : entry, ((NV, e.1), EUnit)) <$> l) [libc_glob L].

(** [pub use m::n;]: in every namespace in which [m] has an [n], one at least
    (E0432). *)
Definition import (m : modl) (n : string) : option (list (key * ent)) :=
  match lookup_in m (NT, n), lookup_in m (NV, n) with
  | Found t, Found v => Some [((NT, n), t); ((NV, n), v)]
  | Found t, Missing => Some [((NT, n), t)]
  | Missing, Found v => Some [((NV, n), v)]
  | _, _ => None
  end.

(** libc.rs 44-65: [mod helper]. *)
Definition helper (L : libc) (l : list entry) : option modl :=
  fb ← fallback l;
  uses ← mapM (λ e : entry, import (real_libc L l) e.1) l;
  Some (Modl (((NT, "real_libc"), EMod "real_libc") :: ((NT, "fallback"), EMod "fallback")
                :: concat uses)
             [glob_of fb]).

(** libc.rs 37-42: [pub type c_type = helper::c_type;]. *)
Definition outer_alias (h : modl) (n : string) : option (key * ent) :=
  match lookup_in h (NT, n) with
  | Found (EType t) => Some ((NT, n), EType t)
  | _ => None
  end.

Record crate_mod := CrateMod { public : list (key * ent); private : list (key * ent) }.

(** The whole module; [None] when it does not compile. *)
Definition libc_mod (L : libc) (l : list entry) : option crate_mod :=
  fb ← fallback l;
  h ← helper L l;
  als ← mapM (λ e : entry, outer_alias h e.1) l;
  let out := Modl (als ++ [((NT, "helper"), EMod "helper")]) [] in
  if no_clash fb && no_clash (real_libc L l) && no_clash h && no_clash out
  then Some (CrateMod als [((NT, "helper"), EMod "helper")])
  else None.

(** [crate::libc::n] as a type, from elsewhere in the crate or downstream. *)
Definition type_of (c : crate_mod) (n : string) : option ty :=
  match lookup_in (Modl (public c) []) (NT, n) with
  | Found (EType t) => Some t
  | _ => None
  end.

(** ** The assertions on these types *)

(** What the types of [::libc] and [::core::ffi] are on the platform, as
    primitives of Rust. *)
Record platform := Platform {
  libc_has : libc;
  libc_def : string → string;
  core_def : string → string;
  size_in : string → N;
  wasm32 : bool;
  std : bool }.

Definition prim (p : platform) (t : ty) : string :=
  match t with TPrim s => s | TCore s => core_def p s | TLibc s => libc_def p s end.

Definition prim_at (p : platform) (n : string) : option string :=
  c ← libc_mod (libc_has p) the_list; prim p <$> type_of c n.

(** c_char.rs 28-46: [is_u8_or_i8::<crate::libc::c_char>]. *)
Definition char_assert (p : platform) : bool :=
  match prim_at p "c_char" with
  | Some s => bool_decide (s = "u8") || bool_decide (s = "i8")
  | None => false
  end.

(** layout/impls.rs 4-9: the sizes of [uintptr_t] and [size_t]; compiled
    neither on wasm32 nor without std. *)
Definition size_assert (p : platform) : bool :=
  if wasm32 p || negb (std p) then true
  else match prim_at p "uintptr_t", prim_at p "size_t" with
       | Some a, Some b => (size_in p a =? size_in p b)%N
       | _, _ => false
       end.

Definition compiles (p : platform) : bool :=
  match libc_mod (libc_has p) the_list with
  | Some _ => char_assert p && size_assert p
  | None => false
  end.

(** c_char.rs 22-26: [struct c_char(pub u8)], [repr(transparent)]. *)
Definition c_char_field (p : platform) : option string := Some "u8".
(** layout/impls.rs 896-899: [struct c_int(pub crate::libc::c_int)]. *)
Definition c_int_field (p : platform) : option string := prim_at p "c_int".
