(** Model of what [#[derive_ReprC]] makes of a newtype of a C function, and of its lifetimes.

    - proc_macro/derives/handle_fptr.rs 124-146 [Deref], 147-175 the types of the layout, 176-243 the
      [where] clauses, 314-364 the [impl]s, 372-440 [UnelideLifetimes], 442-475 [StripLifetimeParams]

    Simplifications: types are paths with lifetimes and types as arguments (trait objects are such
    paths, with their lifetime bound), references, pointers (also slices and arrays), function
    pointers and tuples; the traversals of [syn] visit the parts of a type in the order in which they
    are written.  [CLayoutOf] is kept abstract: the layout of an argument is given by the type it is
    applied to.  Names of C# and Python arguments are left out, and so is the [_Layout] struct,
    which is built and not part of the output (176-290; building it may panic, see C71). *)
From stdpp Require Import base numbers list strings pretty.

(** ** Types *)

(** ['a], ['static], ['_]. *)
Inductive lt := LNamed (x : string) | LStatic | LElided.

Inductive ty :=
  | TPath (x : string) (ls : list lt) (ts : list ty)
  | TRef (l : option lt) (t : ty)
  | TPtr (t : ty)
  | TFn (bs : list lt) (ts : list ty) (r : ty)      (** [for<bs> fn(ts) -> r] *)
  | TTuple (ts : list ty).

(** The newtype: the lifetime parameters of the struct, [for<..>], the arguments and the result. *)
Record newtype := Newtype {
  n_params : list string;
  n_binder : list string;
  n_args : list ty;
  n_ret : option ty;
}.

(** ** Stripping lifetimes *)

(** 442-475: note that the lifetimes bound by a nested [for<..>] are visited as well. *)
Fixpoint strip (t : ty) : ty :=
  match t with
  | TPath x ls ts => TPath x ((λ _, LStatic) <$> ls) (map strip ts)
  | TRef _ t => TRef (Some LStatic) (strip t)
  | TPtr t => TPtr (strip t)
  | TFn bs ts r => TFn ((λ _, LStatic) <$> bs) (map strip ts) (strip r)
  | TTuple ts => TTuple (map strip ts)
  end.

(** ** Naming elided lifetimes *)

(** 380-382. *)
Definition elided (n : nat) : string := "__elided_" +:+ pretty n.
(** 372-377: [counter] and [lifetime_params]. *)
Record state := State { counter : nat; params : list string }.
(** 396-400, 416-430. *)
Definition fresh (s : state) : lt * state :=
  (LNamed (elided (counter s)), State (S (counter s)) (params s ++ [elided (counter s)])).
(** 385-403: [visit_lifetime_mut]. *)
Definition unelide_lt (l : lt) (s : state) : lt * state :=
  match l with LElided => fresh s | _ => (l, s) end.
Fixpoint unelide_lts (ls : list lt) (s : state) : list lt * state :=
  match ls with
  | [] => ([], s)
  | l :: ls =>
      let '(l, s) := unelide_lt l s in
      let '(ls, s) := unelide_lts ls s in
      (l :: ls, s)
  end.
(** 405-438: [visit_type_mut]; an omitted lifetime of a reference is named after those within. *)
Fixpoint unelide (t : ty) (s : state) : ty * state :=
  let list :=
    fix go (ts : list ty) (s : state) : list ty * state :=
      match ts with
      | [] => ([], s)
      | t :: ts =>
          let '(t, s) := unelide t s in
          let '(ts, s) := go ts s in
          (t :: ts, s)
      end in
  match t with
  | TPath x ls ts =>
      let '(ls, s) := unelide_lts ls s in
      let '(ts, s) := list ts s in
      (TPath x ls ts, s)
  | TRef (Some l) t =>
      let '(l, s) := unelide_lt l s in
      let '(t, s) := unelide t s in
      (TRef (Some l) t, s)
  | TRef None t =>
      let '(t, s) := unelide t s in
      let '(l, s) := fresh s in
      (TRef (Some l) t, s)
  | TPtr t => let '(t, s) := unelide t s in (TPtr t, s)
  | TFn bs ts r =>
      let '(bs, s) := unelide_lts bs s in
      let '(ts, s) := list ts s in
      let '(r, s) := unelide r s in
      (TFn bs ts r, s)
  | TTuple ts => let '(ts, s) := list ts s in (TTuple ts, s)
  end.

(** ** The expansion *)

(** [for<c_binder> c_ty : ReprC] *)
Record clause := Clause { c_binder : list string; c_ty : ty }.
(** 199-207. *)
Definition clause_of (binder : list string) (t : ty) : clause :=
  let '(t, s) := unelide t (State 0 binder) in Clause (params s) t.

Record impl := Impl {
  i_params : list string;
  i_where : list clause;
  (** [Option<unsafe extern "C" fn(CLayoutOf<..>, ..) -> CLayoutOf<..>>] *)
  i_args : list ty;
  i_ret : ty;
}.
Definition unit_ty : ty := TTuple [].
Definition expand (n : newtype) : impl :=
  Impl (n_params n)
    (clause_of (n_binder n) <$> (n_args n ++ option_list (n_ret n)))
    (strip <$> n_args n)
    (strip (default unit_ty (n_ret n))).

(** 333-337 and 350-354, for the value of the [Option]. *)
Definition is_valid (v : option N) : bool := match v with Some _ => true | None => false end.
Definition is_niche (v : option N) : bool := match v with Some _ => false | None => true end.
