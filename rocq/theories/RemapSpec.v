(** What rustc makes of lifetimes: where they may be elided, what is in scope, and which types are
    ['static]. *)
From stdpp Require Import base numbers list strings.
From Verif Require Import RemapModel.

(** [Forall], by recursion on the list. *)
Definition Forall' {A} (P : A → Prop) : list A → Prop :=
  fix go l := match l with [] => True | x :: l => P x ∧ go l end.

(** The number of lifetime parameters of a type or trait. *)
Definition arities := string → nat.

(** ** Well-formed types *)
Definition binds (Γ : list string) (bs : list lt) : Prop :=
  ∃ xs, bs = LNamed <$> xs ∧ NoDup xs ∧ ∀ x, x ∈ xs → x ∉ Γ.
Definition bound (bs : list lt) : list string := omap (λ l, match l with LNamed x => Some x | _ => None end) bs.
(** A lifetime is in scope, or elided where that is allowed ([el]). *)
Definition lt_ok (el : bool) (Γ : list string) (l : lt) : Prop :=
  match l with LNamed x => x ∈ Γ | LStatic => True | LElided => el = true end.
(** Lifetimes may be elided inside of functions, whose parameters they then are, and in the signature
    of a function; not in an alias, where a path has all its lifetimes. *)
Fixpoint wf (ar : arities) (el : bool) (Γ : list string) (t : ty) : Prop :=
  match t with
  | TPath x ls ts => (length ls = ar x ∨ ls = [] ∧ el = true) ∧ Forall (lt_ok el Γ) ls ∧ Forall' (wf ar el Γ) ts
  | TRef l t => lt_ok el Γ (default LElided l) ∧ wf ar el Γ t
  | TPtr t => wf ar el Γ t
  | TFn bs ts r => binds Γ bs ∧ Forall' (wf ar true (bound bs ++ Γ)) ts ∧ wf ar true (bound bs ++ Γ) r
  | TSugar x ts r => Forall' (wf ar true Γ) ts ∧ wf ar true Γ r
  | TDyn t b => wf ar el Γ t ∧ match b with Some l => lt_ok el Γ l | None => True end
  | TTuple ts => Forall' (wf ar el Γ) ts
  end.
(** The glue compiles, as far as lifetimes go. *)
Definition accepted (ar : arities) (g : glue) : Prop :=
  Forall (wf ar false []) (g_aliases g) ∧ NoDup (g_lts g) ∧ "static" ∉ g_lts g ∧ Forall (wf ar true (g_lts g)) (g_args g).

(** ** What is ['static] *)

(** A type borrows nothing: all its lifetimes are ['static] or, inside of a function, parameters of the
    function ([bnd], and if [hr] the elided ones). *)
Definition lt_static (bnd : list string) (hr : bool) (l : lt) : Prop :=
  match l with LStatic => True | LNamed x => x ∈ bnd | LElided => hr = true end.
Fixpoint owned (ar : arities) (bnd : list string) (hr : bool) (t : ty) : Prop :=
  match t with
  | TPath x ls ts => (ls = [] → ar x = O ∨ hr = true) ∧ Forall (lt_static bnd hr) ls ∧ Forall' (owned ar bnd hr) ts
  | TRef l t => lt_static bnd hr (default LElided l) ∧ owned ar bnd hr t
  | TPtr t => owned ar bnd hr t
  | TFn bs ts r => Forall' (owned ar (bound bs ++ bnd) true) ts ∧ owned ar (bound bs ++ bnd) true r
  | TSugar x ts r => Forall' (owned ar bnd true) ts ∧ owned ar bnd true r
  | TDyn t b => owned ar bnd hr t ∧ match b with Some l => lt_static bnd hr l | None => True end
  | TTuple ts => Forall' (owned ar bnd hr) ts
  end.
(** [JsPromise::spawn] takes a future that is ['static], so all that it captures has to be. *)
Definition may_capture (ar : arities) (g : glue) (i : nat) : Prop :=
  ∃ t, g_args g !! i = Some t ∧ owned ar [] false t.

(** ** Descriptions of types *)

(** Every lifetime of the type, but for those in [Fn(..)], is given, as ['static]. *)
Fixpoint all_static (t : ty) : Prop :=
  match t with
  | TPath _ ls ts => Forall (eq LStatic) ls ∧ Forall' all_static ts
  | TRef l t => l = Some LStatic ∧ all_static t
  | TPtr t => all_static t
  | TFn bs ts r => Forall' all_static ts ∧ all_static r
  | TSugar _ _ _ => True
  | TDyn t b => all_static t ∧ (b = None ∨ b = Some LStatic)
  | TTuple ts => Forall' all_static ts
  end.
(** Outside of [Fn(..)]: no [for<..>], and every path has its lifetimes or, in a function pointer,
    leaves them out; inside of [Fn(..)]: well-formed by itself. *)
Fixpoint portable (ar : arities) (el : bool) (Γ : list string) (t : ty) : Prop :=
  match t with
  | TPath x ls ts => (length ls = ar x ∨ ls = [] ∧ el = true) ∧ Forall' (portable ar el Γ) ts
  | TRef _ t => portable ar el Γ t
  | TPtr t => portable ar el Γ t
  | TFn bs ts r => bs = [] ∧ Forall' (portable ar true Γ) ts ∧ portable ar true Γ r
  | TSugar x ts r => Forall' (wf ar true Γ) ts ∧ wf ar true Γ r
  | TDyn t _ => portable ar el Γ t
  | TTuple ts => Forall' (portable ar el Γ) ts
  end.

(** The same type but for its lifetimes. *)
Inductive same : ty → ty → Prop :=
  | same_path x ls ls' ts ts' : length ls = length ls' → Forall2 same ts ts' → same (TPath x ls ts) (TPath x ls' ts')
  | same_ref l l' t t' : same t t' → same (TRef l t) (TRef l' t')
  | same_ptr t t' : same t t' → same (TPtr t) (TPtr t')
  | same_fn bs bs' ts ts' r r' : length bs = length bs' → Forall2 same ts ts' → same r r' → same (TFn bs ts r) (TFn bs' ts' r')
  | same_sugar x ts r : same (TSugar x ts r) (TSugar x ts r)
  | same_dyn t t' b b' : same t t' → (b = None ↔ b' = None) → same (TDyn t b) (TDyn t' b')
  | same_tuple ts ts' : Forall2 same ts ts' → same (TTuple ts) (TTuple ts').

(** The lifetimes of a type, but for those in [Fn(..)]; [None] where a reference has none. *)
Fixpoint lts (t : ty) : list (option lt) :=
  match t with
  | TPath _ ls ts => (Some <$> ls) ++ flat_map lts ts
  | TRef l t => l :: lts t
  | TPtr t => lts t
  | TFn bs ts r => (Some <$> bs) ++ flat_map lts ts ++ lts r
  | TSugar _ _ _ => []
  | TDyn t b => lts t ++ (Some <$> option_list b)
  | TTuple ts => flat_map lts ts
  end.

(** The type has something in it that is lent by the caller: a reference, or a type with lifetimes. *)
Fixpoint lent (ar : arities) (t : ty) : Prop :=
  match t with
  | TRef _ _ => True
  | TPath x _ ts => ar x ≠ O
  | TTuple ts => (fix go ts := match ts with [] => False | t :: ts => lent ar t ∨ go ts end) ts
  | _ => False
  end.

(** No [for<..>], no [Fn(..)], and all paths with their lifetimes. *)
Fixpoint plain (ar : arities) (t : ty) : Prop :=
  match t with
  | TPath x ls ts => length ls = ar x ∧ Forall' (plain ar) ts
  | TRef _ t | TPtr t | TDyn t _ => plain ar t
  | TFn bs ts r => bs = [] ∧ Forall' (plain ar) ts ∧ plain ar r
  | TSugar _ _ _ => False
  | TTuple ts => Forall' (plain ar) ts
  end.
