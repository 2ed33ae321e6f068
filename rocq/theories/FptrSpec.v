(** When a type is well-formed for rustc, and what it is to fill in lifetimes, written down
    independently of the traversals. *)
From stdpp Require Import base numbers list strings.
From Verif Require Import FptrModel.


(** [Forall], by recursion on the list. *)
Definition Forall' {A} (P : A → Prop) : list A → Prop :=
  fix go l := match l with [] => True | x :: l => P x ∧ go l end.

(** ** Scopes *)
Definition lt_ok (Γ : list string) (l : lt) : Prop :=
  match l with LNamed x => x ∈ Γ | LStatic | LElided => True end.
(** What [for<..>] binds: names, no two the same (E0263), none that is there already (E0496), and not
    ['static] (E0262). *)
Definition binds (Γ : list string) (bs : list lt) : Prop :=
  ∃ xs, bs = LNamed <$> xs ∧ NoDup xs ∧ ∀ x, x ∈ xs → x ∉ Γ.
Definition bound (bs : list lt) : list string := omap (λ l, match l with LNamed x => Some x | _ => None end) bs.

(** Every lifetime a type mentions is in scope. *)
Fixpoint wf (Γ : list string) (t : ty) : Prop :=
  match t with
  | TPath _ ls ts => Forall (lt_ok Γ) ls ∧ Forall' (wf Γ) ts
  | TRef l t => match l with Some l => lt_ok Γ l | None => True end ∧ wf Γ t
  | TPtr t => wf Γ t
  | TFn bs ts r => binds Γ bs ∧ Forall' (wf (bound bs ++ Γ)) ts ∧ wf (bound bs ++ Γ) r
  | TTuple ts => Forall' (wf Γ) ts
  end.

(** No lifetime is left to rustc. *)
Definition explicit (l : lt) : Prop := l ≠ LElided.
Fixpoint complete (t : ty) : Prop :=
  match t with
  | TPath _ ls ts => Forall explicit ls ∧ Forall' complete ts
  | TRef l t => match l with Some l => explicit l | None => False end ∧ complete t
  | TPtr t => complete t
  | TFn bs ts r => Forall' complete ts ∧ complete r
  | TTuple ts => Forall' complete ts
  end.
(** No function pointer type within a type binds lifetimes by [for<..>]. *)
Fixpoint unbound (t : ty) : Prop :=
  match t with
  | TPath _ _ ts => Forall' unbound ts
  | TRef _ t => unbound t
  | TPtr t => unbound t
  | TFn bs ts r => bs = [] ∧ Forall' unbound ts ∧ unbound r
  | TTuple ts => Forall' unbound ts
  end.

(** ** The same type but for its lifetimes *)
Inductive same : ty → ty → Prop :=
  | same_path x ls ls' ts ts' : length ls = length ls' → Forall2 same ts ts' → same (TPath x ls ts) (TPath x ls' ts')
  | same_ref l l' t t' : same t t' → same (TRef l t) (TRef l' t')
  | same_ptr t t' : same t t' → same (TPtr t) (TPtr t')
  | same_fn bs bs' ts ts' r r' : length bs = length bs' → Forall2 same ts ts' → same r r' → same (TFn bs ts r) (TFn bs' ts' r')
  | same_tuple ts ts' : Forall2 same ts ts' → same (TTuple ts) (TTuple ts').

(** ** Filling in lifetimes *)

(** A lifetime stays if it is given, and may be any where it is elided. *)
Inductive fills_lt : lt → lt → Prop :=
  | fills_given l : explicit l → fills_lt l l
  | fills_elided l : explicit l → fills_lt LElided l.
(** [fills t t']: [t'] is [t] with some lifetime in each place where one is elided.  There is none for
    function pointers: what they elide they bind. *)
Inductive fills : ty → ty → Prop :=
  | fills_path x ls ls' ts ts' : Forall2 fills_lt ls ls' → Forall2 fills ts ts' → fills (TPath x ls ts) (TPath x ls' ts')
  | fills_ref l l' t t' : fills_lt l l' → fills t t' → fills (TRef (Some l) t) (TRef (Some l') t')
  | fills_ref_none l' t t' : explicit l' → fills t t' → fills (TRef None t) (TRef (Some l') t')
  | fills_ptr t t' : fills t t' → fills (TPtr t) (TPtr t')
  | fills_tuple ts ts' : Forall2 fills ts ts' → fills (TTuple ts) (TTuple ts').

(** Instances of a clause: lifetimes for what it binds, [None] to keep a name. *)
Definition assign := string → option lt.
Definition subst_lt (σ : assign) (l : lt) : lt :=
  match l with LNamed x => default l (σ x) | _ => l end.
Fixpoint subst (σ : assign) (t : ty) : ty :=
  match t with
  | TPath x ls ts => TPath x (subst_lt σ <$> ls) (map (subst σ) ts)
  | TRef l t => TRef (subst_lt σ <$> l) (subst σ t)
  | TPtr t => TPtr (subst σ t)
  | TFn bs ts r => TFn (subst_lt σ <$> bs) (map (subst σ) ts) (subst σ r)
  | TTuple ts => TTuple (map (subst σ) ts)
  end.
(** It gives lifetimes to [xs], and to nothing else. *)
Definition assigns (xs : list string) (σ : assign) : Prop :=
  ∀ x, match σ x with Some l => x ∈ xs ∧ explicit l | None => x ∉ xs end.

(** The lifetimes a type names. *)
Definition lt_names (l : lt) : list string := match l with LNamed x => [x] | _ => [] end.
Fixpoint names (t : ty) : list string :=
  match t with
  | TPath _ ls ts => (ls ≫= lt_names) ++ flat_map names ts
  | TRef l t => match l with Some l => lt_names l | None => [] end ++ names t
  | TPtr t => names t
  | TFn bs ts r => (bs ≫= lt_names) ++ flat_map names ts ++ names r
  | TTuple ts => flat_map names ts
  end.
(** A name the macro may come up with. *)
Definition reserved (x : string) : Prop := ∃ n, x = elided n.

(** ** A newtype as rustc takes it *)
Definition types (n : newtype) : list ty := n_args n ++ option_list (n_ret n).
Definition good (n : newtype) : Prop :=
  NoDup (n_params n) ∧ NoDup (n_binder n) ∧ (∀ x, x ∈ n_binder n → x ∉ n_params n) ∧
  Forall (wf (n_binder n ++ n_params n)) (types n).
(** None of its lifetimes has a name the macro may come up with. *)
Definition clear_names (n : newtype) : Prop :=
  (∀ x, x ∈ n_binder n ++ n_params n → ¬ reserved x) ∧ Forall (λ t, ∀ x, x ∈ names t → ¬ reserved x) (types n).
