(** C72: newtypes of C functions, and their lifetimes. *)
From stdpp Require Import base numbers list sets fin_sets strings pretty.
From Verif Require Import FptrModel FptrSpec FptrProofs.

(** ** Example: [struct F<'a>(pub for<'b> extern "C" fn(&'a Ctx<'_>, Box<&'b u8>, (&u8, &'_ u8)) -> &'static u8)] *)
Definition u8 : ty := TPath "u8" [] [].
Definition ctx_arg : ty := TRef (Some (LNamed "a")) (TPath "Ctx" [LElided] []).
Definition box_arg : ty := TPath "Box" [] [TRef (Some (LNamed "b")) u8].
Definition pair_arg : ty := TTuple [TRef None u8; TRef (Some LElided) u8].
Definition F : newtype := Newtype ["a"] ["b"] [ctx_arg; box_arg; pair_arg] (Some (TRef (Some LStatic) u8)).
Lemma not_reserved x : String.prefix "_" x = false → ¬ reserved x.
Proof. by intros H [n ->]. Qed.
Example F_good : good F ∧ clear_names F.
Proof.
  split.
  - unfold good, types, F. cbn. split_and!; repeat first [constructor | set_solver].
  - assert (Hr : ∀ x, x ∈ ["b"; "a"] → ¬ reserved x).
    { intros x Hx. apply not_reserved. rewrite !elem_of_cons, elem_of_nil in Hx. destruct Hx as [->|[->|[]]]; done. }
    split; [exact Hr|]. unfold types, F. cbn. repeat constructor; intros x Hx; apply Hr; set_solver.
Qed.

(** ** The layout *)

(** The C layout of the newtype is that of a nullable function with the layouts of the same types, in
    the same order, with every lifetime made ['static]: none is elided, none is named. *)
Theorem C72_layout (n : newtype) :
  Forall2 same (n_args n) (i_args (expand n)) ∧ same (default unit_ty (n_ret n)) (i_ret (expand n)) ∧
  Forall (λ t, complete t ∧ names t = []) (i_ret (expand n) :: i_args (expand n)).
Proof.
  cbn. split_and!.
  - apply Forall2_fmap_r, Forall_Forall2_diag, Forall_true, strip_same.
  - apply strip_same.
  - constructor; [split; [apply strip_complete|apply strip_names]|].
    apply Forall_fmap, Forall_true. intros t. split; [apply strip_complete|apply strip_names].
Qed.
(** It is well-formed, without the lifetimes of the newtype, exactly if no function pointer among the
    types binds lifetimes. *)
Theorem C72_layout_partial (n : newtype) (Γ : list string) :
  Forall (wf Γ) (i_ret (expand n) :: i_args (expand n)) ↔ Forall unbound (types n).
Proof.
  assert (Hu : unbound unit_ty) by done. cbn. rewrite Forall_cons, strip_wf, Forall_fmap.
  assert (E : Forall (wf Γ ∘ strip) (n_args n) ↔ Forall unbound (n_args n)).
  { rewrite !Forall_forall. split; intros H t Ht; apply (strip_wf Γ), H; done. }
  rewrite E. unfold types. rewrite Forall_app. destruct (n_ret n) as [r|]; cbn.
  - rewrite Forall_singleton. tauto.
  - split; [|tauto]. intros [_ ?]. split; [done|constructor].
Qed.
Example C72_layout_ex :
  i_args (expand F) = [TRef (Some LStatic) (TPath "Ctx" [LStatic] []); TPath "Box" [] [TRef (Some LStatic) u8];
    TTuple [TRef (Some LStatic) u8; TRef (Some LStatic) u8]] ∧
  i_ret (expand F) = TRef (Some LStatic) u8 ∧ Forall unbound (types F).
Proof. split_and!; [reflexivity..|]. unfold types. cbn. repeat constructor. Qed.
(** [struct G(pub extern "C" fn(for<'c> extern "C" fn(&'c u8)))] is fine, but [for<'static>] is not. *)
Definition G : newtype := Newtype [] [] [TFn [LNamed "c"] [TRef (Some (LNamed "c")) u8] unit_ty] None.
Theorem C72_layout_refuted : ∃ n, good n ∧ clear_names n ∧ ¬ Forall (wf (n_params n)) (i_args (expand n)).
Proof.
  exists G. split_and!.
  - unfold good, types, G. cbn. split_and!; repeat first [constructor | exists ["c"] | set_solver].
  - split; [set_solver|]. unfold types, G. cbn. repeat constructor; try done. intros x Hx. apply not_reserved.
    assert (x = "c") as -> by set_solver. done.
  - cbn. intros [((xs & Hxs & _) & _) _]%Forall_cons. by destruct xs.
Qed.

(** ** The bounds *)

(** For each argument and the result there is a bound [for<..> T : ReprC], which binds no lifetime
    twice and none of the newtype, mentions no other, elides none, and is about the same type. *)
Theorem C72_where (n : newtype) : good n → clear_names n →
  i_params (expand n) = n_params n ∧
  Forall2 (λ t c,
    NoDup (c_binder c) ∧ (∀ x, x ∈ c_binder c → x ∉ n_params n) ∧
    wf (c_binder c ++ n_params n) (c_ty c) ∧ complete (c_ty c) ∧ same t (c_ty c)) (types n) (i_where (expand n)).
Proof.
  intros (Hp & Hb & Hd & Hw) (Hr & Hn). split; [done|]. cbn [expand i_where].
  change (n_args n ++ option_list (n_ret n)) with (types n).
  apply Forall2_fmap_r. rewrite Forall_forall in Hw, Hn. apply Forall_Forall2_diag, Forall_forall.
  intros t Ht. apply clause_wf; try done; [by apply Hw|]. intros x Hx. by apply (Hn t Ht).
Qed.
Example C72_where_ex : i_where (expand F) =
  [Clause ["b"; "__elided_0"] (TRef (Some (LNamed "a")) (TPath "Ctx" [LNamed "__elided_0"] []));
   Clause ["b"] box_arg;
   Clause ["b"; "__elided_0"; "__elided_1"] (TTuple [TRef (Some (LNamed "__elided_0")) u8; TRef (Some (LNamed "__elided_1")) u8]);
   Clause ["b"] (TRef (Some LStatic) u8)].
Proof. vm_compute. reflexivity. Qed.
(** With a lifetime of that name, the bound binds it twice. *)
Theorem C72_names_refuted : ∃ n, good n ∧ ¬ Forall (λ c, NoDup (c_binder c)) (i_where (expand n)).
Proof.
  exists (Newtype [] ["__elided_0"] [TRef None (TRef (Some (LNamed "__elided_0")) u8)] None). split.
  - unfold good, types. cbn. split_and!; repeat first [constructor | set_solver].
  - assert (E : i_where (expand (Newtype [] ["__elided_0"] [TRef None (TRef (Some (LNamed "__elided_0")) u8)] None)) =
      [Clause ["__elided_0"; "__elided_0"] (TRef (Some (LNamed "__elided_0")) (TRef (Some (LNamed "__elided_0")) u8))])
      by (vm_compute; reflexivity).
    rewrite E. intros [H _]%Forall_cons. cbn in H. apply NoDup_cons in H as [H _]. set_solver.
Qed.

(** For types other than those with function pointers within, the bound says exactly that the type
    is [ReprC] whatever its elided lifetimes are: its instances are the ways to fill them in. *)
Theorem C72_bounds_partial (bs : list string) (t t' : ty) :
  (∃ u, fills t u) → (∀ x, x ∈ names t → ¬ reserved x) →
  (∃ xs σ, c_binder (clause_of bs t) = bs ++ xs ∧ assigns xs σ ∧ subst σ (c_ty (clause_of bs t)) = t') ↔ fills t t'.
Proof.
  intros Hf Hc. rewrite (clause_fills bs t t' Hf Hc). split.
  - intros (xs & σ & -> & Ha & Hs). exists σ. by rewrite drop_app.
  - intros (σ & Ha & Hs). destruct (clause_binder bs t) as [n Hn]. rewrite Hn, drop_app in Ha. by exists (given 0 n), σ.
Qed.
Example C72_bounds_ex : fills pair_arg (TTuple [TRef (Some LStatic) u8; TRef (Some (LNamed "b")) u8]).
Proof. repeat constructor; done. Qed.
(** Missing: function pointers, which bind what they elide.  The bound for [extern "C" fn(&u8)] is
    about [fn(&'x u8)] for each ['x], and not about that type. *)
Theorem C72_bounds_refuted : ∃ t, wf [] t ∧ names t = [] ∧
  t = TFn [] [TRef None u8] unit_ty ∧
  ∀ σ x, subst σ (c_ty (clause_of [] t)) ≠ TFn [LNamed x] [TRef (Some (LNamed x)) u8] unit_ty.
Proof.
  exists (TFn [] [TRef None u8] unit_ty). split_and!; [|done..].
  cbn. split_and!; try done. exists []. split_and!; [done|constructor|set_solver].
Qed.

(** ** Null *)

(** A value is a function or null, never both: the former are valid, the latter are for [None]. *)
Theorem C72_null (v : option N) : is_valid v = negb (is_niche v) ∧ (is_niche v = true ↔ v = None).
Proof. by destruct v. Qed.
Example C72_null_ex : is_valid (Some 4096%N) = true ∧ is_niche None = true.
Proof. done. Qed.

Print Assumptions C72_layout.
Print Assumptions C72_layout_partial.
Print Assumptions C72_layout_refuted.
Print Assumptions C72_where.
Print Assumptions C72_names_refuted.
Print Assumptions C72_bounds_partial.
Print Assumptions C72_bounds_refuted.
Print Assumptions C72_null.
