(** C73: the lifetimes of the arguments of exported functions, and the futures of async ones. *)
From stdpp Require Import base numbers list list_numbers strings pretty.
From Verif Require Import RemapModel RemapSpec RemapProofs.

(** ** Examples *)
Definition u8 : ty := TPath "u8" [] [].
(** [Ref] has one lifetime, [Pair] has two, the others have none. *)
Definition ar : arities := λ x, if bool_decide (x = "Ref") then 1 else if bool_decide (x = "Pair") then 2 else 0.
(** [(Ref<'_>, &'a mut Vec<&'static u8>)], [Arc<dyn Fn(&u8)>], [Ref<'static>] *)
Definition arg1 : ty := TTuple [TPath "Ref" [LElided] []; TRef (Some (LNamed "a")) (TPath "Vec" [] [TRef (Some LStatic) u8])].
Definition arg2 : ty := TPath "Arc" [] [TDyn (TSugar "Fn" [TRef None u8] (TTuple [])) None].
Definition arg3 : ty := TPath "Ref" [LStatic] [].

(** ** What is put in place of the lifetimes *)

(** The type stays the same but for its lifetimes, so that it has the same layout. *)
Theorem C73_same (new : string) (t : ty) : same t (remap new t).
Proof. apply remap_same. Qed.
(** Outside of [Fn(..)], each lifetime that is ['static] stays, each other, given or not, becomes the
    new one: in an alias, each is ['static]. *)
Theorem C73_lifetimes (new : string) (t : ty) :
  Forall2 (λ o o', (o = Some LStatic → o' = Some LStatic) ∧ (o ≠ Some LStatic → o' = Some (lt_of new)))
    (lts t) (lts (remap new t)).
Proof. apply remap_lts. Qed.
Theorem C73_aliases_static (ts : list ty) : Forall (λ t, Forall (eq (Some LStatic)) (lts t)) (aliases ts).
Proof.
  unfold aliases. apply Forall_fmap, Forall_true. intros t. cbn. pose proof (remap_lts "static" t) as H.
  induction H as [|o o' l l' [H1 H2] H IH]; constructor; [|done].
  symmetry. destruct o as [[x| |]|]; [by apply H2|by apply H1|by apply H2|by apply H2].
Qed.
Example C73_lifetimes_ex :
  remap "static" arg1 = TTuple [TPath "Ref" [LStatic] []; TRef (Some LStatic) (TPath "Vec" [] [TRef (Some LStatic) u8])] ∧
  remap "x" arg1 = TTuple [TPath "Ref" [LNamed "x"] []; TRef (Some (LNamed "x")) (TPath "Vec" [] [TRef (Some LStatic) u8])] ∧
  remap "x" arg2 = arg2.
Proof. vm_compute. split_and!; reflexivity. Qed.

(** ** Does the glue compile? *)

(** The layouts of arguments, for JavaScript and in vtables, are types at the level of a module exactly
    if the arguments have no [for<..>] in them, every path has its lifetimes, and [Fn(..)] names none
    from outside. *)
Theorem C73_aliases (a : arities) (ts : list ty) :
  Forall (wf a false []) (aliases ts) ↔ Forall (portable a false []) ts.
Proof.
  unfold aliases. rewrite Forall_fmap, !Forall_forall.
  split; intros H t Ht; [apply (remap_wf a "static" t false []); [by left|]; by apply H|].
  cbn. apply remap_wf; [by left|]. by apply H.
Qed.
(** So the glue of an async function with such arguments compiles.  Missing: [for<..>], [Fn(..)],
    paths without their lifetimes; of the latter only the last is meant to be rejected. *)
Theorem C73_accepted_partial (a : arities) (ts : list ty) : Forall (plain a) ts → accepted a (async_glue ts).
Proof.
  intros H. apply glue_accepted. split; (eapply Forall_impl; [exact H|]); intros t Ht; by apply plain_portable.
Qed.
(** A callback that takes a reference, written with its lifetime, [for<'c> fn(&'c u8)], or without. *)
Definition callback (written : bool) : ty :=
  if written then TFn [LNamed "c"] [TRef (Some (LNamed "c")) u8] (TTuple []) else TFn [] [TRef None u8] (TTuple []).
(** They are the same type; the first one is rejected. *)
Theorem C73_accepted_refuted :
  ∃ a t, wf a true [] t ∧ owned a [] false t ∧ ¬ accepted a (async_glue [t]) ∧ ¬ Forall (wf a false []) (aliases [t]).
Proof.
  exists ar, (callback true).
  assert (Hn : ¬ Forall (portable ar false []) [callback true]) by (intros H; apply Forall_cons in H as [(H & _) _]; done).
  split_and!.
  - split_and!; [|split; [|done]|done].
    + exists ["c"]. split_and!; [done|apply NoDup_singleton|]. intros x _ H. by apply elem_of_nil in H.
    + split; [left|]. split; [by left|by split].
  - split; [|done]. split; [|done]. split; [left|]. split; [by left|by split].
  - intros H. apply glue_accepted in H as [H _]. done.
  - intros H. by apply C73_aliases in H.
Qed.
Example C73_accepted_ex :
  accepted ar (async_glue [arg1; arg3; callback false]) ∧ Forall (wf ar false []) (aliases [arg1; arg2; arg3; callback false]) ∧
  ¬ accepted ar (async_glue [TPath "Ref" [] []]).
Proof.
  split_and!.
  - apply C73_accepted_partial. repeat constructor.
  - apply C73_aliases. repeat apply Forall_cons_2; [| | | |apply Forall_nil_2].
    + apply plain_portable; repeat constructor.
    + split; [by left|]. split; [|done]. split; [|done]. split; [|done]. split; [done|]. split; [by left|by split].
    + apply plain_portable; repeat constructor.
    + apply plain_portable; repeat constructor.
  - intros H. apply glue_accepted in H as [H _]. apply Forall_cons in H as [(H & _) _]. by destruct H as [H|[_ H]].
Qed.

(** ** Futures *)

(** If the glue compiles, the future of an async function can capture an argument only if its type, as
    declared, borrows nothing: everything else is to be copied before [ffi_await!]. *)
Theorem C73_captures (a : arities) (ts : list ty) (i : nat) (t : ty) :
  accepted a (async_glue ts) → ts !! i = Some t → may_capture a (async_glue ts) i → owned a [] false t.
Proof.
  intros Ha Hi Hc. apply glue_accepted in Ha as [Hp _]. assert (portable a false [] t) as Ht by (by eapply Forall_lookup_1).
  apply (glue_capture a ts i t Hi Ht) in Hc. by apply static_owned.
Qed.
(** Exactly those with no lifetime but ['static], whatever the other arguments are. *)
Theorem C73_captures_exact (a : arities) (ts : list ty) (i : nat) (t : ty) :
  accepted a (async_glue ts) → ts !! i = Some t → may_capture a (async_glue ts) i ↔ all_static t.
Proof.
  intros Ha Hi. apply glue_accepted in Ha as [Hp _]. assert (portable a false [] t) as Ht by (by eapply Forall_lookup_1).
  by apply glue_capture.
Qed.
(** The lifetimes of different arguments are different parameters. *)
Theorem C73_apart (ts : list ty) : NoDup (g_lts (async_glue ts)) ∧ "static" ∉ g_lts (async_glue ts) ∧
  ∀ i t, g_args (async_glue ts) !! i = Some t →
    Forall (λ o, o = Some LStatic ∨ ∃ x, g_lts (async_glue ts) !! i = Some x ∧ o = Some (LNamed x)) (lts t).
Proof.
  split; [apply glue_lts_nodup|]. split; [apply glue_lts_static|]. intros i u Hu.
  apply glue_arg in Hu as (t & Ht & ->). pose proof (remap_lts (owned_lt i) t) as H.
  assert (Hx : g_lts (async_glue ts) !! i = Some (owned_lt i)).
  { cbn. rewrite list_lookup_fmap. apply lookup_lt_Some in Ht. by rewrite lookup_seq_lt by lia. }
  assert (E : lt_of (owned_lt i) = LNamed (owned_lt i)).
  { unfold lt_of. case_bool_decide as Hs; [by apply owned_lt_static in Hs|done]. }
  apply Forall_forall. intros o' Ho. apply elem_of_list_lookup in Ho as [j Hj].
  destruct (Forall2_lookup_r _ _ _ _ _ H Hj) as (o & _ & H1 & H2).
  rewrite E in H2. destruct o as [[x| |]|]; [right|left; by apply H1|right|right];
    exists (owned_lt i); (split; [done|]); by apply H2.
Qed.
(** Not everything that borrows nothing can be captured: a callback that takes a reference cannot, nor
    be called by the future. *)
Theorem C73_captures_refuted :
  ∃ a ts t, accepted a (async_glue ts) ∧ ts !! O = Some t ∧ owned a [] false t ∧ ¬ may_capture a (async_glue ts) 0.
Proof.
  exists ar, [callback false], (callback false).
  assert (Ha : accepted ar (async_glue [callback false])) by (apply C73_accepted_partial; repeat constructor).
  split; [done|]. split; [done|]. split.
  - split; [|done]. split; [|done]. split; [done|]. split; [by left|by split].
  - rewrite (C73_captures_exact ar _ 0 (callback false) Ha eq_refl). intros [[H _] _]. by destruct H.
Qed.
(** And ['static] is taken at its word, of arguments from JavaScript, which lends them for the call: a
    future may hold what is gone. *)
Theorem C73_lent_refuted :
  ∃ a ts t, accepted a (async_glue ts) ∧ ts !! O = Some t ∧ lent a t ∧ may_capture a (async_glue ts) 0.
Proof.
  exists ar, [arg3], arg3.
  assert (Ha : accepted ar (async_glue [arg3])) by (apply C73_accepted_partial; repeat constructor).
  split_and!; [done|done|done|]. apply (C73_captures_exact ar _ 0 arg3 Ha eq_refl). cbn. split; [repeat constructor|done].
Qed.
Example C73_captures_ex :
  ¬ may_capture ar (async_glue [arg1; arg3]) 0 ∧ may_capture ar (async_glue [arg1; arg3]) 1 ∧
  g_lts (async_glue [arg1; arg3]) =
    ["use_stmts_before_ffi_await_to_compute_owned_captures_0"; "use_stmts_before_ffi_await_to_compute_owned_captures_1"].
Proof.
  assert (Ha : accepted ar (async_glue [arg1; arg3])) by (apply C73_accepted_partial; repeat constructor).
  split_and!.
  - rewrite (C73_captures_exact ar _ 0 arg1 Ha eq_refl). intros [[H _] _]. by apply Forall_cons in H as [H _].
  - apply (C73_captures_exact ar _ 1 arg3 Ha eq_refl). cbn. split; [repeat constructor|done].
  - reflexivity.
Qed.

Print Assumptions C73_same.
Print Assumptions C73_lifetimes.
Print Assumptions C73_aliases_static.
Print Assumptions C73_aliases.
Print Assumptions C73_accepted_partial.
Print Assumptions C73_accepted_refuted.
Print Assumptions C73_captures.
Print Assumptions C73_captures_exact.
Print Assumptions C73_apart.
Print Assumptions C73_captures_refuted.
Print Assumptions C73_lent_refuted.
