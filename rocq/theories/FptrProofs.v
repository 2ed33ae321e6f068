(** Proofs about [FptrModel]. *)
From stdpp Require Import base numbers list list_numbers strings pretty.
From Verif Require Import FptrModel FptrSpec.

(** ** Induction on types *)
Section ind.
  Context (P : ty → Prop).
  Context (Hpath : ∀ x ls ts, Forall P ts → P (TPath x ls ts)).
  Context (Href : ∀ l t, P t → P (TRef l t)).
  Context (Hptr : ∀ t, P t → P (TPtr t)).
  Context (Hfn : ∀ bs ts r, Forall P ts → P r → P (TFn bs ts r)).
  Context (Htup : ∀ ts, Forall P ts → P (TTuple ts)).
  Fixpoint ty_ind' (t : ty) : P t :=
    let go := fix go (ts : list ty) : Forall P ts :=
      match ts with [] => Forall_nil_2 P | t :: ts => Forall_cons_2 P t ts (ty_ind' t) (go ts) end in
    match t with
    | TPath x ls ts => Hpath x ls ts (go ts)
    | TRef l t => Href l t (ty_ind' t)
    | TPtr t => Hptr t (ty_ind' t)
    | TFn bs ts r => Hfn bs ts r (go ts) (ty_ind' r)
    | TTuple ts => Htup ts (go ts)
    end.
End ind.

Lemma Forall'_spec {A} (P : A → Prop) l : Forall' P l ↔ Forall P l.
Proof. induction l as [|x l IH]; cbn; [split; [constructor|done]|]. by rewrite Forall_cons, IH. Qed.

(** ** [strip] *)
Lemma strip_same t : same t (strip t).
Proof.
  induction t as [x ls ts IH|l t IH|t IH|bs ts r IH IHr|ts IH] using ty_ind'; cbn; constructor;
    rewrite ?fmap_length; try done; by apply Forall2_fmap_r, Forall_Forall2_diag.
Qed.
Lemma strip_wf Γ t : wf Γ (strip t) ↔ unbound t.
Proof.
  revert Γ. induction t as [x ls ts IH|l t IH|t IH|bs ts r IH IHr|ts IH] using ty_ind'; intros Γ; cbn [wf strip unbound];
    rewrite ?Forall'_spec, ?Forall_fmap.
  - assert (E : Forall (wf Γ ∘ strip) ts ↔ Forall unbound ts).
    { rewrite !Forall_forall in *. split; intros H t Ht; apply (IH t Ht Γ), H; done. }
    rewrite <-E. split; [by intros [_ ?]|]. intros ?. split; [by apply Forall_true|done].
  - rewrite IH. cbn. tauto.
  - apply IH.
  - destruct bs as [|b bs].
    + cbn [fmap list_fmap bound omap list_omap app]. rewrite IHr.
      assert (E : Forall (wf Γ ∘ strip) ts ↔ Forall unbound ts).
      { rewrite !Forall_forall in *. split; intros H t Ht; apply (IH t Ht Γ), H; done. }
      change (bound [] ++ Γ) with Γ. rewrite E. split; [tauto|]. intros (_ & ? & ?). split_and!; [|done..].
      exists []. split_and!; [done|constructor|]. intros x Hx. by apply elem_of_nil in Hx.
    + split; [|by intros [? _]]. intros ((xs & Hxs & _) & _). destruct xs; done.
  - rewrite !Forall_forall in *. split; intros H t Ht; apply (IH t Ht Γ), H; done.
Qed.
Lemma strip_complete t : complete (strip t).
Proof.
  induction t as [x ls ts IH|l t IH|t IH|bs ts r IH IHr|ts IH] using ty_ind'; cbn [complete strip];
    rewrite ?Forall'_spec, ?Forall_fmap; try done.
  split; [|done]. by apply Forall_true.
Qed.
Lemma strip_names t : names (strip t) = [].
Proof.
  assert (Hall : ∀ (l : list lt), ((λ _, LStatic) <$> l) ≫= lt_names = []).
  { intros l. by induction l. }
  assert (Hm : ∀ ts, Forall (λ t, names (strip t) = []) ts → flat_map names (map strip ts) = []).
  { intros ts. induction 1 as [|u ts Hu _ IH]; [done|]. cbn. by rewrite Hu. }
  induction t as [x ls ts IH|l t IH|t IH|bs ts r IH IHr|ts IH] using ty_ind'; cbn [names strip]; try done.
  - by rewrite Hall, Hm.
  - by rewrite Hall, Hm, IHr.
  - by apply Hm.
Qed.

(** ** [unelide] *)

Lemma elided_inj m n : elided m = elided n → m = n.
Proof. unfold elided. intros H. apply (inj (String.append "__elided_")) in H. by apply (inj pretty). Qed.

Fixpoint unelide_list (ts : list ty) (s : state) : list ty * state :=
  match ts with
  | [] => ([], s)
  | t :: ts =>
      let '(t, s) := unelide t s in
      let '(ts, s) := unelide_list ts s in
      (t :: ts, s)
  end.
Lemma unelide_eq t s : unelide t s =
  match t with
  | TPath x ls ts =>
      let '(ls, s) := unelide_lts ls s in
      let '(ts, s) := unelide_list ts s in
      (TPath x ls ts, s)
  | TRef (Some l) t =>
      let '(l, s) := unelide_lt l s in
      let '(t, s) := unelide t s in
      (TRef (Some l) t, s)
  | TRef None t =>
      let '(t, s) := unelide t s in
      let '(l, s) := fresh s in
      (TRef (Some l) t, s)
  | TPtr t => let '(t, s) := unelide t s in (TPtr t, s)
  | TFn bs ts r =>
      let '(bs, s) := unelide_lts bs s in
      let '(ts, s) := unelide_list ts s in
      let '(r, s) := unelide r s in
      (TFn bs ts r, s)
  | TTuple ts => let '(ts, s) := unelide_list ts s in (TTuple ts, s)
  end.
Proof.
  by destruct t as [x ls ts|[l|] t|t|bs ts r|ts].
Qed.

(** The names given between two states. *)
Definition given (m n : nat) : list string := elided <$> seq m (n - m).
Definition steps (s s' : state) : Prop :=
  counter s ≤ counter s' ∧ params s' = params s ++ given (counter s) (counter s').
Lemma steps_refl s : steps s s.
Proof. split; [done|]. unfold given. by rewrite Nat.sub_diag, app_nil_r. Qed.
Lemma given_app a b c : a ≤ b → b ≤ c → given a c = given a b ++ given b c.
Proof.
  intros H1 H2. unfold given. rewrite <-fmap_app. f_equal.
  replace (c - a) with ((b - a) + (c - b)) by lia. rewrite seq_app. by replace (a + (b - a)) with b by lia.
Qed.
Lemma steps_trans a b c : steps a b → steps b c → steps a c.
Proof.
  intros [H1 H2] [H3 H4]. split; [lia|]. by rewrite H4, H2, <-app_assoc, (given_app (counter a) (counter b) (counter c)).
Qed.
Lemma fresh_steps s : steps s (fresh s).2.
Proof.
  split; cbn; [lia|]. unfold given. replace (S (counter s) - counter s) with 1 by lia. done.
Qed.
Lemma elem_of_given x a b : x ∈ given a b ↔ ∃ n, x = elided n ∧ a ≤ n < b.
Proof.
  unfold given. rewrite elem_of_list_fmap. setoid_rewrite elem_of_seq. split; intros (n & -> & ?); exists n; (split; [done|lia]).
Qed.
Lemma NoDup_given a b : NoDup (given a b).
Proof. unfold given. apply NoDup_fmap_2; [intros ? ?; apply elided_inj|apply NoDup_seq]. Qed.

(** The invariant: [Q l l' s s'] for lifetimes gives [R] for types. *)
Lemma unelide_lt_steps l s : steps s (unelide_lt l s).2.
Proof. destruct l; cbn; [apply steps_refl..|apply fresh_steps]. Qed.
Lemma unelide_lts_steps ls s : steps s (unelide_lts ls s).2.
Proof.
  revert s. induction ls as [|l ls IH]; intros s; cbn [unelide_lts]; [apply steps_refl|].
  pose proof (unelide_lt_steps l s) as H1. destruct (unelide_lt l s) as [l' s1]. cbn in H1.
  specialize (IH s1). destruct (unelide_lts ls s1) as [ls' s2]. cbn in *. by eapply steps_trans.
Qed.
Lemma unelide_list_steps ts : Forall (λ t, ∀ s, steps s (unelide t s).2) ts → ∀ s, steps s (unelide_list ts s).2.
Proof.
  induction 1 as [|t ts Ht _ IH]; intros s; cbn [unelide_list]; [apply steps_refl|].
  specialize (Ht s). destruct (unelide t s) as [t' s1]. cbn in Ht.
  specialize (IH s1). destruct (unelide_list ts s1) as [ts' s2]. cbn in *. by eapply steps_trans.
Qed.
Lemma unelide_steps t : ∀ s, steps s (unelide t s).2.
Proof.
  induction t as [x ls ts IH|l t IH|t IH|bs ts r IH IHr|ts IH] using ty_ind'; intros s; rewrite unelide_eq.
  - pose proof (unelide_lts_steps ls s) as H1. destruct (unelide_lts ls s) as [ls' s1]. cbn in H1.
    pose proof (unelide_list_steps ts IH s1) as H2. destruct (unelide_list ts s1) as [ts' s2]. cbn in *. by eapply steps_trans.
  - destruct l as [l|].
    + pose proof (unelide_lt_steps l s) as H1. destruct (unelide_lt l s) as [l' s1]. cbn in H1.
      specialize (IH s1). destruct (unelide t s1) as [t' s2]. cbn in *. by eapply steps_trans.
    + specialize (IH s). destruct (unelide t s) as [t' s1]. cbn in IH.
      pose proof (fresh_steps s1) as H1. destruct (fresh s1) as [l' s2]. cbn in *. by eapply steps_trans.
  - specialize (IH s). destruct (unelide t s) as [t' s1]. done.
  - pose proof (unelide_lts_steps bs s) as H1. destruct (unelide_lts bs s) as [ls' s1]. cbn in H1.
    pose proof (unelide_list_steps ts IH s1) as H2. destruct (unelide_list ts s1) as [ts' s2]. cbn in H2.
    specialize (IHr s2). destruct (unelide r s2) as [r' s3]. cbn in *. eapply steps_trans; [done|]. by eapply steps_trans.
  - pose proof (unelide_list_steps ts IH s) as H2. destruct (unelide_list ts s) as [ts' s2]. done.
Qed.

(** Shape. *)
Lemma unelide_lts_length ls s : length (unelide_lts ls s).1 = length ls.
Proof.
  revert s. induction ls as [|l ls IH]; intros s; cbn [unelide_lts]; [done|].
  destruct (unelide_lt l s) as [l' s1]. specialize (IH s1). destruct (unelide_lts ls s1) as [ls' s2]. cbn in *. by rewrite IH.
Qed.
Lemma unelide_list_same ts : Forall (λ t, ∀ s, same t (unelide t s).1) ts → ∀ s, Forall2 same ts (unelide_list ts s).1.
Proof.
  induction 1 as [|t ts Ht _ IH]; intros s; cbn [unelide_list]; [constructor|].
  specialize (Ht s). destruct (unelide t s) as [t' s1]. specialize (IH s1). destruct (unelide_list ts s1) as [ts' s2].
  cbn in *. by constructor.
Qed.
Lemma unelide_same t : ∀ s, same t (unelide t s).1.
Proof.
  induction t as [x ls ts IH|l t IH|t IH|bs ts r IH IHr|ts IH] using ty_ind'; intros s; rewrite unelide_eq.
  - pose proof (unelide_lts_length ls s) as H1. destruct (unelide_lts ls s) as [ls' s1]. cbn in H1.
    pose proof (unelide_list_same ts IH s1) as H2. destruct (unelide_list ts s1) as [ts' s2]. cbn in *. by constructor.
  - destruct l as [l|].
    + destruct (unelide_lt l s) as [l' s1].
      specialize (IH s1). destruct (unelide t s1) as [t' s2]. cbn in *. by constructor.
    + specialize (IH s). destruct (unelide t s) as [t' s1]. cbn in *. by constructor.
  - specialize (IH s). destruct (unelide t s) as [t' s1]. cbn in *. by constructor.
  - pose proof (unelide_lts_length bs s) as H1. destruct (unelide_lts bs s) as [ls' s1]. cbn in H1.
    pose proof (unelide_list_same ts IH s1) as H2. destruct (unelide_list ts s1) as [ts' s2]. cbn in H2.
    specialize (IHr s2). destruct (unelide r s2) as [r' s3]. cbn in *. by constructor.
  - pose proof (unelide_list_same ts IH s) as H2. destruct (unelide_list ts s) as [ts' s2]. cbn in *. by constructor.
Qed.

(** Nothing is left out. *)
Lemma unelide_lts_explicit ls s : Forall explicit (unelide_lts ls s).1.
Proof.
  revert s. induction ls as [|l ls IH]; intros s; cbn [unelide_lts]; [constructor|].
  assert (He : explicit (unelide_lt l s).1) by (by destruct l).
  destruct (unelide_lt l s) as [l' s1]. specialize (IH s1). destruct (unelide_lts ls s1) as [ls' s2]. cbn in *. by constructor.
Qed.
Lemma unelide_list_complete ts : Forall (λ t, ∀ s, complete (unelide t s).1) ts → ∀ s, Forall complete (unelide_list ts s).1.
Proof.
  induction 1 as [|t ts Ht _ IH]; intros s; cbn [unelide_list]; [constructor|].
  specialize (Ht s). destruct (unelide t s) as [t' s1]. specialize (IH s1). destruct (unelide_list ts s1) as [ts' s2].
  cbn in *. by constructor.
Qed.
Lemma unelide_complete t : ∀ s, complete (unelide t s).1.
Proof.
  induction t as [x ls ts IH|l t IH|t IH|bs ts r IH IHr|ts IH] using ty_ind'; intros s; rewrite unelide_eq.
  - pose proof (unelide_lts_explicit ls s) as H1. destruct (unelide_lts ls s) as [ls' s1]. cbn in H1.
    pose proof (unelide_list_complete ts IH s1) as H2. destruct (unelide_list ts s1) as [ts' s2].
    cbn [fst complete] in *. by rewrite Forall'_spec.
  - destruct l as [l|].
    + assert (He : explicit (unelide_lt l s).1) by (by destruct l). destruct (unelide_lt l s) as [l' s1].
      specialize (IH s1). destruct (unelide t s1) as [t' s2]. done.
    + specialize (IH s). destruct (unelide t s) as [t' s1]. done.
  - specialize (IH s). destruct (unelide t s) as [t' s1]. done.
  - destruct (unelide_lts bs s) as [ls' s1].
    pose proof (unelide_list_complete ts IH s1) as H2. destruct (unelide_list ts s1) as [ts' s2]. cbn in H2.
    specialize (IHr s2). destruct (unelide r s2) as [r' s3]. cbn [fst complete] in *. by rewrite Forall'_spec.
  - pose proof (unelide_list_complete ts IH s) as H2. destruct (unelide_list ts s) as [ts' s2]. cbn [fst complete] in *. by rewrite Forall'_spec.
Qed.

(** Scopes: [Γ] with the names given. *)
Definition fits (Γ : list string) (s s' : state) (Δ : list string) : Prop :=
  (∀ x, x ∈ Γ → x ∈ Δ) ∧ (∀ x, x ∈ given (counter s) (counter s') → x ∈ Δ).
Lemma unelide_lts_wf ls : ∀ Γ Δ s, Forall (lt_ok Γ) ls → fits Γ s (unelide_lts ls s).2 Δ → Forall (lt_ok Δ) (unelide_lts ls s).1.
Proof.
  induction ls as [|l ls IH]; intros Γ Δ s Hw; cbn [unelide_lts]; [constructor|].
  apply Forall_cons in Hw as [Hl Hw].
  pose proof (unelide_lt_steps l s) as [H1 _].
  assert (Hlt : fits Γ s (unelide_lt l s).2 Δ → lt_ok Δ (unelide_lt l s).1).
  { intros [Hf1 Hf2]. destruct l; cbn in *; [auto|done|]. apply Hf2, elem_of_given. exists (counter s). split; [done|lia]. }
  destruct (unelide_lt l s) as [l' s1]. cbn in *.
  pose proof (unelide_lts_steps ls s1) as [H2 _].
  specialize (IH Γ Δ s1 Hw). destruct (unelide_lts ls s1) as [ls' s2]. cbn in *. intros [Hf1 Hf2].
  constructor; [apply Hlt|apply IH]; (split; [done|]); intros x Hx; apply Hf2; rewrite (given_app _ (counter s1)) by done; apply elem_of_app; by auto.
Qed.
Lemma unelide_binder xs : ∀ s, unelide_lts (LNamed <$> xs) s = (LNamed <$> xs, s).
Proof. induction xs as [|x xs IH]; intros s; cbn; [done|]. by rewrite IH. Qed.
Lemma bound_named xs : bound (LNamed <$> xs) = xs.
Proof. unfold bound. induction xs as [|x xs IH]; cbn; [done|]. by rewrite IH. Qed.
Lemma names_binder xs : (LNamed <$> xs) ≫= lt_names = xs.
Proof. induction xs as [|x xs IH]; cbn; [done|]. by rewrite IH. Qed.

Definition clear (t : ty) : Prop := ∀ x, x ∈ names t → ¬ reserved x.
Definition wf_goal (t : ty) : Prop := ∀ Γ Δ s, wf Γ t → clear t → fits Γ s (unelide t s).2 Δ →
  (∀ x, x ∈ Δ → x ∈ Γ ∨ reserved x) → wf Δ (unelide t s).1.
Lemma unelide_list_wf ts : Forall wf_goal ts → ∀ Γ Δ s, Forall (wf Γ) ts → Forall clear ts →
  fits Γ s (unelide_list ts s).2 Δ → (∀ x, x ∈ Δ → x ∈ Γ ∨ reserved x) → Forall (wf Δ) (unelide_list ts s).1.
Proof.
  induction 1 as [|t ts Ht _ IH]; intros Γ Δ s Hw Hc; cbn [unelide_list]; [constructor|].
  apply Forall_cons in Hw as [Hw1 Hw2]. apply Forall_cons in Hc as [Hc1 Hc2].
  specialize (Ht Γ Δ s Hw1 Hc1). pose proof (unelide_steps t s) as [H1 _]. destruct (unelide t s) as [t' s1]. cbn in *.
  specialize (IH Γ Δ s1 Hw2 Hc2). pose proof (unelide_list_steps ts ltac:(apply Forall_true; apply unelide_steps) s1) as [H2 _].
  destruct (unelide_list ts s1) as [ts' s2]. cbn in *. intros [Hf1 Hf2] HΔ.
  constructor; [apply Ht|apply IH]; try done; (split; [done|]); intros x Hx; apply Hf2; rewrite (given_app _ (counter s1)) by done; apply elem_of_app; by auto.
Qed.
Lemma flat_clear ts : (∀ x, x ∈ flat_map names ts → ¬ reserved x) → Forall clear ts.
Proof.
  induction ts as [|t ts IH]; intros H; constructor.
  - intros x Hx. apply H. cbn. apply elem_of_app. by left.
  - apply IH. intros x Hx. apply H. cbn. apply elem_of_app. by right.
Qed.
Lemma fits_l Γ s s1 s2 Δ : counter s ≤ counter s1 → counter s1 ≤ counter s2 → fits Γ s s2 Δ → fits Γ s s1 Δ.
Proof. intros H1 H2 [Hf1 Hf2]. split; [done|]. intros x Hx. apply Hf2. rewrite (given_app _ (counter s1)) by done. apply elem_of_app. by left. Qed.
Lemma fits_r Γ s s1 s2 Δ : counter s ≤ counter s1 → counter s1 ≤ counter s2 → fits Γ s s2 Δ → fits Γ s1 s2 Δ.
Proof. intros H1 H2 [Hf1 Hf2]. split; [done|]. intros x Hx. apply Hf2. rewrite (given_app _ (counter s1)) by done. apply elem_of_app. by right. Qed.
Lemma all_steps ts s : steps s (unelide_list ts s).2.
Proof. apply unelide_list_steps, Forall_true, unelide_steps. Qed.

Lemma unelide_wf t : wf_goal t.
Proof.
  induction t as [x ls ts IH|l t IH|t IH|bs ts r IH IHr|ts IH] using ty_ind'; intros Γ Δ s Hw Hc; rewrite unelide_eq; cbn [wf] in Hw.
  - destruct Hw as [Hl Hw]. rewrite Forall'_spec in Hw.
    assert (Hcs : Forall clear ts).
    { apply flat_clear. intros y Hy. apply Hc. cbn. apply elem_of_app. by right. }
    pose proof (unelide_lts_steps ls s) as [H1 _]. pose proof (unelide_lts_wf ls Γ Δ s Hl) as HL.
    destruct (unelide_lts ls s) as [ls' s1]. cbn in *.
    pose proof (all_steps ts s1) as [H2 _]. pose proof (unelide_list_wf ts IH Γ Δ s1 Hw Hcs) as HT.
    destruct (unelide_list ts s1) as [ts' s2]. cbn [fst snd wf] in *. intros Hf HΔ. rewrite Forall'_spec. split.
    + apply HL. by apply (fits_l _ _ _ s2).
    + apply HT; [|done]. by apply (fits_r _ s).
  - destruct Hw as [Hl Hw].
    assert (Hct : clear t). { intros y Hy. apply Hc. cbn. apply elem_of_app. by right. }
    destruct l as [l|].
    + pose proof (unelide_lt_steps l s) as [H1 _].
      pose proof (unelide_lts_wf [l] Γ Δ s (Forall_cons_2 _ _ _ Hl (Forall_nil_2 _))) as HL. cbn [unelide_lts] in HL.
      destruct (unelide_lt l s) as [l' s1]. cbn in *. specialize (IH Γ Δ s1 Hw Hct). pose proof (unelide_steps t s1) as [H2 _].
      destruct (unelide t s1) as [t' s2]. cbn [fst snd wf] in *. intros Hf HΔ. split.
      * assert (HF : Forall (lt_ok Δ) [l']) by (apply HL; by apply (fits_l _ _ _ s2)). by apply Forall_cons in HF as [? _].
      * apply IH; [|done]. by apply (fits_r _ s).
    + specialize (IH Γ Δ s Hw Hct). pose proof (unelide_steps t s) as [H2 _].
      destruct (unelide t s) as [t' s1]. pose proof (fresh_steps s1) as [H1 _]. cbn [fst snd wf fresh] in *. intros Hf HΔ. split.
      * destruct Hf as [_ Hf]. cbn. apply Hf, elem_of_given. exists (counter s1). split; [done|]. cbn in *. lia.
      * apply IH; [|done]. by apply (fits_l _ _ _ _ _ H2 H1).
  - specialize (IH Γ Δ s Hw Hc). destruct (unelide t s) as [t' s1]. done.
  - destruct Hw as ((xs & -> & Hnd & Hdis) & Hw & Hwr). rewrite Forall'_spec in Hw. rewrite bound_named in Hw, Hwr.
    rewrite unelide_binder. cbn [names] in Hc. unfold clear in Hc. cbn [names] in Hc. rewrite names_binder in Hc.
    assert (Hcs : Forall clear ts).
    { apply flat_clear. intros y Hy. apply Hc. apply elem_of_app. right. apply elem_of_app. by left. }
    assert (Hcr : clear r). { intros y Hy. apply Hc. apply elem_of_app. right. apply elem_of_app. by right. }
    pose proof (all_steps ts s) as [H2 _]. pose proof (unelide_list_wf ts IH (xs ++ Γ) (xs ++ Δ) s Hw Hcs) as HT.
    destruct (unelide_list ts s) as [ts' s2]. cbn [fst snd] in *.
    specialize (IHr (xs ++ Γ) (xs ++ Δ) s2 Hwr Hcr). pose proof (unelide_steps r s2) as [H3 _].
    destruct (unelide r s2) as [r' s3]. cbn [fst snd wf] in *. intros Hf HΔ.
    assert (Hf' : fits (xs ++ Γ) s s3 (xs ++ Δ)).
    { destruct Hf as [Hf1 Hf2]. split; intros x; rewrite !elem_of_app; [intros [?|?]; [by left|right; auto]|right; auto]. }
    assert (HΔ' : ∀ x, x ∈ xs ++ Δ → x ∈ xs ++ Γ ∨ reserved x).
    { intros x. rewrite !elem_of_app. intros [?|?]; [tauto|]. destruct (HΔ x); tauto. }
    rewrite Forall'_spec, bound_named. split_and!.
    + exists xs. split_and!; [done..|]. intros x Hx Hd. destruct (HΔ x Hd) as [?|Hr]; [by apply (Hdis x)|].
      apply (Hc x); [apply elem_of_app; by left|done].
    + apply HT; [|done]. by apply (fits_l _ _ _ s3).
    + apply IHr; [|done]. by apply (fits_r _ s).
  - rewrite Forall'_spec in Hw.
    assert (Hcs : Forall clear ts) by (apply flat_clear; intros y Hy; by apply Hc).
    pose proof (unelide_list_wf ts IH Γ Δ s Hw Hcs) as HT.
    destruct (unelide_list ts s) as [ts' s2]. cbn [fst snd wf] in *. by rewrite Forall'_spec.
Qed.

Lemma clause_binder bs t : ∃ n, c_binder (clause_of bs t) = bs ++ given 0 n.
Proof.
  unfold clause_of. pose proof (unelide_steps t (State 0 bs)) as [_ H].
  destruct (unelide t (State 0 bs)) as [t' s']. cbn in *. by exists (counter s').
Qed.
Lemma clause_wf Γ bs t : wf (bs ++ Γ) t → NoDup bs → (∀ x, x ∈ bs → x ∉ Γ) →
  (∀ x, x ∈ bs ++ Γ → ¬ reserved x) → clear t →
  let c := clause_of bs t in
  NoDup (c_binder c) ∧ (∀ x, x ∈ c_binder c → x ∉ Γ) ∧ wf (c_binder c ++ Γ) (c_ty c) ∧ complete (c_ty c) ∧ same t (c_ty c).
Proof.
  intros Hw Hnd Hdis Hres Hc. unfold clause_of.
  pose proof (unelide_steps t (State 0 bs)) as [_ Hs]. pose proof (unelide_complete t (State 0 bs)) as H1.
  pose proof (unelide_same t (State 0 bs)) as H2.
  pose proof (unelide_wf t (bs ++ Γ)) as H3. specialize (H3 ((params (unelide t (State 0 bs)).2) ++ Γ) (State 0 bs) Hw Hc).
  destruct (unelide t (State 0 bs)) as [t' s']. cbn [fst snd params counter c_binder c_ty] in *.
  assert (Hg : ∀ x, x ∈ given 0 (counter s') → reserved x).
  { intros x (n & -> & _)%elem_of_given. by exists n. }
  rewrite Hs in *. split_and!; try done.
  - apply NoDup_app. split_and!; [done| |apply NoDup_given]. intros x Hx Hgx. apply (Hres x); [apply elem_of_app; by left|auto].
  - intros x [Hx|Hx]%elem_of_app; [auto|]. intros Hy. apply (Hres x); [apply elem_of_app; by right|auto].
  - apply H3.
    + split; cbn [counter]; intros x; rewrite !elem_of_app; tauto.
    + intros x. rewrite !elem_of_app. intros [[?|?]|?]; auto.
Qed.

(** ** Filling *)
Definition ext (σ : assign) (s s' : state) (ls : list lt) : Prop :=
  ∀ k, counter s ≤ k < counter s' → σ (elided k) = ls !! (k - counter s).
Definition keeps (σ : assign) (xs : list string) : Prop := ∀ x, x ∈ xs → ¬ reserved x → σ x = None.

Lemma ext_app σ s s1 s2 l1 l2 : counter s ≤ counter s1 → counter s1 ≤ counter s2 → length l1 = counter s1 - counter s →
  ext σ s s2 (l1 ++ l2) → ext σ s s1 l1 ∧ ext σ s1 s2 l2.
Proof.
  intros H1 H2 Hl He. split; intros k Hk; rewrite He by lia.
  - rewrite lookup_app_l by lia. done.
  - rewrite lookup_app_r by lia. f_equal. lia.
Qed.

(** One direction: lifetimes to fill in come from an assignment. *)
Lemma fill_lt l l' : fills_lt l l' → (∀ x, x ∈ lt_names l → ¬ reserved x) → ∀ s, ∃ ls,
  Forall explicit ls ∧ length ls = counter (unelide_lt l s).2 - counter s ∧
  ∀ σ, keeps σ (lt_names l) → ext σ s (unelide_lt l s).2 ls → subst_lt σ (unelide_lt l s).1 = l'.
Proof.
  intros H Hc s. destruct H as [l He|l He].
  - exists []. assert (E : unelide_lt l s = (l, s)) by (by destruct l). rewrite E. cbn. split_and!; [constructor|lia|].
    intros σ Hk _. destruct l as [x| |]; cbn; try done. rewrite (Hk x); [done|left|]. apply Hc. left.
  - exists [l]. cbn. split_and!; [by repeat constructor|lia|]. intros σ _ Hext. rewrite (Hext (counter s)) by (cbn; lia). by rewrite Nat.sub_diag.
Qed.
Lemma keeps_app σ a b : keeps σ (a ++ b) → keeps σ a ∧ keeps σ b.
Proof. intros H. split; intros x Hx; apply H, elem_of_app; auto. Qed.
Lemma fill_lts ls ls' : Forall2 fills_lt ls ls' → (∀ x, x ∈ ls ≫= lt_names → ¬ reserved x) → ∀ s, ∃ fs,
  Forall explicit fs ∧ length fs = counter (unelide_lts ls s).2 - counter s ∧
  ∀ σ, keeps σ (ls ≫= lt_names) → ext σ s (unelide_lts ls s).2 fs → subst_lt σ <$> (unelide_lts ls s).1 = ls'.
Proof.
  induction 1 as [|l l' ls ls' Hl _ IH]; intros Hc s; cbn [unelide_lts].
  { exists []. cbn. split_and!; [constructor|lia|done]. }
  cbn in Hc.
  destruct (fill_lt l l' Hl) with (s := s) as (f1 & He1 & Hn1 & Hs1).
  { intros x Hx. apply Hc, elem_of_app. by left. }
  pose proof (unelide_lt_steps l s) as [H1 _]. destruct (unelide_lt l s) as [l1 s1]. cbn [fst snd] in *.
  destruct IH with (s := s1) as (f2 & He2 & Hn2 & Hs2).
  { intros x Hx. apply Hc, elem_of_app. by right. }
  pose proof (unelide_lts_steps ls s1) as [H2 _]. destruct (unelide_lts ls s1) as [ls1 s2]. cbn [fst snd] in *.
  exists (f1 ++ f2). split_and!; [by apply Forall_app|rewrite app_length; lia|].
  intros σ Hk Hext. apply keeps_app in Hk as [Hk1 Hk2].
  apply (ext_app σ s s1 s2) in Hext as [Hx1 Hx2]; [|done..]. cbn. rewrite Hs1, Hs2 by done. done.
Qed.

Definition fill_goal (t : ty) : Prop := ∀ t', fills t t' → clear t → ∀ s, ∃ fs,
  Forall explicit fs ∧ length fs = counter (unelide t s).2 - counter s ∧
  ∀ σ, keeps σ (names t) → ext σ s (unelide t s).2 fs → subst σ (unelide t s).1 = t'.
Lemma fill_list ts : Forall fill_goal ts → ∀ ts', Forall2 fills ts ts' → Forall clear ts → ∀ s, ∃ fs,
  Forall explicit fs ∧ length fs = counter (unelide_list ts s).2 - counter s ∧
  ∀ σ, keeps σ (flat_map names ts) → ext σ s (unelide_list ts s).2 fs → map (subst σ) (unelide_list ts s).1 = ts'.
Proof.
  induction 1 as [|t ts Ht _ IH]; intros ts' Hf Hc s; cbn [unelide_list].
  { apply Forall2_nil_inv_l in Hf as ->. exists []. cbn. split_and!; [constructor|lia|done]. }
  apply Forall2_cons_inv_l in Hf as (t' & ts1' & Hf1 & Hf2 & ->). apply Forall_cons in Hc as [Hc1 Hc2].
  destruct (Ht t' Hf1 Hc1 s) as (f1 & He1 & Hn1 & Hs1).
  pose proof (unelide_steps t s) as [H1 _]. destruct (unelide t s) as [t1 s1]. cbn [fst snd] in *.
  destruct (IH ts1' Hf2 Hc2 s1) as (f2 & He2 & Hn2 & Hs2).
  pose proof (all_steps ts s1) as [H2 _]. destruct (unelide_list ts s1) as [ts1 s2]. cbn [fst snd] in *.
  exists (f1 ++ f2). split_and!; [by apply Forall_app|rewrite app_length; lia|].
  intros σ Hk Hext. cbn [flat_map] in Hk. apply keeps_app in Hk as [Hk1 Hk2].
  apply (ext_app σ s s1 s2) in Hext as [Hx1 Hx2]; [|done..]. cbn. rewrite Hs1, Hs2 by done. done.
Qed.
Lemma fill_ty t : fill_goal t.
Proof.
  induction t as [x ls ts IH|l t IH|t IH|bs ts r IH IHr|ts IH] using ty_ind'; intros t' Hf Hc s; rewrite unelide_eq.
  - inversion Hf as [? ? ls' ? ts' Hl Ht| | | |]; subst.
    destruct (fill_lts ls ls' Hl) with (s := s) as (f1 & He1 & Hn1 & Hs1).
    { intros y Hy. apply Hc. cbn. apply elem_of_app. by left. }
    pose proof (unelide_lts_steps ls s) as [H1 _]. destruct (unelide_lts ls s) as [ls1 s1]. cbn [fst snd] in *.
    destruct (fill_list ts IH ts' Ht) with (s := s1) as (f2 & He2 & Hn2 & Hs2).
    { apply flat_clear. intros y Hy. apply Hc. cbn. apply elem_of_app. by right. }
    pose proof (all_steps ts s1) as [H2 _]. destruct (unelide_list ts s1) as [ts1 s2]. cbn [fst snd] in *.
    exists (f1 ++ f2). split_and!; [by apply Forall_app|rewrite app_length; lia|].
    intros σ Hk Hext. cbn [names] in Hk. apply keeps_app in Hk as [Hk1 Hk2].
    apply (ext_app σ s s1 s2) in Hext as [Hx1 Hx2]; [|done..]. cbn [subst]. rewrite Hs1, Hs2 by done. done.
  - assert (Hct : clear t). { intros y Hy. apply Hc. cbn. apply elem_of_app. by right. }
    destruct l as [l|].
    + inversion Hf as [|? l' ? t1' Hl Ht| | |]; subst.
      destruct (fill_lt l l' Hl) with (s := s) as (f1 & He1 & Hn1 & Hs1).
      { intros y Hy. apply Hc. cbn. apply elem_of_app. by left. }
      pose proof (unelide_lt_steps l s) as [H1 _]. destruct (unelide_lt l s) as [l1 s1]. cbn [fst snd] in *.
      destruct (IH t1' Ht Hct s1) as (f2 & He2 & Hn2 & Hs2).
      pose proof (unelide_steps t s1) as [H2 _]. destruct (unelide t s1) as [t1 s2]. cbn [fst snd] in *.
      exists (f1 ++ f2). split_and!; [by apply Forall_app|rewrite app_length; lia|].
      intros σ Hk Hext. cbn [names] in Hk. apply keeps_app in Hk as [Hk1 Hk2].
      apply (ext_app σ s s1 s2) in Hext as [Hx1 Hx2]; [|done..]. cbn. rewrite Hs1, Hs2 by done. done.
    + inversion Hf as [| |l' ? t1' Hl Ht| |]; subst.
      destruct (IH t1' Ht Hct s) as (f1 & He1 & Hn1 & Hs1).
      pose proof (unelide_steps t s) as [H1 _]. destruct (unelide t s) as [t1 s1]. cbn [fst snd fresh] in *.
      exists (f1 ++ [l']). split_and!; [apply Forall_app; split; [done|by repeat constructor]|rewrite app_length; cbn [length counter]; lia|].
      intros σ Hk Hext. cbn [names app] in Hk.
      apply (ext_app σ s s1) in Hext as [Hx1 Hx2]; [|done|cbn; lia|done]. cbn. rewrite Hs1 by done.
      rewrite (Hx2 (counter s1)) by (cbn; lia). by rewrite Nat.sub_diag.
  - inversion Hf as [| | |? t1' Ht|]; subst. destruct (IH t1' Ht Hc s) as (f1 & He1 & Hn1 & Hs1).
    destruct (unelide t s) as [t1 s1]. cbn [fst snd] in *. exists f1. split_and!; try done.
    intros σ Hk Hext. cbn. by rewrite Hs1.
  - inversion Hf.
  - inversion Hf as [| | | |? ts' Ht]; subst.
    destruct (fill_list ts IH ts' Ht) with (s := s) as (f2 & He2 & Hn2 & Hs2).
    { apply flat_clear. intros y Hy. by apply Hc. }
    destruct (unelide_list ts s) as [ts1 s2]. cbn [fst snd] in *. exists f2. split_and!; try done.
    intros σ Hk Hext. cbn [subst]. by rewrite Hs2.
Qed.

(** The other direction. *)
Definition flat (t : ty) : Prop := ∃ t', fills t t'.
Definition grants (σ : assign) (m n : nat) : Prop :=
  ∀ k, m ≤ k < n → ∃ l, σ (elided k) = Some l ∧ explicit l.
Lemma grants_le σ m n m' n' : m ≤ m' → n' ≤ n → grants σ m n → grants σ m' n'.
Proof. intros ?? H k ?. apply H. lia. Qed.
Lemma keep_lt σ l s : keeps σ (lt_names l) → (∀ x, x ∈ lt_names l → ¬ reserved x) →
  grants σ (counter s) (counter (unelide_lt l s).2) → fills_lt l (subst_lt σ (unelide_lt l s).1).
Proof.
  intros Hk Hc Hg. destruct l as [x| |]; cbn in *.
  - rewrite (Hk x); [by constructor|left|]. apply Hc. left.
  - by constructor.
  - destruct (Hg (counter s)) as (l & -> & He); [lia|]. cbn. by apply fills_elided.
Qed.
Lemma keep_lts σ ls : keeps σ (ls ≫= lt_names) → (∀ x, x ∈ ls ≫= lt_names → ¬ reserved x) →
  ∀ s, grants σ (counter s) (counter (unelide_lts ls s).2) → Forall2 fills_lt ls (subst_lt σ <$> (unelide_lts ls s).1).
Proof.
  induction ls as [|l ls IH]; intros Hk Hc s; cbn [unelide_lts]; [constructor|].
  cbn in Hk, Hc. apply keeps_app in Hk as [Hk1 Hk2].
  pose proof (keep_lt σ l s Hk1) as HL. pose proof (unelide_lt_steps l s) as [H1 _]. destruct (unelide_lt l s) as [l1 s1]. cbn [fst snd] in *.
  assert (Hc2 : ∀ x, x ∈ ls ≫= lt_names → ¬ reserved x) by (intros x Hx; apply Hc, elem_of_app; by right).
  specialize (IH Hk2 Hc2 s1). pose proof (unelide_lts_steps ls s1) as [H2 _].
  destruct (unelide_lts ls s1) as [ls1 s2]. cbn [fst snd] in *. intros Hg. constructor.
  - apply HL; [|by apply (grants_le σ (counter s) (counter s2))]. intros x Hx. apply Hc, elem_of_app. by left.
  - apply IH. by apply (grants_le σ (counter s) (counter s2)).
Qed.
Definition keep_goal (σ : assign) (t : ty) : Prop := flat t → keeps σ (names t) → clear t →
  ∀ s, grants σ (counter s) (counter (unelide t s).2) → fills t (subst σ (unelide t s).1).
Lemma keep_list σ ts : Forall (keep_goal σ) ts → Forall flat ts → keeps σ (flat_map names ts) → Forall clear ts →
  ∀ s, grants σ (counter s) (counter (unelide_list ts s).2) → Forall2 fills ts (map (subst σ) (unelide_list ts s).1).
Proof.
  induction 1 as [|t ts Ht _ IH]; intros Hf Hk Hc s; cbn [unelide_list]; [constructor|].
  apply Forall_cons in Hf as [Hf1 Hf2]. apply Forall_cons in Hc as [Hc1 Hc2]. cbn [flat_map] in Hk. apply keeps_app in Hk as [Hk1 Hk2].
  specialize (Ht Hf1 Hk1 Hc1 s). pose proof (unelide_steps t s) as [H1 _]. destruct (unelide t s) as [t1 s1]. cbn [fst snd] in *.
  specialize (IH Hf2 Hk2 Hc2 s1). pose proof (all_steps ts s1) as [H2 _]. destruct (unelide_list ts s1) as [ts1 s2]. cbn [fst snd] in *.
  intros Hg. constructor; [apply Ht|apply IH]; by apply (grants_le σ (counter s) (counter s2)).
Qed.
Lemma flat_list ts ts' : Forall2 fills ts ts' → Forall flat ts.
Proof. induction 1 as [|t t' ts ts' H _ IH]; constructor; [by exists t'|done]. Qed.
Lemma keep_ty σ t : keep_goal σ t.
Proof.
  induction t as [x ls ts IH|l t IH|t IH|bs ts r IH IHr|ts IH] using ty_ind'; intros [t' Hf] Hk Hc s; rewrite unelide_eq.
  - inversion Hf as [? ? ls' ? ts' Hl Ht| | | |]; subst. apply flat_list in Ht. cbn [names] in Hk. apply keeps_app in Hk as [Hk1 Hk2].
    pose proof (keep_lts σ ls Hk1) as HL. specialize (HL ltac:(intros y Hy; apply Hc; cbn; apply elem_of_app; by left) s).
    pose proof (unelide_lts_steps ls s) as [H1 _]. destruct (unelide_lts ls s) as [ls1 s1]. cbn [fst snd] in *.
    pose proof (keep_list σ ts IH Ht Hk2) as HT. specialize (HT ltac:(apply flat_clear; intros y Hy; apply Hc; cbn; apply elem_of_app; by right) s1).
    pose proof (all_steps ts s1) as [H2 _]. destruct (unelide_list ts s1) as [ts1 s2]. cbn [fst snd subst] in *.
    intros Hg. constructor; [apply HL|apply HT]; by apply (grants_le σ (counter s) (counter s2)).
  - assert (Hct : clear t). { intros y Hy. apply Hc. cbn. apply elem_of_app. by right. }
    cbn [names] in Hk. apply keeps_app in Hk as [Hk1 Hk2]. destruct l as [l|].
    + inversion Hf as [|? l' ? t1' Hl Ht| | |]; subst.
      pose proof (keep_lt σ l s Hk1) as HL. specialize (HL ltac:(intros y Hy; apply Hc; cbn; apply elem_of_app; by left)).
      pose proof (unelide_lt_steps l s) as [H1 _]. destruct (unelide_lt l s) as [l1 s1]. cbn [fst snd] in *.
      specialize (IH (ex_intro _ t1' Ht) Hk2 Hct s1). pose proof (unelide_steps t s1) as [H2 _].
      destruct (unelide t s1) as [t1 s2]. cbn [fst snd subst] in *.
      intros Hg. constructor; [apply HL|apply IH]; by apply (grants_le σ (counter s) (counter s2)).
    + inversion Hf as [| |l' ? t1' Hl Ht| |]; subst.
      specialize (IH (ex_intro _ t1' Ht) Hk2 Hct s). pose proof (unelide_steps t s) as [H2 _].
      destruct (unelide t s) as [t1 s1]. cbn [fst snd fresh counter subst] in *. intros Hg.
      destruct (Hg (counter s1)) as (l2 & Hl2 & He2); [lia|]. cbn. rewrite Hl2. cbn. constructor; [done|].
      apply IH. apply (grants_le σ (counter s) (S (counter s1))); [lia..|done].
  - inversion Hf as [| | |? t1' Ht|]; subst. specialize (IH (ex_intro _ t1' Ht) Hk Hc s).
    destruct (unelide t s) as [t1 s1]. cbn [fst snd subst] in *. intros Hg. constructor. by apply IH.
  - inversion Hf.
  - inversion Hf as [| | | |? ts' Ht]; subst. apply flat_list in Ht.
    pose proof (keep_list σ ts IH Ht Hk) as HT. specialize (HT ltac:(apply flat_clear; intros y Hy; by apply Hc) s).
    destruct (unelide_list ts s) as [ts1 s2]. cbn [fst snd subst] in *. intros Hg. constructor. by apply HT.
Qed.

Lemma clause_fills bs t t' : flat t → clear t →
  fills t t' ↔ ∃ σ, assigns (drop (length bs) (c_binder (clause_of bs t))) σ ∧ subst σ (c_ty (clause_of bs t)) = t'.
Proof.
  intros Hfl Hc. unfold clause_of.
  pose proof (unelide_steps t (State 0 bs)) as [_ Hs].
  pose proof (λ Hf, fill_ty t t' Hf Hc (State 0 bs)) as HF. pose proof (λ σ, keep_ty σ t Hfl) as HK.
  specialize (λ σ Hk, HK σ Hk Hc (State 0 bs)).
  destruct (unelide t (State 0 bs)) as [t1 s1]. cbn [fst snd c_binder c_ty counter params] in *.
  rewrite Hs, drop_app. split.
  - intros Hf. destruct (HF Hf) as (fs & He & Hn & Hsub). rewrite Nat.sub_0_r in Hn.
    set (σ := λ x : string, match list_find (λ k, elided k = x) (seq 0 (counter s1)) with Some (_, k) => fs !! k | None => None end).
    assert (Hσ : ∀ k, k < counter s1 → σ (elided k) = fs !! k).
    { intros k Hk. unfold σ. destruct (list_find _ _) as [[i k']|] eqn:E.
      - apply list_find_Some in E as (_ & E & _). apply elided_inj in E as ->. done.
      - apply list_find_None in E. rewrite Forall_forall in E. exfalso. apply (E k); [apply elem_of_seq; lia|done]. }
    assert (Hσ' : ∀ x, x ∉ given 0 (counter s1) → σ x = None).
    { intros x Hx. unfold σ. destruct (list_find _ _) as [[i k']|] eqn:E; [|done].
      apply list_find_Some in E as (E1 & <- & _). exfalso. apply Hx, elem_of_given. exists k'. split; [done|].
      apply elem_of_list_lookup_2, elem_of_seq in E1. lia. }
    exists σ. split.
    + intros x. destruct (decide (x ∈ given 0 (counter s1))) as [Hx|Hx]; [|by rewrite Hσ'].
      pose proof Hx as (k & -> & Hk)%elem_of_given. rewrite Hσ by lia.
      destruct (lookup_lt_is_Some_2 fs k) as [l Hl]; [lia|]. rewrite Hl. split; [done|].
      rewrite Forall_forall in He. apply He. by eapply elem_of_list_lookup_2.
    + apply Hsub.
      * intros x _ Hx. apply Hσ'. intros (k & -> & _)%elem_of_given. apply Hx. by exists k.
      * intros k Hk. cbn in *. rewrite Nat.sub_0_r. apply Hσ. lia.
  - intros (σ & Ha & <-). apply HK.
    + intros x _ Hx. specialize (Ha x). destruct (σ x) as [l|]; [|done]. destruct Ha as [Hin _].
      apply elem_of_given in Hin as (k & -> & _). exfalso. apply Hx. by exists k.
    + intros k Hk. specialize (Ha (elided k)). destruct (σ (elided k)) as [l|]; [exists l; naive_solver|].
      exfalso. apply Ha, elem_of_given. exists k. split; [done|lia].
Qed.
