(** Proofs about [RemapModel]. *)
From stdpp Require Import base numbers list list_numbers strings pretty.
From Verif Require Import RemapModel RemapSpec.

(** ** Induction on types *)
Section ind.
  Context (P : ty → Prop).
  Context (Hpath : ∀ x ls ts, Forall P ts → P (TPath x ls ts)).
  Context (Href : ∀ l t, P t → P (TRef l t)).
  Context (Hptr : ∀ t, P t → P (TPtr t)).
  Context (Hfn : ∀ bs ts r, Forall P ts → P r → P (TFn bs ts r)).
  Context (Hsugar : ∀ x ts r, Forall P ts → P r → P (TSugar x ts r)).
  Context (Hdyn : ∀ t b, P t → P (TDyn t b)).
  Context (Htup : ∀ ts, Forall P ts → P (TTuple ts)).
  Fixpoint ty_ind' (t : ty) : P t :=
    let go := fix go (ts : list ty) : Forall P ts :=
      match ts with [] => Forall_nil_2 P | t :: ts => Forall_cons_2 P t ts (ty_ind' t) (go ts) end in
    match t with
    | TPath x ls ts => Hpath x ls ts (go ts)
    | TRef l t => Href l t (ty_ind' t)
    | TPtr t => Hptr t (ty_ind' t)
    | TFn bs ts r => Hfn bs ts r (go ts) (ty_ind' r)
    | TSugar x ts r => Hsugar x ts r (go ts) (ty_ind' r)
    | TDyn t b => Hdyn t b (ty_ind' t)
    | TTuple ts => Htup ts (go ts)
    end.
End ind.

Lemma Forall'_spec {A} (P : A → Prop) l : Forall' P l ↔ Forall P l.
Proof. induction l as [|x l IH]; cbn; [split; [constructor|done]|]. by rewrite Forall_cons, IH. Qed.
Lemma Forall_iff' {A} (P Q R : A → Prop) l : Forall (λ x, R x → (P x ↔ Q x)) l → Forall R l → Forall P l ↔ Forall Q l.
Proof. rewrite !Forall_forall. intros H HR. split; intros HP x Hx; apply (H x Hx (HR x Hx)), HP; done. Qed.

(** ** Well-formedness *)
Definition usable (Γ : list string) (new : string) : Prop := new = "static" ∨ new ∈ Γ.
Lemma lt_of_ok el Γ new : usable Γ new → lt_ok el Γ (lt_of new).
Proof. unfold lt_of. intros [-> | H]; [done|]. by case_bool_decide. Qed.
Lemma remap_lt_ok el Γ new l : usable Γ new → lt_ok el Γ (remap_lt new l).
Proof. intros H. destruct l; [by apply lt_of_ok|done|by apply lt_of_ok]. Qed.
Lemma remap_binds Γ new bs : usable Γ new → binds Γ (remap_lt new <$> bs) ↔ bs = [].
Proof.
  intros H. split.
  - intros (xs & E & _ & Hf). destruct bs as [|b bs]; [done|]. destruct xs as [|x xs]; [done|].
    rewrite !fmap_cons in E. injection E as E _.
    assert (x ∉ Γ) as Hx by (apply Hf; left).
    assert (El : lt_of new ≠ LNamed x).
    { unfold lt_of. case_bool_decide; [done|]. intros [= ->]. by destruct H. }
    destruct b; by cbn in E.
  - intros ->. exists []. split_and!; [done|constructor|]. intros x Hx. by apply elem_of_nil in Hx.
Qed.
Lemma remap_wf ar new t : ∀ el Γ, usable Γ new → wf ar el Γ (remap new t) ↔ portable ar el Γ t.
Proof.
  induction t as [x ls ts IH|l t IH|t IH|bs ts r IH IHr|x ts r IH IHr|t b IH|ts IH] using ty_ind'; intros el Γ HU;
    cbn [wf remap portable]; rewrite ?Forall'_spec.
  - rewrite fmap_length, !Forall_fmap.
    assert (E : Forall (wf ar el Γ ∘ remap new) ts ↔ Forall (portable ar el Γ) ts).
    { rewrite !Forall_forall in *. split; intros Hx t Ht; apply (IH t Ht el Γ HU), Hx; done. }
    rewrite E. assert (Hl : Forall (lt_ok el Γ ∘ remap_lt new) ls) by (apply Forall_true; intros; by apply remap_lt_ok).
    destruct ls; naive_solver.
  - rewrite IH by done. assert (lt_ok el Γ (match l with Some l => remap_lt new l | None => lt_of new end)).
    { destruct l; [by apply remap_lt_ok|by apply lt_of_ok]. }
    naive_solver.
  - by apply IH.
  - rewrite remap_binds by done. split; (intros (-> & Hts & Hr); split; [done|]).
    + cbn [fmap list_fmap bound omap list_omap app] in Hts, Hr. rewrite IHr in Hr by done. split; [|done].
      rewrite Forall_fmap in Hts. rewrite !Forall_forall in *. intros t Ht. apply (IH t Ht true Γ HU), Hts. done.
    + cbn [fmap list_fmap bound omap list_omap app]. rewrite IHr by done. split; [|done].
      rewrite Forall_fmap. rewrite !Forall_forall in *. intros t Ht. apply (IH t Ht true Γ HU), Hts. done.
  - done.
  - rewrite IH by done. destruct b as [l|]; cbn; [|naive_solver]. pose proof (remap_lt_ok el Γ new l HU). naive_solver.
  - rewrite Forall_fmap. rewrite !Forall_forall in *. split; intros Hx t Ht; apply (IH t Ht el Γ HU), Hx; done.
Qed.

(** ** What is ['static] *)
Lemma lt_ok_static el Γ l : lt_ok el Γ l → lt_static Γ true l.
Proof. by destruct l. Qed.
Lemma wf_owned ar t : ∀ el Γ, wf ar el Γ t → owned ar Γ true t.
Proof.
  induction t as [x ls ts IH|l t IH|t IH|bs ts r IH IHr|x ts r IH IHr|t b IH|ts IH] using ty_ind'; intros el Γ;
    cbn [wf owned]; rewrite ?Forall'_spec.
  - intros (_ & Hl & Ht). split_and!; [by right| |].
    + eapply Forall_impl; [exact Hl|]. apply lt_ok_static.
    + rewrite !Forall_forall in *. intros t Ht'. eapply IH; eauto.
  - intros [H1 H2]. split; [by eapply lt_ok_static|by eapply IH].
  - by apply IH.
  - intros (_ & Ht & Hr). split; [|by eapply IHr]. rewrite !Forall_forall in *. intros t Ht'. eapply IH; eauto.
  - intros (Ht & Hr). split; [|by eapply IHr]. rewrite !Forall_forall in *. intros t Ht'. eapply IH; eauto.
  - intros [H1 H2]. split; [by eapply IH|]. destruct b; [by eapply lt_ok_static|done].
  - intros Ht. rewrite !Forall_forall in *. intros t Ht'. eapply IH; eauto.
Qed.
Lemma remap_lt_static new hr l : new ≠ "static" → lt_static [] hr (remap_lt new l) ↔ l = LStatic.
Proof.
  intros Hn. assert (E : lt_of new = LNamed new) by (unfold lt_of; by case_bool_decide).
  destruct l; cbn [remap_lt]; rewrite ?E; cbn; (split; [|done]); try (intros H; by apply elem_of_nil in H). done.
Qed.
Lemma remap_owned ar new t : new ≠ "static" → ∀ hr, portable ar hr [] t → owned ar [] hr (remap new t) ↔ all_static t.
Proof.
  intros Hn. assert (E : lt_of new = LNamed new) by (unfold lt_of; by case_bool_decide).
  induction t as [x ls ts IH|l t IH|t IH|bs ts r IH IHr|x ts r IH IHr|t b IH|ts IH] using ty_ind'; intros hr;
    cbn [owned remap portable all_static]; rewrite ?Forall'_spec.
  - intros [Hl Hp]. rewrite !Forall_fmap.
    assert (E1 : Forall (owned ar [] hr ∘ remap new) ts ↔ Forall all_static ts).
    { apply (Forall_iff' _ _ (portable ar hr [])); [|done]. eapply Forall_impl; [exact IH|]. intros t Ht. apply Ht. }
    assert (E2 : Forall (lt_static [] hr ∘ remap_lt new) ls ↔ Forall (eq LStatic) ls).
    { rewrite !Forall_forall. split; intros H l Hx; [symmetry; by apply (remap_lt_static new hr), H|].
      cbn. apply remap_lt_static; [done|]. symmetry. by apply H. }
    rewrite E1, E2. split; [naive_solver|]. intros [H1 H2]. split; [|done].
    intros Hnil. apply fmap_nil_inv in Hnil as ->. destruct Hl as [Hl|[_ Hl]]; [left|right]; done.
  - intros Hp. rewrite IH by done. cbn [default]. destruct l as [l|].
    + cbn. rewrite remap_lt_static by done. naive_solver.
    + cbn. rewrite E. cbn. split; [intros [H _]; by apply elem_of_nil in H|naive_solver].
  - by apply IH.
  - intros (-> & Ht & Hr). cbn [fmap list_fmap bound omap list_omap app]. rewrite Forall_fmap.
    rewrite IHr by done.
    assert (E1 : Forall (owned ar [] true ∘ remap new) ts ↔ Forall all_static ts).
    { apply (Forall_iff' _ _ (portable ar true [])); [|done]. eapply Forall_impl; [exact IH|]. intros t Ht'. apply Ht'. }
    by rewrite E1.
  - intros [Ht Hr]. split; [done|]. intros _. split; [|by eapply wf_owned]. eapply Forall_impl; [exact Ht|].
    intros t Ht'. by eapply wf_owned.
  - intros Hp. rewrite IH by done. destruct b as [l|]; cbn; [|naive_solver]. rewrite remap_lt_static by done. naive_solver.
  - intros Hp. rewrite Forall_fmap.
    apply (Forall_iff' _ _ (portable ar hr [])); [|done]. eapply Forall_impl; [exact IH|]. intros t Ht. apply Ht.
Qed.
Lemma static_owned ar t : ∀ hr, portable ar hr [] t → all_static t → owned ar [] hr t.
Proof.
  induction t as [x ls ts IH|l t IH|t IH|bs ts r IH IHr|x ts r IH IHr|t b IH|ts IH] using ty_ind'; intros hr;
    cbn [owned portable all_static]; rewrite ?Forall'_spec.
  - intros [Hl Hp] [Hs Ht]. split_and!.
    + intros ->. destruct Hl as [Hl|[_ Hl]]; [left|right]; done.
    + eapply Forall_impl; [exact Hs|]. by intros ? <-.
    + rewrite !Forall_forall in *. intros t Hx. apply IH; auto.
  - intros Hp [-> Ht]. split; [done|]. by apply IH.
  - by apply IH.
  - intros (-> & Ht & Hr) [Hs Hsr]. split; [|by apply IHr]. rewrite !Forall_forall in *. intros t Hx. apply IH; auto.
  - intros [Ht Hr] _. split; [|by eapply wf_owned]. eapply Forall_impl; [exact Ht|]. intros t Ht'. by eapply wf_owned.
  - intros Hp [Hs Hb]. split; [by apply IH|]. by destruct Hb as [-> | ->].
  - intros Hp Hs. rewrite !Forall_forall in *. intros t Hx. apply IH; auto.
Qed.

(** ** The same type *)
Lemma remap_same new t : same t (remap new t).
Proof.
  induction t as [x ls ts IH|l t IH|t IH|bs ts r IH IHr|x ts r IH IHr|t b IH|ts IH] using ty_ind'; cbn [remap]; constructor;
    rewrite ?fmap_length; try done; try (by apply Forall2_fmap_r, Forall_Forall2_diag). by destruct b.
Qed.
Definition moved (new : string) (o o' : option lt) : Prop :=
  (o = Some LStatic → o' = Some LStatic) ∧ (o ≠ Some LStatic → o' = Some (lt_of new)).
Lemma remap_moved new l : moved new (Some l) (Some (remap_lt new l)).
Proof. split; [by intros [= ->]|]. intros H. by destruct l. Qed.
Lemma remap_moveds new ls : Forall2 (moved new) (Some <$> ls) (Some <$> (remap_lt new <$> ls)).
Proof. induction ls as [|l ls IH]; cbn; constructor; [apply remap_moved|done]. Qed.
Lemma flat_map_moved new ts : Forall (λ t, Forall2 (moved new) (lts t) (lts (remap new t))) ts →
  Forall2 (moved new) (flat_map lts ts) (flat_map lts (map (remap new) ts)).
Proof. induction 1 as [|t ts Ht Hts IH]; cbn; [constructor|]. by apply Forall2_app. Qed.
Lemma remap_lts new t : Forall2 (moved new) (lts t) (lts (remap new t)).
Proof.
  induction t as [x ls ts IH|l t IH|t IH|bs ts r IH IHr|x ts r IH IHr|t b IH|ts IH] using ty_ind'; cbn [remap lts].
  - apply Forall2_app; [apply remap_moveds|by apply flat_map_moved].
  - constructor; [|done]. destruct l; [apply remap_moved|done].
  - done.
  - apply Forall2_app; [apply remap_moveds|]. apply Forall2_app; [by apply flat_map_moved|done].
  - constructor.
  - apply Forall2_app; [done|]. destruct b as [l|]; cbn; [|constructor]. constructor; [apply remap_moved|constructor].
  - by apply flat_map_moved.
Qed.

(** ** Names *)
Lemma owned_lt_inj i j : owned_lt i = owned_lt j → i = j.
Proof. unfold owned_lt. intros H. apply (inj (String.append _)) in H. by apply (inj pretty) in H. Qed.
Lemma owned_lt_static i : owned_lt i ≠ "static".
Proof. unfold owned_lt. intros H. discriminate H. Qed.
Lemma glue_lts_nodup ts : NoDup (g_lts (async_glue ts)).
Proof. cbn. apply NoDup_fmap_2_strong; [|apply NoDup_seq]. intros i j _ _. apply owned_lt_inj. Qed.
Lemma glue_lts_static ts : "static" ∉ g_lts (async_glue ts).
Proof. cbn. intros H. apply elem_of_list_fmap in H as (i & H & _). by apply (owned_lt_static i). Qed.
Lemma glue_arg ts i u : g_args (async_glue ts) !! i = Some u ↔ ∃ t, ts !! i = Some t ∧ u = remap (owned_lt i) t.
Proof. cbn. rewrite list_lookup_imap. destruct (ts !! i) as [t|]; cbn; naive_solver. Qed.
Lemma glue_usable ts i t : ts !! i = Some t → usable (g_lts (async_glue ts)) (owned_lt i).
Proof.
  intros H. right. cbn. apply elem_of_list_fmap. exists i. split; [done|]. apply elem_of_seq.
  apply lookup_lt_Some in H. lia.
Qed.
Lemma glue_accepted ar ts : accepted ar (async_glue ts) ↔
  Forall (portable ar false []) ts ∧ Forall (portable ar true (g_lts (async_glue ts))) ts.
Proof.
  unfold accepted.
  assert (E1 : Forall (wf ar false []) (g_aliases (async_glue ts)) ↔ Forall (portable ar false []) ts).
  { cbn. unfold aliases. rewrite Forall_fmap, !Forall_forall.
    split; intros H t Ht; [apply (remap_wf ar "static" t false []); [by left|]; by apply H|].
    cbn. apply remap_wf; [by left|]. by apply H. }
  assert (E2 : Forall (wf ar true (g_lts (async_glue ts))) (g_args (async_glue ts)) ↔
    Forall (portable ar true (g_lts (async_glue ts))) ts).
  { rewrite !Forall_lookup. split; intros H i t Hi.
    - apply (remap_wf ar (owned_lt i) t); [by eapply glue_usable|]. apply (H i). apply glue_arg. eauto.
    - apply glue_arg in Hi as (t' & Ht' & ->). apply remap_wf; [by eapply glue_usable|]. by apply (H i). }
  rewrite E1, E2. pose proof (glue_lts_nodup ts). pose proof (glue_lts_static ts). tauto.
Qed.
Lemma glue_capture ar ts i t : ts !! i = Some t → portable ar false [] t → may_capture ar (async_glue ts) i ↔ all_static t.
Proof.
  intros Hi Hp. unfold may_capture. rewrite <-(remap_owned ar (owned_lt i) t (owned_lt_static i) false Hp). split.
  - intros (u & Hu & Ho). apply glue_arg in Hu as (t' & Ht' & ->). congruence.
  - intros Ho. eexists. split; [apply glue_arg; eauto|done].
Qed.
Lemma plain_portable ar t : plain ar t → ∀ el Γ, portable ar el Γ t.
Proof.
  induction t as [x ls ts IH|l t IH|t IH|bs ts r IH IHr|x ts r IH IHr|t b IH|ts IH] using ty_ind';
    cbn [plain portable]; intros H el Γ; rewrite ?Forall'_spec in *; try done; try (by apply IH).
  - destruct H as [Hl H]. split; [by left|]. rewrite !Forall_forall in *. intros t Ht. apply IH; auto.
  - destruct H as (-> & H & Hr). split; [done|]. split; [|by apply IHr]. rewrite !Forall_forall in *. intros t Ht. apply IH; auto.
  - rewrite !Forall_forall in *. intros t Ht. apply IH; auto.
Qed.
