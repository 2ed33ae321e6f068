(** The invariant of calls of JavaScript callbacks. *)

From Coq Require Import ZArith Bool List Lia Sorted.
From stdpp Require Import base numbers list.
From Verif Require Import JsNumModel JsCallModel JsCallSpec.
Local Open Scope Z_scope.

Lemma lawful_nil : lawful [].
Proof. intros [|p past] o f H; done. Qed.
Lemma lawful_snoc l o : lawful l → allowed l o → lawful (l ++ [o]).
Proof.
  intros Hl Ho past p future H. destruct future as [|f future] using rev_ind.
  - apply app_inj_tail in H as [-> ->]. done.
  - replace (past ++ p :: future ++ [f])%list with ((past ++ p :: future) ++ [f])%list in H by by rewrite <-app_assoc.
    apply app_inj_tail in H as [-> _]. by eapply Hl.
Qed.

Definition of_call (i : nat) (o : obs) : Prop :=
  match o with OCall j _ _ | ORun j _ _ | OSend j _ | ORet j _ => j = i | OAbort => False end.

Record okc (cl : list closure) (L : list obs) (i : nat) (q : call) : Prop := {
  k_clo : ∃ k, cl !! clo q = Some k ∧
    match st q with
    | Waiting => detached k = false ∧ thr q ≠ owner k
    | Detach => detached k = true
    | Returned _ => detached k = false
    end;
  k_call : OCall i (clo q) (arg q) ∈ L;
  k_run : match at_ q with Started _ => ORun i (clo q) (arg q) ∈ L | _ => ∀ c a, ORun i c a ∉ L end;
  k_send :
    match st q, slot q with
    | (Detach | Waiting), None => ∀ r, OSend i r ∉ L
    | Waiting, Some r => OSend i r ∈ L ∧ ∃ h, at_ q = Started h
    | Returned r, None => OSend i r ∈ L ∧ ∃ h, at_ q = Started h
    | _, _ => False
    end;
  k_ret : match st q with Returned (Some v) => ORet i v ∈ L | Returned None => OAbort ∈ L | _ => ∀ v, ORet i v ∉ L end }.

Lemma okc_app cl L L' i q : okc cl L i q → Forall (λ o, ¬ of_call i o) L' → okc cl (L ++ L') i q.
Proof.
  intros [Hc Hl Hr Hs Ht] HL. rewrite Forall_forall in HL.
  assert (Hn : ∀ o, of_call i o → o ∉ L → o ∉ (L ++ L')%list).
  { intros o Ho Hno. rewrite elem_of_app. intros [?|Hin]; [done|]. by apply (HL o). }
  assert (Hi : ∀ o, o ∈ L → o ∈ (L ++ L')%list) by (intros o Ho; apply elem_of_app; by left).
  split; [done|by apply Hi| | |].
  - destruct (at_ q); try (by apply Hi); intros c a; by apply Hn.
  - destruct (st q), (slot q); try done; try (by intros r; apply Hn); (destruct Hs; split; [by apply Hi|done]).
  - destruct (st q) as [|[v|]|]; try (by apply Hi); intros v; by apply Hn.
Qed.

Record inv (cl : list closure) (s : state) : Prop := {
  i_calls : ∀ i q, calls s !! i = Some q → okc cl (log s) i q;
  i_old : ∀ o i, o ∈ log s → of_call i o → (i < List.length (calls s))%nat;
  i_queue : ∀ i, i ∈ queue s ↔ ∃ q, calls s !! i = Some q ∧ at_ q = Queued;
  i_sort : StronglySorted lt (queue s);
  i_law : lawful (log s);
  i_abort : OAbort ∈ log s ↔ aborted s = true;
  i_bound : ∀ c k, cl !! c = Some k → detached k = true → (List.length (queue_of s c) ≤ Z.to_nat 1024)%nat }.

Lemma inv_init cl : inv cl init.
Proof.
  split; cbn.
  - intros i q H. done.
  - intros o i H. by apply elem_of_nil in H.
  - intros i. split; [by intros ?%elem_of_nil|]. by intros (q & ? & _).
  - constructor.
  - apply lawful_nil.
  - split; [by intros ?%elem_of_nil|done].
  - intros c k _ _. lia.
Qed.

(** Aborting. *)
Lemma inv_abort cl s : inv cl s → aborted s = false → inv cl (abort s).
Proof.
  intros [Hc Ho Hq Hs Hl Ha Hb] Ea. split; cbn; try done.
  - intros i q H. apply okc_app; [by apply Hc|]. repeat constructor. by intros [].
  - intros o i [H|H%elem_of_list_singleton]%elem_of_app Hi; [by eapply Ho|]. by subst o.
  - apply lawful_snoc; [done|]. cbn. rewrite Ha, Ea. done.
  - split; [done|]. intros _. apply elem_of_app. right. constructor.
Qed.

(** A new call. *)
Local Instance enqueued_dec : EqDecision enqueued.
Proof. solve_decision. Defined.
Lemma filter_ext_in' {A} (f g : A → bool) l : (∀ x, x ∈ l → f x = g x) → List.filter f l = List.filter g l.
Proof.
  induction l as [|x l IH]; intros H; [done|]. cbn [List.filter]. rewrite (H x) by constructor.
  rewrite IH; [done|]. intros y Hy. apply H. by constructor.
Qed.
Lemma queue_enqueue cl s t c a o w c' : inv cl s →
  queue_of (enqueue s t c a o w) c' = (queue_of s c' ++ if decide (o = Taken ∧ c = c') then [List.length (calls s)] else [])%list.
Proof.
  intros Hi. unfold queue_of, enqueue. cbn [calls queue].
  assert (E : List.filter (λ i, match (calls s ++ [Call c t a match o with Taken => Queued | Closing leaked => Lost leaked end None w])%list !! i with Some k => (clo k =? c')%nat | None => false end) (queue s)
            = List.filter (λ i, match calls s !! i with Some k => (clo k =? c')%nat | None => false end) (queue s)).
  { apply filter_ext_in'. intros i Hin. apply (i_queue _ _ Hi) in Hin as (q & E & _). by rewrite (lookup_app_l_Some _ _ _ _ E), E. }
  destruct o as [|l]; [|rewrite decide_False by (by intros [? _]); by rewrite app_nil_r].
  rewrite List.filter_app, E. f_equal. cbn [List.filter]. rewrite lookup_app_r by lia.
  replace (List.length (calls s) - List.length (calls s))%nat with O by lia. cbn [lookup list_lookup clo].
  destruct (Nat.eqb_spec c c') as [->|Hn]; [by rewrite decide_True|by rewrite decide_False by (by intros [_ ?])].
Qed.
Lemma sorted_snoc (l : list nat) n : StronglySorted lt l → (∀ i, i ∈ l → i < n)%nat → StronglySorted lt (l ++ [n]).
Proof.
  induction l as [|i l IH]; intros Hs Hn; [repeat constructor|]. apply StronglySorted_inv in Hs as [Hs Hi].
  cbn [app]. constructor; [apply IH; [done|]; intros j Hj; apply Hn; by constructor|].
  apply Forall_app. split; [done|]. repeat constructor. apply Hn. constructor.
Qed.
Lemma sorted_filter (f : nat → bool) l : StronglySorted lt l → StronglySorted lt (List.filter f l).
Proof.
  induction l as [|i l IH]; intros Hs; [constructor|]. apply StronglySorted_inv in Hs as [Hs Hi]. cbn [List.filter].
  destruct (f i); [|by apply IH]. constructor; [by apply IH|]. rewrite Forall_forall in *. intros j Hj. apply Hi.
  apply elem_of_list_In, filter_In in Hj as [Hj _]. by apply elem_of_list_In.
Qed.
Lemma inv_enqueue cl s t c a o w k : inv cl s → cl !! c = Some k →
  match w with Waiting => detached k = false ∧ t ≠ owner k | Detach => detached k = true | Returned _ => False end →
  (detached k = true → o = Taken → full s c k = false) →
  inv cl (enqueue s t c a o w).
Proof.
  intros Hi Hk Hw Hf. pose proof Hi as [Hc Ho Hq Hs Hl Ha Hb]. set (n := List.length (calls s)).
  assert (Hnew : ∀ ob, of_call n ob → ob ∉ log s) by (intros ob Hn Hin; specialize (Ho ob n Hin Hn); unfold n in Ho; lia).
  assert (Hnew' : ∀ ob, of_call n ob → ob ≠ OCall n c a → ob ∉ (log s ++ [OCall n c a])%list).
  { intros ob H1 H2 [H|H%elem_of_list_singleton]%elem_of_app; [by apply (Hnew ob)|done]. }
  split; cbn [calls queue log aborted enqueue]; fold n.
  - intros i q H. apply lookup_app_Some in H as [H|[Hge H]].
    + apply okc_app; [by apply Hc|]. repeat constructor. intros E. cbn in E. apply lookup_lt_Some in H. unfold n in E. lia.
    + apply list_lookup_singleton_Some in H as [Hz <-]. assert (i = n) as -> by (unfold n in *; lia).
      split; cbn [clo arg at_ slot st thr].
      * exists k. split; [done|]. by destruct w.
      * apply elem_of_app. right. constructor.
      * destruct o; intros; by apply Hnew'.
      * destruct w; try done; intros; by apply Hnew'.
      * destruct w; try done; intros; by apply Hnew'.
  - intros ob i [H|H%elem_of_list_singleton]%elem_of_app Hob; rewrite app_length; cbn [List.length].
    + specialize (Ho ob i H Hob). lia.
    + subst ob. cbn in Hob. unfold n in Hob. lia.
  - intros i. destruct o as [|l].
    + rewrite elem_of_app, elem_of_list_singleton, Hq. split.
      * intros [(q & E & Eq)| ->]; [exists q; split; [by apply lookup_app_l_Some|done]|].
        eexists. split; [apply lookup_app_Some; right; split; [unfold n; lia|unfold n; rewrite Nat.sub_diag; done]|done].
      * intros (q & E & Eq). apply lookup_app_Some in E as [E|[Hge E]]; [left; by exists q|]. right.
        apply list_lookup_singleton_Some in E as [Hz _]. unfold n. lia.
    + rewrite Hq. split.
      * intros (q & E & Eq). exists q. split; [by apply lookup_app_l_Some|done].
      * intros (q & E & Eq). apply lookup_app_Some in E as [E|[Hge E]]; [by exists q|].
        apply list_lookup_singleton_Some in E as [_ <-]. done.
  - destruct o; [|done]. apply sorted_snoc; [done|]. intros i Hin. apply Hq in Hin as (q & E & _). by apply lookup_lt_Some in E.
  - apply lawful_snoc; [done|]. cbn. intros. by apply Hnew.
  - rewrite elem_of_app, Ha, elem_of_list_singleton. split; [by intros [?|?]|by left].
  - intros c' k' Hk' Hd. rewrite (queue_enqueue cl) by done. destruct (decide _) as [[-> <-]|_].
    + rewrite Hk in Hk'. injection Hk' as <-. specialize (Hf Hd eq_refl). unfold full, queue_size_bound in Hf. rewrite Hd in Hf.
      apply Nat.leb_gt in Hf. rewrite app_length. cbn [List.length]. lia.
    + rewrite app_nil_r. by eapply Hb.
Qed.

(** Changing one call. *)
Lemma queue_insert (s : state) i q q' c (L : list obs) Q ab cf : calls s !! i = Some q → clo q' = clo q →
  queue_of (State cf (<[i := q']> (calls s)) Q ab L) c = queue_of (State cf (calls s) Q ab L) c.
Proof.
  intros E Ec. unfold queue_of. cbn [calls queue]. apply filter_ext_in'. intros j _.
  destruct (decide (i = j)) as [<-|Hn].
  - rewrite list_lookup_insert by by eapply lookup_lt_Some. by rewrite E, Ec.
  - by rewrite list_lookup_insert_ne.
Qed.
(** A change of one call, and what is noted about it: all but the invariant of
    that call follows. *)
Lemma inv_change cl s i q q' L' : inv cl s → calls s !! i = Some q → clo q' = clo q →
  (at_ q' = Queued ↔ at_ q = Queued) →
  Forall (of_call i) L' → lawful (log s ++ L') →
  okc cl (log s ++ L') i q' →
  inv cl (State (cfg s) (<[i := q']> (calls s)) (queue s) (aborted s) (log s ++ L')).
Proof.
  intros [Hc Ho Hq Hs Hl Ha Hb] E Ec Eat HL Hlaw Hok. rewrite Forall_forall in HL. split; cbn [calls queue log aborted].
  - intros j p H. destruct (decide (i = j)) as [<-|Hn].
    + rewrite list_lookup_insert in H by by eapply lookup_lt_Some. by injection H as <-.
    + rewrite list_lookup_insert_ne in H by done. apply okc_app; [by apply Hc|]. apply Forall_forall. intros o Hin Ho'.
      specialize (HL o Hin). destruct o; cbn in *; try done; congruence.
  - intros o j Hin Hj. rewrite insert_length. apply elem_of_app in Hin as [Hin|Hin]; [by eapply Ho|].
    specialize (HL o Hin). assert (i = j) as <- by (destruct o; cbn in *; try done; congruence). by eapply lookup_lt_Some.
  - intros j. rewrite Hq. destruct (decide (i = j)) as [<-|Hn].
    + rewrite list_lookup_insert by by eapply lookup_lt_Some. split.
      * intros (p & E' & Ep). rewrite E in E'. injection E' as <-. exists q'. split; [done|]. by apply Eat.
      * intros (p & [= <-] & Ep). exists q. split; [done|]. by apply Eat.
    + by rewrite list_lookup_insert_ne.
  - done.
  - done.
  - rewrite elem_of_app, Ha. split; [|by left]. intros [?|Hin]; [done|]. by specialize (HL _ Hin).
  - intros c k Hk Hd. rewrite (queue_insert s i q) by done. by eapply Hb.
Qed.
Lemma queue_of_in cl s c i : inv cl s → i ∈ queue_of s c ↔ ∃ q, calls s !! i = Some q ∧ at_ q = Queued ∧ clo q = c.
Proof.
  intros Hi. unfold queue_of. rewrite elem_of_list_In, filter_In, <-elem_of_list_In, (i_queue _ _ Hi). split.
  - intros [(q & E & Eq) H]. rewrite E in H. apply Nat.eqb_eq in H. by exists q.
  - intros (q & E & Eq & <-). split; [by exists q|]. rewrite E. apply Nat.eqb_refl.
Qed.

Lemma inv_run cl s c s' : inv cl s → run cl s c = Some s' → inv cl s' ∧
  ∃ i q, calls s !! i = Some q ∧ at_ q = Queued ∧ clo q = c ∧ log s' = (log s ++ [ORun i c (arg q)])%list ∧
    ∀ j p, calls s !! j = Some p → clo p = c → at_ p = Queued → (i ≤ j)%nat.
Proof.
  intros Hi H. unfold run in H. destruct (cl !! c) as [k|] eqn:Ek; [|done]. destruct (queue_of s c) as [|i rest] eqn:Eq; [done|].
  destruct (blocked s (owner k)); [done|].
  assert (Hin : i ∈ queue_of s c) by (rewrite Eq; constructor). apply (queue_of_in cl s c i Hi) in Hin as (q & E & Eat & Ec).
  rewrite E in H. injection H as <-. split.
  - pose proof Hi as [Hc Ho Hq Hs Hl Ha Hb]. pose proof (Hc i q E) as [Kc Kl Kr Ks Kt]. rewrite Eat in Kr.
    assert (Hlaw : lawful (log s ++ [ORun i c (arg q)])).
    { apply lawful_snoc; [done|]. cbn. split; [by rewrite <-Ec|done]. }
    split; cbn [calls queue log aborted note].
    + intros j p H. destruct (decide (i = j)) as [<-|Hn].
      * rewrite list_lookup_insert in H by by eapply lookup_lt_Some. injection H as <-.
        assert (Hsend : match st q, slot q with Detach, None | Waiting, None => ∀ r, OSend i r ∉ log s | _, _ => False end).
        { destruct (st q), (slot q); try done; rewrite Eat in Ks; by destruct Ks as [_ [? ?]]. }
        assert (Hn : ∀ o, o ≠ ORun i c (arg q) → o ∉ log s → o ∉ (log s ++ [ORun i c (arg q)])%list).
        { intros o H1 H2 [?|H%elem_of_list_singleton]%elem_of_app; done. }
        split; cbn [clo thr arg at_ slot st].
        -- done.
        -- apply elem_of_app. by left.
        -- rewrite Ec. apply elem_of_app. right. constructor.
        -- destruct (st q), (slot q); try done; intros r; by apply Hn.
        -- destruct (st q), (slot q); try done; intros r; by apply Hn.
      * rewrite list_lookup_insert_ne in H by done. apply okc_app; [by apply Hc|]. repeat constructor. cbn. congruence.
    + intros o j [Hin|Hin%elem_of_list_singleton]%elem_of_app Hj; rewrite insert_length; [by eapply Ho|].
      subst o. cbn in Hj. subst j. by eapply lookup_lt_Some.
    + intros j. rewrite elem_of_list_In, filter_In, <-elem_of_list_In, Hq, negb_true_iff, Nat.eqb_neq.
      destruct (decide (i = j)) as [<-|Hn].
      * rewrite list_lookup_insert by by eapply lookup_lt_Some. split; [by intros [_ ?]|by intros (p & [= <-] & ?)].
      * rewrite list_lookup_insert_ne by done. split; [by intros [? _]|]. intros ?. by split; [|congruence].
    + by apply sorted_filter.
    + done.
    + rewrite elem_of_app, Ha, elem_of_list_singleton. split; [by intros [?|?]|by left].
    + intros c' k' Hk' Hd. specialize (Hb c' k' Hk' Hd). etrans; [|exact Hb]. unfold queue_of. cbn [calls queue note].
      set (f := λ j, match calls s !! j with Some k => (clo k =? c')%nat | None => false end).
      set (g := λ j, match <[i:=Call (clo q) (thr q) (arg q) (Started true) (slot q) (st q)]> (calls s) !! j with Some k => (clo k =? c')%nat | None => false end).
      assert (Hfg : ∀ j, j ≠ i → g j = f j) by (intros j Hj; unfold g, f; by rewrite list_lookup_insert_ne).
      clearbody f g. generalize (queue s). intros Q. clear -Hfg. induction Q as [|j Q IH]; [done|]. cbn [List.filter].
      destruct (Nat.eqb_spec j i) as [->|Hn]; cbn [negb]; [destruct (f i); cbn [List.length]; lia|].
      cbn [List.filter]. rewrite Hfg by done. destruct (f j); cbn [List.length]; lia.
  - exists i, q. split_and!; [done..|]. intros j p Ej Ec' Ep.
    assert (Hj : j ∈ queue_of s c) by (apply (queue_of_in cl s c j Hi); by exists p).
    rewrite Eq in Hj. apply elem_of_cons in Hj as [->|Hj]; [done|].
    pose proof (sorted_filter (λ i, match calls s !! i with Some k => (clo k =? c)%nat | None => false end) _ (i_sort _ _ Hi)) as Hsort.
    fold (queue_of s c) in Hsort. rewrite Eq in Hsort. apply StronglySorted_inv in Hsort as [_ Hsort].
    rewrite Forall_forall in Hsort. specialize (Hsort j Hj). lia.
Qed.
Lemma inv_send cl s i r s' : inv cl s → aborted s = false → ret_sender cl s i r = Some s' → inv cl s'.
Proof.
  intros Hi Ha H. unfold ret_sender in H. destruct (calls s !! i) as [q|] eqn:E; [|done].
  destruct (at_ q) as [|[|]|] eqn:Eat; try done. destruct (cl !! clo q) as [k|]; [|done]. destruct (blocked s (owner k)); [done|].
  destruct (st q) eqn:Est.
  - destruct (slot q) eqn:Esl; injection H as <-; [by apply inv_abort|].
    pose proof (i_calls _ _ Hi i q E) as [Kc Kl Kr Ks Kt]. rewrite Eat in Kr. rewrite Est in Kc, Ks, Kt. rewrite Esl in Ks.
    eapply (inv_change cl s i q); try done.
    + cbn. by rewrite Eat.
    + by repeat constructor.
    + apply lawful_snoc; [apply Hi|]. cbn. split; [by eexists _, _|done].
    + assert (Hn : ∀ o, o ≠ OSend i r → o ∉ log s → o ∉ (log s ++ [OSend i r])%list).
      { intros o H1 H2 [?|H%elem_of_list_singleton]%elem_of_app; done. }
      split; cbn [clo thr arg at_ slot st].
      * done.
      * apply elem_of_app. by left.
      * apply elem_of_app. by left.
      * split; [apply elem_of_app; right; constructor|by eexists].
      * intros v. by apply Hn.
  - injection H as <-. by apply inv_abort.
  - by injection H as <-.
Qed.
Lemma inv_collect cl s i s' : inv cl s → collect cl s i = Some s' → inv cl s'.
Proof.
  intros Hi H. unfold collect in H. destruct (calls s !! i) as [q|] eqn:E; [|done].
  destruct (at_ q) as [|[|]|] eqn:Eat; try done. destruct (cl !! clo q) as [k|]; [|done]. destruct (blocked s (owner k)); [done|].
  injection H as <-. pose proof (i_calls _ _ Hi i q E) as [Kc Kl Kr Ks Kt]. rewrite Eat in Kr.
  unfold set_call. rewrite <-(app_nil_r (log s)). eapply (inv_change cl s i q); try done; rewrite ?app_nil_r.
  - cbn. by rewrite Eat.
  - apply Hi.
  - split; cbn [clo thr arg at_ slot st]; try done. destruct (st q), (slot q); try done; destruct Ks; split; try done; by eexists.
Qed.
Lemma inv_receive cl s i s' : inv cl s → aborted s = false → receive s i = Some s' → inv cl s'.
Proof.
  intros Hi Ha H. unfold receive in H. destruct (calls s !! i) as [q|] eqn:E; [|done].
  destruct (st q) eqn:Est; try done. destruct (slot q) as [r|] eqn:Esl; [|done].
  pose proof (i_calls _ _ Hi i q E) as [Kc Kl Kr Ks Kt]. rewrite Est in Kc, Ks, Kt. rewrite Esl in Ks. destruct Ks as [Ks [h Eh]]. rewrite Eh in Kr.
  destruct Kc as (k & Ek & Ed & Et).
  assert (Hin : ∀ o o', o ∈ log s → o ∈ (log s ++ [o'])%list) by (intros; apply elem_of_app; by left).
  destruct r as [v|]; injection H as <-.
  - eapply (inv_change cl s i q); try done; [by repeat constructor| |].
    + apply lawful_snoc; [apply Hi|]. cbn. done.
    + split; cbn [clo thr arg at_ slot st].
      * by exists k.
      * by apply Hin.
      * rewrite Eh. by apply Hin.
      * split; [by apply Hin|by exists h].
      * apply elem_of_app. right. constructor.
  - destruct Hi as [Hc Ho Hq Hs Hl Hab Hb]. unfold abort, set_call. cbn [calls queue log aborted cfg].
    split; cbn [calls queue log aborted].
    + intros j p H. destruct (decide (i = j)) as [<-|Hn].
      * rewrite list_lookup_insert in H by by eapply lookup_lt_Some. injection H as <-.
        split; cbn [clo thr arg at_ slot st].
        -- by exists k.
        -- by apply Hin.
        -- rewrite Eh. by apply Hin.
        -- split; [by apply Hin|by exists h].
        -- apply elem_of_app. right. constructor.
      * rewrite list_lookup_insert_ne in H by done. apply okc_app; [by apply Hc|]. repeat constructor. by intros [].
    + intros o j [H|H%elem_of_list_singleton]%elem_of_app Hj; rewrite insert_length; [by eapply Ho|]. by subst o.
    + intros j. rewrite Hq. destruct (decide (i = j)) as [<-|Hn].
      * rewrite list_lookup_insert by by eapply lookup_lt_Some. split; intros (p & Ep & Eq).
        -- rewrite E in Ep. injection Ep as <-. congruence.
        -- injection Ep as <-. cbn in Eq. congruence.
      * by rewrite list_lookup_insert_ne.
    + done.
    + apply lawful_snoc; [done|]. cbn. rewrite Hab, Ha. done.
    + split; [done|]. intros _. apply elem_of_app. right. constructor.
    + intros c k' Hk Hd. rewrite (queue_insert s i q) by done. by eapply Hb.
Qed.
Lemma inv_direct cl s t c a r s' : inv cl s → aborted s = false → call_direct cl s t c a r = Some s' → inv cl s'.
Proof.
  intros Hi Ha H. unfold call_direct in H. destruct (cl !! c) as [k|] eqn:Ek; [|done].
  destruct (detached k) eqn:Ed; [done|]. destruct (t =? owner k)%nat; [|done]. cbn [negb andb] in H.
  pose proof Hi as [Hc Ho Hq Hs Hl Hab Hb]. set (n := List.length (calls s)) in *.
  assert (Hnew : ∀ ob, of_call n ob → ob ∉ log s) by (intros ob Hn Hin; specialize (Ho ob n Hin Hn); unfold n in Ho; lia).
  assert (Hall : ∀ ob b, allowed (log s ++ [OCall n c a; ORun n c a; OSend n r]) ob → (∀ i, of_call i ob → i = n) →
    (ob = OAbort ↔ b = true) → match r with Some v => ob = ORet n v | None => ob = OAbort end →
    inv cl (State (cfg s) (calls s ++ [Call c t a (Started false) None (Returned r)]) (queue s) b
              ((log s ++ [OCall n c a; ORun n c a; OSend n r]) ++ [ob]))).
  { intros ob b Hob Hobn Hobb Hobr. split; cbn [calls queue log aborted].
    - intros i q H'. apply lookup_app_Some in H' as [H'|[Hge H']].
      + rewrite <-app_assoc. apply okc_app; [by apply Hc|]. apply lookup_lt_Some in H'.
        repeat constructor; cbn; try (unfold n; lia). intros Hob'. specialize (Hobn _ Hob'). unfold n in Hobn. lia.
      + apply list_lookup_singleton_Some in H' as [Hz <-]. assert (i = n) as -> by (unfold n in *; lia).
        split; cbn [clo thr arg at_ slot st].
        * by exists k.
        * rewrite !elem_of_app, !elem_of_cons. tauto.
        * rewrite !elem_of_app, !elem_of_cons. tauto.
        * split; [|by eexists]. rewrite !elem_of_app, !elem_of_cons. tauto.
        * destruct r; subst ob; rewrite !elem_of_app, elem_of_list_singleton; tauto.
    - intros o i Hin Hoi. rewrite app_length. cbn [List.length]. rewrite !elem_of_app, !elem_of_cons, elem_of_nil in Hin.
      destruct Hin as [[Hin|[-> |[-> |[-> |?]]]]|[-> |?]]; try done.
      + specialize (Ho o i Hin Hoi). lia.
      + cbn in Hoi. unfold n in Hoi. lia.
      + cbn in Hoi. unfold n in Hoi. lia.
      + cbn in Hoi. unfold n in Hoi. lia.
      + specialize (Hobn i Hoi). unfold n in Hobn. lia.
    - intros i. rewrite Hq. split.
      + intros (q & E & Eq). exists q. split; [by apply lookup_app_l_Some|done].
      + intros (q & E & Eq). apply lookup_app_Some in E as [E|[_ E]]; [by exists q|]. apply list_lookup_singleton_Some in E as [_ <-]. done.
    - done.
    - apply lawful_snoc; [|done].
      replace (log s ++ [OCall n c a; ORun n c a; OSend n r])%list with (((log s ++ [OCall n c a]) ++ [ORun n c a]) ++ [OSend n r])%list by by rewrite <-!app_assoc.
      repeat apply lawful_snoc; [done| | |]; cbn.
      + intros. by apply Hnew.
      + split; [apply elem_of_app; right; constructor|]. intros c' a' [?|?%elem_of_list_singleton]%elem_of_app; [|done]. by eapply Hnew; [|done].
      + split; [exists c, a; apply elem_of_app; right; constructor|].
        intros r' [[?|?%elem_of_list_singleton]%elem_of_app|?%elem_of_list_singleton]%elem_of_app; [|done..]. by eapply Hnew; [|done].
    - rewrite elem_of_app, elem_of_list_singleton. rewrite <-Hobb. split; [|by right]. intros [H'|?]; [|done].
      rewrite elem_of_app, !elem_of_cons, elem_of_nil, Hab, Ha in H'. destruct H' as [?|[?|[?|[?|?]]]]; done.
    - intros c' k' Hk' Hd'. etrans; [|by eapply Hb]. unfold queue_of. cbn [calls queue].
      rewrite (filter_ext_in' _ (λ i, match calls s !! i with Some k => (clo k =? c')%nat | None => false end)); [done|].
      intros i Hin. apply Hq in Hin as (q & E & _). by rewrite (lookup_app_l_Some _ _ _ _ E), E. }
  destruct r as [v|]; injection H as <-.
  - unfold note. cbn [cfg calls queue aborted log]. rewrite Ha. apply Hall; try done.
    + cbn. split; [rewrite elem_of_app, !elem_of_cons; tauto|]. intros v'. rewrite elem_of_app, !elem_of_cons, elem_of_nil.
      intros [H'|[?|[?|[?|?]]]]; try done. by eapply Hnew; [|done].
  - unfold abort. cbn [cfg calls queue aborted log]. apply Hall; try done. cbn. rewrite elem_of_app, !elem_of_cons, elem_of_nil, Hab, Ha.
    intros [?|[?|[?|[?|?]]]]; done.
Qed.

Lemma inv_step checks cl s e s' : inv cl s → step checks cl s e = Some s' → inv cl s'.
Proof.
  intros Hi H. unfold step in H. destruct (aborted s) eqn:Ha; [done|]. destruct e as [t c a o|t c a r|c|i r|i|i|i|i|timeout].
  - destruct (blocked s t); [done|]. unfold call_trampoline in H. destruct (cl !! c) as [k|] eqn:Ek; [|done].
    destruct (detached k) eqn:Ed.
    + injection H as <-. eapply inv_enqueue; try done. intros _ Ho. by destruct (full s c k).
    + destruct (Nat.eqb_spec t (owner k)) as [|Hn]; [done|]. destruct o as [|l].
      * injection H as <-. eapply inv_enqueue; try done. by rewrite Ed.
      * destruct checks; injection H as <-; [by apply inv_abort|]. eapply inv_enqueue; try done.
  - destruct (blocked s t); [done|]. by eapply inv_direct.
  - by eapply inv_run.
  - by eapply inv_send.
  - by eapply inv_collect.
  - by eapply inv_receive.
  - unfold time_out in H. destruct (calls s !! i) as [q|]; [|done].
    destruct (st q), (slot q), (get_deadlock_timeout (cfg s)); try done. injection H as <-. by apply inv_abort.
  - unfold disconnected in H. destruct (calls s !! i) as [q|]; [|done].
    destruct (st q), (slot q), (at_ q) as [|[|]|[|]]; try done; injection H as <-; by apply inv_abort.
  - injection H as <-. destruct Hi as [Hc Ho Hq Hs Hl Hab Hb]. split; cbn [calls queue log aborted]; try done.
    by rewrite <-Ha.
Qed.
Lemma inv_steps checks cl s es s' : inv cl s → steps checks cl s es = Some s' → inv cl s'.
Proof.
  revert s. induction es as [|e es IH]; intros s Hi H; cbn [steps] in H; [by injection H as <-|].
  destruct (step checks cl s e) as [s1|] eqn:E; [|done]. eapply IH; [|done]. by eapply inv_step.
Qed.
Lemma inv_reaches checks cl s : reaches checks cl s → inv cl s.
Proof. intros [es H]. eapply inv_steps; [apply inv_init|done]. Qed.
