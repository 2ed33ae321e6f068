(** Calls of JavaScript callbacks (C45) and the deadlock timeout (C46). *)

From Coq Require Import ZArith Bool List Lia.
From stdpp Require Import base numbers list.
From Verif Require Import JsNumModel JsNumSpec JsNumProps JsCallModel JsCallSpec JsCallProofs.
Local Open Scope Z_scope.

(** ** C45: calls *)

(** Every log, under every interleaving, is lawful. *)
Theorem C45_lawful checks cl s : reaches checks cl s → lawful (log s).
Proof. intros H. by eapply i_law, inv_reaches. Qed.
(** In particular a call returns the value JS sent for that very call, when it
    was run with the arguments of the call; and this in order, and once. *)
Theorem C45_value checks cl s i v : reaches checks cl s → ORet i v ∈ log s →
  ∃ c a l1 l2 l3 l4 l5, log s = (l1 ++ OCall i c a :: l2 ++ ORun i c a :: l3 ++ OSend i (Some v) :: l4 ++ ORet i v :: l5)%list ∧
    (∀ v', ORet i v' ∉ l5) ∧ (∀ r, OSend i r ∉ l4 ∧ OSend i r ∉ l5).
Proof.
  intros Hr Hin. pose proof (C45_lawful _ _ _ Hr) as Hl.
  apply elem_of_list_split in Hin as (p4 & l5 & E4). pose proof (Hl _ _ _ E4) as [H4 N4].
  apply elem_of_list_split in H4 as (p3 & l4 & E3). subst p4. rewrite <-app_assoc in E4. cbn [app] in E4.
  pose proof (Hl _ _ _ E4) as [(c & a & H3) N3].
  apply elem_of_list_split in H3 as (p2 & l3 & E2). subst p3. rewrite <-app_assoc in E4. cbn [app] in E4.
  pose proof (Hl _ _ _ E4) as [H2 N2].
  apply elem_of_list_split in H2 as (p1 & l2 & E1). subst p2. rewrite <-app_assoc in E4. cbn [app] in E4.
  exists c, a, p1, l2, l3, l4, l5. split; [done|].
  assert (HS : ∀ r, OSend i r ∉ (l4 ++ ORet i v :: l5)%list).
  { intros r Hin. apply elem_of_list_split in Hin as (x & y & Ex).
    rewrite Ex in E4.
    replace (p1 ++ OCall i c a :: l2 ++ ORun i c a :: l3 ++ OSend i (Some v) :: x ++ OSend i r :: y)%list
      with ((p1 ++ OCall i c a :: l2 ++ ORun i c a :: l3 ++ OSend i (Some v) :: x) ++ OSend i r :: y)%list in E4
      by (repeat (rewrite <-?app_assoc; cbn [app]); done).
    destruct (Hl _ _ _ E4) as [_ N]. apply (N (Some v)). rewrite !elem_of_app, elem_of_cons, elem_of_app, elem_of_cons, elem_of_app, elem_of_cons. tauto. }
  split.
  - intros v' Hin. apply elem_of_list_split in Hin as (x & y & Ex).
    rewrite Ex in E4.
    replace (p1 ++ OCall i c a :: l2 ++ ORun i c a :: l3 ++ OSend i (Some v) :: l4 ++ ORet i v :: x ++ ORet i v' :: y)%list
      with ((p1 ++ OCall i c a :: l2 ++ ORun i c a :: l3 ++ OSend i (Some v) :: l4 ++ ORet i v :: x) ++ ORet i v' :: y)%list in E4
      by (repeat (rewrite <-?app_assoc; cbn [app]); done).
    destruct (Hl _ _ _ E4) as [_ N]. apply (N v).
    rewrite !elem_of_app, elem_of_cons, elem_of_app, elem_of_cons, elem_of_app, elem_of_cons, elem_of_app, elem_of_cons. tauto.
  - intros r. specialize (HS r). rewrite elem_of_app, elem_of_cons in HS. tauto.
Qed.
(** Every call, detached or not, is run at most once, with its arguments. *)
Theorem C45_once checks cl s i c a l1 l2 : reaches checks cl s → log s = (l1 ++ ORun i c a :: l2)%list →
  OCall i c a ∈ l1 ∧ (∀ c' a', ORun i c' a' ∉ l1) ∧ ∀ c' a', ORun i c' a' ∉ l2.
Proof.
  intros Hr E. pose proof (C45_lawful _ _ _ Hr) as Hl. destruct (Hl _ _ _ E) as [H N]. split_and!; [done..|].
  intros c' a' Hin. apply elem_of_list_split in Hin as (x & y & ->).
  replace (l1 ++ ORun i c a :: x ++ ORun i c' a' :: y)%list with ((l1 ++ ORun i c a :: x) ++ ORun i c' a' :: y)%list in E by by rewrite <-app_assoc.
  destruct (Hl _ _ _ E) as [_ N']. apply (N' c a). apply elem_of_app. right. constructor.
Qed.
(** Queued calls of a function are run in the order they were made. *)
Theorem C45_order checks cl s c s' : reaches checks cl s → step checks cl s (ERun c) = Some s' →
  ∃ i q, calls s !! i = Some q ∧ clo q = c ∧ log s' = (log s ++ [ORun i c (arg q)])%list ∧
    ∀ j p, calls s !! j = Some p → clo p = c → at_ p = Queued → (i ≤ j)%nat.
Proof.
  intros Hr H. unfold step in H. destruct (aborted s); [done|].
  destruct (inv_run cl s c s' (inv_reaches _ _ _ Hr) H) as (_ & i & q & E & _ & Ec & El & Hm). by exists i, q.
Qed.
(** A waiting call ends in no other way than by returning what was sent for it,
    or by aborting. *)
Theorem C45_ends checks cl s e s' i q : reaches checks cl s → step checks cl s e = Some s' → calls s !! i = Some q → st q = Waiting →
  (∃ q', calls s' !! i = Some q' ∧ st q' = Waiting) ∨
  aborted s' = true ∨
  (∃ v, e = ERecv i ∧ OSend i (Some v) ∈ log s ∧ log s' = (log s ++ [ORet i v])%list).
Proof.
  intros Hr H E Ew. pose proof (inv_reaches _ _ _ Hr) as Hi. pose proof (i_calls _ _ Hi i q E) as K.
  unfold step in H. destruct (aborted s) eqn:Ha; [done|].
  assert (Hins : ∀ j p k, calls s !! j = Some p → st k = st p →
    ∃ q', <[j := k]> (calls s) !! i = Some q' ∧ st q' = Waiting).
  { intros j p k Ej Ek. destruct (decide (j = i)) as [->|Hn].
    - exists k. rewrite list_lookup_insert by by eapply lookup_lt_Some. split; [done|]. congruence.
    - exists q. by rewrite list_lookup_insert_ne. }
  destruct e as [t c a o|t c a r|c|j r|j|j|j|j|timeout].
  - destruct (blocked s t); [done|]. unfold call_trampoline in H. destruct (cl !! c) as [k|]; [|done].
    assert (He : ∀ o w, ∃ q', calls (enqueue s t c a o w) !! i = Some q' ∧ st q' = Waiting).
    { intros o' w. exists q. split; [|done]. cbn [calls enqueue]. by apply lookup_app_l_Some. }
    destruct (detached k); [injection H as <-; left; apply He|]. destruct (t =? owner k)%nat; [done|].
    destruct o; [|destruct checks]; injection H as <-; [left; apply He|right; by left|left; apply He].
  - destruct (blocked s t); [done|]. unfold call_direct in H. destruct (cl !! c) as [k|]; [|done]. destruct (_ && _); [|done].
    destruct r; injection H as <-; [left|right; by left]. exists q. split; [|done]. cbn [calls note]. by apply lookup_app_l_Some.
  - unfold run in H. destruct (cl !! c) as [k|]; [|done]. destruct (queue_of s c) as [|j ?]; [done|]. destruct (blocked s (owner k)); [done|].
    destruct (calls s !! j) as [p|] eqn:Ej; [|done]. injection H as <-. left. by eapply (Hins j p).
  - unfold ret_sender in H. destruct (calls s !! j) as [p|] eqn:Ej; [|done]. destruct (at_ p) as [|[|]|]; try done.
    destruct (cl !! clo p) as [k|]; [|done]. destruct (blocked s (owner k)); [done|]. destruct (st p) eqn:Ep.
    + destruct (slot p); injection H as <-; [right; by left|]. left. by eapply (Hins j p).
    + injection H as <-. right. by left.
    + injection H as <-. left. by exists q.
  - unfold collect in H. destruct (calls s !! j) as [p|] eqn:Ej; [|done]. destruct (at_ p) as [|[|]|]; try done.
    destruct (cl !! clo p) as [k|]; [|done]. destruct (blocked s (owner k)); [done|]. injection H as <-. left. by eapply (Hins j p).
  - unfold receive in H. destruct (calls s !! j) as [p|] eqn:Ej; [|done]. destruct (st p) eqn:Ep; try done. destruct (slot p) as [r|] eqn:Es; [|done].
    destruct r as [v|]; injection H as <-; [|right; by left]. destruct (decide (j = i)) as [->|Hn].
    + right. right. exists v. split; [done|]. split; [|done]. rewrite E in Ej. injection Ej as <-. destruct K as [_ _ _ Ks _]. rewrite Ew, Es in Ks. apply Ks.
    + left. exists q. cbn [calls note set_call]. by rewrite list_lookup_insert_ne.
  - unfold time_out in H. destruct (calls s !! j) as [p|]; [|done]. destruct (st p), (slot p), (get_deadlock_timeout (cfg s)); try done.
    injection H as <-. right. by left.
  - unfold disconnected in H. destruct (calls s !! j) as [p|]; [|done].
    destruct (st p), (slot p), (at_ p) as [|[|]|[|]]; try done; injection H as <-; right; by left.
  - injection H as <-. left. by exists q.
Qed.
(** The process is aborted by nothing else than: a timeout, while nothing was
    sent for the call; a result that is an error; a channel that closes for
    nobody has the sender any more; a sender used again; or, in debug builds, a
    queue that is closing. *)
Theorem C45_aborts checks cl s e s' : reaches checks cl s → step checks cl s e = Some s' → aborted s' = true →
  (∃ i q t, e = ETimeout i ∧ calls s !! i = Some q ∧ st q = Waiting ∧ get_deadlock_timeout (cfg s) = Some t ∧ ∀ r, OSend i r ∉ log s) ∨
  (∃ i, e = ERecv i ∧ OSend i None ∈ log s) ∨
  (∃ t c a, e = EDirect t c a None) ∨
  (∃ i q, e = EDisconnected i ∧ calls s !! i = Some q ∧ st q = Waiting ∧ (at_ q = Started false ∨ at_ q = Lost false) ∧ ∀ r, OSend i r ∉ log s) ∨
  (∃ i r r', e = ESend i r ∧ OSend i r' ∈ log s) ∨
  (∃ t c a l, e = ECall t c a (Closing l) ∧ checks = true).
Proof.
  intros Hr H Ha'. pose proof (inv_reaches _ _ _ Hr) as Hi. pose proof (i_calls _ _ Hi) as K.
  unfold step in H. destruct (aborted s) eqn:Ha; [done|].
  destruct e as [t c a o|t c a r|c|j r|j|j|j|j|timeout].
  - destruct (blocked s t); [done|]. unfold call_trampoline in H. destruct (cl !! c) as [k|]; [|done].
    destruct (detached k); [injection H as <-; cbn in Ha'; congruence|]. destruct (t =? owner k)%nat; [done|].
    destruct o; [|destruct checks]; injection H as <-; try (cbn in Ha'; congruence).
    do 5 right. by eexists _, _, _, _.
  - destruct (blocked s t); [done|]. unfold call_direct in H. destruct (cl !! c) as [k|]; [|done]. destruct (_ && _); [|done].
    destruct r; injection H as <-; [cbn in Ha'; congruence|]. do 2 right. left. by eexists _, _, _.
  - unfold run in H. destruct (cl !! c) as [k|]; [|done]. destruct (queue_of s c) as [|j ?]; [done|]. destruct (blocked s (owner k)); [done|].
    destruct (calls s !! j) as [p|] eqn:Ej; [|done]. injection H as <-. cbn in Ha'. congruence.
  - unfold ret_sender in H. destruct (calls s !! j) as [p|] eqn:Ej; [|done]. destruct (at_ p) as [|[|]|]; try done.
    destruct (cl !! clo p) as [k|]; [|done]. destruct (blocked s (owner k)); [done|].
    pose proof (k_send _ _ _ _ (K j p Ej)) as Ks. do 4 right. left. destruct (st p) eqn:Ep.
    + destruct (slot p) as [r'|]; injection H as <-; [|cbn in Ha'; congruence]. destruct Ks as [Ks _]. by exists j, r, r'.
    + destruct (slot p); [done|]. destruct Ks as [Ks _]. by eexists j, r, _.
    + injection H as <-. congruence.
  - unfold collect in H. destruct (calls s !! j) as [p|] eqn:Ej; [|done]. destruct (at_ p) as [|[|]|]; try done.
    destruct (cl !! clo p) as [k|]; [|done]. destruct (blocked s (owner k)); [done|]. injection H as <-. cbn in Ha'. congruence.
  - unfold receive in H. destruct (calls s !! j) as [p|] eqn:Ej; [|done]. pose proof (k_send _ _ _ _ (K j p Ej)) as Ks.
    destruct (st p) eqn:Ep; try done. destruct (slot p) as [r|] eqn:Es; [|done].
    destruct r as [v|]; injection H as <-; [cbn in Ha'; congruence|]. right. left. exists j. split; [done|]. apply Ks.
  - unfold time_out in H. destruct (calls s !! j) as [p|] eqn:Ej; [|done]. pose proof (k_send _ _ _ _ (K j p Ej)) as Ks.
    destruct (st p) eqn:Ep, (slot p), (get_deadlock_timeout (cfg s)) as [t|] eqn:Et; try done. left. by exists j, p, t.
  - unfold disconnected in H. destruct (calls s !! j) as [p|] eqn:Ej; [|done]. pose proof (k_send _ _ _ _ (K j p Ej)) as Ks.
    destruct (st p) eqn:Ep; try done. destruct (slot p); [done|]. do 3 right. left. exists j, p.
    destruct (at_ p) as [|[|]|[|]]; try done; split_and!; auto.
  - injection H as <-. cbn in Ha'. congruence.
Qed.
(** And when the channel is found closed, no result would ever have come. *)
Definition gone (s : state) (i : nat) : Prop :=
  ∃ q, calls s !! i = Some q ∧ slot q = None ∧ (at_ q = Started false ∨ at_ q = Lost false).
Lemma gone_step checks cl s e s' i : inv cl s → gone s i → step checks cl s e = Some s' →
  gone s' i ∧ ∀ r, OSend i r ∈ log s' → OSend i r ∈ log s.
Proof.
  intros Hi (q & E & Esl & Ea) H. unfold step in H. destruct (aborted s) eqn:Ha; [done|].
  assert (Hlt : (i < List.length (calls s))%nat) by by eapply lookup_lt_Some.
  assert (Habort : gone (abort s) i ∧ ∀ r, OSend i r ∈ log (abort s) → OSend i r ∈ log s).
  { split; [by exists q|]. intros r. cbn [log abort]. rewrite elem_of_app, elem_of_list_singleton. by intros [?|?]. }
  assert (Happ : ∀ l cf qu ab L, (∀ r, OSend i r ∉ L) → gone (State cf (calls s ++ l)%list qu ab (log s ++ L)%list) i ∧
     ∀ r, OSend i r ∈ (log s ++ L)%list → OSend i r ∈ log s).
  { intros l cf qu ab L HL. split; [exists q; cbn [calls]; split; [by apply lookup_app_l_Some|done]|].
    intros r. rewrite elem_of_app. intros [?|?]; [done|]. by destruct (HL r). }
  assert (Hother : ∀ j k cf qu ab L, j ≠ i → (∀ r, OSend i r ∉ L) → gone (State cf (<[j := k]> (calls s)) qu ab (log s ++ L)%list) i ∧
     ∀ r, OSend i r ∈ (log s ++ L)%list → OSend i r ∈ log s).
  { intros j k cf qu ab L Hn HL. split; [exists q; cbn [calls]; by rewrite list_lookup_insert_ne|].
    intros r. rewrite elem_of_app. intros [?|?]; [done|]. by destruct (HL r). }
  assert (Hst : ∀ j p h, calls s !! j = Some p → at_ p = Started true ∨ at_ p = Queued ∨ slot p = Some h → j ≠ i).
  { intros j p h Ej Hp ->. rewrite E in Ej. injection Ej as <-. destruct Ea as [Ea|Ea]; rewrite Ea, Esl in Hp; naive_solver. }
  destruct e as [t c a o|t c a r|c|j r|j|j|j|j|timeout].
  - destruct (blocked s t); [done|]. unfold call_trampoline in H. destruct (cl !! c) as [k|]; [|done].
    assert (He : ∀ o w, gone (enqueue s t c a o w) i ∧ ∀ r, OSend i r ∈ log (enqueue s t c a o w) → OSend i r ∈ log s).
    { intros o' w. apply Happ. intros r. by rewrite elem_of_list_singleton. }
    destruct (detached k); [injection H as <-; apply He|]. destruct (t =? owner k)%nat; [done|].
    destruct o; [|destruct checks]; injection H as <-; done.
  - destruct (blocked s t); [done|]. unfold call_direct in H. destruct (cl !! c) as [k|]; [|done]. destruct (_ && _); [|done].
    assert (Hl : ∀ r0 o, (∀ x r', o ≠ OSend x r') → OSend i r0 ∉ [OCall (List.length (calls s)) c a; ORun (List.length (calls s)) c a; OSend (List.length (calls s)) r; o]).
    { intros r0 o Ho. rewrite !elem_of_cons, elem_of_nil. intros [?|[?|[[= ? ?]|[Hx|?]]]]; try done; [lia|]. by destruct (Ho i r0). }
    destruct r; injection H as <-; unfold note, abort; cbn [cfg calls queue aborted log]; rewrite <-app_assoc; cbn [app];
      apply Happ; intros r0; by apply Hl.
  - unfold run in H. destruct (cl !! c) as [k|]; [|done]. destruct (queue_of s c) as [|j rest] eqn:Eq; [done|]. destruct (blocked s (owner k)); [done|].
    destruct (calls s !! j) as [p|] eqn:Ej; [|done]. injection H as <-. unfold note. cbn [cfg calls queue aborted log].
    assert (Hq : j ∈ queue_of s c) by (rewrite Eq; constructor).
    apply (queue_of_in _ _ _ _ Hi) in Hq as (p' & Ep' & Eqd & _). rewrite Ej in Ep'. injection Ep' as <-.
    apply Hother; [by eapply (Hst j p None); eauto|]. intros r. by rewrite elem_of_list_singleton.
  - unfold ret_sender in H. destruct (calls s !! j) as [p|] eqn:Ej; [|done]. destruct (at_ p) as [|[|]|] eqn:Ep; try done.
    assert (Hn : j ≠ i) by (eapply (Hst j p None); eauto).
    destruct (cl !! clo p) as [k|]; [|done]. destruct (blocked s (owner k)); [done|]. destruct (st p).
    + destruct (slot p); injection H as <-; [done|]. unfold note, set_call. cbn [cfg calls queue aborted log].
      apply Hother; [done|]. intros r0. rewrite elem_of_list_singleton. intros [= ? ?]. congruence.
    + by injection H as <-.
    + injection H as <-. split; [by exists q|done].
  - unfold collect in H. destruct (calls s !! j) as [p|] eqn:Ej; [|done]. destruct (at_ p) as [|[|]|] eqn:Ep; try done.
    assert (Hn : j ≠ i) by (eapply (Hst j p None); eauto).
    destruct (cl !! clo p) as [k|]; [|done]. destruct (blocked s (owner k)); [done|]. injection H as <-.
    split; [|done]. exists q. unfold set_call. cbn [calls]. by rewrite list_lookup_insert_ne.
  - unfold receive in H. destruct (calls s !! j) as [p|] eqn:Ej; [|done]. destruct (st p); try done. destruct (slot p) as [r|] eqn:Es; [|done].
    assert (Hn : j ≠ i) by (eapply (Hst j p r); eauto).
    destruct r as [v|]; injection H as <-; unfold note, abort, set_call; cbn [cfg calls queue aborted log]; (apply Hother; [done|]);
      intros r; by rewrite elem_of_list_singleton.
  - unfold time_out in H. destruct (calls s !! j) as [p|]; [|done]. destruct (st p), (slot p), (get_deadlock_timeout (cfg s)); try done.
    by injection H as <-.
  - unfold disconnected in H. destruct (calls s !! j) as [p|]; [|done].
    destruct (st p), (slot p), (at_ p) as [|[|]|[|]]; try done; by injection H as <-.
  - injection H as <-. split; [by exists q|done].
Qed.
Theorem C45_gone checks cl s i s' es s'' r : reaches checks cl s → step checks cl s (EDisconnected i) = Some s' →
  steps checks cl s es = Some s'' → OSend i r ∉ log s''.
Proof.
  intros Hr H Hs. pose proof (inv_reaches _ _ _ Hr) as Hi.
  assert (Hn : gone s i ∧ OSend i r ∉ log s).
  { unfold step in H. destruct (aborted s); [done|]. unfold disconnected in H. destruct (calls s !! i) as [q|] eqn:E; [|done].
    pose proof (k_send _ _ _ _ (i_calls _ _ Hi i q E)) as Ks.
    destruct (st q) eqn:Ew; try done. destruct (slot q) eqn:Es; [done|]. split; [|done].
    exists q. destruct (at_ q) as [|[|]|[|]]; try done; auto. }
  destruct Hn as [Hg Hn]. clear H. revert s Hi Hg Hn Hs Hr. induction es as [|e es IH]; intros s Hi Hg Hn Hs Hr; cbn [steps] in Hs.
  - by injection Hs as <-.
  - destruct (step checks cl s e) as [s1|] eqn:E1; [|done].
    destruct (gone_step _ _ _ _ _ _ Hi Hg E1) as [Hg1 Hl1]. eapply (IH s1); try done.
    + by eapply inv_step.
    + intros Hin. by apply Hn, Hl1.
    + destruct Hr as [es0 H0]. exists (es0 ++ [e])%list. revert H0. generalize init. induction es0 as [|x es0 IH0]; intros s0 H0; cbn [steps app] in *.
      * injection H0 as ->. by rewrite E1.
      * destruct (step checks cl s0 x); [|done]. by apply IH0.
Qed.
Example C45_aborts_ex :
  option_map (λ s, (aborted s, log s)) (steps true [Closure 0 false] init [ECall 1 0 7 Taken; ERun 0; ECollect 0; EDisconnected 0]) =
    Some (true, [OCall 0 0 7; ORun 0 0 7; OAbort]) ∧
  steps true [Closure 0 false] init [ECall 1 0 7 Taken; ERun 0; EDisconnected 0] = None ∧
  steps true [Closure 0 false] init [ECall 1 0 7 Taken; ERun 0; ESend 0 (Some 8); ECollect 0; EDisconnected 0] = None.
Proof. vm_compute. done. Qed.
(** And while there is a timeout it can always end. *)
Theorem C45_progress checks cl s i q t : aborted s = false → get_deadlock_timeout (cfg s) = Some t →
  calls s !! i = Some q → st q = Waiting →
  ∃ e s', step checks cl s e = Some s' ∧ (e = ERecv i ∨ e = ETimeout i) ∧
    (aborted s' = true ∨ ∃ q', calls s' !! i = Some q' ∧ st q' ≠ Waiting).
Proof.
  intros Ha Ht E Ew. destruct (slot q) as [r|] eqn:Es.
  - exists (ERecv i). unfold step. rewrite Ha. unfold receive. rewrite E, Ew, Es. destruct r as [v|]; eexists; split_and!; try done; try (by left).
    right. eexists. cbn [calls note set_call]. rewrite list_lookup_insert by by eapply lookup_lt_Some. done.
  - exists (ETimeout i). unfold step. rewrite Ha. unfold time_out. rewrite E, Ew, Es, Ht. eexists. split_and!; [done|by right|by left].
Qed.
(** Without one, a call that the closing queue did not take waits for ever; so
    do two JS threads that wait for each other. *)
Definition stuck (cl : list closure) (s : state) (i j : nat) : Prop :=
  cfg s = Some None ∧ ∃ p q, calls s !! i = Some p ∧ calls s !! j = Some q ∧
    st p = Waiting ∧ st q = Waiting ∧ slot p = None ∧ slot q = None ∧
    (at_ p = Queued ∨ at_ p = Lost true) ∧ (at_ q = Queued ∨ at_ q = Lost true) ∧
    (at_ p = Queued → ∃ k, cl !! clo p = Some k ∧ owner k = thr q) ∧
    (at_ q = Queued → ∃ k, cl !! clo q = Some k ∧ owner k = thr p).
Lemma blocked_by s i q : calls s !! i = Some q → st q = Waiting → blocked s (thr q) = true.
Proof.
  intros E Ew. unfold blocked. apply existsb_exists. exists q. rewrite Ew, Nat.eqb_refl. split; [|done].
  apply elem_of_list_In. by eapply elem_of_list_lookup_2.
Qed.
Lemma stuck_step checks cl s e s' i j : inv cl s → stuck cl s i j → step checks cl s e = Some s' → aborted s' = false → stuck cl s' i j.
Proof.
  intros Hi (Hcfg & p & q & Ep & Eq & Wp & Wq & Sp & Sq & Ap & Aq & Op & Oq) H Ha'. unfold step in H. destruct (aborted s) eqn:Ha; [done|].
  assert (Happ : ∀ s', cfg s' = cfg s → (∃ l, calls s' = (calls s ++ l)%list) → stuck cl s' i j).
  { intros s1 E1 [l E2]. split; [congruence|]. exists p, q. rewrite E2. split_and!; try done; by apply lookup_app_l_Some. }
  assert (Hother : ∀ s' k x, cfg s' = cfg s → calls s' = <[k := x]> (calls s) → k ≠ i → k ≠ j → stuck cl s' i j).
  { intros s1 k x E1 E2 N1 N2. split; [congruence|]. exists p, q. rewrite E2, !list_lookup_insert_ne by done. split_and!; done. }
  assert (Hst : ∀ k x h, calls s !! k = Some x → at_ x = Started h → k ≠ i ∧ k ≠ j).
  { intros k x h Ek Ex. split; intros ->.
    - rewrite Ep in Ek. injection Ek as <-. rewrite Ex in Ap. by destruct Ap.
    - rewrite Eq in Ek. injection Ek as <-. rewrite Ex in Aq. by destruct Aq. }
  destruct e as [t c a o|t c a r|c|k r|k|k|k|k|timeout].
  - destruct (blocked s t); [done|]. unfold call_trampoline in H. destruct (cl !! c) as [k|]; [|done].
    destruct (detached k); [injection H as <-; apply Happ; [done|by eexists]|]. destruct (t =? owner k)%nat; [done|].
    destruct o; [|destruct checks]; injection H as <-; [|done|]; (apply Happ; [done|by eexists]).
  - destruct (blocked s t); [done|]. unfold call_direct in H. destruct (cl !! c) as [k|]; [|done]. destruct (_ && _); [|done].
    destruct r; injection H as <-; [|done]. apply Happ; [done|by eexists].
  - unfold run in H. destruct (cl !! c) as [k|] eqn:Ek; [|done]. destruct (queue_of s c) as [|m rest] eqn:EQ; [done|].
    destruct (blocked s (owner k)) eqn:Eb; [done|].
    assert (Hm : m ∈ queue_of s c) by (rewrite EQ; constructor). apply (queue_of_in cl s c m Hi) in Hm as (x & Ex & Ax & Cx).
    rewrite Ex in H. injection H as <-. eapply (Hother _ m); [done..| |].
    + intros ->. rewrite Ep in Ex. injection Ex as <-. destruct (Op Ax) as (k' & Ek' & Ok'). rewrite Cx, Ek in Ek'. injection Ek' as <-.
      rewrite Ok', (blocked_by s j q Eq Wq) in Eb. done.
    + intros ->. rewrite Eq in Ex. injection Ex as <-. destruct (Oq Ax) as (k' & Ek' & Ok'). rewrite Cx, Ek in Ek'. injection Ek' as <-.
      rewrite Ok', (blocked_by s i p Ep Wp) in Eb. done.
  - unfold ret_sender in H. destruct (calls s !! k) as [x|] eqn:Ex; [|done]. destruct (at_ x) as [|[|]|] eqn:Ax; try done.
    destruct (Hst k x _ Ex Ax) as [N1 N2].
    destruct (cl !! clo x) as [k'|]; [|done]. destruct (blocked s (owner k')); [done|]. destruct (st x) eqn:Sx.
    + destruct (slot x); injection H as <-; [done|]. by eapply (Hother _ k).
    + injection H as <-. done.
    + injection H as <-. split; [done|]. exists p, q. split_and!; done.
  - unfold collect in H. destruct (calls s !! k) as [x|] eqn:Ex; [|done]. destruct (at_ x) as [|[|]|] eqn:Ax; try done.
    destruct (Hst k x _ Ex Ax) as [N1 N2]. destruct (cl !! clo x) as [k'|]; [|done]. destruct (blocked s (owner k')); [done|].
    injection H as <-. by eapply (Hother _ k).
  - unfold receive in H. destruct (calls s !! k) as [x|] eqn:Ex; [|done]. destruct (st x) eqn:Sx; try done. destruct (slot x) as [r|] eqn:Lx; [|done].
    assert (N1 : k ≠ i) by congruence. assert (N2 : k ≠ j) by congruence.
    destruct r; injection H as <-; [|done]. by eapply (Hother _ k).
  - unfold time_out in H. destruct (calls s !! k) as [x|]; [|done]. rewrite Hcfg in H. cbn [get_deadlock_timeout] in H. by destruct (st x), (slot x).
  - unfold disconnected in H. destruct (calls s !! k) as [x|]; [|done].
    destruct (st x), (slot x), (at_ x) as [|[|]|[|]]; try done; injection H as <-; done.
  - injection H as <-. split; [by rewrite Hcfg|]. exists p, q. split_and!; done.
Qed.
Lemma stuck_steps checks cl s es s' i j : inv cl s → stuck cl s i j → steps checks cl s es = Some s' → aborted s' = false → stuck cl s' i j.
Proof.
  revert s. induction es as [|e es IH]; intros s Hi Hs H Ha; cbn [steps] in H; [by injection H as <-|].
  destruct (step checks cl s e) as [s1|] eqn:E; [|done]. apply (IH s1); [by eapply inv_step| |done|done].
  eapply stuck_step; [done..|]. destruct (aborted s1) eqn:E1; [|done]. exfalso. destruct es as [|e' es]; cbn [steps] in H.
  - injection H as <-. congruence.
  - unfold step in H. by rewrite E1 in H.
Qed.
Theorem C45_wait_refuted :
  (∃ cl es s i, steps false cl init es = Some s ∧ (∃ q, calls s !! i = Some q ∧ st q = Waiting) ∧
     ∀ es' s', steps false cl s es' = Some s' → aborted s' = false → ∃ q, calls s' !! i = Some q ∧ st q = Waiting) ∧
  (∃ cl es s, steps true cl init es = Some s ∧ (∃ q, calls s !! O = Some q ∧ st q = Waiting) ∧ (∃ q, calls s !! 1%nat = Some q ∧ st q = Waiting) ∧
     ∀ es' s', steps true cl s es' = Some s' → aborted s' = false →
       (∃ q, calls s' !! O = Some q ∧ st q = Waiting) ∧ ∃ q, calls s' !! 1%nat = Some q ∧ st q = Waiting).
Proof.
  split.
  - exists [Closure 0 false], [ESet None; ECall 1 0 7 (Closing true)], (State (Some None) [Call 0 1 7 (Lost true) None Waiting] [] false [OCall 0 0 7]), O.
    split; [reflexivity|]. split; [by eexists|]. intros es' s' H Ha.
    eapply (stuck_steps false _ _ es' s' 0 0) in H as (_ & p & _ & Ep & _ & Wp & _); [by exists p| |
      |done].
    + eapply (inv_reaches false). exists [ESet None; ECall 1 0 7 (Closing true)]. reflexivity.
    + split; [done|]. eexists _, _. split_and!; try done; by right.
  - exists [Closure 0 false; Closure 1 false], [ESet None; ECall 1 0 7 Taken; ECall 0 1 8 Taken],
      (State (Some None) [Call 0 1 7 Queued None Waiting; Call 1 0 8 Queued None Waiting] [0; 1]%nat false [OCall 0 0 7; OCall 1 1 8]).
    split; [reflexivity|]. split; [by eexists|]. split; [by eexists|]. intros es' s' H Ha.
    eapply (stuck_steps true _ _ es' s' 0 1) in H as (_ & p & q & Ep & Eq & Wp & Wq & _); [split; [by exists p|by exists q]| |
      |done].
    + eapply (inv_reaches true). exists [ESet None; ECall 1 0 7 Taken; ECall 0 1 8 Taken]. reflexivity.
    + split; [done|]. eexists _, _. split_and!; try done; try (by left); intros _; by eexists.
Qed.
(** No call waits for a function of its own thread: there it is called at
    once. *)
Theorem C45_own_thread checks cl s i q k : reaches checks cl s → calls s !! i = Some q → st q = Waiting → cl !! clo q = Some k →
  detached k = false ∧ thr q ≠ owner k.
Proof.
  intros Hr E Ew Ek. destruct (i_calls _ _ (inv_reaches _ _ _ Hr) i q E) as [(k' & Ek' & H) _ _ _ _]. rewrite Ek in Ek'. injection Ek' as <-.
  by rewrite Ew in H.
Qed.
Theorem C45_direct checks cl s c k a v : aborted s = false → cl !! c = Some k → detached k = false → blocked s (owner k) = false →
  ∃ s', step checks cl s (EDirect (owner k) c a (Some v)) = Some s' ∧ last (log s') = Some (ORet (List.length (calls s)) v) ∧
    queue s' = queue s ∧ ∀ t, blocked s' t = blocked s t.
Proof.
  intros Ha Ek Ed Hb. unfold step. rewrite Ha, Hb. unfold call_direct. rewrite Ek, Ed, Nat.eqb_refl. cbn [negb andb].
  eexists. split; [done|]. cbn [note log queue calls]. split_and!; [by rewrite last_snoc|done|].
  intros t. unfold blocked. cbn [calls note]. rewrite existsb_app. cbn [existsb st]. by rewrite orb_false_r.
Qed.
(** A detached call returns at once: no thread waits for it; whether it is
    queued or, when the queue is full, not. *)
Theorem C45_detached checks cl s t c k a o : aborted s = false → cl !! c = Some k → detached k = true → blocked s t = false →
  ∃ s', step checks cl s (ECall t c a o) = Some s' ∧ aborted s' = false ∧ (∀ t', blocked s' t' = blocked s t') ∧
    (reaches checks cl s → queue_of s' c =
      (queue_of s c ++ match o with Taken => if (List.length (queue_of s c) <? Z.to_nat 1024)%nat then [List.length (calls s)] else [] | _ => [] end)%list).
Proof.
  intros Ha Ek Ed Hb. unfold step. rewrite Ha, Hb. unfold call_trampoline. rewrite Ek, Ed. eexists. split; [done|]. split_and!; [done| |].
  - intros t'. unfold blocked. cbn [calls enqueue]. rewrite existsb_app. cbn [existsb st]. by rewrite orb_false_r.
  - intros Hr. rewrite (queue_enqueue cl) by by apply inv_reaches in Hr. f_equal. unfold full, queue_size_bound. rewrite Ed.
    destruct (Nat.leb_spec (Z.to_nat 1024) (List.length (queue_of s c))), (Nat.ltb_spec (List.length (queue_of s c)) (Z.to_nat 1024)); try lia.
    + rewrite decide_False by (by intros [? _]). by destruct o.
    + destruct o; [by rewrite decide_True|by rewrite decide_False by (by intros [? _])].
Qed.
Theorem C45_bound checks cl s c k : reaches checks cl s → cl !! c = Some k → detached k = true →
  (List.length (queue_of s c) ≤ Z.to_nat 1024)%nat.
Proof. intros Hr. by eapply i_bound, inv_reaches. Qed.
(** Two threads call, JS answers in the other order: *)
Definition example_closures : list closure := [Closure 0 false; Closure 0 true].
Definition example_run : list ev :=
  [ECall 1 0 10 Taken; ECall 2 0 20 Taken; ERun 0; ERun 0; ESend 1 (Some 21); ESend 0 (Some 11);
   ERecv 0; ECall 1 1 30 Taken; ERun 1; ERecv 1; EDirect 0 0 9 (Some 99)].
Example C45_example :
  (∃ s, steps true example_closures init example_run = Some s ∧
    log s = [OCall 0 0 10; OCall 1 0 20; ORun 0 0 10; ORun 1 0 20; OSend 1 (Some 21); OSend 0 (Some 11); ORet 0 11; OCall 2 1 30; ORun 2 1 30;
             ORet 1 21; OCall 3 0 9; ORun 3 0 9; OSend 3 (Some 99); ORet 3 99]) ∧
  (∃ s, steps true example_closures init [ECall 1 0 10 Taken; ERun 0; ESend 0 (Some 1); ESend 0 (Some 2)] = Some s ∧ aborted s = true) ∧
  (∃ s, steps true example_closures init [ECall 1 0 10 Taken; ETimeout 0] = Some s ∧ aborted s = true) ∧
  steps true example_closures init [ESet None; ECall 1 0 10 Taken; ETimeout 0] = None ∧
  steps true example_closures init [ECall 1 0 10 Taken; ECall 1 1 5 Taken] = None.
Proof. split_and!; try reflexivity; eexists; split; reflexivity. Qed.

(** ** C46: the deadlock timeout *)

Definition top_step (c : cell) (o : top) : tres * cell :=
  match o with
  | TGet => (TGot (get_deadlock_timeout c), c)
  | TSet t => match set_deadlock_timeout c t with Some c' => (TSetOk, c') | None => (TSetErr, c) end
  end.
Fixpoint top_run (c : cell) (os : list top) : list tres * cell :=
  match os with
  | [] => ([], c)
  | o :: os => let '(r, c) := top_step c o in let '(rs, c) := top_run c os in (r :: rs, c)
  end.
Lemma top_app c a b : top_run c (a ++ b) =
  ((top_run c a).1 ++ (top_run (top_run c a).2 b).1, (top_run (top_run c a).2 b).2)%list.
Proof.
  revert c. induction a as [|o a IH]; intros c; cbn [app top_run fst snd]; [by destruct (top_run c b)|].
  destruct (top_step c o) as [r c1]. rewrite IH. by destruct (top_run c1 a) as [rs c2].
Qed.
Lemma top_cell past : (top_run None past).2 = first_set past.
Proof.
  assert (H : ∀ c, (top_run c past).2 = match c with Some t => Some t | None => first_set past end).
  { induction past as [|o past IH]; intros c; [by destruct c|]. cbn [top_run]. destruct o as [|t]; cbn [top_step].
    - specialize (IH c). destruct (top_run c past) as [rs c2]. cbn [snd] in *. rewrite IH. by destruct c.
    - destruct c as [u|]; cbn [set_deadlock_timeout].
      + specialize (IH (Some u)). by destruct (top_run (Some u) past) as [rs c2].
      + specialize (IH (Some t)). by destruct (top_run (Some t) past) as [rs c2]. }
  apply (H None).
Qed.
(** After any sequence of operations, each gives what is expected: the first
    setting counts, and without one the timeout is 5000 ms. *)
Theorem C46_first past o future : (top_run None (past ++ o :: future)).1 !! List.length past = Some (expected past o).
Proof.
  rewrite top_app. assert (Hlen : ∀ c l, List.length (top_run c l).1 = List.length l).
  { intros c l. revert c. induction l as [|x l IH]; intros c; [done|]. cbn [top_run]. destruct (top_step c x) as [r1 c1].
    specialize (IH c1). destruct (top_run c1 l). cbn in *. by rewrite IH. }
  cbn [fst]. rewrite lookup_app_r by by rewrite Hlen. rewrite Hlen, Nat.sub_diag. rewrite top_cell. cbn [top_run].
  destruct (top_step (first_set past) o) as [r1 c1] eqn:E. destruct (top_run c1 future). cbn [fst lookup list_lookup]. f_equal.
  unfold expected. destruct o as [|t]; cbn [top_step] in E; destruct (first_set past); cbn [set_deadlock_timeout] in E; by injection E as <- _.
Qed.
(** From JavaScript: an integer in the range of u32 is what is read later, 0
    being no timeout. *)
Theorem C46_js x z c' : double x → is_int x z → in_range false 32 z → set_deadlock_timeout_js None x = Some c' →
  get_deadlock_timeout c' = (if decide (z = 0) then None else Some z) ∧ get_deadlock_timeout_js c' = z ∧
  ∀ y, set_deadlock_timeout_js c' y = None.
Proof.
  intros Hx Hz Hr H.
  assert (Eg : get32 (Node (λ z, z) 64) false x = z) by (apply get32_int; [by apply double_pos|done|done]).
  unfold set_deadlock_timeout_js in H. cbn [set_deadlock_timeout] in H. rewrite Eg in H. injection H as <-.
  cbn [get_deadlock_timeout get_deadlock_timeout_js]. unfold get_deadlock_timeout_js. cbn [get_deadlock_timeout].
  destruct (Z.eqb_spec z 0) as [->|Hn]; [by rewrite decide_True|by rewrite decide_False].
Qed.
(** Other numbers are accepted as well: fractions below 1 and NaN switch the
    check off, and -1 is a long timeout. *)
Theorem C46_js_refuted :
  (∃ x, double x ∧ (∀ z, ¬ is_int x z) ∧ set_deadlock_timeout_js None x = Some (Some None)) ∧
  set_deadlock_timeout_js None NaN = Some (Some None) ∧
  (∃ x, double x ∧ is_int x (-1) ∧ set_deadlock_timeout_js None x = Some (Some (Some 4294967295))).
Proof.
  split_and!.
  - exists (Fin false (2 ^ 52) (-53)). split; [by vm_compute|]. split; [|by vm_compute]. intros z. cbn [is_int].
    change (0 <=? -53) with false. cbn beta iota. change (2 ^ (- -53)) with (2 * 2 ^ 52). intros H. nia.
  - reflexivity.
  - exists (Fin true (2 ^ 52) (-52)). split; [by vm_compute|]. split; by vm_compute.
Qed.
Example C46_example : (top_run None [TGet; TSet (Some 100); TGet; TSet None; TGet]).1 =
  [TGot (Some 5000); TSetOk; TGot (Some 100); TSetErr; TGot (Some 100)] ∧
  (top_run None [TSet None; TGet]).1 = [TSetOk; TGot None] ∧
  set_deadlock_timeout_js None (Fin false (2 ^ 52) (-50)) = Some (Some (Some 4)).
Proof. vm_compute. done. Qed.

Print Assumptions C45_lawful.
Print Assumptions C45_value.
Print Assumptions C45_once.
Print Assumptions C45_order.
Print Assumptions C45_ends.
Print Assumptions C45_aborts.
Print Assumptions C45_gone.
Print Assumptions C45_progress.
Print Assumptions C45_wait_refuted.
Print Assumptions C45_own_thread.
Print Assumptions C45_direct.
Print Assumptions C45_detached.
Print Assumptions C45_bound.
Print Assumptions C46_first.
Print Assumptions C46_js.
Print Assumptions C46_js_refuted.
