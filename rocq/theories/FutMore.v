(** Progress of spawn and spawn_blocking; block_on. *)

From Coq Require Import List Bool Arith ZArith Lia.
From stdpp Require Import base numbers list.
From Verif Require Import FutModel FutSpec FutProofs.

Section R.
Context {R : Type}.
Implicit Types l : list (event R).
Notation log s := (w_log (s_world s)).

(** ** The result arrives *)

Lemma out_unique l v v' : num is_out l ≤ 1 → EOut v ∈ l → EOut v' ∈ l → v = v'.
Proof.
  induction l as [|x l IH]; intros Hn Hv Hv'; [by apply elem_of_nil in Hv|]. cbn [num] in Hn.
  apply elem_of_cons in Hv as [<-|Hv], Hv' as [E|Hv'].
  - by injection E.
  - cbn in Hn. pose proof (num_pos is_out l _ Hv' eq_refl). lia.
  - subst x. cbn in Hn. pose proof (num_pos is_out l _ Hv eq_refl). lia.
  - apply IH; [lia|done..].
Qed.

(** The join future, not finished, with the executor's future done. *)
Definition join_ready (e : setting R) l : Prop := handle_done (e_handle e) l ∨ e_handle e (num is_hpoll l) = Code 0.

Lemma receive_polled e bl (s : sys R) cx : Inv e bl s → none is_end (log s) → s_join s ≠ None → join_ready e (log s) →
  ∃ w, Inv e bl (Sys (s_task s) (Some JReceive) w) ∧ w_chan w = w_chan (s_world s) ∧ (∃ new, w_log w = log s ++ new) ∧
    o_poll (join (e_handle e) (fin_of bl)) cx (default JUnresumed (s_join s), s_world s) = join_receive (fin_of bl) cx w.
Proof.
  intros I He Hj Hr. destruct s as [t [j|] w]; [|done]. cbn in *.
  pose proof (i_join _ _ _ _ _ _ _ _ _ _ _ I) as Ij. cbn in Ij.
  assert (Hrx : c_rx (w_chan w) = true).
  { destruct (c_rx (w_chan w)) eqn:E; [done|]. destruct (i_norx _ _ _ _ _ _ _ _ _ _ _ I E) as [H0 _]. unfold none in He. cbn in H0. lia. }
  assert (Hh : (j = JUnresumed ∨ j = JHandle Suspended) → ∃ w1, Inv e bl (Sys t (Some JReceive) w1) ∧ w_chan w1 = w_chan w ∧ (∃ new, w_log w1 = w_log w ++ new) ∧
    o_poll (join (e_handle e) (fin_of bl)) cx (j, w) = join_receive (fin_of bl) cx w1).
  { intros Hj'. destruct w as [polls hpolls [data tx rx wk] ret l]. cbn in *.
    assert (Hw : handle_waits (e_handle e) l).
    { destruct Hj' as [-> | ->]; cbn in Ij; [apply hw_none|]; tauto. }
    assert (E : e_handle e hpolls = Code 0).
    { pose proof (i_hpoll _ _ _ _ _ _ _ _ _ _ _ I) as Ip. cbn in Ip. destruct Hr as [(n & c & Hi & E)|E]; [|by rewrite Ip in E].
      apply Hw in Hi. congruence. }
    eexists (World polls (S hpolls) (Chan data tx rx wk) ret (l ++ [EHandlePoll hpolls cx; EHandleDrop])).
    split; [|split; [done|split; [by eexists|]]].
    - eapply (join_handled e bl t (Some j)); [exact I| |done]. destruct Hj' as [-> | ->]; [by left|right; by eexists].
    - cbn [o_poll join]. assert (Ha : ∀ a, a = Unresumed ∨ a = Suspended →
        o_poll (into_future (foreign (e_handle e))) cx (a, World polls hpolls (Chan data tx rx wk) ret l)
        = (Ready tt, (Returned, World polls (S hpolls) (Chan data tx rx wk) ret (l ++ [EHandlePoll hpolls cx; EHandleDrop])))).
      { intros a [-> | ->]; cbn; rewrite E; cbn; unfold say; cbn; by rewrite <-app_assoc. }
      destruct Hj' as [-> | ->]; unfold join_handle; rewrite Ha by auto; reflexivity. }
  destruct j as [|a| | |]; cbn in Ij.
  - apply Hh. by left.
  - destruct Ij as (_ & -> & _). apply Hh. by right.
  - exists w. split; [done|]. split; [done|]. split; [exists []; by rewrite app_nil_r|]. done.
  - destruct Ij. congruence.
  - destruct Ij. congruence.
Qed.

Lemma delivered e bl (s : sys R) cx v : Inv e bl s → EOut v ∈ log s → none is_end (log s) → s_join s ≠ None → join_ready e (log s) →
  ∃ s', step e bl s (JoinPoll cx) = ROk s' ∧ last (log s') = Some (EJoin cx (Ready (Some v))).
Proof.
  intros I Ho He Hj Hr. destruct (receive_polled e bl s cx I He Hj Hr) as (w & I' & Hc & (new & Hl) & Hp).
  destruct s as [t [j|] w0]; [|done]. cbn in *. rewrite Hp.
  assert (Hrx : c_rx (w_chan w) = true) by (by destruct (i_join _ _ _ _ _ _ _ _ _ _ _ I') as (? & _)).
  pose proof (i_rx _ _ _ _ _ _ _ _ _ _ _ I' Hrx) as (R1 & R2 & R3). pose proof (i_bal _ _ _ _ _ _ _ _ _ _ _ I') as Hb.
  assert (Ho' : EOut v ∈ w_log w) by (rewrite Hl; by apply in_app_l). cbn in Hb, R1, R2.
  pose proof (num_pos is_out _ _ Ho' eq_refl). destruct (c_data (w_chan w)) as [v'|] eqn:Ed; [|lia].
  destruct (i_data _ _ _ _ _ _ _ _ _ _ _ I' v' Ed) as [Hv' _]. cbn in Hv'.
  assert (v' = v) as -> by (eapply out_unique; [exact (i_out _ _ _ _ _ _ _ _ _ _ _ I')|done..]).
  assert (Htx : c_tx (w_chan w) = false).
  { destruct (livet t) eqn:El.
    - destruct (i_live _ _ _ _ _ _ _ _ _ _ _ I' El) as (_ & _ & _ & _ & _ & ?). cbn in *. congruence.
    - by destruct (i_dead _ _ _ _ _ _ _ _ _ _ _ I' El). }
  assert (Hf : fin_of bl (Some v) = Ready (Some v)) by (by destruct bl).
  destruct w as [polls hpolls [data tx rx wk] ret l]. cbn in *. subst. unfold join_receive. cbn. rewrite Hf.
  eexists. split; [reflexivity|]. cbn. by rewrite last_app.
Qed.
Lemma canceled e bl (s : sys R) cx : Inv e bl s → EDropUser ∈ log s → none is_out (log s) → none is_end (log s) → s_join s ≠ None → join_ready e (log s) →
  ∃ s', step e bl s (JoinPoll cx) = ROk s' ∧ last (log s') = Some (EJoin cx (if bl then Ready None else Panic)).
Proof.
  intros I Ho Hn He Hj Hr. destruct (receive_polled e bl s cx I He Hj Hr) as (w & I' & Hc & (new & Hl) & Hp).
  destruct s as [t [j|] w0]; [|done]. cbn in *. rewrite Hp.
  assert (Ed : c_data (w_chan w) = None).
  { rewrite Hc. destruct (c_data (w_chan w0)) as [v|] eqn:Ed; [|done]. destruct (i_data _ _ _ _ _ _ _ _ _ _ _ I v Ed) as [Hv _].
    pose proof (num_pos is_out _ _ Hv eq_refl). unfold none in Hn. cbn in *. lia. }
  assert (Htx : c_tx (w_chan w) = false).
  { rewrite Hc. destruct (livet t) eqn:El.
    - destruct (i_live _ _ _ _ _ _ _ _ _ _ _ I El) as (_ & Hd & _). pose proof (num_pos is_drop _ _ Ho eq_refl). cbn in *. lia.
    - by destruct (i_dead _ _ _ _ _ _ _ _ _ _ _ I El). }
  destruct w as [polls hpolls [data tx rx wk] ret l]. cbn in *. subst. unfold join_receive.
  destruct bl; eexists; (split; [reflexivity|]); cbn; by rewrite !last_app.
Qed.

(** ** Wake-ups *)

Definition task_op (o : op) : bool := match o with TaskPoll _ | TaskCall | TaskDrop => true | _ => false end.

(** A task, with a receiver waiting. *)
Lemma wake_step e bl (s : sys R) o s' cx : Inv e bl s → task_op o = true → livet (s_task s) = true →
  c_waker (w_chan (s_world s)) = Some cx → step e bl s o = ROk s' →
  (livet (s_task s') = true ∧ c_waker (w_chan (s_world s')) = Some cx ∧ ∃ new, log s' = log s ++ new ∧ num is_drop new = 0) ∨
  (∃ new, log s' = log s ++ new ∧ EWake cx ∈ new).
Proof.
  intros I Ho Hl Hw H. destruct s as [t j [polls hpolls [data tx rx wk] ret l]]. cbn in Hl, Hw. subst wk.
  destruct o; try done; clear Ho; cbn [step s_task s_join s_world] in H.
  - destruct t as [[a|]|]; try done. assert (Ha : a = Unresumed ∨ a = Suspended) by (destruct a; auto; done).
    destruct (e_fut e polls) as [|v| | |] eqn:Eb.
    + left. destruct Ha as [-> | ->]; cbn in H; rewrite Eb in H; cbn in H; injection H as <-; cbn;
        (repeat split; [done..|]); rewrite <-app_assoc; by eexists.
    + right. destruct rx; destruct Ha as [-> | ->]; cbn in H; rewrite Eb in H; cbn in H; injection H as <-; cbn;
        rewrite <-!app_assoc; cbn [app]; (eexists; split; [reflexivity|]); rewrite !elem_of_cons; tauto.
    + destruct (e_aborts e) eqn:Eab; [destruct Ha as [-> | ->]; cbn in H; by rewrite Eb, ?Eab in H|].
      right. destruct Ha as [-> | ->]; cbn in H; rewrite Eb, ?Eab in H; cbn in H; injection H as <-; cbn;
        rewrite <-!app_assoc; cbn [app]; (eexists; split; [reflexivity|]); rewrite !elem_of_cons; tauto.
    + destruct Ha as [-> | ->]; cbn in H; by rewrite Eb in H.
    + destruct Ha as [-> | ->]; cbn in H; by rewrite Eb in H.
  - destruct t as [[|[]]|]; try done. cbn in H. right. destruct (e_act e) as [v|] eqn:Ea.
    + destruct rx; cbn in H; injection H as <-; cbn;
        rewrite <-!app_assoc; cbn [app]; (eexists; split; [reflexivity|]); rewrite !elem_of_cons; tauto.
    + destruct (e_aborts e); [done|]. cbn in H. injection H as <-. cbn.
      rewrite <-!app_assoc; cbn [app]; (eexists; split; [reflexivity|]); rewrite !elem_of_cons; tauto.
  - right. destruct t as [[[]|[]]|]; try done; cbn in H; injection H as <-; cbn;
      rewrite <-!app_assoc; cbn [app]; (eexists; split; [reflexivity|]); rewrite !elem_of_cons; tauto.
Qed.

Lemma step_log e bl (s : sys R) o s' : step e bl s o = ROk s' → task_op o = true → ∃ new, log s' = log s ++ new.
Proof.
  intros H Ho. destruct s as [t j [polls hpolls [data tx rx wk] ret l]].
  destruct o; try done; clear Ho; cbn [step s_task s_join s_world] in H.
  - destruct t as [[a|]|]; try done. destruct (e_aborts e) eqn:Eab, a, rx, wk; cbn in H; rewrite ?Eab in H;
      destruct (e_fut e polls) eqn:Eb; cbn in H; rewrite ?Eab in H; try done; injection H as <-; cbn; rewrite <-?app_assoc; by eexists.
  - destruct t as [[|[]]|]; try done; cbn in H.
    + destruct (e_act e), (e_aborts e), rx, wk; cbn in H; try done; injection H as <-; cbn; rewrite <-?app_assoc; by eexists.
    + destruct (e_aborts e); [done|]. injection H as <-. by eexists.
  - destruct t as [[[]|[]]|]; try done; cbn in H; injection H as <-; cbn; rewrite <-?app_assoc; try (by eexists); exists []; by rewrite app_nil_r.
Qed.
Lemma run_log e bl os (s : sys R) s' : run e bl s os = ROk s' → forallb task_op os = true → ∃ new, log s' = log s ++ new.
Proof.
  revert s. induction os as [|o os IH]; intros s H Ho; cbn [run] in H; [injection H as <-; exists []; by rewrite app_nil_r|].
  cbn in Ho. apply andb_prop in Ho as [Ho Hos].
  destruct (step e bl s o) as [s1| | |] eqn:E; try done. destruct (IH _ H Hos) as [n1 ->]. destruct (step_log _ _ _ _ _ E Ho) as [n2 ->].
  rewrite <-app_assoc. by eexists.
Qed.
Lemma wake_run e bl os (s : sys R) s' cx : Inv e bl s → forallb task_op os = true → livet (s_task s) = true →
  c_waker (w_chan (s_world s)) = Some cx → run e bl s os = ROk s' →
  ∃ new, log s' = log s ++ new ∧ (EDropUser ∈ new → EWake cx ∈ new).
Proof.
  revert s. induction os as [|o os IH]; intros s I Ho Hl Hw H; cbn [run] in H.
  - injection H as <-. exists []. rewrite app_nil_r. split; [done|]. by intros ?%elem_of_nil.
  - cbn in Ho. apply andb_prop in Ho as [Ho Hos]. destruct (step e bl s o) as [s1| | |] eqn:E; try done.
    destruct (wake_step _ _ _ _ _ _ I Ho Hl Hw E) as [(Hl1 & Hw1 & n1 & E1 & Hn1)|(n1 & E1 & Hi)].
    + destruct (IH s1) as (n2 & -> & Hn2); try done; [by eapply Inv_step|]. rewrite E1, <-app_assoc. eexists. split; [done|].
      intros [Hd|Hd]%elem_of_app; [|apply elem_of_app; right; by apply Hn2]. exfalso. revert Hd. by eapply num_zero.
    + destruct (run_log _ _ _ _ _ H Hos) as [n2 ->]. rewrite E1, <-app_assoc. eexists. split; [done|]. intros _. by apply in_app_l.
Qed.
(** Pending, with nothing to wait for but the result. *)
Lemma pending_waker e bl (s : sys R) cx s' : Inv e bl s → step e bl s (JoinPoll cx) = ROk s' →
  last (log s') = Some (EJoin cx Pending) → handle_done (e_handle e) (log s') →
  livet (s_task s') = true ∧ c_waker (w_chan (s_world s')) = Some cx.
Proof.
  intros I H Hp Hd. pose proof (Inv_step _ _ _ _ _ I H) as I'.
  destruct s as [t [j|] w]; [|done]. cbn [step s_join s_world s_task] in H.
  destruct (o_poll (join (e_handle e) (fin_of bl)) cx (j, w)) as [r [j' w']] eqn:E.
  assert (Hs : s' = Sys t (Some j') (say [EJoin cx r] w') ∧ (r ≠ Abort ∧ r ≠ UB)).
  { destruct r; cbn in H; try done; by injection H as <-. }
  destruct Hs as [-> _]. cbn in Hp. rewrite last_app in Hp. cbn in Hp. injection Hp as ->.
  pose proof (i_join _ _ _ _ _ _ _ _ _ _ _ I') as Ij. cbn in Ij.
  assert (j' = JReceive ∧ c_tx (w_chan w') = true ∧ c_waker (w_chan w') = Some cx) as (-> & Htx & Hwk).
  { assert (Hrec : ∀ w0, join_receive (fin_of bl) cx w0 = (Pending, (j', w')) → j' = JReceive ∧ c_tx (w_chan w') = true ∧ c_waker (w_chan w') = Some cx).
    { intros w0 Er. unfold join_receive in Er. destruct w0 as [? ? [d [] rx wk] ? ?]; cbn in Er; [by injection Er as <- <-|].
      destruct bl; cbn in Er; [done|]. by destruct d. }
    assert (Hh : ∀ a, join_handle (e_handle e) (fin_of bl) a cx w = (Pending, (j', w')) → j' = JReceive ∧ c_tx (w_chan w') = true ∧ c_waker (w_chan w') = Some cx).
    { intros a Er. unfold join_handle in Er. destruct (o_poll (into_future (foreign (e_handle e))) cx (a, w)) as [[] [a' w1]]; try done.
      - injection Er as <- <-. cbn in Ij. destruct Hd as (n & c & Hi & Eh). destruct Ij as (_ & _ & Hw & _). apply Hw in Hi. congruence.
      - by apply Hrec in Er. }
    destruct j as [|a| | |]; cbn [o_poll join] in E; eauto; done. }
  cbn. split; [|done]. destruct (livet t) eqn:El; [done|]. destruct (i_dead _ _ _ _ _ _ _ _ _ _ _ I' El). cbn in *. congruence.
Qed.

(** ** Whole runs *)

Lemma run_snoc e bl os (s s1 s' : sys R) o : run e bl s os = ROk s1 → step e bl s1 o = ROk s' → run e bl s (os ++ [o]) = ROk s'.
Proof.
  revert s. induction os as [|x os IH]; intros s H H1; cbn [run app] in *.
  - injection H as ->. by rewrite H1.
  - destruct (step e bl s x); try done. by apply IH.
Qed.
Lemma run_snoc_inv e bl os (s s' : sys R) o : run e bl s (os ++ [o]) = ROk s' → ∃ s1, run e bl s os = ROk s1 ∧ step e bl s1 o = ROk s'.
Proof.
  revert s. induction os as [|x os IH]; intros s H; cbn [run app] in *.
  - exists s. split; [done|]. by destruct (step e bl s o).
  - destruct (step e bl s x); try done. by apply IH.
Qed.
Lemma joined e bl (s : sys R) : Inv e bl s → none is_end (log s) → s_join s ≠ None.
Proof.
  intros I Hn Hj. pose proof (i_join _ _ _ _ _ _ _ _ _ _ _ I) as Ij. rewrite Hj in Ij. destruct Ij as [Hx _].
  destruct (i_norx _ _ _ _ _ _ _ _ _ _ _ I Hx). unfold none in Hn. lia.
Qed.
Lemma delivered_run e bl os (s : sys R) cx v : run e bl (start bl) os = ROk s → EOut v ∈ log s → none is_end (log s) → join_ready e (log s) →
  ∃ s', run e bl (start bl) (os ++ [JoinPoll cx]) = ROk s' ∧ last (log s') = Some (EJoin cx (Ready (Some v))).
Proof.
  intros H Hv Hn Hr. pose proof (Inv_run _ _ _ _ _ (Inv_start e bl) H) as I. pose proof (joined _ _ _ I Hn) as Hj.
  destruct (delivered e bl s cx v I Hv Hn Hj Hr) as (s' & E & L). exists s'. split; [by eapply run_snoc|done].
Qed.
Lemma canceled_run e bl os (s : sys R) cx : run e bl (start bl) os = ROk s → EDropUser ∈ log s → none is_out (log s) → none is_end (log s) → join_ready e (log s) →
  ∃ s', run e bl (start bl) (os ++ [JoinPoll cx]) = ROk s' ∧ last (log s') = Some (EJoin cx (if bl then Ready None else Panic)).
Proof.
  intros H Hv Ho Hn Hr. pose proof (Inv_run _ _ _ _ _ (Inv_start e bl) H) as I. pose proof (joined _ _ _ I Hn) as Hj.
  destruct (canceled e bl s cx I Hv Ho Hn Hj Hr) as (s' & E & L). exists s'. split; [by eapply run_snoc|done].
Qed.
Lemma value_run e bl os (s : sys R) : run e bl (start bl) os = ROk s →
  num is_out (log s) ≤ 1 ∧ num is_got (log s) + num is_lost (log s) ≤ num is_out (log s) ∧
  (s_join s = None → num is_got (log s) + num is_lost (log s) = num is_out (log s)).
Proof.
  intros H. pose proof (Inv_run _ _ _ _ _ (Inv_start e bl) H) as I. pose proof (i_bal _ _ _ _ _ _ _ _ _ _ _ I) as Hb.
  pose proof (i_out _ _ _ _ _ _ _ _ _ _ _ I) as Ho. split; [done|]. split; [lia|]. intros Hj.
  pose proof (i_join _ _ _ _ _ _ _ _ _ _ _ I) as Ij. rewrite Hj in Ij. destruct Ij as [Hx _].
  destruct (i_norx _ _ _ _ _ _ _ _ _ _ _ I Hx) as (_ & _ & Hd). rewrite Hd in Hb. lia.
Qed.
Lemma waked_run e bl os (s : sys R) os' cx s1 : run e bl (start bl) (os ++ [JoinPoll cx]) = ROk s1 →
  last (log s1) = Some (EJoin cx Pending) → handle_done (e_handle e) (log s1) → forallb task_op os' = true →
  run e bl s1 os' = ROk s → ∃ new, log s = log s1 ++ new ∧ (EDropUser ∈ new → EWake cx ∈ new).
Proof.
  intros H Hl Hd Ho H'. pose proof (Inv_run _ _ _ _ _ (Inv_start e bl) H) as I1.
  apply run_snoc_inv in H as (s0 & H0 & E). pose proof (Inv_run _ _ _ _ _ (Inv_start e bl) H0) as I0.
  destruct (pending_waker _ _ _ _ _ I0 E Hl Hd) as [Hlive Hw]. by eapply wake_run.
Qed.
Lemma step_log_any e bl (s : sys R) o s' : step e bl s o = ROk s' → ∃ new, log s' = log s ++ new.
Proof.
  destruct (task_op o) eqn:Ho; [intros H; by eapply step_log|]. intros H.
  assert (Hrec : ∀ cx (w : world R) r j' w', join_receive (fin_of bl) cx w = (r, (j', w')) → ∃ new, w_log w' = w_log w ++ new).
  { intros cx w r j' w' Er. unfold join_receive in Er. destruct w as [? ? [d [] rx wk] ? l]; cbn in Er.
    - injection Er as <- <- <-. exists []. cbn. by rewrite app_nil_r.
    - destruct (fin_of bl d); injection Er as <- <- <-; by eexists. }
  assert (Hh : ∀ a cx (w : world R) r j' w', join_handle (e_handle e) (fin_of bl) a cx w = (r, (j', w')) → ∃ new, w_log w' = w_log w ++ new).
  { intros a cx w r j' w' Er. unfold join_handle in Er.
    assert (Hp : ∃ r0 a0 w0, o_poll (into_future (foreign (e_handle e))) cx (a, w) = (r0, (a0, w0)) ∧ ∃ new, w_log w0 = w_log w ++ new).
    { destruct a; cbn; try (eexists _, _, _; split; [reflexivity|]; exists []; by rewrite app_nil_r);
        destruct (e_handle e (w_hpolls w)) as [z| | |]; try (destruct z as [|p|[p|p|]]); cbn; eexists _, _, _; (split; [reflexivity|]); cbn;
        rewrite <-?app_assoc; by eexists. }
    destruct Hp as (r0 & a0 & w0 & Ep & n0 & En). rewrite Ep in Er.
    assert (Hd : ∃ new, w_log (o_drop (into_future (foreign (e_handle e))) (a0, w0)).2 = w_log w ++ new).
    { destruct a0; cbn; rewrite En, <-?app_assoc; by eexists. }
    destruct Hd as [n1 En1]. destruct r0; try (injection Er as <- <- <-; by eexists).
    - destruct (Hrec _ _ _ _ _ Er) as [n2 ->]. rewrite En1, <-app_assoc. by eexists.
    - assert (w' = rx_drop (o_drop (into_future (foreign (e_handle e))) (a0, w0)).2) as -> by congruence. unfold rx_drop, say, set_chan. cbn [w_log]. rewrite En1, <-app_assoc. by eexists. }
  destruct s as [t [j|] w]; destruct o as [| | |cx|]; try done; cbn [step s_join s_world s_task] in H.
  - destruct (o_poll (join (e_handle e) (fin_of bl)) cx (j, w)) as [r [j' w']] eqn:E.
    assert (Hs : s' = Sys t (Some j') (say [EJoin cx r] w')) by (destruct r; cbn in H; try done; by injection H as <-).
    subst s'. cbn. assert (Hn : ∃ new, w_log w' = w_log w ++ new).
    { destruct j; cbn [o_poll join] in E; eauto; injection E as <- <- <-; exists []; by rewrite app_nil_r. }
    destruct Hn as [n ->]. rewrite <-app_assoc. by eexists.
  - injection H as <-. destruct j as [|[]| | |]; cbn; rewrite <-?app_assoc; by eexists.
Qed.

(** ** block_on *)

Fixpoint pend (i : nat) (cxs : list nat) : list (event R) :=
  match cxs with [] => [] | cx :: cxs => EPoll i cx :: ETask Pending :: pend (S i) cxs end.
Definition alive (a : astate) : Prop := a = Unresumed ∨ a = Suspended.

Lemma poll_all_app ab (b : nat → polled R) xs ys s s' : poll_all ab b xs s = (Ready tt, s') →
  poll_all ab b (xs ++ ys) s = poll_all ab b ys s'.
Proof.
  revert s. induction xs as [|x xs IH]; intros s; cbn [poll_all app]; [by intros [= <-]|].
  destruct (o_poll _ x s) as [r [a w]]. destruct r; try done; apply IH.
Qed.
Lemma poll_all_pend ab (b : nat → polled R) xs a w : alive a → (∀ i, w_polls w ≤ i → i < w_polls w + length xs → b i = Pending) →
  ∃ a', alive a' ∧ poll_all ab b xs (a, w) =
    (Ready tt, (a', World (w_polls w + length xs) (w_hpolls w) (w_chan w) (w_ret w) (w_log w ++ pend (w_polls w) xs))).
Proof.
  revert a w. induction xs as [|x xs IH]; intros a w Ha Hb.
  - exists a. split; [done|]. destruct w. cbn. by rewrite Nat.add_0_r, app_nil_r.
  - cbn [poll_all pend length]. assert (E : b (w_polls w) = Pending) by (apply Hb; cbn; lia).
    assert (Ep : o_poll (poll_dyn (virtual ab (blocked_on b))) x (a, w)
      = (Pending, (Suspended, World (S (w_polls w)) (w_hpolls w) (w_chan w) (w_ret w) (w_log w ++ [EPoll (w_polls w) x])))).
    { destruct Ha as [-> | ->]; cbn; rewrite E; reflexivity. }
    rewrite Ep. set (w1 := say [ETask Pending] _). destruct (IH Suspended w1) as (a' & Ha' & ->); [by right| |].
    + intros i Hi Hi'. cbn in Hi, Hi'. apply Hb; cbn; lia.
    + exists a'. split; [done|]. cbn. rewrite <-!app_assoc. cbn. by rewrite Nat.add_succ_r.
Qed.
Lemma poll_all_over (b : nat → polled R) xs a w : a = Returned ∨ a = Panicked →
  poll_all false b xs (a, w) = (Ready tt, (a, say (repeat (ETask Panic) (length xs)) w)).
Proof.
  intros Ha. revert w. induction xs as [|x xs IH]; intros w.
  - destruct w. unfold say. cbn. by rewrite app_nil_r.
  - cbn [poll_all length repeat]. assert (Ep : o_poll (poll_dyn (virtual false (blocked_on b))) x (a, w) = (Panic, (a, w)))
      by (destruct Ha as [-> | ->]; done).
    rewrite Ep, IH. unfold say. cbn. by rewrite <-app_assoc.
Qed.
Lemma C40_unwinds ab (b : nat → polled R) cxs cx v : completes b (length cxs) v →
  ∃ w, block_on ab b (cxs ++ [cx]) true = (Panic, w) ∧ w_log w = pend 0 cxs ++ [EPoll (length cxs) cx; EOut v; EDropUser; ETask (Ready tt); ELost v].
Proof.
  intros [Hw Eb]. destruct (poll_all_pend ab b cxs Unresumed new_world) as (a & Ha & E); [by left|intros i _ Hi; apply Hw; cbn in Hi; lia|].
  unfold block_on. rewrite (poll_all_app _ _ _ _ _ _ E). clear E.
  destruct Ha as [-> | ->]; cbn; rewrite Eb; cbn; eexists; (split; [reflexivity|]); cbn; by rewrite <-!app_assoc.
Qed.
Lemma C40_stops ab (b : nat → polled R) cxs cx cxs' panics : waits b (length cxs) → b (length cxs) = Abort ∨ b (length cxs) = UB →
  (block_on ab b (cxs ++ cx :: cxs') panics).1 = Abort ∨ (block_on ab b (cxs ++ cx :: cxs') panics).1 = UB.
Proof.
  intros Hw Eb. destruct (poll_all_pend ab b cxs Unresumed new_world) as (a & Ha & E); [by left|intros i _ Hi; apply Hw; cbn in Hi; lia|].
  unfold block_on. rewrite (poll_all_app _ _ _ _ _ _ E). clear E.
  destruct Eb as [Eb|Eb]; [left|right]; destruct Ha as [-> | ->]; cbn; rewrite Eb; done.
Qed.
(** The executor's future is released once, by the end of the join future. *)
Lemma handle_run (e : setting R) bl os (s : sys R) : run e bl (start bl) os = ROk s →
  num is_hdrop (log s) ≤ 1 ∧ (s_join s = None ∨ ¬ none is_end (log s) → num is_hdrop (log s) = 1).
Proof.
  intros H. destruct (Inv_run _ _ _ _ _ (Inv_start e bl) H) as [_ _ _ _ _ _ _ _ _ Hrx _ Hj _ _]. unfold none.
  destruct (c_rx (w_chan (s_world s))).
  - specialize (Hrx eq_refl) as (_ & _ & He). destruct (s_join s) as [[|a| | |]|]; cbn [joinP] in Hj; (split; [lia|]); intros [Q|Q]; try done; destruct Hj; lia.
  - destruct (s_join s) as [[|a| | |]|]; cbn [joinP] in Hj; destruct Hj as [Q Hj]; try done; (split; [lia|]); intros _; done.
Qed.
End R.
