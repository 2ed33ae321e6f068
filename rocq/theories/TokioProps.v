(** C87: tokio's runtime as the executor. *)

From Coq Require Import List Bool Arith ZArith Lia.
From stdpp Require Import base numbers list.
From Verif Require Import FutModel FutSpec FutProps TokioModel TokioSpec TokioProofs.
Import stdpp.list.

(** Awaiting the task from the context [cx] gives [r], a panic being one with
    the payload in [ps]. *)
Definition gives {R} (e : setting R) (b : bool) (t : tokio R) cx (r : polled (option R)) (ps : list payload) : Prop :=
  ∃ t', tstep e b t (Await cx) = TOk t' ∧ last (tlog t') = Some (EJoin cx r) ∧ t_why t' = t_why t ++ ps.

Section C87.
Context {R : Type} (e : setting R) (b : bool).
Implicit Types (t : tokio R).

(** Whatever the runtime does is something that FutModel's executors may do: so
    C39 and C41 hold of it. *)
Theorem C87_executor os t : trun e b (tstart b) os = TOk t →
  ∃ h os', run (Setting (e_fut e) (e_act e) h (e_aborts e)) b (start b) os' = ROk (t_sys t).
Proof. intros H. destruct (executor_run e b os t H) as (h & os' & Hh). exists h, os'. by apply Hh. Qed.
Theorem C87_sound os t : trun e b (tstart b) os = TOk t →
  ∃ h, each (justified (Setting (e_fut e) (e_act e) h (e_aborts e)) b) (tlog t).
Proof.
  intros H. destruct (C87_executor os t H) as (h & os' & Hr). exists h.
  destruct b; [by eapply C41_sound|by eapply C39_sound].
Qed.

(** What has become of the task decides what awaiting it gives. *)
Lemma fates os t : trun e b (tstart b) os = TOk t → none is_end (tlog t) →
  (t_stage t = Running ∧ alive (tlog t)) ∨
  (∃ v, t_stage t = Finished JoinOk ∧ gave (tlog t) v) ∨
  (t_stage t = Finished JoinPanic ∧ panicked e (tlog t) ∧ e_aborts e = false) ∨
  (t_stage t = Finished JoinCancelled ∧ abandoned e (tlog t)).
Proof.
  intros H Hn. pose proof (inv_run e b _ os t (inv_start e b) H) as [IJ IF].
  destruct (t_stage t) as [|[]|] eqn:Es; cbn in IJ, IF.
  - left. split; [done|]. by destruct IF as (_ & _ & _ & ? & _).
  - right. left. destruct IF as (_ & _ & Hd & v & Ho & _). exists v. done.
  - right. right. left. destruct IF as (_ & _ & Hd & Ho & Ha & Hp & _). done.
  - right. right. right. destruct IF as (_ & _ & Hd & Ho & Hr & Hp & _). done.
  - by destruct IJ as [? _].
Qed.
Lemma exclusive (l : list (event R)) :
  (panicked e l → ¬ abandoned e l) ∧ (∀ v, gave l v → ¬ panicked e l ∧ ¬ abandoned e l) ∧
  (alive l → ¬ panicked e l ∧ ¬ abandoned e l ∧ ∀ v, ¬ gave l v).
Proof.
  unfold panicked, abandoned, gave. split; [|split].
  - intros (_ & _ & Hp) (_ & _ & Hr & Hf). destruct Hp as [Hp|[? _]]; [|done].
    apply Exists_exists in Hp as (n & Hn & E). rewrite Forall_forall in Hf. rewrite (Hf n Hn) in E. done.
  - intros v (_ & E). split; intros (_ & E' & _); congruence.
  - tauto.
Qed.

Theorem C87_fates os t : trun e b (tstart b) os = TOk t → none is_end (tlog t) →
  alive (tlog t) ∨ (∃ v, gave (tlog t) v) ∨ panicked e (tlog t) ∨ abandoned e (tlog t).
Proof. intros H Hn. destruct (fates os t H Hn) as [[_ ?]|[(v & _ & ?)|[(_ & ? & _)|[_ ?]]]]; eauto. Qed.

(** It is pending while the task runs. *)
Theorem C87_pending os t cx : trun e b (tstart b) os = TOk t → none is_end (tlog t) → alive (tlog t) →
  gives e b t cx Pending [].
Proof.
  intros H Hn Ha. pose proof (await_waits e b cx t (inv_run e b _ os t (inv_start e b) H) Hn) as HA.
  destruct (exclusive (tlog t)) as (_ & _ & HX). destruct (HX Ha) as (X1 & X2 & X3).
  destruct (fates os t H Hn) as [[Es _]|[(v & _ & F)|[(_ & F & _)|[_ F]]]]; [|by destruct (X3 v)|done|done].
  unfold awaited in HA. rewrite Es in HA. destruct HA as (w' & E & Hl & _). by eexists.
Qed.
(** It yields the output, at once, when there is one. *)
Theorem C87_output os t cx v : trun e b (tstart b) os = TOk t → none is_end (tlog t) → gave (tlog t) v →
  gives e b t cx (Ready (Some v)) [].
Proof.
  intros H Hn Hg. pose proof (await_waits e b cx t (inv_run e b _ os t (inv_start e b) H) Hn) as HA.
  destruct (exclusive (tlog t)) as (_ & HX & HY). destruct (HX v Hg) as (X1 & X2).
  destruct (fates os t H Hn) as [[_ F]|[(v' & Es & F)|[(_ & F & _)|[_ F]]]]; [|  |done|done].
  { destruct (HY F) as (_ & _ & HZ). by destruct (HZ v). }
  unfold awaited in HA. rewrite Es in HA. destruct HA as (v'' & Ho & w' & E & Hl & _).
  destruct Hg as [_ Hg]. assert (v'' = v) as -> by congruence. by eexists.
Qed.
(** It panics as the user's code has, with the same payload. *)
Theorem C87_panic os t cx : trun e b (tstart b) os = TOk t → none is_end (tlog t) → panicked e (tlog t) →
  e_aborts e = false ∧ gives e b t cx Panic [OfUser].
Proof.
  intros H Hn Hp. pose proof (await_waits e b cx t (inv_run e b _ os t (inv_start e b) H) Hn) as HA.
  destruct (exclusive (tlog t)) as (HX & HY & HZ).
  destruct (fates os t H Hn) as [[_ F]|[(v' & _ & F)|[(Es & _ & Ha)|[_ F]]]].
  - destruct (HZ F). done.
  - by destruct (HY _ F).
  - split; [done|]. unfold awaited in HA. rewrite Es in HA. destruct HA as (w' & E & Hl & _). by eexists.
  - by destruct (HX Hp).
Qed.
(** A task that the runtime has dropped: spawn_blocking says so; spawn panics,
    with tokio's complaint that there was no panic, or aborts. *)
Theorem C87_dropped os t cx : trun e b (tstart b) os = TOk t → none is_end (tlog t) → abandoned e (tlog t) →
  if b then gives e b t cx (Ready None) []
  else if e_aborts e then tstep e b t (Await cx) = TAbort
  else gives e b t cx Panic [NotAPanic].
Proof.
  intros H Hn Hp. pose proof (await_waits e b cx t (inv_run e b _ os t (inv_start e b) H) Hn) as HA.
  destruct (exclusive (tlog t)) as (HX & HY & HZ).
  destruct (fates os t H Hn) as [[_ F]|[(v' & _ & F)|[(_ & F & _)|[Es _]]]].
  - by destruct (HZ F) as (_ & ? & _).
  - by destruct (HY _ F).
  - by destruct (HX F).
  - unfold awaited in HA. rewrite Es in HA. destruct b.
    + destruct HA as (w' & E & Hl & _). eexists. split; [exact E|]. done.
    + destruct (e_aborts e); [done|]. destruct HA as (w' & E & Hl & _). eexists. split; [exact E|]. done.
Qed.

(** The complaint about an executor that drops its tasks never comes. *)
Theorem C87_never os t : trun e b (tstart b) os = TOk t → ExecutorDropped ∉ t_why t.
Proof.
  revert t. induction os as [|o os IH] using rev_ind; intros t.
  { intros [= <-]. by apply not_elem_of_nil. }
  rewrite trun_app. destruct (trun e b (tstart b) os) as [t1| | |] eqn:E1; try done. cbn [trun].
  destruct (tstep e b t1 o) as [t2| | |] eqn:E2; try done. intros [= <-]. specialize (IH _ eq_refl).
  assert (HO : (∃ cx, o = Await cx) ∨ ¬ ∃ cx, o = Await cx).
  { destruct o; [right; by intros [? ?]..|left; eauto|right; by intros [? ?]]. }
  destruct HO as [[cx ->]|Ho].
  - pose proof (inv_run e b _ os t1 (inv_start e b) E1) as I1.
    destruct (decide (num is_end (tlog t1) = 0)) as [Hn|Hn].
    + assert (HG : ∀ r ps, gives e b t1 cx r ps → ExecutorDropped ∉ ps → ExecutorDropped ∉ t_why t2).
      { intros r ps (t' & E' & _ & Hw) Hps. assert (t' = t2) as -> by congruence. rewrite Hw, elem_of_app. tauto. }
      assert (HL : ∀ p, p ≠ ExecutorDropped → ExecutorDropped ∉ [p]).
      { intros p Hp. rewrite elem_of_list_singleton. congruence. }
      destruct (C87_fates os t1 E1 Hn) as [F|[[v F]|[F|F]]].
      * eapply HG; [by eapply C87_pending|apply not_elem_of_nil].
      * eapply HG; [by eapply C87_output|apply not_elem_of_nil].
      * eapply HG; [by eapply C87_panic|by apply HL].
      * pose proof (C87_dropped os t1 cx E1 Hn F) as HD. destruct b.
        -- eapply HG; [exact HD|apply not_elem_of_nil].
        -- destruct (e_aborts e); [congruence|]. eapply HG; [exact HD|by apply HL].
    + destruct (await_over e b cx t1 t2 I1 Hn E2) as (_ & j & _ & _ & ->). cbn [t_why].
      rewrite elem_of_app, elem_of_list_singleton. intros [?|?]; done.
  - assert (Hw : t_why t2 = t_why t1); [|by rewrite Hw].
    assert (HF : ∀ r s, finish e b r t1 s = TOk t2 → t_why t2 = t_why t1).
    { intros r s. unfold finish. destruct (step e b s TaskDrop); try done. by intros [= <-]. }
    destruct o as [cx| |cx|]; cbn [tstep] in E2.
    + destruct (t_stage t1); try done. destruct (step e b (t_sys t1) _) as [s1| | |]; try done. cbn [then_] in E2.
      destruct (task_result s1) as [[| | | |]|]; try done; [by injection E2 as <-|by eapply HF..].
    + destruct (t_stage t1); [by eapply HF|by injection E2 as <-..].
    + destruct Ho. eauto.
    + destruct (step e b (t_sys t1) JoinDrop); try done. cbn [then_] in E2. by injection E2 as <-.
Qed.

(** Whoever awaits is woken when the task comes to its end, once. *)
Theorem C87_wake os os' cx t t1 t2 : trun e b (tstart b) os = TOk t → none is_end (tlog t) → alive (tlog t) →
  tstep e b t (Await cx) = TOk t1 → forallb runtime_op os' = true → trun e b t1 os' = TOk t2 →
  t_wakes t2 = t_wakes t1 ++ (if decide (num is_drop (tlog t2) = 0) then [] else [cx]).
Proof.
  intros H Hn Ha E Ho H2. pose proof (inv_run e b _ os t (inv_start e b) H) as I.
  pose proof (await_waits e b cx t I Hn) as HA.
  destruct (exclusive (tlog t)) as (_ & _ & HX). destruct (HX Ha) as (X1 & X2 & X3).
  destruct (fates os t H Hn) as [[Es _]|[(v & _ & F)|[(_ & F & _)|[_ F]]]]; [|by destruct (X3 v)|done|done].
  unfold awaited in HA. rewrite Es in HA. destruct HA as (w' & E' & _). rewrite E' in E. injection E as <-.
  pose proof (waked e b) as HW. rewrite (λ P Q, HW _ os' t2 cx Ho P Q H2) by done. cbn [t_wakes]. f_equal.
  assert (I2 : inv e b t2).
  { eapply inv_run; [|exact H2]. by eapply inv_step. }
  destruct I2 as [IJ IF]. destruct (t_stage t2) as [|[]|]; cbn in IF.
  - rewrite decide_True; [done|]. by destruct IF as (_ & _ & _ & ? & _).
  - rewrite decide_False; [done|]. by destruct IF as (_ & _ & ? & _).
  - rewrite decide_False; [done|]. by destruct IF as (_ & _ & ? & _).
  - rewrite decide_False; [done|]. by destruct IF as (_ & _ & ? & _).
  - rewrite decide_False; [done|]. by destruct IF as (_ & _ & ?).
Qed.
End C87.

(** Start to end: a future that completes at its poll [k], polled so often,
    then awaited. *)
Lemma works {R} (e : setting R) cxs : waits (e_fut e) (length cxs) →
  ∃ t, trun e false (tstart false) (map Work cxs) = TOk t ∧ t_stage t = Running ∧
    w_polls (s_world (t_sys t)) = length cxs ∧ none is_end (tlog t) ∧ alive (tlog t) ∧ outs (tlog t) = [] ∧
    c_rx (w_chan (s_world (t_sys t))) = true ∧ s_join (t_sys t) = Some JUnresumed.
Proof.
  induction cxs as [|cx cxs IH] using rev_ind; intros Hw.
  { eexists. split; [reflexivity|]. done. }
  rewrite app_length in Hw. cbn in Hw.
  destruct IH as (t & E & Es & Hp & Hn & Ha & Ho & Hr & Hj); [intros i Hi; apply Hw; lia|].
  pose proof (inv_run e false _ _ t (inv_start e false) E) as [_ IF]. rewrite Es in IF.
  destruct IF as (_ & _ & IT & _).
  rewrite map_app, trun_app, E. cbn [map trun].
  destruct t as [[ta jo w] st wa ws wy]. cbn [t_sys t_stage s_task s_join s_world tlog] in *. subst st.
  assert (Hta : ∃ a, ta = Some (inl a) ∧ (a = Unresumed ∨ a = Suspended)) by (destruct IT; eauto).
  destruct Hta as (a & -> & Hta). cbn [tstep t_stage step t_sys s_task s_world s_join].
  cbn [poll_dyn virtual o_poll r_poll]. rewrite poll_task by done. rewrite Hp.
  rewrite (Hw (length cxs)) by lia. cbn zeta. cbv beta iota.
  change (Z.eqb PPending PPending) with true. cbv iota. cbn [stop then_]. erewrite task_said by reflexivity.
  eexists. split; [reflexivity|]. split; [done|]. split; [cbn; rewrite app_length; cbn; lia|].
  unfold tlog, none, alive in *. cbn [t_sys s_world say w_log w_chan s_join] in *. rewrite !num_app', !outs_app, Hn, Ha, Ho. done.
Qed.
Theorem C87_completes {R} (e : setting R) k v cxs c cx : completes (e_fut e) k v → length cxs = k →
  ∃ t, trun e false (tstart false) (map Work (cxs ++ [c]) ++ [Await cx]) = TOk t ∧
    last (tlog t) = Some (EJoin cx (Ready (Some v))) ∧ t_why t = [].
Proof.
  intros [Hw Hv] <-. destruct (works e cxs Hw) as (t & E & Es & Hp & Hn & Ha & Ho & Hr & Hj).
  pose proof (inv_run e false _ _ t (inv_start e false) E) as [_ IF]. rewrite Es in IF.
  destruct IF as (_ & _ & IT & _).
  assert (E1 : ∃ t1, tstep e false t (Work c) = TOk t1 ∧ none is_end (tlog t1) ∧ gave (tlog t1) v).
  { destruct t as [[ta jo w] st wa ws wy]. cbn [t_sys t_stage s_task s_join s_world tlog] in *. subst st.
    assert (Hta : ∃ a, ta = Some (inl a) ∧ (a = Unresumed ∨ a = Suspended)) by (destruct IT; eauto).
    destruct Hta as (a & -> & Hta). cbn [tstep t_stage step t_sys s_task s_world s_join].
    cbn [poll_dyn virtual o_poll r_poll]. rewrite poll_task by done. rewrite Hp, Hv. cbn zeta. cbv beta iota.
    change (Z.eqb Completed PPending) with false. change (Z.eqb Completed Completed) with true. cbv iota. cbn [stop then_].
    erewrite task_said by reflexivity. unfold finish. cbn [step s_task s_world s_join spawned async_block o_drop then_ snd].
    eexists. split; [reflexivity|]. unfold gave, alive, tlog in *. cbn [t_sys s_world].
    set (w1 := say [ETask _] _). assert (HQ : wlook w1 = TokioProofs.plus (wlook w) (View 0 1 0 [v] [length cxs])).
    { unfold w1. rewrite look_say, look_tx_send, !look_say. change (wlook (World _ _ _ _ (w_log w))) with (wlook w).
      destruct (wlook w). unfold TokioProofs.plus, look. cbn. rewrite !app_nil_r, !Nat.add_0_r, <-?app_assoc. cbn. done. }
    clearbody w1. pose proof (f_equal q_end HQ) as H1. pose proof (f_equal q_drop HQ) as H2. pose proof (f_equal q_outs HQ) as H4.
    cbn [q_end q_drop q_outs wlook look TokioProofs.plus] in H1, H2, H4. change (log _) with (w_log w) in Hn, Ha, Ho. unfold none in *.
    change (log _) with (w_log w1). rewrite Hn in H1. rewrite Ha in H2. rewrite Ho in H4. rewrite H1, H2, H4. done. }
  destruct E1 as (t1 & E1 & Hn1 & Hg).
  assert (E2 : trun e false (tstart false) (map Work (cxs ++ [c])) = TOk t1).
  { rewrite map_app, trun_app, E. cbn [map trun]. by rewrite E1. }
  destruct (C87_output e false _ t1 cx v E2 Hn1 Hg) as (t' & E3 & Hl & Hy).
  exists t'. rewrite trun_app, E2. cbn [trun]. rewrite E3. split; [done|]. split; [done|].
  rewrite Hy, app_nil_r.
  assert (HW : ∀ cxs (t0 t2 : tokio R), trun e false t0 (map Work cxs) = TOk t2 → t_why t2 = t_why t0).
  { clear. induction cxs as [|c cxs IH]; intros t0 t2; cbn [map trun]; [by intros [= <-]|].
    destruct (tstep e false t0 (Work c)) as [t1| | |] eqn:E; try done. intros H. rewrite (IH _ _ H). clear IH H.
    cbn [tstep] in E. destruct (t_stage t0); try done. destruct (step e false (t_sys t0) _) as [s1| | |]; try done. cbn [then_] in E.
    assert (HF : ∀ r, finish e false r t0 s1 = TOk t1 → t_why t1 = t_why t0).
    { intros r. unfold finish. destruct (step e false s1 TaskDrop); try done. by intros [= <-]. }
    destruct (task_result s1) as [[| | | |]|]; try done; [by injection E as <-|by eapply HF..]. }
  by rewrite (HW _ _ _ E2).
Qed.

(** spawn does not tell a task dropped with the runtime from a panic: awaiting
    it panics, but not with the words meant for that, and ends the process
    where panics may not leave [extern "C"] functions. *)
Theorem C87_dropped_refuted : ∃ (e : setting nat) os t,
  trun e false (tstart false) os = TOk t ∧ none is_end (tlog t) ∧ abandoned e (tlog t) ∧
  ¬ gives e false t 2 Panic [ExecutorDropped] ∧
  trun (Setting (e_fut e) (e_act e) (e_handle e) true) false (tstart false) (os ++ [Await 2]) = TAbort.
Proof.
  exists (Setting (λ _, Pending) None (λ _, CUB) false), [Work 1; Shutdown]. eexists.
  split; [vm_compute; reflexivity|]. split; [done|]. split.
  - split; [by vm_compute|]. split; [done|]. split; [done|]. repeat constructor.
  - split; [|by vm_compute]. intros (t' & E & _ & Hw). vm_compute in E. injection E as <-. by vm_compute in Hw.
Qed.

(** ** Examples *)
Definition tk1 : setting nat := Setting (λ n, match n with 2 => Ready 42 | _ => Pending end) (Some 7) (λ _, CUB) false.
Example C87_ex_run : ∃ t, trun tk1 false (tstart false) [Work 1; Await 9; Work 2; Await 10; Work 3] = TOk t ∧
  gave (tlog t) 42 ∧ none is_end (tlog t) ∧ t_wakes t = [10] ∧ t_why t = [].
Proof. eexists. split; [vm_compute; reflexivity|]. by vm_compute. Qed.
Example C87_ex_completes : completes (e_fut tk1) 2 42.
Proof. split; [|done]. intros [|[|]] ?; [done..|lia]. Qed.
Example C87_ex_blocking : ∃ t, trun tk1 true (tstart true) [Await 4; Work 0; Await 5] = TOk t ∧
  last (tlog t) = Some (EJoin 5 (Ready (Some 7))) ∧ t_wakes t = [4].
Proof. eexists. split; [vm_compute; reflexivity|]. by vm_compute. Qed.
Example C87_ex_shutdown : ∃ t, trun tk1 true (tstart true) [Shutdown] = TOk t ∧ abandoned tk1 (tlog t) ∧ none is_end (tlog t).
Proof. eexists. split; [vm_compute; reflexivity|]. split; [|done]. split; [by vm_compute|]. repeat split. constructor. Qed.
Example C87_ex_panic : let e : setting nat := Setting (λ n, match n with 0 => Pending | _ => Panic end) None (λ _, CUB) false in
  ∃ t, trun e false (tstart false) [Work 1; Work 1] = TOk t ∧ panicked e (tlog t) ∧ none is_end (tlog t).
Proof.
  eexists. split; [vm_compute; reflexivity|]. split; [|done]. split; [by vm_compute|]. split; [done|].
  left. apply Exists_exists. exists 1. split; [|done]. vm_compute. right. left.
Qed.

Print Assumptions C87_executor.
Print Assumptions C87_sound.
Print Assumptions C87_fates.
Print Assumptions C87_pending.
Print Assumptions C87_output.
Print Assumptions C87_panic.
Print Assumptions C87_dropped.
Print Assumptions C87_never.
Print Assumptions C87_wake.
Print Assumptions C87_completes.
Print Assumptions C87_dropped_refuted.
