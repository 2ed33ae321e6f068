(** Proofs about tokio's runtime as an executor. *)

From Coq Require Import List Bool Arith ZArith Lia.
From stdpp Require Import base numbers list.
From Verif Require Import FutModel FutSpec TokioModel TokioSpec.
Import stdpp.list.

Section R.
Context {R : Type}.
Implicit Types (l : list (event R)) (t : tokio R) (w : world R).

Lemma num_app' (p : event R → bool) l l' : num p (l ++ l') = num p l + num p l'.
Proof. induction l as [|x l IH]; cbn [num app]; [done|]. rewrite IH. lia. Qed.
Lemma outs_app l l' : outs (l ++ l') = outs l ++ outs l'.
Proof. apply omap_app. Qed.
Lemma polls_app l l' : polls_of (l ++ l') = polls_of l ++ polls_of l'.
Proof. apply omap_app. Qed.

(** ** What the log tells *)

Record view := View { q_end : nat; q_drop : nat; q_run : nat; q_outs : list R; q_polls : list nat }.
Definition look l : view := View (num is_end l) (num is_drop l) (num is_run l) (outs l) (polls_of l).
Definition plus (a b : view) : view :=
  View (q_end a + q_end b) (q_drop a + q_drop b) (q_run a + q_run b) (q_outs a ++ q_outs b) (q_polls a ++ q_polls b).
Lemma look_app l l' : look (l ++ l') = plus (look l) (look l').
Proof. unfold look, plus. cbn. by rewrite !num_app', outs_app, polls_app. Qed.
Lemma plus_nothing a : plus a (View 0 0 0 [] []) = a.
Proof. destruct a. unfold plus. cbn. by rewrite !Nat.add_0_r, !app_nil_r. Qed.

Definition wlook (w : world R) : view := look (w_log w).
Lemma look_say l w : wlook (say l w) = plus (wlook w) (look l).
Proof. apply look_app. Qed.
Lemma look_tx_drop w : wlook (tx_drop w) = wlook w.
Proof.
  unfold tx_drop. rewrite look_say. destruct (c_waker (w_chan w)); apply plus_nothing.
Qed.
Lemma look_tx_send v w : wlook (tx_send v w) = wlook w.
Proof.
  unfold tx_send. destruct (c_rx (w_chan w)); rewrite look_tx_drop; [done|]. rewrite look_say. apply plus_nothing.
Qed.
Lemma look_rx_drop w : wlook (rx_drop w) = wlook w.
Proof. unfold rx_drop. rewrite look_say. destruct (c_data (w_chan w)); apply plus_nothing. Qed.
Lemma chan_tx_drop w : w_chan (tx_drop w) = Chan (c_data (w_chan w)) false (c_rx (w_chan w)) None.
Proof. done. Qed.
Lemma chan_tx_send v w :
  w_chan (tx_send v w) = Chan (if c_rx (w_chan w) then Some v else c_data (w_chan w)) false (c_rx (w_chan w)) None.
Proof. unfold tx_send. by destruct (c_rx (w_chan w)) eqn:E; rewrite chan_tx_drop; cbn; rewrite ?E. Qed.

(** ** The invariant, by what the log tells *)

Definition jinv (g : stage) (j : option jstate) (rx : bool) (ends : nat) : Prop :=
  match g with
  | Consumed => ends ≠ 0 ∧ (j = None ∨ j = Some JReturned ∨ j = Some JPanicked)
  | _ => (ends = 0 ∧ rx = true ∧ (j = Some JUnresumed ∨ j = Some (JHandle Suspended))) ∨ (ends ≠ 0 ∧ j = None)
  end.
Definition finv (e : setting R) (b : bool) (g : stage) (ta : option (astate + cstate)) (d : option R) (tx rx : bool) (q : view) : Prop :=
  match g with
  | Running =>
      tx = true ∧ d = None ∧
      (if b then ta = Some (inr CAction) else ta = Some (inl Unresumed) ∨ ta = Some (inl Suspended)) ∧
      q_drop q = 0 ∧ q_outs q = [] ∧ q_run q = 0 ∧ Forall (λ n, e_fut e n = Pending) (q_polls q)
  | Finished JoinOk => ta = None ∧ tx = false ∧ q_drop q ≠ 0 ∧
      ∃ v, q_outs q = [v] ∧ (rx = true → d = Some v)
  | Finished JoinPanic => ta = None ∧ tx = false ∧ q_drop q ≠ 0 ∧ q_outs q = [] ∧ e_aborts e = false ∧
      (Exists (λ n, e_fut e n = Panic) (q_polls q) ∨ q_run q ≠ 0 ∧ e_act e = None) ∧ d = None
  | Finished JoinCancelled => ta = None ∧ tx = false ∧ q_drop q ≠ 0 ∧ q_outs q = [] ∧ q_run q = 0 ∧
      Forall (λ n, e_fut e n = Pending) (q_polls q) ∧ d = None
  | Consumed => ta = None ∧ tx = false ∧ q_drop q ≠ 0
  end.
Record inv (e : setting R) (b : bool) (t : tokio R) : Prop := {
  i_j : jinv (t_stage t) (s_join (t_sys t)) (c_rx (w_chan (s_world (t_sys t)))) (q_end (wlook (s_world (t_sys t))));
  i_f : finv e b (t_stage t) (s_task (t_sys t)) (c_data (w_chan (s_world (t_sys t)))) (c_tx (w_chan (s_world (t_sys t))))
          (c_rx (w_chan (s_world (t_sys t)))) (wlook (s_world (t_sys t))) }.

Lemma inv_start e b : inv e b (tstart b).
Proof.
  constructor; cbn.
  - left. repeat split. by left.
  - repeat split; [|constructor]. destruct b; [done|by left].
Qed.

Lemma task_said (s : sys R) ta jo r w :
  s = Sys ta jo (say [ETask r] w) → task_result s = Some r.
Proof. intros ->. unfold task_result. cbn [s_world say w_log]. by rewrite last_snoc. Qed.
Lemma join_said (s : sys R) ta jo cx r w :
  s = Sys ta jo (say [EJoin cx r] w) → join_result s = Some r.
Proof. intros ->. unfold join_result. cbn [s_world say w_log]. by rewrite last_snoc. Qed.

(** A poll of the task that runs. *)
Lemma poll_task e cx a w : a = Unresumed ∨ a = Suspended →
  o_poll (spawned (e_fut e)) cx (a, w) =
    let w1 := say (EPoll (w_polls w) cx :: match e_fut e (w_polls w) with Ready v => [EOut v] | _ => [] end)
                (World (S (w_polls w)) (w_hpolls w) (w_chan w) (w_ret w) (w_log w)) in
    match e_fut e (w_polls w) with
    | Pending => (Pending, (Suspended, w1))
    | Ready v => (Ready tt, (Returned, tx_send v (say [EDropUser] w1)))
    | Panic => (Panic, (Panicked, tx_drop (say [EDropUser] w1)))
    | Abort => (Abort, (a, w1))
    | UB => (UB, (a, w1))
    end.
Proof. intros [-> | ->]; cbn; destruct (e_fut e (w_polls w)); reflexivity. Qed.

Lemma look_world w c np nh ret : wlook (World np nh c ret (w_log w)) = wlook w.
Proof. done. Qed.

Ltac looks :=
  repeat (rewrite ?look_say, ?look_tx_drop, ?look_tx_send, ?look_rx_drop, ?chan_tx_send, ?chan_tx_drop, ?look_world;
          cbn [s_join s_world s_task t_sys t_stage w_chan say c_rx c_data c_tx]).

Lemma inv_work e b cx t t' : inv e b t → tstep e b t (Work cx) = TOk t' → inv e b t'.
Proof.
  intros I. destruct t as [[ta jo w] st wa ws wy].
  destruct I as [IJ IF]. cbn [t_sys t_stage s_task s_join s_world] in *.
  cbn [tstep t_stage]. destruct st as [|r|]; [|done|done].
  destruct IF as (Etx & Ed & IT & Hd & Ho & Hr & Hp).
  destruct b.
  - subst ta. cbn [step t_sys s_task s_world s_join]. unfold call_action. destruct (e_act e) as [v|] eqn:Ea.
    + cbn [through_c stop then_]. erewrite task_said by reflexivity.
      unfold finish. cbn [step s_task then_ drop_action s_world s_join]. intros [= <-].
      constructor; looks.
      * unfold jinv in *. cbn in *. destruct IJ as [(H1 & H2 & H3)|(H1 & H2)]; [left|right]; (split; [lia|done]).
      * unfold finv. cbn in *. rewrite Ho. split; [done|]. split; [done|]. split; [lia|]. exists v. split; [done|].
        by intros ->.
    + cbn [through_c stop then_]. destruct (e_aborts e) eqn:Eab; [done|].
      cbn [stop then_]. erewrite task_said by reflexivity.
      unfold finish. cbn [step s_task then_ drop_action s_world s_join]. intros [= <-].
      constructor; looks.
      * unfold jinv in *. cbn in *. destruct IJ as [(H1 & H2 & H3)|(H1 & H2)]; [left|right]; (split; [lia|done]).
      * unfold finv. cbn in *. rewrite Ho. split; [done|]. split; [done|]. split; [lia|]. split; [done|]. split; [done|].
        split; [|done]. right. split; [lia|done].
  - assert (Hta : ∃ a, ta = Some (inl a) ∧ (a = Unresumed ∨ a = Suspended)) by (destruct IT; eauto).
    destruct Hta as (a & -> & Ha). clear IT. cbn [step t_sys s_task s_world s_join].
    cbn [poll_dyn virtual o_poll r_poll]. rewrite poll_task by done.
    destruct (e_fut e (w_polls w)) as [|v| | |] eqn:Eb; cbn zeta; cbv iota.
    + cbv beta iota. change (Z.eqb PPending PPending) with true. cbv iota. cbn [stop then_].
      erewrite task_said by reflexivity. intros [= <-]. constructor; looks.
      * unfold jinv in *. cbn in *. destruct IJ as [(H1 & H2 & H3)|(H1 & H2)]; [left|right]; (split; [lia|done]).
      * unfold finv. cbn in *. rewrite Ho. split; [done|]. split; [done|]. split; [by right|]. split; [lia|]. split; [done|]. split; [lia|].
        rewrite app_nil_r. apply Forall_app. split; [done|]. by constructor.
    + change (Z.eqb Completed PPending) with false. change (Z.eqb Completed Completed) with true. cbv iota. cbn [stop then_].
      erewrite task_said by reflexivity. unfold finish. cbn [step s_task s_world s_join spawned async_block o_drop then_ snd]. intros [= <-].
      constructor; looks.
      * unfold jinv in *. cbn in *. destruct IJ as [(H1 & H2 & H3)|(H1 & H2)]; [left|right]; (split; [lia|done]).
      * unfold finv. cbn in *. rewrite Ho. split; [done|]. split; [done|]. split; [lia|]. exists v. split; [done|].
        by intros ->.
    + destruct (e_aborts e) eqn:Eab; [done|]. cbn [stop then_].
      erewrite task_said by reflexivity. unfold finish. cbn [step s_task s_world s_join spawned async_block o_drop then_ snd]. intros [= <-].
      constructor; looks.
      * unfold jinv in *. cbn in *. destruct IJ as [(H1 & H2 & H3)|(H1 & H2)]; [left|right]; (split; [lia|done]).
      * unfold finv. cbn in *. rewrite Ho. split; [done|]. split; [done|]. split; [lia|]. split; [done|]. split; [done|].
        split; [|done]. left. rewrite !app_nil_r. apply Exists_app. right. by constructor.
    + done.
    + done.
Qed.

Ltac jnv IJ := unfold jinv in *; cbn in *; destruct IJ as [(? & ? & ?)|(? & ?)]; [left|right]; (split; [lia|done]).

Lemma inv_shutdown e b t t' : inv e b t → tstep e b t Shutdown = TOk t' → inv e b t'.
Proof.
  intros I. destruct (t_stage t) as [|r|] eqn:Est; cbn [tstep]; rewrite Est; [|by intros [= <-]..].
  destruct t as [[ta jo w] st wa ws wy]. destruct I as [IJ IF].
  cbn [t_sys t_stage s_task s_join s_world] in *. subst st. destruct IF as (Etx & Ed & IT & Hd & Ho & Hr & Hp).
  assert (Hta : ta = Some (inl Unresumed) ∨ ta = Some (inl Suspended) ∨ ta = Some (inr CAction)) by (destruct b; naive_solver).
  clear IT. destruct Hta as [-> | [-> | ->]]; unfold finish;
    cbn [step s_task s_world s_join spawned async_block user o_drop drop_action then_ snd]; intros [= <-]; constructor; looks.
  all: try jnv IJ.
  all: unfold finv; cbn in *; rewrite Ho, !app_nil_r.
  all: split; [done|]; split; [done|]; split; [lia|]; split; [done|]; split; [lia|]; done.
Qed.

Lemma inv_detach e b t t' : inv e b t → tstep e b t Detach = TOk t' → inv e b t'.
Proof.
  intros I. destruct t as [[ta jo w] st wa ws wy]. destruct I as [IJ IF].
  cbn [t_sys t_stage s_task s_join s_world] in *. destruct jo as [j|]; [|done].
  assert (Hj : j = JUnresumed ∨ j = JHandle Suspended ∨ j = JReturned ∨ j = JPanicked).
  { destruct st; unfold jinv in IJ; naive_solver. }
  assert (HQ : ∃ w', step e b (Sys ta (Some j) w) JoinDrop = ROk (Sys ta None w') ∧
    wlook w' = plus (wlook w) (View 1 0 0 [] []) ∧ c_tx (w_chan w') = c_tx (w_chan w) ∧
    (c_data (w_chan w) = None → c_data (w_chan w') = None) ∧
    (st ≠ Consumed → c_rx (w_chan w') = false)).
  { destruct Hj as [-> | [-> | [-> | ->]]]; cbn [step s_task s_join s_world FutModel.join o_drop into_future async_block poll_dyn foreign r_release snd];
      eexists; (split; [reflexivity|]); looks; (split; [first [reflexivity | apply plus_nothing]|]); (split; [done|]); (split; [done|]).
    1,2: done.
    all: intros Hs; exfalso; destruct st; unfold jinv in IJ; naive_solver. }
  destruct HQ as (w' & E & Hq & Htx & Hdt & Hrx).
  cbn [tstep t_sys]. rewrite E. cbn [then_ t_stage]. intros [= <-]. constructor.
  - cbn [t_sys t_stage s_join s_world]. rewrite Hq. destruct st; cbn; [right|right|]; (split; [lia|]); [done|done|by left].
  - cbn [t_sys t_stage s_task s_join s_world]. rewrite Hq. unfold finv in *. destruct st as [|[]|].
    + cbn in *. rewrite !app_nil_r. rewrite Htx. destruct IF as (H1 & H2 & H3 & H4 & H5 & H6 & H7).
      split; [done|]. split; [by apply Hdt|]. split; [done|]. split; [lia|]. split; [done|]. split; [lia|done].
    + cbn in *. rewrite !app_nil_r. rewrite Htx. destruct IF as (H1 & H2 & H3 & v & H4 & H5).
      split; [done|]. split; [done|]. split; [lia|]. exists v. split; [done|]. by rewrite Hrx.
    + cbn in *. rewrite !app_nil_r, Htx. destruct IF as (H1 & H2 & H3 & H4 & H5 & H6 & H7).
      split; [done|]. split; [done|]. split; [lia|]. split; [done|]. split; [done|]. split; [|by apply Hdt].
      destruct H6 as [?|[? ?]]; [by left|right]. split; [lia|done].
    + cbn in *. rewrite !app_nil_r, Htx. destruct IF as (H1 & H2 & H3 & H4 & H5 & H6 & H7).
      split; [done|]. split; [done|]. split; [lia|]. split; [done|]. split; [lia|]. split; [done|by apply Hdt].
    + cbn in *. rewrite Htx. destruct IF as (H1 & H2 & H3). split; [done|]. split; [done|]. lia.
Qed.

(** A poll of the join future that awaits the handle. *)
Definition polled_handle (cx : nat) (w : world R) : world R :=
  say [EHandlePoll (w_hpolls w) cx] (World (w_polls w) (S (w_hpolls w)) (w_chan w) (w_ret w) (w_log w)).
Lemma await_step e b cx ta j w c : j = JUnresumed ∨ j = JHandle Suspended →
  step (with_answer e c) b (Sys ta (Some j) w) (JoinPoll cx) =
    match c with
    | Code z =>
        if Z.eqb z PPending then ROk (Sys ta (Some (JHandle Suspended)) (say [EJoin cx Pending] (polled_handle cx w)))
        else if Z.eqb z Completed then
          let '(r, (j, w)) := join_receive (fin_of b) cx (say [EHandleDrop] (polled_handle cx w)) in
          stop r (Sys ta (Some j) (say [EJoin cx r] w))
        else RUB
    | CPanic => ROk (Sys ta (Some JPanicked) (say [EJoin cx Panic] (rx_drop (say [EHandleDrop] (polled_handle cx w)))))
    | CAbort => RAbort
    | CUB => RUB
    end.
Proof.
  intros [-> | ->]; destruct c as [z| | |]; cbn [step s_task s_join s_world FutModel.join o_poll]; try reflexivity.
  all: unfold join_handle; cbn [into_future async_block poll_dyn foreign o_poll r_poll r_release o_drop with_answer e_handle].
  all: fold (polled_handle cx w); destruct (Z.eqb z PPending); [reflexivity|]; destruct (Z.eqb z Completed); reflexivity.
Qed.
Lemma receive_step (fin : option R → polled (option R)) cx w : c_tx (w_chan w) = false →
  join_receive fin cx w =
    let w1 := rx_drop (set_chan (Chan None false (c_rx (w_chan w)) (c_waker (w_chan w))) w) in
    match fin (c_data (w_chan w)) with
    | Ready y => (Ready y, (JReturned, w1))
    | r => (r, (JPanicked, w1))
    end.
Proof. intros E. unfold join_receive, rx_poll. by rewrite E. Qed.

Lemma why_said (b : bool) (l : list payload) (s : sys R) ta jo cx r w p :
  s = Sys ta jo (say [EJoin cx r] w) →
  l ++ match join_result s with Some Panic => [p] | _ => [] end = l ++ match r with Panic => [p] | _ => [] end.
Proof. intros E. by rewrite (join_said _ _ _ _ _ _ E). Qed.

Definition ended (q : view) : view := View (S (q_end q)) (q_drop q) (q_run q) (q_outs q) (q_polls q).
Definition said (s : sys R) (cx : nat) (r : polled (option R)) : Prop :=
  last (w_log (s_world s)) = Some (EJoin cx r).
Lemma look_ended w l : look l = View 1 0 0 [] [] → wlook (say l w) = ended (wlook w).
Proof.
  intros E. rewrite look_say, E. unfold plus, ended. cbn.
  by rewrite !app_nil_r, !Nat.add_0_r, Nat.add_1_r.
Qed.
Lemma look_same w l : look l = View 0 0 0 [] [] → wlook (say l w) = wlook w.
Proof. intros E. rewrite look_say, E. apply plus_nothing. Qed.
Lemma look_polled cx w : wlook (polled_handle cx w) = wlook w.
Proof. unfold polled_handle. by rewrite look_same. Qed.

Definition awaited (e : setting R) (b : bool) (cx : nat) (t : tokio R) : Prop :=
  let tell (s : jstate) (st : stage) (wa : option nat) (ps : list payload) (r : polled (option R)) :=
    ∃ w', tstep e b t (Await cx) = TOk (Tokio (Sys (s_task (t_sys t)) (Some s) w') st wa (t_wakes t) (t_why t ++ ps)) ∧
      last (w_log w') = Some (EJoin cx r) ∧
      c_tx (w_chan w') = c_tx (w_chan (s_world (t_sys t))) ∧
      (r = Pending → c_rx (w_chan w') = c_rx (w_chan (s_world (t_sys t))) ∧ c_data (w_chan w') = c_data (w_chan (s_world (t_sys t)))) ∧
      wlook w' = match r with Pending => wlook (s_world (t_sys t)) | _ => ended (wlook (s_world (t_sys t))) end in
  match t_stage t with
  | Running => tell (JHandle Suspended) Running (Some cx) [] Pending
  | Finished JoinOk => ∃ v, outs (tlog t) = [v] ∧ tell JReturned Consumed (t_waker t) [] (Ready (Some v))
  | Finished JoinPanic => tell JPanicked Consumed (t_waker t) [OfUser] Panic
  | Finished JoinCancelled =>
      if b then tell JReturned Consumed (t_waker t) [] (Ready None)
      else if e_aborts e then tstep e b t (Await cx) = TAbort
      else tell JPanicked Consumed (t_waker t) [NotAPanic] Panic
  | Consumed => False
  end.

Lemma await_waits e b cx t : inv e b t → num is_end (tlog t) = 0 → awaited e b cx t.
Proof.
  intros [IJ IF] Hn. destruct t as [[ta jo w] st wa ws wy]. unfold awaited, tlog in *.
  cbn [t_sys t_stage t_waker t_wakes t_why s_task s_join s_world] in *.
  destruct st as [|r|].
  - destruct IJ as [(_ & Hrx & Hj)|(H & _)]; [|by destruct H].
    assert (Hj' : ∃ j, jo = Some j ∧ (j = JUnresumed ∨ j = JHandle Suspended)) by (destruct Hj; eauto).
    destruct Hj' as (j & -> & Hj'). cbn [tstep t_sys t_stage s_join answer].
    rewrite (await_step e b cx ta j w _ Hj'). change (Z.eqb PPending PPending) with true. cbv iota. cbn [then_ t_wakes t_why].
    erewrite why_said by (exact b || reflexivity).
    assert (Ea : awaits_handle (Some j) = true) by (by destruct Hj' as [-> | ->]). rewrite Ea.
    eexists. split; [reflexivity|]. split; [cbn [say w_log]; by rewrite last_snoc|]. split; [done|]. split; [done|].
    by rewrite look_same, look_polled.
  - assert (Hj : jo = Some JUnresumed ∨ jo = Some (JHandle Suspended)).
    { destruct IJ as [(_ & _ & ?)|(H & _)]; [done|by destruct H]. }
    assert (Hrx : c_rx (w_chan w) = true).
    { destruct IJ as [(_ & ? & _)|(H & _)]; [done|by destruct H]. }
    assert (Hj' : ∃ j, jo = Some j ∧ (j = JUnresumed ∨ j = JHandle Suspended)) by (destruct Hj; eauto).
    destruct Hj' as (j & -> & Hj'). cbn [tstep t_sys t_stage s_join]. clear IJ Hj.
    rewrite (await_step e b cx ta j w _ Hj').
    assert (Ea : awaits_handle (Some j) = true) by (by destruct Hj' as [-> | ->]). rewrite Ea.
    unfold why. cbn [t_sys t_stage s_join]. rewrite Ea.
    assert (Hd : e_aborts e = false → unwinds (e_aborts e) = CPanic) by (by intros ->).
    destruct r.
    + destruct IF as (Eta & Etx & Hdr & v & Ho & Hv). specialize (Hv Hrx). cbn [answer].
      change (Z.eqb Completed PPending) with false. change (Z.eqb Completed Completed) with true. cbv iota.
      rewrite receive_step by done.
      change (c_data (w_chan (say [EHandleDrop] (polled_handle cx w)))) with (c_data (w_chan w)). rewrite Hv.
      exists v. split; [done|].
      destruct b; cbn [fin_of expect_sent]; cbn zeta; cbv iota; cbn [stop then_ t_wakes t_why];
        (erewrite why_said by (exact true || reflexivity)); eexists; (split; [reflexivity|]);
        (split; [cbn [say w_log]; by rewrite last_snoc|]); (split; [by rewrite Etx|]); (split; [done|]);
        (rewrite (look_ended _ [EJoin cx (Ready (Some v))]) by done; rewrite look_rx_drop; cbn [set_chan];
         unfold set_chan; rewrite look_world, look_same, look_polled by done; done).
    + destruct IF as (Eta & Etx & Hdr & Ho & Hab & Hp & Hv). cbn [answer]. rewrite (Hd Hab). cbn [then_ t_wakes t_why].
      erewrite why_said by (exact true || reflexivity). eexists. split; [reflexivity|].
      split; [cbn [say w_log]; by rewrite last_snoc|]. split; [done|]. split; [done|].
      rewrite (look_ended _ [EJoin cx Panic]) by done. rewrite look_rx_drop, look_same, look_polled by done. done.
    + destruct IF as (Eta & Etx & Hdr & Ho & Hr & Hp & Hv). cbn [answer]. destruct b.
      * change (Z.eqb Completed PPending) with false. change (Z.eqb Completed Completed) with true. cbv iota.
        rewrite receive_step by done.
        change (c_data (w_chan (say [EHandleDrop] (polled_handle cx w)))) with (c_data (w_chan w)). rewrite Hv.
        cbn [fin_of]; cbn zeta; cbv iota; cbn [stop then_ t_wakes t_why].
        erewrite why_said by (exact true || reflexivity). eexists. split; [reflexivity|].
        split; [cbn [say w_log]; by rewrite last_snoc|]. split; [by rewrite Etx|]. split; [done|].
        rewrite (look_ended _ [EJoin cx (Ready None)]) by done. rewrite look_rx_drop. unfold set_chan.
        rewrite look_world, look_same, look_polled by done. done.
      * destruct (e_aborts e) eqn:Eab; [done|]. cbn [unwinds then_ t_wakes t_why].
        erewrite why_said by (exact true || reflexivity). eexists. split; [reflexivity|].
        split; [cbn [say w_log]; by rewrite last_snoc|]. split; [done|]. split; [done|].
        rewrite (look_ended _ [EJoin cx Panic]) by done. rewrite look_rx_drop, look_same, look_polled by done. done.
  - by destruct IJ.
Qed.

(** A poll after the end. *)
Lemma await_over e b cx t t' : inv e b t → num is_end (tlog t) ≠ 0 → tstep e b t (Await cx) = TOk t' →
  t_stage t = Consumed ∧
  ∃ j, (j = JReturned ∨ j = JPanicked) ∧ s_join (t_sys t) = Some j ∧
    t' = Tokio (Sys (s_task (t_sys t)) (Some j) (say [EJoin cx Panic] (s_world (t_sys t)))) Consumed (t_waker t) (t_wakes t) (t_why t ++ [Resumed]).
Proof.
  intros [IJ IF] Hn. destruct t as [[ta jo w] st wa ws wy]. unfold tlog in *.
  cbn [t_sys t_stage t_waker t_wakes t_why s_task s_join s_world] in *.
  destruct st as [|r|].
  - destruct IJ as [(H & _)|(_ & ->)]; [by destruct Hn|]. done.
  - destruct IJ as [(H & _)|(_ & ->)]; [by destruct Hn|]. done.
  - destruct IJ as (_ & [-> | Hj]); [done|].
    assert (Hj' : ∃ j, jo = Some j ∧ (j = JReturned ∨ j = JPanicked)) by (destruct Hj; eauto).
    destruct Hj' as (j & -> & Hj'). clear Hj. intros E. split; [done|]. exists j. split; [done|]. split; [done|].
    destruct Hj' as [-> | ->]; cbn [tstep t_sys t_stage s_join step s_task s_world FutModel.join o_poll stop then_ t_waker t_wakes t_why] in E;
      (erewrite why_said in E by (exact true || reflexivity)); by injection E as <-.
Qed.

Lemma inv_await e b cx t t' : inv e b t → tstep e b t (Await cx) = TOk t' → inv e b t'.
Proof.
  intros I E. destruct (decide (num is_end (tlog t) = 0)) as [Hn|Hn].
  - pose proof (await_waits e b cx t I Hn) as HA. destruct I as [IJ IF]. unfold awaited in HA.
    destruct t as [[ta jo w] st wa ws wy].
    cbn [t_sys t_stage t_waker t_wakes t_why s_task s_join s_world] in *. unfold tlog in *. cbn [t_sys s_world] in *.
    destruct st as [|[]|].
    + destruct HA as (w' & E' & _ & Htx & Hrx & Hq). destruct (Hrx eq_refl) as [Hrx' Hd]. rewrite E' in E. injection E as <-.
      constructor; cbn [t_sys t_stage s_task s_join s_world].
      * rewrite Hq, Hrx'. destruct IJ as [(H1 & H2 & H3)|(H1 & H2)]; [left|by destruct H1].
        split; [done|]. split; [done|by right].
      * by rewrite Hq, Hrx', Hd, Htx.
    + destruct HA as (v & _ & w' & E' & _ & Htx & _ & Hq). rewrite E' in E. injection E as <-.
      constructor; cbn [t_sys t_stage s_task s_join s_world].
      * rewrite Hq. split; [cbn; lia|]. right. by left.
      * rewrite Hq, Htx. cbn. destruct IF as (H1 & H2 & H3 & _). done.
    + destruct HA as (w' & E' & _ & Htx & _ & Hq). rewrite E' in E. injection E as <-.
      constructor; cbn [t_sys t_stage s_task s_join s_world].
      * rewrite Hq. split; [cbn; lia|]. right. by right.
      * rewrite Hq, Htx. cbn. destruct IF as (H1 & H2 & H3 & _). done.
    + destruct b; [|destruct (e_aborts e); [congruence|]].
      all: destruct HA as (w' & E' & _ & Htx & _ & Hq); rewrite E' in E; injection E as <-.
      all: constructor; cbn [t_sys t_stage s_task s_join s_world].
      * rewrite Hq. split; [cbn; lia|]. right. by left.
      * rewrite Hq, Htx. cbn. destruct IF as (H1 & H2 & H3 & _). done.
      * rewrite Hq. split; [cbn; lia|]. right. by right.
      * rewrite Hq, Htx. cbn. destruct IF as (H1 & H2 & H3 & _). done.
    + done.
  - destruct (await_over e b cx t t' I Hn E) as (Es & j & Hj & Ej & ->).
    destruct I as [IJ IF]. rewrite Es, Ej in *.
    constructor; cbn [t_sys t_stage s_task s_join s_world].
    + rewrite (look_ended _ [EJoin cx Panic]) by done. split; [cbn; lia|]. destruct Hj as [-> | ->]; naive_solver.
    + rewrite (look_ended _ [EJoin cx Panic]) by done. cbn in *. done.
Qed.

Lemma inv_step e b t o t' : inv e b t → tstep e b t o = TOk t' → inv e b t'.
Proof.
  destruct o; [apply inv_work|apply inv_shutdown|apply inv_await|apply inv_detach].
Qed.
Lemma inv_run e b t os t' : inv e b t → trun e b t os = TOk t' → inv e b t'.
Proof.
  revert t. induction os as [|o os IH]; intros t I; cbn [trun]; [by intros [= <-]|].
  destruct (tstep e b t o) as [t1| | |] eqn:E; try done. intros H. eapply IH; [|done]. by eapply inv_step.
Qed.
Lemma trun_app e b t os os' : trun e b t (os ++ os') =
  match trun e b t os with TOk t => trun e b t os' | r => r end.
Proof.
  revert t. induction os as [|o os IH]; intros t; cbn [trun app]; [done|].
  destruct (tstep e b t o); [apply IH|done..].
Qed.

(** ** Tokio is one of the executors of FutModel *)

Definition with_handle (e : setting R) (h : nat → code) : setting R :=
  Setting (e_fut e) (e_act e) h (e_aborts e).
Lemma run_app' (e : setting R) b s os os' : run e b s (os ++ os') =
  match run e b s os with ROk s => run e b s os' | r => r end.
Proof.
  revert s. induction os as [|o os IH]; intros s; cbn [run app]; [done|].
  destruct (step e b s o); [apply IH|done..].
Qed.

Definition task_op (o : op) : bool := match o with JoinPoll _ => false | _ => true end.
Lemma step_other (e : setting R) h b (s : sys R) o : task_op o = true → step (with_handle e h) b s o = step e b s o.
Proof.
  destruct o as [cx| | |cx|]; try done; intros _; done.
Qed.
Lemma hpolls_tx_drop w : w_hpolls (tx_drop w) = w_hpolls w.
Proof. done. Qed.
Lemma hpolls_tx_send v w : w_hpolls (tx_send v w) = w_hpolls w.
Proof. unfold tx_send. by destruct (c_rx (w_chan w)). Qed.
Lemma hpolls_rx_drop w : w_hpolls (rx_drop w) = w_hpolls w.
Proof. done. Qed.
Lemma step_hpolls (e : setting R) b (s : sys R) o (s' : sys R) : task_op o = true → step e b s o = ROk s' → w_hpolls (s_world s') = w_hpolls (s_world s).
Proof.
  destruct s as [ta jo w]. destruct o as [cx| | |cx|]; try done; intros _; cbn [step s_task s_join s_world].
  - destruct ta as [[a|c]|]; [|done|done].
    destruct a; cbn; try (destruct (e_fut e (w_polls w)); cbn; try destruct (e_aborts e); cbn; try done);
      try (destruct (e_aborts e); cbn; try done); intros [= <-]; cbn; rewrite ?hpolls_tx_send; done.
  - destruct ta as [[a|c]|]; [done| |done].
    destruct c; cbn; try (destruct (e_act e); cbn); try (destruct (e_aborts e); cbn; try done);
      intros [= <-]; cbn; rewrite ?hpolls_tx_send; done.
  - destruct ta as [[a|c]|]; [| |done].
    + destruct a; cbn; intros [= <-]; done.
    + destruct c; cbn; intros [= <-]; done.
  - destruct jo as [[]|]; cbn; try done; try (intros [= <-]; done).
    destruct a; cbn; intros [= <-]; done.
Qed.

(** The operations on the task of one step. *)
Lemma tstep_ops e b t o t' : inv e b t → tstep e b t o = TOk t' →
  (∃ os, forallb task_op os = true ∧ run e b (t_sys t) os = ROk (t_sys t')) ∨
  (∃ cx, step (with_answer e (answer b (e_aborts e) (t_stage t))) b (t_sys t) (JoinPoll cx) = ROk (t_sys t') ∧ o = Await cx).
Proof.
  intros I. destruct o as [cx| |cx|]; cbn [tstep].
  - destruct (t_stage t); [|done|done]. intros E. left.
    destruct (step e b (t_sys t) _) as [s1| | |] eqn:E1; try done. cbn [then_] in E.
    assert (Ht : task_op (if b then TaskCall else TaskPoll cx) = true) by (by destruct b).
    assert (HF : ∀ r, finish e b r t s1 = TOk t' → ∃ os, forallb task_op os = true ∧ run e b (t_sys t) os = ROk (t_sys t')).
    { intros r. unfold finish. destruct (step e b s1 TaskDrop) as [s2| | |] eqn:E2; try done. cbn [then_]. intros [= <-].
      exists [if b then TaskCall else TaskPoll cx; TaskDrop]. split; [cbn [forallb]; by rewrite Ht|].
      cbn [run]. rewrite E1. cbn [run]. by rewrite E2. }
    destruct (task_result s1) as [[| | | |]|]; try done; [|by eapply HF..].
    injection E as <-. exists [if b then TaskCall else TaskPoll cx]. split; [cbn [forallb]; by rewrite Ht|].
    cbn [run]. by rewrite E1.
  - destruct (t_stage t).
    + unfold finish. destruct (step e b (t_sys t) TaskDrop) as [s2| | |] eqn:E2; try done. cbn [then_]. intros [= <-]. left.
      exists [TaskDrop]. split; [done|]. cbn [run]. by rewrite E2.
    + intros [= <-]. left. by exists [].
    + intros [= <-]. left. by exists [].
  - destruct (step _ b (t_sys t) (JoinPoll cx)) as [s1| | |] eqn:E1; try done. cbn [then_]. intros [= <-]. right.
    exists cx. by rewrite E1.
  - destruct (step e b (t_sys t) JoinDrop) as [s2| | |] eqn:E2; try done. cbn [then_]. intros [= <-]. left.
    exists [JoinDrop]. split; [done|]. cbn [run]. by rewrite E2.
Qed.

Lemma run_other (e : setting R) h b (s : sys R) os (s' : sys R) : forallb task_op os = true → run e b s os = ROk s' →
  run (with_handle e h) b s os = ROk s' ∧ w_hpolls (s_world s') = w_hpolls (s_world s).
Proof.
  revert s. induction os as [|o os IH]; intros s; cbn [forallb run]; [by intros _ [= <-]|].
  intros Ho. apply andb_prop in Ho as [Ho Hos]. rewrite step_other by done.
  destruct (step e b s o) as [s1| | |] eqn:E; try done. intros H. destruct (IH s1 Hos H) as [H1 H2].
  split; [done|]. rewrite H2. by eapply step_hpolls.
Qed.

Lemma await_same e h b cx ta j w c : j = JUnresumed ∨ j = JHandle Suspended → h (w_hpolls w) = c →
  step (with_handle e h) b (Sys ta (Some j) w) (JoinPoll cx) = step (with_answer e c) b (Sys ta (Some j) w) (JoinPoll cx).
Proof.
  intros [-> | ->] <-; cbn [step s_task s_join s_world FutModel.join o_poll]; unfold join_handle;
    cbn [into_future async_block poll_dyn foreign o_poll r_poll r_release o_drop with_answer with_handle e_handle];
    by destruct (h (w_hpolls w)).
Qed.
Lemma await_hpolls e b cx ta j w c s' : j = JUnresumed ∨ j = JHandle Suspended →
  step (with_answer e c) b (Sys ta (Some j) w) (JoinPoll cx) = ROk s' → w_hpolls (s_world s') = S (w_hpolls w).
Proof.
  intros Hj. rewrite await_step by done. destruct c as [z| | |]; try done; [|by intros [= <-]].
  destruct (Z.eqb z PPending); [by intros [= <-]|]. destruct (Z.eqb z Completed); [|done].
  unfold join_receive. destruct (rx_poll cx (say [EHandleDrop] (polled_handle cx w))) as [r w2] eqn:Er.
  assert (H2 : w_hpolls w2 = S (w_hpolls w)).
  { unfold rx_poll in Er. destruct (c_tx _); injection Er as <- <-; done. }
  destruct r as [|x| | |]; cbn [stop]; try done; [by intros [= <-]| |by intros [= <-]].
  destruct (fin_of b x); cbn [stop]; try done; intros [= <-]; done.
Qed.

Lemma executor_run e b os t : trun e b (tstart b) os = TOk t →
  ∃ h os', ∀ h', (∀ n, n < w_hpolls (s_world (t_sys t)) → h' n = h n) →
    run (with_handle e h') b (start b) os' = ROk (t_sys t).
Proof.
  revert t. induction os as [|o os IH] using rev_ind; intros t.
  { intros [= <-]. exists (λ _, CUB), []. done. }
  rewrite trun_app. destruct (trun e b (tstart b) os) as [t1| | |] eqn:E1; try done. cbn [trun].
  destruct (tstep e b t1 o) as [t2| | |] eqn:E2; try done. intros [= <-].
  destruct (IH _ eq_refl) as (h & os' & Hh).
  assert (I1 : inv e b t1) by (eapply inv_run; [apply inv_start|done]).
  destruct (tstep_ops e b t1 o t2 I1 E2) as [(os2 & Ho & Hr)|(cx & Hr & ->)].
  - exists h, (os' ++ os2). intros h' Hh'. destruct (run_other e h' b _ _ _ Ho Hr) as [Hr' Hp].
    rewrite run_app', Hh; [done|]. intros n Hn. apply Hh'. by rewrite Hp.
  - destruct (decide (num is_end (tlog t1) = 0)) as [Hn|Hn].
    + destruct t1 as [[ta jo w] st wa ws wy]. cbn [t_sys t_stage s_world] in *.
      assert (Hj : ∃ j, jo = Some j ∧ (j = JUnresumed ∨ j = JHandle Suspended)).
      { destruct I1 as [IJ _]. unfold tlog in Hn. cbn [t_sys t_stage s_join s_world] in *.
        destruct st; cbn in IJ; [destruct IJ as [(_ & _ & [? | ?])|[? _]]; eauto; lia..|by destruct IJ]. }
      destruct Hj as (j & -> & Hj). pose proof (await_hpolls _ _ _ _ _ _ _ _ Hj Hr) as Hp.
      set (c := answer b (e_aborts e) st) in *.
      exists (λ n, if n =? w_hpolls w then c else h n), (os' ++ [JoinPoll cx]). intros h' Hh'.
      rewrite run_app', Hh.
      * cbn [run]. rewrite (await_same e h' b cx ta j w c Hj), Hr; [done|].
        rewrite Hh' by lia. by rewrite Nat.eqb_refl.
      * intros n Hlt. rewrite Hh' by lia. assert (n =? w_hpolls w = false) as -> by (apply Nat.eqb_neq; lia). done.
    + destruct (await_over e b cx t1 t2 I1 Hn E2) as (Es & j & Hj & Ej & ->).
      exists h, (os' ++ [JoinPoll cx]). intros h' Hh'. cbn [t_sys s_world say w_hpolls] in Hh'.
      rewrite run_app', Hh by done. cbn [run t_sys].
      destruct t1 as [[ta jo w] st wa ws wy]. cbn [t_sys s_join s_task s_world] in *. subst jo.
      destruct Hj as [-> | ->]; done.
Qed.

(** ** Waking *)

Definition runtime_op (o : tact) : bool := match o with Work _ | Shutdown => true | _ => false end.
Lemma wakes_keep e b t o t' cx : runtime_op o = true → t_stage t = Running → t_waker t = Some cx → tstep e b t o = TOk t' →
  (t_stage t' = Running ∧ t_waker t' = Some cx ∧ t_wakes t' = t_wakes t) ∨
  (t_stage t' ≠ Running ∧ t_wakes t' = t_wakes t ++ [cx]).
Proof.
  intros Ho Es Ew. destruct o as [c| |c|]; try done; cbn [tstep]; rewrite Es.
  - destruct (step e b (t_sys t) _) as [s1| | |]; try done. cbn [then_].
    assert (HF : ∀ r, finish e b r t s1 = TOk t' → t_stage t' ≠ Running ∧ t_wakes t' = t_wakes t ++ [cx]).
    { intros r. unfold finish. destruct (step e b s1 TaskDrop); try done. cbn [then_]. intros [= <-]. by rewrite Ew. }
    destruct (task_result s1) as [[| | | |]|]; try done; [|by right; eapply HF..].
    intros [= <-]. by left.
  - unfold finish. destruct (step e b (t_sys t) TaskDrop); try done. cbn [then_]. intros [= <-]. right. by rewrite Ew.
Qed.
Lemma over_keep e b t os t' : forallb runtime_op os = true → t_stage t ≠ Running → trun e b t os = TOk t' →
  t_wakes t' = t_wakes t.
Proof.
  revert t. induction os as [|o os IH]; intros t; cbn [forallb trun]; [by intros _ _ [= <-]|].
  intros Ho Hs. apply andb_prop in Ho as [Ho Hos].
  destruct o as [c| |c|]; try done; cbn [tstep]; destruct (t_stage t) eqn:Est; try done; by apply IH; rewrite ?Est.
Qed.
Lemma waked e b t os t' cx : forallb runtime_op os = true → t_stage t = Running → t_waker t = Some cx → trun e b t os = TOk t' →
  t_wakes t' = t_wakes t ++ (match t_stage t' with Running => [] | _ => [cx] end).
Proof.
  revert t. induction os as [|o os IH]; intros t; cbn [forallb trun].
  { intros _ Es _ [= <-]. by rewrite Es, app_nil_r. }
  intros Ho Es Ew. apply andb_prop in Ho as [Ho Hos].
  destruct (tstep e b t o) as [t1| | |] eqn:E; try done. intros H.
  destruct (wakes_keep e b t o t1 cx Ho Es Ew E) as [(H1 & H2 & H3)|(H1 & H2)].
  - rewrite (IH t1 Hos H1 H2 H), H3. done.
  - rewrite (over_keep e b t1 os t' Hos H1 H), H2.
    assert (Hs : t_stage t' ≠ Running).
    { clear -H H1 Hos. revert t1 H H1. induction os as [|o os IH]; intros t1; cbn [trun]; [by intros [= <-]|].
      cbn [forallb] in Hos. apply andb_prop in Hos as [Ho Hos]. intros H H1.
      destruct o as [c| |c|]; try done; cbn [tstep] in H; destruct (t_stage t1) eqn:Est; try done; eapply IH; try done; by rewrite ?Est. }
    by destruct (t_stage t').
Qed.
End R.
