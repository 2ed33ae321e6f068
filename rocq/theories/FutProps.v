(** Properties C38 to C41: futures and executors across the FFI. *)

From Coq Require Import List Bool Arith ZArith Lia.
From stdpp Require Import base numbers list.
From Verif Require Import FutModel FutSpec FutProofs FutMore.

Notation log s := (w_log (s_world s)).

(** ** C38 *)

(** Polling any future through its dynamic object, as [into_future] does, polls
    it exactly once, with the same context, and gives the same; it is dropped
    as soon as it has completed.  A panic aborts or not, with the toolchain. *)
Theorem C38_poll {S} (o : obj S unit) aborts cx a s : a = Unresumed ∨ a = Suspended →
  o_poll (into_future (virtual aborts o)) cx (a, s) =
    let '(r, s') := o_poll o cx s in
    match r with
    | Pending => (Pending, (Suspended, s'))
    | Ready _ => (Ready tt, (Returned, o_drop o s'))
    | Panic => if aborts then (Abort, (a, s')) else (Panic, (Panicked, o_drop o s'))
    | Abort => (Abort, (a, s'))
    | UB => (UB, (a, s'))
    end.
Proof.
  intros Ha. destruct (o_poll o cx s) as [r s'] eqn:E.
  destruct Ha as [-> | ->]; cbn; rewrite E; destruct r; try done; by destruct aborts.
Qed.
(** Once completed, it is not touched any more. *)
Theorem C38_over {S} (o : obj S unit) aborts cx a s : a = Returned ∨ a = Panicked →
  o_poll (into_future (virtual aborts o)) cx (a, s) = (Panic, (a, s)) ∧
  o_drop (into_future (virtual aborts o)) (a, s) = (a, s).
Proof. by intros [-> | ->]. Qed.
(** Dropped before, it is dropped. *)
Theorem C38_drop {S} (o : obj S unit) aborts a s : a = Unresumed ∨ a = Suspended →
  o_drop (into_future (virtual aborts o)) (a, s) = (a, o_drop o s).
Proof. by intros [-> | ->]. Qed.

(** All polls, in order: what [n] polls before completion and the next do. *)
Fixpoint polls {S A} (o : obj S A) (cxs : list nat) (s : S) : list (polled A) * S :=
  match cxs with
  | [] => ([], s)
  | cx :: cxs => let '(r, s) := o_poll o cx s in let '(rs, s) := polls o cxs s in (r :: rs, s)
  end.
Fixpoint polled_with (i : nat) (cxs : list nat) : list (event unit) :=
  match cxs with [] => [] | cx :: cxs => EPoll i cx :: polled_with (S i) cxs end.
Lemma polls_pending b aborts cxs a w : a = Unresumed ∨ a = Suspended →
  (∀ i, w_polls w ≤ i → i < w_polls w + length cxs → b i = Pending) →
  ∃ a', (a' = Unresumed ∨ a' = Suspended) ∧
  polls (into_future (virtual aborts (user b))) cxs (a, w) =
    (repeat Pending (length cxs), (a', World (w_polls w + length cxs) (w_hpolls w) (w_chan w) (w_ret w) (w_log w ++ polled_with (w_polls w) cxs))).
Proof.
  revert a w. induction cxs as [|cx cxs IH]; intros a w Ha Hb.
  - exists a. split; [done|]. destruct w. cbn. by rewrite Nat.add_0_r, app_nil_r.
  - cbn [polls]. rewrite C38_poll by done. cbn [user o_poll]. rewrite Hb by (cbn; lia). set (w1 := say _ _).
    destruct (IH Suspended w1) as (a' & Ha' & ->); [by right|intros i Hi Hi'; cbn in Hi, Hi'; apply Hb; cbn; lia|].
    exists a'. split; [done|]. cbn. by rewrite Nat.add_succ_r, <-app_assoc.
Qed.
Theorem C38_polls b aborts cxs cx : waits b (length cxs) →
  let '(rs, (a, w)) := polls (into_future (virtual aborts (user b))) cxs (Unresumed, new_world) in
  rs = repeat Pending (length cxs) ∧ w_log w = polled_with 0 cxs ∧
  let '(r, (a', w')) := o_poll (into_future (virtual aborts (user b))) cx (a, w) in
  match b (length cxs) with
  | Pending => r = Pending ∧ w_log w' = polled_with 0 (cxs ++ [cx])
  | Ready v => r = Ready v ∧ w_log w' = polled_with 0 (cxs ++ [cx]) ++ [EOut v; EDropUser]
  | Panic => r = (if aborts then Abort else Panic) ∧
      w_log w' = polled_with 0 (cxs ++ [cx]) ++ (if aborts then [] else [EDropUser])
  | Abort => r = Abort
  | UB => r = UB
  end.
Proof.
  intros Hb. assert (Hw : ∀ i n ys, polled_with i (ys ++ [n]) = polled_with i ys ++ [EPoll (i + length ys) n]).
  { intros i n ys. revert i. induction ys as [|y ys IH]; intros i; cbn; [by rewrite Nat.add_0_r|]. by rewrite IH, Nat.add_succ_r. }
  destruct (polls_pending b aborts cxs Unresumed new_world) as (a & Ha & ->); [by left|intros i _ Hi; apply Hb; cbn in Hi; lia|].
  split; [done|]. split; [done|]. rewrite C38_poll by done. cbn [user o_poll w_polls]. cbn [new_world w_polls w_log app].
  rewrite Hw. cbn [Nat.add]. destruct (b (length cxs)) as [|[]| | |]; cbn; rewrite <-?app_assoc; try done.
  by destruct aborts; cbn; rewrite <-?app_assoc.
Qed.
(** A future from C: other bytes are not noticed. *)
Theorem C38_bytes (h : nat → code) cx a (w : world unit) z : a = Unresumed ∨ a = Suspended → h (w_hpolls w) = Code z →
  (o_poll (into_future (foreign h)) cx (a, w)).1 = if Z.eqb z (-1) then Pending else if Z.eqb z 0 then Ready tt else UB.
Proof.
  intros Ha E. destruct Ha as [-> | ->]; cbn; rewrite E; unfold PPending, Completed; destruct (z =? -1)%Z, (z =? 0)%Z; done.
Qed.
Theorem C38_invalid_refuted : ∃ h, (o_poll (into_future (foreign h)) 0 (Unresumed, new_world (R:=unit))).1 = UB.
Proof. exists (λ _, Code 1). vm_compute. reflexivity. Qed.

Definition third (n : nat) : polled unit := match n with 2 => Ready tt | 3 => Panic | _ => Pending end.
Example C38_example :
  waits third 2 ∧
  polls (into_future (virtual false (user third))) [7; 8; 9; 9] (Unresumed, new_world) =
    ([Pending; Pending; Ready tt; Panic],
     (Returned, World 3 0 (Chan None true true None) None [EPoll 0 7; EPoll 1 8; EPoll 2 9; EOut tt; EDropUser])).
Proof. split; [|vm_compute; reflexivity]. intros [|[|]] ?; [done..|lia]. Qed.

(** ** C39 *)
Section C39.
Context {R : Type} (e : setting R) (os : list op) (s : sys R).

(** Whatever the executor does, and whoever has the join future: every event is
    justified by those before. *)
Theorem C39_sound : run e false (start false) os = ROk s → each (justified e false) (log s).
Proof. intros H. exact (i_each _ _ _ _ _ _ _ _ _ _ _ (Inv_run _ _ _ _ _ (Inv_start e false) H)). Qed.
(** The future is polled in turn and never after its end; it is destroyed once,
    by the time the task is over. *)
Theorem C39_once : run e false (start false) os = ROk s →
  num is_drop (log s) ≤ 1 ∧ (s_task s = None → num is_drop (log s) = 1) ∧
  (∀ pre post n cx, log s = pre ++ EPoll n cx :: post → n = num is_poll pre ∧ waits (e_fut e) n ∧ EDropUser ∉ pre).
Proof.
  intros H. pose proof (Inv_run _ _ _ _ _ (Inv_start e false) H) as I. split; [|split].
  - destruct (livet (s_task s)) eqn:E.
    + destruct (i_live _ _ _ _ _ _ _ _ _ _ _ I E). lia.
    + destruct (i_dead _ _ _ _ _ _ _ _ _ _ _ I E). lia.
  - intros Hn. destruct (i_dead _ _ _ _ _ _ _ _ _ _ _ I) as (_ & ? & _); [by rewrite Hn|done].
  - intros pre post n cx El. destruct (C39_sound H _ _ _ El) as (_ & -> & Hw & Hd & _). repeat split; [done..|]. by eapply num_zero.
Qed.
(** What the join future yields is the output, and only once. *)
Theorem C39_output cx x : run e false (start false) os = ROk s → EJoin cx (Ready x) ∈ log s →
  (∃ v k cx', x = Some v ∧ completes (e_fut e) k v ∧ EPoll k cx' ∈ log s) ∧
  num is_got (log s) = 1 ∧ num is_lost (log s) = 0 ∧ num is_out (log s) = 1.
Proof.
  intros H Hi. pose proof (Inv_run _ _ _ _ _ (Inv_start e false) H) as I.
  pose proof (C39_sound H) as Hs. apply elem_of_list_split in Hi as (pre & post & El).
  pose proof (Hs _ _ _ El) as Hj. cbn in Hj. destruct x as [v|]; [|by destruct Hj as [? _]].
  destruct Hj as (Ho & Hl & _). apply elem_of_list_split in Ho as (p1 & p2 & Ep).
  assert (El' : log s = p1 ++ EOut v :: (p2 ++ EJoin cx (Ready (Some v)) :: post)) by (rewrite El, Ep; by rewrite <-app_assoc).
  destruct (Hs _ _ _ El') as (_ & n & c & Hn & Eb). split.
  - exists v, n, c. split; [done|]. split.
    + split; [|done]. apply elem_of_list_split in Hn as (q1 & q2 & Eq).
      assert (El2 : log s = q1 ++ EPoll n c :: (q2 ++ EOut v :: p2 ++ EJoin cx (Ready (Some v)) :: post))
        by (rewrite El', Eq; by rewrite <-app_assoc).
      by destruct (Hs _ _ _ El2) as (_ & _ & ? & _).
    + rewrite El'. by apply in_app_l.
  - pose proof (i_bal _ _ _ _ _ _ _ _ _ _ _ I) as Hb. pose proof (i_out _ _ _ _ _ _ _ _ _ _ _ I) as Ho1.
    assert (Hg : 0 < num is_got (log s)).
    { eapply (num_pos is_got _ (EJoin cx (Ready (Some v)))); [|done]. rewrite El. apply elem_of_app. right. left. }
    lia.
Qed.
(** Why it may panic: polled after its end, or the executor's future panics, or
    the task was dropped before completion, or the future panicked. *)
Theorem C39_panic_partial pre post cx : run e false (start false) os = ROk s → log s = pre ++ EJoin cx Panic :: post →
  ¬ none is_end pre ∨ handle_panicked (e_handle e) pre ∨
  EDropUser ∈ pre ∧ ((∀ n cx', EPoll n cx' ∈ pre → e_fut e n = Pending) ∨ ∃ n cx', EPoll n cx' ∈ pre ∧ e_fut e n = Panic).
Proof.
  intros H El. pose proof (C39_sound H) as Hs. pose proof (Hs _ _ _ El) as Hj. cbn in Hj.
  destruct Hj as [Hj|[Hj|(_ & Hd & Ho)]]; [by left|by right; left|]. right. right.
  assert (Hin : EDropUser ∈ pre).
  { unfold none in Hd. clear -Hd. induction pre as [|x pre IH]; [done|].
    cbn in Hd. destruct x; try (right; apply IH; exact Hd). left. }
  split; [done|]. apply elem_of_list_split in Hin as (p1 & p2 & Ep).
  assert (Hno : ∀ n cx', EPoll n cx' ∈ pre → e_fut e n = Pending ∨ e_fut e n = Panic).
  { intros n c Hi. rewrite Ep in Hi. apply elem_of_app in Hi as [Hi|Hi].
    - assert (El1 : log s = p1 ++ EDropUser :: p2 ++ EJoin cx Panic :: post) by (rewrite El, Ep; by rewrite <-app_assoc).
      destruct (Hs _ _ _ El1) as (_ & Hp & _). apply Hp in Hi. destruct (e_fut e n) as [|v| | |]; try done; [by left| |by right].
      exfalso. unfold none in Ho. rewrite Ep in Ho. eapply (num_zero is_out _ (EOut v) Ho); [done|]. by apply in_app_l.
    - exfalso. apply elem_of_cons in Hi as [|Hi]; [done|]. apply elem_of_list_split in Hi as (q1 & q2 & ->).
      assert (El' : log s = (p1 ++ EDropUser :: q1) ++ EPoll n c :: (q2 ++ EJoin cx Panic :: post))
        by (rewrite El, Ep; by repeat (rewrite <-!app_assoc; cbn [app])).
      destruct (Hs _ _ _ El') as (_ & _ & _ & Hd' & _). eapply (num_zero is_drop _ EDropUser Hd' eq_refl). apply elem_of_app. right. left. }
  clear -Hno. induction pre as [|x pre IH]; [left; by intros n c ?%elem_of_nil|].
  destruct IH as [IH|(n & c & Hi & E)].
  - intros n c Hi. apply (Hno n c). by right.
  - destruct x as [n c| | | | | | | | | |]; try (left; intros n' c' [?|Hi]%elem_of_cons; [done|by eapply IH]).
    destruct (Hno n c) as [E|E]; [left| |right; exists n, c; split; [left|done]].
    left. intros n' c' [[= -> ->]|Hi]%elem_of_cons; [done|by eapply IH].
  - right. exists n, c. split; [by right|done].
Qed.
(** Once the output is there, and the executor's future done, the join future
    yields it. *)
Theorem C39_delivered cx v : run e false (start false) os = ROk s → EOut v ∈ log s → none is_end (log s) →
  join_ready e (log s) →
  ∃ s', run e false (start false) (os ++ [JoinPoll cx]) = ROk s' ∧ last (log s') = Some (EJoin cx (Ready (Some v))).
Proof. intros H Hv Hn Hr. by apply (delivered_run e false os s). Qed.
(** Every output is delivered or destroyed, once. *)
Theorem C39_value : run e false (start false) os = ROk s →
  num is_out (log s) ≤ 1 ∧ num is_got (log s) + num is_lost (log s) ≤ num is_out (log s) ∧
  (s_join s = None → num is_got (log s) + num is_lost (log s) = num is_out (log s)).
Proof. apply value_run. Qed.
(** Whoever waits for the result is woken when the task comes to its end. *)
Theorem C39_wake os' cx s1 : run e false (start false) (os ++ [JoinPoll cx]) = ROk s1 →
  last (log s1) = Some (EJoin cx Pending) → handle_done (e_handle e) (log s1) → forallb task_op os' = true →
  run e false s1 os' = ROk s → ∃ new, log s = log s1 ++ new ∧ (EDropUser ∈ new → EWake cx ∈ new).
Proof. apply waked_run. Qed.
(** The future that the executor returned is released once, by the time the
    join future has come to its end or is dropped. *)
Theorem C39_handle : run e false (start false) os = ROk s →
  num is_hdrop (log s) ≤ 1 ∧ (s_join s = None ∨ ¬ none is_end (log s) → num is_hdrop (log s) = 1).
Proof. apply handle_run. Qed.
End C39.
(** A panic of the future itself is reported as the executor's fault. *)
Theorem C39_panic_refuted : ∃ (e : setting nat) os s pre post cx,
  run e false (start false) os = ROk s ∧ log s = pre ++ EJoin cx Panic :: post ∧
  none is_end pre ∧ ¬ handle_panicked (e_handle e) pre ∧ TaskDrop ∉ os ∧ e_fut e 0 = Panic.
Proof.
  exists (Setting (λ _, Panic) None (λ _, Code 0) false), [TaskPoll 1; JoinPoll 2].
  eexists _, [EPoll 0 1; EDropUser; ETask Panic; EHandlePoll 0 2; EHandleDrop], [], 2.
  split; [vm_compute; reflexivity|]. split; [reflexivity|]. split; [done|]. split.
  - by intros (n & cx & _ & ?).
  - split; [|done]. rewrite !elem_of_cons, elem_of_nil. naive_solver.
Qed.

(** A run: the join future is polled, waits for the executor's future, then for
    the result; the task is polled three times. *)
Definition e1 : setting nat := Setting (λ n, match n with 2 => Ready 42 | _ => Pending end) None (λ n, if Nat.eqb n 0 then Code (-1) else Code 0) true.
Definition os1 : list op := [TaskPoll 1; JoinPoll 2; TaskPoll 1; JoinPoll 3; TaskPoll 4; TaskDrop].
Example C39_example : ∃ s, run e1 false (start false) os1 = ROk s ∧
  log s = [EPoll 0 1; ETask Pending; EHandlePoll 0 2; EJoin 2 Pending; EPoll 1 1; ETask Pending;
           EHandlePoll 1 3; EHandleDrop; EJoin 3 Pending; EPoll 2 4; EOut 42; EDropUser; EWake 3; ETask (Ready tt)] ∧
  none is_end (log s) ∧ handle_done (e_handle e1) (log s).
Proof.
  eexists. split; [vm_compute; reflexivity|]. split; [reflexivity|]. split; [reflexivity|].
  exists 1, 3. split; [|reflexivity]. cbn. rewrite !elem_of_cons. tauto.
Qed.
Example C39_example_end : ∃ s, run e1 false (start false) (os1 ++ [JoinPoll 5; JoinDrop]) = ROk s ∧
  drop 14 (log s) = [EJoin 5 (Ready (Some 42)); EJoinDrop].
Proof. eexists. split; vm_compute; reflexivity. Qed.
Example C39_example_dropped : ∃ s, run e1 false (start false) [TaskPoll 1; JoinPoll 2; TaskDrop; JoinPoll 3] = ROk s ∧
  log s = [EPoll 0 1; ETask Pending; EHandlePoll 0 2; EJoin 2 Pending; EDropUser; EHandlePoll 1 3; EHandleDrop; EJoin 3 Panic].
Proof. eexists. split; vm_compute; reflexivity. Qed.

(** ** C41 *)
Section C41.
Context {R : Type} (e : setting R) (os : list op) (s : sys R).
Theorem C41_sound : run e true (start true) os = ROk s → each (justified e true) (log s).
Proof. intros H. exact (i_each _ _ _ _ _ _ _ _ _ _ _ (Inv_run _ _ _ _ _ (Inv_start e true) H)). Qed.
(** The action runs at most once, however often it is called, and is destroyed
    once. *)
Theorem C41_once : run e true (start true) os = ROk s →
  num is_run (log s) ≤ 1 ∧ num is_drop (log s) ≤ 1 ∧ (s_task s = None → num is_drop (log s) = 1).
Proof.
  intros H. pose proof (Inv_run _ _ _ _ _ (Inv_start e true) H) as I. split; [|split].
  - pose proof (C41_sound H) as Hs. clear -Hs. assert (∀ l, each (justified e true) l → num is_run l ≤ 1) as Hl; [|by apply Hl].
    intros l. induction l as [|x l IH] using rev_ind; intros Hs'; [cbn; lia|].
    rewrite num_app. cbn [num]. destruct (is_run x) eqn:E.
    + destruct x; try done. destruct (Hs' l ERun []) as (_ & Hn & _); [done|]. unfold none in Hn. lia.
    + enough (num is_run l ≤ 1) by lia. apply IH. intros pre y post El. apply (Hs' pre y (post ++ [x])). rewrite El.
      by rewrite <-app_assoc.
  - destruct (livet (s_task s)) eqn:E.
    + destruct (i_live _ _ _ _ _ _ _ _ _ _ _ I E). lia.
    + destruct (i_dead _ _ _ _ _ _ _ _ _ _ _ I E). lia.
  - intros Hn. destruct (i_dead _ _ _ _ _ _ _ _ _ _ _ I) as (_ & ? & _); [by rewrite Hn|done].
Qed.
(** What is reported is true: the result if it ran and returned, cancellation if
    it was destroyed without, or panicked. *)
Theorem C41_result pre cx x post : run e true (start true) os = ROk s → log s = pre ++ EJoin cx (Ready x) :: post →
  match x with
  | Some v => e_act e = Some v ∧ ERun ∈ pre
  | None => EDropUser ∈ pre ∧ (ERun ∈ pre → e_act e = None)
  end.
Proof.
  intros H El. pose proof (C41_sound H) as Hs. pose proof (Hs _ _ _ El) as Hj. cbn in Hj. destruct x as [v|].
  - destruct Hj as (Ho & _). apply elem_of_list_split in Ho as (p1 & p2 & Ep).
    assert (El1 : log s = p1 ++ EOut v :: p2 ++ EJoin cx (Ready (Some v)) :: post) by (rewrite El, Ep; by rewrite <-app_assoc).
    destruct (Hs _ _ _ El1) as (_ & Ea & Hr). split; [done|]. rewrite Ep. by apply in_app_l.
  - destruct Hj as (_ & Hd & Ho & _). assert (Hin : EDropUser ∈ pre).
    { unfold none in Hd. clear -Hd. induction pre as [|y pre IH]; [done|].
      cbn in Hd. destruct y; try (right; apply IH; exact Hd). left. }
    split; [done|]. intros Hr. apply elem_of_list_split in Hin as (p1 & p2 & Ep).
    assert (El1 : log s = p1 ++ EDropUser :: p2 ++ EJoin cx (Ready None) :: post) by (rewrite El, Ep; by rewrite <-app_assoc).
    destruct (Hs _ _ _ El1) as (_ & _ & Hact). destruct (e_act e) as [v|] eqn:Ea; [|done]. exfalso.
    rewrite Ep in Hr. apply elem_of_app in Hr as [Hr|Hr].
    + eapply (num_zero is_out _ (EOut v) Ho); [done|]. rewrite Ep. by apply in_app_l, Hact.
    + apply elem_of_cons in Hr as [|Hr]; [done|]. apply elem_of_list_split in Hr as (q1 & q2 & ->).
      assert (El' : log s = (p1 ++ EDropUser :: q1) ++ ERun :: (q2 ++ EJoin cx (Ready None) :: post))
        by (rewrite El, Ep; by repeat (rewrite <-!app_assoc; cbn [app])).
      destruct (Hs _ _ _ El') as (_ & _ & Hd'). eapply (num_zero is_drop _ EDropUser Hd'); [done|]. apply elem_of_app. right. left.
Qed.
(** It panics only if polled after its end or if the executor's future does. *)
Theorem C41_panic pre cx post : run e true (start true) os = ROk s → log s = pre ++ EJoin cx Panic :: post →
  ¬ none is_end pre ∨ handle_panicked (e_handle e) pre.
Proof. intros H El. destruct (C41_sound H _ _ _ El) as [?|[?|[? _]]]; [by left|by right|done]. Qed.
(** And it is reported: the result once it is there, cancellation once the
    action is gone. *)
Theorem C41_delivered cx v : run e true (start true) os = ROk s → EOut v ∈ log s → none is_end (log s) →
  join_ready e (log s) →
  ∃ s', run e true (start true) (os ++ [JoinPoll cx]) = ROk s' ∧ last (log s') = Some (EJoin cx (Ready (Some v))).
Proof. intros H Hv Hn Hr. by apply (delivered_run e true os s). Qed.
Theorem C41_canceled cx : run e true (start true) os = ROk s → EDropUser ∈ log s → none is_out (log s) → none is_end (log s) →
  join_ready e (log s) →
  ∃ s', run e true (start true) (os ++ [JoinPoll cx]) = ROk s' ∧ last (log s') = Some (EJoin cx (Ready None)).
Proof. intros H Hv Hn He Hr. by apply (canceled_run e true os s). Qed.
(** The first call does run it. *)
Theorem C41_runs : run e true (start true) os = ROk s → TaskDrop ∉ os → TaskCall ∈ os → num is_run (log s) = 1.
Proof.
  intros H. assert (Hg : ∀ os (s0 : sys R), run e true s0 os = ROk s → TaskDrop ∉ os →
    (s_task s0 = Some (inr CAction) ∧ TaskCall ∈ os) ∨ (0 < num is_run (log s0)) → 0 < num is_run (log s)).
  { clear H. intros os0. induction os0 as [|o os0 IH]; intros s0 H Hd Hc.
    - cbn in H. injection H as <-. destruct Hc as [[_ []%elem_of_nil]|]; done.
    - cbn [run] in H. destruct (step e true s0 o) as [s1| | |] eqn:E; try done.
      rewrite not_elem_of_cons in Hd. destruct Hd as [Hd1 Hd]. apply (IH s1 H Hd). clear IH.
      destruct s0 as [t j [polls hpolls [data tx rx wk] ret l]]. cbn in Hc. destruct Hc as [[-> Hc]|Hc].
      + apply elem_of_cons in Hc as [<-|Hc].
        * right. cbn in E. destruct (e_act e), (e_aborts e), rx, wk; cbn in E; try done; injection E as <-; cbn;
            rewrite ?num_app; cbn; lia.
        * destruct o; try done.
          -- right. cbn in E. destruct (e_act e), (e_aborts e), rx, wk; cbn in E; try done; injection E as <-; cbn;
               rewrite ?num_app; cbn; lia.
          -- left. split; [|done]. destruct j as [j|]; [|done]. cbn [step s_task s_join s_world] in E.
             match type of E with (let '(_, _) := ?p in _) = _ => destruct p as [r [? ?]] end.
             destruct r; cbn in E; try done; by injection E as <-.
          -- left. split; [|done]. cbn in E. destruct j as [j|]; [|done]. by injection E as <-.
      + right. destruct (step_log_any _ _ _ _ _ E) as [new ->]. rewrite num_app. cbn. lia. }
  intros Hd Hc. pose proof (C41_once H) as (Hr & _). enough (0 < num is_run (log s)) by lia.
  eapply (Hg os (start true)); [done|done|]. left. done.
Qed.
Theorem C41_value : run e true (start true) os = ROk s →
  num is_out (log s) ≤ 1 ∧ num is_got (log s) + num is_lost (log s) ≤ num is_out (log s) ∧
  (s_join s = None → num is_got (log s) + num is_lost (log s) = num is_out (log s)).
Proof. apply value_run. Qed.
Theorem C41_wake os' cx s1 : run e true (start true) (os ++ [JoinPoll cx]) = ROk s1 →
  last (log s1) = Some (EJoin cx Pending) → handle_done (e_handle e) (log s1) → forallb task_op os' = true →
  run e true s1 os' = ROk s → ∃ new, log s = log s1 ++ new ∧ (EDropUser ∈ new → EWake cx ∈ new).
Proof. apply waked_run. Qed.
(** The future that the executor returned is released once, by the time the
    join future has come to its end or is dropped. *)
Theorem C41_handle : run e true (start true) os = ROk s →
  num is_hdrop (log s) ≤ 1 ∧ (s_join s = None ∨ ¬ none is_end (log s) → num is_hdrop (log s) = 1).
Proof. apply handle_run. Qed.
End C41.
Definition e2 (act : option nat) : setting nat := Setting (λ _, Pending) act (λ n, Code 0) false.
Example C41_example : ∃ s, run (e2 (Some 5)) true (start true) [JoinPoll 1; TaskCall; TaskCall; TaskDrop; JoinPoll 2] = ROk s ∧
  log s = [EHandlePoll 0 1; EHandleDrop; EJoin 1 Pending; ERun; EOut 5; EDropUser; EWake 1; ETask (Ready tt); ETask Panic;
           EJoin 2 (Ready (Some 5))].
Proof. eexists. split; vm_compute; reflexivity. Qed.
Example C41_example_panic : ∃ s, run (e2 None) true (start true) [TaskCall; JoinPoll 2] = ROk s ∧
  log s = [ERun; EDropUser; ETask Panic; EHandlePoll 0 2; EHandleDrop; EJoin 2 (Ready None)].
Proof. eexists. split; vm_compute; reflexivity. Qed.
Example C41_example_never : ∃ s, run (e2 (Some 5)) true (start true) [TaskDrop; JoinPoll 2] = ROk s ∧
  log s = [EDropUser; EHandlePoll 0 2; EHandleDrop; EJoin 2 (Ready None)].
Proof. eexists. split; vm_compute; reflexivity. Qed.

(** ** C40 *)
Section C40.
Context {R : Type} (b : nat → polled R).

(** The executor polls until completion, and perhaps more, then returns. *)
Theorem C40_returns aborts cxs cx k v : completes b k v → length cxs = k →
  ∃ w, block_on aborts b (cxs ++ [cx]) false = (Ready v, w) ∧
    w_log w = pend 0 cxs ++ [EPoll k cx; EOut v; EDropUser; ETask (Ready tt)].
Proof.
  intros [Hw Eb] <-. destruct (poll_all_pend aborts b cxs Unresumed new_world) as (a & Ha & E); [by left|intros i _ Hi; apply Hw; cbn in Hi; lia|].
  unfold block_on. rewrite (poll_all_app _ _ _ _ _ _ E). clear E.
  destruct Ha as [-> | ->]; cbn; rewrite Eb; cbn; eexists; (split; [reflexivity|]); cbn; by rewrite <-!app_assoc.
Qed.
Theorem C40_more aborts cxs cx cx' cxs' k v panics : completes b k v → length cxs = k →
  ∃ w, block_on aborts b (cxs ++ cx :: cx' :: cxs') panics = ((if aborts then Abort else if panics then Panic else Ready v), w) ∧
    w_log w = pend 0 cxs ++ [EPoll k cx; EOut v; EDropUser; ETask (Ready tt)] ++
      (if aborts then [] else repeat (ETask Panic) (S (length cxs')) ++ if panics then [ELost v] else []).
Proof.
  intros [Hw Eb] <-. destruct (poll_all_pend aborts b cxs Unresumed new_world) as (a & Ha & E); [by left|intros i _ Hi; apply Hw; cbn in Hi; lia|].
  unfold block_on. rewrite (poll_all_app _ _ _ _ _ _ E). clear E.
  set (w0 := World _ _ _ _ _).
  assert (Ep : o_poll (poll_dyn (virtual aborts (blocked_on b))) cx (a, w0)
    = (Ready tt, (Returned, World (S (length cxs)) 0 (Chan None true true None) (Some v) (pend 0 cxs ++ [EPoll (length cxs) cx; EOut v; EDropUser])))).
  { destruct Ha as [-> | ->]; cbn; rewrite Eb; cbn; unfold say, set_ret; cbn; by rewrite <-app_assoc. }
  cbn [poll_all]. rewrite Ep. destruct aborts.
  - cbn. eexists. split; [reflexivity|]. cbn. by rewrite <-app_assoc.
  - pose proof (poll_all_over b (cx' :: cxs') Returned) as Ho. cbn [poll_all] in Ho.
    rewrite Ho by (by left). destruct panics; cbn; eexists; (split; [reflexivity|]); cbn; rewrite <-!app_assoc; cbn; by rewrite ?app_nil_r.
Qed.
(** The executor gives up before completion: block_on panics; the future is
    dropped. *)
Theorem C40_gives_up aborts cxs panics : waits b (length cxs) →
  ∃ w, block_on aborts b cxs panics = (Panic, w) ∧ w_log w = pend 0 cxs ++ [EDropUser].
Proof.
  intros Hw. destruct (poll_all_pend aborts b cxs Unresumed new_world) as (a & Ha & E); [by left|intros i _ Hi; apply Hw; cbn in Hi; lia|].
  unfold block_on. rewrite E. destruct Ha as [-> | ->]; cbn; eexists; done.
Qed.
(** The future panics: so does block_on, or it aborts. *)
Theorem C40_panics aborts cxs cx cxs' panics : waits b (length cxs) → b (length cxs) = Panic →
  ∃ w, block_on aborts b (cxs ++ cx :: cxs') panics = ((if aborts then Abort else Panic), w) ∧
    w_log w = pend 0 cxs ++ [EPoll (length cxs) cx; EDropUser] ++ (if aborts then [] else repeat (ETask Panic) (S (length cxs'))).
Proof.
  intros Hw Eb. destruct (poll_all_pend aborts b cxs Unresumed new_world) as (a & Ha & E); [by left|intros i _ Hi; apply Hw; cbn in Hi; lia|].
  unfold block_on. rewrite (poll_all_app _ _ _ _ _ _ E). clear E. set (w0 := World _ _ _ _ _). cbn [poll_all]. destruct aborts.
  - destruct Ha as [-> | ->]; cbn; rewrite Eb; cbn; eexists; (split; [reflexivity|]); cbn; by rewrite <-app_assoc.
  - assert (Ep : o_poll (poll_dyn (virtual false (blocked_on b))) cx (a, w0)
      = (Panic, (Panicked, World (S (length cxs)) 0 (Chan None true true None) None (pend 0 cxs ++ [EPoll (length cxs) cx; EDropUser])))).
    { destruct Ha as [-> | ->]; cbn; rewrite Eb; cbn; unfold say; cbn; by rewrite <-app_assoc. }
    rewrite Ep, poll_all_over by (by right). cbn. eexists. split; [reflexivity|]. cbn. by rewrite <-!app_assoc.
Qed.
(** So it returns nothing else. *)
Theorem C40_only aborts cxs panics v w : block_on aborts b cxs panics = (Ready v, w) →
  panics = false ∧ ∃ k, k < length cxs ∧ completes b k v ∧ (aborts = true → length cxs = S k).
Proof.
  intros H. assert (Hf : waits b (length cxs) ∨ ∃ k, k < length cxs ∧ waits b k ∧ b k ≠ Pending).
  { clear H. induction (length cxs) as [|n [IH|(k & Hk & Hw & Hb)]]; [left; intros i; lia| |right; exists k; repeat split; [lia|done..]].
    destruct (b n) as [|x| | |] eqn:Eb; try (right; exists n; repeat split; [lia|done|congruence]).
    left. by apply waits_S. }
  destruct Hf as [Hw|(k & Hk & Hw & Hb)].
  - destruct (C40_gives_up aborts cxs panics Hw) as (w' & E & _). congruence.
  - assert (El : ∃ c1 cx c2, cxs = c1 ++ cx :: c2 ∧ length c1 = k).
    { destruct (lookup_lt_is_Some_2 cxs k Hk) as [cx Hx]. exists (take k cxs), cx, (drop (S k) cxs).
      split; [by rewrite take_drop_middle|]. rewrite take_length. lia. }
    destruct El as (c1 & cx & c2 & -> & <-). destruct (b (length c1)) as [|x| | |] eqn:Eb; [done| | | |].
    + assert (Hc : completes b (length c1) x) by done.
      destruct c2 as [|c c2].
      * destruct panics.
        -- exfalso. destruct (C40_unwinds aborts b c1 cx x Hc) as (w' & E & _). congruence.
        -- destruct (C40_returns aborts c1 cx _ _ Hc eq_refl) as (w' & E & _). rewrite E in H. injection H as <- <-.
           split; [done|]. exists (length c1). split; [done|]. split; [done|]. intros _. rewrite app_length. cbn. lia.
      * destruct (C40_more aborts c1 cx c c2 _ _ panics Hc eq_refl) as (w' & E & _). rewrite E in H.
        destruct aborts; [done|]. destruct panics; [done|]. injection H as <- <-. split; [done|]. by exists (length c1).
    + destruct (C40_panics aborts c1 cx c2 panics Hw Eb) as (w' & E & _). rewrite E in H. by destruct aborts.
    + destruct (C40_stops aborts b c1 cx c2 panics Hw) as [E|E]; [by left|by rewrite H in E..].
    + destruct (C40_stops aborts b c1 cx c2 panics Hw) as [E|E]; [by right|by rewrite H in E..].
Qed.
End C40.
Definition b3 (n : nat) : polled nat := match n with 2 => Ready 42 | _ => Pending end.
Example C40_example : completes b3 2 42 ∧ block_on true b3 [1; 2; 3] false =
  (Ready 42, World 3 0 (Chan None true true None) None
     [EPoll 0 1; ETask Pending; EPoll 1 2; ETask Pending; EPoll 2 3; EOut 42; EDropUser; ETask (Ready tt)]).
Proof. split; [|vm_compute; reflexivity]. split; [|done]. intros [|[|]] ?; [done..|lia]. Qed.

(** ** What goes wrong comes from outside *)

(** No undefined behaviour but that of the user's future, of the executor's, or
    of a result of the latter that is no [PollFuture]; for spawn (C39) and
    spawn_blocking (C41). *)
Lemma step_faults {R} (e : setting R) bl s o :
  (step e bl s o = RUB →
     (∃ n, e_fut e n = UB) ∨ ∃ n, e_handle e n = CUB ∨ ∃ z, e_handle e n = Code z ∧ z ≠ 0%Z ∧ z ≠ (-1)%Z) ∧
  (step e bl s o = RAbort → (∃ n, e_fut e n = Abort) ∨ (∃ n, e_handle e n = CAbort) ∨ e_aborts e = true).
Proof.
  assert (Hj : ∀ fin cx w, (∀ x, fin x ≠ UB ∧ fin x ≠ Abort) → (join_receive (R:=R) fin cx w).1 ≠ UB ∧ (join_receive fin cx w).1 ≠ Abort).
  { intros fin cx w Hf. unfold join_receive, rx_poll. destruct (c_tx (w_chan w)); [done|]. specialize (Hf (c_data (w_chan w))).
    destruct (fin (c_data (w_chan w))) eqn:E; cbn; try done; by destruct Hf. }
  assert (Hf : ∀ x : option R, fin_of bl x ≠ UB ∧ fin_of bl x ≠ Abort).
  { intros x. unfold fin_of, expect_sent. by destruct bl, x. }
  assert (Hh : ∀ a cx (w : world R),
    ((join_handle (e_handle e) (fin_of bl) a cx w).1 = UB → ∃ n, e_handle e n = CUB ∨ ∃ z, e_handle e n = Code z ∧ z ≠ 0%Z ∧ z ≠ (-1)%Z) ∧
    ((join_handle (e_handle e) (fin_of bl) a cx w).1 = Abort → ∃ n, e_handle e n = CAbort)).
  { intros a cx w. unfold join_handle, into_future, async_block, poll_dyn, foreign. cbn [o_poll o_drop r_poll r_release fst snd].
    destruct a; cbn; try (by split; intros).
    all: destruct (e_handle e (w_hpolls w)) as [z| | |] eqn:E; cbn; try (by split; intros); try (split; intros ?; [|done]; naive_solver); try (split; intros ?; [done|]; naive_solver).
    all: unfold PPending, Completed; destruct (Z.eqb_spec z (-1)); cbn; [by split; intros|]; destruct (Z.eqb_spec z 0); cbn;
      [match goal with |- context [join_receive ?f ?c ?w] => destruct (Hj f c w Hf) end; by split; intros|split; intros ?; [|done]; naive_solver]. }
  destruct o as [cx| | |cx|]; cbn [step].
  - destruct (s_task s) as [[a|c]|]; [|by split; intros..]. unfold poll_dyn, virtual, spawned, async_block, user. cbn [o_poll o_drop r_poll].
    destruct a; cbn.
    all: try (destruct (e_fut e (w_polls (s_world s))) eqn:E; cbn); destruct (e_aborts e) eqn:Ea; cbn; split; intros H; try done; eauto.
  - destruct (s_task s) as [[a|c]|]; [by split; intros| |by split; intros]. unfold call_action. destruct c; [destruct (e_act e)|]; cbn;
      destruct (e_aborts e) eqn:Ea; cbn; split; intros H; try done; eauto.
  - destruct (s_task s) as [[a|c]|]; by split; intros.
  - destruct (s_join s) as [j|]; [|by split; intros].
    assert (Hp : ∀ (p : polled (option R) * (jstate * world R)) f, (p.1 = UB → (∃ n, e_handle e n = CUB ∨ ∃ z, e_handle e n = Code z ∧ z ≠ 0%Z ∧ z ≠ (-1)%Z)) →
      (p.1 = Abort → ∃ n, e_handle e n = CAbort) →
      ((let '(r, (j, w)) := p in stop (R:=R) r (f r j w)) = RUB → (∃ n, e_fut e n = UB) ∨ ∃ n, e_handle e n = CUB ∨ ∃ z, e_handle e n = Code z ∧ z ≠ 0%Z ∧ z ≠ (-1)%Z) ∧
      ((let '(r, (j, w)) := p in stop (R:=R) r (f r j w)) = RAbort → (∃ n, e_fut e n = Abort) ∨ (∃ n, e_handle e n = CAbort) ∨ e_aborts e = true)).
    { intros [r [j' w']] f H1 H2. cbn in H1, H2. destruct r; cbn; split; intros ?; try done; eauto. }
    apply (Hp _ (λ r j w, Sys (s_task s) (Some j) (say [EJoin cx r] w))); destruct j as [|a| | |]; cbn [join o_poll fst]; try done.
    + apply Hh.
    + apply Hh.
    + destruct (Hj (fin_of bl) cx (s_world s) Hf). by intros.
    + apply Hh.
    + apply Hh.
    + destruct (Hj (fin_of bl) cx (s_world s) Hf). by intros.
  - destruct (s_join s); by split; intros.
Qed.
Theorem C39_ub {R} (e : setting R) blocking os : run e blocking (start blocking) os = RUB →
  (∃ n, e_fut e n = UB) ∨ ∃ n, e_handle e n = CUB ∨ ∃ z, e_handle e n = Code z ∧ z ≠ 0%Z ∧ z ≠ (-1)%Z.
Proof.
  generalize (start (R:=R) blocking). induction os as [|o os IH]; intros s H; cbn [run] in H; [done|].
  destruct (step e blocking s o) eqn:E; try done; [by eapply IH|]. by apply (step_faults e blocking s o).
Qed.
(** And no abort but theirs, or of a panic where the toolchain has panics abort
    in [extern "C"] functions. *)
Theorem C39_abort {R} (e : setting R) blocking os : run e blocking (start blocking) os = RAbort →
  (∃ n, e_fut e n = Abort) ∨ (∃ n, e_handle e n = CAbort) ∨ e_aborts e = true.
Proof.
  generalize (start (R:=R) blocking). induction os as [|o os IH]; intros s H; cbn [run] in H; [done|].
  destruct (step e blocking s o) eqn:E; try done; [by eapply IH|]. by apply (step_faults e blocking s o).
Qed.
Example C39_faults_ex :
  run (Setting b3 None (λ _, Code 7) false) false (start false) [TaskPoll 1; JoinPoll 2] = RUB ∧
  run (Setting b3 None (λ _, CAbort) false) true (start true) [JoinPoll 2] = RAbort ∧
  run (Setting b3 None (λ _, Code 0) true) true (start true) [TaskCall] = RAbort.
Proof. vm_compute. done. Qed.

Print Assumptions C39_ub.
Print Assumptions C39_abort.
Print Assumptions C38_poll.
Print Assumptions C38_over.
Print Assumptions C38_drop.
Print Assumptions C38_polls.
Print Assumptions C38_bytes.
Print Assumptions C38_invalid_refuted.
Print Assumptions C39_sound.
Print Assumptions C39_once.
Print Assumptions C39_output.
Print Assumptions C39_panic_partial.
Print Assumptions C39_panic_refuted.
Print Assumptions C39_delivered.
Print Assumptions C39_value.
Print Assumptions C39_wake.
Print Assumptions C39_handle.
Print Assumptions C40_returns.
Print Assumptions C40_more.
Print Assumptions C40_gives_up.
Print Assumptions C40_panics.
Print Assumptions C40_only.
Print Assumptions C41_sound.
Print Assumptions C41_once.
Print Assumptions C41_result.
Print Assumptions C41_panic.
Print Assumptions C41_delivered.
Print Assumptions C41_canceled.
Print Assumptions C41_runs.
Print Assumptions C41_value.
Print Assumptions C41_wake.
Print Assumptions C41_handle.
