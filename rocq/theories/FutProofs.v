(** Invariants of spawn and spawn_blocking. *)

From Coq Require Import List Bool Arith ZArith Lia.
From stdpp Require Import base numbers list.
From Verif Require Import FutModel FutSpec.

Section R.
Context {R : Type}.
Implicit Types l : list (event R).

Lemma num_app p l l' : num p (l ++ l') = num p l + num p l'.
Proof. induction l as [|x l IH]; cbn; [done|lia]. Qed.
Lemma num_zero p l x : num p l = 0 → p x = true → x ∉ l.
Proof.
  intros H Hx. induction l as [|y l IH]; [apply not_elem_of_nil|]. cbn in H. apply not_elem_of_cons.
  split; [intros <-; rewrite Hx in H; lia|]. apply IH. lia.
Qed.
Lemma num_pos p l x : x ∈ l → p x = true → 0 < num p l.
Proof.
  intros H Hx. induction l as [|y l IH]; [by apply elem_of_nil in H|]. cbn. apply elem_of_cons in H as [<-|H].
  - rewrite Hx. lia.
  - specialize (IH H). lia.
Qed.

Fixpoint justs (P : list (event R) → event R → Prop) l new : Prop :=
  match new with [] => True | x :: xs => P l x ∧ justs P (l ++ [x]) xs end.
Lemma each_snoc P l x : each P l → P l x → each P (l ++ [x]).
Proof.
  intros H Hx pre y post E. destruct post as [|z post] using rev_ind.
  - apply app_inj_tail in E as [-> ->]. done.
  - clear IHpost. rewrite app_comm_cons, app_assoc in E. apply app_inj_tail in E as [-> ->]. by eapply H.
Qed.
Lemma each_app P l new : each P l → justs P l new → each P (l ++ new).
Proof.
  revert l. induction new as [|x new IH]; intros l H; cbn [justs]; [by rewrite app_nil_r|].
  intros [Hx Hn]. rewrite (assoc _ l [x] new : l ++ x :: new = (l ++ [x]) ++ new). apply IH; [by apply each_snoc|done].
Qed.

Definition joinP (e : setting R) (j : option jstate) (rx : bool) l : Prop :=
  match j with
  | Some JUnresumed => rx = true ∧ num is_hpoll l = 0 ∧ num is_hdrop l = 0
  | Some (JHandle a) => rx = true ∧ a = Suspended ∧ handle_waits (e_handle e) l ∧ num is_hdrop l = 0
  | Some JReceive => rx = true ∧ handle_done (e_handle e) l ∧ num is_hdrop l = 1
  | _ => rx = false ∧ num is_hdrop l = 1
  end.
Definition kindP (bl : bool) (t : option (astate + cstate)) : Prop :=
  match t with Some (inl _) => bl = false | Some (inr _) => bl = true | None => True end.
Definition livet (t : option (astate + cstate)) : bool :=
  match t with
  | Some (inl Unresumed) | Some (inl Suspended) | Some (inr CAction) => true
  | _ => false
  end.

Record Inv_ (e : setting R) (bl : bool) (t : option (astate + cstate)) (j : option jstate) (polls hpolls : nat)
    (data : option R) (tx rx : bool) (wk : option nat) l : Prop := {
  i_each : each (justified e bl) l;
  i_kind : kindP bl t;
  i_poll : num is_poll l = polls;
  i_hpoll : num is_hpoll l = hpolls;
  i_live : livet t = true → tx = true ∧ num is_drop l = 0 ∧ num is_out l = 0 ∧ num is_run l = 0 ∧
    waits (e_fut e) polls ∧ data = None;
  i_dead : livet t = false → tx = false ∧ num is_drop l = 1 ∧ wk = None;
  i_data : ∀ v, data = Some v → EOut v ∈ l ∧ rx = true;
  i_bal : num is_out l = num is_got l + num is_lost l + (if data then 1 else 0);
  i_out : num is_out l ≤ 1;
  i_rx : rx = true → num is_lost l = 0 ∧ num is_got l = 0 ∧ num is_end l = 0;
  i_norx : rx = false → 0 < num is_end l ∧ wk = None ∧ data = None;
  i_join : joinP e j rx l;
  i_jd : j ≠ None → EJoinDrop ∉ l;
  i_waker : ∀ cx, wk = Some cx → EJoin cx Pending ∈ l
}.
Definition Inv e bl (s : sys R) : Prop :=
  let w := s_world s in let c := w_chan w in
  Inv_ e bl (s_task s) (s_join s) (w_polls w) (w_hpolls w) (c_data c) (c_tx c) (c_rx c) (c_waker c) (w_log w).

Lemma Inv_start e bl : Inv e bl (start bl).
Proof.
  unfold Inv, start. destruct bl; split; cbn; try done; try lia; try (intros; by apply not_elem_of_nil);
    try (intros pre x post E; by destruct pre).
  all: repeat split; intros i; lia.
Qed.

Lemma waits_S (b : nat → polled R) n : waits b n → b n = Pending → waits b (S n).
Proof. intros H E i Hi. destruct (decide (i = n)) as [->|]; [done|]. apply H. lia. Qed.

Lemma hw_app h l l' : handle_waits h (R:=R) (l ++ l') ↔ handle_waits h l ∧ handle_waits h l'.
Proof.
  unfold handle_waits. setoid_rewrite elem_of_app. split; [|by firstorder]. intros H. split; intros n cx Hi; eapply H; eauto.
Qed.
Lemma hw_none h l : num is_hpoll l = 0 → handle_waits h l.
Proof. intros H n cx Hi. exfalso. revert Hi. by apply (num_zero _ _ _ H). Qed.
Lemma hd_app h l l' : handle_done h (R:=R) l → handle_done h (l ++ l').
Proof. intros (n & cx & H & E). exists n, cx. rewrite elem_of_app. auto. Qed.


Lemma joinP_app e j rx l new : joinP e j rx l → num is_hpoll new = 0 → num is_hdrop new = 0 → joinP e j rx (l ++ new).
Proof.
  intros H Hp Hd. destruct j as [[|a| | |]|]; cbn [joinP] in *; rewrite ?num_app, ?Hp, ?Hd, ?Nat.add_0_r; try done.
  - destruct H as (? & ? & ? & ?). repeat split; try done. apply hw_app. split; [done|by apply hw_none].
  - destruct H as (? & ? & ?). repeat split; try done. by apply hd_app.
Qed.
Lemma in_app_l (x : event R) l l' : x ∈ l → x ∈ l ++ l'.
Proof. intros H. apply elem_of_app. by left. Qed.
Lemma notin_app (x : event R) l l' : x ∉ l → x ∉ l' → x ∉ l ++ l'.
Proof. intros H H'. rewrite elem_of_app. tauto. Qed.

(** The task goes on, with its channel untouched. *)
Lemma task_pending e t t' j polls hpolls data tx rx wk l cx :
  Inv_ e false t j polls hpolls data tx rx wk l → livet t = true → livet t' = true → kindP false t' →
  e_fut e polls = Pending →
  Inv_ e false t' j (S polls) hpolls data tx rx wk (l ++ [EPoll polls cx; ETask Pending]).
Proof.
  intros [] Hl Hl' Hk Eb. destruct (i_live0 Hl) as (-> & Hd & Ho & Hr & Hw & ->).
  split; rewrite ?num_app; cbn [num is_poll is_run is_drop is_out is_lost is_got is_end is_hpoll is_hdrop].
  - apply each_app; [done|]. cbn [justs justified]. unfold none. rewrite num_app, Hd. by subst.
  - done.
  - lia.
  - lia.
  - intros _. rewrite Hd, Ho, Hr. repeat split. by apply waits_S.
  - congruence.
  - done.
  - lia.
  - lia.
  - intros Q. specialize (i_rx0 Q). lia.
  - intros Q. specialize (i_norx0 Q). split; [lia|]. tauto.
  - by apply joinP_app.
  - intros Q. apply notin_app; [auto|]. rewrite !elem_of_cons, elem_of_nil. naive_solver.
  - intros c Q. by apply in_app_l, i_waker0.
Qed.

Definition lost (rx : bool) (ov : option R) : list (event R) :=
  if rx then [] else match ov with Some v => [ELost v] | None => [] end.
Definition wake (wk : option nat) : list (event R) := match wk with Some cx => [EWake cx] | None => [] end.
Lemma num_wake p wk : (∀ cx, p (EWake cx) = false) → num p (wake wk) = 0.
Proof. intros H. destruct wk; cbn; by rewrite ?H. Qed.
Lemma num_lost p rx ov : num p (lost rx ov) = if rx then 0 else match ov with Some v => if p (ELost v) then 1 else 0 | None => 0 end.
Proof. unfold lost. destruct rx, ov; cbn; lia. Qed.
Lemma justs_app P l new new' : justs P l (new ++ new') ↔ justs P l new ∧ justs P (l ++ new) new'.
Proof.
  revert l. induction new as [|x new IH]; intros l; cbn [app justs]; [rewrite app_nil_r; tauto|].
  rewrite IH, <-app_assoc. cbn [app]. tauto.
Qed.

Ltac nums := rewrite ?num_app, ?num_lost, ?num_wake by (intros; reflexivity);
  cbn [num is_poll is_run is_drop is_out is_lost is_got is_end is_hpoll is_hdrop].

(** Polls so far were of a future that waited, so that their output, if any, is that of the last. *)
Lemma poll_lt e bl l n cx : each (justified e bl) l → EPoll n cx ∈ l → n < num is_poll l.
Proof.
  intros H Hi. apply elem_of_list_split in Hi as (pre & post & ->). destruct (H _ _ _ eq_refl) as (_ & -> & _).
  nums. lia.
Qed.
Lemma drop_just e bl l new :
  each (justified e bl) l → waits (e_fut e) (num is_poll l) → num is_drop l = 0 → num is_run l = 0 → num is_drop new = 0 →
  (∀ n cx, EPoll n cx ∈ new →
     match e_fut e n with Pending | Panic => True | Ready v => EOut v ∈ new | Abort | UB => False end) →
  (∀ v, ERun ∈ new → e_act e = Some v → EOut v ∈ new) →
  justified e bl (l ++ new) EDropUser.
Proof.
  intros H Hw Hd Hr Hdn Hp Hn. cbn [justified]. unfold none. rewrite num_app, Hd, Hdn. split; [done|]. split.
  - intros n cx [Hi|Hi]%elem_of_app.
    + apply (poll_lt _ _ _ _ _ H), Hw in Hi. by rewrite Hi.
    + apply Hp in Hi. destruct (e_fut e n); try done. apply elem_of_app. by right.
  - intros v [Hi|Hi]%elem_of_app Ea; [|apply elem_of_app; right; eauto].
    exfalso. revert Hi. by eapply num_zero.
Qed.

(** The task comes to its end: completed, panicked, dropped. *)
Lemma task_ends e bl t t' j polls hpolls data tx rx wk l head (ov : option R) tail :
  Inv_ e bl t j polls hpolls data tx rx wk l → livet t = true → livet t' = false → kindP bl t' →
  justs (justified e bl) l head →
  num is_drop head = 1 → num is_got head = 0 → num is_lost head = 0 → num is_end head = 0 →
  num is_hpoll head = 0 → num is_hdrop head = 0 →
  num is_out head = (if ov then 1 else 0) → (∀ v, ov = Some v → EOut v ∈ head) →
  tail = [] ∨ (∃ r, tail = [ETask r] ∧
    match r with Ready _ => is_Some ov | Panic => e_aborts e = false | _ => False end) →
  Inv_ e bl t' j (polls + num is_poll head) hpolls (if rx then ov else None) false rx None
    (l ++ head ++ lost rx ov ++ wake wk ++ tail).
Proof.
  intros [] Hl Hl' Hk Hj Hd Hg Hlo He Hhp Hhd Hov Hin Htail. destruct (i_live0 Hl) as (-> & Hd0 & Ho0 & Hr0 & Hw & ->).
  assert (Htn : num is_drop tail = 0 ∧ num is_got tail = 0 ∧ num is_lost tail = 0 ∧ num is_end tail = 0 ∧
    num is_hpoll tail = 0 ∧ num is_hdrop tail = 0 ∧ num is_out tail = 0 ∧ num is_poll tail = 0 ∧ EJoinDrop ∉ tail).
  { destruct Htail as [-> | (r & -> & _)]; cbn; repeat split; try done; [by apply not_elem_of_nil|].
    rewrite elem_of_cons, elem_of_nil. naive_solver. }
  destruct Htn as (T1 & T2 & T3 & T4 & T5 & T6 & T7 & T8 & T9).
  split; try (nums; rewrite ?Hd0, ?Ho0, ?Hr0, ?Hd, ?Hg, ?Hlo, ?He, ?Hhp, ?Hhd, ?Hov, ?T1, ?T2, ?T3, ?T4, ?T5, ?T6, ?T7, ?T8).
  - apply each_app; [done|]. rewrite !justs_app. repeat split; [done| | |].
    + unfold lost. destruct rx; [done|]. destruct ov as [v|]; [|done]. cbn [justs justified]. unfold none.
      destruct (i_norx0 eq_refl) as (Hn & _). rewrite !num_app.
      split; [|done]. split; [apply elem_of_app; right; by apply Hin|]. lia.
    + destruct wk as [cx|]; cbn [wake justs justified]; [|done]. unfold none. rewrite !num_app, Hd.
      split; [|done]. split; [lia|]. do 2 apply in_app_l. by apply i_waker0.
    + destruct Htail as [-> | (r & -> & Hr)]; cbn [justs justified]; [done|]. split; [|done].
      nums. rewrite Hd0, Hd, Ho0, Hov.
      destruct r; try done; destruct rx; try destruct ov; try done; by destruct Hr.
  - done.
  - destruct rx, ov; lia.
  - destruct rx, ov; lia.
  - congruence.
  - intros _. split; [done|]. split; [|done]. destruct rx, ov; lia.
  - intros v. destruct rx; [|done]. intros ->. split; [|done]. apply elem_of_app. right. apply elem_of_app. left. by apply Hin.
  - destruct rx, ov; lia.
  - destruct rx, ov; lia.
  - intros ->. specialize (i_rx0 eq_refl). lia.
  - intros ->. specialize (i_norx0 eq_refl). split; [|done]. destruct ov; lia.
  - apply joinP_app; [done| |]; nums; rewrite ?Hhp, ?Hhd, ?T5, ?T6; destruct rx, ov; lia.
  - intros Q. apply notin_app; [auto|]. apply notin_app; [|apply notin_app; [|apply notin_app; [|done]]].
    + eapply (num_zero is_end); [done|done].
    + unfold lost. destruct rx; [by apply not_elem_of_nil|]. destruct ov; [|by apply not_elem_of_nil].
      rewrite elem_of_cons, elem_of_nil. naive_solver.
    + unfold wake. destruct wk; [|by apply not_elem_of_nil]. rewrite elem_of_cons, elem_of_nil. naive_solver.
  - done.
Qed.
(** Afterwards. *)
Lemma task_dead e bl t t' j polls hpolls data tx rx wk l new :
  Inv_ e bl t j polls hpolls data tx rx wk l → livet t = false → livet t' = false → kindP bl t' →
  new = [] ∨ new = [ETask Panic] ∧ e_aborts e = false →
  Inv_ e bl t' j polls hpolls data tx rx wk (l ++ new).
Proof.
  intros [] Hl Hl' Hk [-> | [-> Ha]]; [rewrite app_nil_r; split; try done; try congruence; auto|].
  destruct (i_dead0 Hl) as (-> & Hd & ->).
  split; nums; rewrite ?Nat.add_0_r; try done; try congruence.
  - apply each_app; [done|]. cbn [justs justified]. repeat split; done.
  - intros v Hv. destruct (i_data0 v Hv). split; [by apply in_app_l|done].
  - by apply joinP_app.
  - intros Q. apply notin_app; [auto|]. rewrite elem_of_cons, elem_of_nil. naive_solver.
Qed.

(** The executor's future has completed. *)
Lemma waiting_handle e j rx l : joinP e j rx l → j = Some JUnresumed ∨ (∃ a, j = Some (JHandle a)) →
  rx = true ∧ handle_waits (e_handle e) l ∧ num is_hdrop l = 0.
Proof.
  intros H [-> | [a ->]]; cbn in H; [|tauto]. destruct H as (? & ? & ?). repeat split; try done. by apply hw_none.
Qed.
Lemma join_handled e bl t j polls hpolls data tx rx wk l cx :
  Inv_ e bl t j polls hpolls data tx rx wk l → j = Some JUnresumed ∨ (∃ a, j = Some (JHandle a)) →
  e_handle e hpolls = Code 0 →
  Inv_ e bl t (Some JReceive) polls (S hpolls) data tx rx wk (l ++ [EHandlePoll hpolls cx; EHandleDrop]).
Proof.
  intros [] Hj Hh. destruct (waiting_handle _ _ _ _ i_join0 Hj) as (-> & Hw & Hhd). subst hpolls.
  assert (Hjn : j ≠ None) by (destruct Hj as [-> | [a ->]]; done).
  split; nums; rewrite ?Nat.add_0_r; try done; try congruence; try lia.
  - apply each_app; [done|]. cbn [justs justified]. unfold none. nums. repeat split; try done; lia.
  - intros v Hv. destruct (i_data0 v Hv). split; [by apply in_app_l|done].
  - cbn [joinP]. nums. split; [done|]. split; [|lia]. eexists _, _. split; [|done]. apply elem_of_app. right. left.
  - intros _. apply notin_app; [auto|]. rewrite !elem_of_cons, elem_of_nil. naive_solver.
  - intros c Q. by apply in_app_l, i_waker0.
Qed.
Lemma join_waits e bl t j polls hpolls data tx rx wk l cx :
  Inv_ e bl t j polls hpolls data tx rx wk l → j = Some JUnresumed ∨ (∃ a, j = Some (JHandle a)) →
  e_handle e hpolls = Code (-1) →
  Inv_ e bl t (Some (JHandle Suspended)) polls (S hpolls) data tx rx wk (l ++ [EHandlePoll hpolls cx; EJoin cx Pending]).
Proof.
  intros [] Hj Hh. destruct (waiting_handle _ _ _ _ i_join0 Hj) as (-> & Hw & Hhd). subst hpolls.
  assert (Hjn : j ≠ None) by (destruct Hj as [-> | [a ->]]; done).
  destruct (i_rx0 eq_refl) as (R1 & R2 & R3).
  assert (Hw' : handle_waits (e_handle e) (l ++ [EHandlePoll (num is_hpoll l) cx])).
  { apply hw_app. split; [done|]. intros n c. rewrite elem_of_cons, elem_of_nil. intros [[= -> ->]|[]]. done. }
  split; nums; rewrite ?Nat.add_0_r; try done; try congruence; try lia.
  - apply each_app; [done|]. cbn [justs justified]. unfold none. nums. repeat split; try done; [lia|by left].
  - intros v Hv. destruct (i_data0 v Hv). split; [by apply in_app_l|done].
  - cbn [joinP]. nums. repeat split; [|lia]. rewrite (assoc _ l [_] [_] : l ++ [EHandlePoll (num is_hpoll l) cx; EJoin cx Pending] = _).
    apply hw_app. split; [done|by apply hw_none].
  - intros _. apply notin_app; [auto|]. rewrite !elem_of_cons, elem_of_nil. naive_solver.
  - intros c Q. by apply in_app_l, i_waker0.
Qed.
Lemma join_unwinds e bl t j polls hpolls data tx rx wk l cx :
  Inv_ e bl t j polls hpolls data tx rx wk l → j = Some JUnresumed ∨ (∃ a, j = Some (JHandle a)) →
  e_handle e hpolls = CPanic →
  Inv_ e bl t (Some JPanicked) polls (S hpolls) None tx false None
    (l ++ [EHandlePoll hpolls cx; EHandleDrop] ++ match data with Some v => [ELost v] | None => [] end ++ [EJoin cx Panic]).
Proof.
  intros [] Hj Hh. destruct (waiting_handle _ _ _ _ i_join0 Hj) as (-> & Hw & Hhd). subst hpolls.
  assert (Hjn : j ≠ None) by (destruct Hj as [-> | [a ->]]; done).
  destruct (i_rx0 eq_refl) as (R1 & R2 & R3).
  assert (Hp : ∀ l', handle_panicked (e_handle e) ((l ++ [EHandlePoll (num is_hpoll l) cx; EHandleDrop]) ++ l')).
  { intros l'. eexists _, _. split; [|done]. apply in_app_l, elem_of_app. right. left. }
  split; nums; rewrite ?Nat.add_0_r; try done; try congruence; try (destruct data; cbn; lia).
  - apply each_app; [done|]. rewrite !justs_app. split; [|split].
    + cbn [justs justified]. unfold none. nums. repeat split; try done; lia.
    + destruct data as [v|]; [|done]. destruct (i_data0 v eq_refl). cbn [justs justified]. unfold none. nums.
      repeat split; try lia; [by apply in_app_l|]. right. rewrite <-(app_nil_r (l ++ _)). apply Hp.
    + cbn [justs justified]. split; [|done]. right. left. apply Hp.
  - intros Q. destruct (i_live0 Q) as (? & ? & ? & ? & ? & ?). destruct data; [done|]. cbn. repeat split; try done; lia.
  - intros Q. destruct (i_dead0 Q) as (? & ? & ?). destruct data; cbn; repeat split; try done; lia.
  - intros _. destruct data; cbn; (split; [lia|done]).
  - cbn [joinP]. nums. split; [done|]. destruct data; cbn; lia.
  - intros _. apply notin_app; [auto|]. destruct data; cbn [app]; rewrite !elem_of_cons, elem_of_nil; naive_solver.
Qed.
(** Receiving. *)
Lemma join_receives e bl t polls hpolls data rx wk l cx :
  Inv_ e bl t (Some JReceive) polls hpolls data true rx wk l →
  Inv_ e bl t (Some JReceive) polls hpolls data true rx (Some cx) (l ++ [EJoin cx Pending]).
Proof.
  intros []. destruct i_join0 as (-> & Hh & Hhd). destruct (i_rx0 eq_refl) as (R1 & R2 & R3).
  assert (Hl : livet t = true). { destruct (livet t) eqn:E; [done|]. by destruct (i_dead0 eq_refl). }
  destruct (i_live0 Hl) as (_ & Hd & Ho & Hr & Hw & ->).
  split; nums; rewrite ?Nat.add_0_r; try done; try congruence; try lia.
  - apply each_app; [done|]. cbn [justs justified]. unfold none. repeat split; try done. by right.
  - cbn [joinP]. nums. split; [done|]. split; [by apply hd_app|lia].
  - intros _. apply notin_app; [auto|]. rewrite !elem_of_cons, elem_of_nil. naive_solver.
  - intros c [= <-]. apply elem_of_app. right. left.
Qed.
Lemma join_gets e bl t polls hpolls rx wk l cx v :
  Inv_ e bl t (Some JReceive) polls hpolls (Some v) false rx wk l →
  Inv_ e bl t (Some JReturned) polls hpolls None false false None (l ++ [EJoin cx (Ready (Some v))]).
Proof.
  intros []. destruct i_join0 as (-> & Hh & Hhd). destruct (i_rx0 eq_refl) as (R1 & R2 & R3).
  assert (Hl : livet t = false). { destruct (livet t) eqn:E; [|done]. by destruct (i_live0 eq_refl). }
  destruct (i_dead0 Hl) as (_ & Hd & ->). destruct (i_data0 v eq_refl) as [Hv _].
  split; nums; rewrite ?Nat.add_0_r; try done; try congruence; try lia; try (intros _; repeat split; (done || lia)).
  - apply each_app; [done|]. cbn [justs justified]. unfold none. repeat split; done.
  - cbn [joinP]. nums. split; [done|lia].
  - intros _. apply notin_app; [auto|]. rewrite !elem_of_cons, elem_of_nil. naive_solver.
Qed.
Lemma join_canceled e bl t polls hpolls rx wk l cx :
  Inv_ e bl t (Some JReceive) polls hpolls None false rx wk l →
  Inv_ e bl t (Some (if bl then JReturned else JPanicked)) polls hpolls None false false None
    (l ++ [EJoin cx (if bl then Ready None else Panic)]).
Proof.
  intros []. destruct i_join0 as (-> & Hh & Hhd). destruct (i_rx0 eq_refl) as (R1 & R2 & R3).
  assert (Hl : livet t = false). { destruct (livet t) eqn:E; [|done]. by destruct (i_live0 eq_refl). }
  destruct (i_dead0 Hl) as (_ & Hd & ->).
  assert (Hn : num (R:=R) is_end [EJoin cx (if bl then Ready None else Panic)] = 1 ∧ num (R:=R) is_got [EJoin cx (if bl then Ready None else Panic)] = 0)
    by (by destruct bl).
  destruct Hn as [N1 N2].
  split; rewrite ?num_app, ?N1, ?N2; nums; rewrite ?Nat.add_0_r; try done; try congruence; try lia; try (intros _; repeat split; (done || lia)).
  - apply each_app; [done|]. destruct bl; cbn [justs justified]; unfold none; repeat split; try done; try lia.
  - destruct bl; cbn [joinP]; nums; (split; [done|lia]).
  - intros _. apply notin_app; [auto|]. rewrite !elem_of_cons, elem_of_nil. naive_solver.
Qed.
(** Polled after its end. *)
Lemma join_over e bl t j polls hpolls data tx rx wk l cx :
  Inv_ e bl t j polls hpolls data tx rx wk l → j = Some JReturned ∨ j = Some JPanicked →
  Inv_ e bl t j polls hpolls data tx rx wk (l ++ [EJoin cx Panic]).
Proof.
  intros [] Hj. assert (Hrx : rx = false ∧ num is_hdrop l = 1) by (by destruct Hj as [-> | ->]).
  destruct Hrx as [-> Hhd]. destruct (i_norx0 eq_refl) as (He & -> & ->).
  split; nums; rewrite ?Nat.add_0_r; try done; try congruence; try lia.
  - apply each_app; [done|]. cbn [justs justified]. unfold none. split; [|done]. left. lia.
  - intros _. split; [lia|done].
  - by apply joinP_app.
  - intros Q. apply notin_app; [auto|]. rewrite !elem_of_cons, elem_of_nil. naive_solver.
Qed.
(** Dropped. *)
Lemma join_dropped e bl t j j0 polls hpolls data tx rx wk l :
  Inv_ e bl t j polls hpolls data tx rx wk l → j = Some j0 →
  Inv_ e bl t None polls hpolls None tx false None
    (l ++ [EJoinDrop] ++ match j0 with JUnresumed | JHandle _ => [EHandleDrop] | _ => [] end ++
     match data with Some v => [ELost v] | None => [] end).
Proof.
  intros [] ->. set (hd := match j0 with JUnresumed | JHandle _ => [EHandleDrop] | _ => [] end).
  assert (Hhd : num is_hdrop l + num is_hdrop hd = 1).
  { destruct j0 as [|a| | |]; cbn in *; intuition lia. }
  assert (Hno : ∀ p, p EHandleDrop = false → num p hd = 0) by (intros p Hp; destruct j0; cbn; rewrite ?Hp; done).
  assert (Hrx : data ≠ None → rx = true) by (destruct data as [v|]; [|done]; intros _; by apply (i_data0 v)).
  split; nums; rewrite ?(Hno is_poll), ?(Hno is_drop), ?(Hno is_out), ?(Hno is_run), ?(Hno is_got), ?(Hno is_lost), ?(Hno is_hpoll), ?(Hno is_end) by done;
    try done; try (destruct data; cbn; lia).
  - apply each_app; [done|]. rewrite !justs_app. cbn [app]. repeat split.
    + apply i_jd0. done.
    + unfold hd. destruct j0 as [|a| | |]; cbn in *; rewrite ?num_app; cbn; unfold none; try done; split; rewrite ?num_app; cbn; try done; lia.
    + destruct data as [v|]; [|done]. destruct (i_data0 v eq_refl) as [Hv ->]. destruct (i_rx0 eq_refl) as (R1 & R2 & R3).
      cbn [justs justified]. unfold none. nums. rewrite !Hno by done.
      split; [|done]. split; [by do 2 apply in_app_l|]. split; [lia|]. split; [lia|]. left. lia.
  - intros Q. destruct (i_live0 Q) as (? & ? & ? & ? & ? & ->). cbn. repeat split; try done; lia.
  - intros Q. destruct (i_dead0 Q) as (? & ? & ?). destruct data; cbn; repeat split; try done; lia.
  - intros _. destruct data; cbn; (split; [lia|done]).
  - cbn [joinP]. nums. split; [done|]. destruct data; cbn; lia.
Qed.

(** Writing logs as in the lemmas. *)
Lemma log_eq e bl t j polls hpolls data tx rx wk l l' : Inv_ e bl t j polls hpolls data tx rx wk l → l = l' →
  Inv_ e bl t j polls hpolls data tx rx wk l'.
Proof. by intros H <-. Qed.
Ltac logs := unfold lost, wake; cbn [app]; rewrite <-?app_assoc; cbn [app]; rewrite ?app_nil_r; reflexivity.

Lemma Inv_task_poll e bl s cx s' : Inv e bl s → step e bl s (TaskPoll cx) = ROk s' → Inv e bl s'.
Proof.
  intros I H. destruct s as [t j [polls hpolls [data tx rx wk] ret l]]. unfold Inv in *. cbn in I.
  destruct t as [[a|c]|]; [|done..].
  assert (bl = false) as -> by (exact (i_kind _ _ _ _ _ _ _ _ _ _ _ I)).
  destruct (livet (Some (inl a))) eqn:Hl.
  - assert (Ha : a = Unresumed ∨ a = Suspended) by (destruct a; auto; done).
    destruct (i_live _ _ _ _ _ _ _ _ _ _ _ I Hl) as (-> & Hd & Ho & Hr & Hw & ->).
    pose proof (i_poll _ _ _ _ _ _ _ _ _ _ _ I) as Hp.
    destruct (e_fut e polls) as [|v| | |] eqn:Eb.
    + assert (s' = Sys (Some (inl Suspended)) j (World (S polls) hpolls (Chan None true rx wk) ret ((l ++ [EPoll polls cx]) ++ [ETask Pending]))) as ->
        by (destruct Ha as [-> | ->]; cbn in H; rewrite Eb in H; cbn in H; by injection H as <-).
      cbn. eapply log_eq; [by eapply (task_pending e _ (Some (inl Suspended)))|logs].
    + eapply (task_ends e false _ (Some (inl Returned)) j polls hpolls None true rx wk l [EPoll polls cx; EOut v; EDropUser] (Some v) [ETask (Ready ())]) in I; try done.
      * cbn [num is_poll] in I. replace (polls + (1 + (0 + (0 + 0)))) with (S polls) in I by lia.
        destruct rx, wk; destruct Ha as [-> | ->]; cbn in H; rewrite Eb in H; cbn in H; injection H as <-; cbn;
          (eapply log_eq; [exact I|logs]).
      * cbn [justs]. rewrite <-app_assoc. cbn [app]. split; [|split; [|split; [|done]]].
        -- cbn [justified]. unfold none. nums. repeat split; try done; lia.
        -- cbn [justified]. unfold none. nums. split; [lia|]. exists polls, cx. split; [|done]. apply elem_of_app. right. left.
        -- subst polls. pose proof (i_each _ _ _ _ _ _ _ _ _ _ _ I). apply drop_just; try done.
           ++ intros n c Hi. rewrite !elem_of_cons, elem_of_nil in Hi. destruct Hi as [[= -> ->]|[?|[]]]; [|done].
              rewrite Eb. right. left.
           ++ intros v' Hi. rewrite !elem_of_cons, elem_of_nil in Hi. by destruct Hi as [?|[?|[]]].
      * intros ? [= <-]. right. left.
      * right. eexists. split; [done|]. by eexists.
    + destruct (e_aborts e) eqn:Eab; [destruct Ha as [-> | ->]; cbn in H; by rewrite Eb, Eab in H|].
      eapply (task_ends e false _ (Some (inl Panicked)) j polls hpolls None true rx wk l [EPoll polls cx; EDropUser] None [ETask Panic]) in I; try done.
      * cbn [num is_poll] in I. replace (polls + (1 + (0 + 0))) with (S polls) in I by lia.
        destruct rx, wk; destruct Ha as [-> | ->]; cbn in H; rewrite Eb, Eab in H; cbn in H; injection H as <-; cbn;
          (eapply log_eq; [exact I|logs]).
      * cbn [justs]. split; [|split; [|done]].
        -- cbn [justified]. unfold none. nums. repeat split; try done; lia.
        -- subst polls. pose proof (i_each _ _ _ _ _ _ _ _ _ _ _ I). apply drop_just; try done.
           ++ intros n c Hi. rewrite !elem_of_cons, elem_of_nil in Hi. destruct Hi as [[= -> ->]|[]]. by rewrite Eb.
           ++ intros v' Hi. rewrite !elem_of_cons, elem_of_nil in Hi. by destruct Hi as [?|[]].
      * right. eexists. split; [done|]. done.
    + destruct Ha as [-> | ->]; cbn in H; by rewrite Eb in H.
    + destruct Ha as [-> | ->]; cbn in H; by rewrite Eb in H.
  - assert (Ha : a = Returned ∨ a = Panicked) by (destruct a; auto; done).
    destruct (e_aborts e) eqn:Eab; [destruct Ha as [-> | ->]; cbn in H; by rewrite Eab in H|].
    assert (s' = Sys (Some (inl a)) j (World polls hpolls (Chan data tx rx wk) ret (l ++ [ETask Panic]))) as ->
      by (destruct Ha as [-> | ->]; cbn in H; rewrite Eab in H; by injection H as <-).
    cbn. eapply (task_dead e false (Some (inl a)) (Some (inl a))); try done. by right.
Qed.
Lemma Inv_task_call e bl s s' : Inv e bl s → step e bl s TaskCall = ROk s' → Inv e bl s'.
Proof.
  intros I H. destruct s as [t j [polls hpolls [data tx rx wk] ret l]]. unfold Inv in *. cbn in I.
  destruct t as [[a|c]|]; [done| |done].
  assert (bl = true) as -> by (exact (i_kind _ _ _ _ _ _ _ _ _ _ _ I)).
  destruct c.
  - destruct (i_live _ _ _ _ _ _ _ _ _ _ _ I eq_refl) as (-> & Hd & Ho & Hr & Hw & ->).
    pose proof (i_poll _ _ _ _ _ _ _ _ _ _ _ I) as Hp. cbn in H. destruct (e_act e) as [v|] eqn:Eb.
    + eapply (task_ends e true _ (Some (inr CTaken)) j polls hpolls None true rx wk l [ERun; EOut v; EDropUser] (Some v) [ETask (Ready ())]) in I; try done.
      * cbn [num is_poll] in I. replace (polls + (0 + (0 + (0 + 0)))) with polls in I by lia.
        destruct rx, wk; cbn in H; injection H as <-; cbn; (eapply log_eq; [exact I|logs]).
      * cbn [justs]. rewrite <-app_assoc. cbn [app]. split; [|split; [|split; [|done]]].
        -- cbn [justified]. unfold none. nums. repeat split; try done; lia.
        -- cbn [justified]. unfold none. nums. split; [lia|]. split; [done|]. apply elem_of_app. right. left.
        -- subst polls. pose proof (i_each _ _ _ _ _ _ _ _ _ _ _ I). apply drop_just; try done.
           ++ intros n c Hi. rewrite !elem_of_cons, elem_of_nil in Hi. by destruct Hi as [?|[?|[]]].
           ++ intros v' _ E'. rewrite Eb in E'. injection E' as <-. right. left.
      * intros ? [= <-]. right. left.
      * right. eexists. split; [done|]. by eexists.
    + destruct (e_aborts e) eqn:Eab; [done|].
      eapply (task_ends e true _ (Some (inr CTaken)) j polls hpolls None true rx wk l [ERun; EDropUser] None [ETask Panic]) in I; try done.
      * cbn [num is_poll] in I. replace (polls + (0 + (0 + 0))) with polls in I by lia.
        destruct rx, wk; cbn in H; injection H as <-; cbn; (eapply log_eq; [exact I|logs]).
      * cbn [justs]. split; [|split; [|done]].
        -- cbn [justified]. unfold none. nums. repeat split; try done; lia.
        -- subst polls. pose proof (i_each _ _ _ _ _ _ _ _ _ _ _ I). apply drop_just; try done.
           ++ intros n c Hi. rewrite !elem_of_cons, elem_of_nil in Hi. by destruct Hi as [?|[]].
           ++ intros v' _ E'. congruence.
      * right. eexists. split; [done|]. done.
  - cbn in H. destruct (e_aborts e) eqn:Eab; [done|]. injection H as <-. cbn.
    eapply (task_dead e true (Some (inr CTaken)) (Some (inr CTaken))); try done. by right.
Qed.
Lemma Inv_task_drop e bl s s' : Inv e bl s → step e bl s TaskDrop = ROk s' → Inv e bl s'.
Proof.
  intros I H. destruct s as [t j [polls hpolls [data tx rx wk] ret l]]. unfold Inv in *. cbn in I.
  destruct (livet t) eqn:Hl.
  - destruct (i_live _ _ _ _ _ _ _ _ _ _ _ I Hl) as (-> & Hd & Ho & Hr & Hw & ->).
    eapply (task_ends e bl _ None j polls hpolls None true rx wk l [EDropUser] None []) in I; try done; [| |by left].
    + cbn [num is_poll] in I. replace (polls + (0 + 0)) with polls in I by lia.
      destruct t as [[[]|[]]|]; try done; destruct rx, wk; cbn in H; injection H as <-; cbn;
          (eapply log_eq; [exact I|logs]).
    + cbn [justs]. split; [|done]. pose proof (i_poll _ _ _ _ _ _ _ _ _ _ _ I) as Hp.
      pose proof (i_each _ _ _ _ _ _ _ _ _ _ _ I). subst polls. rewrite <-(app_nil_r l).
      apply drop_just; try done; intros *; by rewrite elem_of_nil.
  - eapply (task_dead e bl _ None j polls hpolls data tx rx wk l []) in I; try done; [|by left].
    rewrite app_nil_r in I. destruct t as [[[]|[]]|]; try done; cbn in H; by injection H as <-.
Qed.
Lemma Inv_receive e bl t w cx r j' w' :
  Inv e bl (Sys t (Some JReceive) w) → join_receive (fin_of bl) cx w = (r, (j', w')) →
  Inv e bl (Sys t (Some j') (say [EJoin cx r] w')).
Proof.
  intros I H. destruct w as [polls hpolls [data tx rx wk] ret l]. unfold Inv in *. cbn in I.
  unfold join_receive in H. destruct tx.
  - cbn in H. injection H as <- <- <-. cbn. by eapply join_receives.
  - cbn in H. destruct data as [v|].
    + assert (fin_of bl (Some v) = Ready (Some v)) as E by (by destruct bl).
      rewrite E in H. injection H as <- <- <-. cbn. rewrite app_nil_r. by eapply join_gets.
    + destruct bl; cbn in H; injection H as <- <- <-; cbn; rewrite app_nil_r; by eapply (join_canceled e _) in I.
Qed.
Lemma Inv_handle e bl t w a cx r j0 j' w' :
  Inv e bl (Sys t (Some j0) w) → j0 = JUnresumed ∧ a = Unresumed ∨ j0 = JHandle a →
  join_handle (e_handle e) (fin_of bl) a cx w = (r, (j', w')) → r ≠ Abort → r ≠ UB →
  Inv e bl (Sys t (Some j') (say [EJoin cx r] w')).
Proof.
  intros I Hj H Hab Hub.
  assert (Ha : a = Unresumed ∨ a = Suspended).
  { destruct Hj as [[-> ->]| ->]; [by left|]. right. by destruct (i_join _ _ _ _ _ _ _ _ _ _ _ I) as (_ & ? & _). }
  assert (Hj' : Some j0 = Some JUnresumed ∨ ∃ a, Some j0 = Some (JHandle a)) by (destruct Hj as [[-> _]| ->]; [by left|right; by eexists]).
  destruct w as [polls hpolls [data tx rx wk] ret l]. unfold Inv in I. cbn in I.
  unfold join_handle in H. destruct (e_handle e hpolls) as [z| | |] eqn:Eh.
  - destruct (Z.eqb_spec z (-1)) as [-> |Hz]; [|destruct (Z.eqb_spec z 0) as [-> |Hz0]].
    + assert (r = Pending ∧ j' = JHandle Suspended ∧ w' = World polls (S hpolls) (Chan data tx rx wk) ret (l ++ [EHandlePoll hpolls cx])) as (-> & -> & ->)
        by (destruct Ha as [-> | ->]; cbn in H; rewrite Eh in H; cbn in H; by injection H as <- <- <-).
      unfold Inv. cbn. eapply log_eq; [by eapply join_waits|logs].
    + pose proof (join_handled _ _ _ _ _ _ _ _ _ _ _ cx I Hj' Eh) as I'.
      eapply (Inv_receive e bl t (World polls (S hpolls) (Chan data tx rx wk) ret (l ++ [EHandlePoll hpolls cx; EHandleDrop]))); [exact I'|].
      rewrite <-H. assert (E : o_poll (into_future (foreign (e_handle e))) cx (a, World polls hpolls (Chan data tx rx wk) ret l)
        = (Ready tt, (Returned, World polls (S hpolls) (Chan data tx rx wk) ret (l ++ [EHandlePoll hpolls cx; EHandleDrop])))).
      { destruct Ha as [-> | ->]; cbn; rewrite Eh; cbn; unfold say; cbn; by rewrite <-app_assoc. }
      by rewrite E.
    + destruct Ha as [-> | ->]; cbn in H; rewrite Eh in H; cbn in H; destruct z as [|p|[]]; try done; cbn in H; injection H as <- _ _; done.
  - pose proof (join_unwinds _ _ _ _ _ _ _ _ _ _ _ cx I Hj' Eh) as I'.
    unfold Inv. destruct data; destruct Ha as [-> | ->]; cbn in H; rewrite Eh in H; cbn in H; injection H as <- <- <-; cbn;
      (eapply log_eq; [exact I'|logs]).
  - destruct Ha as [-> | ->]; cbn in H; rewrite Eh in H; cbn in H; by injection H as <- _ _.
  - destruct Ha as [-> | ->]; cbn in H; rewrite Eh in H; cbn in H; by injection H as <- _ _.
Qed.
Lemma Inv_join_poll e bl s cx s' : Inv e bl s → step e bl s (JoinPoll cx) = ROk s' → Inv e bl s'.
Proof.
  intros I H. destruct s as [t [j|] w]; [|done]. cbn [step s_join s_world s_task] in H.
  destruct (o_poll (join (e_handle e) (fin_of bl)) cx (j, w)) as [r [j' w']] eqn:E.
  assert (Hr : r ≠ Abort ∧ r ≠ UB ∧ s' = Sys t (Some j') (say [EJoin cx r] w')).
  { destruct r; cbn in H; try done; injection H as <-; done. }
  destruct Hr as (Hab & Hub & ->). destruct j as [|a| | |]; cbn [o_poll join] in E.
  - eapply (Inv_handle e bl t w Unresumed cx r); eauto.
  - eapply (Inv_handle e bl t w a cx r); eauto.
  - eapply Inv_receive; eauto.
  - injection E as <- <- <-. unfold Inv in *. destruct w as [? ? [] ? ?]. cbn in *. eapply join_over; eauto.
  - injection E as <- <- <-. unfold Inv in *. destruct w as [? ? [] ? ?]. cbn in *. eapply join_over; eauto.
Qed.
Lemma Inv_join_drop e bl s s' : Inv e bl s → step e bl s JoinDrop = ROk s' → Inv e bl s'.
Proof.
  intros I H. destruct s as [t [j|] [polls hpolls [data tx rx wk] ret l]]; [|done]. unfold Inv in *. cbn in I.
  pose proof (join_dropped _ _ _ _ j _ _ _ _ _ _ _ I eq_refl) as I'.
  pose proof (i_join _ _ _ _ _ _ _ _ _ _ _ I) as Hj. pose proof (i_norx _ _ _ _ _ _ _ _ _ _ _ I) as Hn.
  destruct j as [|a| | |]; cbn in Hj.
  - cbn in H. injection H as <-. cbn. destruct data; (eapply log_eq; [exact I'|logs]).
  - destruct Hj as (_ & -> & _). cbn in H. injection H as <-. cbn. destruct data; (eapply log_eq; [exact I'|logs]).
  - cbn in H. injection H as <-. cbn. destruct data; (eapply log_eq; [exact I'|logs]).
  - destruct Hj as [-> _]. destruct (Hn eq_refl) as (_ & -> & ->). cbn in H. injection H as <-. cbn. exact I'.
  - destruct Hj as [-> _]. destruct (Hn eq_refl) as (_ & -> & ->). cbn in H. injection H as <-. cbn. exact I'.
Qed.
Lemma Inv_step e bl s o s' : Inv e bl s → step e bl s o = ROk s' → Inv e bl s'.
Proof.
  destruct o; [apply Inv_task_poll|apply Inv_task_call|apply Inv_task_drop|apply Inv_join_poll|apply Inv_join_drop].
Qed.
Lemma Inv_run e bl os s s' : Inv e bl s → run e bl s os = ROk s' → Inv e bl s'.
Proof.
  revert s. induction os as [|o os IH]; intros s I H; cbn [run] in H; [by injection H as <-|].
  destruct (step e bl s o) as [s1| | |] eqn:E; try done. eapply IH; [|done]. by eapply Inv_step.
Qed.
End R.
