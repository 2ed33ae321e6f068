(** Model of futures across the FFI and of executors.

    Sources (all in /repo/src):
    - dyn_traits/futures/_mod.rs 19-65 PollFuture, FfiFuture, into_future
    - dyn_traits/futures/executor.rs 51-71 spawn, 73-99 spawn_blocking,
      115-132 block_on
    - proc_macro/derives/dyn_trait/vtable_entry.rs 67-79, 196-208: the calls
      through virtual tables, of [extern "C"] functions without guard
    - closure/boxed.rs 107-166: the call of the action of spawn_blocking

    A future of the user is a function from the number of the poll to its
    outcome: for a given run any future, whatever it depends on, is one of
    these.  An executor is a list of operations: it polls, calls or drops the
    task, and whoever has the join future polls or drops it, in any order.
    The channel is that of futures::channel::oneshot, its functions atomic.
    Left out: the wake-ups that executors and other futures do among
    themselves, and tokio's own executor (executor.rs 148-208). *)

From Coq Require Import List Bool Arith ZArith.
From stdpp Require Import base numbers list.

(** What polling gives.  [Panic] unwinds, [Abort] ends the process. *)
Inductive polled (R : Type) := Pending | Ready (v : R) | Panic | Abort | UB.
Arguments Pending {R}.
Arguments Ready {R} v.
Arguments Panic {R}.
Arguments Abort {R}.
Arguments UB {R}.

(** What is observable.  [cx]: the context, that is the waker. *)
Inductive event (R : Type) :=
| EPoll (n cx : nat)              (* the future of the user is polled *)
| ERun                            (* the action of the user runs *)
| EDropUser                       (* the future or action is destroyed *)
| EOut (v : R)                    (* its output comes to be *)
| ELost (v : R)                   (* an output is destroyed undelivered *)
| EHandlePoll (n cx : nat)        (* the executor's future is polled *)
| EHandleDrop
| ETask (r : polled unit)         (* what the executor sees *)
| EJoin (cx : nat) (r : polled (option R))   (* what the user sees *)
| EJoinDrop
| EWake (cx : nat).               (* the waker of the receiver is woken *)
Arguments EPoll {R} n cx.
Arguments ERun {R}.
Arguments EDropUser {R}.
Arguments EOut {R} v.
Arguments ELost {R} v.
Arguments EHandlePoll {R} n cx.
Arguments EHandleDrop {R}.
Arguments ETask {R} r.
Arguments EJoin {R} cx r.
Arguments EJoinDrop {R}.
Arguments EWake {R} cx.

(** futures::channel::oneshot: the value, whether sender and receiver are
    there, the receiver's waker. *)
Record chan (R : Type) := Chan { c_data : option R; c_tx : bool; c_rx : bool; c_waker : option nat }.
Arguments Chan {R} _ _ _ _.
Arguments c_data {R} _.
Arguments c_tx {R} _.
Arguments c_rx {R} _.
Arguments c_waker {R} _.
(** [w_ret]: the variable [ret] of block_on, executor.rs 121. *)
Record world (R : Type) := World {
  w_polls : nat; w_hpolls : nat; w_chan : chan R; w_ret : option R; w_log : list (event R) }.
Arguments World {R} _ _ _ _ _.
Arguments w_polls {R} _.
Arguments w_hpolls {R} _.
Arguments w_chan {R} _.
Arguments w_ret {R} _.
Arguments w_log {R} _.

Section R.
Context {R : Type}.

Definition say (l : list (event R)) (w : world R) : world R :=
  World (w_polls w) (w_hpolls w) (w_chan w) (w_ret w) (w_log w ++ l).
Definition set_chan (c : chan R) (w : world R) : world R :=
  World (w_polls w) (w_hpolls w) c (w_ret w) (w_log w).
Definition set_ret (r : option R) (w : world R) : world R :=
  World (w_polls w) (w_hpolls w) (w_chan w) r (w_log w).

(** ** The channel *)

(** [drop(tx)]: wakes the receiver. *)
Definition tx_drop (w : world R) : world R :=
  let c := w_chan w in
  say (match c_waker c with Some cx => [EWake cx] | None => [] end)
    (set_chan (Chan (c_data c) false (c_rx c) None) w).
(** [tx.send(v).ok()]: the value comes back, to be destroyed, if there is no
    receiver. *)
Definition tx_send (v : R) (w : world R) : world R :=
  let c := w_chan w in
  if c_rx c
  then tx_drop (set_chan (Chan (Some v) (c_tx c) (c_rx c) (c_waker c)) w)
  else tx_drop (say [ELost v] w).
(** [Receiver::poll]: [Ready None] is [Err(Canceled)]. *)
Definition rx_poll (cx : nat) (w : world R) : polled (option R) * world R :=
  let c := w_chan w in
  if c_tx c
  then (Pending, set_chan (Chan (c_data c) (c_tx c) (c_rx c) (Some cx)) w)
  else (Ready (c_data c), set_chan (Chan None (c_tx c) (c_rx c) (c_waker c)) w).
(** [drop(rx)], with the value if there is one. *)
Definition rx_drop (w : world R) : world R :=
  let c := w_chan w in
  say (match c_data c with Some v => [ELost v] | None => [] end)
    (set_chan (Chan None (c_tx c) false None) w).

(** ** Futures as objects *)

Record obj (S A : Type) := Obj { o_poll : nat → S → polled A * S; o_drop : S → S }.
Arguments Obj {S A} _ _.
Arguments o_poll {S A} _ _ _.
Arguments o_drop {S A} _ _.

(** The future of the user. *)
Definition user (b : nat → polled R) : obj (world R) R :=
  Obj
    (λ cx w,
      let r := b (w_polls w) in
      (r, say (EPoll (w_polls w) cx :: match r with Ready v => [EOut v] | _ => [] end)
            (World (S (w_polls w)) (w_hpolls w) (w_chan w) (w_ret w) (w_log w))))
    (say [EDropUser]).

(** What comes back through a virtual table: the C representation of
    [PollFuture], or unwinding. *)
Inductive code := Code (z : Z) | CPanic | CAbort | CUB.
Record raw (S : Type) := Raw { r_poll : nat → S → code * S; r_release : S → S }.
Arguments Raw {S} _ _.
Arguments r_poll {S} _ _ _.
Arguments r_release {S} _ _.
(** _mod.rs 19-26 *)
Definition Completed : Z := 0%Z.
Definition PPending : Z := (-1)%Z.
(** _mod.rs 37-46, with vtable_entry.rs 196-208: an [extern "C"] function, out
    of which a panic unwinds or, in newer toolchains, aborts. *)
Definition virtual {S} (aborts : bool) (o : obj S unit) : raw S :=
  Raw
    (λ cx s,
      let '(r, s) := o_poll o cx s in
      (match r with
       | Pending => Code PPending
       | Ready _ => Code Completed
       | Panic => if aborts then CAbort else CPanic
       | Abort => CAbort
       | UB => CUB
       end, s))
    (o_drop o).
(** A future from elsewhere: [h] gives the results. *)
Definition foreign (h : nat → code) : raw (world R) :=
  Raw
    (λ cx w,
      (h (w_hpolls w), say [EHandlePoll (w_hpolls w) cx]
                         (World (w_polls w) (S (w_hpolls w)) (w_chan w) (w_ret w) (w_log w))))
    (say [EHandleDrop]).

(** *** Async blocks *)

(** The states of an async block with one [await].  [o]: what is awaited; [k]:
    the rest of the block; [unwind]: what the unwinding of the block, or its
    destruction, does after that. *)
Inductive astate := Unresumed | Suspended | Returned | Panicked.
Definition async_block {S A} (o : obj S A) (k : A → S → S) (unwind : S → S) : obj (astate * S) unit :=
  Obj
    (λ cx '(a, s),
      match a with
      | Unresumed | Suspended =>
          let '(r, s) := o_poll o cx s in
          match r with
          | Pending => (Pending, (Suspended, s))
          | Ready v => (Ready tt, (Returned, k v (o_drop o s)))
          | Panic => (Panic, (Panicked, unwind (o_drop o s)))
          | Abort => (Abort, (a, s))
          | UB => (UB, (a, s))
          end
      | Returned | Panicked => (Panic, (a, s))   (* resumed after completion, after panicking *)
      end)
    (λ '(a, s),
      match a with
      | Unresumed | Suspended => (a, unwind (o_drop o s))
      | Returned | Panicked => (a, s)
      end).

(** _mod.rs 48-65: [poll_fn] around [dyn_poll], whose result is read as a
    [PollFuture] without check, vtable_entry.rs 72. *)
Definition poll_dyn {S} (p : raw S) : obj S unit :=
  Obj
    (λ cx s,
      let '(c, s) := r_poll p cx s in
      (match c with
       | Code z => if Z.eqb z PPending then Pending else if Z.eqb z Completed then Ready tt else UB
       | CPanic => Panic
       | CAbort => Abort
       | CUB => UB
       end, s))
    (r_release p).
Definition into_future {S} (p : raw S) : obj (astate * S) unit := async_block (poll_dyn p) (λ _ s, s) (λ s, s).

(** ** spawn *)

(** executor.rs 60-62 *)
Definition spawned (b : nat → polled R) : obj (astate * world R) unit :=
  async_block (user b) tx_send tx_drop.

(** executor.rs 64-70 and 95-98: [async move { fut.into_future().await; rx.await … }] *)
Inductive jstate := JUnresumed | JHandle (a : astate) | JReceive | JReturned | JPanicked.
Definition join_receive (fin : option R → polled (option R)) (cx : nat) (w : world R) : polled (option R) * (jstate * world R) :=
  let '(r, w) := rx_poll cx w in
  match r with
  | Ready x =>
      let w := rx_drop w in
      match fin x with
      | Ready y => (Ready y, (JReturned, w))
      | r => (r, (JPanicked, w))
      end
  | r => (r, (JReceive, w))
  end.
Definition join_handle (h : nat → code) (fin : option R → polled (option R)) (a : astate) (cx : nat) (w : world R) :
  polled (option R) * (jstate * world R) :=
  let '(r, (a, w)) := o_poll (into_future (foreign h)) cx (a, w) in
  match r with
  | Pending => (Pending, (JHandle a, w))
  | Ready _ => join_receive fin cx (o_drop (into_future (foreign h)) (a, w)).2
  | Panic => (Panic, (JPanicked, rx_drop (o_drop (into_future (foreign h)) (a, w)).2))
  | Abort => (Abort, (JHandle a, w))
  | UB => (UB, (JHandle a, w))
  end.
Definition join (h : nat → code) (fin : option R → polled (option R)) : obj (jstate * world R) (option R) :=
  Obj
    (λ cx '(j, w),
      match j with
      | JUnresumed => join_handle h fin Unresumed cx w
      | JHandle a => join_handle h fin a cx w
      | JReceive => join_receive fin cx w
      | JReturned | JPanicked => (Panic, (j, w))
      end)
    (λ '(j, w),
      match j with
      | JUnresumed => (j, rx_drop (r_release (foreign h) w))
      | JHandle a => (j, rx_drop (o_drop (into_future (foreign h)) (a, w)).2)
      | JReceive => (j, rx_drop w)
      | JReturned | JPanicked => (j, w)
      end).
(** executor.rs 66-69: [.expect(…)] *)
Definition expect_sent (x : option R) : polled (option R) :=
  match x with Some v => Ready (Some v) | None => Panic end.

(** ** spawn_blocking *)

(** The closure of executor.rs 83-93.  [act]: what the action does, [None] for
    a panic. *)
Inductive cstate := CAction | CTaken.
Definition call_action (act : option R) (c : cstate) (w : world R) : polled unit * (cstate * world R) :=
  match c with
  | CAction =>
      match act with
      | Some v => (Ready tt, (CTaken, tx_send v (say [ERun; EOut v; EDropUser] w)))
      | None => (Panic, (CTaken, tx_drop (say [ERun; EDropUser] w)))
      end
  | CTaken => (Panic, (c, w))
  end.
Definition drop_action (c : cstate) (w : world R) : world R :=
  match c with CAction => tx_drop (say [EDropUser] w) | CTaken => w end.
(** Out of the [extern "C"] function of the BoxDynFnMut, boxed.rs 121-134. *)
Definition through_c (aborts : bool) (r : polled unit) : polled unit :=
  match r with Panic => if aborts then Abort else Panic | r => r end.

(** ** The whole *)

(** The task is [inl] a future or [inr] an action; [None] when dropped. *)
Record sys := Sys { s_task : option (astate + cstate); s_join : option jstate; s_world : world R }.
Inductive op := TaskPoll (cx : nat) | TaskCall | TaskDrop | JoinPoll (cx : nat) | JoinDrop.
Inductive res := ROk (s : sys) | RAbort | RUB | RStuck.

(** What the user has given, what the executor has returned, the toolchain. *)
Record setting := Setting { e_fut : nat → polled R; e_act : option R; e_handle : nat → code; e_aborts : bool }.

Definition fin_of (blocking : bool) : option R → polled (option R) :=
  if blocking then Ready else expect_sent.
Definition stop {A} (r : polled A) (s : sys) : res :=
  match r with Abort => RAbort | UB => RUB | _ => ROk s end.
Definition step (e : setting) (blocking : bool) (s : sys) (o : op) : res :=
  match o with
  | TaskPoll cx =>
      match s_task s with
      | Some (inl a) =>
          let '(r, (a, w)) := o_poll (poll_dyn (virtual (e_aborts e) (spawned (e_fut e)))) cx (a, s_world s) in
          stop r (Sys (Some (inl a)) (s_join s) (say [ETask r] w))
      | _ => RStuck
      end
  | TaskCall =>
      match s_task s with
      | Some (inr c) =>
          let '(r, (c, w)) := call_action (e_act e) c (s_world s) in
          let r := through_c (e_aborts e) r in
          stop r (Sys (Some (inr c)) (s_join s) (say [ETask r] w))
      | _ => RStuck
      end
  | TaskDrop =>
      match s_task s with
      | Some (inl a) => ROk (Sys None (s_join s) (o_drop (spawned (e_fut e)) (a, s_world s)).2)
      | Some (inr c) => ROk (Sys None (s_join s) (drop_action c (s_world s)))
      | None => RStuck
      end
  | JoinPoll cx =>
      match s_join s with
      | Some j =>
          let '(r, (j, w)) := o_poll (join (e_handle e) (fin_of blocking)) cx (j, s_world s) in
          stop r (Sys (s_task s) (Some j) (say [EJoin cx r] w))
      | None => RStuck
      end
  | JoinDrop =>
      match s_join s with
      | Some j => ROk (Sys (s_task s) None (o_drop (join (e_handle e) (fin_of blocking)) (j, say [EJoinDrop] (s_world s))).2)
      | None => RStuck
      end
  end.
Fixpoint run (e : setting) (blocking : bool) (s : sys) (os : list op) : res :=
  match os with
  | [] => ROk s
  | o :: os => match step e blocking s o with ROk s => run e blocking s os | r => r end
  end.
(** executor.rs 58-63, 83-94: the channel is made, the task is given away. *)
Definition new_world : world R := World 0 0 (Chan None true true None) None [].
Definition start (blocking : bool) : sys :=
  Sys (Some (if blocking then inr CAction else inl Unresumed)) (Some JUnresumed) new_world.

(** ** block_on *)

(** executor.rs 122-124 *)
Definition blocked_on (b : nat → polled R) : obj (astate * world R) unit :=
  async_block (user b) (λ v, set_ret (Some v)) (λ w, w).
(** The executor polls once for every context in [cxs], whatever comes back. *)
Fixpoint poll_all (aborts : bool) (b : nat → polled R) (cxs : list nat) (s : astate * world R) : polled unit * (astate * world R) :=
  match cxs with
  | [] => (Ready tt, s)
  | cx :: cxs =>
      let '(r, (a, w)) := o_poll (poll_dyn (virtual aborts (blocked_on b))) cx s in
      match r with
      | Abort => (Abort, (a, w))
      | UB => (UB, (a, w))
      | _ => poll_all aborts b cxs (a, say [ETask r] w)
      end
  end.
(** executor.rs 115-132: then it returns or, if [panics], unwinds; the future is
    dropped; [ret.expect(…)]. *)
Definition block_on (aborts : bool) (b : nat → polled R) (cxs : list nat) (panics : bool) : polled R * world R :=
  let '(r, s) := poll_all aborts b cxs (Unresumed, new_world) in
  match r with
  | Abort => (Abort, s.2)
  | UB => (UB, s.2)
  | _ =>
      let w := (o_drop (blocked_on b) s).2 in
      match w_ret w with
      | Some v => if panics then (Panic, say [ELost v] (set_ret None w)) else (Ready v, set_ret None w)
      | None => (Panic, w)
      end
  end.
End R.
Arguments Obj {S A} _ _.
Arguments o_poll {S A} _ _ _.
Arguments o_drop {S A} _ _.
Arguments Raw {S} _ _.
Arguments r_poll {S} _ _ _.
Arguments r_release {S} _ _.
Arguments sys R : clear implicits.
Arguments setting R : clear implicits.
Arguments res R : clear implicits.
