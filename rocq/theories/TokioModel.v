(** Model of tokio's runtime as an executor, on top of FutModel.

    Sources: /repo/src/dyn_traits/futures/executor.rs 141-192, the impl of
    [FfiFutureExecutor] for [tokio::runtime::Handle]; 51-71 and 73-99, the
    callers of it, are in FutModel.

    Of tokio (its documentation): a spawned future is polled by the runtime
    until it completes; a panic of it is caught; it is dropped when it
    completes, panics, or when the runtime is shut down, and then the
    [JoinHandle] completes with [Ok], or with a [JoinError] that is either a
    panic or a cancellation; whoever has polled the handle last is woken.
    Dropping the handle detaches the task.  A blocking task is called once;
    shutting down before drops it.
    [JoinError::into_panic] panics if it is a cancellation, [try_into_panic]
    returns it.

    Left out: [dyn_block_on] is FutModel's [block_on] with polls until the end;
    [dyn_enter] returns the guard of [Handle::enter]. *)

From Coq Require Import List Bool Arith ZArith.
From stdpp Require Import base numbers list.
From Verif Require Import FutModel.
Import stdpp.list.

(** [Result<(), JoinError>] *)
Inductive joined := JoinOk | JoinPanic | JoinCancelled.
(** The task in tokio; [Consumed]: its result has been taken by the handle. *)
Inductive stage := Running | Finished (r : joined) | Consumed.
(** What a panic of the join future carries: the payload of the user's panic;
    tokio's ["`JoinError` reason is not a panic."]; executor.rs 67-69's
    ["executor dropped the `spawn`ed task before its completion"]; that of a
    future polled after its end. *)
Inductive payload := OfUser | NotAPanic | ExecutorDropped | Resumed.

Section R.
Context {R : Type}.

Record tokio := Tokio {
  t_sys : sys R; t_stage : stage;
  t_waker : option nat;         (* who has polled the handle last *)
  t_wakes : list nat;           (* the wake-ups tokio has done *)
  t_why : list payload }.       (* the panics of the join future *)
(** The runtime works on the task, or is shut down; the join future is polled,
    or dropped. *)
Inductive tact := Work (cx : nat) | Shutdown | Await (cx : nat) | Detach.
Inductive tres := TOk (t : tokio) | TAbort | TUB | TStuck.

(** A panic out of the [extern "C"] function of [dyn_poll]. *)
Definition unwinds (aborts : bool) : code := if aborts then CAbort else CPanic.
(** executor.rs 150-157, 166-176: what the next poll of the future that
    dyn_spawn or dyn_spawn_blocking has returned gives. *)
Definition answer (blocking aborts : bool) (s : stage) : code :=
  match s with
  | Running => Code PPending
  | Finished JoinOk => Code Completed
  | Finished JoinPanic => unwinds aborts           (* resume_unwind *)
  | Finished JoinCancelled =>
      if blocking then Code Completed              (* 173 *)
      else unwinds aborts                          (* 154: into_panic *)
  | Consumed => unwinds aborts
  end.
Definition with_answer (e : setting R) (c : code) : setting R :=
  Setting (e_fut e) (e_act e) (λ _, c) (e_aborts e).

Definition then_ (r : res R) (k : sys R → tres) : tres :=
  match r with ROk s => k s | RAbort => TAbort | RUB => TUB | RStuck => TStuck end.

(** The task comes to its end: it is dropped, then the handle is told. *)
Definition finish (e : setting R) (blocking : bool) (r : joined) (t : tokio) (s : sys R) : tres :=
  then_ (step e blocking s TaskDrop) (λ s,
    TOk (Tokio s (Finished r) None
           (t_wakes t ++ match t_waker t with Some cx => [cx] | None => [] end) (t_why t))).

(** What polling or calling the task gave, or polling the join future. *)
Definition task_result (s : sys R) : option (polled unit) :=
  match last (w_log (s_world s)) with Some (ETask r) => Some r | _ => None end.
Definition join_result (s : sys R) : option (polled (option R)) :=
  match last (w_log (s_world s)) with Some (EJoin _ r) => Some r | _ => None end.

(** The join future still has to await the handle. *)
Definition awaits_handle (j : option jstate) : bool :=
  match j with Some JUnresumed | Some (JHandle _) => true | _ => false end.
Definition why (blocking : bool) (t : tokio) : payload :=
  if awaits_handle (s_join (t_sys t)) then
    match t_stage t with
    | Finished JoinPanic => OfUser
    | Finished JoinCancelled => if blocking then ExecutorDropped else NotAPanic
    | Consumed => Resumed
    | _ => ExecutorDropped
    end
  else match s_join (t_sys t) with Some JReceive => ExecutorDropped | _ => Resumed end.

Definition tstep (e : setting R) (blocking : bool) (t : tokio) (o : tact) : tres :=
  match o with
  | Work cx =>
      match t_stage t with
      | Running =>
          then_ (step e blocking (t_sys t) (if blocking then TaskCall else TaskPoll cx)) (λ s,
            match task_result s with
            | Some Pending => TOk (Tokio s Running (t_waker t) (t_wakes t) (t_why t))
            | Some (Ready _) => finish e blocking JoinOk t s
            | Some Panic => finish e blocking JoinPanic t s
            | _ => TStuck
            end)
      | _ => TStuck
      end
  | Shutdown =>
      match t_stage t with
      | Running => finish e blocking JoinCancelled t (t_sys t)
      | _ => TOk t
      end
  | Await cx =>
      let c := answer blocking (e_aborts e) (t_stage t) in
      let h := awaits_handle (s_join (t_sys t)) in
      then_ (step (with_answer e c) blocking (t_sys t) (JoinPoll cx)) (λ s,
        TOk (Tokio s
               (match t_stage t with
                | Finished r => if h then Consumed else Finished r
                | g => g
                end)
               (match t_stage t with Running => if h then Some cx else t_waker t | _ => t_waker t end)
               (t_wakes t)
               (t_why t ++ match join_result s with Some Panic => [why blocking t] | _ => [] end)))
  | Detach =>
      then_ (step e blocking (t_sys t) JoinDrop) (λ s,
        TOk (Tokio s (t_stage t) None (t_wakes t) (t_why t)))
  end.
Fixpoint trun (e : setting R) (blocking : bool) (t : tokio) (os : list tact) : tres :=
  match os with
  | [] => TOk t
  | o :: os => match tstep e blocking t o with TOk t => trun e blocking t os | r => r end
  end.
Definition tstart (blocking : bool) : tokio := Tokio (start blocking) Running None [] [].
End R.
Arguments tokio R : clear implicits.
Arguments tres R : clear implicits.
