(** Model of calls of JavaScript callbacks from Rust threads, on Node.js.

    Sources (in /repo/src/js):
    - closures/node_js.rs 13-18, 854-876 (the deadlock timeout), 143-160
      (get_thread_tied_func), 425-460 (creation of the queue), 557-777
      (call_trampoline), 779-832 (convert_params)
    - ffi_helpers.rs 153-184 (getDeadlockTimeout, setDeadlockTimeout)

    Time is not modelled but by the order of events: a timeout may come at any
    moment while nothing was received.  A call on the function's own thread is
    one event, though calls may nest there.  A panic in the trampoline or in a
    callback of N-API aborts the process.  The conversions of arguments and
    results are those of NapiModel; here arguments and results are numbers, and
    a result may fail to convert. *)

From Coq Require Import ZArith Bool List.
From stdpp Require Import base numbers list.
From Verif Require Import JsNumModel.
Local Open Scope Z_scope.

(** ** The deadlock timeout *)

(** [OnceCell<Option<u32>>] *)
Definition cell := option (option Z).
(** node_js.rs 18 *)
Definition DEFAULT_DEADLOCK_TIMEOUT_MS : Z := 5000.
(** node_js.rs 858-863 *)
Definition get_deadlock_timeout (c : cell) : option Z :=
  match c with Some timeout => timeout | None => Some DEFAULT_DEADLOCK_TIMEOUT_MS end.
(** node_js.rs 866-876; [None] is an error. *)
Definition set_deadlock_timeout (c : cell) (timeout : option Z) : option cell :=
  match c with Some _ => None | None => Some (Some timeout) end.
(** ffi_helpers.rs 153-164 *)
Definition get_deadlock_timeout_js (c : cell) : Z :=
  match get_deadlock_timeout c with Some val => val | None => 0 end.
(** ffi_helpers.rs 166-184; the number is read by N-API as a u32. *)
Definition set_deadlock_timeout_js (c : cell) (val : num) : option cell :=
  let val := get32 (Node (λ z, z) 64) false val in
  set_deadlock_timeout c (if val =? 0 then None else Some val).

(** ** Calls *)

(** A JS function given to Rust: the thread it came from, and whether it is
    SyncKind::Detached. *)
Record closure := Closure { owner : nat; detached : bool }.

(** Where the sender of a call is: in the queue; in the hands of JS, until it
    is collected; lost, when the queue did not take it. *)
Inductive phase := Queued | Started (held : bool) | Lost (leaked : bool).
Inductive wstate := Waiting | Returned (v : option Z) | Detach.
(** One call: closure, calling thread, argument; the channel's slot, with a
    result or an error; and where the caller stands. *)
Record call := Call {
  clo : nat; thr : nat; arg : Z; at_ : phase; slot : option (option Z); st : wstate }.

(** What can be observed. *)
Inductive obs :=
| OCall (i c : nat) (a : Z) | ORun (i c : nat) (a : Z) | OSend (i : nat) (r : option Z)
| ORet (i : nat) (v : Z) | OAbort.

Record state := State { cfg : cell; calls : list call; queue : list nat; aborted : bool; log : list obs }.
Definition init : state := State None [] [] false [].

(** What N-API says to [napi_call_threadsafe_function]: a function already
    released is closing, and the data is dropped or leaked. *)
Inductive enqueued := Taken | Closing (leaked : bool).
Inductive ev :=
| ECall (t c : nat) (a : Z) (o : enqueued)   (* call_trampoline *)
| EDirect (t c : nat) (a : Z) (r : option Z) (* the same on the function's thread *)
| ERun (c : nat)                             (* the event loop calls the function *)
| ESend (i : nat) (r : option Z)             (* JS calls the ret sender *)
| ECollect (i : nat)                         (* JS forgets it *)
| ERecv (i : nat) | ETimeout (i : nat) | EDisconnected (i : nat)
| ESet (timeout : option Z).

Definition set_call (i : nat) (k : call) (s : state) : state :=
  State (cfg s) (<[i := k]> (calls s)) (queue s) (aborted s) (log s).
Definition note (o : obs) (s : state) : state :=
  State (cfg s) (calls s) (queue s) (aborted s) (log s ++ [o])%list.
Definition abort (s : state) : state :=
  State (cfg s) (calls s) (queue s) true (log s ++ [OAbort])%list.
(** A thread in a call that waits does nothing else. *)
Definition blocked (s : state) (t : nat) : bool :=
  existsb (λ k, match st k with Waiting => (thr k =? t)%nat | _ => false end) (calls s).
Definition queue_of (s : state) (c : nat) : list nat :=
  List.filter (λ i, match calls s !! i with Some k => (clo k =? c)%nat | None => false end) (queue s).
(** node_js.rs 425-442 *)
Definition queue_size_bound (k : closure) : option nat := if detached k then Some (Z.to_nat 1024) else None.
Definition full (s : state) (c : nat) (k : closure) : bool :=
  match queue_size_bound k with Some b => (b <=? List.length (queue_of s c))%nat | None => false end.
(** A new call, with its sender in the queue or not. *)
Definition enqueue (s : state) (t c : nat) (a : Z) (o : enqueued) (w : wstate) : state :=
  let i := List.length (calls s) in
  State (cfg s)
    (calls s ++ [Call c t a (match o with Taken => Queued | Closing leaked => Lost leaked end) None w])%list
    (match o with Taken => queue s ++ [i] | Closing _ => queue s end)%list
    (aborted s) (log s ++ [OCall i c a])%list.

(** call_trampoline, 557-777: detached calls are queued, unless the queue is
    full, and return; others from another thread are queued and wait.
    [checks]: whether debug_assert_eq!, 702, is there. *)
Definition call_trampoline (checks : bool) (cl : list closure) (s : state) (t c : nat) (a : Z) (o : enqueued) : option state :=
  match cl !! c with
  | Some k =>
      if detached k then Some (enqueue s t c a (if full s c k then Closing true else o) Detach)
      else if (t =? owner k)%nat then None
      else
        match o with
        | Closing _ => if checks then Some (abort s) else Some (enqueue s t c a o Waiting)
        | Taken => Some (enqueue s t c a o Waiting)
        end
  | None => None
  end.
(** 731-776: the function is called at once with a dummy sender; an exception
    or a result that does not convert panics. *)
Definition call_direct (cl : list closure) (s : state) (t c : nat) (a : Z) (r : option Z) : option state :=
  match cl !! c with
  | Some k =>
      if negb (detached k) && (t =? owner k)%nat then
        let i := List.length (calls s) in
        let s := State (cfg s) (calls s ++ [Call c t a (Started false) None (Returned r)])%list (queue s) (aborted s)
                   (log s ++ [OCall i c a; ORun i c a; OSend i r])%list in
        match r with Some v => Some (note (ORet i v) s) | None => Some (abort s) end
      else None
  | None => None
  end.
(** The event loop, and convert_params 779-796: the first of the queue. *)
Definition run (cl : list closure) (s : state) (c : nat) : option state :=
  match cl !! c, queue_of s c with
  | Some k, i :: _ =>
      if blocked s (owner k) then None
      else
        match calls s !! i with
        | Some q =>
            Some (note (ORun i c (arg q))
              (State (cfg s) (<[i := Call (clo q) (thr q) (arg q) (Started true) (slot q) (st q)]> (calls s))
                 (List.filter (λ j, negb (j =? i)%nat) (queue s)) (aborted s) (log s)))
        | None => None
        end
  | _, _ => None
  end.
(** 796-820: the ret sender given to JS sends on the channel of its call, or
    panics if that is not possible; that of a detached call does nothing. *)
Definition ret_sender (cl : list closure) (s : state) (i : nat) (r : option Z) : option state :=
  match calls s !! i with
  | Some q =>
      match at_ q, cl !! clo q with
      | Started true, Some k =>
          if blocked s (owner k) then None
          else
            match st q with
            | Detach => Some s
            | Waiting =>
                match slot q with
                | None => Some (note (OSend i r) (set_call i (Call (clo q) (thr q) (arg q) (Started true) (Some r) Waiting) s))
                | Some _ => Some (abort s)      (* used more than once *)
                end
            | Returned _ => Some (abort s)      (* channel closed *)
            end
      | _, _ => None
      end
  | None => None
  end.
Definition collect (cl : list closure) (s : state) (i : nat) : option state :=
  match calls s !! i with
  | Some q =>
      match at_ q, cl !! clo q with
      | Started true, Some k =>
          if blocked s (owner k) then None
          else Some (set_call i (Call (clo q) (thr q) (arg q) (Started false) (slot q) (st q)) s)
      | _, _ => None
      end
  | None => None
  end.
(** 704-729 and 776: receive a result, or time out, or find the channel
    closed; a result that is an error panics. *)
Definition receive (s : state) (i : nat) : option state :=
  match calls s !! i with
  | Some q =>
      match st q, slot q with
      | Waiting, Some r =>
          let s := set_call i (Call (clo q) (thr q) (arg q) (at_ q) None (Returned r)) s in
          match r with Some v => Some (note (ORet i v) s) | None => Some (abort s) end
      | _, _ => None
      end
  | None => None
  end.
Definition time_out (s : state) (i : nat) : option state :=
  match calls s !! i with
  | Some q =>
      match st q, slot q, get_deadlock_timeout (cfg s) with
      | Waiting, None, Some _ => Some (abort s)
      | _, _, _ => None
      end
  | None => None
  end.
Definition disconnected (s : state) (i : nat) : option state :=
  match calls s !! i with
  | Some q =>
      match st q, slot q, at_ q with
      | Waiting, None, (Started false | Lost false) => Some (abort s)
      | _, _, _ => None
      end
  | None => None
  end.

Definition step (checks : bool) (cl : list closure) (s : state) (e : ev) : option state :=
  if aborted s then None
  else
    match e with
    | ECall t c a o => if blocked s t then None else call_trampoline checks cl s t c a o
    | EDirect t c a r => if blocked s t then None else call_direct cl s t c a r
    | ERun c => run cl s c
    | ESend i r => ret_sender cl s i r
    | ECollect i => collect cl s i
    | ERecv i => receive s i
    | ETimeout i => time_out s i
    | EDisconnected i => disconnected s i
    | ESet timeout =>
        Some (State (match set_deadlock_timeout (cfg s) timeout with Some c => c | None => cfg s end)
                (calls s) (queue s) (aborted s) (log s))
    end.
Fixpoint steps (checks : bool) (cl : list closure) (s : state) (es : list ev) : option state :=
  match es with
  | [] => Some s
  | e :: es => match step checks cl s e with Some s => steps checks cl s es | None => None end
  end.
