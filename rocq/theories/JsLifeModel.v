(** Model of the life of JavaScript functions given to Rust, on Node.js.

    Sources (in /repo/src/js/closures):
    - node_js.rs 74-162 (ThreadTiedJsFunction: creation, drop, use), 200-230
      (the fields, in the order they are dropped), 347-464 (from_napi_value),
      475-496 (make_nodejs_wait_for_this_to_be_dropped), 498-553 (as_raw_parts,
      into_raw_parts, retain_arc, release_arc), 557-777 (call_trampoline, only
      what it does with the closure)
    - common.rs 3-10

    A closure is at first owned by value, which counts as one owner, and later
    by an [Arc].  A value read with [as_raw_parts] is used like one of an owner.
    The calls themselves are those of JsCallModel: here a call is known by
    whether it was queued.  [ThreadsafeFunction] of the napi crate is assumed to
    release the N-API function when dropped; a released function is closed by
    Node.js once its queue is empty, and only then lets go of the JS function.
    What N-API is asked is logged with the thread that asks it. *)

From Coq Require Import Bool List.
From stdpp Require Import base numbers list.

(** What N-API is asked, by which thread, for which function.  All but the last
    two take the environment. *)
Inductive api := CreateRef | GetRef | DeleteRef | CreateTsfn | RefTsfn | UnrefTsfn | ReleaseTsfn | CallTsfn.
Record entry := Entry { by_ : nat; what : api; on : nat }.

(** A JS function given to Rust.  [home]: the thread it came from; [count]: the
    owners, 0 once it was dropped.  In Node.js: [ref_], the reference; [tsfn],
    the thread-safe function, not yet released; [loop_], whether it keeps the
    event loop running; [queued] calls; [held], whether JS code holds the
    function; [gone], whether it was collected. *)
Record fn := Fn {
  home : nat; detached : bool; count : nat;
  ref_ : bool; tsfn : bool; loop_ : bool; queued : nat; held : bool; gone : bool }.

(** [undefined]: freed memory was used.  [panicked]: an [assert_eq!] failed. *)
Record state := State { fns : list fn; log : list entry; undefined : bool; panicked : bool }.
Definition init : state := State [] [] false false.

(** Where creation fails: at the reference (104), at the thread-safe function
    (443), at unref (456), nowhere. *)
Inductive failing := AtRef | AtTsfn | AtUnref | Nowhere.
Inductive move :=
| Create (t : nat) (detached : bool) (f : failing)  (* JS calls Rust with a function *)
| Retain (t c : nat) | Release (t c : nat)
| Invoke (t c : nat) (taken : bool)                 (* [taken]: the queue took it *)
| Wait (t c : nat) (b : bool) (ok : bool)           (* make_nodejs_wait_for_this_to_be_dropped *)
| Run (c : nat)                                     (* the event loop runs a queued call *)
| Forget (c : nat)                                  (* JS code drops its own *)
| Collect (c : nat).                                (* the collector *)

Definition put (s : state) (c : nat) (k : fn) (l : list entry) : state :=
  State (<[c := k]> (fns s)) (log s ++ l) (undefined s) (panicked s).
Definition ub (s : state) : state := State (fns s) (log s) true (panicked s).
Definition panic (s : state) : state := State (fns s) (log s) (undefined s) true.

(** from_napi_value, 347-464.  On an error what was made is dropped, the last
    first: [ts_fun], then [thread_tied_func] (112-133). *)
Definition create (s : state) (t : nat) (d : bool) (f : failing) : state :=
  let c := length (fns s) in
  let made k l := State (fns s ++ [k]) (log s ++ l) (undefined s) (panicked s) in
  match f with
  | AtRef => panic s
  | AtTsfn =>
      made (Fn t d 0 false false false 0 true false)
        [Entry t CreateRef c; Entry t DeleteRef c]
  | AtUnref =>
      made (Fn t d 0 false false false 0 true false)
        [Entry t CreateRef c; Entry t CreateTsfn c; Entry t ReleaseTsfn c; Entry t DeleteRef c]
  | Nowhere =>
      made (Fn t d 1 true true false 0 true false)
        [Entry t CreateRef c; Entry t CreateTsfn c; Entry t UnrefTsfn c]
  end.

(** The drop of a Closure_: its fields, in order: [local_func], [ts_fun]. *)
Definition dropped (k : fn) : fn :=
  Fn (home k) (detached k) 0 false false false (queued k) (held k) (gone k).
Definition drop_log (t c : nat) : list entry := [Entry t DeleteRef c; Entry t ReleaseTsfn c].
Definition set_count (k : fn) (n : nat) : fn :=
  Fn (home k) (detached k) n (ref_ k) (tsfn k) (loop_ k) (queued k) (held k) (gone k).
Definition set_queued (k : fn) (n : nat) : fn :=
  Fn (home k) (detached k) (count k) (ref_ k) (tsfn k) (loop_ k) n (held k) (gone k).

(** 538-551: the count is that of an owner more. *)
Definition retain_arc (s : state) (c : nat) (k : fn) : state := put s c (set_count k (S (count k))) [].
(** 529-537: the last owner drops it, on its own thread. *)
Definition release_arc (s : state) (t c : nat) (k : fn) : state :=
  match count k with
  | S (S n) => put s c (set_count k (S n)) []
  | _ => put s c (dropped k) (drop_log t c)
  end.
(** 578-775: detached calls are queued; others are queued unless on the home
    thread, where the function is read from the reference and called.  A
    function collected is not read but as null, and the call fails. *)
Definition call_trampoline (s : state) (t c : nat) (k : fn) (taken : bool) : state :=
  let enqueue := put s c (set_queued k (if taken then S (queued k) else queued k)) [Entry t CallTsfn c] in
  if detached k then enqueue
  else if t =? home k then
    let s := put s c k [Entry t GetRef c] in if gone k then panic s else s
  else enqueue.
(** 485-496 *)
Definition make_wait (s : state) (t c : nat) (k : fn) (b ok : bool) : state :=
  put s c
    (Fn (home k) (detached k) (count k) (ref_ k) (tsfn k) (if ok then b else loop_ k) (queued k) (held k) (gone k))
    [Entry t (if b then RefTsfn else UnrefTsfn) c].

(** With the memory of a closure that was not freed. *)
Definition with_memory (s : state) (c : nat) (f : fn → state) : state :=
  match fns s !! c with
  | Some k => if count k =? 0 then ub s else f k
  | None => ub s
  end.

Definition step (s : state) (m : move) : state :=
  if undefined s || panicked s then s
  else
    match m with
    | Create t d f => create s t d f
    | Retain _ c => with_memory s c (retain_arc s c)
    | Release t c => with_memory s c (release_arc s t c)
    | Invoke t c taken => with_memory s c (λ k, call_trampoline s t c k taken)
    | Wait t c b ok => with_memory s c (λ k, make_wait s t c k b ok)
    | Run c =>
        match fns s !! c with
        | Some k =>
            match queued k with
            | S n => let s := put s c (set_queued k n) [] in if gone k then panic s else s
            | O => s
            end
        | None => s
        end
    | Forget c =>
        match fns s !! c with
        | Some k => put s c (Fn (home k) (detached k) (count k) (ref_ k) (tsfn k) (loop_ k) (queued k) false (gone k)) []
        | None => s
        end
    | Collect c =>
        (* not while it is held, referred to, or by a thread-safe function not closed *)
        match fns s !! c with
        | Some k =>
            if held k || ref_ k || tsfn k || negb (queued k =? 0) then s
            else put s c (Fn (home k) (detached k) (count k) (ref_ k) (tsfn k) (loop_ k) (queued k) (held k) true) []
        | None => s
        end
    end.
Fixpoint runs (s : state) (ms : list move) : state :=
  match ms with [] => s | m :: ms => runs (step s m) ms end.
