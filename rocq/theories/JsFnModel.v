(** Model of functions exported to JavaScript: calls, promises, registration.

    Sources (in /repo):
    - src/proc_macro/ffi_export/fn_/mod.rs 171-187 (the function called),
      189-337 (the JavaScript side, [async_worker] included)
    - src/proc_macro/ffi_export/fn_/async_fn.rs 133-310 (async functions)
    - src/js/_mod.rs 199-238 (JsPromise::spawn), 266-343 (AsyncWorkerTask,
      from_task_spawned_on_worker_pool)
    - src/js/registering.rs 26-66
    - napi-dispatcher/nodejs-derive/src/proc_macros/mod.rs 31-118 and
      napi-dispatcher/wasm/src/proc_macros/mod.rs 32-62 (js_export)

    The conversions are those of NapiModel.  The Rust function is an oracle of
    the number of the call and of its arguments.  A function reads all that its
    arguments point to while it runs (an async one before its first
    [ffi_await!]: the macro lets no borrow be captured by the future).  A future
    does not panic.  A buffer that JavaScript no longer holds may be collected
    at any time between calls; addresses are not used again. *)

From Coq Require Import ZArith NArith Bool List.
From stdpp Require Import base numbers list.
From Verif Require Import JsNumModel NapiModel.

(** A parameter: its C type, and [ReprC::is_valid] of its Rust type. *)
Record param := Param { p_ty : cty; p_valid : val → bool }.
(** [#[ffi_export(js)]], [js(async_worker)], an async function. *)
Inductive how := Plain | Worker | Future.
Record fn := Fn { params : list param; ret : cty; mode : how }.
(** What the Rust function does. *)
Inductive outcome := Returns (v : val) | Unwinds.

(** For each call from JavaScript, the promise it gave: none (yet); a task of
    [async_worker] on Node.js that waits; a future; a result on its way to the
    main thread; settled ([None]: rejected). *)
Inductive task := TNone | TQueued (vs : list val) | TFuture (v : val) | TDone (v : val) | TSettled (r : option js).
(** [Unwound]: a panic outside UnwindGuard. *)
Inductive death := Aborted | Undefined | Unwound.
(** The calls from JavaScript, the buffers collected, the calls of the Rust
    function with the number of the call from JavaScript. *)
Record world := World {
  tasks : list task; freed : list Z; calls : list (nat * list val); dead : option death }.
Definition init : world := World [] [] [] None.

Inductive move :=
| MCall (args : list js) (spawned : bool)   (* a call from JavaScript; does N-API take the task? *)
| MWork (i : nat)                           (* a worker runs task i, the executor ends future i *)
| MSettle (i : nat)                         (* the main thread settles promise i *)
| MCollect (a : Z).                         (* the buffer at a is collected *)
(** What a call gives to JavaScript. *)
Inductive result := RNothing | RReturn (j : js) | RThrow | RPromise (i : nat).

(** nodejs-derive 63-79: [ctx.get(i)?], undefined if not given. *)
Definition arg (args : list js) (i : nat) : js := default JUndefined (args !! i).
(** On Node.js all arguments are extracted before the first is converted. *)
Fixpoint kinds_ok (p : plat) (i : nat) (ps : list param) (args : list js) : bool :=
  match ps with
  | [] => true
  | q :: ps => has_kind (kind_of p (p_ty q)) (arg args i) && kinds_ok p (S i) ps args
  end.
(** mod.rs 271-281 *)
Fixpoint from_napi_values (chk : bool) (p : plat) (i : nat) (ps : list param) (args : list js) : res (list val) :=
  match ps with
  | [] => Ok []
  | q :: ps =>
      match from_napi chk p (p_ty q) (arg args i) with
      | Ok v => mapr (cons v) (from_napi_values chk p (S i) ps args)
      | Err => Err
      | Panic => Panic
      end
  end.
Definition convert (chk : bool) (p : plat) (ps : list param) (args : list js) : res (list val) :=
  match p with
  | Node _ _ => if kinds_ok p 0 ps args then from_napi_values chk p 0 ps args else Err
  | Wasm _ => from_napi_values chk p 0 ps args
  end.

(** An async function: what the parameters are given, or an error, a panic, or
    a value that is not one of its type. *)
Inductive prep := POk (vs : list val) | PErr | PPanic | PInvalid.
(** async_fn.rs 288-305: each argument is converted and made a value of its
    type before the next is converted. *)
Fixpoint future_args (chk : bool) (p : plat) (i : nat) (ps : list param) (args : list js) : prep :=
  match ps with
  | [] => POk []
  | q :: ps =>
      match from_napi chk p (p_ty q) (arg args i) with
      | Ok v =>
          if p_valid q v then
            match future_args chk p (S i) ps args with POk vs => POk (v :: vs) | r => r end
          else PInvalid
      | Err => PErr
      | Panic => PPanic
      end
  end.
Definition is_wasm (p : plat) : bool := match p with Wasm _ => true | Node _ _ => false end.
Definition prepare (chk : bool) (p : plat) (f : fn) (args : list js) : prep :=
  match mode f with
  | Future => if is_wasm p || kinds_ok p 0 (params f) args then future_args chk p 0 (params f) args else PErr
  | _ => match convert chk p (params f) args with Ok vs => POk vs | Err => PErr | Panic => PPanic end
  end.

(** What a value points to. *)
Fixpoint addrs (v : val) : list Z :=
  match v with
  | VPtr a => [a]
  | VStruct vs => (fix go vs := match vs with [] => [] | v :: vs => addrs v ++ go vs end) vs
  | _ => []
  end.
Definition dangling (freed : list Z) (vs : list val) : bool :=
  existsb (λ a, existsb (Z.eqb a) freed) (flat_map addrs vs).
Fixpoint all_valid (ps : list param) (vs : list val) : bool :=
  match ps, vs with
  | [], [] => true
  | q :: ps, v :: vs => p_valid q v && all_valid ps vs
  | _, _ => false
  end.

Definition die (w : world) (d : death) : world := World (tasks w) (freed w) (calls w) (Some d).
Definition set_tasks (w : world) (ts : list task) : world := World ts (freed w) (calls w) (dead w).

(** mod.rs 171-187: from_raw_unchecked (it checks in debug builds), the call;
    [guarded]: inside UnwindGuard. *)
Definition run (dbg guarded : bool) (rust : nat → list val → outcome) (f : fn) (w : world) (id : nat)
    (vs : list val) : world * option val :=
  let panic := if guarded then Aborted else Unwound in
  if negb (all_valid (params f) vs) then (die w (if dbg then panic else Undefined), None)
  else if dangling (freed w) vs then (die w Undefined, None)
  else
    let w' := World (tasks w) (freed w) (calls w ++ [(id, vs)]) (dead w) in
    match rust (length (calls w)) vs with
    | Returns v => (w', Some v)
    | Unwinds => (die w' panic, None)
    end.

(** mod.rs 266-337, async_fn.rs 279-310: the world, the promise, the result.
    [future_to_promise] of wasm does not fail. *)
Definition call (dbg chk : bool) (p : plat) (fresh : Z) (rust : nat → list val → outcome) (f : fn)
    (args : list js) (spawned : bool) (w : world) : world * task * result :=
  let id := length (tasks w) in
  match prepare chk p f args with
  | PErr => (w, TNone, RThrow)
  | PPanic => (die w Unwound, TNone, RNothing)
  | PInvalid => (die w (if dbg then Unwound else Undefined), TNone, RNothing)
  | POk vs =>
      match mode f with
      | Plain =>
          match run dbg true rust f w id vs with
          | (w, Some v) =>
              match to_napi p fresh (ret f) v with
              | Ok j => (w, TNone, RReturn j)
              | Err => (w, TNone, RThrow)
              | Panic => (die w Unwound, TNone, RNothing)
              end
          | (w, None) => (w, TNone, RNothing)
          end
      | Worker =>
          if is_wasm p then
            match run dbg true rust f w id vs with
            | (w, Some v) =>
                match to_napi p fresh (ret f) v with
                | Ok j => (w, TSettled (Some j), RPromise id)
                | Err => (w, TNone, RThrow)
                | Panic => (die w Unwound, TNone, RNothing)
                end
            | (w, None) => (w, TNone, RNothing)
            end
          else if spawned then (w, TQueued vs, RPromise id)
          else (w, TNone, RThrow)
      | Future =>
          match run dbg false rust f w id vs with
          | (w, Some v) =>
              if spawned || is_wasm p then (w, TFuture v, RPromise id) else (w, TNone, RThrow)
          | (w, None) => (w, TNone, RNothing)
          end
      end
  end.

Definition step (dbg chk : bool) (p : plat) (fresh : Z) (rust : nat → list val → outcome) (f : fn)
    (w : world) (m : move) : world * result :=
  match dead w with
  | Some _ => (w, RNothing)
  | None =>
      match m with
      | MCall args spawned =>
          let '(w, t, r) := call dbg chk p fresh rust f args spawned w in
          (set_tasks w (tasks w ++ [t]), r)
      | MWork i =>
          match tasks w !! i with
          | Some (TQueued vs) =>
              (* js/_mod.rs 283-293: the closure is taken, then called *)
              match run dbg true rust f w i vs with
              | (w, Some v) => (set_tasks w (<[i := TDone v]> (tasks w)), RNothing)
              | (w, None) => (w, RNothing)
              end
          | Some (TFuture v) => (set_tasks w (<[i := TDone v]> (tasks w)), RNothing)
          | _ => (w, RNothing)
          end
      | MSettle i =>
          match tasks w !! i with
          | Some (TDone v) =>
              match to_napi p fresh (ret f) v with
              | Ok j => (set_tasks w (<[i := TSettled (Some j)]> (tasks w)), RNothing)
              | Err => (set_tasks w (<[i := TSettled None]> (tasks w)), RNothing)
              | Panic => (die w Unwound, RNothing)
              end
          | _ => (w, RNothing)
          end
      | MCollect a => (World (tasks w) (a :: freed w) (calls w) (dead w), RNothing)
      end
  end.
(** A history: the last world, and what the calls gave. *)
Fixpoint runs (dbg chk : bool) (p : plat) (fresh : Z) (rust : nat → list val → outcome) (f : fn)
    (w : world) (ms : list move) : world * list result :=
  match ms with
  | [] => (w, [])
  | m :: ms =>
      let '(w, r) := step dbg chk p fresh rust f w m in
      let '(w, rs) := runs dbg chk p fresh rust f w ms in (w, r :: rs)
  end.

(** ** Registration *)

(** registering.rs 26-66: the object of exports, by name; [made]: whether
    create_named_method succeeds (errors are ignored). *)
Definition define {M} (exports : list (text * M)) (name : text) (m : M) : list (text * M) :=
  List.filter (λ e, negb (bool_decide (e.1 = name))) exports ++ [(name, m)].
Fixpoint register {M} (made : nat → bool) (i : nat) (entries : list (text * M)) (exports : list (text * M)) : list (text * M) :=
  match entries with
  | [] => exports
  | (name, m) :: entries =>
      register made (S i) entries (if made i then define exports name m else exports)
  end.
