(** Specification of the life of JavaScript functions given to Rust: what the
    history of moves says of who owns a function. *)

From Coq Require Import Bool List.
From stdpp Require Import base numbers list.
From Verif Require Import JsLifeModel.

(** The functions given to Rust, in order: thread, kind, where creation failed
    (the first step makes nothing when it fails). *)
Definition creation (m : move) : list (nat * bool * failing) :=
  match m with Create _ _ AtRef => [] | Create t d f => [(t, d, f)] | _ => [] end.
Definition creations (ms : list move) : list (nat * bool * failing) := flat_map creation ms.
(** Rights to a function: one from its creation, one from each retain; each
    release takes one. *)
Definition made (ms : list move) (c : nat) : nat :=
  match creations ms !! c with Some (_, _, Nowhere) => 1 | _ => 0 end.
Definition retains (ms : list move) (c : nat) : nat :=
  length (List.filter (λ m, match m with Retain _ c' => c' =? c | _ => false end) ms).
(** The threads of the releases *)
Definition released (c : nat) (m : move) : list nat :=
  match m with Release t c' => if c' =? c then [t] else [] | _ => [] end.
Definition releases (ms : list move) (c : nat) : list nat := flat_map (released c) ms.
Definition owned (ms : list move) (c : nat) : Prop := length (releases ms c) < made ms c + retains ms c.

(** The function a move needs. *)
Definition uses (m : move) : option nat :=
  match m with Retain _ c | Release _ c | Invoke _ c _ | Wait _ c _ _ => Some c | _ => None end.
(** Functions are used only by those who own them. *)
Definition lawful (ms : list move) : Prop :=
  ∀ past m future c, ms = past ++ m :: future → uses m = Some c → owned past c.
(** References are always created. *)
Definition refers (ms : list move) : Prop := ∀ t d, Create t d AtRef ∉ ms.

(** What N-API is asked for one function: at its birth, by each use, when the
    last owner lets go. *)
Definition log_of (s : state) (c : nat) : list entry := List.filter (λ e, on e =? c) (log s).
Definition birth (t c : nat) (f : failing) : list entry :=
  match f with
  | AtRef => []
  | AtTsfn => [Entry t CreateRef c; Entry t DeleteRef c]
  | AtUnref => [Entry t CreateRef c; Entry t CreateTsfn c; Entry t ReleaseTsfn c; Entry t DeleteRef c]
  | Nowhere => [Entry t CreateRef c; Entry t CreateTsfn c; Entry t UnrefTsfn c]
  end.
Definition use (home : nat) (d : bool) (c : nat) (m : move) : list entry :=
  match m with
  | Invoke t c' _ =>
      if c' =? c then [Entry t (if d then CallTsfn else if t =? home then GetRef else CallTsfn) c] else []
  | Wait t c' b _ => if c' =? c then [Entry t (if b then RefTsfn else UnrefTsfn) c] else []
  | _ => []
  end.
Definition death (c t : nat) : list entry := [Entry t DeleteRef c; Entry t ReleaseTsfn c].

(** The functions that must be called on the thread of the environment. *)
Definition takes_env (a : api) : bool := match a with ReleaseTsfn | CallTsfn => false | _ => true end.
(** Moves that stay at home. *)
Definition at_home (home : nat) (c : nat) (m : move) : Prop :=
  match m with Release t c' | Wait t c' _ _ => c' = c → t = home | _ => True end.
(** The last setting that was accepted, none being [false]. *)
Fixpoint waits (ms : list move) (c : nat) (b : bool) : bool :=
  match ms with
  | [] => b
  | Wait _ c' b' true :: ms => waits ms c (if c' =? c then b' else b)
  | _ :: ms => waits ms c b
  end.
(** Calls queued and not yet run. *)
Definition enters (home : nat) (d : bool) (c : nat) (m : move) : nat :=
  match m with
  | Invoke t c' true => if (c' =? c) && (d || negb (t =? home)) then 1 else 0
  | _ => 0
  end.
Fixpoint waiting (home : nat) (d : bool) (c : nat) (ms : list move) (n : nat) : nat :=
  match ms with
  | [] => n
  | Run c' :: ms => waiting home d c ms (if c' =? c then pred n else n)
  | m :: ms => waiting home d c ms (n + enters home d c m)
  end.
