(** Specification of futures across the FFI: what may be read off a log.

    Nothing here knows of the states of async blocks or of the channel. *)

From Coq Require Import List Bool Arith ZArith.
From stdpp Require Import base numbers list.
From Verif Require Import FutModel.

(** A future that gives [v] at poll [k], and not before. *)
Definition waits {R} (b : nat → polled R) (k : nat) : Prop := ∀ i, i < k → b i = Pending.
Definition completes {R} (b : nat → polled R) (k : nat) (v : R) : Prop := waits b k ∧ b k = Ready v.

(** Kinds of events, and how many. *)
Section R.
Context {R : Type}.
Definition is_poll (e : event R) := match e with EPoll _ _ => true | _ => false end.
Definition is_run (e : event R) := match e with ERun => true | _ => false end.
Definition is_drop (e : event R) := match e with EDropUser => true | _ => false end.
Definition is_out (e : event R) := match e with EOut _ => true | _ => false end.
Definition is_lost (e : event R) := match e with ELost _ => true | _ => false end.
Definition is_got (e : event R) := match e with EJoin _ (Ready (Some _)) => true | _ => false end.
(** The join future has come to its end, or is dropped. *)
Definition is_end (e : event R) := match e with EJoin _ Pending => false | EJoin _ _ => true | EJoinDrop => true | _ => false end.
Definition is_hpoll (e : event R) := match e with EHandlePoll _ _ => true | _ => false end.
Definition is_hdrop (e : event R) := match e with EHandleDrop => true | _ => false end.
Fixpoint num (p : event R → bool) (l : list (event R)) : nat :=
  match l with [] => 0 | e :: l => (if p e then 1 else 0) + num p l end.
Definition none (p : event R → bool) (l : list (event R)) : Prop := num p l = 0.

(** The executor's future has completed, has panicked, is still pending. *)
Definition handle_done (h : nat → code) (l : list (event R)) : Prop := ∃ n cx, EHandlePoll n cx ∈ l ∧ h n = Code 0.
Definition handle_panicked (h : nat → code) (l : list (event R)) : Prop := ∃ n cx, EHandlePoll n cx ∈ l ∧ h n = CPanic.
Definition handle_waits (h : nat → code) (l : list (event R)) : Prop := ∀ n cx, EHandlePoll n cx ∈ l → h n = Code (-1).

(** What must hold of what came before each event. *)
Definition justified (e : setting R) (blocking : bool) (pre : list (event R)) (x : event R) : Prop :=
  match x with
  | EPoll n _ => blocking = false ∧ n = num is_poll pre ∧ waits (e_fut e) n ∧ none is_drop pre ∧ none is_out pre
  | ERun => blocking = true ∧ none is_run pre ∧ none is_drop pre
  | EDropUser => none is_drop pre ∧
      (∀ n cx, EPoll n cx ∈ pre →
         match e_fut e n with Pending | Panic => True | Ready v => EOut v ∈ pre | Abort | UB => False end) ∧
      (∀ v, ERun ∈ pre → e_act e = Some v → EOut v ∈ pre)
  | EOut v => none is_out pre ∧
      if blocking then e_act e = Some v ∧ ERun ∈ pre
      else ∃ n cx, EPoll n cx ∈ pre ∧ e_fut e n = Ready v
  | ELost v => EOut v ∈ pre ∧ none is_got pre ∧ none is_lost pre ∧
      (¬ none is_end pre ∨ handle_panicked (e_handle e) pre)
  | EHandlePoll n _ => n = num is_hpoll pre ∧ handle_waits (e_handle e) pre ∧ none is_hdrop pre
  | EHandleDrop => none is_hdrop pre
  | ETask r =>
      match r with
      | Pending => none is_drop pre
      | Ready _ => num is_drop pre = 1 ∧ num is_out pre = 1
      | Panic => num is_drop pre = 1 ∧ e_aborts e = false
      | Abort | UB => False
      end
  | EJoin _ r =>
      match r with
      | Ready (Some v) => EOut v ∈ pre ∧ none is_lost pre ∧ none is_end pre ∧ handle_done (e_handle e) pre
      | Ready None => blocking = true ∧ ¬ none is_drop pre ∧ none is_out pre ∧ none is_end pre ∧ handle_done (e_handle e) pre
      | Pending => none is_end pre ∧
          (handle_waits (e_handle e) pre ∨ handle_done (e_handle e) pre ∧ none is_drop pre)
      | Panic =>
          ¬ none is_end pre ∨ handle_panicked (e_handle e) pre ∨
          blocking = false ∧ ¬ none is_drop pre ∧ none is_out pre
      | Abort | UB => False
      end
  | EJoinDrop => EJoinDrop ∉ pre
  | EWake cx => ¬ none is_drop pre ∧ EJoin cx Pending ∈ pre
  end.
Definition each (P : list (event R) → event R → Prop) (l : list (event R)) : Prop :=
  ∀ pre x post, l = pre ++ x :: post → P pre x.
End R.
