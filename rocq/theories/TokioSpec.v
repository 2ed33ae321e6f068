(** What has become of a task, as read off the log of FutModel. *)

From Coq Require Import List Bool Arith ZArith.
From stdpp Require Import base numbers list.
From Verif Require Import FutModel FutSpec TokioModel.
Import stdpp.list.

Section R.
Context {R : Type}.
(** The outputs that the user's future or action gave. *)
Definition outs (l : list (event R)) : list R :=
  omap (λ x, match x with EOut v => Some v | _ => None end) l.
(** The numbers of the polls of the user's future. *)
Definition polls_of (l : list (event R)) : list nat :=
  omap (λ x, match x with EPoll n _ => Some n | _ => None end) l.

(** It still is there, to be polled or called. *)
Definition alive (l : list (event R)) : Prop := num is_drop l = 0.
Definition gave (l : list (event R)) (v : R) : Prop := ¬ alive l ∧ outs l = [v].
Definition panicked (e : setting R) (l : list (event R)) : Prop :=
  ¬ alive l ∧ outs l = [] ∧
  (Exists (λ n, e_fut e n = Panic) (polls_of l) ∨ num is_run l ≠ 0 ∧ e_act e = None).
(** Dropped before it came to its end. *)
Definition abandoned (e : setting R) (l : list (event R)) : Prop :=
  ¬ alive l ∧ outs l = [] ∧ num is_run l = 0 ∧ Forall (λ n, e_fut e n = Pending) (polls_of l).

Definition tlog (t : tokio R) : list (event R) := w_log (s_world (t_sys t)).
End R.
