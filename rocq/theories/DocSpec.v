(** Specification of comments: how a C and a C# compiler see a text. *)

From Coq Require Import NArith List Bool Lia String Ascii.
From stdpp Require Import base numbers list strings.
From Verif Require Import NameModel NameSpec DocModel.
Local Open Scope N_scope.

(** C11 5.1.1.2 phase 2: a backslash before a newline joins two lines. *)
Fixpoint splice (s : list N) : list N :=
  match s with
  | [] => []
  | x :: r =>
      if x =? 92 then
        match r with y :: r' => if y =? 10 then splice r' else x :: splice r | [] => [x] end
      else x :: splice r
  end.

(** Where the compiler is: in code, after a slash in code, in a block comment
    (after a star?), in a line comment, in a literal (its quote; after a
    backslash?). *)
Inductive mode := Code | Slash | Block (star : bool) | Line | Lit (quote : N) (esc : bool).

(** Line terminators: C, and C# (ECMA-334 6.3.2). *)
Definition c_newline (c : N) : bool := c =? 10.
Definition cs_newline (c : N) : bool :=
  (c =? 10) || (c =? 13) || (c =? 133) || (c =? 8232) || (c =? 8233).

(** One character: what becomes of it.  A comment is a space. *)
Definition code (c : N) : mode * list N :=
  if c =? 47 then (Slash, [])
  else if (c =? 34) || (c =? 39) then (Lit c false, [c])
  else (Code, [c]).
Definition step (newline : N → bool) (m : mode) (c : N) : mode * list N :=
  match m with
  | Code => code c
  | Slash =>
      if c =? 42 then (Block false, [32])
      else if c =? 47 then (Line, [32])
      else let '(m, o) := code c in (m, 47 :: o)
  | Block star => if star && (c =? 47) then (Code, []) else (Block (c =? 42), [])
  | Line => if newline c then (Code, [c]) else (Line, [])
  | Lit q esc =>
      if esc then (Lit q false, [c])
      else if c =? 92 then (Lit q true, [c])
      else if c =? q then (Code, [c])
      else (Lit q false, [c])
  end.
(** The text without comments, and where the compiler is at its end. *)
Fixpoint read (newline : N → bool) (m : mode) (s : list N) : mode * list N :=
  match s with
  | [] => (m, [])
  | c :: s =>
      let '(m, o) := step newline m c in
      let '(m, o') := read newline m s in (m, o ++ o')
  end.

Definition read_header (l : lang) (s : list N) : mode * list N :=
  match l with
  | LC | LPython => read c_newline Code (splice s)
  | LCSharp => read cs_newline Code s
  end.

(** Texts without white space: C# comments leave empty lines behind. *)
Definition blank (c : N) : bool := (c =? 32) || (c =? 10).
Definition same (l : lang) (a b : mode * list N) : Prop :=
  match l with
  | LC | LPython => a = b
  | LCSharp => a.1 = b.1 ∧ filter (λ c, blank c = false) a.2 = filter (λ c, blank c = false) b.2
  end.

(** [t] occurs in [s]. *)
Definition infix (t s : list N) : Prop := ∃ a b, s = a ++ t ++ b.

(** Documentation that stays in comments.  C: no [*/], and no newline or no
    backslash.  C#: no line terminator, white space at the ends left out. *)
Definition harmless (l : lang) (ws : N → bool) (d : list N) : Prop :=
  match l with
  | LC => ¬ infix (chars "*/") d ∧ (10 ∉ d ∨ 92 ∉ d)
  | LCSharp => Forall (λ c, cs_newline c = false) (trim ws d)
  | LPython => True
  end.

(** A piece of code: closed, and made of whole lines. *)
Definition whole (l : lang) (s : list N) : Prop :=
  (read_header l s).1 = Code ∧ last s = Some 10.
