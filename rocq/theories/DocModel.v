(** Model of the documentation comments in generated headers.

    Sources (all in /repo/src):
    - headers/languages/c.rs 9-33 emit_docs
    - headers/languages/csharp.rs 9-53 emit_docs
    - headers/languages/python.rs 11-20 emit_docs
    - headers/languages/mod.rs 52-61 Indentation, 300-345 mk_out!
    - proc_macro/utils/_mod.rs 213-238 extract_docs: one string per [#[doc = ..]]
      attribute, a whole [/** .. */] being one.

    Strings are lists of code points; [ws] is [char::is_whitespace]. *)

From Coq Require Import NArith List Bool Lia String Ascii.
From stdpp Require Import base numbers list strings.
From Verif Require Import NameModel.
Local Open Scope N_scope.

(** [s.trim_end()]. *)
Definition trim_end (ws : N → bool) (s : list N) : list N := rev (trim_start ws (rev s)).

Fixpoint join (c : N) (l : list (list N)) : list N :=
  match l with [] => [] | [x] => x | x :: l => x ++ c :: join c l end.

(** [out!]: every line is written without the white space at its end.
    [split_inclusive('\n')] differs from [split('\n')] in keeping the newline,
    which is written back, and in having no empty last piece. *)
Definition out (ws : N → bool) (s : list N) : list N := join 10 (map (trim_end ws) (split 10 s)).

(** [{indent}]: [depth * width] spaces. *)
Definition indentation (n : nat) : list N := repeat 32 n.

(** [out!(("{text}"))]. *)
Definition out_line (ws : N → bool) (n : nat) (text : list N) : list N :=
  out ws (indentation n ++ text ++ [10]).

(** c.rs 9-33. *)
Definition c_line (ws : N → bool) (n : nat) (d : list N) : list N :=
  let line := trim ws d in
  out_line ws n (chars " *" ++ (match line with [] => [] | _ => chars "  " end) ++ line).
Definition c_docs (ws : N → bool) (n : nat) (docs : list (list N)) : list N :=
  match docs with
  | [] => out_line ws n (chars "/** <No documentation available> */")
  | _ =>
      out_line ws n (chars "/** \brief") ++ flat_map (c_line ws n) docs ++ out_line ws n (chars " */")
  end.

(** csharp.rs 27-44: code between backticks.  [odd] is the parity. *)
Fixpoint ticks (odd : bool) (s : list N) : list N :=
  match s with
  | [] => []
  | c :: r =>
      if c =? 96 then
        match r with
        | d :: r' =>
            if d =? 96 then
              c :: d :: match r' with [] => [] | e :: r'' => e :: ticks odd r'' end
            else (if odd then chars "</c>" else chars "<c>") ++ ticks (negb odd) r
        | [] => if odd then chars "</c>" else chars "<c>"
        end
      else c :: ticks odd r
  end.

(** csharp.rs 9-53. *)
Definition cs_line (ws : N → bool) (n : nat) (d : list N) : list N :=
  let line := ticks false (trim ws d) in
  out_line ws n (chars "///" ++ (match line with [] => [] | _ => chars " " end) ++ line).
Definition cs_docs (ws : N → bool) (n : nat) (docs : list (list N)) : list N :=
  match docs with
  | [] => []
  | _ => out_line ws n (chars "/// <summary>") ++ flat_map (cs_line ws n) docs ++ out_line ws n (chars "/// </summary>")
  end.

(** python.rs 11-20. *)
Definition py_docs (ws : N → bool) (n : nat) (docs : list (list N)) : list N := [].

Inductive lang := LC | LCSharp | LPython.
Definition emit_docs (l : lang) : (N → bool) → nat → list (list N) → list N :=
  match l with LC => c_docs | LCSharp => cs_docs | LPython => py_docs end.

(** A header: declarations (or parts of them), each after its documentation. *)
Definition header (l : lang) (ws : N → bool) (ps : list (nat * list (list N) * list N)) : list N :=
  flat_map (λ p, emit_docs l ws p.1.1 p.1.2 ++ p.2) ps.
