(** Specification of C62 and C63: what a preprocessor makes of a header, and
    identifiers. *)

From Coq Require Import NArith List Bool Lia String Ascii.
From stdpp Require Import base numbers list.
From Verif Require Import HeaderModel FrameModel.

(** ** Identifiers *)

Definition is_letter (c : ascii) : bool :=
  let n := N_of_ascii c in
  ((65 <=? n) && (n <=? 90) || (97 <=? n) && (n <=? 122))%N.
Definition is_digit (c : ascii) : bool :=
  let n := N_of_ascii c in ((48 <=? n) && (n <=? 57))%N.
Definition ident_start (c : ascii) : bool := is_letter c || Ascii.eqb c "_".
Definition ident_char (c : ascii) : bool := ident_start c || is_digit c.
(** An identifier of Rust, C or C#, of ASCII characters, keywords included. *)
Definition ident (s : text) : bool :=
  match s with c :: s => ident_start c && forallb ident_char s | [] => false end.

(** ** Comments: C17 5.1.1.2, phase 3 (C# has the same)

    A comment becomes a blank.  Lines are not spliced (phase 2). *)

Inductive mode := Code | Slash | Line | Block | Star | Str | StrEsc | Chr | ChrEsc.
Definition sp : ascii := " "%char.
Definition slash : ascii := "/"%char.
Definition star : ascii := "*"%char.
Definition sq : ascii := "039"%char.
(** One character: what comes out, and the next mode. *)
Definition in_code (c : ascii) : text * mode :=
  if Ascii.eqb c slash then ([], Slash)
  else if Ascii.eqb c dq then ([c], Str)
  else if Ascii.eqb c sq then ([c], Chr)
  else ([c], Code).
Definition strip1 (m : mode) (c : ascii) : text * mode :=
  match m with
  | Code => in_code c
  | Slash =>
      if Ascii.eqb c slash then ([sp], Line)
      else if Ascii.eqb c star then ([sp], Block)
      else (slash :: (in_code c).1, (in_code c).2)
  | Line => if Ascii.eqb c nl then ([c], Code) else ([], Line)
  | Block => if Ascii.eqb c star then ([], Star) else ([], Block)
  | Star => if Ascii.eqb c slash then ([], Code) else if Ascii.eqb c star then ([], Star) else ([], Block)
  | Str =>
      if Ascii.eqb c dq then ([c], Code) else if Ascii.eqb c bs then ([c], StrEsc)
      else if Ascii.eqb c nl then ([c], Code) else ([c], Str)
  | StrEsc => ([c], Str)
  | Chr =>
      if Ascii.eqb c sq then ([c], Code) else if Ascii.eqb c bs then ([c], ChrEsc)
      else if Ascii.eqb c nl then ([c], Code) else ([c], Chr)
  | ChrEsc => ([c], Chr)
  end.
Fixpoint strip (m : mode) (s : text) : text * mode :=
  match s with
  | [] => ([], m)
  | c :: s =>
      let '(o, m) := strip1 m c in
      let '(o', m') := strip m s in (o ++ o', m')
  end.

(** ** Lines *)

(** The pieces between the ends of lines. *)
Fixpoint pieces (s : text) : list text :=
  match s with
  | [] => [[]]
  | c :: s =>
      if Ascii.eqb c nl then [] :: pieces s
      else match pieces s with l :: ls => (c :: l) :: ls | [] => [[c]] end
  end.
Definition blank (c : ascii) : bool := Ascii.eqb c " " || Ascii.eqb c "009".
Fixpoint ltrim (s : text) : text :=
  match s with c :: s' => if blank c then ltrim s' else s | [] => [] end.
Definition trim (s : text) : text := rev (ltrim (rev (ltrim s))).

(** ** Directives *)

Inductive directive :=
| DIfdef (x : text) | DIfndef (x : text) | DElse | DEndif
| DDefine (x : text) | DUndef (x : text)
(** any other line of text, [#include] and [#pragma] *)
| DText (l : text)
(** [#if] with an identifier; any other condition *)
| DIf (x : text) | DOther.
(** The longest identifier, and the rest. *)
Fixpoint word (s : text) : text * text :=
  match s with
  | c :: s' => if ident_char c then let '(w, r) := word s' in (c :: w, r) else ([], s)
  | [] => ([], [])
  end.
Definition txeqb (a b : text) : bool := bool_decide (a = b).
Definition read (l : text) : directive :=
  match trim l with
  | c :: r =>
      if Ascii.eqb c "#" then
        let '(d, r) := word (ltrim r) in
        let '(x, r) := word (ltrim r) in
        if txeqb d (tx "ifdef") then DIfdef x
        else if txeqb d (tx "ifndef") then DIfndef x
        else if txeqb d (tx "else") then DElse
        else if txeqb d (tx "endif") then DEndif
        else if txeqb d (tx "define") then DDefine x
        else if txeqb d (tx "undef") then DUndef x
        else if txeqb d (tx "include") || txeqb d (tx "pragma") then DText (trim l)
        else if txeqb d (tx "if") && txeqb r [] then DIf x
        else DOther
      else DText (trim l)
  | [] => DText []
  end.

(** ** Preprocessing: C17 6.10.1-6.10.3 (and C# for [#if NAME])

    [defs]: the names defined.  The stack: for each open conditional, whether
    its current group is taken.  The result: the lines that remain (trimmed,
    empty ones left out). *)

Definition taken (st : list bool) : bool := forallb id st.
Definition defined (defs : list text) (x : text) : bool := existsb (txeqb x) defs.
Definition pp1 (cs : bool) (defs : list text) (st : list bool) (l : text) :
    option (list text * list text * list bool) :=
  match read l with
  | DIfdef x => Some ([], defs, defined defs x :: st)
  | DIfndef x => Some ([], defs, negb (defined defs x) :: st)
  | DElse => match st with b :: st => Some ([], defs, negb b :: st) | [] => None end
  | DEndif => match st with _ :: st => Some ([], defs, st) | [] => None end
  | DDefine x => Some ([], if taken st then x :: defs else defs, st)
  | DUndef x => Some ([], if taken st then filter (λ y, txeqb x y = false) defs else defs, st)
  | DText l => Some (if taken st then match l with [] => [] | _ => [l] end else [], defs, st)
  | DIf x => if cs then Some ([], defs, defined defs x :: st) else None
  | DOther => None
  end.
Fixpoint pp (cs : bool) (defs : list text) (st : list bool) (ls : list text) :
    option (list text * list text * list bool) :=
  match ls with
  | [] => Some ([], defs, st)
  | l :: ls =>
      match pp1 cs defs st l with
      | Some (o, defs, st) =>
          match pp cs defs st ls with
          | Some (o', defs, st) => Some (o ++ o', defs, st)
          | None => None
          end
      | None => None
      end
  end.

(** Reading a whole file: comments end, conditionals are closed. *)
Definition preprocess (cs : bool) (defs : list text) (file : text) : option (list text * list text) :=
  match strip Code file with
  | (s, Code) =>
      match pp cs defs [] (pieces s) with Some (o, defs, []) => Some (o, defs) | _ => None end
  | _ => None
  end.

(** A line, or lines, of comments and blanks only. *)
Definition comments (s : text) : Prop :=
  ∃ b, strip Code (s ++ [nl]) = (b, Code) ∧ forallb (λ c, blank c || Ascii.eqb c nl) b = true.

(** ** Names of libraries *)

Definition lower_case (c : ascii) : bool :=
  let n := N_of_ascii c in ((97 <=? n) && (n <=? 122))%N.
Definition upper_case (c : ascii) : bool :=
  let n := N_of_ascii c in ((65 <=? n) && (n <=? 90))%N.
(** Equal up to case. *)
Definition same_letter (a b : ascii) : Prop :=
  a = b ∨ is_letter a = true ∧ is_letter b = true ∧
    (N_of_ascii a = N_of_ascii b + 32 ∨ N_of_ascii b = N_of_ascii a + 32)%N.
(** Words of lower case letters and digits that start with a letter, joined by
    single underscores; [start]: at the start of a word. *)
Fixpoint snake (start : bool) (s : text) : bool :=
  match s with
  | [] => negb start
  | c :: s =>
      if start then lower_case c && snake false s
      else if Ascii.eqb c "_" then snake true s
      else (lower_case c || is_digit c) && snake false s
  end.
(** C# 7.3 Specification, 6.4.4. *)
Definition cs_keywords : list text := map tx [
  "abstract"; "as"; "base"; "bool"; "break"; "byte"; "case"; "catch"; "char"; "checked"; "class"; "const";
  "continue"; "decimal"; "default"; "delegate"; "do"; "double"; "else"; "enum"; "event"; "explicit"; "extern";
  "false"; "finally"; "fixed"; "float"; "for"; "foreach"; "goto"; "if"; "implicit"; "in"; "int"; "interface";
  "internal"; "is"; "lock"; "long"; "namespace"; "new"; "null"; "object"; "operator"; "out"; "override"; "params";
  "private"; "protected"; "public"; "readonly"; "ref"; "return"; "sbyte"; "sealed"; "short"; "sizeof"; "stackalloc";
  "static"; "string"; "struct"; "switch"; "this"; "throw"; "true"; "try"; "typeof"; "uint"; "ulong"; "unchecked";
  "unsafe"; "ushort"; "using"; "virtual"; "void"; "volatile"; "while"]%string.
