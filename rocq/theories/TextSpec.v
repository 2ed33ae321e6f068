(** Specification for C82: how a C compiler, or cffi, sees the text of a header. *)

From Coq Require Import NArith ZArith List Bool String Ascii.
From stdpp Require Import base numbers list strings pretty.
From Verif Require Import NameModel NameSpec DocModel DocSpec HeaderModel HeaderSpec TextModel.
Local Open Scope N_scope.

(** ** Tokens: C17 6.4 *)

Inductive ctok :=
(** identifiers, keywords, numbers *)
| Wd (w : ntext)
(** string and character literals, with their quotes *)
| Lt (s : ntext)
(** any other character *)
| Pn (c : N).

Definition word_char (c : N) : bool :=
  ((48 <=? c) && (c <=? 57)) || ((65 <=? c) && (c <=? 90)) || ((97 <=? c) && (c <=? 122)) || (c =? 95).
Inductive lmode := Gap | InWord (w : ntext) | InLit (quote : N) (esc : bool) (w : ntext).
Definition start (c : N) : lmode * list ctok :=
  if word_char c then (InWord [c], [])
  else if (c =? 34) || (c =? 39) then (InLit c false [c], [])
  else if ascii_ws c then (Gap, [])
  else (Gap, [Pn c]).
Definition lex1 (m : lmode) (c : N) : lmode * list ctok :=
  match m with
  | Gap => start c
  | InWord w => if word_char c then (InWord (w ++ [c]), []) else let '(m, o) := start c in (m, Wd w :: o)
  | InLit q esc w =>
      if esc then (InLit q false (w ++ [c]), [])
      else if c =? 92 then (InLit q true (w ++ [c]), [])
      else if c =? q then (Gap, [Lt (w ++ [c])])
      else (InLit q false (w ++ [c]), [])
  end.
Fixpoint lexes (m : lmode) (s : ntext) : lmode * list ctok :=
  match s with
  | [] => (m, [])
  | c :: s => let '(m, o) := lex1 m c in let '(m, o') := lexes m s in (m, o ++ o')
  end.
(** The last token. *)
Definition flush (m : lmode) : list ctok :=
  match m with Gap => [] | InWord w => [Wd w] | InLit _ _ w => [Lt w] end.
Definition lex (s : ntext) : list ctok := (lexes Gap s).2 ++ flush (lexes Gap s).1.

(** ** Directives: C17 6.10 *)

Inductive cline :=
| LIf (neg : bool) (x : ntext)
| LEndif
| LInclude (what : ntext)
| LDefine (x : ntext) (value : list ctok)
| LTokens (ts : list ctok)
(** any other directive, and macros with parameters *)
| LBad.

Fixpoint skip (s : ntext) : ntext :=
  match s with c :: s' => if ascii_ws c then skip s' else s | [] => [] end.
(** The longest word, and the rest. *)
Fixpoint word (s : ntext) : ntext * ntext :=
  match s with
  | c :: s' => if word_char c then let '(w, r) := word s' in (c :: w, r) else ([], s)
  | [] => ([], [])
  end.
Definition is (a : ntext) (b : string) : bool := bool_decide (a = chars b).
Definition c_line_of (l : ntext) : cline :=
  match skip l with
  | c :: r =>
      if c =? 35 then
        let '(d, r) := word (skip r) in
        if is d "include" then LInclude (skip r)
        else if is d "endif" then LEndif
        else
          let '(x, r) := word (skip r) in
          if is d "ifdef" then LIf false x
          else if is d "ifndef" then LIf true x
          else if is d "define" then
            match r with
            | [] => LDefine x []
            | c :: _ => if ascii_ws c then LDefine x (lex r) else LBad
            end
          else LBad
      else LTokens (lex l)
  | [] => LTokens []
  end.

(** What a compiler gets: tokens, and what directives ask for. *)
Inductive ev := ETok (t : ctok) | EInclude (what : ntext) | EDefine (x : ntext) (value : list ctok).

(** [defs]: the names defined.  The stack: for each open conditional, is its group taken? *)
Fixpoint pp (defs : list ntext) (st : list bool) (ls : list ntext) : option (list ev) :=
  match ls with
  | [] => match st with [] => Some [] | _ => None end
  | l :: ls =>
      let on := forallb id st in
      match c_line_of l with
      | LIf neg x => pp defs (xorb neg (bool_decide (x ∈ defs)) :: st) ls
      | LEndif => match st with _ :: st => pp defs st ls | [] => None end
      | LInclude s => option_map (app (if on then [EInclude s] else [])) (pp defs st ls)
      | LDefine x v =>
          option_map (app (if on then [EDefine x v] else [])) (pp (if on then x :: defs else defs) st ls)
      | LTokens ts => option_map (app (if on then map ETok ts else [])) (pp defs st ls)
      | LBad => None
      end
  end.

(** Lines are spliced, then comments removed ([DocSpec]), then lines read. *)
Definition read_from (defs : list ntext) (st : list bool) (text : ntext) : option (list ev) :=
  match read c_newline Code (splice text) with
  | (Code, s) => pp defs st (split 10 s)
  | _ => None
  end.
Definition read_c (defs : list ntext) (text : ntext) : option (list ev) := read_from defs [] text.

(** ** What ought to be read *)

Definition wd (s : string) : ctok := Wd (chars s).
Definition tk (t : tok) : ctok :=
  match t with
  | TkId s => wd s
  | TkStar => Pn 42 | TkLp => Pn 40 | TkRp => Pn 41 | TkLb => Pn 91 | TkRb => Pn 93 | TkComma => Pn 44
  | TkNum n => Wd (num_text n)
  end.
Definition semi : ctok := Pn 59.
Definition lbrace : ctok := Pn 123.
Definition rbrace : ctok := Pn 125.
Definition dots : list ctok := [Pn 46; Pn 46; Pn 46].

(** A variable of a type.  cffi's file has no aliases. *)
Definition var_toks (l : lang) (t : cty) (v : list tok) : list tok :=
  match l, t with LPython, TAlias _ t => py_ty t ++ v | _, _ => c_var t v end.
Definition fn_toks (l : lang) (n : string) (args : list (string * cty)) (r : cty) : list tok :=
  var_toks l r (TkId n :: TkLp ::
    (match args with [] => [TkId "void"] | _ => commas (map (λ a, var_toks l a.2 [TkId a.1]) args) end) ++ [TkRp]).
Definition z_toks (z : Z) : list ctok :=
  if (z <? 0)%Z then [Pn 45; Wd (num_text (Z.abs_N z))] else [Wd (num_text (Z.abs_N z))].
Definition variant_toks (l : lang) (short : string) (v : docs * ntext * option Z) : list ctok :=
  Wd (variant_name short v.1.2) ::
  (match l, v.2 with LPython, _ | _, None => [] | _, Some z => Pn 61 :: z_toks z end) ++ [Pn 44].
Definition enum_toks (l : lang) (short : string) (vs : list (docs * ntext * option Z)) : list ctok :=
  wd "enum" :: wd short :: lbrace :: flat_map (variant_toks l short) vs ++ [rbrace].

(** The tokens of a declaration; [dox]: is DOXYGEN defined? *)
Definition decl_toks (dox : bool) (l : lang) (y : xdecl) : list ctok :=
  match y with
  | YStruct _ n fs =>
      wd "typedef" :: wd "struct" :: wd n :: lbrace ::
      flat_map (λ f : field, map tk (var_toks l (erase f.2) [TkId f.1.2]) ++ [semi]) fs ++
      [rbrace; wd (suffixed n); semi]
  | YArr n t len =>
      wd "typedef" :: wd "struct" :: lbrace :: map tk (array_text (erase t) len) ++ [semi; rbrace; wd n; semi]
  | YEnum _ n i vs =>
      match l, i, dox with
      | LC, Some i, false => enum_toks l n vs ++ [semi; wd "typedef"; wd (suffixed (int_name i)); wd (suffixed n); semi]
      | _, _, _ => wd "typedef" :: enum_toks l n vs ++ [wd (suffixed n); semi]
      end
  | YAlias _ n t => wd "typedef" :: map tk (alias_text n (erase t)) ++ [semi]
  | YOpaque _ n =>
      match l with
      | LPython => wd "typedef" :: dots ++ [wd (suffixed n); semi]
      | _ => [wd "typedef"; wd "struct"; wd n; wd (suffixed n); semi]
      end
  | YFn _ n args r => map tk (fn_toks l n (map (λ a, (a.1, erase a.2)) args) (erase r)) ++ [semi]
  | YInts | YBool | YDelegate _ _ _ | YConst _ _ _ _ _ => []
  end.
Definition expected (dox : bool) (l : lang) (y : xdecl) : list ev :=
  match y with
  | YInts => [EInclude (chars "<stddef.h>"); EInclude (chars "<stdint.h>")]
  | YBool => [EInclude (chars "<stdbool.h>")]
  | YConst _ n t untyped v =>
      [EDefine (chars n)
         (match l with
          | LPython => dots
          | _ => if untyped then lex v else [Pn 40; Pn 40] ++ map tk (type_text (erase t)) ++ [Pn 41] ++ lex v ++ [Pn 41]
          end)]
  | _ => map ETok (decl_toks dox l y)
  end.

(** The file: once, and for C++ in an [extern "C"] block; the second time nothing. *)
Definition extern_c : list ev := map ETok [wd "extern"; Lt [34; 67; 34]; lbrace].
Definition file_evs (g : ntext) (defs : list ntext) (body : list ev) : list ev :=
  let cpp := bool_decide (chars "__cplusplus" ∈ defs) in
  if bool_decide (g ∈ defs) then []
  else EDefine g [] :: (if cpp then extern_c else []) ++ body ++ (if cpp then [ETok rbrace] else []).

(** ** Programs *)

(** Names the enums and the frame ask about. *)
Definition asked : list ntext := [chars "DOXYGEN"; chars "__cplusplus"].
(** Names of ASCII letters, digits and underscores. *)
Definition wordy (s : ntext) : Prop := s ≠ [] ∧ Forall (λ c, word_char c = true) s.
Definition name_ok (s : string) : Prop := wordy (chars s).
Definition docs_ok (ws : N → bool) (d : docs) : Prop := Forall (harmless DocModel.LC ws) d.
(** A value that can be written in one line: literals are closed. *)
Definition value_ok (ws : N → bool) (v : ntext) : Prop :=
  read c_newline Code v = (Code, v) ∧ (∀ q e w, (lexes Gap v).1 ≠ InLit q e w) ∧ 10 ∉ v ∧
  ∃ c, last v = Some c ∧ ws c = false ∧ c ≠ 92.

Fixpoint ty_ok (ws : N → bool) (t : xty) : Prop :=
  match t with
  | XInt _ | XFloat _ | XVoid | XBool | XCInt | XChar => True
  | XPtr _ t | XArr t _ => ty_ok ws t
  | XFn r args =>
      ty_ok ws r ∧ (fix go (l : list xty) : Prop := match l with [] => True | t :: l => ty_ok ws t ∧ go l end) args
  | XStruct d n gs fs =>
      docs_ok ws d ∧ name_ok n ∧
      (fix go (l : list xty) : Prop := match l with [] => True | t :: l => ty_ok ws t ∧ go l end) gs ∧
      (fix go (l : list field) : Prop :=
         match l with [] => True | f :: l => (docs_ok ws f.1.1 ∧ name_ok f.1.2 ∧ ty_ok ws f.2) ∧ go l end) fs
  | XEnum d n _ vs => docs_ok ws d ∧ name_ok n ∧ Forall (λ v, docs_ok ws v.1.1 ∧ wordy v.1.2) vs
  | XAlias d n t => docs_ok ws d ∧ name_ok n ∧ ty_ok ws t
  | XOpaque d n => docs_ok ws d ∧ name_ok n
  end.
Definition item_ok (ws : N → bool) (i : xitem) : Prop :=
  match i with
  | JFn d n args r => docs_ok ws d ∧ name_ok n ∧ Forall (λ a, name_ok a.1 ∧ ty_ok ws a.2) args ∧ ty_ok ws r
  | JConst d n t _ v => docs_ok ws d ∧ name_ok n ∧ chars n ∉ asked ∧ ty_ok ws t ∧ value_ok ws v
  | JType _ t => ty_ok ws t
  end.
