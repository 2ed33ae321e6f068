(** Specification of the documentation comments of C#: the XML there is in a
    text of [///] lines, and what the documentation of a line is as XML.

    The reader knows elements without attributes, references and text; that is
    all there is in what is read here. *)

From Coq Require Import NArith List Bool Lia String Ascii.
From stdpp Require Import base numbers list strings.
From Verif Require Import NameModel DocModel DocSpec.
Local Open Scope N_scope.

(** ** Reading XML *)

Inductive xev := XOpen (n : list N) | XClose (n : list N) | XChar (c : N) | XRef (n : list N).

Definition letter (c : N) : bool := ((65 <=? c) && (c <=? 90)) || ((97 <=? c) && (c <=? 122)) || (c =? 95).
Definition name_char (c : N) : bool := letter c || ((48 <=? c) && (c <=? 57)) || (c =? 45) || (c =? 46).
Definition is_name (n : list N) : bool := match n with c :: _ => letter c && forallb name_char n | [] => false end.
(** [&name;], [&#10;], [&#xa;] *)
Definition is_ref (n : list N) : bool :=
  match n with
  | c :: r => if c =? 35 then negb (match r with [] => true | _ => false end) && forallb name_char r else is_name n
  | [] => false
  end.

(** In text; in a tag or a reference, with what was read of it. *)
Inductive xmode := XText | XTag (acc : list N) | XAmp (acc : list N).
(** [open]: the elements that are open, the innermost first.  [None]: not
    well formed. *)
Definition tag (open : list (list N)) (n : list N) : option (list (list N) * list xev) :=
  match n with
  | c :: r =>
      if c =? 47 then
        match open with
        | o :: open => if bool_decide (o = r) then Some (open, [XClose r]) else None
        | [] => None
        end
      else if is_name n then Some (n :: open, [XOpen n]) else None
  | [] => None
  end.
Fixpoint xml (m : xmode) (open : list (list N)) (s : list N) : option (list xev) :=
  match s with
  | [] => match m, open with XText, [] => Some [] | _, _ => None end
  | c :: s =>
      match m with
      | XText =>
          if c =? 60 then xml (XTag []) open s
          else if c =? 38 then xml (XAmp []) open s
          else option_map (cons (XChar c)) (xml XText open s)
      | XTag acc =>
          if c =? 62 then
            match tag open acc with
            | Some (open, e) => option_map (app e) (xml XText open s)
            | None => None
            end
          else if c =? 60 then None
          else xml (XTag (acc ++ [c])) open s
      | XAmp acc =>
          if c =? 59 then
            if is_ref acc then option_map (cons (XRef acc)) (xml XText open s) else None
          else xml (XAmp (acc ++ [c])) open s
      end
  end.

(** The text of a documentation comment: lines that begin with [///]. *)
Fixpoint line_text (l : list N) : option (list N) :=
  match l with
  | c :: r =>
      if c =? 32 then line_text r
      else if (c =? 47) && bool_decide (take 2 r = [47; 47]) then Some (drop 2 r) else None
  | [] => None
  end.
Fixpoint doc_text (ls : list (list N)) : option (list N) :=
  match ls with
  | [] => None
  | [l] => match l with [] => Some [] | _ => None end     (* after the last newline *)
  | l :: ls =>
      match line_text l, doc_text ls with
      | Some a, Some b => Some (a ++ 10 :: b)
      | _, _ => None
      end
  end.
(** What the compiler makes of it. *)
Definition read_doc (s : list N) : option (list xev) :=
  match doc_text (split 10 s) with Some t => xml XText [] t | None => None end.

(** ** Documentation *)

(** Pieces of a line of Markdown: text, code between backticks, the three
    backticks around blocks of code. *)
Inductive span := SText (s : list N) | SCode (s : list N) | SFence.
Definition md (x : span) : list N := match x with SText s => s | SCode s => 96 :: s ++ [96] | SFence => [96; 96; 96] end.
Definition markdown (l : list span) : list N := flat_map md l.
(** What they are in XML. *)
Definition c_elem : list N := [99].
Definition summary : list N := chars "summary".
Definition xml_of (x : span) : list xev :=
  match x with
  | SText s => map XChar s
  | SCode s => XOpen c_elem :: map XChar s ++ [XClose c_elem]
  | SFence => map XChar [96; 96; 96]
  end.
Definition line_xml (l : list span) : list xev :=
  (match markdown l with [] => [] | _ => [XChar 32] end) ++ flat_map xml_of l ++ [XChar 10].
Definition docs_xml (ls : list (list span)) : list xev :=
  [XChar 32; XOpen summary; XChar 10] ++ flat_map line_xml ls ++ [XChar 32; XClose summary; XChar 10].

(** Text without backticks, without what is markup in XML, and of one line. *)
Definition plain_char (c : N) : Prop := c ≠ 96 ∧ c ≠ 60 ∧ c ≠ 38 ∧ cs_newline c = false.
(** There is code between backticks, and no backtick right after it. *)
Fixpoint plain (l : list span) : Prop :=
  match l with
  | [] => True
  | x :: l =>
      match x with
      | SText s => Forall plain_char s
      | SCode s => s ≠ [] ∧ Forall plain_char s ∧ head (markdown l) ≠ Some 96
      | SFence => True
      end ∧ plain l
  end.

(** The tags in a text: [true] for an opening one. *)
Fixpoint tags (s : list N) : list bool :=
  match s with
  | [] => []
  | c :: r => if c =? 60 then (match r with d :: _ => negb (d =? 47) | [] => true end) :: tags r else tags r
  end.
Fixpoint alternate (b : bool) (l : list bool) : Prop :=
  match l with [] => True | x :: l => x = b ∧ alternate (negb b) l end.
