(** Specification for C83: how a C# compiler sees the text of a generated file. *)

From Coq Require Import NArith ZArith List Bool String Ascii.
From stdpp Require Import base numbers list strings pretty.
From Verif Require Import NameModel NameSpec DocModel DocSpec HeaderModel HeaderSpec CsModel TextModel TextSpec.
Local Open Scope N_scope.

(** ** Lines: ECMA-334 6.5 *)

Inductive csline :=
| CIf (x : ntext)
| CElse
| CEndif
(** [#pragma] *)
| CNothing
| CTokens (ts : list ctok)
(** any other directive *)
| CBad.
Definition cs_line_of (l : ntext) : csline :=
  match skip l with
  | c :: r =>
      if c =? 35 then
        let '(d, r) := word (skip r) in
        if is d "pragma" then CNothing
        else if is d "else" then CElse
        else if is d "endif" then CEndif
        else
          let '(x, r) := word (skip r) in
          if is d "if" then match x, skip r with _ :: _, [] => CIf x | _, _ => CBad end else CBad
      else CTokens (lex l)
  | [] => CTokens []
  end.
(** The stack: for each open conditional, is its group taken, was there an [#else]? *)
Definition taken (st : list (bool * bool)) : bool := forallb fst st.
Fixpoint cs_pp (defs : list ntext) (st : list (bool * bool)) (ls : list ntext) : option (list ctok) :=
  match ls with
  | [] => match st with [] => Some [] | _ => None end
  | l :: ls =>
      match cs_line_of l with
      | CIf x => cs_pp defs ((bool_decide (x ∈ defs), false) :: st) ls
      | CElse => match st with (b, false) :: st => cs_pp defs ((negb b, true) :: st) ls | _ => None end
      | CEndif => match st with _ :: st => cs_pp defs st ls | [] => None end
      | CNothing => cs_pp defs st ls
      | CTokens ts => option_map (app (if taken st then ts else [])) (cs_pp defs st ls)
      | CBad => None
      end
  end.
(** All line terminators are the same. *)
Definition same_lines (s : ntext) : ntext := map (λ c, if cs_newline c then 10 else c) s.
Definition cs_from (defs : list ntext) (st : list (bool * bool)) (text : ntext) : option (list ctok) :=
  match read cs_newline Code text with
  | (Code, s) => cs_pp defs st (split 10 (same_lines s))
  | _ => None
  end.
(** [defs]: conditional compilation symbols. *)
Definition read_cs (defs : list ntext) (text : ntext) : option (list ctok) := cs_from defs [] text.

(** ** What ought to be read *)

Definition words (s : string) : list ctok := lex (chars s).
Fixpoint comma (l : list (list ctok)) : list ctok :=
  match l with [] => [] | [x] => x | x :: l => x ++ Pn 44 :: comma l end.
Definition size_tok (n : nat) : ctok := Wd (nat_text n).
(** [[MarshalAs(m)]], [[return: MarshalAs(m)]] *)
Definition attr_toks (pre : list ctok) (m : option string) : list ctok :=
  match m with Some m => Pn 91 :: pre ++ words "MarshalAs(" ++ words m ++ words ")]" | None => [] end.
Definition return_ : list ctok := words "return:".
Definition field_toks (f : csfield) : list ctok :=
  match f with
  | FVar v n => attr_toks [] (v_attr v) ++ words "public" ++ map tk (v_ty v) ++ [wd n; semi]
  | FFixed ty n k => words "public fixed" ++ map tk ty ++ [wd n; Pn 91; size_tok k; Pn 93; semi]
  end.
Definition param_toks (p : csvar * ntext) : list ctok :=
  attr_toks [] (v_attr p.1) ++ map tk (v_ty p.1) ++ [Wd p.2].
Definition sig_toks (r : csvar) (n : string) (args : list csvar) (names : list ntext) : list ctok :=
  map tk (v_ty r) ++ [wd n] ++ words "(" ++ comma (map param_toks (zip args names)) ++ words ");".
Definition cs_variant_toks (v : docs * ntext * option Z) : list ctok :=
  Wd v.1.2 :: (match v.2 with Some z => Pn 61 :: z_toks z | None => [] end) ++ [Pn 44].

(** The declarations C74 is about; [CsModel.csdecl] has neither the names of parameters nor variants. *)
Definition csdecl_toks (names : list ntext) (vs : list (docs * ntext * option Z)) (d : csdecl) : list ctok :=
  match d with
  | SStruct n size fs =>
      words "[StructLayout(LayoutKind.Sequential, Size =" ++ [size_tok size] ++ words ")]" ++
      words "public unsafe struct" ++ [wd n; lbrace] ++ flat_map field_toks fs ++ [rbrace]
  | SEnum n base =>
      words "public enum" ++ [wd n] ++ (match base with Some b => Pn 58 :: map tk b | None => [] end) ++
      [lbrace] ++ flat_map cs_variant_toks vs ++ [rbrace]
  | SOpaque n => words "public struct" ++ [wd n] ++ words "{ private byte OPAQUE; }"
  | SDelegate n r args =>
      words "[UnmanagedFunctionPointer(CallingConvention.Winapi)]" ++ attr_toks return_ (v_attr r) ++
      words "public unsafe delegate" ++ sig_toks r n args names
  | SFn n r args =>
      words "public unsafe partial class Ffi {" ++ attr_toks return_ (v_attr r) ++
      words "[DllImport(RustLib, ExactSpelling = true)] public static unsafe extern" ++
      sig_toks r n args names ++ [rbrace]
  end.
Definition param_names (y : xdecl) : list ntext :=
  match y with
  | YFn _ _ args _ => map (λ a, chars a.1) args
  | YDelegate _ _ args => imap (λ i _, chars "_" ++ nat_text i) args
  | _ => []
  end.
Definition variants (y : xdecl) : list (docs * ntext * option Z) := match y with YEnum _ _ _ vs => vs | _ => [] end.
Definition cs_expected (P : platform) (y : xdecl) : list ctok :=
  flat_map (csdecl_toks (param_names y) (variants y)) (cs_decl P (erase_decl y)) ++
  match y with
  | YConst _ n t false v =>
      words "public unsafe partial class Ffi { public const" ++ map tk (csharp_ty (erase t)) ++ [wd n; Pn 61] ++
      lex v ++ [semi; rbrace]
  | _ => []
  end.

(** The file. *)
Definition lib_tok (lib : ntext) : ctok := Lt (34 :: lib ++ [34]).
Definition cs_file_toks (ns lib : ntext) (defs : list ntext) (body : list ctok) : list ctok :=
  words "namespace" ++ [Wd ns] ++ words "{ using System; using System.Runtime.InteropServices;" ++
  words "public unsafe partial class Ffi { private const string RustLib =" ++
  [lib_tok (if bool_decide (chars "IOS" ∈ defs) then lib ++ chars ".framework/" ++ lib else lib)] ++ words "; }" ++
  body ++ [rbrace].

(** ** Programs *)

Definition cs_docs_ok (ws : N → bool) (d : docs) : Prop := Forall (harmless DocModel.LCSharp ws) d.
(** A value in one line: literals are closed. *)
Definition cs_value_ok (ws : N → bool) (v : ntext) : Prop :=
  read cs_newline Code v = (Code, v) ∧ (∀ q e w, (lexes Gap v).1 ≠ InLit q e w) ∧ Forall (λ c, cs_newline c = false) v.
Fixpoint cs_ty_ok (ws : N → bool) (t : xty) : Prop :=
  match t with
  | XInt _ | XFloat _ | XVoid | XBool | XCInt | XChar => True
  | XPtr _ t | XArr t _ => cs_ty_ok ws t
  | XFn r args =>
      cs_ty_ok ws r ∧ (fix go (l : list xty) : Prop := match l with [] => True | t :: l => cs_ty_ok ws t ∧ go l end) args
  | XStruct d n gs fs =>
      cs_docs_ok ws d ∧ name_ok n ∧
      (fix go (l : list xty) : Prop := match l with [] => True | t :: l => cs_ty_ok ws t ∧ go l end) gs ∧
      (fix go (l : list field) : Prop :=
         match l with [] => True | f :: l => (cs_docs_ok ws f.1.1 ∧ name_ok f.1.2 ∧ cs_ty_ok ws f.2) ∧ go l end) fs
  | XEnum d n _ vs => cs_docs_ok ws d ∧ name_ok n ∧ Forall (λ v, cs_docs_ok ws v.1.1 ∧ wordy v.1.2) vs
  | XAlias d n t => cs_docs_ok ws d ∧ name_ok n ∧ cs_ty_ok ws t
  | XOpaque d n => cs_docs_ok ws d ∧ name_ok n
  end.
Definition cs_item_ok (ws : N → bool) (i : xitem) : Prop :=
  match i with
  | JFn d n args r => cs_docs_ok ws d ∧ name_ok n ∧ Forall (λ a, name_ok a.1 ∧ cs_ty_ok ws a.2) args ∧ cs_ty_ok ws r
  | JConst d n t _ v => cs_docs_ok ws d ∧ name_ok n ∧ cs_ty_ok ws t ∧ cs_value_ok ws v
  | JType _ t => cs_ty_ok ws t
  end.
