(** Model of the text of generated headers, character by character.

    Sources (all in /repo/src):
    - headers/languages/c.rs 35-60 aliases, 62-123 enums, 125-167 structs, 169-187 opaque types,
      189-242 functions, 244-273 constants
    - headers/languages/python.rs 11-176, headers/languages/csharp.rs 55-272
    - headers/languages/mod.rs 27-61 Indentation, 300-365 mk_out!
    - layout/_mod.rs 53-93 CType, 98-175 CType for LegacyCType
    - layout/impls.rs 88-198 arrays, 255-378 function pointers, 460-594 numbers, 596-695 pointers,
      826-880 Bool, 909-955 c_int, 1034-1062 OpaqueLayout; c_char.rs 48-91
    - proc_macro/derives/c_type/struct_.rs 90-150 structs, 173-285 aliases
    - proc_macro/derives/repr_c/enum_.rs 118-180 enums
    - proc_macro/ffi_export/fn_/mod.rs 351-410, const_.rs 72-112, type_.rs 23-34
    - headers/_mod.rs 390-423 write_body

    [HeaderModel] has the same traversal with declarations in place of text; here types carry their
    documentation and enums their variants, and what is written is a list of code points.  The frame of
    the file is in [FrameModel], documentation in [DocModel], [{:?}] of constants in [ConstModel].
    Input/output errors are not modelled. *)

From Coq Require Import NArith ZArith List Bool String Ascii.
From stdpp Require Import base numbers list strings pretty.
From Verif Require Import LayoutModel NameModel DocModel HeaderModel CsModel.
From Verif Require EnumModel ConstModel FrameModel.

Definition ntext := list N.
(** One string per [#[doc = ..]]. *)
Definition docs := list ntext.
Definition nat_text (n : nat) : ntext := map N_of_ascii (ConstModel.dtext (ConstModel.digits (N.of_nat n))).
Definition num_text (n : N) : ntext := map N_of_ascii (ConstModel.dtext (ConstModel.digits n)).
Definition z_text (z : Z) : ntext := map N_of_ascii (ConstModel.debug_int z).

(** ** Types with documentation *)

Inductive xty :=
| XInt (i : intk)
| XFloat (dbl : bool)
| XVoid
| XBool
| XCInt
| XChar
| XPtr (const : bool) (t : xty)
| XArr (t : xty) (n : N)
| XFn (ret : xty) (args : list xty)
| XStruct (d : docs) (name : string) (gs : list xty) (fs : list (docs * string * xty))
(** variants: name, value if there is one in the source *)
| XEnum (d : docs) (name : string) (int : option intk) (vs : list (docs * ntext * option Z))
| XAlias (d : docs) (name : string) (inner : xty)
| XOpaque (d : docs) (name : string).

(** Without documentation and variants. *)
Fixpoint erase (t : xty) : cty :=
  match t with
  | XInt i => TInt i
  | XFloat d => TFloat d
  | XVoid => TVoid
  | XBool => TBool
  | XCInt => TCInt
  | XChar => TChar
  | XPtr c t => TPtr c (erase t)
  | XArr t n => TArr (erase t) n
  | XFn r args => TFn (erase r) (map erase args)
  | XStruct _ n gs fs => TStruct n (map erase gs) (map (λ f, (f.1.2, erase f.2)) fs)
  | XEnum _ n i _ => TEnum n i
  | XAlias _ n t => TAlias n (erase t)
  | XOpaque _ n => TOpaque n
  end.

(** [short_name]: no documentation in it. *)
Definition xshort (t : xty) : string := short (erase t).
Definition full (t : xty) : ntext := chars (suffixed (xshort t)).

(** ** Names of types *)

(** [sep] *)
Definition spaced (v : ntext) : ntext := match v with [] => [] | _ => 32%N :: v end.
Fixpoint joined (s : ntext) (l : list ntext) : ntext :=
  match l with [] => [] | [x] => x | x :: l => x ++ s ++ joined s l end.

(** [name_wrapping_var], C. *)
Fixpoint c_text (t : xty) (v : ntext) : ntext :=
  match t with
  | XInt i => chars (suffixed (int_name i)) ++ spaced v
  | XFloat d => chars (if d then "double" else "float") ++ spaced v
  | XVoid => chars "void" ++ spaced v
  | XBool => chars "bool" ++ spaced v
  | XCInt => chars "int" ++ spaced v
  | XChar => chars "char" ++ spaced v
  | XPtr true t => c_text t [] ++ chars " const *" ++ spaced v
  | XPtr false t => c_text t [] ++ chars " *" ++ spaced v
  | XFn r args =>
      c_text r [] ++ chars " (*" ++ v ++ chars ")(" ++
      (match args with
       | [] => chars "void"
       | _ => joined (chars ", ") (map (λ a, c_text a []) args)
       end) ++ chars ")"
  | XArr _ _ | XStruct _ _ _ _ | XEnum _ _ _ _ | XAlias _ _ _ | XOpaque _ _ => full t ++ spaced v
  end.
(** [name], C#. *)
Fixpoint cs_text (t : xty) : ntext :=
  match t with
  | XInt i => chars (csharp_int i)
  | XFloat d => chars (if d then "double" else "float")
  | XVoid => chars "void"
  | XBool => chars "bool"
  | XCInt => chars "int"
  | XChar => chars "byte"
  | XPtr true t => cs_text t ++ chars " /*const*/ *"
  | XPtr false t => cs_text t ++ chars " *"
  | XFn _ _ => chars (xshort t)
  | XAlias _ _ t => cs_text t
  | XArr _ _ | XStruct _ _ _ _ | XEnum _ _ _ _ | XOpaque _ _ => full t
  end.
(** [name_wrapping_var], Python: legacy types as in C; an alias has the name of what it stands for. *)
Fixpoint py_text (t : xty) (v : ntext) : ntext :=
  match t with
  | XAlias _ _ t => py_text t [] ++ spaced v
  | _ => c_text t v
  end.
Definition wrap (l : lang) (t : xty) (v : ntext) : ntext :=
  match l with LC => c_text t v | LCSharp => cs_text t ++ spaced v | LPython => py_text t v end.
Definition name_of (l : lang) (t : xty) : ntext := wrap l t [].

(** ** Declarations *)

Definition field : Type := docs * string * xty.
Inductive xdecl :=
| YInts
| YBool
| YStruct (d : docs) (short : string) (fs : list field)
| YArr (name : string) (t : xty) (n : N)
| YEnum (d : docs) (short : string) (int : option intk) (vs : list (docs * ntext * option Z))
| YAlias (d : docs) (name : string) (t : xty)
| YOpaque (d : docs) (short : string)
| YDelegate (name : string) (ret : xty) (args : list xty)
| YFn (d : docs) (name : string) (args : list (string * xty)) (ret : xty)
(** the value: the text [{:?}] gives *)
| YConst (d : docs) (name : string) (t : xty) (untyped : bool) (value : ntext).

Definition erase_decl (y : xdecl) : decl :=
  match y with
  | YInts => DInts
  | YBool => DBool
  | YStruct _ n fs => DStruct (suffixed n) (map (λ f, (f.1.2, erase f.2)) fs)
  | YArr n t len => DArr n (erase t) len
  | YEnum _ n i _ => DEnum (suffixed n) i
  | YAlias _ n t => DAlias n (erase t)
  | YOpaque _ n => DOpaque (suffixed n)
  | YDelegate n r args => DDelegate n (erase r) (map erase args)
  | YFn _ n args r => DFn n (map (λ a, (a.1, erase a.2)) args) (erase r)
  | YConst _ n t _ _ => DConst n (erase t)
  end.

Section Text.
Context (P : platform) (ws : N → bool) (fn_style : bool).

(** [out!(("…" "…"))] *)
Definition block (n : nat) (ls : list ntext) : ntext := flat_map (out_line ws n) ls.
Definition emit_docs (l : lang) (n : nat) (d : docs) : ntext :=
  match l with LC => c_docs ws n d | LCSharp => cs_docs ws n d | LPython => py_docs ws n d end.
Definition eol : ntext := [10%N].

(** *** C and Python *)

Definition variant_name (short : string) (v : ntext) : ntext := EnumModel.screaming_case (chars short) v.
(** c.rs 97-111; python.rs 37-47 has no values. *)
Definition value_text (o : option Z) : ntext :=
  match o with Some z => chars " = " ++ z_text z ++ chars "," | None => chars "," end.
Definition c_variant (l : lang) (short : string) (v : docs * ntext * option Z) : ntext :=
  emit_docs l 4 v.1.1 ++
  out_line ws 4 (variant_name short v.1.2 ++
                 match l with LPython => chars "," | _ => value_text v.2 end).
(** c.rs 62-123 *)
Definition c_enum (d : docs) (short : string) (int : option intk) (vs : list (docs * ntext * option Z)) : ntext :=
  emit_docs LC 0 d ++
  match int with
  | Some i =>
      let intn := name_of LC (XInt i) in
      block 0 [chars "/** \remark Has the same ABI as `" ++ intn ++ chars "` **/";
               chars "#ifdef DOXYGEN"; chars "typedef"; chars "#endif";
               chars "enum " ++ chars short ++ chars " {"] ++
      flat_map (c_variant LC short) vs ++
      block 0 [chars "}"; chars "#ifndef DOXYGEN"; chars "; typedef " ++ intn; chars "#endif";
               chars (suffixed short) ++ chars ";"]
  | None =>
      out_line ws 0 (chars "typedef enum " ++ chars short ++ chars " {") ++
      flat_map (c_variant LC short) vs ++
      out_line ws 0 (chars "} " ++ chars (suffixed short) ++ chars ";")
  end ++ eol.
(** python.rs 22-53 *)
Definition py_enum (short : string) (vs : list (docs * ntext * option Z)) : ntext :=
  out_line ws 0 (chars "typedef enum " ++ chars short ++ chars " {") ++
  flat_map (c_variant LPython short) vs ++
  out_line ws 0 (chars "} " ++ chars (suffixed short) ++ chars ";") ++ eol.

(** Fields, an empty line between them. *)
Definition fields_text (one : field → ntext) (fs : list field) : ntext := joined eol (map one fs).
Definition c_field (l : lang) (f : field) : ntext :=
  emit_docs l 4 f.1.1 ++ out_line ws 4 (wrap l f.2 (chars f.1.2) ++ chars ";").
(** c.rs 125-167, python.rs 55-103 *)
Definition c_struct (l : lang) (d : docs) (short : string) (fs : list field) : ntext :=
  emit_docs l 0 d ++
  out_line ws 0 (chars "typedef struct " ++ chars short ++ chars " {") ++
  fields_text (c_field l) fs ++
  out_line ws 0 (chars "} " ++ chars (suffixed short) ++ chars ";") ++ eol.

(** c.rs 202-233, python.rs 117-138: written to a buffer, not by lines. *)
Definition c_signature (l : lang) (name : string) (args : list (string * xty)) : ntext :=
  eol ++ (match l with LC => if fn_style then chars "/* fn */ " else [] | _ => [] end) ++
  chars name ++ chars " (" ++
  (match args with
   | [] => chars "void"
   | _ => joined (chars ",") (map (λ a, eol ++ indentation 4 ++ wrap l a.2 (chars a.1)) args)
   end) ++ chars ")".
Definition c_fn (l : lang) (d : docs) (name : string) (args : list (string * xty)) (r : xty) : ntext :=
  emit_docs l 0 d ++ out_line ws 0 (wrap l r (c_signature l name args) ++ chars ";") ++ eol.

(** c.rs 244-273, python.rs 157-176 *)
Definition c_const (d : docs) (name : string) (t : xty) (untyped : bool) (value : ntext) : ntext :=
  emit_docs LC 0 d ++
  out_line ws 0 (chars "#define " ++ chars name ++ chars " " ++
                 if untyped then value else chars "((" ++ name_of LC t ++ chars ") " ++ value ++ chars ")") ++ eol.
Definition py_const (name : string) : ntext :=
  out_line ws 0 (chars "#define " ++ chars name ++ chars " ...") ++ eol.

(** impls.rs 117-134: [writeln!]. *)
Definition c_arr (name : string) (t : xty) (n : N) : ntext :=
  chars "typedef struct {" ++ eol ++
  chars "    " ++ c_text t (chars "idx[" ++ num_text n ++ chars "]") ++ chars ";" ++ eol ++
  chars "} " ++ chars name ++ chars ";" ++ eol ++ eol.

(** *** C# *)

Definition marshal (t : xty) : option ntext := option_map chars (marshaler (erase t)).
Definition attr (pre : string) (m : ntext) : ntext := chars pre ++ chars "MarshalAs(" ++ m ++ chars ")]".
Definition attr_line (n : nat) (pre : string) (t : xty) : ntext :=
  match marshal t with Some m => out_line ws n (attr pre m) | None => [] end.

Definition cs_variant (v : docs * ntext * option Z) : ntext :=
  emit_docs LCSharp 4 v.1.1 ++ out_line ws 4 (v.1.2 ++ value_text v.2).
(** csharp.rs 55-101 *)
Definition cs_enum (d : docs) (short : string) (int : option intk) (vs : list (docs * ntext * option Z)) : ntext :=
  emit_docs LCSharp 0 d ++
  out_line ws 0 (chars "public enum " ++ chars (suffixed short) ++ chars " " ++
                 (match int with Some i => chars ": " ++ name_of LCSharp (XInt i) | None => [] end) ++ chars " {") ++
  flat_map cs_variant vs ++ out_line ws 0 (chars "}") ++ eol.

Definition size_line (size : nat) : ntext :=
  chars "[StructLayout(LayoutKind.Sequential, Size = " ++ nat_text size ++ chars ")]".
Definition cs_field (f : field) : ntext :=
  emit_docs LCSharp 4 f.1.1 ++ attr_line 4 "[" f.2 ++
  out_line ws 4 (chars "public " ++ cs_text f.2 ++ chars " " ++ chars f.1.2 ++ chars ";").
(** csharp.rs 103-155 *)
Definition cs_struct (d : docs) (short : string) (fs : list field) : ntext :=
  emit_docs LCSharp 0 d ++
  block 0 [size_line (seal (map (λ f, lay P (erase f.2)) fs)).1;
           chars "public unsafe struct " ++ chars (suffixed short) ++ chars " {"] ++
  fields_text cs_field fs ++ out_line ws 0 (chars "}") ++ eol.

(** csharp.rs 157-183 *)
Definition cs_opaque (d : docs) (short : string) : ntext :=
  emit_docs LCSharp 0 d ++
  out_line ws 0 (chars "public struct " ++ chars (suffixed short) ++ chars " {") ++
  block 4 [chars "#pragma warning disable 0169"; chars "private byte OPAQUE;"; chars "#pragma warning restore 0169"] ++
  out_line ws 0 (chars "}") ++ eol.

Definition ffi_class : ntext := chars "public unsafe partial class Ffi {".
(** csharp.rs 214-229 *)
Definition cs_arg (a : string * xty) : ntext :=
  eol ++ attr_line 8 "[" a.2 ++ indentation 8 ++ cs_text a.2 ++ chars " " ++ chars a.1.
(** csharp.rs 185-236 *)
Definition cs_fn (d : docs) (name : string) (args : list (string * xty)) (r : xty) : ntext :=
  out_line ws 0 ffi_class ++
  emit_docs LCSharp 4 d ++ attr_line 4 "[return: " r ++
  out_line ws 4 (chars "[DllImport(RustLib, ExactSpelling = true)] public static unsafe extern") ++
  indentation 4 ++ cs_text r ++ chars " " ++ chars name ++ chars " (" ++
  joined (chars ",") (map cs_arg args) ++ chars ");" ++ eol ++
  out_line ws 0 (chars "}") ++ eol.

(** csharp.rs 238-271 *)
Definition cs_const (d : docs) (name : string) (t : xty) (untyped : bool) (value : ntext) : ntext :=
  if untyped then []
  else
    out_line ws 0 ffi_class ++ emit_docs LCSharp 4 d ++
    out_line ws 4 (chars "public const " ++ cs_text t ++ chars " " ++ chars name ++ chars " = " ++ value ++ chars ";") ++
    out_line ws 0 (chars "}") ++ eol.

(** impls.rs 152-198 *)
Definition inline_attr (n : nat) (pre : string) (t : xty) : ntext :=
  match marshal t with Some m => attr pre m ++ eol ++ indentation n | None => [] end.
Definition cs_arr (name : string) (t : xty) (n : N) : ntext :=
  size_line (arr_lay (lay P (erase t)) (N.to_nat n)).1 ++ eol ++
  chars "public unsafe struct " ++ chars name ++ chars " {" ++ eol ++
  (if is_fixed (erase t) then
     chars "    public fixed " ++ cs_text t ++ chars " arr[" ++ num_text n ++ chars "];" ++ eol
   else
     flat_map (λ i, chars "    " ++ inline_attr 4 "[" t ++ chars "public " ++ cs_text t ++ chars " _" ++ nat_text i ++
                    chars ";" ++ eol) (List.seq 0 (N.to_nat n))) ++
  chars "}" ++ eol ++ eol.

(** impls.rs 314-362 *)
Definition delegate_arg (i : nat) (t : xty) : ntext :=
  eol ++ indentation 8 ++ inline_attr 8 "[" t ++ cs_text t ++ chars " _" ++ nat_text i.
Definition cs_delegate (name : string) (r : xty) (args : list xty) : ntext :=
  chars "[UnmanagedFunctionPointer(CallingConvention.Winapi)]" ++ eol ++
  inline_attr 0 "[return: " r ++
  chars "public unsafe /* static */ delegate" ++ eol ++
  chars "    " ++ cs_text r ++ eol ++
  chars "    " ++ chars name ++ chars " (" ++
  joined (chars ",") (imap delegate_arg args) ++ chars ");" ++ eol ++ eol.

(** *** All *)

(** impls.rs 497-503 *)
Definition ints_text : ntext :=
  eol ++ chars "#include <stddef.h>" ++ eol ++ chars "#include <stdint.h>" ++ eol ++ eol.
(** impls.rs 846-850 *)
Definition bool_text : ntext := eol ++ chars "#include <stdbool.h>" ++ eol ++ eol.

Definition render (l : lang) (y : xdecl) : ntext :=
  match y with
  | YInts => ints_text
  | YBool => bool_text
  | YStruct d n fs => match l with LCSharp => cs_struct d n fs | _ => c_struct l d n fs end
  | YArr n t len => match l with LCSharp => cs_arr n t len | _ => c_arr n t len end
  | YEnum d n i vs => match l with LC => c_enum d n i vs | LCSharp => cs_enum d n i vs | LPython => py_enum n vs end
  | YAlias d n t =>
      emit_docs LC 0 d ++ out_line ws 0 (chars "typedef " ++ name_of LC t ++ chars " " ++ chars n ++ chars ";") ++ eol
  | YOpaque d n =>
      match l with
      | LC =>
          emit_docs LC 0 d ++
          out_line ws 0 (chars "typedef struct " ++ chars n ++ chars " " ++ chars (suffixed n) ++ chars ";") ++ eol
      | LCSharp => cs_opaque d n
      | LPython => out_line ws 0 (chars "typedef ... " ++ chars (suffixed n) ++ chars ";") ++ eol
      end
  | YDelegate n r args => cs_delegate n r args
  | YFn d n args r => match l with LCSharp => cs_fn d n args r | _ => c_fn l d n args r end
  | YConst d n t u v =>
      match l with LC => c_const d n t u v | LCSharp => cs_const d n t u v | LPython => py_const n end
  end.
End Text.

(** ** The traversal *)

(** As in [HeaderModel], with the language each declaration is written for. *)
Record xst := Xst { xseen : list string; xout : list (lang * xdecl) }.
Inductive xres := XOk (s : xst) | XErr | XPanic.
Definition xbind (r : xres) (f : xst → xres) : xres :=
  match r with XOk s => f s | XErr => XErr | XPanic => XPanic end.
Definition xemit (l : lang) (d : xdecl) (s : xst) : xres := XOk (Xst (xseen s) (xout s ++ [(l, d)])).
Definition xonce (k : string) (body : xst → xres) (s : xst) : xres :=
  if bool_decide (k ∈ xseen s) then XOk s else body (Xst (k :: xseen s) (xout s)).

Definition xdefine_int (l : lang) : xst → xres :=
  match l with LCSharp => XOk | _ => xonce int_headers (xemit l YInts) end.

Fixpoint xdefine (l : lang) (t : xty) : xst → xres :=
  match t with
  | XInt _ => xdefine_int l
  | XFloat _ | XVoid | XCInt | XChar => XOk
  | XBool => match l with LCSharp => XOk | _ => xonce "bool" (xemit l YBool) end
  | XPtr _ t => xdefine (legacy l) t
  | XArr t' n =>
      match l with
      | LCSharp => λ s,
          xbind (xdefine LCSharp t' s)
            (xonce (suffixed (xshort t)) (xemit LCSharp (YArr (suffixed (xshort t)) t' n)))
      | _ =>
          xonce (suffixed (xshort t)) (λ s,
            xbind (xdefine LC t' s) (xemit LC (YArr (suffixed (xshort t)) t' n)))
      end
  | XFn r args => λ s,
      xbind (xdefine (legacy l) r s) (λ s,
        xbind ((fix go (ts : list xty) (s : xst) : xres :=
                  match ts with [] => XOk s | t :: ts => xbind (xdefine (legacy l) t s) (go ts) end) args s)
          (match l with
           | LCSharp => xonce (xshort t) (xemit LCSharp (YDelegate (xshort t) r args))
           | _ => XOk
           end))
  | XStruct d _ _ fs =>
      xonce (suffixed (xshort t)) (λ s,
        xbind ((fix go (ts : list (docs * string * xty)) (s : xst) : xres :=
                  match ts with [] => XOk s | (_, t) :: ts => xbind (xdefine l t s) (go ts) end) fs s)
          (λ s,
             if zst (erase t) then XPanic
             else xemit l (YStruct d (xshort t) (filter (λ f, zst (erase f.2) = false) fs)) s))
  | XEnum d n i vs =>
      xonce (suffixed n) (λ s, xbind (xdefine_int l s) (xemit l (YEnum d n i vs)))
  | XAlias d n t =>
      xonce (suffixed n) (λ s,
        xbind (xdefine l t s) (match l with LC => xemit LC (YAlias d (suffixed n) t) | _ => XOk end))
  | XOpaque d n => xonce (suffixed n) (xemit l (YOpaque d n))
  end.

(** ** Exported items *)

Inductive xitem :=
| JFn (d : docs) (name : string) (args : list (string * xty)) (ret : xty)
| JConst (d : docs) (name : string) (ty : xty) (untyped : bool) (value : ntext)
| JType (name : string) (ty : xty).
Definition erase_item (i : xitem) : item :=
  match i with
  | JFn _ n args r => IFn n (map (λ a, (a.1, erase a.2)) args) (erase r)
  | JConst _ n t u _ => IConst n (erase t) u
  | JType n t => IType n (erase t)
  end.
Definition xitem_name (i : xitem) : string := item_name (erase_item i).

Fixpoint xdefine_all (l : lang) (ts : list xty) (s : xst) : xres :=
  match ts with [] => XOk s | t :: ts => xbind (xdefine l t s) (xdefine_all l ts) end.
Definition xgen_def (l : lang) (i : xitem) (s : xst) : xres :=
  match i with
  | JFn d n args r =>
      if bool_decide (n ∈ xseen s) then XErr
      else
        xbind (xdefine_all l (map snd args) (Xst (n :: xseen s) (xout s))) (λ s,
          xbind (xdefine l r s) (xemit l (YFn d n args r)))
  | JConst d n t u v =>
      xbind (xdefine l t s) (λ s,
        match l, u with LCSharp, true => XOk s | _, _ => xemit l (YConst d n t u v) s end)
  | JType _ t => xdefine l t s
  end.
Fixpoint xgen_all (l : lang) (is : list xitem) (s : xst) : xres :=
  match is with [] => XOk s | i :: is => xbind (xgen_def l i s) (xgen_all l is) end.

Fixpoint xbtree_insert (i : xitem) (m : list xitem) : list xitem :=
  match m with
  | [] => [i]
  | j :: m' =>
      match String.compare (xitem_name i) (xitem_name j) with
      | Lt => i :: m
      | Eq => i :: m'
      | Gt => j :: xbtree_insert i m'
      end
  end.
Definition xbtree (is : list xitem) : list xitem := fold_left (λ m i, xbtree_insert i m) is [].

Definition xwrite_body (l : lang) (stable : bool) (is : list xitem) : xres :=
  xgen_all l (if stable then xbtree is else rev is) (Xst [] []).

(** The text between the prelude and the epilogue. *)
Definition body_text (P : platform) (ws : N → bool) (fn_style : bool) (ds : list (lang * xdecl)) : ntext :=
  flat_map (λ d, render P ws fn_style d.1 d.2) ds.

(** The file, headers/_mod.rs 326-344: [FrameModel.generate] with a text of code points inside. *)
Definition of_text (t : FrameModel.text) : ntext := map N_of_ascii t.
Definition file_text (l : lang) (o : FrameModel.options) (lib : FrameModel.text) (body : ntext) : ntext :=
  of_text (FrameModel.write_banner o) ++ of_text (FrameModel.write_prelude l o lib) ++ body ++
  of_text (FrameModel.write_epilogue l o lib).
