(** Model of header generation: names of C types, the traversal that defines
    them, and the list of exported items.

    Sources (all in /repo/src):
    - headers/definer.rs 62-74 define_once, 92-110 HashSetDefiner
    - headers/_mod.rs 390-423 write_body
    - layout/_mod.rs 53-91 CType, 98-175 CType for LegacyCType
    - layout/impls.rs 88-198 arrays, 255-358 function pointers, 460-594 numbers,
      596-695 pointers, 826-880 Bool, 909-955 c_int, 1034-1062 OpaqueLayout
    - c_char.rs 48-91, tuple.rs 20-61
    - proc_macro/derives/c_type/struct_.rs 90-150 structs, 173-285 aliases
    - proc_macro/derives/repr_c/enum_.rs 130-180 enums
    - headers/languages/{c,csharp,python}.rs
    - proc_macro/ffi_export/fn_/mod.rs 351-410, const_.rs 72-112, type_.rs 23-34

    Simplifications: the text of a declaration is a list of tokens; comments,
    layout, C# attributes and marshalers are left out.  The derives require
    [FieldTy : ReprC] for every field, which is unprovable for a type that
    contains itself, so types are finite trees.  A manual implementation of
    [CType] is not modelled. *)

From Coq Require Import NArith List Bool Lia String Ascii.
From stdpp Require Import base numbers list strings pretty.

(** ** C types *)

Inductive intk := U8 | U16 | U32 | U64 | Usize | I8 | I16 | I32 | I64 | Isize.

Inductive cty :=
| TInt (i : intk)
(** [false]: [f32], [true]: [f64] *)
| TFloat (dbl : bool)
| TVoid
| TBool
| TCInt
| TChar
| TPtr (const : bool) (t : cty)
| TArr (t : cty) (n : N)
| TFn (ret : cty) (args : list cty)
(** a [repr(C)] struct: name, C layouts of the type parameters, fields (lifetime and const parameters
    are not in [short_name]) *)
| TStruct (name : string) (gs : list cty) (fs : list (string * cty))
(** a field-less enum: name, [repr] integer if any *)
| TEnum (name : string) (int : option intk)
(** a [repr(transparent)] struct with [rename] *)
| TAlias (name : string) (inner : cty)
(** a [repr(opaque)] type, or [OpaqueLayout] *)
| TOpaque (name : string).

Inductive lang := LC | LCSharp | LPython.

(** impls.rs 24-76, first literal. *)
Definition int_name (i : intk) : string :=
  match i with
  | U8 => "uint8" | U16 => "uint16" | U32 => "uint32" | U64 => "uint64" | Usize => "size"
  | I8 => "int8" | I16 => "int16" | I32 => "int32" | I64 => "int64" | Isize => "ssize"
  end.
(** impls.rs 24-76, second literal. *)
Definition csharp_int (i : intk) : string :=
  match i with
  | U8 => "byte" | U16 => "UInt16" | U32 => "UInt32" | U64 => "UInt64" | Usize => "UIntPtr"
  | I8 => "sbyte" | I16 => "Int16" | I32 => "Int32" | I64 => "Int64" | Isize => "IntPtr"
  end.

(** [short_name] / [c_short_name_fmt]. *)
Fixpoint short (t : cty) : string :=
  match t with
  | TInt i => int_name i
  | TFloat d => if d then "double" else "float"
  | TVoid => "void"
  | TBool => "bool"
  | TCInt => "int"
  | TChar => "char"
  | TPtr true t => short t +:+ "_const_ptr"
  | TPtr false t => short t +:+ "_ptr"
  | TArr t n => short t +:+ "_" +:+ pretty n +:+ "_array"
  | TFn r args =>
      short r +:+
      (fix go (l : list cty) : string :=
         match l with [] => "" | a :: l => "_" +:+ short a +:+ go l end) args +:+ "_fptr"
  | TStruct n gs _ =>
      n +:+
      (fix go (l : list cty) : string :=
         match l with [] => "" | a :: l => "_" +:+ short a +:+ go l end) gs
  | TEnum n _ => n
  | TAlias n _ => n
  | TOpaque n => n
  end.

Definition suffixed (s : string) : string := s +:+ "_t".

(** ** Texts *)

Inductive tok := TkId (s : string) | TkStar | TkLp | TkRp | TkLb | TkRb | TkComma | TkNum (n : N).

(** Comma-separated. *)
Fixpoint commas (l : list (list tok)) : list tok :=
  match l with
  | [] => []
  | [x] => x
  | x :: l => x ++ TkComma :: commas l
  end.

(** [c_var_fmt], and [name_wrapping_var] of types that are not legacy ones
    (layout/_mod.rs 78-85), for C. *)
Fixpoint c_var (t : cty) (v : list tok) : list tok :=
  match t with
  | TInt i => TkId (suffixed (int_name i)) :: v
  | TFloat d => TkId (if d then "double" else "float") :: v
  | TVoid => TkId "void" :: v
  | TBool => TkId "bool" :: v
  | TCInt => TkId "int" :: v
  | TChar => TkId "char" :: v
  | TPtr true t => c_var t [] ++ TkId "const" :: TkStar :: v
  | TPtr false t => c_var t [] ++ TkStar :: v
  | TArr _ _ => TkId (suffixed (short t)) :: v
  | TFn r args =>
      c_var r [] ++ TkLp :: TkStar :: v ++ TkRp :: TkLp ::
      (match args with
       | [] => [TkId "void"]
       | _ =>
           commas ((fix go (l : list cty) : list (list tok) :=
                      match l with [] => [] | a :: l => c_var a [] :: go l end) args)
       end) ++ [TkRp]
  | TStruct _ _ _ | TEnum _ _ | TAlias _ _ | TOpaque _ => TkId (suffixed (short t)) :: v
  end.

(** [csharp_ty], and [name] of types that are not legacy ones, for C#.  An
    alias has the name of what it stands for. *)
Fixpoint csharp_ty (t : cty) : list tok :=
  match t with
  | TInt i => [TkId (csharp_int i)]
  | TFloat d => [TkId (if d then "double" else "float")]
  | TVoid => [TkId "void"]
  | TBool => [TkId "bool"]
  | TCInt => [TkId "int"]
  | TChar => [TkId "byte"]
  | TPtr _ t => csharp_ty t ++ [TkStar]
  | TArr _ _ => [TkId (suffixed (short t))]
  | TFn _ _ => [TkId (short t)]
  | TStruct _ _ _ | TEnum _ _ | TOpaque _ => [TkId (suffixed (short t))]
  | TAlias _ t => csharp_ty t
  end.

(** [name] in a Python header: like C but for aliases at the top. *)
Fixpoint py_ty (t : cty) : list tok :=
  match t with
  | TAlias _ t => py_ty t
  | _ => c_var t []
  end.

Definition name_toks (l : lang) (t : cty) : list tok :=
  match l with LC => c_var t [] | LCSharp => csharp_ty t | LPython => py_ty t end.

(** ** Declarations *)

Inductive decl :=
(** [#include <stddef.h>], [<stdint.h>] *)
| DInts
(** [#include <stdbool.h>] *)
| DBool
| DStruct (name : string) (fs : list (string * cty))
| DArr (name : string) (item : cty) (n : N)
| DEnum (name : string) (int : option intk)
| DAlias (name : string) (inner : cty)
| DOpaque (name : string)
(** a C# delegate *)
| DDelegate (name : string) (ret : cty) (args : list cty)
| DFn (name : string) (args : list (string * cty)) (ret : cty)
| DConst (name : string) (ty : cty).

(** *** Declarators in a C header *)

(** c.rs 139-160: a field. *)
Definition field_text (t : cty) (f : string) : list tok := c_var t [TkId f].
(** c.rs 205-237: a prototype. *)
Definition params_text (args : list (string * cty)) : list tok :=
  match args with [] => [TkId "void"] | _ => commas (map (λ a, c_var a.2 [TkId a.1]) args) end.
Definition fn_text (n : string) (args : list (string * cty)) (r : cty) : list tok :=
  c_var r (TkId n :: TkLp :: params_text args ++ [TkRp]).
(** impls.rs 117-134: the only field of an array type. *)
Definition array_text (t : cty) (n : N) : list tok := c_var t [TkId "idx"; TkLb; TkNum n; TkRb].
(** c.rs 40-57: what follows [typedef] in an alias. *)
Definition alias_text (a : string) (t : cty) : list tok := c_var t [] ++ [TkId a].
(** c.rs 244-273: the cast in a constant; c.rs 119-121: the integer of an enum. *)
Definition type_text (t : cty) : list tok := c_var t [].

Definition texts (d : decl) : list (list tok) :=
  match d with
  | DInts | DBool | DOpaque _ => []
  | DStruct _ fs => map (λ f, field_text f.2 f.1) fs
  | DArr _ t n => [array_text t n]
  | DEnum n i => match i with Some i => [alias_text n (TInt i)] | None => [] end
  | DAlias n t => [alias_text n t]
  | DDelegate _ _ _ => []
  | DFn n args r => [fn_text n args r]
  | DConst _ t => [type_text t]
  end.

(** The integer type printed for an enum: c.rs 82-121, csharp.rs 66-90,
    python.rs 22-52. *)
Definition enum_int (l : lang) (i : option intk) : option intk :=
  match l with LPython => None | _ => i end.

(** Is the C layout zero-sized? *)
Fixpoint zst (t : cty) : bool :=
  match t with
  | TVoid | TOpaque _ => true
  | TArr t n => zst t || (n =? 0)%N
  | TStruct _ _ fs =>
      (fix go (l : list (string * cty)) : bool :=
         match l with [] => true | (_, t) :: l => zst t && go l end) fs
  | TAlias _ t => zst t
  | _ => false
  end.

(** The definer: names inserted, text written so far (latest last). *)
Record st := St { seen : list string; out : list decl }.
Inductive res := Ok (s : st) | Err | Panic.
Definition bind (r : res) (f : st → res) : res :=
  match r with Ok s => f s | Err => Err | Panic => Panic end.
Definition emit (d : decl) (s : st) : res := Ok (St (seen s) (out s ++ [d])).

(** definer.rs 62-74: inserts before running the body. *)
Definition define_once (k : string) (body : st → res) (s : st) : res :=
  if bool_decide (k ∈ seen s) then Ok s else body (St (k :: seen s) (out s)).

Definition int_headers : string := "__int_headers__".

(** The legacy types define what they mention as C when the language is
    Python (layout/_mod.rs 127-147, impls.rs 119, 282-284, 608). *)
Definition legacy (l : lang) : lang := match l with LCSharp => LCSharp | _ => LC end.

Definition define_int (l : lang) : st → res :=
  match l with LCSharp => Ok | _ => define_once int_headers (emit DInts) end.

(** [define_self]. *)
Fixpoint define (l : lang) (t : cty) : st → res :=
  match t with
  | TInt _ => define_int l
  | TFloat _ | TVoid | TCInt | TChar => Ok
  | TBool => match l with LCSharp => Ok | _ => define_once "bool" (emit DBool) end
  | TPtr _ t => define (legacy l) t
  | TArr t' n =>
      match l with
      | LCSharp => λ s,
          bind (define LCSharp t' s)
            (define_once (suffixed (short t)) (emit (DArr (suffixed (short t)) t' n)))
      | _ =>
          define_once (suffixed (short t)) (λ s,
            bind (define LC t' s) (emit (DArr (suffixed (short t)) t' n)))
      end
  | TFn r args => λ s,
      bind (define (legacy l) r s) (λ s,
        bind ((fix go (ts : list cty) (s : st) : res :=
                 match ts with [] => Ok s | t :: ts => bind (define (legacy l) t s) (go ts) end) args s)
          (match l with
           | LCSharp => define_once (short t) (emit (DDelegate (short t) r args))
           | _ => Ok
           end))
  | TStruct _ _ fs =>
      define_once (suffixed (short t)) (λ s,
        bind ((fix go (ts : list (string * cty)) (s : st) : res :=
                 match ts with [] => Ok s | (_, t) :: ts => bind (define l t s) (go ts) end) fs s)
          (λ s,
             if zst t then Panic
             else emit (DStruct (suffixed (short t)) (filter (λ f, zst f.2 = false) fs)) s))
  | TEnum n i =>
      define_once (suffixed n) (λ s, bind (define_int l s) (emit (DEnum (suffixed n) i)))
  | TAlias n t =>
      define_once (suffixed n) (λ s,
        bind (define l t s) (match l with LC => emit (DAlias (suffixed n) t) | _ => Ok end))
  | TOpaque n => define_once (suffixed n) (emit (DOpaque (suffixed n)))
  end.

(** ** Exported items *)

Inductive item :=
| IFn (name : string) (args : list (string * cty)) (ret : cty)
| IConst (name : string) (ty : cty) (untyped : bool)
(** a type: its Rust identifier, its C layout *)
| IType (name : string) (ty : cty).

Definition item_name (i : item) : string :=
  match i with IFn n _ _ | IConst n _ _ | IType n _ => n end.

Fixpoint define_all (l : lang) (ts : list cty) (s : st) : res :=
  match ts with [] => Ok s | t :: ts => bind (define l t s) (define_all l ts) end.

(** [gen_def]. *)
Definition gen_def (l : lang) (i : item) (s : st) : res :=
  match i with
  | IFn n args r =>
      if bool_decide (n ∈ seen s) then Err
      else
        bind (define_all l (map snd args) (St (n :: seen s) (out s))) (λ s,
          bind (define l r s) (emit (DFn n args r)))
  | IConst n t untyped =>
      bind (define l t s) (λ s,
        match l, untyped with LCSharp, true => Ok s | _, _ => emit (DConst n t) s end)
  | IType _ t => define l t s
  end.

Fixpoint gen_all (l : lang) (is : list item) (s : st) : res :=
  match is with [] => Ok s | i :: is => bind (gen_def l i s) (gen_all l is) end.

(** A [BTreeMap] keyed by name: a sorted list; inserting replaces. *)
Fixpoint btree_insert (i : item) (m : list item) : list item :=
  match m with
  | [] => [i]
  | j :: m' =>
      match String.compare (item_name i) (item_name j) with
      | Lt => i :: m
      | Eq => i :: m'
      | Gt => j :: btree_insert i m'
      end
  end.
Definition btree (is : list item) : list item := fold_left (λ m i, btree_insert i m) is [].

(** headers/_mod.rs 390-423; [is] in registration order. *)
Definition write_body (l : lang) (stable : bool) (is : list item) : res :=
  gen_all l (if stable then btree is else rev is) (St [] []).
