(** Model of the C# declarations in a generated header: attributes, marshalers, sizes.

    Sources (all in /repo/src):
    - headers/languages/csharp.rs 51-95 enums, 97-155 structs, 157-183 opaque types, 185-236 functions
    - layout/impls.rs 14-76 names of numbers, 152-198 arrays, 314-378 function pointers, 844-880 Bool,
      909-960 c_int
    - layout/_mod.rs 87-93 and 167-173 csharp_marshaler
    - proc_macro/derives/c_type/struct_.rs 173-280 aliases

    Which declarations a header has, and in which order, is in HeaderModel: here each is turned into what
    is printed.  Simplifications: documentation, warnings and the class around functions are left out;
    constants are in ConstModel. *)
From Coq Require Import NArith List Bool String.
From stdpp Require Import base numbers list strings pretty.
From Verif Require Import LayoutModel HeaderModel.

(** ** What rustc computes *)

(** Size of pointers, alignment of 8-byte numbers, is the system interface's calling convention
    [stdcall] (32-bit Windows)? *)
Record platform := Platform { p_ptr : nat; p_al8 : nat; p_stdcall : bool }.
Definition align_n (P : platform) (n : nat) : nat := if (n =? 8)%nat then p_al8 P else n.
Definition num (P : platform) (n : nat) : nat * nat := (n, align_n P n).
Definition int_bytes (P : platform) (i : intk) : nat :=
  match i with U8 | I8 => 1 | U16 | I16 => 2 | U32 | I32 => 4 | U64 | I64 => 8 | Usize | Isize => p_ptr P end.
Definition arr_lay (l : nat * nat) (n : nat) : nat * nat := (n * l.1, l.2).
(** [mem::size_of], [mem::align_of]. *)
Fixpoint lay (P : platform) (t : cty) : nat * nat :=
  match t with
  | TInt i => num P (int_bytes P i)
  | TFloat d => num P (if d then 8 else 4)
  | TVoid | TOpaque _ => (0, 1)
  | TBool | TChar => num P 1
  | TCInt => num P 4
  | TPtr _ _ | TFn _ _ => num P (p_ptr P)
  | TArr t n => arr_lay (lay P t) (N.to_nat n)
  | TStruct _ _ fs => seal (map (λ f, lay P f.2) fs)
  | TEnum _ i => num P (match i with Some i => int_bytes P i | None => 4 end)
  | TAlias _ t => lay P t
  end.

(** ** What is printed *)

(** impls.rs 870-874, 953-957, 373-379.  An alias, like every type but the legacy ones, has the default
    of _mod.rs 89-93. *)
Definition marshaler (t : cty) : option string :=
  match t with
  | TBool => Some "UnmanagedType.U1"
  | TCInt => Some "UnmanagedType.SysInt"
  | TFn _ _ => Some "UnmanagedType.FunctionPtr"
  | _ => None
  end.

(** A parameter or result: marshaler, type. *)
Record csvar := Var { v_attr : option string; v_ty : list tok }.
Definition var (t : cty) : csvar := Var (marshaler t) (csharp_ty t).
(** [public ty name;], [public fixed ty name[n];] *)
Inductive csfield :=
| FVar (v : csvar) (name : string)
| FFixed (ty : list tok) (name : string) (n : nat).
Inductive csdecl :=
(** [[StructLayout(LayoutKind.Sequential, Size = size)]] *)
| SStruct (name : string) (size : nat) (fs : list csfield)
| SEnum (name : string) (base : option (list tok))
| SOpaque (name : string)
(** [[UnmanagedFunctionPointer(CallingConvention.Winapi)]] *)
| SDelegate (name : string) (ret : csvar) (args : list csvar)
(** [[DllImport(RustLib, ExactSpelling = true)]] *)
| SFn (name : string) (ret : csvar) (args : list csvar).

(** [any::type_name], as far as it may be in the list. *)
Definition type_name (t : cty) : option string :=
  match t with
  | TInt U8 => Some "u8" | TInt U16 => Some "u16" | TInt U32 => Some "u32" | TInt U64 => Some "u64"
  | TInt Usize => Some "usize"
  | TInt I8 => Some "i8" | TInt I16 => Some "i16" | TInt I32 => Some "i32" | TInt I64 => Some "i64"
  | TInt Isize => Some "isize"
  | TFloat false => Some "f32" | TFloat true => Some "f64"
  | _ => None
  end.
(** impls.rs 160-168. *)
Definition fixed_names : list string :=
  ["bool"; "u8"; "u16"; "u32"; "u64"; "usize"; "i8"; "i16"; "i32"; "i64"; "isize"; "float"; "double"].
Definition is_fixed (t : cty) : bool :=
  match type_name t with Some x => bool_decide (x ∈ fixed_names) | None => false end.
(** impls.rs 158-191. *)
Definition arr_fields (t : cty) (n : nat) : list csfield :=
  if is_fixed t then [FFixed (csharp_ty t) "arr" n]
  else map (λ i, FVar (var t) ("_" +:+ pretty i)) (seq 0 n).

(** Zero-sized fields are not in the list (csharp.rs 129-136), they take no room. *)
Definition cs_decl (P : platform) (d : decl) : list csdecl :=
  match d with
  | DInts | DBool | DAlias _ _ | DConst _ _ => []
  | DStruct n fs => [SStruct n (seal (map (λ f, lay P f.2) fs)).1 (map (λ f, FVar (var f.2) f.1) fs)]
  | DArr n t len => [SStruct n (arr_lay (lay P t) (N.to_nat len)).1 (arr_fields t (N.to_nat len))]
  | DEnum n i => [SEnum n (option_map (λ i, csharp_ty (TInt i)) i)]
  | DOpaque n => [SOpaque n]
  | DDelegate n r args => [SDelegate n (var r) (map var args)]
  | DFn n args r => [SFn n (var r) (map (λ a, var a.2) args)]
  end.
Definition cs_file (P : platform) (ds : list decl) : list csdecl := flat_map (cs_decl P) ds.
