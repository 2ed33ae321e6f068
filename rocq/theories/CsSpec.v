(** What Rust passes at the boundary, and what .NET makes of C# declarations. *)
From Coq Require Import NArith List Bool String.
From stdpp Require Import base numbers list strings.
From Verif Require Import LayoutModel HeaderModel HeaderSpec CsModel.

(** [Forall], by recursion on the list. *)
Definition Forall' {A} (P : A → Prop) : list A → Prop :=
  fix go l := match l with [] => True | x :: l => P x ∧ go l end.

(** Pointers and 8-byte numbers of actual platforms. *)
Definition sane (P : platform) : Prop := (p_ptr P = 4 ∨ p_ptr P = 8) ∧ (p_al8 P = 4 ∨ p_al8 P = 8).

(** ** What is passed *)
Inductive conv := Cdecl | Stdcall.
Inductive abi :=
| AInt (signed : bool) (n : nat)
| AFloat (n : nat)
| ABool (n : nat)
| APtr
| AVoid
| AFun (c : conv) (ret : abi) (args : list abi)
(** size, alignment, fields with offsets *)
| AStruct (size align : nat) (fs : list (nat * abi)).
Definition abi_lay (P : platform) (a : abi) : nat * nat :=
  match a with
  | AInt _ n | AFloat n | ABool n => num P n
  | APtr | AFun _ _ _ => num P (p_ptr P)
  | AVoid => (0, 1)
  | AStruct s a _ => (s, a)
  end.

(** ** Rust *)
Definition int_signed (i : intk) : bool :=
  match i with U8 | U16 | U32 | U64 | Usize => false | _ => true end.
Definition rust_int (P : platform) (i : intk) : abi := AInt (int_signed i) (int_bytes P i).
(** [extern "C"] is [cdecl], also on Windows. *)
Fixpoint abi_of (P : platform) (t : cty) : abi :=
  match t with
  | TInt i => rust_int P i
  | TFloat d => AFloat (if d then 8 else 4)
  | TVoid => AVoid
  | TBool => ABool 1
  | TCInt => AInt true 4
  | TChar => AInt false 1
  | TPtr _ _ => APtr
  | TArr t n =>
      let n := N.to_nat n in
      AStruct (n * (lay P t).1) (lay P t).2 (map (λ i, (i * (lay P t).1, abi_of P t)) (seq 0 n))
  | TFn r args => AFun Cdecl (abi_of P r) (map (abi_of P) args)
  | TStruct _ _ fs =>
      let ls := map (λ f, lay P f.2) fs in
      AStruct (seal ls).1 (seal ls).2
        ((fix go (os : list nat) (fs : list (string * cty)) {struct fs} : list (nat * abi) :=
            match fs, os with
            | (_, t) :: fs, o :: os => if zst t then go os fs else (o, abi_of P t) :: go os fs
            | _, _ => []
            end) (offsets 0 ls) fs)
  | TEnum _ i => match i with Some i => rust_int P i | None => AInt true 4 end
  | TAlias _ t => abi_of P t
  | TOpaque _ => AStruct 0 1 []
  end.

(** Types of values ([b = false]), and what pointers may point at. *)
Fixpoint is_void (t : cty) : bool :=
  match t with TVoid => true | TAlias _ t => is_void t | _ => false end.
(** Arrays have at least one item. *)
Fixpoint nonempty (t : cty) : Prop :=
  match t with
  | TPtr _ t | TAlias _ t => nonempty t
  | TArr t n => n ≠ 0%N ∧ nonempty t
  | TFn r args => nonempty r ∧ Forall' nonempty args
  | TStruct _ _ fs => Forall' (λ f, nonempty f.2) fs
  | _ => True
  end.
Fixpoint value (b : bool) (t : cty) : Prop :=
  match t with
  | TVoid | TOpaque _ => b = true
  | TPtr _ t => value true t
  | TArr t n => n ≠ 0%N ∧ value false t
  | TFn r args => (is_void r = true ∨ value false r) ∧ Forall' (value false) args
  | TStruct _ _ fs => Forall' (λ f, if zst f.2 then nonempty f.2 else value false f.2) fs
  | TAlias _ t => value b t
  | _ => True
  end.

(** ** C# and .NET *)
Definition name_of (d : csdecl) : string :=
  match d with SStruct n _ _ | SEnum n _ | SOpaque n | SDelegate n _ _ | SFn n _ _ => n end.
Definition is_type_decl (d : csdecl) : bool := match d with SFn _ _ _ => false | _ => true end.
Fixpoint find (Γ : list csdecl) (x : string) : option csdecl :=
  match Γ with
  | [] => None
  | d :: Γ => if bool_decide (name_of d = x) && is_type_decl d then Some d else find Γ x
  end.

(** The numbers of C# and [System]. *)
Definition scalars (P : platform) : list (string * abi) :=
  [("byte", AInt false 1); ("sbyte", AInt true 1); ("UInt16", AInt false 2); ("Int16", AInt true 2);
   ("UInt32", AInt false 4); ("Int32", AInt true 4); ("int", AInt true 4); ("UInt64", AInt false 8);
   ("Int64", AInt true 8); ("UIntPtr", AInt false (p_ptr P)); ("IntPtr", AInt true (p_ptr P));
   ("float", AFloat 4); ("double", AFloat 8)].
Fixpoint assoc {A} (x : string) (l : list (string * A)) : option A :=
  match l with [] => None | (y, a) :: l => if bool_decide (x = y) then Some a else assoc x l end.
Definition scalar (P : platform) (x : string) : option abi := assoc x (scalars P).
(** Enums are of these types, CS1008. *)
Definition enum_types : list string := ["byte"; "sbyte"; "Int16"; "UInt16"; "Int32"; "UInt32"; "Int64"; "UInt64"].
(** Fixed buffers of these (CS1663; [bool] and [char] left out). *)
Definition buffer_types : list string := ["float"; "double"; "int"] ++ enum_types.
Definition enum_base (P : platform) (b : option (list tok)) : option abi :=
  match b with
  | None => Some (AInt true 4)
  | Some [TkId x] => if bool_decide (x ∈ enum_types) then scalar P x else None
  | _ => None
  end.
Definition buffer (P : platform) (ts : list tok) : option abi :=
  match ts with
  | [TkId x] => if bool_decide (x ∈ buffer_types) then scalar P x else None
  | _ => None
  end.
(** [LayoutKind.Sequential]: as in C, but at least of the given size. *)
Definition sequential (P : platform) (size : nat) (ks : list abi) : abi :=
  let ls := map (abi_lay P) ks in
  AStruct (Nat.max (seal ls).1 size) (seal ls).2 (zip (offsets 0 ls) ks).
(** [CallingConvention.Winapi], also the default of [DllImport]. *)
Definition winapi (P : platform) : conv := if p_stdcall P then Stdcall else Cdecl.

(** [means P Γ m a ts k]: what is of type [ts] with marshaler [a] is passed ([m = true]) as [k], or is in
    memory ([m = false]) as [k].  By default a [bool] is passed as a [BOOL] of 4 bytes.  Numbers have no
    marshaler but that of their own size, of which there is none here; a delegate can be passed, but in
    memory there is a reference, which nothing may point at (CS0208, since C# 11 a warning). *)
Inductive means (P : platform) (Γ : list csdecl) : bool → option string → list tok → abi → Prop :=
| M_scalar m a x k : m = false ∨ a = None → scalar P x = Some k → means P Γ m a [TkId x] k
| M_bool4 : means P Γ true None [TkId "bool"] (ABool 4)
| M_bool1 m a : m = false ∨ a = Some "UnmanagedType.U1" → means P Γ m a [TkId "bool"] (ABool 1)
| M_ptr m a ts k : m = false ∨ a = None → means P Γ false None ts k → means P Γ m a (ts ++ [TkStar]) APtr
| M_void m a : m = false ∨ a = None → means P Γ m a [TkId "void"; TkStar] APtr
| M_enum m a x b k : m = false ∨ a = None → find Γ x = Some (SEnum x b) → enum_base P b = Some k →
    means P Γ m a [TkId x] k
| M_opaque m a x : m = false ∨ a = None → find Γ x = Some (SOpaque x) →
    means P Γ m a [TkId x] (AStruct 1 1 [(0, AInt false 1)])
| M_struct m a x size fs ks : m = false ∨ a = None → find Γ x = Some (SStruct x size fs) → fields P Γ m fs ks →
    means P Γ m a [TkId x] (sequential P size ks)
| M_delegate a x r args k ks : a = None ∨ a = Some "UnmanagedType.FunctionPtr" →
    find Γ x = Some (SDelegate x r args) → result P Γ r k → params P Γ args ks →
    means P Γ true a [TkId x] (AFun (winapi P) k ks)
with fields (P : platform) (Γ : list csdecl) : bool → list csfield → list abi → Prop :=
| F_nil m : fields P Γ m [] []
| F_var m v n fs k ks : means P Γ m (v_attr v) (v_ty v) k → fields P Γ m fs ks → fields P Γ m (FVar v n :: fs) (k :: ks)
| F_fixed m ts n len fs k ks : buffer P ts = Some k → fields P Γ m fs ks →
    fields P Γ m (FFixed ts n len :: fs) (replicate len k ++ ks)
with params (P : platform) (Γ : list csdecl) : list csvar → list abi → Prop :=
| P_nil : params P Γ [] []
| P_cons v vs k ks : means P Γ true (v_attr v) (v_ty v) k → params P Γ vs ks → params P Γ (v :: vs) (k :: ks)
with result (P : platform) (Γ : list csdecl) : csvar → abi → Prop :=
| R_void : result P Γ (Var None [TkId "void"]) AVoid
| R_value v k : means P Γ true (v_attr v) (v_ty v) k → result P Γ v k.

(** Structs that functions return have to be the same in memory as passed (blittable): no [bool], no
    delegate. *)
Inductive blittable (Γ : list csdecl) : list tok → Prop :=
| B_scalar P x k : scalar P x = Some k → blittable Γ [TkId x]
| B_ptr ts : blittable Γ (ts ++ [TkStar])
| B_enum x b : find Γ x = Some (SEnum x b) → blittable Γ [TkId x]
| B_opaque x : find Γ x = Some (SOpaque x) → blittable Γ [TkId x]
| B_struct x size fs : find Γ x = Some (SStruct x size fs) → blittables Γ fs → blittable Γ [TkId x]
with blittables (Γ : list csdecl) : list csfield → Prop :=
| Bs_nil : blittables Γ []
| Bs_var v n fs : blittable Γ (v_ty v) → blittables Γ fs → blittables Γ (FVar v n :: fs)
| Bs_fixed ts n len fs : blittables Γ fs → blittables Γ (FFixed ts n len :: fs).
Definition returnable (Γ : list csdecl) (ts : list tok) : Prop :=
  ∀ x size fs, ts = [TkId x] → find Γ x = Some (SStruct x size fs) → blittable Γ ts.

(** An imported function is called like this. *)
Definition fn_means (P : platform) (Γ : list csdecl) (n : string) (k : abi) : Prop :=
  ∃ r args kr ks, SFn n r args ∈ Γ ∧ result P Γ r kr ∧ returnable Γ (v_ty r) ∧ params P Γ args ks ∧
    k = AFun (winapi P) kr ks.

(** ** Which types C# gets right *)

(** In memory: no function pointers, no arrays of words, no enums of words. *)
Definition word (t : cty) : Prop := t = TInt Usize ∨ t = TInt Isize.
Fixpoint memory_ok (t : cty) : Prop :=
  match t with
  | TFn _ _ => False
  | TPtr _ t | TAlias _ t => memory_ok t
  | TArr t _ => ¬ word t ∧ memory_ok t
  | TStruct _ _ fs => Forall' (λ f, zst f.2 = false → memory_ok f.2) fs
  | TEnum _ i => i ≠ Some Usize ∧ i ≠ Some Isize
  | _ => True
  end.
(** Passed, with its marshaler ([b = true]) or with none: no [c_int] unless renamed, no [bool] if renamed. *)
Fixpoint passing_ok (P : platform) (b : bool) (t : cty) : Prop :=
  match t with
  | TBool => b = true
  | TCInt => b = false
  | TPtr _ t => memory_ok t
  | TArr t _ => ¬ word t ∧ passing_ok P true t
  | TFn r args =>
      p_stdcall P = false ∧ (is_void r = true ∨ passing_ok P true r) ∧
      Forall' (passing_ok P true) args
  | TStruct _ _ fs => Forall' (λ f, zst f.2 = false → passing_ok P true f.2) fs
  | TEnum _ i => i ≠ Some Usize ∧ i ≠ Some Isize
  | TAlias _ t => passing_ok P false t
  | _ => True
  end.
(** Blittable. *)
Fixpoint plain (t : cty) : Prop :=
  match t with
  | TBool | TFn _ _ => False
  | TArr t _ | TAlias _ t => plain t
  | TStruct _ _ fs => Forall' (λ f, zst f.2 = false → plain f.2) fs
  | _ => True
  end.
Fixpoint compound (t : cty) : bool :=
  match t with TArr _ _ | TStruct _ _ _ => true | TAlias _ t => compound t | _ => false end.
Definition return_ok (P : platform) (t : cty) : Prop :=
  is_void t = true ∨ passing_ok P true t ∧ (compound t = true → plain t).
