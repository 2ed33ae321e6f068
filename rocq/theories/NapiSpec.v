(** Specification of the conversions of compound C types: which values types
    have, and which pointers may stand for which. *)

From Coq Require Import ZArith NArith Bool List String.
From stdpp Require Import base numbers list.
From Verif Require Import JsNumModel JsNumSpec NapiModel.
Local Open Scope Z_scope.

(** [const] may be added at any level, and nothing else. *)
Fixpoint weaker (t u : pty) : Prop :=
  match t, u with
  | PBase n, PBase m => n = m
  | PPtr c t, PPtr d u => (d = true → c = true) ∧ weaker t u
  | _, _ => False
  end.
Fixpoint all_const (t : pty) : Prop :=
  match t with PBase _ => True | PPtr c t => c = true ∧ all_const t end.
(** The names of types: no pointers, and no last word const. *)
Definition plain (n : text) : Prop := 42%N ∉ n ∧ ¬ chars "const" `suffix_of` n.
Fixpoint named (t : pty) : Prop :=
  match t with PBase n => plain n | PPtr _ t => named t end.

Definition plat_ok (p : plat) : Prop := 32 ≤ size_bits p ≤ 64.
Definition addr_ok (p : plat) (a : Z) : Prop := in_range false (size_bits p) a.

(** The values of a type. *)
Fixpoint has_type (p : plat) (t : cty) (v : val) {struct t} : Prop :=
  match t, v with
  | TSmall signed bits, VInt z => in_range signed bits z
  | T64 signed, VInt z => in_range signed 64 z
  | TSize signed, VInt z => in_range signed (size_bits p) z
  | TFloat s, VFloat x => if s then single x else double x
  | TBool, VInt z => z = 0 ∨ z = 1
  | TVoid, VUnit => True
  | TBytes n, VBytes s => List.length s = n
  | TPtr _ _, VPtr a => addr_ok p a
  | TEnum vs, VInt z => z ∈ vs.*2
  | TStruct _ fs, VStruct vs =>
      (fix go fs vs :=
         match fs, vs with
         | [], [] => True
         | (_, t) :: fs, v :: vs => has_type p t v ∧ go fs vs
         | _, _ => False
         end) fs vs
  | _, _ => False
  end.
Fixpoint nan_free (v : val) : Prop :=
  match v with
  | VFloat x => x ≠ NaN
  | VStruct vs => (fix go vs := match vs with [] => True | v :: vs => nan_free v ∧ go vs end) vs
  | _ => True
  end.
(** Types as they are declared: integers of at most 32 bits, variants and
    fields with names of their own. *)
Fixpoint well_formed (t : cty) : Prop :=
  match t with
  | TSmall _ bits => 0 < bits ≤ 32
  | TEnum vs => NoDup vs.*1 ∧ NoDup vs.*2
  | TStruct u8 fs =>
      (u8 = true → ∃ n m k, fs = [(n, TPtr true (PBase (chars "uint8_t"))); (m, TSize false); (k, TVoid)]) ∧
      NoDup fs.*1 ∧ (fix go fs := match fs with [] => True | f :: fs => well_formed f.2 ∧ go fs end) fs
  | _ => True
  end.
(** Constant pointers point to no pointers but constant ones. *)
Fixpoint deep_const (t : cty) : Prop :=
  match t with
  | TPtr true u => named u ∧ all_const u
  | TStruct _ fs => (fix go fs := match fs with [] => True | f :: fs => deep_const f.2 ∧ go fs end) fs
  | _ => True
  end.
(** What JavaScript has: numbers are doubles, buffers are in memory. *)
Fixpoint js_ok (p : plat) (j : js) : Prop :=
  match j with
  | JNum x => double x
  | JStr s => match p with Wasm str => double (str s) | Node _ _ => True end
  | JBuf a s => addr_ok p a ∧ addr_ok p (Z.of_nat (List.length s))
  | JObj fs => (fix go fs := match fs with [] => True | f :: fs => js_ok p f.2 ∧ go fs end) fs
  | _ => True
  end.

(** A C string: what comes before the first NUL. *)
Definition is_c_string (mem s : list N) : Prop := ∃ rest, mem = (s ++ 0%N :: rest)%list ∧ 0%N ∉ s.

(** ** JavaScript's conversions *)

(** The number that a value is for JavaScript, of which there is none for
    BigInts; [str] is that of strings. *)
Inductive read_number (str : text → num) : js → num → Prop :=
| ReadNum x : read_number str (JNum x) x
| ReadFalse : read_number str (JBool false) (of_Z 0)
| ReadTrue : read_number str (JBool true) (of_Z 1)
| ReadNull : read_number str JNull (of_Z 0)
| ReadUndefined : read_number str JUndefined NaN
| ReadStr s : read_number str (JStr s) (str s)
| ReadEmpty a : read_number str (JBuf a []) (of_Z 0)
| ReadByte a b : read_number str (JBuf a [b]) (of_Z (Z.of_N b))
| ReadBytes a s : (2 ≤ List.length s)%nat → read_number str (JBuf a s) NaN
| ReadObj fs : read_number str (JObj fs) NaN
| ReadFun : read_number str JFun NaN.
(** Whether a number is zero as an i32: an integer part that is a multiple of
    2^32, or none. *)
Definition zero_i32 (x : num) : Prop :=
  match x with Fin neg m e => (2 ^ 32 | trunc neg m e) | _ => True end.
(** What is read where a Bool is expected. *)
Definition read_bool (p : plat) (j : js) (b : bool) : Prop :=
  match p with
  | Node _ _ => j = JBool b
  | Wasm str =>
      j ≠ JNull ∧ j ≠ JUndefined ∧ ∃ x, read_number str j x ∧ (b = false ↔ zero_i32 x)
  end.
(** The bytes that a value is on wasm: those of a Uint8Array; for a string one
    for each UTF-16 unit, the digit that it is or else zero; for an object the
    elements of the array that it is like; none for a number, a boolean or a
    function. *)
Definition unit_byte (b : N) : N := if (48 <=? b)%N && (b <=? 57)%N then (b - 48)%N else 0%N.
Inductive str_bytes : text → list N → Prop :=
| SBNil : str_bytes [] []
| SBAscii b t s : (b < 128)%N → str_bytes t s → str_bytes (b :: t) (unit_byte b :: s)
| SBTwo b c t s : (192 ≤ b < 224)%N → (128 ≤ c < 192)%N → str_bytes t s → str_bytes (b :: c :: t) (0%N :: s)
| SBThree b c d t s : (224 ≤ b < 240)%N → (128 ≤ c < 192)%N → (128 ≤ d < 192)%N → str_bytes t s →
    str_bytes (b :: c :: d :: t) (0%N :: s)
| SBFour b c d e t s : (240 ≤ b)%N → (128 ≤ c < 192)%N → (128 ≤ d < 192)%N → (128 ≤ e < 192)%N → str_bytes t s →
    str_bytes (b :: c :: d :: e :: t) (0%N :: 0%N :: s).
Definition whole (x : num) : Z := match x with Fin neg m e => trunc neg m e | _ => 0 end.
Inductive read_bytes (str : text → num) : js → list N → Prop :=
| RBBuf a s : read_bytes str (JBuf a s) s
| RBStr t s : str_bytes t s → read_bytes str (JStr t) s
| RBObj fs x s : read_number str (get fs (chars "length")) x → (∀ neg, x ≠ Inf neg) →
    whole x = Z.of_nat (List.length s) → whole x < 2 ^ 32 →
    (∀ i b, s !! i = Some b → ∃ y, read_number str (get fs (decimal (N.of_nat i))) y ∧ Z.of_N b = whole y mod 256) →
    read_bytes str (JObj fs) s
| RBNum x : read_bytes str (JNum x) [] | RBBig z : read_bytes str (JBig z) [] | RBBool b : read_bytes str (JBool b) []
| RBFun : read_bytes str JFun [].
(** The kinds of values that a type is represented by, at any depth. *)
Fixpoint shaped (t : cty) (j : js) {struct t} : Prop :=
  match t with
  | TSmall _ _ | TFloat _ => ∃ x, j = JNum x
  | T64 _ | TSize _ => (∃ x, j = JNum x) ∨ ∃ z, j = JBig z
  | TBool => ∃ b, j = JBool b
  | TVoid => j = JUndefined
  | TBytes _ => ∃ a s, j = JBuf a s
  | TEnum _ => ∃ s, j = JStr s
  | TPtr cst t =>
      j = JNull ∨ (cst = true ∧ pname t = chars "char" ∧ ∃ a s, j = JBuf a s) ∨
      ∃ fs, j = JObj fs ∧ (∃ s, get fs (chars "type") = JStr s) ∧
        ((∃ x, get fs (chars "addr") = JNum x) ∨ ∃ z, get fs (chars "addr") = JBig z)
  | TStruct u8 fs =>
      (u8 = true ∧ (j = JNull ∨ ∃ a s, j = JBuf a s)) ∨
      ∃ l, (j = JObj l ∨ (u8 = false ∧ l = [] ∧ ∃ a s, j = JBuf a s)) ∧
        (fix go fs := match fs with [] => True | f :: fs => shaped f.2 (get l f.1) ∧ go fs end) fs
  end.
