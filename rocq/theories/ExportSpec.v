(** Specification of [#[ffi_export]] on functions. *)

From Coq Require Import NArith List Bool Lia String Ascii.
From stdpp Require Import base numbers list strings pretty.
From Verif Require Import HeaderModel HeaderSpec ExportModel.

(** ** Parameters *)

Fixpoint bindings (p : pat) : list ident :=
  match p with
  | PIdent _ _ x sub => x :: match sub with Some p => bindings p | None => [] end
  | PWild => []
  | POther ps =>
      (fix go (l : list pat) : list ident := match l with [] => [] | p :: l => bindings p ++ go l end) ps
  end.

(** [r#x] and [x] are one identifier. *)
Definition same (x y : ident) : Prop := name x = name y ∧ ctx x = ctx y.

(** Rust accepts the parameters: no identifier is bound by two of them
    (E0415). *)
Definition rust_params (ps : list pat) : Prop :=
  ∀ i j p q x y, i ≠ j → ps !! i = Some p → ps !! j = Some q →
    x ∈ bindings p → y ∈ bindings q → ¬ same x y.

(** No part of the parameters comes from a macro. *)
Definition one_context (ps : list pat) : Prop :=
  ∀ p q x y, p ∈ ps → q ∈ ps → x ∈ bindings p → y ∈ bindings q → ctx x = ctx y.

(** Identifiers have no [#] in them. *)
Fixpoint has_hash (s : string) : bool :=
  match s with EmptyString => false | String c s => Ascii.eqb c "#" || has_hash s end.
Definition lexical (ps : list pat) : Prop := ∀ p x, p ∈ ps → x ∈ bindings p → has_hash (name x) = false.

(** ** C# prototypes: an independent reader *)

(** A C# type as far as the generator uses them: a name and a number of
    stars. *)
Definition cstype : Type := string * nat.
Fixpoint cs_sem (t : cty) : cstype :=
  match t with
  | TInt i => (match i with
               | U8 => "byte" | U16 => "UInt16" | U32 => "UInt32" | U64 => "UInt64" | Usize => "UIntPtr"
               | I8 => "sbyte" | I16 => "Int16" | I32 => "Int32" | I64 => "Int64" | Isize => "IntPtr"
               end, 0)
  | TFloat d => (if d then "double" else "float", 0)
  | TVoid => ("void", 0)
  | TBool => ("bool", 0)
  | TCInt => ("int", 0)
  | TChar => ("byte", 0)
  | TPtr _ t => let '(b, n) := cs_sem t in (b, S n)
  | TFn _ _ => (short t, 0)
  | TArr _ _ | TStruct _ _ _ | TEnum _ _ | TOpaque _ => (suffixed (short t), 0)
  | TAlias _ t => cs_sem t
  end.

Definition cs_keywords : list string :=
  ["abstract"; "as"; "base"; "bool"; "break"; "byte"; "case"; "catch"; "char"; "checked"; "class"; "const";
   "continue"; "decimal"; "default"; "delegate"; "do"; "double"; "else"; "enum"; "event"; "explicit";
   "extern"; "false"; "finally"; "fixed"; "float"; "for"; "foreach"; "goto"; "if"; "implicit"; "in"; "int";
   "interface"; "internal"; "is"; "lock"; "long"; "namespace"; "new"; "null"; "object"; "operator"; "out";
   "override"; "params"; "private"; "protected"; "public"; "readonly"; "ref"; "return"; "sbyte"; "sealed";
   "short"; "sizeof"; "stackalloc"; "static"; "string"; "struct"; "switch"; "this"; "throw"; "true"; "try";
   "typeof"; "uint"; "ulong"; "unchecked"; "unsafe"; "ushort"; "using"; "virtual"; "void"; "volatile";
   "while"].
Definition cs_name (s : string) : bool := negb (existsb (String.eqb s) cs_keywords).

Fixpoint stars (ts : list tok) : nat * list tok :=
  match ts with TkStar :: ts => let '(n, ts) := stars ts in (S n, ts) | _ => (0, ts) end.
(** "type name" *)
Definition cs_param (ts : list tok) : option (cstype * string * list tok) :=
  match ts with
  | TkId b :: ts =>
      let '(n, ts) := stars ts in
      match ts with
      | TkId x :: ts => if cs_name x then Some ((b, n), x, ts) else None
      | _ => None
      end
  | _ => None
  end.
Fixpoint cs_params (fuel : nat) (ts : list tok) : option (list (cstype * string) * list tok) :=
  match fuel with
  | O => None
  | S fuel =>
      match cs_param ts with
      | Some (p, TkRp :: ts) => Some ([p], ts)
      | Some (p, TkComma :: ts) =>
          match cs_params fuel ts with Some (ps, ts) => Some (p :: ps, ts) | None => None end
      | _ => None
      end
  end.
(** "type name ( parameters )" *)
Definition cs_reads (ts : list tok) (ret : cstype) (n : string) (ps : list (cstype * string)) : Prop :=
  ∃ rest, cs_param ts = Some (ret, n, TkLp :: rest) ∧
    match ps with
    | [] => rest = [TkRp]
    | _ => cs_params (length ps) rest = Some (ps, [])
    end.

(** ** Python prototypes: C prototypes in which aliases stand for themselves *)

Fixpoint unalias (t : cty) : cty := match t with TAlias _ t => unalias t | _ => t end.
(** No alias of a function pointer. *)
Definition py_ok (t : cty) : bool :=
  match t with TAlias _ t => object (unalias t) | _ => true end.

(** ** Calls across the boundary *)

Section runs.
Context (dbg strict nested : bool) (env : string → efn).

(** All parameters are as their types require. *)
Fixpoint all_valid (oks : list (N → bool)) (vs : list N) : bool :=
  match oks, vs with
  | [], [] => true
  | ok :: oks, v :: vs => ok v && all_valid oks vs
  | _, _ => false
  end.

(** Panicking while unwinding, or under a guard. *)
Definition to_abort (r : res) : res := match r with RUnwind => RAbort | r => r end.
(** [pk]: the thread is panicking. *)
Definition panics (pk : bool) : res := if pk && negb nested then RAbort else RUnwind.
(** Exported functions never unwind into C, functions of JS only while the
    thread is panicking already; the others do not on recent compilers. *)
Definition stopped (pk : bool) (f : string) : bool :=
  match kind (env f) with KExport => true | KJs => strict || negb pk | _ => strict end.
(** What a call from C to [f] does, when the body does [r]. *)
Definition to_c (pk : bool) (f : string) (r : res) : res :=
  match r with RUnwind => if stopped pk f then RAbort else RUB | r => r end.
Definition unwound (pk : bool) (f : string) (r : res) : list ev :=
  match r with RUnwind => if stopped pk f then [] else [EvUnwound f] | _ => [] end.
(** A parameter that is not as its type requires: conversions check in debug
    builds, and those of closures are not conversions. *)
Definition bad_param (pk : bool) (f : string) : res :=
  match kind (env f) with KExport | KVirtual => if dbg then panics pk else RUB | _ => RUB end.
(** What a call from Rust does. *)
Definition to_rust (pk : bool) (f : string) (r : res) : res :=
  match r with
  | RUnwind => if strict || match kind (env f) with KJs => negb pk | _ => false end then RAbort else RUnwind
  | r => r
  end.
(** Does control come back? *)
Definition comes_back (r : res) : Prop := ∃ v, r = RRet v.

(** [runs pk p t r]: [p] may do [t] and end in [r]. *)
Inductive runs (pk : bool) : prog → list ev → res → Prop :=
| Runs_ret v : runs pk (PRet v) [] (RRet v)
| Runs_panic : runs pk PPanic [] (panics pk)
| Runs_emit e k t r : runs pk k t r → runs pk (PEmit e k) (EvOut e :: t) r
| Runs_sym_ret f args k t v t' r :
    all_valid (valid (env f)) args = true → runs pk (body (env f) args) t (RRet v) →
    runs pk (k v) t' r → runs pk (PCSym f args k) (t ++ t') r
| Runs_sym_end f args k t r :
    all_valid (valid (env f)) args = true → runs pk (body (env f) args) t r → ¬ comes_back r →
    runs pk (PCSym f args k) (t ++ unwound pk f r) (to_c pk f r)
| Runs_sym_invalid f args k :
    length args = length (valid (env f)) → all_valid (valid (env f)) args = false →
    runs pk (PCSym f args k) (unwound pk f (bad_param pk f)) (to_c pk f (bad_param pk f))
| Runs_sym_arity f args k :
    length args ≠ length (valid (env f)) → runs pk (PCSym f args k) [] RUB
| Runs_rust_ret f args k t v t' r :
    runs pk (body (env f) args) t (RRet v) → runs pk (k v) t' r → runs pk (PRust f args k) (t ++ t') r
| Runs_rust_end f args k t r :
    runs pk (body (env f) args) t r → ¬ comes_back r → runs pk (PRust f args k) t (to_rust pk f r)
| Runs_catch_ret p k t v t' r :
    runs pk p t (RRet v) → runs pk (k (Some v)) t' r → runs pk (PCatch p k) (t ++ t') r
| Runs_catch_unwind p k t t' r :
    runs pk p t RUnwind → runs pk (k None) t' r → runs pk (PCatch p k) (t ++ t') r
| Runs_catch_end p k t r :
    runs pk p t r → r = RAbort ∨ r = RUB → runs pk (PCatch p k) t r
| Runs_scope_ret p d t v t' v' :
    runs pk p t (RRet v) → runs pk d t' (RRet v') → runs pk (PScope p d) (t ++ t') (RRet v)
| Runs_scope_drop p d t v t' r :
    runs pk p t (RRet v) → runs pk d t' r → ¬ comes_back r → runs pk (PScope p d) (t ++ t') r
| Runs_scope_unwind p d t t' v :
    runs pk p t RUnwind → runs true d t' (RRet v) → runs pk (PScope p d) (t ++ t') RUnwind
| Runs_scope_twice p d t t' r :
    runs pk p t RUnwind → runs true d t' r → ¬ comes_back r → runs pk (PScope p d) (t ++ t') (to_abort r)
| Runs_scope_end p d t r :
    runs pk p t r → r = RAbort ∨ r = RUB → runs pk (PScope p d) t r.
End runs.

(** ** Exported names *)

Definition syms (l : list export) : list string :=
  flat_map (λ e, match e with ESym s => [s] | _ => [] end) l.
Definition js_names (l : list export) : list string :=
  flat_map (λ e, match e with EJs s => [s] | _ => [] end) l.
Definition header_names (l : list export) : list string :=
  flat_map (λ e, match e with EHeader s => [s] | _ => [] end) l.

(** The name asked for. *)
Fixpoint renamed (ts : list atok) : option string :=
  match ts with [] => None | ARename s :: _ => Some s | _ :: ts => renamed ts end.
Definition wanted (ts : list atok) (f : fnitem) : string :=
  match renamed ts with Some s => s | None => ident_text (fname f) end.

(** No blanks around. *)
Definition tight (s : string) : Prop := trim s = s.
Definition has_js (ts : list atok) : bool :=
  existsb (λ t, match t with AJs _ => true | _ => false end) ts.
Definition has_exec (ts : list atok) : bool :=
  existsb (λ t, match t with AExec => true | _ => false end) ts.
