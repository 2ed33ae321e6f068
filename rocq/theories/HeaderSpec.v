(** Specification of generated headers: what a reader of the header (a C or C#
    compiler) makes of the declarations. *)

From Coq Require Import NArith List Bool Lia String Ascii.
From stdpp Require Import base numbers list strings pretty.
From Verif Require Import HeaderModel.

(** ** Scoping *)

Definition idents (ts : list tok) : list string :=
  flat_map (λ t, match t with TkId s => [s] | _ => [] end) ts.

(** Names every C compiler knows, and every C# compiler in a file that has
    [using System;]. *)
Definition known (l : lang) : list string :=
  match l with
  | LCSharp => ["void"; "bool"; "int"; "float"; "double"; "byte"; "sbyte"; "UInt16"; "UInt32"; "UInt64";
                "UIntPtr"; "Int16"; "Int32"; "Int64"; "IntPtr"]
  | _ => ["const"; "void"; "float"; "double"; "int"; "char"]
  end.

(** Type names a declaration brings into scope.  [ssize_t] is neither in
    [<stddef.h>] nor in [<stdint.h>]. *)
Definition type_names (d : decl) : list string :=
  match d with
  | DInts =>
      ["uint8_t"; "uint16_t"; "uint32_t"; "uint64_t"; "size_t"; "int8_t"; "int16_t"; "int32_t"; "int64_t"]
  | DBool => ["bool"]
  | DStruct n _ | DArr n _ _ | DEnum n _ | DAlias n _ | DOpaque n | DDelegate n _ _ => [n]
  | DFn _ _ _ | DConst _ _ => []
  end.

(** Names a declaration itself declares: types and functions. *)
Definition declares (d : decl) : list string :=
  match d with
  | DStruct n _ | DArr n _ _ | DEnum n _ | DAlias n _ | DOpaque n | DDelegate n _ _ | DFn n _ _ => [n]
  | _ => []
  end.

(** Type names it mentions. *)
Definition mentioned (l : lang) (t : cty) : list string := idents (name_toks l t).
Definition mentions (l : lang) (d : decl) : list string :=
  match d with
  | DInts | DBool | DOpaque _ => []
  | DStruct _ fs => flat_map (λ f, mentioned l f.2) fs
  | DArr _ t _ => mentioned l t
  | DEnum _ i => match i with Some i => mentioned l (TInt i) | None => [] end
  | DAlias _ t => mentioned l t
  | DDelegate _ r args => mentioned l r ++ flat_map (mentioned l) args
  | DFn _ args r => flat_map (λ f, mentioned l f.2) args ++ mentioned l r
  | DConst _ t => mentioned l t
  end.

(** Every type is defined before it is mentioned, but for those of [K]. *)
Definition in_order (K : list string) (l : lang) (ds : list decl) : Prop :=
  ∀ i d m, ds !! i = Some d → m ∈ mentions l d →
    m ∈ K ∨ ∃ j d', j < i ∧ ds !! j = Some d' ∧ m ∈ type_names d'.

(** ** Types occurring in items *)

(** [within t u]: [t] is [u] or occurs in it. *)
Inductive within (t : cty) : cty → Prop :=
| W_refl : within t t
| W_ptr c u : within t u → within t (TPtr c u)
| W_arr u n : within t u → within t (TArr u n)
| W_ret r args : within t r → within t (TFn r args)
| W_arg r args u : u ∈ args → within t u → within t (TFn r args)
| W_field n gs fs f u : (f, u) ∈ fs → within t u → within t (TStruct n gs fs)
| W_alias n u : within t u → within t (TAlias n u).

Definition item_types (i : item) : list cty :=
  match i with
  | IFn _ args r => map snd args ++ [r]
  | IConst _ t _ => [t]
  | IType _ t => [t]
  end.
Definition occurs (t : cty) (is : list item) : Prop :=
  ∃ i u, i ∈ is ∧ u ∈ item_types i ∧ within t u.

(** The C name of a type that needs a definition. *)
Definition type_key (l : lang) (t : cty) : option string :=
  match t with
  | TArr _ _ | TStruct _ _ _ | TEnum _ _ | TAlias _ _ | TOpaque _ => Some (suffixed (short t))
  | TFn _ _ => match l with LCSharp => Some (short t) | _ => None end
  | _ => None
  end.

(** Different types have different names, and no function is called like a
    type or like an entry of the definer. *)
Definition no_clash (l : lang) (is : list item) : Prop :=
  (∀ t u k, occurs t is → occurs u is → type_key l t = Some k → type_key l u = Some k → t = u) ∧
  (∀ n args r, IFn n args r ∈ is →
     n ≠ "bool" ∧ n ≠ "__int_headers__" ∧ ∀ t, occurs t is → type_key l t ≠ Some n).

(** ** Items *)

(** The declaration of an item itself. *)
Definition own_decl (i : item) : option decl :=
  match i with
  | IFn n args r => Some (DFn n args r)
  | IConst n t _ => Some (DConst n t)
  | IType _ t =>
      match t with
      | TArr t' n => Some (DArr (suffixed (short t)) t' n)
      | TStruct _ _ fs => Some (DStruct (suffixed (short t)) (filter (λ f, zst f.2 = false) fs))
      | TEnum n i => Some (DEnum (suffixed n) i)
      | TAlias n t => Some (DAlias (suffixed n) t)
      | TOpaque n => Some (DOpaque (suffixed n))
      | _ => None
      end
  end.

(** Items a C# header has nothing of: constants [#[ffi_export(untyped)]] and
    aliases. *)
Definition exempt (l : lang) (i : item) : bool :=
  match l, i with
  | LCSharp, IConst _ _ true => true
  | LCSharp, IType _ (TAlias _ _) => true
  | _, _ => false
  end.

(** ** C declarators: an independent reader *)

Inductive ctype :=
| CBase (s : string)
(** pointer; is the pointee [const]? *)
| CPtr (const : bool) (t : ctype)
| CArr (n : N) (t : ctype)
| CFun (ret : ctype) (params : list (ctype * option string)).

(** The C type a Rust type stands for. *)
Fixpoint sem (t : cty) : ctype :=
  match t with
  | TInt i => CBase (match i with
                     | U8 => "uint8_t" | U16 => "uint16_t" | U32 => "uint32_t" | U64 => "uint64_t"
                     | Usize => "size_t" | I8 => "int8_t" | I16 => "int16_t" | I32 => "int32_t"
                     | I64 => "int64_t" | Isize => "ssize_t"
                     end)
  | TFloat d => CBase (if d then "double" else "float")
  | TVoid => CBase "void"
  | TBool => CBase "bool"
  | TCInt => CBase "int"
  | TChar => CBase "char"
  | TPtr c t => CPtr c (sem t)
  | TFn r args => CPtr false (CFun (sem r) (map (λ a, (sem a, None)) args))
  | TArr _ _ | TStruct _ _ _ | TEnum _ _ | TAlias _ _ | TOpaque _ => CBase (suffixed (short t))
  end.

(** A reader of declarations, C11 6.7: [parse_decl] reads
    "specifier declarator"; the declarator may be abstract (no name).
    Result: the type, the name, the rest.  A declarator turns the type before
    it into the type of the name.  [const] is only read after a type name or a
    star. *)
Definition qual (ts : list tok) : bool * list tok :=
  match ts with
  | TkId s :: ts' => if String.eqb s "const" then (true, ts') else (false, ts)
  | _ => (false, ts)
  end.

Definition keywords : list string :=
  ["auto"; "break"; "case"; "char"; "const"; "continue"; "default"; "do"; "double"; "else"; "enum";
   "extern"; "float"; "for"; "goto"; "if"; "inline"; "int"; "long"; "register"; "restrict"; "return";
   "short"; "signed"; "sizeof"; "static"; "struct"; "switch"; "typedef"; "union"; "unsigned"; "void";
   "volatile"; "while"].
Definition is_name (s : string) : bool := negb (existsb (String.eqb s) keywords).
(** Type specifiers, as far as the generator uses them. *)
Definition is_type (s : string) : bool :=
  is_name s || existsb (String.eqb s) ["void"; "char"; "int"; "float"; "double"].

Fixpoint parse_decl (fuel : nat) (ts : list tok) : option (ctype * option string * list tok) :=
  match fuel with
  | O => None
  | S fuel =>
      match ts with
      | TkId b :: ts =>
          if is_type b then
            let '(q, ts) := qual ts in
            match declarator fuel q ts with
            | Some (f, x, ts) => Some (f (CBase b), x, ts)
            | None => None
            end
          else None
      | _ => None
      end
  end
with declarator (fuel : nat) (q : bool) (ts : list tok)
    : option ((ctype → ctype) * option string * list tok) :=
  match fuel with
  | O => None
  | S fuel =>
      match ts with
      | TkStar :: ts =>
          let '(q', ts) := qual ts in
          match declarator fuel q' ts with
          | Some (f, x, ts) => Some (λ t, f (CPtr q t), x, ts)
          | None => None
          end
      | TkLp :: TkStar :: _ =>
          match declarator fuel false (tail ts) with
          | Some (f, x, TkRp :: ts) =>
              match suffixes fuel ts with
              | Some (g, ts) => Some (λ t, f (g t), x, ts)
              | None => None
              end
          | _ => None
          end
      | TkId v :: ts =>
          if is_name v then
            match suffixes fuel ts with
            | Some (g, ts) => Some (g, Some v, ts)
            | None => None
            end
          else None
      | _ =>
          match suffixes fuel ts with
          | Some (g, ts) => Some (g, None, ts)
          | None => None
          end
      end
  end
with suffixes (fuel : nat) (ts : list tok) : option ((ctype → ctype) * list tok) :=
  match fuel with
  | O => None
  | S fuel =>
      match ts with
      | TkLb :: TkNum n :: TkRb :: ts =>
          match suffixes fuel ts with
          | Some (g, ts) => Some (λ t, CArr n (g t), ts)
          | None => None
          end
      | TkLp :: TkId v :: TkRp :: ts' =>
          if String.eqb v "void" then
            match suffixes fuel ts' with
            | Some (g, ts) => Some (λ t, CFun (g t) [], ts)
            | None => None
            end
          else params_suffix fuel ts
      | TkLp :: _ => params_suffix fuel ts
      | _ => Some (λ t, t, ts)
      end
  end
with params_suffix (fuel : nat) (ts : list tok) : option ((ctype → ctype) * list tok) :=
  match fuel with
  | O => None
  | S fuel =>
      match ts with
      | TkLp :: ts =>
          match params fuel ts with
          | Some (ps, ts) =>
              match suffixes fuel ts with
              | Some (g, ts) => Some (λ t, CFun (g t) ps, ts)
              | None => None
              end
          | None => None
          end
      | _ => None
      end
  end
with params (fuel : nat) (ts : list tok) : option (list (ctype * option string) * list tok) :=
  match fuel with
  | O => None
  | S fuel =>
      match parse_decl fuel ts with
      | Some (t, x, TkRp :: ts) => Some ([(t, x)], ts)
      | Some (t, x, TkComma :: ts) =>
          match params fuel ts with
          | Some (ps, ts) => Some ((t, x) :: ps, ts)
          | None => None
          end
      | _ => None
      end
  end.

(** The meaning of a whole declaration. *)
Definition reads (ts : list tok) (t : ctype) (x : option string) : Prop :=
  ∃ fuel, ∀ fuel', fuel ≤ fuel' → parse_decl fuel' ts = Some (t, x, []).

(** What the declarators of a declaration ought to mean. *)
Definition meanings (d : decl) : list (ctype * option string) :=
  match d with
  | DInts | DBool | DOpaque _ => []
  | DStruct _ fs => map (λ f, (sem f.2, Some f.1)) fs
  | DArr _ t n => [(CArr n (sem t), Some "idx")]
  | DEnum n i => match i with Some i => [(sem (TInt i), Some n)] | None => [] end
  | DAlias n t => [(sem t, Some n)]
  | DDelegate _ _ _ => []
  | DFn n args r => [(CFun (sem r) (map (λ a, (sem a.2, Some a.1)) args), Some n)]
  | DConst _ t => [(sem t, None)]
  end.

(** Types the generator prints well: function pointers take no [void], and are
    neither pointed to nor returned by a function pointer. *)
Fixpoint object (t : cty) : bool :=
  match t with
  | TPtr _ t => object t
  | TFn _ _ => false
  | _ => true
  end.
Definition is_void (t : cty) : bool := match t with TVoid => true | _ => false end.
Fixpoint printable (t : cty) : bool :=
  match t with
  | TPtr _ t => object t
  | TFn r args =>
      object r &&
      (fix go (l : list cty) : bool :=
         match l with [] => true | a :: l => printable a && negb (is_void a) && go l end) args
  | _ => true
  end.

(** Declarations with such types and with names that are no keywords of C. *)
Definition good_decl (d : decl) : Prop :=
  match d with
  | DInts | DBool | DOpaque _ | DEnum _ _ | DDelegate _ _ _ => True
  | DStruct _ fs => ∀ f, f ∈ fs → printable f.2 = true ∧ is_name f.1 = true
  | DArr _ t _ => printable t = true
  | DAlias _ t => object t = true
  | DFn n args r =>
      printable r = true ∧ is_name n = true ∧
      ∀ a, a ∈ args → printable a.2 = true ∧ is_void a.2 = false ∧ is_name a.1 = true
  | DConst _ t => printable t = true
  end.

(** Bytes of an enum, given the integer type it is declared with; [int] when
    there is none. *)
Definition int_bytes (i : intk) : N :=
  match i with U8 | I8 => 1 | U16 | I16 => 2 | U32 | I32 => 4 | U64 | I64 | Usize | Isize => 8 end.
Definition enum_bytes (i : option intk) : N := match i with Some i => int_bytes i | None => 4 end.

(** ** Names *)

(** The declarations of a program: each name once.  The fields of a generic
    struct depend on the C layouts of its parameters only. *)
Inductive entry :=
| EStruct (arity : nat) (fields : list cty → list (string * cty))
| EEnum (int : option intk)
| EAlias (inner : cty)
| EOpaque.
Definition program := string → option entry.

Fixpoint has_underscore (s : string) : bool :=
  match s with EmptyString => false | String c s => Ascii.eqb c "_" || has_underscore s end.
Definition builtins : list string :=
  ["uint8"; "uint16"; "uint32"; "uint64"; "size"; "int8"; "int16"; "int32"; "int64"; "ssize";
   "float"; "double"; "void"; "bool"; "int"; "char"].
(** A name with no underscore, unlike those the generator makes up. *)
Definition plain (n : string) : Prop :=
  has_underscore n = false ∧ n ∉ builtins ∧ n ∉ ["ptr"; "const"; "array"; "fptr"].

(** Types with a plain name, applied to such types. *)
Inductive nominal (p : program) : cty → Prop :=
| N_int i : nominal p (TInt i)
| N_float d : nominal p (TFloat d)
| N_void : nominal p TVoid
| N_bool : nominal p TBool
| N_cint : nominal p TCInt
| N_char : nominal p TChar
| N_struct n a f gs :
    p n = Some (EStruct a f) → plain n → length gs = a → Forall (nominal p) gs →
    nominal p (TStruct n gs (f gs))
| N_enum n i : p n = Some (EEnum i) → plain n → nominal p (TEnum n i)
| N_alias n t : p n = Some (EAlias t) → plain n → nominal p (TAlias n t)
| N_opaque n : p n = Some EOpaque → plain n → nominal p (TOpaque n).

(** Pointers to, and arrays of, such types. *)
Inductive simple (p : program) : cty → Prop :=
| S_nominal t : nominal p t → simple p t
| S_ptr c t : simple p t → simple p (TPtr c t)
| S_arr t n : simple p t → simple p (TArr t n).
