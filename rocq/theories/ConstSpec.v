(** What the constants of a header mean: readers for the few lines of C and of
    C# at stake, written from the C and C# standards, not from safer_ffi.

    - C (ISO C17): 6.4 tokens (a preprocessing number takes a sign after an
      [e]), 6.4.4.1 integer constants (decimal ones have the first type of
      [int], [long], [long long] that fits; if none does the constant has no
      type), 6.4.4.2 floating constants (without a suffix: [double]), 6.3.1.3
      and 6.3.1.5 conversions, 6.10.3 macros (without a blank after its name, an
      opening parenthesis makes a macro with parameters).
    - C# (ECMA-334): 6.4.5.3 integer literals (the first of [int], [uint],
      [long], [ulong] that fits; the two smallest negative numbers), 10.2.3 and
      10.2.11 implicit numeric and constant conversions, 8.3.7 a [double] is
      never implicitly a [float].

    The readers accept what these headers may contain and a bit more; hexadecimal
    floats, suffixes and escapes are not read. *)

From Coq Require Import ZArith NArith QArith Qreduction List Bool Lia String Ascii.
From Coq.Floats Require Import SpecFloat.
From stdpp Require Import base numbers list strings.
From Verif Require Import HeaderModel ConstModel.
Local Open Scope Z_scope.

(** ** Tokens *)

Definition is_digit (c : ascii) : bool :=
  let n := N_of_ascii c in (48 <=? n)%N && (n <=? 57)%N.
Definition is_alpha (c : ascii) : bool :=
  let n := N_of_ascii c in
  ((65 <=? n)%N && (n <=? 90)%N) || ((97 <=? n)%N && (n <=? 122)%N) || (n =? 95)%N.
Definition is_idchar (c : ascii) : bool := is_alpha c || is_digit c.
Definition is_blank (c : ascii) : bool := Ascii.eqb c " "%char.
Definition is_e (c : ascii) : bool := Ascii.eqb c "e"%char || Ascii.eqb c "E"%char.

Inductive ctok := KBlank | KId (x : text) | KNum (x : text) | KP (c : ascii).

Global Instance ctok_eq_dec : EqDecision ctok.
Proof. solve_decision. Defined.

Inductive lmode := L0 | LId (x : text) | LNum (x : text).

Definition flush (m : lmode) : list ctok :=
  match m with L0 => [] | LId x => [KId x] | LNum x => [KNum x] end.

(** Does [c] go on the token that is being read? *)
Definition goes_on (m : lmode) (c : ascii) : option lmode :=
  match m with
  | L0 => None
  | LId x => if is_idchar c then Some (LId (x ++ [c])) else None
  | LNum x =>
      if is_idchar c || Ascii.eqb c "."%char
         || ((Ascii.eqb c "-"%char || Ascii.eqb c "+"%char) &&
             match last x with Some d => is_e d | None => false end)
      then Some (LNum (x ++ [c])) else None
  end.

Fixpoint lex (m : lmode) (t : text) : list ctok :=
  match t with
  | [] => flush m
  | c :: t =>
      match goes_on m c with
      | Some m => lex m t
      | None =>
          flush m ++
          (if is_blank c then KBlank :: lex L0 t
           else if is_alpha c then lex (LId [c]) t
           else if is_digit c then lex (LNum [c]) t
           else KP c :: lex L0 t)
      end
  end.

Definition tokens (t : text) : list ctok := lex L0 t.
Definition not_blank (k : ctok) : bool := match k with KBlank => false | _ => true end.

(** A name: what Rust and C both take as an identifier. *)
Definition identb (x : text) : bool :=
  match x with
  | [] => false
  | c :: _ => is_alpha c && forallb is_idchar x
  end.
Definition ident (x : text) : Prop := identb x = true.

(** ** Numbers *)

Definition dvalue (c : ascii) : N := N_of_ascii c - 48.
(** The leading digits, and the rest. *)
Fixpoint span (t : text) : list N * text :=
  match t with
  | c :: t' => if is_digit c then let '(ds, r) := span t' in (dvalue c :: ds, r) else ([], t)
  | [] => ([], [])
  end.
Definition in_base (b : N) (ds : list N) : N := fold_left (fun a d => (b * a + d)%N) ds 0%N.

(** [m × 10^e] *)
Definition q10 (m : N) (e : Z) : Q := inject_Z (Z.of_N m) * Qpower (10 # 1) e.

Definition hexvalue (c : ascii) : option N :=
  let n := N_of_ascii c in
  if (48 <=? n)%N && (n <=? 57)%N then Some (n - 48)%N
  else if (97 <=? n)%N && (n <=? 102)%N then Some (n - 87)%N
  else if (65 <=? n)%N && (n <=? 70)%N then Some (n - 55)%N
  else None.
Fixpoint hex (t : text) (a : N) : option N :=
  match t with
  | [] => Some a
  | c :: t => match hexvalue c with Some d => hex t (16 * a + d)%N | None => None end
  end.

Inductive number := NInt (n : N) | NDec (q : Q).

(** The exponent of a decimal, or nothing. *)
Definition exponent (t : text) : option (option Z) :=
  match t with
  | [] => Some None
  | c :: t =>
      if is_e c then
        let '(neg, t) := match t with
                         | c :: t' => if Ascii.eqb c "-"%char then (true, t')
                                      else if Ascii.eqb c "+"%char then (false, t') else (false, t)
                         | [] => (false, t)
                         end in
        match span t with
        | (ds, []) =>
            match ds with
            | [] => None
            | _ => let z := Z.of_N (in_base 10 ds) in Some (Some (if neg then - z else z))
            end
        | _ => None
        end
      else None
  end.

(** The digits after a hexadecimal mark. *)
Definition after_0x (t : text) : option text :=
  match t with
  | a :: b :: h => if Ascii.eqb a "0"%char && Ascii.eqb b "x"%char then Some h else None
  | _ => None
  end.

(** [octal]: a leading zero asks for base eight (C), or does not (C#). *)
Definition read_integer (octal : bool) (i : list N) : option number :=
  match i with
  | [] => None
  | 0%N :: _ :: _ =>
      if octal
      then if forallb (fun d => (d <? 8)%N) i then Some (NInt (in_base 8 i)) else None
      else Some (NInt (in_base 10 i))
  | _ => Some (NInt (in_base 10 i))
  end.

(** The digits after a point, the rest, and whether there is a point. *)
Definition read_fraction (t : text) : list N * text * bool :=
  match t with
  | c :: t' => if Ascii.eqb c "."%char then (span t', true) else ([], t, false)
  | [] => ([], [], false)
  end.

Definition read_decimal (octal : bool) (t : text) : option number :=
  let '(i, r) := span t in
  let '(f, r, dot) := read_fraction r in
  match exponent r with
  | None => None
  | Some x =>
      match dot, x with
      | false, None => read_integer octal i
      | _, _ =>
          match i ++ f with
          | [] => None
          | _ => Some (NDec (q10 (in_base 10 (i ++ f)) (default 0 x - Z.of_nat (length f))))
          end
      end
  end.

Definition read_number (octal : bool) (t : text) : option number :=
  match after_0x t with
  | Some [] => None
  | Some h => NInt <$> hex h 0
  | None => read_decimal octal t
  end.

(** ** Floats *)

Definition prec (dbl : bool) : Z := if dbl then 53 else 24.
Definition emax (dbl : bool) : Z := if dbl then 1024 else 128.

(** The float nearest to a rational, ties to even: the quotient of its numerator
    by its denominator, rounded. *)
Definition round_q (dbl : bool) (q : Q) : spec_float :=
  let q := Qred q in
  match Qnum q with
  | 0 => S754_zero false
  | Zpos m => SFdiv (prec dbl) (emax dbl) (S754_finite false m 0) (S754_finite false (Qden q) 0)
  | Zneg m => SFdiv (prec dbl) (emax dbl) (S754_finite true m 0) (S754_finite false (Qden q) 0)
  end.
(** A [double] or a [float] made a [float] or a [double]. *)
Definition convert (dbl : bool) (f : spec_float) : spec_float :=
  match f with
  | S754_finite s m e => binary_normalize (prec dbl) (emax dbl) (if s then Zneg m else Zpos m) e s
  | _ => f
  end.
Definition signed (neg : bool) (f : spec_float) : spec_float := if neg then SFopp f else f.

(** ** Integers: [w] is the width of a pointer *)

Definition bits (w : Z) (i : intk) : Z :=
  match i with
  | U8 | I8 => 8 | U16 | I16 => 16 | U32 | I32 => 32 | U64 | I64 => 64 | Usize | Isize => w
  end.
Definition is_signed (i : intk) : bool :=
  match i with I8 | I16 | I32 | I64 | Isize => true | _ => false end.
Definition fits (bits : Z) (sgn : bool) (z : Z) : bool :=
  if sgn then (- 2 ^ (bits - 1) <=? z) && (z <? 2 ^ (bits - 1)) else (0 <=? z) && (z <? 2 ^ bits).
Definition in_range (w : Z) (i : intk) (z : Z) : bool := fits (bits w i) (is_signed i) z.

(** ** C *)

Inductive rty := ROf (i : intk) | RCInt | RLong | RBool | RFloat (dbl : bool) | RChar | RPtr | RNamed (x : text).

Inductive cval :=
| CI (t : rty) (z : Z)
| CF (dbl : bool) (f : spec_float)
| CB (b : bool)
| CP (address : Z).

Definition c_types : list (text * rty) :=
  [ (tx "uint8_t", ROf U8); (tx "uint16_t", ROf U16); (tx "uint32_t", ROf U32);
    (tx "uint64_t", ROf U64); (tx "size_t", ROf Usize);
    (tx "int8_t", ROf I8); (tx "int16_t", ROf I16); (tx "int32_t", ROf I32);
    (tx "int64_t", ROf I64); (tx "ssize_t", ROf Isize);
    (tx "int", RCInt); (tx "bool", RBool); (tx "float", RFloat false);
    (tx "double", RFloat true); (tx "char", RChar) ].

Fixpoint lookup_ty (x : text) (l : list (text * rty)) : rty :=
  match l with
  | [] => RNamed x
  | (y, t) :: l => if bool_decide (x = y) then t else lookup_ty x l
  end.

Definition is_KId (k : ctok) : bool := match k with KId _ => true | _ => false end.
Definition is_star (k : ctok) : bool := match k with KP c => Ascii.eqb c "*"%char | _ => false end.

(** A type: a name, or names and stars that end with a star. *)
Definition read_type (l : list ctok) : option rty :=
  match l with
  | [KId x] => Some (lookup_ty x c_types)
  | KId _ :: _ =>
      if forallb (fun k => is_KId k || is_star k) l && match last l with Some k => is_star k | None => false end
      then Some RPtr else None
  | _ => None
  end.

Inductive clit := LInt (z : Z) | LDouble (f : spec_float).

Definition with_type (z : Z) : option clit :=
  if (- 2 ^ 63 <=? z) && (z <? 2 ^ 63) then Some (LInt z) else None.

(** [env]: the enumerators and the other names that stand for integers. *)
Definition c_literal (env : text -> option Z) (k : ctok) : option clit :=
  match k with
  | KNum x =>
      match read_number true x with
      | Some (NInt n) => with_type (Z.of_N n)
      | Some (NDec q) => Some (LDouble (round_q true q))
      | None => None
      end
  | KId x =>
      if bool_decide (x = tx "true") then Some (LInt 1)
      else if bool_decide (x = tx "false") then Some (LInt 0)
      else match env x with Some z => with_type z | None => None end
  | _ => None
  end.

Definition c_unary (env : text -> option Z) (l : list ctok) : option clit :=
  match l with
  | [k] => c_literal env k
  | [KP c; k] =>
      if Ascii.eqb c "-"%char then
        match c_literal env k with
        | Some (LInt z) => with_type (- z)
        | Some (LDouble f) => Some (LDouble (SFopp f))
        | None => None
        end
      else None
  | _ => None
  end.

(** A cast; those from an integer to a floating type, or from a floating type
    to an integer, are not read. *)
Definition c_cast (w : Z) (t : rty) (x : clit) : option cval :=
  match t, x with
  | ROf i, LInt z =>
      if is_signed i then if in_range w i z then Some (CI t z) else None
      else Some (CI t (z mod 2 ^ bits w i))
  | RCInt, LInt z => if fits 32 true z then Some (CI t z) else None
  | RLong, LInt z => Some (CI t z)
  | RBool, LInt z => Some (CB (negb (z =? 0)))
  | RChar, LInt z => if fits 8 true z then Some (CI t z) else None
  | RPtr, LInt z => Some (CP z)
  | RNamed _, LInt z => Some (CI t z)
  | RFloat d, LDouble f => Some (CF d (if d then f else convert false f))
  | _, _ => None
  end.

(** What comes before the first [c], and after. *)
Fixpoint split_at (c : ascii) (l : list ctok) : option (list ctok * list ctok) :=
  match l with
  | [] => None
  | k :: l =>
      if bool_decide (k = KP c) then Some ([], l)
      else match split_at c l with Some (a, b) => Some (k :: a, b) | None => None end
  end.
Fixpoint unsnoc (l : list ctok) : option (list ctok * ctok) :=
  match l with
  | [] => None
  | [k] => Some ([], k)
  | k :: l => match unsnoc l with Some (a, b) => Some (k :: a, b) | None => None end
  end.

(** The body of a macro, alone in an expression. *)
Definition c_body (env : text -> option Z) (w : Z) (l : list ctok) : option cval :=
  match l with
  | KP "("%char :: KP "("%char :: l =>
      match split_at ")"%char l with
      | Some (ty, l) =>
          match read_type ty, unsnoc l with
          | Some t, Some (e, KP ")"%char) =>
              match c_unary env e with Some x => c_cast w t x | None => None end
          | _, _ => None
          end
      | None => None
      end
  | _ =>
      match c_unary env l with
      | Some (LInt z) => Some (CI (if fits 32 true z then RCInt else RLong) z)
      | Some (LDouble f) => Some (CF true f)
      | None => None
      end
  end.

(** [#define NAME body]: the name and what it stands for. *)
Definition read_c (env : text -> option Z) (w : Z) (line : text) : option (text * cval) :=
  match tokens line with
  | KP "#"%char :: KId d :: KBlank :: KId name :: KBlank :: l =>
      if bool_decide (d = tx "define") then
        match c_body env w (List.filter not_blank l) with
        | Some v => Some (name, v)
        | None => None
        end
      else None
  | _ => None
  end.

(** ** C# *)

Inductive sty := SInt | SUint | SLong | SUlong.
Inductive slit := SZ (t : sty) (z : Z) | SB (b : bool) | SD (f : spec_float).

Definition cs_types : list (text * rty) :=
  [ (tx "byte", ROf U8); (tx "UInt16", ROf U16); (tx "UInt32", ROf U32);
    (tx "UInt64", ROf U64); (tx "UIntPtr", ROf Usize);
    (tx "sbyte", ROf I8); (tx "Int16", ROf I16); (tx "Int32", ROf I32);
    (tx "Int64", ROf I64); (tx "IntPtr", ROf Isize);
    (tx "int", ROf I32); (tx "bool", RBool); (tx "float", RFloat false);
    (tx "double", RFloat true) ].

Definition cs_read_type (l : list ctok) : option rty :=
  match l with
  | [KId x] => Some (lookup_ty x cs_types)
  | KId _ :: l => if forallb is_star l then Some RPtr else None
  | _ => None
  end.

Definition cs_integer (n : N) : option slit :=
  let z := Z.of_N n in
  if z <? 2 ^ 31 then Some (SZ SInt z)
  else if z <? 2 ^ 32 then Some (SZ SUint z)
  else if z <? 2 ^ 63 then Some (SZ SLong z)
  else if z <? 2 ^ 64 then Some (SZ SUlong z)
  else None.

(** Names other than [true] and [false] are not read: an enumerator is only
    reached through its type, [Foo_t.Bar]. *)
Definition cs_literal (k : ctok) : option slit :=
  match k with
  | KNum x =>
      match read_number false x with
      | Some (NInt n) => cs_integer n
      | Some (NDec q) => Some (SD (round_q true q))
      | None => None
      end
  | KId x =>
      if bool_decide (x = tx "true") then Some (SB true)
      else if bool_decide (x = tx "false") then Some (SB false)
      else None
  | _ => None
  end.

Definition cs_unary (l : list ctok) : option slit :=
  match l with
  | [k] => cs_literal k
  | [KP c; k] =>
      if Ascii.eqb c "-"%char then
        match cs_literal k with
        | Some (SZ SInt z) => Some (SZ SInt (- z))
        | Some (SZ SUint z) => Some (SZ (if z =? 2 ^ 31 then SInt else SLong) (- z))
        | Some (SZ SLong z) => Some (SZ SLong (- z))
        | Some (SZ SUlong z) => if z =? 2 ^ 63 then Some (SZ SLong (- z)) else None
        | Some (SD f) => Some (SD (SFopp f))
        | _ => None
        end
      else None
  | _ => None
  end.

(** The implicit conversions of constants.  [native]: C# 11 or later, where
    [IntPtr] and [UIntPtr] are the native integers and may be constants. *)
Definition cs_implicit (native : bool) (t : rty) (x : slit) : option cval :=
  match t, x with
  | ROf i, SZ s z =>
      let fine :=
        match i, s with
        | Usize, SInt => native && (0 <=? z)
        | Usize, SUint => native
        | Isize, SInt => native
        | (Usize | Isize), _ => false
        | I64, (SInt | SUint | SLong) => true
        | U64, SLong => 0 <=? z
        | U64, (SUint | SUlong) => true
        | U32, SUint => true
        | _, SInt => in_range 64 i z
        | _, _ => false
        end in
      if fine then Some (CI t z) else None
  | RBool, SB b => Some (CB b)
  | RFloat true, SD f => Some (CF true f)
  | _, _ => None
  end.

(** [public const TYPE NAME = value;] *)
Definition read_cs (native : bool) (line : text) : option (text * cval) :=
  match List.filter not_blank (tokens line) with
  | KId a :: KId b :: l =>
      if bool_decide (a = tx "public" /\ b = tx "const") then
        match split_at "="%char l with
        | Some (l, e) =>
            match unsnoc l, unsnoc e with
            | Some (ty, KId name), Some (e, KP ";"%char) =>
                match cs_read_type ty, cs_unary e with
                | Some t, Some x =>
                    match cs_implicit native t x with
                    | Some v => Some (name, v)
                    | None => None
                    end
                | _, _ => None
                end
            | _, _ => None
            end
        | None => None
        end
      else None
  | _ => None
  end.

(** ** Well-formed values *)

(** Types whose name is made of identifiers and stars. *)
Fixpoint simple (t : cty) : Prop :=
  match t with
  | TInt _ | TFloat _ | TVoid | TBool | TCInt | TChar => True
  | TPtr _ t => simple t
  | TStruct n [] _ | TEnum n _ | TOpaque n => ident (tx n)
  | _ => False
  end.

(** The float [f] is the one its printed form stands for; the digits are those
    of a decimal whose first digit is not zero. *)
Definition wf_float (dbl : bool) (f : spec_float) (form : fform) : Prop :=
  match form with
  | FNan => f = S754_nan
  | FInf s => f = S754_infinity s
  | FZero s => f = S754_zero s
  | FDec s _ ds k =>
      match ds with
      | [] => False
      | d :: _ => d <> 0%N
      end /\ Forall (fun d => (d < 10)%N) ds /\
      f = signed s (round_q dbl (q10 (in_base 10 ds) (k - Z.of_nat (length ds))))
  end.

Definition wf (w : Z) (v : rval) : Prop :=
  match v with
  | VInt i z => in_range w i z = true
  | VFloat d f form => wf_float d f form
  | VCInt z => fits 32 true z = true
  | VCChar n => (n < 256)%N
  | VNull _ t | VNone t => simple t
  | VArr t _ => simple t
  | VStruct n _ => ident (tx n)
  | VEnum n _ c z =>
      ident (tx n) /\ ident (tx c) /\ with_type z = Some (LInt z) /\
      lookup_ty (tx (suffixed n)) c_types = RNamed (tx (suffixed n)) /\
      lookup_ty (tx (suffixed n)) cs_types = RNamed (tx (suffixed n)) /\
      tx c <> tx "true" /\ tx c <> tx "false"
  | VBool _ | VRef _ => True
  end.

(** ** What a constant is to mean *)

(** With its type.  The address of a reference, arrays and structs have no
    constant expression to stand for them in a macro of this form. *)
Definition means (v : rval) (c : cval) : Prop :=
  match v with
  | VInt i z => c = CI (ROf i) z
  | VBool b => c = CB b
  | VFloat d f _ => c = CF d f
  | VCInt z => c = CI RCInt z
  | VCChar n => c = CI RChar (Z.of_N n)
  | VNull _ _ | VNone _ => c = CP 0
  | VEnum n _ _ z => c = CI (RNamed (tx (suffixed n))) z
  | VRef _ | VArr _ _ | VStruct _ _ => False
  end.

(** In C#, [int] is [Int32]. *)
Definition cs_means (v : rval) (c : cval) : Prop :=
  match v with
  | VCInt z => c = CI (ROf I32) z
  | VCChar n => c = CI (ROf U8) (Z.of_N n)
  | _ => means v c
  end.

(** Without its type: the same number. *)
Definition means_number (v : rval) (c : cval) : Prop :=
  match v with
  | VInt _ z | VCInt z | VEnum _ _ _ z => exists t, c = CI t z
  | VBool b => exists t, c = CI t (if b then 1 else 0)
  | VCChar n => exists t, c = CI t (Z.of_N n)
  | VFloat _ f _ => c = CF true (convert true f)
  | VNull _ _ | VNone _ => exists t, c = CI t 0
  | VRef _ | VArr _ _ | VStruct _ _ => False
  end.

(** The line of a header declares the constant [name] with the value [v]. *)
Definition c_declares (env : text -> option Z) (w : Z) (line : text) (name : text) (v : rval) : Prop :=
  exists c, read_c env w line = Some (name, c) /\ means v c.
Definition c_declares_number (env : text -> option Z) (w : Z) (line : text) (name : text) (v : rval) : Prop :=
  exists c, read_c env w line = Some (name, c) /\ means_number v c.
Definition cs_declares (native : bool) (line : text) (name : text) (v : rval) : Prop :=
  exists c, read_cs native line = Some (name, c) /\ cs_means v c.

(** ** Which constants are right *)

(** In a C header, with its type. *)
Definition c_right (env : text -> option Z) (v : rval) : Prop :=
  match v with
  | VInt _ z => - 2 ^ 63 < z < 2 ^ 63
  | VBool _ | VCInt _ | VNull _ _ => True
  | VFloat d f form =>
      match form with
      | FNan | FInf _ => False
      | FZero _ => True
      | FDec s _ ds k =>
          d = true \/
          convert false (signed s (round_q true (q10 (in_base 10 ds) (k - Z.of_nat (length ds))))) = f
      end
  | VNone _ => env (tx "None") = Some 0
  | VEnum _ _ c z => env (tx c) = Some z
  | VCChar _ | VRef _ | VArr _ _ | VStruct _ _ => False
  end.

(** In a C header, without its type. *)
Definition c_number_right (env : text -> option Z) (v : rval) : Prop :=
  match v with
  | VInt _ z => - 2 ^ 63 < z < 2 ^ 63
  | VBool _ | VCInt _ | VNull _ _ => True
  | VFloat _ f form =>
      match form with
      | FNan | FInf _ => False
      | FZero _ => True
      | FDec s _ ds k =>
          signed s (round_q true (q10 (in_base 10 ds) (k - Z.of_nat (length ds)))) = convert true f
      end
  | VNone _ => env (tx "None") = Some 0
  | VEnum _ _ c z => env (tx c) = Some z
  | VCChar _ | VRef _ | VArr _ _ | VStruct _ _ => False
  end.

(** In a C# header. *)
Definition cs_right (native : bool) (v : rval) : Prop :=
  match v with
  | VInt Usize z => native = true /\ z < 2 ^ 32
  | VInt Isize z => native = true /\ - 2 ^ 31 <= z < 2 ^ 31
  | VInt _ _ => True
  | VBool _ | VCInt _ => True
  | VFloat d _ form =>
      d = true /\ match form with FNan | FInf _ => False | FZero _ | FDec _ _ _ _ => True end
  | _ => False
  end.
