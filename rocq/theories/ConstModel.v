(** Model of the constants that [#[ffi_export]] writes in the headers.

    Sources (all in /repo/src):
    - proc_macro/ffi_export/const_.rs 14-43 the arguments, 46-119 the export
    - headers/languages/c.rs 242-269, csharp.rs 241-271, python.rs 157-176
      [emit_constant]
    - layout/impls.rs 24-76 names of the integers, 826-880 [Bool], 887-955
      [c_int] with its [Debug]; c_char.rs 12-25 [c_char] with its derived [Debug]

    The text of a value is what Rust's [{:?}] prints; those texts (of numbers,
    [bool], pointers, derived structs and enums) are the ones the standard
    library documents and are not part of /repo.  For a finite float, [{:?}]
    prints the shortest decimal that rounds to it: the value here carries that
    decimal, and well-formedness asks that it does round to it.

    Simplifications: the documentation comments, the indentation and the
    newlines are left out. *)

From Coq Require Import ZArith NArith List Bool Lia String Ascii.
From Coq.Floats Require Import SpecFloat.
From stdpp Require Import base numbers list.
From Verif Require Import HeaderModel.

Definition text := list ascii.
Definition tx (s : string) : text := list_ascii_of_string s.
(** kept so that texts are compared by position only *)
Definition sp : ascii := " "%char.

(** ** Rust's [{:?}] *)

(** The decimal digits of a number, most significant first ([core::fmt]). *)
Fixpoint digits_fuel (fuel : nat) (n : N) (acc : list N) : list N :=
  match fuel with
  | O => n :: acc
  | S fuel =>
      if (n <? 10)%N then n :: acc
      else digits_fuel fuel (n / 10)%N ((n mod 10)%N :: acc)
  end.
Definition digits (n : N) : list N := digits_fuel (N.to_nat (N.size n)) n [].

Definition dchar (d : N) : ascii := ascii_of_N (48 + d).
Definition dtext (ds : list N) : text := map dchar ds.

(** [Debug] of integers. *)
Definition debug_int (z : Z) : text :=
  match z with
  | Zneg _ => "-"%char :: dtext (digits (Z.abs_N z))
  | _ => dtext (digits (Z.to_N z))
  end.

(** What [{:?}] starts from for a float: not a number, infinite, zero, or the
    digits [d1 d2 …] and the exponent [k] of [0.d1d2… × 10^k], and whether the
    exponent form is used (it is for the very large and the very small). *)
Inductive fform :=
| FNan
| FInf (neg : bool)
| FZero (neg : bool)
| FDec (neg : bool) (expo : bool) (ds : list N) (k : Z).

Definition sign_text (neg : bool) : text := if neg then tx "-" else [].

Definition zeros (n : nat) : list N := repeat 0%N n.

(** [flt2dec]'s decimal form, with at least one digit after the point. *)
Definition dec_text (ds : list N) (k : Z) : text :=
  if (k <=? 0)%Z then tx "0." ++ dtext (zeros (Z.to_nat (- k))) ++ dtext ds
  else if (k <? Z.of_nat (length ds))%Z then
    dtext (take (Z.to_nat k) ds) ++ tx "." ++ dtext (drop (Z.to_nat k) ds)
  else dtext ds ++ dtext (zeros (Z.to_nat k - length ds)) ++ tx ".0".

(** [flt2dec]'s exponent form. *)
Definition exp_text (ds : list N) (k : Z) : text :=
  match ds with
  | [] => []
  | [d] => [dchar d] ++ tx "e" ++ debug_int (k - 1)
  | d :: ds => [dchar d] ++ tx "." ++ dtext ds ++ tx "e" ++ debug_int (k - 1)
  end.

Definition debug_float (f : fform) : text :=
  match f with
  | FNan => tx "NaN"
  | FInf s => sign_text s ++ tx "inf"
  | FZero s => sign_text s ++ tx "0.0"
  | FDec s e ds k => sign_text s ++ (if e then exp_text ds k else dec_text ds k)
  end.

(** ** Values of exported constants *)

Inductive rval :=
| VInt (i : intk) (z : Z)
| VBool (b : bool)
(** [f32] or [f64], the float, the decimal that is printed *)
| VFloat (dbl : bool) (f : spec_float) (form : fform)
(** [safer_ffi::c_int] *)
| VCInt (z : Z)
(** [safer_ffi::c_char] *)
| VCChar (n : N)
(** a null [*const T] or [*mut T] *)
| VNull (const : bool) (t : cty)
(** [&'static T] *)
| VRef (v : rval)
(** [None::<&'static T>] *)
| VNone (t : cty)
| VArr (t : cty) (vs : list rval)
(** a [repr(C)] struct that derives [Debug] *)
| VStruct (name : string) (fs : list (string * rval))
(** a field-less enum that derives [Debug]: name, [repr], variant, discriminant *)
| VEnum (name : string) (int : option intk) (variant : string) (disc : Z).

(** [CLayoutOf<Ty>]. *)
Fixpoint type_of (v : rval) : cty :=
  match v with
  | VInt i _ => TInt i
  | VBool _ => TBool
  | VFloat d _ _ => TFloat d
  | VCInt _ => TCInt
  | VCChar _ => TChar
  | VNull c t => TPtr c t
  | VRef v => TPtr true (type_of v)
  | VNone t => TPtr true t
  | VArr t vs => TArr t (N.of_nat (length vs))
  | VStruct n fs =>
      TStruct n [] ((fix go (l : list (string * rval)) : list (string * cty) :=
                       match l with [] => [] | (f, v) :: l => (f, type_of v) :: go l end) fs)
  | VEnum n i _ _ => TEnum n i
  end.

(** [{:?}]. *)
Fixpoint debug_text (v : rval) : text :=
  match v with
  | VInt _ z => debug_int z
  | VBool b => tx (if b then "true" else "false")
  | VFloat _ _ f => debug_float f
  (* impls.rs 900-907: the integer's *)
  | VCInt z => debug_int z
  (* c_char.rs 14: derived *)
  | VCChar n => tx "c_char(" ++ dtext (digits n) ++ tx ")"
  | VNull _ _ => tx "0x0"
  | VRef v => debug_text v
  | VNone _ => tx "None"
  | VArr _ vs =>
      tx "[" ++
      (fix go (l : list rval) : text :=
         match l with
         | [] => []
         | [v] => debug_text v
         | v :: l => debug_text v ++ tx ", " ++ go l
         end) vs ++ tx "]"
  | VStruct n fs =>
      tx n ++ tx " { " ++
      (fix go (l : list (string * rval)) : text :=
         match l with
         | [] => []
         | [(f, v)] => tx f ++ tx ": " ++ debug_text v
         | (f, v) :: l => tx f ++ tx ": " ++ debug_text v ++ tx ", " ++ go l
         end) fs ++ tx " }"
  | VEnum _ _ c _ => tx c
  end.

(** ** The names of the types, as text *)

Definition tok_text (t : tok) : text :=
  match t with
  | TkId s => tx s
  | TkStar => tx "*"
  | TkLp => tx "("
  | TkRp => tx ")"
  | TkLb => tx "["
  | TkRb => tx "]"
  | TkComma => tx ","
  | TkNum n => dtext (digits n)
  end.
(** The tokens of a name, separated by spaces (the code leaves some spaces
    out, where that does not matter to the reading). *)
Fixpoint toks_text (l : list tok) : text :=
  match l with
  | [] => []
  | [t] => tok_text t
  | t :: l => tok_text t ++ sp :: toks_text l
  end.

(** [ty.name(self)]: layout/_mod.rs 53-91, 98-175. *)
Definition c_name (t : cty) : text := toks_text (c_var t []).
Definition cs_name (t : cty) : text := toks_text (csharp_ty t).

(** ** [emit_constant] *)

(** c.rs 242-269. *)
Definition emit_c (name : text) (untyped : bool) (v : rval) : text :=
  if untyped then tx "#define " ++ name ++ sp :: debug_text v
  else tx "#define " ++ name ++ tx " ((" ++ c_name (type_of v) ++ tx ") " ++ debug_text v ++ tx ")".

(** csharp.rs 241-271, the line within the class; [None] when the constant is
    skipped. *)
Definition emit_cs (name : text) (untyped : bool) (v : rval) : option text :=
  if untyped then None
  else Some (tx "public const " ++ cs_name (type_of v) ++ sp :: name ++ tx " = " ++ debug_text v ++ tx ";").

(** python.rs 157-176: cffi's "find out from the C compiler". *)
Definition emit_py (name : text) (untyped : bool) (v : rval) : text :=
  tx "#define " ++ name ++ tx " ...".
