(** Model of field-less enums: [#[derive_ReprC]] on them, the constants printed
    for them in headers, and their JS form.

    Sources (all in /repo/src):
    - proc_macro/derives/repr_c/enum_.rs 15-251  the derive
    - proc_macro/derives/repr_c/enum_.rs 279-372 parse_discriminant_type
    - headers/languages/c.rs 62-125, csharp.rs 53-102, python.rs 22-54
      emit_simple_enum
    - utils/_mod.rs 31-56 screaming_case
    - layout/macros.rs 229-289 JS conversions
    - utils/_mod.rs 14-29, layout/_mod.rs 871-885 from_raw

    Simplifications: identifiers are lists of code points.  Discriminant
    expressions are literals, negation, bitwise not, left shift, addition and
    named constants; their meaning (type checking, literals that get no type
    being [i32], overflow in a constant being a compile error) is that of
    Rust.  Enum definitions are assumed to have distinct variant names. *)

From Coq Require Import ZArith NArith List Bool Lia String Ascii.
From stdpp Require Import base numbers list.

(** ** Integer types *)

Record intty := Int { bits : Z; signed : bool }.
Definition lo (t : intty) : Z := if signed t then (- 2 ^ (bits t - 1))%Z else 0%Z.
Definition hi (t : intty) : Z := if signed t then (2 ^ (bits t - 1) - 1)%Z else (2 ^ bits t - 1)%Z.
Definition fits (t : intty) (z : Z) : bool := ((lo t <=? z) && (z <=? hi t))%Z.
(** [as]: reduce modulo the size. *)
Definition wrap (t : intty) (z : Z) : Z :=
  let m := (z mod 2 ^ bits t)%Z in
  if (signed t && (2 ^ (bits t - 1) <=? m))%Z then (m - 2 ^ bits t)%Z else m.

Definition u8 := Int 8 false.
Definition i32 := Int 32 true.
Definition u32 := Int 32 false.
Definition u64 := Int 64 false.
Definition i64 := Int 64 true.
(** [isize], the type of the discriminants of a [repr(C)] enum; 64-bit
    platforms.  [c_int] is [i32]. *)
Definition isize := i64.
Definition c_int := i32.

(** ** Discriminant expressions *)

Inductive expr :=
| ELit (n : Z)
| ENeg (e : expr)
| ENot (e : expr)
| EShl (e : expr) (k : Z)
| EAdd (a b : expr)
(** a constant of the enum's discriminant type, such as [u8::MAX] *)
| EConst (v : Z).

Definition check (t : intty) (z : Z) : option Z := if fits t z then Some z else None.

(** Value of an expression at an integer type; [None]: does not compile. *)
Fixpoint eval (t : intty) (e : expr) : option Z :=
  match e with
  | ELit n => if (0 <=? n)%Z then check t n else None
  | ENeg e =>
      if signed t then
        match e with
        | ELit n => if (0 <=? n)%Z then check t (- n) else None
        | _ => match eval t e with Some v => check t (- v) | None => None end
        end
      else None
  | ENot e =>
      match eval t e with
      | Some v => Some (if signed t then - v - 1 else 2 ^ bits t - 1 - v)%Z
      | None => None
      end
  | EShl e k =>
      match eval t e with
      | Some v =>
          if ((0 <=? k) && (k <? bits t))%Z then Some (wrap t (v * 2 ^ k)) else None
      | None => None
      end
  | EAdd a b =>
      match eval t a, eval t b with
      | Some x, Some y => check t (x + y)
      | _, _ => None
      end
  | EConst v => check t v
  end.

(** Does the expression contain something that fixes its type? *)
Fixpoint typed (e : expr) : bool :=
  match e with
  | ELit _ => false
  | ENeg e | ENot e | EShl e _ => typed e
  | EAdd a b => typed a || typed b
  | EConst _ => true
  end.

(** ** Enum definitions *)

Notation name := (list N) (only parsing).

(** A word of a [repr] attribute. *)
Inductive reprw := WC | WInt (t : intty).

Record edef := Enum {
  e_name : name;
  e_reprs : list (list reprw);
  e_variants : list (name * option expr);
}.

(** The type rustc gives discriminants in the source: the integer of the
    [repr] attributes, whichever it is in, else [isize]. *)
Fixpoint first_int (ws : list reprw) : option intty :=
  match ws with
  | [] => None
  | WInt t :: _ => Some t
  | WC :: ws => first_int ws
  end.
Definition source_int (d : edef) : intty := default isize (first_int (concat (e_reprs d))).

(** The discriminants: explicit, or one more than the previous, from 0.
    [None]: does not compile. *)
Fixpoint number (t : intty) (next : Z) (vs : list (name * option expr)) : option (list Z) :=
  match vs with
  | [] => Some []
  | (_, e) :: vs =>
      match (match e with Some e => eval t e | None => check t next end) with
      | Some v => match number t (v + 1) vs with Some l => Some (v :: l) | None => None end
      | None => None
      end
  end.
Definition discriminants (d : edef) : option (list Z) := number (source_int d) 0 (e_variants d).

(** The integer rustc stores: the [repr] integer; for [repr(C)] the first of
    [i32], [u32], [i64], [u64] that holds all discriminants. *)
Definition stored_int (d : edef) : intty :=
  match first_int (concat (e_reprs d)) with
  | Some t => t
  | None =>
      let ds := default [] (discriminants d) in
      if forallb (fits i32) ds then i32
      else if forallb (fits u32) ds then u32
      else if forallb (fits i64) ds then i64 else u64
  end.

(** ** The derive *)

(** enum_.rs 279-345: looks at the first [repr] attribute only.  Result: the
    integer handed to the header generator as backing integer, and [Int]. *)
Definition parse_discriminant_type (d : edef) : option (option intty * intty) :=
  match e_reprs d with
  | [] => None
  | ws :: _ =>
      match ws, first_int ws with
      | [], _ => None
      | _, Some t => Some (Some t, t)
      | _, None => Some (None, c_int)
      end
  end.

(** enum_.rs 60-64: no empty enums. *)
Definition derive_int (d : edef) : option intty :=
  match e_variants d with
  | [] => None
  | _ => option_map snd (parse_discriminant_type d)
  end.

Fixpoint codes (s : string) : name :=
  match s with
  | EmptyString => []
  | String c s => N_of_ascii c :: codes s
  end.

Definition names (d : edef) : list name := map fst (e_variants d).
Definition name_eqb (a b : name) : bool := bool_decide (a = b).

(** The constants [const Variant: Int = Enum::Variant as _], enum_.rs 244-246. *)
Definition consts (int : intty) (ds : list Z) : list Z := map (wrap int) ds.

(** enum_.rs 238-248.  The constants are items of the function's body, where
    a constant called [discriminant] shadows the parameter of that name. *)
Definition scrutinee (d : edef) (cs : list Z) (x : Z) : Z :=
  match list_find (λ p : name * Z, fst p = codes "discriminant") (zip (names d) cs) with
  | Some (_, (_, c)) => c
  | None => x
  end.
Definition is_valid (d : edef) (int : intty) (ds : list Z) (x : Z) : bool :=
  existsb (Z.eqb (scrutinee d (consts int ds) x)) (consts int ds).

Inductive outcome := Accepted | Rejected | Panic.

(** from_raw on the C integer [x]. *)
Definition from_raw (d : edef) (x : Z) : outcome :=
  match derive_int d, discriminants d with
  | Some int, Some ds =>
      if is_valid d int ds x then
        if (bits int =? bits (stored_int d))%Z then Accepted else Panic
      else Rejected
  | _, _ => Panic
  end.

(** ** Constants in headers *)

(** What [{value:?}] prints for an explicit discriminant: the value of
    [(expr, ).0] on its own (enum_.rs 141-149). *)
Definition shown (d : edef) (e : expr) : option Z :=
  eval (if typed e then source_int d else i32) e.

Inductive lang := C | CSharp | Python.

(** The enumerators printed: an optional explicit value each (c.rs 95-109,
    csharp.rs 82-96; python.rs 39-49 prints none).  [None]: does not compile. *)
Fixpoint printed (l : lang) (d : edef) (vs : list (name * option expr)) : option (list (option Z)) :=
  match vs with
  | [] => Some []
  | (_, e) :: vs =>
      match
        (match l, e with
         | Python, _ | _, None => Some None
         | _, Some e => option_map Some (shown d e)
         end), printed l d vs
      with
      | Some p, Some ps => Some (p :: ps)
      | _, _ => None
      end
  end.

(** What the header's reader makes of them. *)
Fixpoint enumerators (next : Z) (ps : list (option Z)) : list Z :=
  match ps with
  | [] => []
  | p :: ps => let v := default next p in v :: enumerators (v + 1) ps
  end.

Definition header_values (l : lang) (d : edef) : option (list Z) :=
  option_map (enumerators 0) (printed l d (e_variants d)).

(** ** Names in C and Python headers *)

Definition is_upper (c : N) : bool := ((65 <=? c) && (c <=? 90))%N.
Definition is_lower (c : N) : bool := ((97 <=? c) && (c <=? 122))%N.
Definition to_upper (c : N) : N := if is_lower c then (c - 32)%N else c.
Definition underscore : N := 95.

(** utils/_mod.rs 41-55. *)
Definition screaming_case (a b : name) : name :=
  match a ++ b with
  | [] => []
  | c :: cs =>
      to_upper c ::
      concat (map (fun c => (if is_upper c then [underscore] else []) ++ [to_upper c]) cs)
  end.

(** ** JS *)

(** layout/macros.rs 248-263: a string; [None]: panic. *)
Fixpoint to_js (ns : list name) (cs : list Z) (x : Z) : option name :=
  match ns, cs with
  | n :: ns, c :: cs => if (c =? x)%Z then Some n else to_js ns cs x
  | _, _ => None
  end.
(** layout/macros.rs 265-285; [None]: a JS error. *)
Fixpoint from_js (ns : list name) (cs : list Z) (s : name) : option Z :=
  match ns, cs with
  | n :: ns, c :: cs => if name_eqb n s then Some c else from_js ns cs s
  | _, _ => None
  end.
