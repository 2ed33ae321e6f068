(** Model of the conversions of numbers between Rust and JavaScript.

    Sources (in /repo):
    - src/js/impls.rs 6-68 (8, 16 and 32 bits, floating point), 70-178 (64 bits),
      180-210 (usize, isize)
    - napi-dispatcher/wasm/src/values.rs 6-93 (BigInt on wasm), 133-161
      (numbers on wasm)
    - src/js/ffi_helpers.rs 258-275 (withOutU64)

    On Node.js the conversions are those of N-API: napi_get_value_uint32 and
    _int32 are ECMAScript's ToUint32 and ToInt32, _int64 truncates, with 0 for
    what is not finite; _bigint_int64 and _uint64 wrap and tell whether that
    was lossless.  On wasm they are Rust's [as], which truncates and
    saturates. *)

From Coq Require Import ZArith Bool List Lia.
From stdpp Require Import base numbers list.
Local Open Scope Z_scope.

(** ** Floating point *)

(** [Fin neg m e] is [m * 2^e] or its opposite; there are two zeros. *)
Inductive num := NaN | Inf (neg : bool) | Fin (neg : bool) (m e : Z).

Record fmt := Fmt { prec : Z; emin : Z; emax : Z }.
Definition f64 : fmt := Fmt 53 (-1074) 1024.
Definition f32 : fmt := Fmt 24 (-149) 128.

Definition digits (m : Z) : Z := if m =? 0 then 0 else Z.log2 m + 1.
(** The exponent that a number with [digits] and exponent has in a format. *)
Definition fexp (f : fmt) (d : Z) : Z := Z.max (emin f) (d - prec f).
(** The value [m * 2^e] at exponent [e'], to the nearest, ties to even. *)
Definition shift (m e e' : Z) : Z :=
  if e' <=? e then m * 2 ^ (e - e')
  else
    let d := 2 ^ (e' - e) in
    let q := m / d in let r := m mod d in
    if (2 * r >? d) || ((2 * r =? d) && Z.odd q) then q + 1 else q.
(** Rust's [as] between floating point types. *)
Definition round (f : fmt) (x : num) : num :=
  match x with
  | Fin neg m e =>
      if m =? 0 then Fin neg 0 (emin f)
      else
        let e' := fexp f (digits m + e) in
        let m' := shift m e e' in
        let '(m', e') := if m' =? 2 ^ prec f then (2 ^ (prec f - 1), e' + 1) else (m', e') in
        if emax f <? e' + prec f then Inf neg
        else if m' =? 0 then Fin neg 0 (emin f) else Fin neg m' e'
  | _ => x
  end.
(** The values of a type, each in one way. *)
Definition canon (f : fmt) (x : num) : Prop :=
  match x with
  | Fin _ m e => 0 ≤ m < 2 ^ prec f ∧ e + prec f ≤ emax f ∧ e = if m =? 0 then emin f else fexp f (digits m + e)
  | _ => True
  end.
(** [==] *)
Definition num_eqb (x y : num) : bool :=
  match x, y with
  | Inf a, Inf b => eqb a b
  | Fin a m e, Fin b m' e' => (m =? m') && (e =? e') && ((m =? 0) || eqb a b)
  | _, _ => false
  end.

(** ** Integers *)

(** Rounding towards zero. *)
Definition trunc (neg : bool) (m e : Z) : Z :=
  let a := if 0 <=? e then m * 2 ^ e else m / 2 ^ (- e) in
  if neg then - a else a.
Definition of_Z (z : Z) : num := round f64 (Fin (z <? 0) (Z.abs z) 0).

Definition lo (signed : bool) (bits : Z) : Z := if signed then - 2 ^ (bits - 1) else 0.
Definition hi (signed : bool) (bits : Z) : Z := if signed then 2 ^ (bits - 1) - 1 else 2 ^ bits - 1.
Definition fits (signed : bool) (bits z : Z) : bool := (lo signed bits <=? z) && (z <=? hi signed bits).
(** Rust's [as] between integer types. *)
Definition wrap (signed : bool) (bits z : Z) : Z :=
  let u := z mod 2 ^ bits in
  if signed && (2 ^ (bits - 1) <=? u) then u - 2 ^ bits else u.
(** Rust's [as] from f64. *)
Definition saturate (signed : bool) (bits : Z) (x : num) : Z :=
  match x with
  | NaN => 0
  | Inf neg => if neg then lo signed bits else hi signed bits
  | Fin neg m e => Z.max (lo signed bits) (Z.min (trunc neg m e) (hi signed bits))
  end.

(** ** Platforms *)

(** [beyond]: what napi_get_value_int64 gives beyond 64 bits, which depends on
    the version; [ptr]: the bits of usize; [str]: the number that JavaScript
    takes a string (in UTF-8) for. *)
Inductive plat := Node (beyond : Z → Z) (ptr : Z) | Wasm (str : list N → num).

(** [TryFrom<JsNumber>] for u32, i32, i64. *)
Definition get32 (p : plat) (signed : bool) (x : num) : Z :=
  match p with
  | Node _ _ => match x with Fin neg m e => wrap signed 32 (trunc neg m e) | _ => 0 end
  | Wasm _ => saturate signed 32 x
  end.
Definition get_i64 (p : plat) (x : num) : Z :=
  match p with
  | Node beyond _ =>
      match x with
      | Fin neg m e => let z := trunc neg m e in if fits true 64 z then z else wrap true 64 (beyond z)
      | _ => 0
      end
  | Wasm _ => saturate true 64 x
  end.

Inductive res (A : Type) := Ok (v : A) | Err | Panic.
Arguments Ok {A} v.
Arguments Err {A}.
Arguments Panic {A}.

(** impls.rs 33-64.  [bits] is 8, 16 or 32. *)
Definition from_small (p : plat) (signed : bool) (bits : Z) (x : num) : res Z :=
  let n := get32 p signed x in
  let n_mb_smaller := wrap signed bits n in
  if wrap signed 32 n_mb_smaller =? n then Ok n_mb_smaller else Err.
Definition to_small (signed : bool) (bits : Z) (z : Z) : res num :=
  if fits signed 32 z then Ok (of_Z z) else Err.

(** The same for f32 and f64, where [n as _ != n]. *)
Definition from_float (f : fmt) (x : num) : res num :=
  let n_mb_smaller := round f x in
  if num_eqb (round f64 n_mb_smaller) x then Ok n_mb_smaller else Err.
Definition to_float (f : fmt) (x : num) : res num := Ok (round f64 x).

(** Numbers and BigInts; [Other] is what is neither. *)
Inductive nval := Number (x : num) | BigInt (z : Z) | Other.

Definition MAX_SAFE_INTEGER : Z := 2 ^ 53 - 1.
Definition MIN_SAFE_INTEGER : Z := - (2 ^ 53 - 1).

(** [JsBigint::get_i64] and [get_u64]: the value, and whether lossless.  On
    wasm, values.rs 42-84: small ones through numbers, others printed and
    parsed. *)
Definition get_big (p : plat) (signed : bool) (z : Z) : res (Z * bool) :=
  match p with
  | Node _ _ => Ok (wrap signed 64 z, fits signed 64 z)
  | Wasm _ =>
      if (- MAX_SAFE_INTEGER <=? z) && (z <=? MAX_SAFE_INTEGER)
      then Ok (saturate signed 64 (of_Z z), true)
      else if fits signed 64 z then Ok (z, true) else Err
  end.
(** impls.rs 81-121 *)
Definition from_64 (p : plat) (signed : bool) (v : nval) : res Z :=
  match v with
  | BigInt z =>
      match get_big p signed z with
      | Ok (z, was_lossless) => if was_lossless then Ok z else Err
      | Err => Err
      | Panic => Panic
      end
  | Number x => let i := get_i64 p x in if fits signed 64 i then Ok i else Err
  | Other => Err
  end.
(** impls.rs 123-176; [create_bigint_from_words] takes a sign and the digits
    to base 2^64, the least first. *)
Definition from_words (neg : bool) (ws : list Z) : Z :=
  let u := fold_right (λ w acc, w + 2 ^ 64 * acc) 0 ws in if neg then - u else u.
Definition to_64 (p : plat) (z : Z) : res nval :=
  if (MIN_SAFE_INTEGER <=? z) && (z <=? MAX_SAFE_INTEGER)
  then if fits true 64 z then Ok (Number (of_Z z)) else Panic   (* "Unreachable" *)
  else
    match p with
    | Node _ _ =>
        let is_negative := z <? 0 in
        let u128 := if is_negative then - z else z in
        Ok (BigInt (from_words is_negative [wrap false 64 u128; wrap false 64 (u128 / 2 ^ 64)]))
    | Wasm _ => Ok (BigInt z)   (* through a string *)
    end.
(** impls.rs 180-210, and 11-15 on wasm. *)
Definition size_bits (p : plat) : Z := match p with Node _ ptr => ptr | Wasm _ => 32 end.
Definition from_size (p : plat) (signed : bool) (v : nval) : res Z :=
  match p with
  | Node _ ptr =>
      match from_64 p signed v with
      | Ok z => if fits signed ptr z then Ok z else Err
      | r => r
      end
  | Wasm _ => match v with Number x => from_small p signed 32 x | _ => Err end
  end.
Definition to_size (p : plat) (signed : bool) (z : Z) : res nval :=
  match p with
  | Node _ _ => to_64 p z
  | Wasm _ => match to_small signed 32 z with Ok x => Ok (Number x) | Err => Err | Panic => Panic end
  end.

(** ffi_helpers.rs 258-275: what is returned when [z] has been written. *)
Definition with_out_u64 (p : plat) (z : Z) : res nval := to_64 p (wrap true 64 z).
