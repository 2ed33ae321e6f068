(** Model of the conversions of C types between Rust and JavaScript.

    Sources (in /repo/src):
    - js/impls.rs 212-352 (pointers), 354-389 (void), 391-407 (arrays of bytes)
    - layout/impls.rs 792-823 (Bool), 592-620 and 658-684 (names of pointers)
    - layout/macros.rs 96-228 (structs), 229-295 (enums)
    - js/ffi_helpers.rs 47-89 (withCString), 91-126 (withCBytes), 128-148
      (boxCStringIntoString)
    - napi-dispatcher/wasm/src/values.rs, utils.rs 42-51, 80-110 (checks and
      casts on wasm); napi for Node.js, js-sys and wasm-bindgen as documented

    Objects are lists of named properties, without getters or prototypes;
    buffers have an address, on wasm that of the copy, and no properties of
    interest, nor have functions.  On Node.js a value of another kind than that
    expected is an error.  On wasm it is cast without a check, and what comes of
    it is up to JavaScript: see [extract].  There, functions take no arguments
    (their [length] is 0), objects with a [length] that is negative or too large
    for memory are refused, and errors are exceptions or Rust's errors alike.
    JS strings are given by their UTF-8.
    Pointers to functions have other names and are left out. *)

From Coq Require Import ZArith NArith Bool List Ascii String.
From stdpp Require Import base numbers list.
From Verif Require Import CStrModel JsNumModel.
Local Open Scope Z_scope.

Notation text := (list N).
Definition chars (s : string) : text := map N_of_ascii (list_ascii_of_string s).

Inductive js :=
| JNum (x : num) | JBig (z : Z) | JBool (b : bool) | JNull | JUndefined
| JStr (s : text) | JBuf (addr : Z) (bytes : list N) | JObj (fields : list (text * js)) | JFun.

(** ** Names of pointer types *)

(** What pointers point to: a type with a name, or a pointer. *)
Inductive pty := PBase (name : text) | PPtr (cst : bool) (to : pty).
(** layout/impls.rs 613-618, 679-684, and js/impls.rs 236-243 *)
Fixpoint pname (t : pty) : text :=
  match t with
  | PBase n => n
  | PPtr cst t => (pname t ++ chars (if cst then " const *" else " *"))%list
  end.
(** [str::replace] *)
Fixpoint starts (pat s : text) : bool :=
  match pat, s with
  | [], _ => true
  | a :: pat, b :: s => (a =? b)%N && starts pat s
  | _, [] => false
  end.
Fixpoint replace (pat rep : text) (skip : nat) (s : text) : text :=
  match s with
  | [] => []
  | c :: s' =>
      match skip with
      | S k => replace pat rep k s'
      | O => if starts pat s then (rep ++ replace pat rep (List.length pat - 1) s')%list else c :: replace pat rep 0 s'
      end
  end.
(** js/impls.rs 325-329 *)
Definition weaken (s : text) : text :=
  replace (chars " *") (chars " const *") 0 (replace (chars "const *") (chars "*") 0 s).

(** Objects *)
Definition get (fs : list (text * js)) (k : text) : js :=
  match List.find (λ f, bool_decide (f.1 = k)) fs with Some f => f.2 | None => JUndefined end.

(** ** Values of another kind *)

(** The JavaScript types that are expected. *)
Inductive kind := KNumber | KBoolean | KUndefined | KBuffer | KString | KUnknown.
Definition has_kind (k : kind) (j : js) : bool :=
  match k, j with
  | KNumber, JNum _ | KBoolean, JBool _ | KUndefined, JUndefined | KBuffer, JBuf _ _ | KString, JStr _ | KUnknown, _ => true
  | _, _ => false
  end.
(** [js_number.__wasm.into::<f64>()], values.rs 150: JavaScript's unary [+].
    Objects have neither a [valueOf] nor a [toString] of their own, buffers
    print their bytes separated by commas; BigInts throw. *)
Definition to_number (str : text → num) (j : js) : option num :=
  match j with
  | JNum x => Some x
  | JBig _ => None
  | JBool b => Some (of_Z (if b then 1 else 0))
  | JNull => Some (of_Z 0)
  | JUndefined => Some NaN
  | JStr s => Some (str s)
  | JBuf _ [] => Some (of_Z 0)
  | JBuf _ [b] => Some (of_Z (Z.of_N b))
  | JBuf _ _ | JObj _ | JFun => Some NaN
  end.
(** [self.__wasm.value_of()], values.rs 97-103: the method [valueOf], which
    null and undefined lack, then the conversion to an i32, nonzero for true. *)
Definition to_boolean (str : text → num) (j : js) : option bool :=
  match j with
  | JBool b => Some b
  | JNull | JUndefined => None
  | _ =>
      match to_number str j with
      | Some (Fin neg m e) => Some (negb (wrap true 32 (trunc neg m e) =? 0))
      | Some _ => Some false
      | None => None
      end
  end.
(** [self.__wasm.to_vec()], values.rs 106-112: as many bytes as the property
    [length] says, copied by [Uint8Array.prototype.set], which reads the elements
    as numbers, modulo 256. *)
Definition to_u8 (x : num) : N :=
  match x with Fin neg m e => Z.to_N (wrap false 8 (trunc neg m e)) | _ => 0%N end.
Fixpoint decimal_fuel (fuel : nat) (n : N) (acc : text) : text :=
  match fuel with
  | O => (n + 48)%N :: acc
  | S fuel => if (n <? 10)%N then (n + 48)%N :: acc else decimal_fuel fuel (n / 10)%N ((n mod 10 + 48)%N :: acc)
  end.
Definition decimal (n : N) : text := decimal_fuel (N.size_nat n) n [].
Fixpoint elements (str : text → num) (fs : list (text * js)) (i : N) (n : nat) : option (list N) :=
  match n with
  | O => Some []
  | S n =>
      match to_number str (get fs (decimal i)) with
      | Some x => option_map (cons (to_u8 x)) (elements str fs (i + 1)%N n)
      | None => None
      end
  end.
(** The elements of a string are its UTF-16 units, of which only digits are
    numbers other than zero. *)
Definition units (b : N) : list N :=
  if (b <? 128)%N then [if (48 <=? b)%N && (b <=? 57)%N then (b - 48)%N else 0%N]
  else if (b <? 192)%N then [] else if (b <? 240)%N then [0%N] else [0%N; 0%N].
Definition to_bytes (str : text → num) (j : js) : option (list N) :=
  match j with
  | JBuf _ s => Some s
  | JStr s => Some (flat_map units s)
  | JNull | JUndefined => None
  | JObj fs =>
      match to_number str (get fs (chars "length")) with
      | Some (Fin neg m e) =>
          let length := trunc neg m e in
          if (0 <=? length) && (length <? 2 ^ 32) then elements str fs 0 (Z.to_nat length) else None
      | Some NaN => Some []
      | _ => None
      end
  | JNum _ | JBig _ | JBool _ | JFun => Some []
  end.
(** A value as one of the kind expected: [ctx.get] and [get_named_property], on
    wasm (values.rs 181-192) with what the conversion then reads; strings are
    checked by [String::from], values.rs 285. *)
Definition extract (p : plat) (k : kind) (j : js) : option js :=
  match p, k with
  | Wasm str, KNumber => option_map JNum (to_number str j)
  | Wasm str, KBoolean => option_map JBool (to_boolean str j)
  | Wasm _, KUndefined => Some JUndefined
  | Wasm str, KBuffer => match j with JBuf _ _ => Some j | _ => option_map (JBuf 0) (to_bytes str j) end
  | _, _ => if has_kind k j then Some j else None
  end.

(** ** Pointers *)

Definition nval_of (j : js) : nval :=
  match j with JNum x => Number x | JBig z => BigInt z | _ => Other end.
Definition js_of (v : nval) : js :=
  match v with Number x => JNum x | BigInt z => JBig z | Other => JUndefined end.

(** js/impls.rs 226-248 *)
Definition to_ptr (p : plat) (cst : bool) (t : pty) (addr : Z) : res js :=
  if addr =? 0 then Ok JNull
  else
    match to_size p false addr with
    | Ok a => Ok (JObj [(chars "addr", js_of a); (chars "type", JStr (pname (PPtr cst t)))])
    | Err => Err
    | Panic => Panic
    end.
(** The associated types NapiValue of usize, isize: js/impls.rs 11-15, 28, 181. *)
Definition size_kind (p : plat) : kind := match p with Wasm _ => KNumber | Node _ _ => KUnknown end.
(** The position of the first NUL. *)
Fixpoint nul_pos (s : list N) : option nat :=
  match s with [] => None | b :: s => if (b =? 0)%N then Some O else option_map S (nul_pos s) end.
(** js/impls.rs 270-313.  [buf.len() - 1] panics for an empty buffer if
    overflow is checked, and otherwise is no position. *)
Definition from_buf (checks : bool) (addr : Z) (buf : list N) : res Z :=
  if utf8 buf then
    match buf with
    | [] => if checks then Panic else Err
    | _ => if bool_decide (nul_pos buf = Some (List.length buf - 1)%nat) then Ok addr else Err
    end
  else Err.
(** js/impls.rs 264-348.  [c_char] is the type called char. *)
Definition from_ptr (checks : bool) (p : plat) (cst : bool) (t : pty) (j : js) : res Z :=
  match j with
  | JNull => Ok 0
  | JBuf a bs =>
      if cst && bool_decide (pname t = chars "char") then from_buf checks a bs else Err   (* no property [type] *)
  | JObj fs =>
      match get fs (chars "type") with
      | JStr actual_ty =>
          let expected_ty := pname (PPtr cst t) in
          let actual_ty := if cst then weaken actual_ty else actual_ty in
          if bool_decide (actual_ty = expected_ty) then
            match extract p (size_kind p) (get fs (chars "addr")) with
            | Some addr => from_size p false (nval_of addr)
            | None => Err
            end
          else Err
      | _ => Err
      end
  | _ => Err
  end.

(** ** Types *)

Inductive cty :=
| TSmall (signed : bool) (bits : Z) | T64 (signed : bool) | TSize (signed : bool)
| TFloat (single : bool) | TBool | TVoid | TBytes (n : nat) | TPtr (cst : bool) (to : pty)
| TEnum (variants : list (text * Z))
| TStruct (slice_ref_u8 : bool) (fields : list (text * cty)).
Inductive val :=
| VInt (z : Z) | VFloat (x : num) | VUnit | VBytes (s : list N) | VPtr (addr : Z) | VStruct (vs : list val).

(** The associated types NapiValue. *)
Definition kind_of (p : plat) (t : cty) : kind :=
  match t with
  | TSmall _ _ | TFloat _ => KNumber
  | TSize _ => size_kind p
  | TBool => KBoolean
  | TVoid => KUndefined
  | TBytes _ => KBuffer
  | TEnum _ => KString
  | T64 _ | TPtr _ _ | TStruct _ _ => KUnknown
  end.

Definition mapr {A B} (f : A → B) (r : res A) : res B :=
  match r with Ok x => Ok (f x) | Err => Err | Panic => Panic end.

(** [JsObject::try_from]; on wasm, utils.rs 49, instances of Object. *)
Definition object_fields (p : plat) (j : js) : option (list (text * js)) :=
  match j with
  | JObj fs => Some fs
  | JBuf _ _ => Some []
  | JFun => match p with Wasm _ => Some [] | Node _ _ => None end
  | _ => None
  end.

(** [fresh] is where a new buffer lies. *)
Fixpoint to_napi (p : plat) (fresh : Z) (t : cty) (v : val) {struct t} : res js :=
  match t, v with
  | TSmall signed bits, VInt z => mapr JNum (to_small signed bits z)
  | T64 _, VInt z => mapr js_of (to_64 p z)
  | TSize signed, VInt z => mapr js_of (to_size p signed z)
  | TFloat single, VFloat x => mapr JNum (to_float (if single then f32 else f64) x)
  | TBool, VInt b => if b =? 0 then Ok (JBool false) else if b =? 1 then Ok (JBool true) else Panic
  | TVoid, VUnit => Ok JUndefined
  | TBytes _, VBytes s => Ok (JBuf fresh s)
  | TPtr cst t, VPtr a => to_ptr p cst t a
  | TEnum vs, VInt z => match List.find (λ v, v.2 =? z) vs with Some v => Ok (JStr v.1) | None => Panic end
  | TStruct _ fs, VStruct vs =>
      mapr JObj
        ((fix go fs vs :=
            match fs, vs with
            | (n, t) :: fs, v :: vs =>
                match to_napi p fresh t v with
                | Ok j => match go fs vs with Ok js => Ok ((n, j) :: js) | r => r end
                | Err => Err
                | Panic => Panic
                end
            | _, _ => Ok []
            end) fs vs)
  | _, _ => Err
  end.

Fixpoint from_napi (checks : bool) (p : plat) (t : cty) (j : js) {struct t} : res val :=
  match extract p (kind_of p t) j with None => Err | Some j =>
  match t with
  | TSmall signed bits => match j with JNum x => mapr VInt (from_small p signed bits x) | _ => Err end
  | T64 signed => mapr VInt (from_64 p signed (nval_of j))
  | TSize signed => mapr VInt (from_size p signed (nval_of j))
  | TFloat single => match j with JNum x => mapr VFloat (from_float (if single then f32 else f64) x) | _ => Err end
  | TBool => match j with JBool b => Ok (VInt (if b then 1 else 0)) | _ => Err end
  | TVoid => Ok VUnit
  | TBytes n => match j with JBuf _ s => if (List.length s =? n)%nat then Ok (VBytes s) else Err | _ => Err end
  | TPtr cst t => mapr VPtr (from_ptr checks p cst t j)
  | TEnum vs =>
      match j with
      | JStr s => match List.find (λ v, bool_decide (v.1 = s)) vs with Some v => Ok (VInt v.2) | None => Err end
      | _ => Err
      end
  | TStruct u8 fs =>
      match u8, j with
      | true, JBuf a s => Ok (VStruct [VPtr a; VInt (Z.of_nat (List.length s)); VUnit])
      | true, JNull => Ok (VStruct [VPtr 0; VInt 12242944; VUnit])   (* 0xbad000 *)
      | _, _ =>
          match object_fields p j with None => Err | Some js =>
          mapr VStruct
            ((fix go fs :=
                match fs with
                | (n, t) :: fs =>
                    match from_napi checks p t (get js n) with
                    | Ok v => match go fs with Ok vs => Ok (v :: vs) | r => r end
                    | Err => Err
                    | Panic => Panic
                    end
                | [] => Ok []
                end) fs)
          end
      end
  end end.

(** ** Strings *)

(** js/ffi_helpers.rs 47-89: what the C string given to the callback points
    to, [None] for a null pointer.  The string as UTF-8 is [s]. *)
Definition with_c_string (j : js) : res (option (list N)) :=
  match j with
  | JNull => Ok None
  | JStr s =>
      match nul_pos s with
      | Some n => if (n =? List.length s - 1)%nat then Ok (Some s) else Err
      | None => Ok (Some (s ++ [0%N])%list)
      end
  | _ => Err
  end.
(** js/ffi_helpers.rs 91-126: pointer and length. *)
Definition with_c_bytes (j : js) : res (Z * Z) :=
  match j with
  | JBuf a s => Ok (a, Z.of_nat (List.length s))
  | JNull => Ok (0, 12242944)
  | _ => Err
  end.
(** C's view of a pointer to bytes, and js/ffi_helpers.rs 128-148, 187-209,
    where char_p panics or is undefined if these are no UTF-8. *)
Fixpoint c_string (s : list N) : option (list N) :=
  match s with [] => None | b :: s => if (b =? 0)%N then Some [] else option_map (cons b) (c_string s) end.
Definition c_string_to_js (s : option (list N)) : option js :=
  match s with None => Some JNull | Some s => option_map JStr (c_string s) end.
