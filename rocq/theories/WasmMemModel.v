(** Model of the memory that conversions from JavaScript take on wasm.

    Sources (in /repo):
    - src/js/impls.rs 266-349 (pointers), src/layout/macros.rs 160-228 (structs)
    - src/proc_macro/ffi_export/fn_/mod.rs 254-282, 325-331 (the body of a
      function exported to JavaScript)
    - src/js/closures/wasm.rs 148-209 (call_trampoline)
    - napi-dispatcher/wasm/src/lib.rs 28-64, 120-149 (CallContext, Env and its
      cleanup); values.rs 97-112, 144-152, 285 (what throws)

    A Buffer given for a C string or for a slice of bytes is copied into a
    [Box], whose pointer is left in the value; a guard in the environment frees
    it.  The address of a buffer is that of the copy made of it, so each
    occurrence of a buffer has its own.  The values are those of NapiModel; here
    errors are told apart.  A Rust error is returned, and values are dropped on
    the way.  An exception thrown by JavaScript (or by js-sys with
    [unwrap_throw]) leaves the wasm frames without a drop, and so does a panic,
    which is a trap. *)

From Coq Require Import ZArith NArith Bool List String.
From stdpp Require Import base numbers list.
From Verif Require Import JsNumModel NapiModel.
Local Open Scope Z_scope.

Inductive wres (A : Type) := WOk (x : A) | WErr | WThrow | WTrap.
Arguments WOk {A}. Arguments WErr {A}. Arguments WThrow {A}. Arguments WTrap {A}.
Definition mapw {A B} (f : A → B) (r : wres A) : wres B :=
  match r with WOk x => WOk (f x) | WErr => WErr | WThrow => WThrow | WTrap => WTrap end.
(** [throws]: whether an error is an exception. *)
Definition lift {A} (throws : bool) (r : res A) : wres A :=
  match r with Ok x => WOk x | Err => if throws then WThrow else WErr | Panic => WTrap end.

(** A copy: where it is, its bytes. *)
Notation copy := (Z * list N)%type.

(** values.rs 102, 111, 150, 285: a value that is not what it was cast to. *)
Definition throws (str : text → num) (k : kind) (j : js) : bool :=
  match k with
  | KNumber => match to_number str j with None => true | Some _ => false end
  | KBoolean => match to_boolean str j with None => true | Some _ => false end
  | KBuffer => match to_bytes str j with None => true | Some _ => false end
  | KString => negb (has_kind KString j)
  | KUndefined | KUnknown => false
  end.
(** impls.rs 319-348: [type] is read as a string, then [addr] as a number. *)
Definition throws_ptr (str : text → num) (cst : bool) (t : pty) (j : js) : bool :=
  match j with
  | JBuf _ _ => negb (cst && bool_decide (pname t = chars "char"))
  | JObj fs =>
      match get fs (chars "type") with
      | JStr s =>
          bool_decide ((if cst then weaken s else s) = pname (PPtr cst t)) && throws str KNumber (get fs (chars "addr"))
      | _ => true
      end
  | _ => false
  end.

(** from_napi_value: the copies it makes, in order, and its result. *)
Fixpoint from_wasm (chk : bool) (str : text → num) (t : cty) (j : js) {struct t} : list copy * wres val :=
  match t with
  | TPtr cst u =>
      (match j with
       | JBuf a s => if cst && bool_decide (pname u = chars "char") then [(a, s)] else []
       | _ => []
       end,
       mapw VPtr (lift (throws_ptr str cst u j) (from_ptr chk (Wasm str) cst u j)))
  | TStruct u8 fs =>
      match u8, j with
      | true, JBuf a s => ([(a, s)], WOk (VStruct [VPtr a; VInt (Z.of_nat (List.length s)); VUnit]))
      | true, JNull => ([], WOk (VStruct [VPtr 0; VInt 12242944; VUnit]))
      | _, _ =>
          match object_fields (Wasm str) j with
          | None => ([], WErr)
          | Some js =>
              let '(cs, r) :=
                (fix go fs :=
                   match fs with
                   | (n, t) :: fs =>
                       let '(cs, r) := from_wasm chk str t (get js n) in
                       match r with
                       | WOk v => let '(cs', r') := go fs in (cs ++ cs', mapw (cons v) r')
                       | WErr => (cs, WErr)
                       | WThrow => (cs, WThrow)
                       | WTrap => (cs, WTrap)
                       end
                   | [] => ([], WOk [])
                   end) fs in
              (cs, mapw VStruct r)
          end
      end
  | _ => ([], lift (throws str (kind_of (Wasm str) t) j) (from_napi chk (Wasm str) t j))
  end.

(** What happens to memory, and the call of the Rust function. *)
Inductive ev := Alloc (c : copy) | Called (vs : list val) | Free (a : Z).
(** What JavaScript sees: a value; an error that was returned; an exception that
    went through; a trap. *)
Inductive outcome := Gives (j : js) | Fails | Throws | Traps.

(** The drop of an [Env]: its guards, in order. *)
Definition cleanup (cs : list copy) : list ev := map (λ c, Free c.1) cs.

Definition arg (args : list js) (i : nat) : js := default JUndefined (args !! i).
(** fn_/mod.rs 271-281 *)
Fixpoint convert (chk : bool) (str : text → num) (i : nat) (ts : list cty) (args : list js) : list copy * wres (list val) :=
  match ts with
  | [] => ([], WOk [])
  | t :: ts =>
      let '(cs, r) := from_wasm chk str t (arg args i) in
      match r with
      | WOk v => let '(cs', r') := convert chk str (S i) ts args in (cs ++ cs', mapw (cons v) r')
      | WErr => (cs, WErr)
      | WThrow => (cs, WThrow)
      | WTrap => (cs, WTrap)
      end
  end.
(** [__js], fn_/mod.rs 262-285, 325-331: [rust] panics with [None]. *)
Definition call_js (chk : bool) (str : text → num) (fresh : Z) (rust : list val → option val)
    (ts : list cty) (ret : cty) (args : list js) : list ev * outcome :=
  let '(cs, r) := convert chk str 0 ts args in
  match r with
  | WOk vs =>
      match rust vs with
      | Some v =>
          match to_napi (Wasm str) fresh ret v with
          | Ok j => (map Alloc cs ++ [Called vs] ++ cleanup cs, Gives j)
          | Err => (map Alloc cs ++ [Called vs] ++ cleanup cs, Fails)
          | Panic => (map Alloc cs ++ [Called vs], Traps)
          end
      | None => (map Alloc cs ++ [Called vs], Traps)
      end
  | WErr => (map Alloc cs ++ cleanup cs, Fails)
  | WThrow => (map Alloc cs, Throws)
  | WTrap => (map Alloc cs, Traps)
  end.

(** closures/wasm.rs 172-208: what a JS callback returned becomes a value of
    Rust; [env] is dropped when the trampoline returns.  An error panics. *)
Definition returned (chk : bool) (str : text → num) (ret : cty) (r : option js) : list ev * option val :=
  match r with
  | None => ([], None)
  | Some j =>
      let '(cs, v) := from_wasm chk str ret j in
      match v with
      | WOk v => (map Alloc cs ++ cleanup cs, Some v)
      | _ => (map Alloc cs, None)
      end
  end.
