(** Specification of the memory that conversions take on wasm. *)

From Coq Require Import ZArith NArith Bool List String.
From stdpp Require Import base numbers list.
From Verif Require Import JsNumModel NapiModel WasmMemModel.
Local Open Scope Z_scope.

(** The buffers a value of a type borrows from, in order. *)
Fixpoint buffers (t : cty) (j : js) {struct t} : list copy :=
  match t, j with
  | TPtr true u, JBuf a s => if bool_decide (pname u = chars "char") then [(a, s)] else []
  | TStruct true _, JBuf a s => [(a, s)]
  | TStruct _ fs, JObj l =>
      (fix go fs := match fs with [] => [] | f :: fs => buffers f.2 (get l f.1) ++ go fs end) fs
  | _, _ => []
  end.
(** The value points to copies, in memory, of what it borrows from. *)
Fixpoint points (mem : list copy) (t : cty) (j : js) (v : val) {struct t} : Prop :=
  match t, j with
  | TPtr true u, JBuf _ s => pname u = chars "char" → ∃ a, v = VPtr a ∧ (a, s) ∈ mem
  | TStruct true _, JBuf _ s =>
      ∃ a, v = VStruct [VPtr a; VInt (Z.of_nat (List.length s)); VUnit] ∧ (a, s) ∈ mem
  | TStruct _ fs, JObj l =>
      ∃ vs, v = VStruct vs ∧
        (fix go fs vs :=
           match fs, vs with
           | [], [] => True
           | f :: fs, v :: vs => points mem f.2 (get l f.1) v ∧ go fs vs
           | _, _ => False
           end) fs vs
  | _, _ => True
  end.

(** The memory after some events: what was allocated and not freed. *)
Fixpoint live (es : list ev) (mem : list copy) : list copy :=
  match es with
  | [] => mem
  | Alloc c :: es => live es (c :: mem)
  | Free a :: es => live es (List.filter (λ c, negb (c.1 =? a)) mem)
  | Called _ :: es => live es mem
  end.
Definition allocs (es : list ev) : list copy := flat_map (λ e, match e with Alloc c => [c] | _ => [] end) es.
Definition frees (es : list ev) : list Z := flat_map (λ e, match e with Free a => [a] | _ => [] end) es.
Definition erase {A} (r : wres A) : res A :=
  match r with WOk x => Ok x | WErr | WThrow => Err | WTrap => Panic end.

(** JavaScript itself cannot make of the value what the type asks for: there is
    no number in a BigInt, no method in null and undefined, no string in anything
    but a string.  (All other values that are not accepted are refused by
    [safer_ffi].) *)
Definition takes (chk : bool) (str : text → num) (t : cty) (j : js) : Prop := ∃ v, from_napi chk (Wasm str) t j = Ok v.
Definition properties (j : js) : option (list (text * js)) :=
  match j with JObj l => Some l | JBuf _ _ | JFun => Some [] | _ => None end.
Fixpoint raises (chk : bool) (str : text → num) (t : cty) (j : js) {struct t} : Prop :=
  match t with
  | TSmall _ _ | TFloat _ | TSize _ => ∃ z, j = JBig z
  | TBool => j = JNull ∨ j = JUndefined ∨ ∃ z, j = JBig z
  | TBytes _ => to_bytes str j = None
  | TEnum _ => ¬ ∃ s, j = JStr s
  | T64 _ | TVoid => False
  | TPtr cst u =>
      match j with
      | JBuf _ _ => ¬ (cst = true ∧ pname u = chars "char")
      | JObj l =>
          match get l (chars "type") with
          | JStr s => (if cst then weaken s else s) = pname (PPtr cst u) ∧ ∃ z, get l (chars "addr") = JBig z
          | _ => True
          end
      | _ => False
      end
  | TStruct u8 fs =>
      match u8, j with
      | true, JBuf _ _ => False
      | _, _ =>
          match properties j with
          | Some l =>
              (fix first fs :=
                 match fs with
                 | [] => False
                 | f :: fs => raises chk str f.2 (get l f.1) ∨ takes chk str f.2 (get l f.1) ∧ first fs
                 end) fs
          | None => False
          end
      end
  end.
