(** What a user of the C-string types expects: every value is just an immutable byte string.
    Nothing here looks at memory.  The only things shared with the model are the list of operations and
    the shape of their results (and [utf8], which is the standard library's notion of validity). *)

From stdpp Require Import base numbers list.
From Verif Require Import CStrModel.
Local Open Scope N_scope.

(** No NUL, except possibly as the last byte. *)
Definition no_inner_nul (s : list N) : Prop := 0 ∉ removelast s.
Global Instance no_inner_nul_dec s : Decision (no_inner_nul s).
Proof. unfold no_inner_nul. apply _. Defined.

(** The string without its final NUL, if it has one. *)
Definition strip (s : list N) : list N :=
  if decide (last s = Some 0) then removelast s else s.

(** Strings a borrowed C string can be made of without copying: empty, or NUL-terminated. *)
Definition terminated (s : list N) : Prop := s = [] ∨ (last s = Some 0 ∧ no_inner_nul s).
Global Instance terminated_dec s : Decision (terminated s).
Proof. unfold terminated. apply _. Defined.

Inductive aval :=
  | AString (s : list N)
  | AVec (s : list N)
  | ACString (s : list N)
  | ABoxed (s : list N)
  | AArc (s : list N)
  | AShared (s : list N).

Notation astate := (list (option aval)).
Definition anew (vs : astate) (a : aval) : option res * astate := (Some (RNew (length vs)), vs ++ [Some a]).
Definition agone (vs : astate) (h : nat) : astate := <[h := None]> vs.
Definition aill (vs : astate) : option res * astate := (Some RIll, vs).

(** The expected result ([None]: a panic) and the values afterwards. *)
Definition expected (vs : astate) (o : op) : option res * astate :=
  match o with
  | NewString s _ => anew vs (AString s)
  | NewVec s _ => anew vs (AVec s)
  | NewCString s => if decide (0 ∈ s) then (Some RFail, vs) else anew vs (ACString s)
  | TryFromString h =>
    match vs !! h with
    | Some (Some (AString s)) =>
      if decide (no_inner_nul s) then anew (agone vs h) (ABoxed (strip s)) else (Some (RErr h), vs)
    | _ => aill vs
    end
  | NewFromString h =>
    match vs !! h with
    | Some (Some (AString s)) =>
      if decide (no_inner_nul s) then anew (agone vs h) (ABoxed (strip s)) else (None, agone vs h)
    | _ => aill vs
    end
  | NewFromStr h =>
    match vs !! h with
    | Some (Some (AString s)) =>
      if decide (no_inner_nul s) then anew vs (ABoxed (strip s)) else (None, vs)
    | _ => aill vs
    end
  | FromCString h =>
    match vs !! h with
    | Some (Some (ACString s)) =>
      if utf8 s then anew (agone vs h) (ABoxed s) else (None, agone vs h)
    | _ => aill vs
    end
  | NewFromCStr h =>
    match vs !! h with
    | Some (Some (ACString s)) => if utf8 s then anew vs (ABoxed s) else (None, vs)
    | _ => aill vs
    end
  | DropIt h =>
    match vs !! h with
    | Some (Some _) => (Some RUnit, agone vs h)
    | _ => aill vs
    end
  | CloneIt h =>
    match vs !! h with
    | Some (Some (ABoxed s)) => anew vs (ABoxed s)
    | Some (Some (AArc s)) => anew vs (AArc s)
    | Some (Some (AShared s)) => anew vs (AShared s)
    | _ => aill vs
    end
  | IntoVec h =>
    match vs !! h with
    | Some (Some (ABoxed s)) => anew (agone vs h) (AVec s)
    | _ => aill vs
    end
  | IntoString h =>
    match vs !! h with
    | Some (Some (ABoxed s)) => anew (agone vs h) (AString s)
    | _ => aill vs
    end
  | ToBytes h =>
    match vs !! h with
    | Some (Some (ABoxed s)) => (Some (RBytes s), vs)
    | _ => aill vs
    end
  | ToBytesWithNull h | ToStrWithNull h =>
    match vs !! h with
    | Some (Some (ABoxed s)) => (Some (RBytes (s ++ [0])), vs)
    | _ => aill vs
    end
  | ToStr h =>
    match vs !! h with
    | Some (Some (ABoxed s)) | Some (Some (AShared s)) => (Some (RBytes s), vs)
    | _ => aill vs
    end
  | EqBoxed h1 h2 =>
    match vs !! h1, vs !! h2 with
    | Some (Some (ABoxed s1)), Some (Some (ABoxed s2)) => (Some (RBool (bool_decide (s1 = s2))), vs)
    | _, _ => aill vs
    end
  | ReadBuf h =>
    match vs !! h with
    | Some (Some (AString s)) | Some (Some (AVec s)) => (Some (RBytes s), vs)
    | _ => aill vs
    end
  | RefOfString h =>
    match vs !! h with
    | Some (Some (AString s)) =>
      (Some (if decide (terminated s) then RBytes (strip s) else RFail), vs)
    | _ => aill vs
    end
  | ArcFromCString h =>
    match vs !! h with
    | Some (Some (ACString s)) => anew (agone vs h) (AArc s)
    | _ => aill vs
    end
  | SharedFromArc h =>
    match vs !! h with
    | Some (Some (AArc s)) =>
      if utf8 s then anew (agone vs h) (AShared s) else (None, agone vs h)
    | _ => aill vs
    end
  | SharedFromStr h =>
    match vs !! h with
    | Some (Some (AString s)) => if decide (0 ∈ s) then (None, vs) else anew vs (AShared s)
    | _ => aill vs
    end
  | SharedFromCString h =>
    match vs !! h with
    | Some (Some (ACString s)) =>
      if utf8 s then anew (agone vs h) (AShared s) else (None, agone vs h)
    | _ => aill vs
    end
  | SharedFromCStr h =>
    match vs !! h with
    | Some (Some (ACString s)) => if utf8 s then anew vs (AShared s) else (None, vs)
    | _ => aill vs
    end
  end.

(** The expected results of a whole program. *)
Fixpoint expected_run (vs : astate) (os : list op) : list (option res) * astate :=
  match os with
  | [] => ([], vs)
  | o :: os =>
    let '(r, vs) := expected vs o in
    let '(rs, vs) := expected_run vs os in
    (r :: rs, vs)
  end.

(** Rust strings are valid UTF-8 (a guarantee of the type [String]). *)
Definition wf_op (o : op) : Prop :=
  match o with NewString s _ => utf8 s = true | _ => True end.

(** The heap block a value refers to, if any; the empty owned string refers to none. *)
Definition own (v : value) : option nat :=
  match v with
  | VString s | VVec s => fst <$> bf_blk s
  | VCString b _ | VArc b _ | VShared b | VBoxed (PHeap b) => Some b
  | VBoxed PSentinel => None
  end.

Definition owns (v : value) (b : nat) : Prop := own v = Some b.
Definition slot_owns (b : nat) (o : option value) : Prop :=
  match o with Some v => owns v b | None => False end.
Global Instance slot_owns_dec b o : Decision (slot_owns b o).
Proof. destruct o; cbn; unfold owns; apply _. Defined.
