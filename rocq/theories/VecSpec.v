(** Specification of vectors, strings, boxes and slices: programs over
    variables that just hold lists, without any memory; and what may happen to
    memory. *)

From Coq Require Import NArith List Bool.
From stdpp Require Import base numbers list.
From Verif Require Import CStrModel VecModel.
Local Open Scope N_scope.

(** A value: its type, its elements, and its capacity if it is a vector. *)
Record value := Value { vform : form; zst : bool; elems : list N; vcap : N }.
Inductive aslot := AGone | AOwn (v : value) | ALent | ALocal (v : value).
Record astate := AState { vars : list aslot; told : list event }.
Definition ainit : astate := AState [] [].
Inductive aout := ADone (a : astate) | APanicked (a : astate) | AStuck.

Definition is_vec (f : form) : bool := match f with FVec | FCVec | FString | FCString => true | _ => false end.
Definition is_str (f : form) : bool := match f with FString | FCString | FStr | FCStr => true | _ => false end.

(** The conversions: the elements stay.  So does the capacity, unless it goes
    to a box or comes from one; that of vectors of a zero-sized type is always
    the largest number. *)
Definition converts (f g : form) : bool :=
  match f, g with
  | FVec, FCVec | FCVec, FVec | FVec, FBox | FBox, FVec | FBox, FCBox | FCBox, FBox
  | FString, FCString | FCString, FString | FString, FVec | FString, FStr | FStr, FString
  | FString, FCStr | FCStr, FString | FStr, FCStr | FCStr, FStr | FOne, FCOne | FCOne, FOne => true
  | _, _ => false
  end.
Definition aconv (g : form) (v : value) : option value :=
  if converts (vform v) g then
    Some (Value g (zst v) (elems v)
      (if is_vec g then
         if zst v then USIZE_MAX
         else if is_vec (vform v) then vcap v
         else N.of_nat (List.length (elems v))
       else 0))
  else None.
Definition anew (f : form) (z : bool) (xs : list N) (g : N) : option value :=
  let xs := map (elem_of z) xs in
  match f with
  | FVec => Some (Value f z xs (if z then USIZE_MAX else N.max g (N.of_nat (List.length xs))))
  | FString => if utf8 xs && negb z then Some (Value f z xs (N.max g (N.of_nat (List.length xs)))) else None
  | FBox => Some (Value f z xs 0)
  | FStr => if utf8 xs && negb z then Some (Value f z xs 0) else None
  | FOne => match xs with [_] => Some (Value f z xs 0) | _ => None end
  | _ => None
  end.
Definition aempty (f : form) (z : bool) : option value :=
  match f, z with
  | FCVec, _ | FCString, false => Some (Value f z [] 0)
  | _, _ => None
  end.

(** Elements after an operation, the capacity, the elements dropped, and
    whether it panics. *)
Definition areserve (z : bool) (l : nat) (c : N) (n : N) (g : option N) : option N :=
  if N.of_nat l + n <=? c then Some c
  else match g with Some g => if z then None else Some (N.max g (N.of_nat l + n)) | None => None end.
Definition avop (z : bool) (o : vop) (xs : list N) (c : N) : list N * N * list N * bool :=
  match o with
  | VPush x g =>
      match areserve z (List.length xs) c 1 g with
      | Some c => ((xs ++ [elem_of z x])%list, c, [], false)
      | None => (xs, c, [elem_of z x], true)
      end
  | VExtend ys g =>
      match areserve z (List.length xs) c (N.of_nat (List.length ys)) g with
      | Some c => ((xs ++ map (elem_of z) ys)%list, c, [], false)
      | None => (xs, c, [], true)
      end
  | VPop => (firstn (List.length xs - 1) xs, c, skipn (List.length xs - 1) xs, false)
  | VTruncate n => (firstn n xs, c, skipn n xs, false)
  | VReserve n g =>
      match areserve z (List.length xs) c n g with
      | Some c => (xs, c, [], false)
      | None => (xs, c, [], true)
      end
  | VShrink => (xs, if z then c else N.of_nat (List.length xs), [], false)
  end.

Definition tell (es : list event) (a : astate) : astate := AState (vars a) (told a ++ es)%list.
Definition aset (i : nat) (k : aslot) (a : astate) : astate := AState (<[i := k]> (vars a)) (told a).
Definition aadd (k : aslot) (a : astate) : astate := AState (vars a ++ [k])%list (told a).
Definition acap (v : value) : option N := if is_vec (vform v) then Some (vcap v) else None.

Definition aread (v : value) (w : how) : option (list N) :=
  match w, vform v with
  | Deref, _ | AsRef, (FCVec | FCBox | FCStr) | AsMut, (FCVec | FCBox) => Some (elems v)
  | Sub a b, _ =>
      if (a <=? b)%nat && (b <=? List.length (elems v))%nat then Some (firstn (b - a) (skipn a (elems v))) else None
  | _, _ => None
  end.
Definition aprim (o : op) (a : astate) : aout :=
  match o with
  | New f z xs g => match anew f z xs g with Some v => ADone (aadd (AOwn v) a) | None => AStuck end
  | Empty f z => match aempty f z with Some v => ADone (aadd (AOwn v) a) | None => AStuck end
  | Conv i f =>
      match vars a !! i with
      | Some (AOwn v) => match aconv f v with Some v => ADone (aset i (AOwn v) a) | None => AStuck end
      | _ => AStuck
      end
  | VOp i o =>
      let go v (ctor : value → aslot) :=
        match vform v with
        | FVec | FString =>
            let '(xs, c, dropped, bad) := avop (zst v) o (elems v) (vcap v) in
            if negb (is_str (vform v)) || utf8 xs then
              let a := tell (map EDrop dropped) (aset i (ctor (Value (vform v) (zst v) xs c)) a) in
              if bad : bool then APanicked a else ADone a
            else AStuck
        | _ => AStuck
        end in
      match vars a !! i with
      | Some (AOwn v) => go v AOwn
      | Some (ALocal v) => go v ALocal
      | _ => AStuck
      end
  | Swap i j =>
      let ctor (k : aslot) : option (value * (value → aslot)) :=
        match k with AOwn v => Some (v, AOwn) | ALocal v => Some (v, ALocal) | _ => None end in
      match vars a !! i ≫= ctor, vars a !! j ≫= ctor with
      | Some (v, cv), Some (w, cw) =>
          if (i =? j)%nat || negb (Bool.eqb (zst v) (zst w)) then AStuck
          else
            match vform v, vform w with
            | FVec, FVec | FString, FString => ADone (aset j (cw v) (aset i (cv w) a))
            | _, _ => AStuck
            end
      | _, _ => AStuck
      end
  | Read i w =>
      match vars a !! i with
      | Some (AOwn v) | Some (ALocal v) =>
          match aread v w with Some xs => ADone (tell [ERead xs (acap v)] a) | None => AStuck end
      | _ => AStuck
      end
  | Write i k x =>
      let go v (ctor : value → aslot) :=
        if is_str (vform v) then AStuck
        else
          match elems v !! k with
          | Some y =>
              ADone (tell [EDrop y] (aset i (ctor (Value (vform v) (zst v) (<[k := elem_of (zst v) x]> (elems v)) (vcap v))) a))
          | None => APanicked a
          end in
      match vars a !! i with
      | Some (AOwn v) => go v AOwn
      | Some (ALocal v) => go v ALocal
      | _ => AStuck
      end
  | Clone i g panic =>
      match vars a !! i with
      | Some (AOwn v) =>
          let n := List.length (elems v) in
          let c := if zst v then USIZE_MAX else N.max g (N.of_nat n) in
          let panic := match panic with Some k => if (k <? n)%nat then Some k else None | None => None end in
          match vform v, panic with
          | FCVec, Some k => APanicked (tell (map EDrop (firstn k (elems v))) a)
          | (FCVec | FCString), _ => ADone (aadd (AOwn (Value (vform v) (zst v) (elems v) c)) a)
          | FCOne, Some _ => APanicked a
          | FCOne, None => ADone (aadd (AOwn v) a)
          | _, _ => AStuck
          end
      | _ => AStuck
      end
  | Drop i =>
      match vars a !! i with
      | Some (AOwn v) => ADone (tell (map EDrop (elems v)) (aset i AGone a))
      | _ => AStuck
      end
  end.

(** The closure of [with_rust_mut] works on a variable that starts with the
    vector's elements; what it then holds is what the vector holds after, no
    matter how the closure ends. *)
Definition abegin (i : nat) (a : astate) : aout :=
  match vars a !! i with
  | Some (AOwn v) =>
      let c := if zst v then USIZE_MAX else vcap v in
      match vform v with
      | FCVec => ADone (aadd (ALocal (Value FVec (zst v) (elems v) c)) (aset i ALent a))
      | FCString => ADone (aadd (ALocal (Value FString (zst v) (elems v) c)) (aset i ALent a))
      | _ => AStuck
      end
  | _ => AStuck
  end.
Definition afinally (i j : nat) (a : astate) : aout :=
  match vars a !! i, vars a !! j with
  | Some ALent, Some (ALocal v) =>
      match vform v with
      | FVec => ADone (aset j AGone (aset i (AOwn (Value FCVec (zst v) (elems v) (vcap v))) a))
      | FString => ADone (aset j AGone (aset i (AOwn (Value FCString (zst v) (elems v) (vcap v))) a))
      | _ => AStuck
      end
  | _, _ => AStuck
  end.
Fixpoint aexec (c : cmd) (a : astate) : aout :=
  match c with
  | Skip => ADone a
  | Prim o => aprim o a
  | Seq c d => match aexec c a with ADone a => aexec d a | r => r end
  | Panic => APanicked a
  | Catch c => match aexec c a with APanicked a => ADone a | r => r end
  | With i c =>
      let j := List.length (vars a) in
      match abegin i a with
      | ADone a =>
          match aexec c a with
          | ADone a => afinally i j a
          | APanicked a => match afinally i j a with ADone a => APanicked a | r => r end
          | r => r
          end
      | r => r
      end
  end.

(** What a program can observe: drops and reads, not memory. *)
Definition public (e : event) : bool := match e with EDrop _ | ERead _ _ => true | _ => false end.
Definition observed (h : heap) : list event := List.filter public (events h).

(** What happens to a block: it is allocated, and freed at most once, with
    the size it was allocated with. *)
Definition about (b : nat) (e : event) : bool :=
  match e with EAlloc b' _ | EFree b' _ => (b' =? b)%nat | _ => false end.
Definition history (h : heap) (b : nat) : list event := List.filter (about b) (events h).
