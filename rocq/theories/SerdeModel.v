(** Model of the serde implementations of [Bytes] ([src/bytes.rs] L821-870, feature [serde]), on top of
    the model of [Bytes] in [BytesModel].

    A data format is an adversary: given the visitor it calls one of its methods with a value of its
    choice, or fails.  What it lends ([visit_bytes], [visit_borrowed_bytes]) is a buffer of the program
    state; what it gives away ([visit_byte_buf], [visit_seq]) is data.

    Simplifications: the configuration is that of [BytesModel]; errors of the format are
    not told apart; of the many methods of [Visitor] that [BytesVisitor] does not define, each of which
    returns an error (serde's defaults), there is one. *)
From stdpp Require Import base numbers list.
From Verif Require Import BytesModel.
Local Open Scope N_scope.

(** bytes.rs L821-826 [Serialize]: hands [as_slice()] to [serialize_bytes].  [None] is undefined
    behaviour. *)
Definition serialize (p : platform) (s : state) (x : handle) : option (list N) :=
  as_slice p (st_mem s) (h_b x).

(** An answer of [seq.next_element::<u8>()]: a byte, or an error of the format (among which: an element
    that is no [u8]).  The end of the list is the end of the sequence. *)
Inductive elem := EByte (x : N) | EError.

(** What the format does with the visitor.  [base] is where the allocator puts what is allocated in the
    end. *)
Inductive visit :=
  | VBorrowed (rid : nat) (off n : N)            (** [visit_borrowed_bytes], of the input itself *)
  | VBytes (rid : nat) (off n base : N)          (** [visit_bytes], of a buffer of the format *)
  | VBuf (data : list N) (base : N)              (** [visit_byte_buf] *)
  | VSeq (hint : option N) (l : list elem) (base : N)   (** [visit_seq] *)
  | VOther.                                      (** any other method *)

(** [Deserialize::deserialize]: a value, an error, a panic, an abort of the process (out of memory),
    undefined behaviour, or a choice the borrow checker or the allocator does not allow. *)
Inductive de :=
  | DOk (s : state) (h : nat)
  | DErr (s : state)
  | DPanic (s : state)
  | DAbort
  | DUndef
  | DReject.

(** [isize::MAX], the largest size of an allocation. *)
Definition isize_max (p : platform) : N := wlim p / 2 - 1.

(** Asking the allocator for room for [n] bytes in a [Vec]: beyond [isize::MAX] a panic ("capacity
    overflow"), beyond what there is ([avail]) an abort. *)
Inductive room := RoomOk | RoomPanic | RoomAbort.
Definition reserve (p : platform) (avail n : N) : room :=
  if isize_max p <? n then RoomPanic else if avail <? n then RoomAbort else RoomOk.

(** The capacity after [Vec::push] onto a full [Vec<u8>] (RawVec's amortised growth, at least 8). *)
Definition grown (cap : N) : N := N.max 8 (N.max (2 * cap) (cap + 1)).

(** bytes.rs L857-859, the loop of [visit_seq]: [buf] in order, [cap] its capacity. *)
Inductive filled := FDone (buf : list N) | FErr | FPanic | FAbort | FReject.
Fixpoint fill (p : platform) (avail cap : N) (buf : list N) (l : list elem) : filled :=
  match l with
  | [] => FDone buf
  | EError :: _ => FErr
  | EByte x :: l =>
      if negb (is_byte x) then FReject
      else if N.of_nat (length buf) <? cap then fill p avail cap (buf ++ [x]) l
      else match reserve p avail (grown cap) with
           | RoomOk => fill p avail (grown cap) (buf ++ [x]) l
           | RoomPanic => FPanic
           | RoomAbort => FAbort
           end
  end.

(** bytes.rs L851-862 [visit_seq]: [Vec::with_capacity(seq.size_hint().unwrap_or(64))] first. *)
Definition collect (p : platform) (avail : N) (hint : option N) (l : list elem) : filled :=
  let cap := default 64 hint in
  match reserve p avail cap with
  | RoomOk => fill p avail cap [] l
  | RoomPanic => FPanic
  | RoomAbort => FAbort
  end.

(** The result of a step that makes a value. *)
Definition made (o : outcome) : de :=
  match o with
  | SDone s (RHandle h) => DOk s h
  | SDone _ _ => DReject
  | SPanic s => DPanic s
  | SUndef => DUndef
  | SReject => DReject
  end.

(** bytes.rs L839-841, L843-845, L847-849, L851-862: the methods of [BytesVisitor]; L865-870
    [deserialize] calls the format with it. *)
Definition deserialize (p : platform) (avail : N) (s : state) (v : visit) : de :=
  match v with
  | VBorrowed rid off n => made (step p s (OFromSlice rid off n))
  | VBytes rid off n base =>
      match step p s (OFromSlice rid off n) with
      | SDone s1 (RHandle h) => made (step p s1 (OUpgrade h base))
      | o => made o
      end
  | VBuf data base => made (step p s (OFromBox data base))
  | VSeq hint l base =>
      match collect p avail hint l with
      | FDone data => made (step p s (OFromBox data base))
      | FErr => DErr s
      | FPanic => DPanic s
      | FAbort => DAbort
      | FReject => DReject
      end
  | VOther => DErr s
  end.
