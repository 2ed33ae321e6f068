(** What deserialising a [Bytes] should do: independent of how [BytesVisitor] goes about it. *)
From stdpp Require Import base numbers list.
From Verif Require Import BytesModel BytesSpec SerdeModel.
Local Open Scope N_scope.

(** The byte string a format hands over, if it does. *)
Definition gives (s : state) (v : visit) (c : list N) : Prop :=
  match v with
  | VBorrowed rid off n | VBytes rid off n _ =>
      ∃ buf, bufs_of s rid = Some buf ∧ off + n ≤ N.of_nat (length buf) ∧ c = slice buf off (off + n)
  | VBuf data _ => c = data
  | VSeq _ l _ => l = map EByte c
  | VOther => False
  end.

(** The format fails: it has something else than bytes, or a sequence with a bad element. *)
Definition fails (v : visit) : Prop :=
  match v with
  | VSeq _ l _ => EError ∈ l
  | VOther => True
  | _ => False
  end.

(** Does the value live as long as the input only? *)
Definition from_input (v : visit) : bool := match v with VBorrowed _ _ _ => true | _ => false end.

(** There is memory for [n] bytes, in one piece. *)
Definition fits (p : platform) (avail n : N) : Prop := n < 2 ^ (8 * N.of_nat (wsz p) - 1) ∧ n ≤ avail.

(** The format does not exaggerate: there is memory for what it announces (64 bytes if nothing), and
    for twice of what it has. *)
Definition modest (p : platform) (avail : N) (v : visit) : Prop :=
  match v with
  | VSeq hint l _ => fits p avail (default 64 hint) ∧ fits p avail (2 * N.of_nat (length l) + 8)
  | _ => True
  end.
