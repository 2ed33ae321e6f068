(** What a user of [Bytes] may rely on, stated without reference to how the values are stored.

    A [Bytes] value is an immutable string of bytes; the abstract state of a program is the list of the
    strings its values hold (in the order the values were made; [None] once moved out or dropped), and
    the same for its own [Arc]s. *)
From stdpp Require Import base numbers list.
From Verif Require Import BytesModel.
Local Open Scope N_scope.

(** Bytes [s .. e] of a byte string. *)
Definition slice (c : list N) (s e : N) : list N :=
  take (N.to_nat (e - s)) (drop (N.to_nat s) c).

(** The range meant by a pair of [Bound]s, in exact arithmetic. *)
Definition lo_of (lo : bound) : N := match lo with Incl i => i | Excl i => i + 1 | Unb => 0 end.
Definition hi_of (c : list N) (hi : bound) : N :=
  match hi with Incl i => i + 1 | Excl i => i | Unb => N.of_nat (length c) end.
Definition in_range (c : list N) (lo hi : bound) : Prop :=
  lo_of lo ≤ hi_of c hi ∧ hi_of c hi ≤ N.of_nat (length c).

Notation strings := (list (option (list N))).

(** [o] may return [r], turning the values [hv] and arcs [av] into [hv'], [av'].  [bufs] are the buffers
    of the program. *)
Definition expects (bufs : nat → option (list N)) (hv av : strings) (o : op) (r : resp)
    (hv' av' : strings) : Prop :=
  let same_h := hv' = hv in
  let same_a := av' = av in
  match o with
  | ONewStatic _ _ | ONewBorrow _ _ | OEndBorrow _ => r = RUnit ∧ same_h ∧ same_a
  | ONewArc _ data | ONewArcT _ data | ONewStab _ data =>
      r = RArc (length av) ∧ same_h ∧ av' = av ++ [Some data]
  | OArcClone i => ∃ c, av !! i = Some (Some c) ∧ r = RArc (length av) ∧ same_h ∧ av' = av ++ [Some c]
  | OArcDrop i => r = RUnit ∧ same_h ∧ av' = <[i := None]> av
  | OFromStatic rid off n | OFromSlice rid off n =>
      ∃ c, bufs rid = Some c ∧ off + n ≤ N.of_nat (length c) ∧ r = RHandle (length hv)
           ∧ hv' = hv ++ [Some (slice c off (off + n))] ∧ same_a
  | OInlineSlice data =>
      (r = RHandle (length hv) ∧ hv' = hv ++ [Some data] ∧ same_a) ∨ (r = RNone ∧ same_h ∧ same_a)
  | OCopied data _ | OFromBox data _ | OFromStabVec data _ =>
      r = RHandle (length hv) ∧ hv' = hv ++ [Some data] ∧ same_a
  | OFromArc i | OFromStab i =>
      ∃ c, av !! i = Some (Some c) ∧ r = RHandle (length hv)
           ∧ hv' = hv ++ [Some c] ∧ av' = <[i := None]> av
  | OFromArcT i off n =>
      ∃ c, av !! i = Some (Some c) ∧ off + n ≤ N.of_nat (length c) ∧ r = RHandle (length hv)
           ∧ hv' = hv ++ [Some (slice c off (off + n))] ∧ av' = <[i := None]> av
  | OClone h _ =>
      ∃ c, hv !! h = Some (Some c) ∧ r = RHandle (length hv) ∧ hv' = hv ++ [Some c] ∧ same_a
  | ONoallocClone h =>
      ∃ c, hv !! h = Some (Some c) ∧ same_a ∧
      ((r = RHandle (length hv) ∧ hv' = hv ++ [Some c]) ∨ (r = RNone ∧ same_h))
  | ODrop h => r = RUnit ∧ hv' = <[h := None]> hv ∧ same_a
  | OShrink h lo hi =>
      ∃ c, hv !! h = Some (Some c) ∧ in_range c lo hi ∧ r = RUnit
           ∧ hv' = <[h := Some (slice c (lo_of lo) (hi_of c hi))]> hv ∧ same_a
  | OSubsliced h lo hi =>
      ∃ c, hv !! h = Some (Some c) ∧ in_range c lo hi ∧ r = RHandle h
           ∧ hv' = <[h := Some (slice c (lo_of lo) (hi_of c hi))]> hv ∧ same_a
  | OSplit h i _ =>
      ∃ c, hv !! h = Some (Some c) ∧ same_a ∧
      ((i ≤ N.of_nat (length c) ∧ r = RPair h (length hv)
        ∧ hv' = <[h := Some (take (N.to_nat i) c)]> hv ++ [Some (drop (N.to_nat i) c)])
       ∨ (N.of_nat (length c) < i ∧ r = RFail h ∧ same_h))
  | OUpgrade h _ => r = RHandle h ∧ same_h ∧ same_a
  | ONoallocUpgrade h => (r = RHandle h ∨ r = RFail h) ∧ same_h ∧ same_a
  | OIntoArc h | OIntoStab h =>
      ∃ c, hv !! h = Some (Some c) ∧
      ((r = RArc (length av) ∧ hv' = <[h := None]> hv ∧ av' = av ++ [Some c])
       ∨ (r = RFail h ∧ same_h ∧ same_a))
  | OAsSlice h => ∃ c, hv !! h = Some (Some c) ∧ r = RData c ∧ same_h ∧ same_a
  | ORead h n =>
      ∃ c, hv !! h = Some (Some c) ∧ same_a
           ∧ let k := N.to_nat (N.min n (N.of_nat (length c))) in
             r = RData (take k c) ∧ hv' = <[h := Some (drop k c)]> hv
  end.

(** [o] may panic.  A panicking method leaves [&mut self] as it was, and drops a [self] it consumed.
    Out-of-range sub-slicing panics.  [short]: the length up to which the *actual* code may also panic
    on a perfectly good range (see [bytes_spurious_panic_refuted]); a correct implementation would
    satisfy this specification with no exception. *)
Definition may_panic (short : nat) (hv av : strings) (o : op) (hv' av' : strings) : Prop :=
  match o with
  | OShrink h lo hi =>
      ∃ c, hv !! h = Some (Some c) ∧ (in_range c lo hi → (length c ≤ short)%nat) ∧ hv' = hv ∧ av' = av
  | OSubsliced h lo hi =>
      ∃ c, hv !! h = Some (Some c) ∧ (in_range c lo hi → (length c ≤ short)%nat)
           ∧ hv' = <[h := None]> hv ∧ av' = av
  | OSplit h i _ =>
      ∃ c, hv !! h = Some (Some c) ∧ (length c ≤ short)%nat ∧ hv' = <[h := None]> hv ∧ av' = av
  | ORead h n =>
      ∃ c, hv !! h = Some (Some c) ∧ (length c ≤ short)%nat ∧ hv' = hv ∧ av' = av
  | _ => False
  end.

(** ** Observing a concrete state *)

(** What the user sees: each value through [as_slice], each [Arc] through its [Deref]. *)
Definition view (p : platform) (s : state) : strings :=
  (λ x, x ≫= λ h, as_slice p (st_mem s) (h_b h)) <$> st_h s.
Definition arc_view (s : state) : strings :=
  (λ x, x ≫= λ a, read_mem (st_mem s) (a_base a) (a_len a)) <$> st_arcs s.
Definition bufs_of (s : state) (rid : nat) : option (list N) := r_data <$> st_mem s !! rid.

(** Operations on which the code misbehaves (each is shown to do so in [BytesProps]):
    - [shrink_to]/[subsliced] of an *inlined* value with an end beyond its length;
    - a bound of [usize::MAX] that has to be incremented, when overflow checks are off;
    - [noalloc_upgrade] of a value that borrows its bytes. *)
Definition bound_ok (p : platform) (b : bound) (inclusive : bool) : Prop :=
  ovf_checks p = true ∨
  match b, inclusive with
  | Incl i, true | Excl i, false => i + 1 < wlim p
  | _, _ => True
  end.
Definition admissible (p : platform) (s : state) (o : op) : Prop :=
  match o with
  | OShrink h lo hi | OSubsliced h lo hi =>
      bound_ok p lo false ∧ bound_ok p hi true ∧
      ∀ x, get_h s h = Some x → is_inlined p (h_b x) = true →
           match hi with Unb => True | Incl i => i + 1 ≤ len p (h_b x) | Excl i => i ≤ len p (h_b x) end
  | ONoallocUpgrade h => ∀ x, get_h s h = Some x → b_vt (h_b x) ≠ vt_addr p VBorrow
  | _ => True
  end.

(** States reachable by programs that avoid these. *)
Inductive reach (p : platform) : state → Prop :=
  | reach_init : reach p init
  | reach_done s o s' r : reach p s → admissible p s o → step p s o = SDone s' r → reach p s'
  | reach_panic s o s' : reach p s → admissible p s o → step p s o = SPanic s' → reach p s'.
