(** Model of [src/bytes.rs]: the [Bytes] type, at the level of machine words.

    A [Bytes] value is the five machine words of the Rust struct.  Inlining writes a byte buffer and
    reinterprets it ([mem::transmute]) as the five words; the accessors read the bytes back out of the
    words.  Memory is a list of regions with addresses picked by an arbitrary allocator.

    Simplifications (beyond those noted at each definition):
    - features [alloc] and [std] are on; [stabby] may be;
    - [stabby]'s [ArcSlice<u8>] is taken to be what its documentation says: a pair of pointers to the start
      and the end of bytes with the counts in front of them, of which [from_raw], [clone] and [drop] use only
      the start to find the counts; its allocations are as any other;
    - reference counts are unbounded (Rust aborts the process on overflow of a count);
    - one instantiation [T] of [From<Arc<T>>]; [From<stabby::sync::Arc<T>>], L605-632, does the same with
      [stabby]'s [Arc] and stands beside it. *)

From stdpp Require Import base numbers list.
Local Open Scope N_scope.

(** ** Platform *)

(** The vtables the module creates.
    - [VStatic]: bytes.rs L141-144, the local constant in [from_static];
    - [VBorrow]: bytes.rs L163-166, the local constant in [from_slice];
    - [VArc]: bytes.rs L481-484, [ARC_BYTES_VT];
    - [VArcT]: bytes.rs L514-517, in [From<Arc<T>>];
    - [VBox]: bytes.rs L540-543, in [From<Box<[u8]>>];
    - [VStab]: bytes.rs L579-583, [STABBY_ARCSLICE_BYTESVT]. *)
Inductive vt := VStatic | VBorrow | VArc | VArcT | VBox | VStab.

Global Instance vt_eq_dec : EqDecision vt.
Proof. solve_decision. Defined.

(** Compilation target: pointer width in bytes, endianness ([IS_LITTLE_ENDIAN], L64), whether
    integer overflow checks are compiled in, the addresses of the vtables, and whether the feature
    [stabby] is on. *)
Record platform := Platform {
  wsz : nat;
  little : bool;
  ovf_checks : bool;
  vt_addr : vt → N;
  stabby : bool;
}.

(** Number of representable words. *)
Definition wlim (p : platform) : N := 256 ^ N.of_nat (wsz p).

(** ** Words and bytes *)

(** Little-endian bytes of a word. *)
Fixpoint enc_le (n : nat) (w : N) : list N :=
  match n with
  | O => []
  | S n => w mod 256 :: enc_le n (w / 256)
  end.

Fixpoint dec_le (l : list N) : N :=
  match l with
  | [] => 0
  | b :: l => b + 256 * dec_le l
  end.

Definition enc (p : platform) (w : N) : list N :=
  if little p then enc_le (wsz p) w else reverse (enc_le (wsz p) w).
Definition dec (p : platform) (l : list N) : N :=
  if little p then dec_le l else dec_le (reverse l).

(** bytes.rs L24-41: the struct fields, in order ([marker] is zero-sized). *)
Record bytes := Bytes {
  b_start : N;
  b_len : N;
  b_owner : N;
  b_cap : N;
  b_vt : N;
}.

(** The memory of a [Bytes] value ([#[repr(C)]], five words). *)
Definition raw (p : platform) (b : bytes) : list N :=
  enc p (b_start b) ++ enc p (b_len b) ++ enc p (b_owner b) ++ enc p (b_cap b) ++ enc p (b_vt b).

(** [mem::transmute] of a buffer to a [Bytes] (L210). *)
Definition of_raw (p : platform) (l : list N) : bytes :=
  let w i := dec p (take (wsz p) (drop (i * wsz p) l)) in
  Bytes (w 0%nat) (w 1%nat) (w 2%nat) (w 3%nat) (w 4%nat).

(** [mem::size_of::<Bytes>()] *)
Definition size_of_bytes (p : platform) : nat := 5 * wsz p.

(** bytes.rs L77-82 [MAX_INLINE_SIZE]. *)
Definition max_inline (p : platform) : nat :=
  size_of_bytes p - (if little p then wsz p else 1).

(** bytes.rs L83-90 [read_inline_length_byte]. *)
Definition len_byte (p : platform) (b : bytes) : N :=
  default 0 (raw p b !! max_inline p).

(** bytes.rs L91-93 [is_inlined]. *)
Definition is_inlined (p : platform) (b : bytes) : bool :=
  negb (N.land (len_byte p b) 1 =? 0).

(** The vtable living at an address, if any. *)
Definition vt_at (p : platform) (a : N) : option vt :=
  if a =? vt_addr p VStatic then Some VStatic
  else if a =? vt_addr p VBorrow then Some VBorrow
  else if a =? vt_addr p VArc then Some VArc
  else if a =? vt_addr p VArcT then Some VArcT
  else if a =? vt_addr p VBox then Some VBox
  else if a =? vt_addr p VStab then Some VStab
  else None.

(** bytes.rs L94-101 [vtable()].  [NoVt] is Rust's [None]; [BadVt] stands for the undefined behaviour
    of dereferencing a vtable pointer to none of the vtables. *)
Inductive vtres := NoVt | BadVt | IsVt (v : vt).
Definition vtable (p : platform) (b : bytes) : vtres :=
  if is_inlined p b then NoVt
  else match vt_at p (b_vt b) with Some v => IsVt v | None => BadVt end.

(** Which function a vtable's [retain] points to ([None]: null). *)
Inductive rfun := Noop | ArcFn | ArcTFn | BoxFn | StabFn.
(** L141-144, L163-166, L481-484, L514-517, L540-543, L579-583: the [retain] fields. *)
Definition vt_retain (v : vt) : option rfun :=
  match v with
  | VStatic => Some Noop | VBorrow => Some Noop
  | VArc => Some ArcFn | VArcT => Some ArcTFn | VBox => None | VStab => Some StabFn
  end.
(** same lines: the [release] fields. *)
Definition vt_release (v : vt) : option rfun :=
  match v with
  | VStatic => Some Noop | VBorrow => None
  | VArc => Some ArcFn | VArcT => Some ArcTFn | VBox => Some BoxFn | VStab => Some StabFn
  end.
(** bytes.rs L683-687 [BytesVt::is_borrowed]. *)
Definition is_borrowed (v : vt) : bool :=
  match vt_release v with None => true | Some _ => false end.

(** ** Memory *)

(** What a region is: program-lifetime data, a buffer somebody lent us, the payload of an
    [Arc<[u8]>] or of an [Arc<T>] (with the strong count), the payload of a [Box<[u8]>], the payload
    of a [stabby::sync::ArcSlice<u8>] (with the strong count). *)
Inductive kind := KStatic | KBorrow | KArc (strong : nat) | KArcT (strong : nat) | KBox | KStab (strong : nat).

Record region := Region {
  r_base : N;          (** address of the first data byte *)
  r_data : list N;
  r_kind : kind;
  r_live : bool;
}.
Notation mem := (list region).

Definition r_len (r : region) : N := N.of_nat (length (r_data r)).

(** The two counters in front of the payload of an [Arc], or an [ArcSlice] (which has more there). *)
Definition hdr (p : platform) (k : kind) : N :=
  match k with KArc _ | KArcT _ | KStab _ => 2 * N.of_nat (wsz p) | _ => 0 end.

(** Reading [n] bytes at address [a] ([slice::from_raw_parts]): needs a live region containing them.
    [None] is undefined behaviour. *)
Definition contains (a n : N) (r : region) : bool :=
  r_live r && (r_base r <=? a) && (a + n <=? r_base r + r_len r).
Definition read_mem (m : mem) (a n : N) : option (list N) :=
  if n =? 0 then Some []
  else match list_find (λ r, contains a n r = true) m with
       | Some (_, r) => Some (take (N.to_nat n) (drop (N.to_nat (a - r_base r)) (r_data r)))
       | None => None
       end.

(** [ptr::add]: undefined unless inside (or one past) one live region. *)
Definition ptr_add (m : mem) (a n : N) : option N :=
  if n =? 0 then Some a
  else match list_find (λ r, contains a n r = true) m with
       | Some _ => Some (a + n)
       | None => None
       end.

(** Two extents do not overlap. *)
Definition ext_disjoint (p : platform) (base len : N) (k : kind) (r : region) : bool :=
  negb (r_live r)
  || (base + len <=? r_base r - hdr p (r_kind r))
  || (r_base r + r_len r <=? base - hdr p k).

(** May the allocator hand out data address [base] for [len] bytes?  (Non-null, inside the address
    space, disjoint from everything live.  Addresses of freed regions may be reused.) *)
Definition can_alloc (p : platform) (m : mem) (base len : N) (k : kind) : bool :=
  (hdr p k <? base) && (base + len <? wlim p) && forallb (ext_disjoint p base len k) m.

(** Results of a Rust function that may touch memory: normal result, panic (after unwinding),
    undefined behaviour, or "the allocator oracle made an impossible choice". *)
Inductive res (A : Type) :=
  | Ok (a : A) (m : mem)
  | Panic (m : mem)
  | Undef
  | NoAlloc.
Global Arguments Ok {_} _ _. Global Arguments Panic {_} _.
Global Arguments Undef {_}. Global Arguments NoAlloc {_}.

Definition alloc (p : platform) (m : mem) (base : N) (data : list N) (k : kind) : res unit :=
  if can_alloc p m base (N.of_nat (length data)) k
  then Ok () (m ++ [Region base data k true]) else NoAlloc.

(** [Arc::increment_strong_count] / [decrement_strong_count] / [Box::from_raw]+drop on a raw pointer:
    the region must be live, of the right kind, at that very address (and, for slices, of that very
    length); anything else is undefined behaviour. *)
Definition arc_at (owner cap : N) (r : region) : bool :=
  r_live r && (r_base r =? owner) && (r_len r =? cap) &&
  match r_kind r with KArc _ => true | _ => false end.
Definition arct_at (owner : N) (r : region) : bool :=
  r_live r && (r_base r =? owner) && match r_kind r with KArcT _ => true | _ => false end.
Definition box_at (owner cap : N) (r : region) : bool :=
  r_live r && (r_base r =? owner) && (r_len r =? cap) &&
  match r_kind r with KBox => true | _ => false end.
(** An [ArcSlice] made of two raw pointers: to the start of the bytes and into them, or one past. *)
Definition stab_at (owner stop : N) (r : region) : bool :=
  r_live r && (r_base r =? owner) && (owner <=? stop) && (stop <=? r_base r + r_len r) &&
  match r_kind r with KStab _ => true | _ => false end.

Definition inc_strong (r : region) : region :=
  match r_kind r with
  | KArc n => Region (r_base r) (r_data r) (KArc (S n)) (r_live r)
  | KArcT n => Region (r_base r) (r_data r) (KArcT (S n)) (r_live r)
  | KStab n => Region (r_base r) (r_data r) (KStab (S n)) (r_live r)
  | _ => r
  end.
(** The last decrement frees. *)
Definition dec_strong (r : region) : region :=
  match r_kind r with
  | KArc n => Region (r_base r) (r_data r) (KArc (pred n)) (1 <? n)%nat
  | KArcT n => Region (r_base r) (r_data r) (KArcT (pred n)) (1 <? n)%nat
  | KStab n => Region (r_base r) (r_data r) (KStab (pred n)) (1 <? n)%nat
  | _ => r
  end.
Definition kill (r : region) : region := Region (r_base r) (r_data r) (r_kind r) false.

Definition upd_at (f : region → bool) (g : region → region) (m : mem) : option mem :=
  match list_find (λ r, f r = true) m with
  | Some (i, r) => Some (<[i := g r]> m)
  | None => None
  end.

(** Calling a [retain] function: [noop] L62; [retain_arc_bytes] L473-475; [retain::<T>] L502-504;
    [retain_stabby_arc_bytes] L557-568. *)
Definition call_retain (f : rfun) (owner cap : N) (m : mem) : option mem :=
  match f with
  | Noop => Some m
  | ArcFn => upd_at (arc_at owner cap) inc_strong m
  | ArcTFn => upd_at (arct_at owner) inc_strong m
  | StabFn => upd_at (stab_at owner cap) inc_strong m
  | BoxFn => None
  end.

(** Calling a [release] function: [noop] L62; [release_arc_bytes] L477-479; [release::<T>] L505-507;
    [release_box_bytes] L526-530 (dropping a zero-length boxed slice frees nothing);
    [release_stabby_arc_bytes] L570-578. *)
Definition call_release (f : rfun) (owner cap : N) (m : mem) : option mem :=
  match f with
  | Noop => Some m
  | ArcFn => upd_at (arc_at owner cap) dec_strong m
  | ArcTFn => upd_at (arct_at owner) dec_strong m
  | StabFn => upd_at (stab_at owner cap) dec_strong m
  | BoxFn => if cap =? 0 then Some m else upd_at (box_at owner cap) kill m
  end.

(** ** Methods of [Bytes] *)

(** bytes.rs L197-211 [inline_unchecked]: zeroed buffer, copy, tag byte at [MAX_INLINE_SIZE].
    The length is truncated to [u8] and shifted in [u8]. *)
Definition inline_unchecked (p : platform) (data : list N) : bytes :=
  let buf := data ++ replicate (size_of_bytes p - length data) 0 in
  let tag := N.lor 1 ((N.of_nat (length data) mod 256) * 2 mod 256) in
  of_raw p (<[max_inline p := tag]> buf).

(** bytes.rs L187-193 [inline_slice]. *)
Definition inline_slice (p : platform) (data : list N) : option bytes :=
  if (max_inline p <? length data)%nat then None else Some (inline_unchecked p data).

(** bytes.rs L301-307 [len()]. *)
Definition len (p : platform) (b : bytes) : N :=
  if is_inlined p b then N.shiftr (len_byte p b) 1 else b_len b.

(** bytes.rs L310-316 [as_slice()]; [None] is undefined behaviour. *)
Definition as_slice (p : platform) (m : mem) (b : bytes) : option (list N) :=
  if is_inlined p b then
    if len p b <=? N.of_nat (size_of_bytes p)
    then Some (take (N.to_nat (len p b)) (raw p b)) else None
  else read_mem m (b_start b) (b_len b).

(** bytes.rs L113-129 [from_raw_parts]. *)
Definition from_raw_parts (p : platform) (start n owner cap : N) (v : vt) : bytes :=
  Bytes start n owner cap (vt_addr p v).

(** bytes.rs L140-146 [from_static], of the slice [start .. start+n]. *)
Definition from_static (p : platform) (start n : N) : bytes :=
  from_raw_parts p start n start n VStatic.

(** bytes.rs L162-172 [from_slice], of the slice at address [start] holding [data]. *)
Definition from_slice (p : platform) (start : N) (data : list N) : bytes :=
  if (length data <=? max_inline p)%nat then inline_unchecked p data
  else from_raw_parts p start (N.of_nat (length data)) start (N.of_nat (length data)) VBorrow.

(** bytes.rs L486-498 [From<Arc<[u8]>>]. *)
Definition from_arc (p : platform) (base n : N) : bytes :=
  Bytes base n base n (vt_addr p VArc).

(** bytes.rs L500-522 [From<Arc<T>>]: [start], [n] describe the slice returned by [as_ref]. *)
Definition from_arct (p : platform) (base start n : N) : bytes :=
  Bytes start n base n (vt_addr p VArcT).

(** bytes.rs L524-548 [From<Box<[u8]>>]. *)
Definition from_box (p : platform) (base n : N) : bytes :=
  Bytes base n base n (vt_addr p VBox).

(** bytes.rs L585-603 [From<ArcSlice<u8>>]: [capacity] is the address of the end. *)
Definition from_stab (p : platform) (base n : N) : bytes :=
  Bytes base n base (base + n) (vt_addr p VStab).

(** bytes.rs L322-332 [copied_from_slice]; [base] is where the allocator would put a new [Arc] or
    [ArcSlice]. *)
Definition copied_from_slice (p : platform) (m : mem) (base : N) (data : list N) : res bytes :=
  match inline_slice p data with
  | Some b => Ok b m
  | None =>
      match alloc p m base data (if stabby p then KStab 1 else KArc 1) with
      | Ok _ m' => Ok ((if stabby p then from_stab else from_arc) p base (N.of_nat (length data))) m'
      | Panic m' => Panic m' | Undef => Undef | NoAlloc => NoAlloc
      end
  end.

(** bytes.rs L357-372 [noalloc_clone]. *)
Definition noalloc_clone (p : platform) (m : mem) (b : bytes) : res (option bytes) :=
  match vtable p b with
  | NoVt => Ok (Some b) m
  | BadVt => Undef
  | IsVt v =>
      match vt_retain v with
      | None => Ok None m
      | Some f =>
          match call_retain f (b_owner b) (b_cap b) m with
          | Some m' => Ok (Some b) m'
          | None => Undef
          end
      end
  end.

(** bytes.rs L693-698 [Clone::clone]. *)
Definition clone (p : platform) (m : mem) (b : bytes) (base : N) : res bytes :=
  match noalloc_clone p m b with
  | Ok (Some b') m' => Ok b' m'
  | Ok None m' =>
      match as_slice p m' b with
      | Some data => copied_from_slice p m' base data
      | None => Undef
      end
  | Panic m' => Panic m' | Undef => Undef | NoAlloc => NoAlloc
  end.

(** bytes.rs L699-705 [Drop]. *)
Definition drop_bytes (p : platform) (m : mem) (b : bytes) : res unit :=
  match vtable p b with
  | NoVt => Ok () m
  | BadVt => Undef
  | IsVt v =>
      match vt_release v with
      | None => Ok () m
      | Some f =>
          match call_release f (b_owner b) (b_cap b) m with
          | Some m' => Ok () m'
          | None => Undef
          end
      end
  end.

(** [core::ops::Bound<usize>] *)
Inductive bound := Incl (i : N) | Excl (i : N) | Unb.

(** [*i + 1] in [usize]: panics or wraps, depending on the build. *)
Definition succ_usize (p : platform) (i : N) : option N :=
  if i + 1 <? wlim p then Some (i + 1) else if ovf_checks p then None else Some 0.

(** bytes.rs L224-228. *)
Definition start_bound (p : platform) (lo : bound) : option N :=
  match lo with Incl i => Some i | Excl i => succ_usize p i | Unb => Some 0 end.
(** bytes.rs L229-233. *)
Definition end_bound (p : platform) (b : bytes) (hi : bound) : option N :=
  match hi with Incl i => succ_usize p i | Excl i => Some i | Unb => Some (len p b) end.

(** [&s[i..j]] on slices: panics unless [i <= j <= s.len()]. *)
Definition index_range (s : list N) (i j : N) : option (list N) :=
  if (i <=? j) && (j <=? N.of_nat (length s))
  then Some (take (N.to_nat (j - i)) (drop (N.to_nat i) s)) else None.

(** bytes.rs L223-244 [shrink_to].  Note L235 compares with the [len] *field*.
    Returns the new value of [*self]; [*self = …] (L239) drops the old value. *)
Definition shrink_to (p : platform) (m : mem) (b : bytes) (lo hi : bound) : res bytes :=
  match start_bound p lo with
  | None => Panic m
  | Some s =>
  match end_bound p b hi with
  | None => Panic m
  | Some e =>
  if negb (s <=? e) then Panic m
  else if negb (e <=? b_len b) then Panic m
  else
    let n := e - s in
    if n <=? N.of_nat (max_inline p) then
      match as_slice p m b with
      | None => Undef
      | Some data =>
          match index_range data s e with
          | None => Panic m
          | Some part =>
              match drop_bytes p m b with
              | Ok _ m' => Ok (inline_unchecked p part) m'
              | Panic m' => Panic m' | Undef => Undef | NoAlloc => NoAlloc
              end
          end
      end
    else
      match ptr_add m (b_start b) s with
      | Some a => Ok (Bytes a n (b_owner b) (b_cap b) (b_vt b)) m
      | None => Undef
      end
  end
  end.

(** bytes.rs L255-258 [subsliced]: consumes [self], which is dropped if [shrink_to] unwinds. *)
Definition subsliced (p : platform) (m : mem) (b : bytes) (lo hi : bound) : res bytes :=
  match shrink_to p m b lo hi with
  | Panic m' => match drop_bytes p m' b with
                | Ok _ m'' => Panic m'' | Panic m'' => Panic m''
                | Undef => Undef | NoAlloc => NoAlloc end
  | r => r
  end.

(** bytes.rs L275-298 [split_at]; [inl] is [Ok((l, r))], [inr] is [Err(self)]. *)
Definition split_at (p : platform) (m : mem) (b : bytes) (i base : N)
  : res ((bytes * bytes) + bytes) :=
  if i <=? len p b then
    if i <=? N.of_nat (max_inline p) then
      (* L277-280 *)
      match as_slice p m b with
      | None => Undef
      | Some data =>
          match index_range data 0 i with
          | None => match drop_bytes p m b with
                    | Ok _ m' => Panic m' | Panic m' => Panic m'
                    | Undef => Undef | NoAlloc => NoAlloc end
          | Some l =>
              (* [left] is inlined: dropping it on unwind is a no-op *)
              match subsliced p m b (Incl i) Unb with
              | Ok r m' => Ok (inl (inline_unchecked p l, r)) m'
              | Panic m' => Panic m' | Undef => Undef | NoAlloc => NoAlloc
              end
          end
      end
    else if len p b - i <=? N.of_nat (max_inline p) then
      (* L282-285 *)
      match as_slice p m b with
      | None => Undef
      | Some data =>
          match index_range data i (N.of_nat (length data)) with
          | None => match drop_bytes p m b with
                    | Ok _ m' => Panic m' | Panic m' => Panic m'
                    | Undef => Undef | NoAlloc => NoAlloc end
          | Some r =>
              match subsliced p m b Unb (Excl i) with
              | Ok l m' => Ok (inl (l, inline_unchecked p r)) m'
              | Panic m' => Panic m' | Undef => Undef | NoAlloc => NoAlloc
              end
          end
      end
    else
      (* L287-292; [self] is dropped on return *)
      match clone p m b base with
      | Ok l m1 =>
          match clone p m1 l base with
          | Ok r m2 =>
              match ptr_add m2 (b_start r) i with
              | None => Undef
              | Some a =>
                  match drop_bytes p m2 b with
                  | Ok _ m3 =>
                      Ok (inl (Bytes (b_start l) i (b_owner l) (b_cap l) (b_vt l),
                               Bytes a (b_len r - i) (b_owner r) (b_cap r) (b_vt r))) m3
                  | Panic m3 => Panic m3 | Undef => Undef | NoAlloc => NoAlloc
                  end
              end
          | Panic m2 => Panic m2 | Undef => Undef | NoAlloc => NoAlloc
          end
      | Panic m1 => Panic m1 | Undef => Undef | NoAlloc => NoAlloc
      end
  else Ok (inr b) m.

(** bytes.rs L338-343 [upgrade]. *)
Definition upgrade (p : platform) (m : mem) (b : bytes) (base : N) : res bytes :=
  match vtable p b with
  | BadVt => Undef
  | NoVt => Ok b m
  | IsVt v =>
      if negb (is_borrowed v) then Ok b m
      else match as_slice p m b with
           | None => Undef
           | Some data =>
               match copied_from_slice p m base data with
               | Ok b' m' => match drop_bytes p m' b with
                             | Ok _ m'' => Ok b' m'' | Panic m'' => Panic m''
                             | Undef => Undef | NoAlloc => NoAlloc end
               | Panic m' => Panic m' | Undef => Undef | NoAlloc => NoAlloc
               end
           end
  end.

(** bytes.rs L348-354 [noalloc_upgrade], with the condition exactly as written on L349.
    [inl]: [Ok], [inr]: [Err]. *)
Definition noalloc_upgrade (p : platform) (m : mem) (b : bytes) : res (bytes + bytes) :=
  match vtable p b with
  | BadVt => Undef
  | vr =>
      let owned := match vr with IsVt v => negb (is_borrowed v) | _ => true end in
      if negb owned then Ok (inl b) m
      else match as_slice p m b with
           | None => Undef
           | Some data =>
               match inline_slice p data with
               | Some b' => match drop_bytes p m b with
                            | Ok _ m' => Ok (inl b') m' | Panic m' => Panic m'
                            | Undef => Undef | NoAlloc => NoAlloc end
               | None => Ok (inr b) m
               end
           end
  end.

(** bytes.rs L375-380 [upgrade_will_allocate] ([false] on the undefined [BadVt]). *)
Definition upgrade_will_allocate (p : platform) (b : bytes) : bool :=
  match vtable p b with
  | IsVt v => is_borrowed v && (N.of_nat (size_of_bytes p) <=? len p b)
  | _ => false
  end.

(** bytes.rs L383-388 [clone_will_allocate]. *)
Definition clone_will_allocate (p : platform) (b : bytes) : bool :=
  match vtable p b with
  | IsVt v => match vt_retain v with None => true | Some _ => false end
              && (N.of_nat (size_of_bytes p) <=? len p b)
  | _ => false
  end.

(** bytes.rs L448-455 [io::Read::read] with a buffer of [n] bytes: returns what was copied into the
    buffer, and the new value of [*self]. *)
Definition read (p : platform) (m : mem) (b : bytes) (n : N) : res (list N * bytes) :=
  let k := N.min (len p b) n in
  match as_slice p m b with
  | None => Undef
  | Some data =>
      match index_range data 0 k with
      | None => Panic m
      | Some chunk =>
          match shrink_to p m b (Incl k) Unb with
          | Ok b' m' => Ok (chunk, b') m'
          | Panic m' => Panic m' | Undef => Undef | NoAlloc => NoAlloc
          end
      end
  end.

(** bytes.rs L716-735 [TryFrom<Bytes> for Arc<[u8]>]: [inl (ptr, len)] is the recovered [Arc],
    [inr] the value handed back.  [None] is undefined behaviour. *)
Definition try_into_arc (p : platform) (b : bytes) : option ((N * N) + bytes) :=
  match vtable p b with
  | NoVt => Some (inr b)
  | BadVt => None
  | IsVt _ =>
      if (b_vt b =? vt_addr p VArc) && (b_start b =? b_owner b) && (b_len b =? b_cap b)
      then Some (inl (b_owner b, b_cap b)) else Some (inr b)
  end.

(** bytes.rs L746-767 [TryFrom<Bytes> for ArcSlice<u8>], likewise; [data.add(value.len)], L758, may be
    undefined. *)
Definition try_into_stab (p : platform) (m : mem) (b : bytes) : option ((N * N) + bytes) :=
  match vtable p b with
  | NoVt => Some (inr b)
  | BadVt => None
  | IsVt _ =>
      if (b_vt b =? vt_addr p VStab) && (b_start b =? b_owner b) then
        match ptr_add m (b_owner b) (b_len b) with
        | Some stop => Some (inl (b_owner b, stop - b_owner b))
        | None => None
        end
      else Some (inr b)
  end.

(** bytes.rs L430-445 [PartialEq], [Ord] and L425-429 [Hash]: functions of [as_slice]. *)
Fixpoint lex (a b : list N) : comparison :=
  match a, b with
  | [], [] => Eq
  | [], _ :: _ => Lt
  | _ :: _, [] => Gt
  | x :: a, y :: b => match N.compare x y with Eq => lex a b | c => c end
  end.
Definition bytes_eq (p : platform) (m : mem) (a b : bytes) : option bool :=
  match as_slice p m a, as_slice p m b with
  | Some x, Some y => Some (bool_decide (x = y))
  | _, _ => None
  end.
Definition bytes_cmp (p : platform) (m : mem) (a b : bytes) : option comparison :=
  match as_slice p m a, as_slice p m b with
  | Some x, Some y => Some (lex x y)
  | _, _ => None
  end.
(** [Hash for [u8]] feeds the length prefix and the bytes to the hasher, here any function. *)
Definition bytes_hash {H} (hasher : list N → H) (p : platform) (m : mem) (b : bytes) : option H :=
  option_map hasher (as_slice p m b).

(** ** Programs using [Bytes]

    The state of a safe Rust program: its memory, its [Bytes] values (each with the lifetime the type
    checker gave it) and its own [Arc]s.  A program is a list of operations; the allocator's choices
    are part of the operations. *)

Inductive lifetime := LStatic | LBorrow (rid : nat).
Global Instance lifetime_eq_dec : EqDecision lifetime.
Proof. solve_decision. Defined.

Record handle := Handle { h_b : bytes; h_lt : lifetime }.
(** An [Arc<[u8]>], an [Arc<T>] or an [ArcSlice<u8>] held by the program. *)
Inductive aty := ASlice | AOf | AStab.
Global Instance aty_eq_dec : EqDecision aty.
Proof. solve_decision. Defined.
Record arc := Arc { a_base : N; a_len : N; a_t : aty }.
(** Its [clone] and [drop] do what [retain] and [release] do with its pointers. *)
Definition a_fn (t : aty) : rfun := match t with ASlice => ArcFn | AOf => ArcTFn | AStab => StabFn end.
Definition a_cap (a : arc) : N :=
  match a_t a with AStab => a_base a + a_len a | _ => a_len a end.

Record state := State {
  st_mem : mem;
  st_h : list (option handle);
  st_arcs : list (option arc);
}.
Definition init : state := State [] [] [].

Inductive op :=
  | ONewStatic (base : N) (data : list N)       (** a [static] exists *)
  | ONewBorrow (base : N) (data : list N)       (** somebody's local buffer *)
  | OEndBorrow (rid : nat)                      (** …goes away *)
  | ONewArc (base : N) (data : list N)          (** [Arc::<[u8]>::from(data)] *)
  | ONewArcT (base : N) (data : list N)         (** [Arc::new(t)] *)
  | OArcClone (i : nat)
  | OArcDrop (i : nat)
  | OFromStatic (rid : nat) (off n : N)
  | OFromSlice (rid : nat) (off n : N)
  | OInlineSlice (data : list N)
  | OCopied (data : list N) (base : N)
  | OFromArc (i : nat)
  | OFromArcT (i : nat) (off n : N)
  | OFromBox (data : list N) (base : N)
  | OClone (h : nat) (base : N)
  | ONoallocClone (h : nat)
  | ODrop (h : nat)
  | OShrink (h : nat) (lo hi : bound)
  | OSubsliced (h : nat) (lo hi : bound)
  | OSplit (h : nat) (i base : N)
  | OUpgrade (h : nat) (base : N)
  | ONoallocUpgrade (h : nat)
  | OIntoArc (h : nat)
  | OAsSlice (h : nat)
  | ORead (h : nat) (n : N)
  | ONewStab (base : N) (data : list N)         (** [ArcSlice::<u8>::from(data)] *)
  | OFromStab (i : nat)
  | OFromStabVec (data : list N) (base : N)     (** from [stabby]'s [Vec<u8>] or [BoxedSlice<u8>] *)
  | OIntoStab (h : nat).

(** What the program gets back. *)
Inductive resp :=
  | RUnit
  | RHandle (h : nat)
  | RPair (h1 h2 : nat)
  | RArc (i : nat)
  | RFail (h : nat)              (** [Err(self)] *)
  | RNone
  | RData (l : list N).

(** [SReject]: not a program the type checker / the allocator admits (dangling index, a buffer released
    while still borrowed, …). *)
Inductive outcome :=
  | SDone (s : state) (r : resp)
  | SPanic (s : state)
  | SUndef
  | SReject.

Definition get_h (s : state) (h : nat) : option handle := mjoin (st_h s !! h).
Definition get_arc (s : state) (i : nat) : option arc := mjoin (st_arcs s !! i).
Definition set_h (s : state) (h : nat) (x : option handle) : list (option handle) :=
  <[h := x]> (st_h s).

(** A new value for the program. *)
Definition push_h (s : state) (m : mem) (x : handle) : outcome :=
  SDone (State m (st_h s ++ [Some x]) (st_arcs s)) (RHandle (length (st_h s))).

(** Value [h] is moved out and becomes [x]. *)
Definition replace_h (s : state) (m : mem) (h : nat) (x : handle) (r : resp) : outcome :=
  SDone (State m (set_h s h (Some x)) (st_arcs s)) r.

Definition borrows (rid : nat) (x : option handle) : bool :=
  match x with Some y => bool_decide (h_lt y = LBorrow rid) | None => false end.

Definition with_h (s : state) (h : nat) (f : handle → outcome) : outcome :=
  match get_h s h with Some x => f x | None => SReject end.

(** Slices of a region: [&region[off .. off+n]]. *)
Definition region_slice (r : region) (off n : N) : option (list N) :=
  if off + n <=? r_len r then Some (take (N.to_nat n) (drop (N.to_nat off) (r_data r))) else None.

Definition is_byte (x : N) : bool := x <? 256.

Definition step (p : platform) (s : state) (o : op) : outcome :=
  match o with
  | ONewStatic base data =>
      if forallb is_byte data then
      match alloc p (st_mem s) base data KStatic with
      | Ok _ m => SDone (State m (st_h s) (st_arcs s)) RUnit
      | _ => SReject
      end else SReject
  | ONewBorrow base data =>
      if forallb is_byte data then
      match alloc p (st_mem s) base data KBorrow with
      | Ok _ m => SDone (State m (st_h s) (st_arcs s)) RUnit
      | _ => SReject
      end else SReject
  | OEndBorrow rid =>
      (* the borrow checker: no value of a type mentioning the lifetime is still around *)
      match st_mem s !! rid with
      | Some r =>
          match r_kind r with
          | KBorrow =>
              if r_live r && negb (existsb (borrows rid) (st_h s))
              then SDone (State (<[rid := kill r]> (st_mem s)) (st_h s) (st_arcs s)) RUnit
              else SReject
          | _ => SReject
          end
      | None => SReject
      end
  | ONewArc base data =>
      if forallb is_byte data then
      match alloc p (st_mem s) base data (KArc 1) with
      | Ok _ m => SDone (State m (st_h s)
                    (st_arcs s ++ [Some (Arc base (N.of_nat (length data)) ASlice)]))
                    (RArc (length (st_arcs s)))
      | _ => SReject
      end else SReject
  | ONewArcT base data =>
      if forallb is_byte data then
      match alloc p (st_mem s) base data (KArcT 1) with
      | Ok _ m => SDone (State m (st_h s)
                    (st_arcs s ++ [Some (Arc base (N.of_nat (length data)) AOf)]))
                    (RArc (length (st_arcs s)))
      | _ => SReject
      end else SReject
  | OArcClone i =>
      match get_arc s i with
      | Some a =>
          match call_retain (a_fn (a_t a)) (a_base a) (a_cap a) (st_mem s) with
          | Some m => SDone (State m (st_h s) (st_arcs s ++ [Some a])) (RArc (length (st_arcs s)))
          | None => SUndef
          end
      | None => SReject
      end
  | OArcDrop i =>
      match get_arc s i with
      | Some a =>
          match call_release (a_fn (a_t a)) (a_base a) (a_cap a) (st_mem s) with
          | Some m => SDone (State m (st_h s) (<[i := None]> (st_arcs s))) RUnit
          | None => SUndef
          end
      | None => SReject
      end
  | OFromStatic rid off n =>
      match st_mem s !! rid with
      | Some r =>
          match r_kind r, r_live r, region_slice r off n with
          | KStatic, true, Some _ =>
              push_h s (st_mem s) (Handle (from_static p (r_base r + off) n) LStatic)
          | _, _, _ => SReject
          end
      | None => SReject
      end
  | OFromSlice rid off n =>
      match st_mem s !! rid with
      | Some r =>
          match r_kind r, r_live r, region_slice r off n with
          | KBorrow, true, Some data =>
              push_h s (st_mem s) (Handle (from_slice p (r_base r + off) data) (LBorrow rid))
          | _, _, _ => SReject
          end
      | None => SReject
      end
  | OInlineSlice data =>
      if forallb is_byte data then
      match inline_slice p data with
      | Some b => push_h s (st_mem s) (Handle b LStatic)
      | None => SDone s RNone
      end else SReject
  | OCopied data base =>
      if forallb is_byte data then
      match copied_from_slice p (st_mem s) base data with
      | Ok b m => push_h s m (Handle b LStatic)
      | _ => SReject
      end else SReject
  | OFromArc i =>
      match get_arc s i with
      | Some a =>
          if bool_decide (a_t a = ASlice)
          then SDone (State (st_mem s) (st_h s ++ [Some (Handle (from_arc p (a_base a) (a_len a)) LStatic)])
                        (<[i := None]> (st_arcs s))) (RHandle (length (st_h s)))
          else SReject
      | None => SReject
      end
  | OFromArcT i off n =>
      match get_arc s i with
      | Some a =>
          if bool_decide (a_t a = AOf) && (off + n <=? a_len a)
          then SDone (State (st_mem s)
                        (st_h s ++ [Some (Handle (from_arct p (a_base a) (a_base a + off) n) LStatic)])
                        (<[i := None]> (st_arcs s))) (RHandle (length (st_h s)))
          else SReject
      | None => SReject
      end
  | OFromBox data base =>
      (* a boxed slice of length 0 has no allocation and a dangling (aligned, non-null) pointer *)
      if forallb is_byte data then
      match data with
      | [] => push_h s (st_mem s) (Handle (from_box p 1 0) LStatic)
      | _ =>
          match alloc p (st_mem s) base data KBox with
          | Ok _ m => push_h s m (Handle (from_box p base (N.of_nat (length data))) LStatic)
          | _ => SReject
          end
      end else SReject
  | OClone h base => with_h s h (λ x,
      match clone p (st_mem s) (h_b x) base with
      | Ok b m => push_h s m (Handle b (h_lt x))
      | Panic m => SPanic (State m (st_h s) (st_arcs s))
      | Undef => SUndef | NoAlloc => SReject
      end)
  | ONoallocClone h => with_h s h (λ x,
      match noalloc_clone p (st_mem s) (h_b x) with
      | Ok (Some b) m => push_h s m (Handle b (h_lt x))
      | Ok None m => SDone (State m (st_h s) (st_arcs s)) RNone
      | Panic m => SPanic (State m (st_h s) (st_arcs s))
      | Undef => SUndef | NoAlloc => SReject
      end)
  | ODrop h => with_h s h (λ x,
      match drop_bytes p (st_mem s) (h_b x) with
      | Ok _ m => SDone (State m (set_h s h None) (st_arcs s)) RUnit
      | Panic m => SPanic (State m (set_h s h None) (st_arcs s))
      | Undef => SUndef | NoAlloc => SReject
      end)
  | OShrink h lo hi => with_h s h (λ x,
      match shrink_to p (st_mem s) (h_b x) lo hi with
      | Ok b m => replace_h s m h (Handle b (h_lt x)) RUnit
      | Panic m => SPanic (State m (st_h s) (st_arcs s))
      | Undef => SUndef | NoAlloc => SReject
      end)
  | OSubsliced h lo hi => with_h s h (λ x,
      match subsliced p (st_mem s) (h_b x) lo hi with
      | Ok b m => replace_h s m h (Handle b (h_lt x)) (RHandle h)
      | Panic m => SPanic (State m (set_h s h None) (st_arcs s))
      | Undef => SUndef | NoAlloc => SReject
      end)
  | OSplit h i base => with_h s h (λ x,
      match split_at p (st_mem s) (h_b x) i base with
      | Ok (inl (l, r)) m =>
          SDone (State m (set_h s h (Some (Handle l (h_lt x))) ++ [Some (Handle r (h_lt x))]) (st_arcs s))
                (RPair h (length (st_h s)))
      | Ok (inr b) m => replace_h s m h (Handle b (h_lt x)) (RFail h)
      | Panic m => SPanic (State m (set_h s h None) (st_arcs s))
      | Undef => SUndef | NoAlloc => SReject
      end)
  | OUpgrade h base => with_h s h (λ x,
      match upgrade p (st_mem s) (h_b x) base with
      | Ok b m => replace_h s m h (Handle b LStatic) (RHandle h)
      | Panic m => SPanic (State m (set_h s h None) (st_arcs s))
      | Undef => SUndef | NoAlloc => SReject
      end)
  | ONoallocUpgrade h => with_h s h (λ x,
      match noalloc_upgrade p (st_mem s) (h_b x) with
      | Ok (inl b) m => replace_h s m h (Handle b LStatic) (RHandle h)
      | Ok (inr b) m => replace_h s m h (Handle b (h_lt x)) (RFail h)
      | Panic m => SPanic (State m (set_h s h None) (st_arcs s))
      | Undef => SUndef | NoAlloc => SReject
      end)
  | OIntoArc h => with_h s h (λ x,
      match try_into_arc p (h_b x) with
      | Some (inl (base, n)) =>
          SDone (State (st_mem s) (set_h s h None) (st_arcs s ++ [Some (Arc base n ASlice)]))
                (RArc (length (st_arcs s)))
      | Some (inr b) => replace_h s (st_mem s) h (Handle b (h_lt x)) (RFail h)
      | None => SUndef
      end)
  | OAsSlice h => with_h s h (λ x,
      match as_slice p (st_mem s) (h_b x) with
      | Some l => SDone s (RData l)
      | None => SUndef
      end)
  | ORead h n => with_h s h (λ x,
      match read p (st_mem s) (h_b x) n with
      | Ok (l, b) m => replace_h s m h (Handle b (h_lt x)) (RData l)
      | Panic m => SPanic (State m (st_h s) (st_arcs s))
      | Undef => SUndef | NoAlloc => SReject
      end)
  | ONewStab base data =>
      if stabby p && forallb is_byte data then
      match alloc p (st_mem s) base data (KStab 1) with
      | Ok _ m => SDone (State m (st_h s)
                    (st_arcs s ++ [Some (Arc base (N.of_nat (length data)) AStab)]))
                    (RArc (length (st_arcs s)))
      | _ => SReject
      end else SReject
  | OFromStab i =>
      match get_arc s i with
      | Some a =>
          if bool_decide (a_t a = AStab)
          then SDone (State (st_mem s) (st_h s ++ [Some (Handle (from_stab p (a_base a) (a_len a)) LStatic)])
                        (<[i := None]> (st_arcs s))) (RHandle (length (st_h s)))
          else SReject
      | None => SReject
      end
  | OFromStabVec data base =>
      (* L633-644; the counts need room in front of no bytes, too *)
      if stabby p && forallb is_byte data then
      match alloc p (st_mem s) base data (KStab 1) with
      | Ok _ m => push_h s m (Handle (from_stab p base (N.of_nat (length data))) LStatic)
      | _ => SReject
      end else SReject
  | OIntoStab h => with_h s h (λ x,
      if stabby p then
      match try_into_stab p (st_mem s) (h_b x) with
      | Some (inl (base, n)) =>
          SDone (State (st_mem s) (set_h s h None) (st_arcs s ++ [Some (Arc base n AStab)]))
                (RArc (length (st_arcs s)))
      | Some (inr b) => replace_h s (st_mem s) h (Handle b (h_lt x)) (RFail h)
      | None => SUndef
      end else SReject)
  end.

(** Running a whole program; stops at undefined behaviour or at an operation that cannot be written.
    After a panic the program goes on (somebody caught it). *)
Fixpoint run (p : platform) (s : state) (l : list op) : outcome :=
  match l with
  | [] => SDone s RUnit
  | o :: l =>
      match step p s o with
      | SDone s' _ => run p s' l
      | SPanic s' => run p s' l
      | SUndef => SUndef
      | SReject => SReject
      end
  end.
