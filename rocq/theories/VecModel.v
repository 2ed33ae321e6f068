(** Model of vectors, strings, boxes and slices with a C layout.

    Sources (all in /repo/src):
    - vec.rs 20-46 as_ref, as_mut; 48-85 conversions; 87-100 drop; 102-130
      deref; 149-156 EMPTY; 158-172 with_rust_mut; 175-184 clone
    - slice.rs 58-95 slice_raw; 132-163, 166-245 slice_boxed; 286-340, 385-394
      slice_ref; 430-520, 550-559 slice_mut
    - boxed.rs 16-88, 102-110 Box_
    - string/_mod.rs 24-57 conversions and deref of String, 92-131 EMPTY,
      with_rust_mut, clone
    - string/slice.rs 21-60 str_boxed, 92-110 back; 122-158 str_ref
    - ptr.rs: NonNullOwned and friends are the pointers they wrap

    Memory is a list of blocks, each with its size in elements and the
    elements that are initialised, which come first.  An element is a number;
    those of a zero-sized type are all 0 and take no memory.  The functions of
    the standard library used are modelled by what they document, with the
    violation of their conditions an explicit result, [Undef].  A program is a
    term of [cmd]; closures given to [with_rust_mut] are such terms, and may
    panic anywhere.  Panics in destructors of elements are left out, and so is
    the aborting of the process when memory runs out. *)

From Coq Require Import NArith List Bool.
From stdpp Require Import base numbers list.
From Verif Require Import CStrModel.
Local Open Scope N_scope.

Notation elem := N (only parsing).

(** ** Memory *)

(** [At b o]: element [o] of block [b].  [Dangling]: aligned, not null,
    pointing nowhere. *)
Inductive ptr := Null | Dangling | At (b off : nat).
Record block := Block { size : N; data : list elem; freed : bool }.
Inductive event :=
| EAlloc (b : nat) (n : N) | EFree (b : nat) (n : N)
| EDrop (x : elem)                           (* an element is dropped *)
| ERead (xs : list elem) (cap : option N).   (* what a program reads *)
Record heap := Heap { blocks : list block; events : list event }.
Inductive res (A : Type) := Ok (x : A) | Undef.
Arguments Ok {A} x.
Arguments Undef {A}.
Definition bind {A B} (r : res A) (f : A → res B) : res B :=
  match r with Ok x => f x | Undef => Undef end.
Notation "x ← r ; k" := (bind r (λ x, k)) (at level 20, r at level 100, k at level 200, only parsing).

Definition is_null (p : ptr) : bool := match p with Null => true | _ => false end.
Definition note (es : list event) (h : heap) : heap := Heap (blocks h) (events h ++ es)%list.
Definition drop_elems (xs : list elem) (h : heap) : heap := note (map EDrop xs) h.
(** Allocation of [n] elements, the first ones being [xs]; [z]: zero-sized. *)
Definition alloc (z : bool) (n : N) (xs : list elem) (h : heap) : heap * ptr :=
  if z || (n =? 0) then (h, Dangling)
  else
    let b := List.length (blocks h) in
    (Heap (blocks h ++ [Block n xs false]) (events h ++ [EAlloc b n]), At b 0)%list.
Definition dealloc (z : bool) (p : ptr) (n : N) (h : heap) : res heap :=
  if z || (n =? 0) then if is_null p then Undef else Ok h
  else
    match p with
    | At b O =>
        match blocks h !! b with
        | Some (Block m _ false) =>
            if m =? n then Ok (Heap (<[b := Block m [] true]> (blocks h)) (events h ++ [EFree b n])%list) else Undef
        | _ => Undef
        end
    | _ => Undef
    end.
(** [slice::from_raw_parts], and reading all of it. *)
Definition from_raw_parts (z : bool) (p : ptr) (len : nat) (h : heap) : res (list elem) :=
  match p with
  | Null => Undef
  | Dangling => if z then Ok (repeat 0 len) else match len with O => Ok [] | _ => Undef end
  | At b off =>
      if z then Ok (repeat 0 len)
      else
        match blocks h !! b with
        | Some (Block _ xs false) =>
            if (off + len <=? List.length xs)%nat then Ok (firstn len (skipn off xs)) else Undef
        | _ => Undef
        end
  end.
(** Which elements of the block are initialised, and their values. *)
Definition set_data (z : bool) (p : ptr) (xs : list elem) (h : heap) : res heap :=
  if z then if is_null p then Undef else Ok h
  else
    match p, xs with
    | Null, _ => Undef
    | Dangling, [] => Ok h
    | At b O, _ =>
        match blocks h !! b with
        | Some (Block n _ false) =>
            if N.of_nat (List.length xs) <=? n then Ok (Heap (<[b := Block n xs false]> (blocks h)) (events h)) else Undef
        | _ => Undef
        end
    | _, _ => Undef
    end.

(** ** Vectors and boxes of the standard library *)

Definition USIZE_MAX : N := 18446744073709551615.
Record rvec := RVec { rp : ptr; rl : nat; rc : N }.
(** [Box<[T]>]; a [Box<T>] is its pointer. *)
Record rbox := RBox { bp : ptr; bl : nat }.

Definition vec_new (z : bool) (xs : list elem) (g : N) (h : heap) : heap * rvec :=
  let cap := if z then USIZE_MAX else N.max g (N.of_nat (List.length xs)) in
  let '(h, p) := alloc z cap xs h in (h, RVec p (List.length xs) cap).
(** [Vec::from_raw_parts]: allocated with just that capacity. *)
Definition vec_from_raw_parts (z : bool) (p : ptr) (len : nat) (cap : N) (h : heap) : res rvec :=
  if z then if is_null p then Undef else Ok (RVec p len USIZE_MAX)
  else if cap =? 0 then if is_null p || negb (len =? 0)%nat then Undef else Ok (RVec p len cap)
  else
    match p with
    | At b O =>
        match blocks h !! b with
        | Some (Block n xs false) =>
            if (n =? cap) && (len <=? List.length xs)%nat then Ok (RVec p len cap) else Undef
        | _ => Undef
        end
    | _ => Undef
    end.
Definition vec_read (z : bool) (v : rvec) (h : heap) : res (list elem) := from_raw_parts z (rp v) (rl v) h.
Definition vec_drop (z : bool) (v : rvec) (h : heap) : res heap :=
  xs ← vec_read z v h; dealloc z (rp v) (rc v) (drop_elems xs h).
(** Moves to an allocation of [n] elements. *)
Definition vec_realloc (z : bool) (v : rvec) (n : N) (h : heap) : res (heap * rvec) :=
  if z || (n =? rc v) then Ok (h, v)
  else
    xs ← vec_read z v h;
    let '(h, p) := alloc z n xs h in
    h ← dealloc z (rp v) (rc v) h;
    Ok (h, RVec p (rl v) n).
Definition vec_into_box (z : bool) (v : rvec) (h : heap) : res (heap * rbox) :=
  r ← vec_realloc z v (N.of_nat (rl v)) h; Ok (r.1, RBox (rp r.2) (rl r.2)).
Definition box_into_vec (z : bool) (b : rbox) : rvec :=
  RVec (bp b) (bl b) (if z then USIZE_MAX else N.of_nat (bl b)).
(** [Box::<[T]>::from_raw]; with [len] 1, [Box::<T>::from_raw]. *)
Definition box_from_raw (z : bool) (p : ptr) (len : nat) (h : heap) : res rbox :=
  v ← vec_from_raw_parts z p len (N.of_nat len) h; Ok (RBox (rp v) (rl v)).
Definition box_drop (z : bool) (b : rbox) (h : heap) : res heap :=
  xs ← from_raw_parts z (bp b) (bl b) h; dealloc z (bp b) (N.of_nat (bl b)) (drop_elems xs h).

(** What code may do to a [&mut Vec<T>]; [g] is what the allocator policy asks
    for, or a panic. *)
Inductive vop :=
| VPush (x : elem) (g : option N) | VExtend (xs : list elem) (g : option N)
| VPop | VTruncate (n : nat) | VReserve (n : N) (g : option N) | VShrink.
(** The second result is whether it panics. *)
Definition vec_reserve (z : bool) (v : rvec) (n : N) (g : option N) (h : heap) : res (heap * rvec * bool) :=
  if N.of_nat (rl v) + n <=? rc v then Ok (h, v, false)
  else
    match g with
    | Some g => if z then Ok (h, v, true) else r ← vec_realloc z v (N.max g (N.of_nat (rl v) + n)) h; Ok (r, false)
    | None => Ok (h, v, true)
    end.
Definition elem_of (z : bool) (x : elem) : elem := if z then 0 else x.
Definition vec_op (z : bool) (o : vop) (v : rvec) (h : heap) : res (heap * rvec * bool) :=
  match o with
  | VPush x g =>
      r ← vec_reserve z v 1 g h;
      let '(h, v, bad) := r in
      if bad then Ok (drop_elems [elem_of z x] h, v, true)
      else
        xs ← vec_read z v h;
        h ← set_data z (rp v) (xs ++ [x])%list h;
        Ok (h, RVec (rp v) (S (rl v)) (rc v), false)
  | VExtend ys g =>
      r ← vec_reserve z v (N.of_nat (List.length ys)) g h;
      let '(h, v, bad) := r in
      if bad then Ok (h, v, true)
      else
        xs ← vec_read z v h;
        h ← set_data z (rp v) (xs ++ ys)%list h;
        Ok (h, RVec (rp v) (rl v + List.length ys) (rc v), false)
  | VPop =>
      match rl v with
      | O => Ok (h, v, false)
      | S n =>
          xs ← vec_read z v h;
          h ← set_data z (rp v) (firstn n xs) h;
          Ok (drop_elems (skipn n xs) h, RVec (rp v) n (rc v), false)
      end
  | VTruncate n =>
      if (rl v <=? n)%nat then Ok (h, v, false)
      else
        xs ← vec_read z v h;
        h ← set_data z (rp v) (firstn n xs) h;
        Ok (drop_elems (skipn n xs) h, RVec (rp v) n (rc v), false)
  | VReserve n g => vec_reserve z v n g h
  | VShrink => r ← vec_realloc z v (N.of_nat (rl v)) h; Ok (r, false)
  end.

(** ** The types of the crate *)

(** vec.rs 7-18; slice.rs 119-127, 286-301 *)
Record cvec := CVec { ptr_ : ptr; len_ : nat; cap_ : N }.
Record cbox := CBox { cptr : ptr; clen : nat }.
Record slice := Slice { sptr : ptr; slen : nat }.

(** vec.rs 48-66 *)
Definition cvec_from (vec : rvec) : cvec :=
  let len := rl vec in
  let cap := rc vec in
  let ptr := rp vec in
  CVec ptr len cap.
(** vec.rs 69-85 *)
Definition cvec_into (z : bool) (this : cvec) (h : heap) : res rvec :=
  vec_from_raw_parts z (ptr_ this) (len_ this) (cap_ this) h.
(** vec.rs 87-100 *)
Definition cvec_drop (z : bool) (self : cvec) (h : heap) : res heap :=
  v ← cvec_into z self h; vec_drop z v h.
(** vec.rs 102-116 *)
Definition cvec_deref (z : bool) (self : cvec) (h : heap) : res (list elem) :=
  from_raw_parts z (ptr_ self) (len_ self) h.
(** vec.rs 20-46 *)
Definition cvec_as_ref (self : cvec) : slice := Slice (ptr_ self) (len_ self).
(** vec.rs 149-156 *)
Definition cvec_EMPTY : cvec := CVec Dangling 0 0.
(** vec.rs 175-184; [to_owned] allocates for [g] elements at least, and may
    panic after cloning [n] elements. *)
Definition cvec_clone (z : bool) (self : cvec) (g : N) (panic : option nat) (h : heap) : res (heap * option cvec) :=
  xs ← cvec_deref z self h;
  match panic with
  | Some n =>
      if (n <? List.length xs)%nat then
        let '(h, v) := vec_new z (firstn n xs) (N.max g (N.of_nat (List.length xs))) h in
        h ← vec_drop z v h; Ok (h, None)
      else let '(h, v) := vec_new z xs g h in Ok (h, Some (cvec_from v))
  | None => let '(h, v) := vec_new z xs g h in Ok (h, Some (cvec_from v))
  end.

(** slice.rs 166-183 *)
Definition cbox_from (boxed_slice : rbox) : cbox := CBox (bp boxed_slice) (bl boxed_slice).
(** slice.rs 185-201 *)
Definition cbox_into (z : bool) (this : cbox) (h : heap) : res rbox :=
  _ ← from_raw_parts z (cptr this) (clen this) h;
  box_from_raw z (cptr this) (clen this) h.
(** slice.rs 203-219 *)
Definition cbox_drop (z : bool) (self : cbox) (h : heap) : res heap :=
  _ ← from_raw_parts z (cptr self) (clen self) h;
  b ← box_from_raw z (cptr self) (clen self) h;
  box_drop z b h.
(** slice.rs 221-245 *)
Definition cbox_deref (z : bool) (self : cbox) (h : heap) : res (list elem) :=
  from_raw_parts z (cptr self) (clen self) h.

(** slice.rs 303-317, 430-444: from a slice at [p] of [len] elements. *)
Definition slice_from (p : ptr) (len : nat) : slice := Slice p len.
(** slice.rs 319-328, 511-519 *)
Definition as_slice (z : bool) (self : slice) (h : heap) : res (list elem) :=
  from_raw_parts z (sptr self) (slen self) h.
(** slice.rs 385-394, 550-559 and 58-95: through [slice_raw] and back. *)
Definition raw_from (s : slice) : ptr * nat := (sptr s, slen s).
Definition raw_as_ref (r : ptr * nat) : slice := Slice r.1 r.2.
(** slice.rs 446-456, 482-508: [slice_mut] as [slice_ref] or anew. *)
Definition mut_as_ref (s : slice) : slice := Slice (sptr s) (slen s).
(** slice.rs 132-147: [Into::into(&self[..])] *)
Definition cbox_as_ref (self : cbox) : slice := slice_from (cptr self) (clen self).

(** [str::from_utf8_unchecked] *)
Definition from_utf8_unchecked (xs : list elem) : res (list elem) := if utf8 xs then Ok xs else Undef.
(** string/_mod.rs 24-33, 35-47, 49-59 *)
Definition cstring_from (s : rvec) : cvec := cvec_from s.
Definition cstring_into (value : cvec) (h : heap) : res rvec :=
  v ← cvec_into false value h; xs ← vec_read false v h; _ ← from_utf8_unchecked xs; Ok v.
Definition cstring_deref (self : cvec) (h : heap) : res (list elem) :=
  xs ← cvec_deref false self h; from_utf8_unchecked xs.
(** string/slice.rs 21-42, 92-102, 104-110 *)
Definition cstr_from (boxed_str : rbox) : cbox := cbox_from boxed_str.
Definition cstr_from_string (string : rvec) (h : heap) : res (heap * cbox) :=
  r ← vec_into_box false string h; Ok (r.1, cstr_from r.2).
Definition cstr_into (value : cbox) (h : heap) : res rbox :=
  b ← cbox_into false value h; xs ← from_raw_parts false (bp b) (bl b) h; _ ← from_utf8_unchecked xs; Ok b.
Definition cstr_into_string (value : cbox) (h : heap) : res rvec :=
  b ← cstr_into value h; Ok (box_into_vec false b).
(** string/slice.rs 54-72, 122-158: as_ref, as_str *)
Definition as_str (self : slice) (h : heap) : res (list elem) :=
  xs ← from_raw_parts false (sptr self) (slen self) h; from_utf8_unchecked xs.
Definition cstr_deref (self : cbox) (h : heap) : res (list elem) := as_str (cbox_as_ref self) h.

(** boxed.rs 16-27, 38-47, 50-62, 64-76 *)
Definition box1_from (boxed : ptr) : ptr := boxed.
Definition box1_into (z : bool) (self : ptr) (h : heap) : res ptr :=
  b ← box_from_raw z self 1 h; Ok (bp b).
Definition box1_drop (z : bool) (self : ptr) (h : heap) : res heap :=
  b ← box_from_raw z self 1 h; box_drop z b h.
Definition box1_deref (z : bool) (self : ptr) (h : heap) : res (list elem) := from_raw_parts z self 1 h.
(** boxed.rs 102-110 *)
Definition box1_clone (z : bool) (self : ptr) (panic : bool) (h : heap) : res (heap * option ptr) :=
  xs ← box1_deref z self h;
  if panic then Ok (h, None)
  else let '(h, p) := alloc z 1 xs h in Ok (h, Some (box1_from p)).

(** ** Programs *)

(** The types of variables; those of the crate have a [C]. *)
Inductive form := FVec | FCVec | FBox | FCBox | FString | FCString | FStr | FCStr | FOne | FCOne.
Inductive handle :=
| HVec (z : bool) (v : rvec) | HCVec (z : bool) (v : cvec)
| HBox (z : bool) (b : rbox) | HCBox (z : bool) (b : cbox)
| HString (v : rvec) | HCString (v : cvec) | HStr (b : rbox) | HCStr (b : cbox)
| HOne (z : bool) (p : ptr) | HCOne (z : bool) (p : ptr).
(** A variable: moved or not yet; owned; mutably borrowed by a
    [with_rust_mut]; or what that gives its closure a [&mut] to. *)
Inductive slot := Gone | Own (k : handle) | Lent (k : handle) | Local (k : handle).
Record state := State { mem : heap; slots : list slot }.
Definition init : state := State (Heap [] []) [].

(** How to read: [*x], [x.as_ref()], [x.as_mut()], or a part of it as a slice
    through C and back. *)
Inductive how := Deref | AsRef | AsMut | Sub (a b : nat).
Inductive op :=
| New (f : form) (z : bool) (xs : list elem) (g : N)
| Empty (f : form) (z : bool)
| Conv (i : nat) (f : form)
| VOp (i : nat) (o : vop)
| Swap (i j : nat)
| Read (i : nat) (w : how)
| Write (i k : nat) (x : elem)
| Clone (i : nat) (g : N) (panic : option nat)
| Drop (i : nat).
Inductive cmd :=
| Skip | Prim (o : op) | Seq (c d : cmd) | Panic | Catch (c : cmd)
| With (i : nat) (c : cmd).   (* with_rust_mut on variable i *)

Inductive out := Done (s : state) | Panicked (s : state) | UB | Stuck.
Definition lift {A} (r : res A) (f : A → out) : out := match r with Ok x => f x | Undef => UB end.
Definition set_slot (i : nat) (k : slot) (s : state) : state := State (mem s) (<[i := k]> (slots s)).
Definition with_mem (h : heap) (s : state) : state := State h (slots s).
Definition add_slot (k : slot) (s : state) : state := State (mem s) (slots s ++ [k])%list.

Definition new (f : form) (z : bool) (xs : list elem) (g : N) (h : heap) : option (heap * handle) :=
  let xs := map (elem_of z) xs in
  match f with
  | FVec => let '(h, v) := vec_new z xs g h in Some (h, HVec z v)
  | FBox => let '(h, p) := alloc z (N.of_nat (List.length xs)) xs h in Some (h, HBox z (RBox p (List.length xs)))
  | FString => if utf8 xs && negb z then let '(h, v) := vec_new z xs g h in Some (h, HString v) else None
  | FStr =>
      if utf8 xs && negb z then
        let '(h, p) := alloc z (N.of_nat (List.length xs)) xs h in Some (h, HStr (RBox p (List.length xs)))
      else None
  | FOne => match xs with [_] => let '(h, p) := alloc z 1 xs h in Some (h, HOne z p) | _ => None end
  | _ => None
  end.
Definition empty (f : form) (z : bool) : option handle :=
  match f, z with
  | FCVec, _ => Some (HCVec z cvec_EMPTY)
  | FCString, false => Some (HCString cvec_EMPTY)
  | _, _ => None
  end.
(** The conversions, of the crate and of the standard library. *)
Definition conv (f : form) (k : handle) (h : heap) : option (res (heap * handle)) :=
  match k, f with
  | HVec z v, FCVec => Some (Ok (h, HCVec z (cvec_from v)))
  | HVec z v, FBox => Some (r ← vec_into_box z v h; Ok (r.1, HBox z r.2))
  | HCVec z v, FVec => Some (v ← cvec_into z v h; Ok (h, HVec z v))
  | HBox z b, FVec => Some (Ok (h, HVec z (box_into_vec z b)))
  | HBox z b, FCBox => Some (Ok (h, HCBox z (cbox_from b)))
  | HCBox z b, FBox => Some (b ← cbox_into z b h; Ok (h, HBox z b))
  | HString v, FCString => Some (Ok (h, HCString (cstring_from v)))
  | HString v, FVec => Some (Ok (h, HVec false v))
  | HString v, FStr => Some (r ← vec_into_box false v h; Ok (r.1, HStr r.2))
  | HString v, FCStr => Some (r ← cstr_from_string v h; Ok (r.1, HCStr r.2))
  | HCString v, FString => Some (v ← cstring_into v h; Ok (h, HString v))
  | HStr b, FString => Some (Ok (h, HString (box_into_vec false b)))
  | HStr b, FCStr => Some (Ok (h, HCStr (cstr_from b)))
  | HCStr b, FStr => Some (b ← cstr_into b h; Ok (h, HStr b))
  | HCStr b, FString => Some (v ← cstr_into_string b h; Ok (h, HString v))
  | HOne z p, FCOne => Some (Ok (h, HCOne z (box1_from p)))
  | HCOne z p, FOne => Some (p ← box1_into z p h; Ok (h, HOne z p))
  | _, _ => None
  end.
Definition drop_handle (k : handle) (h : heap) : res heap :=
  match k with
  | HVec z v => vec_drop z v h
  | HCVec z v => cvec_drop z v h
  | HBox z b => box_drop z b h
  | HCBox z b => cbox_drop z b h
  | HString v => vec_drop false v h
  | HCString v => cvec_drop false v h
  | HStr b => box_drop false b h
  | HCStr b => cbox_drop false b h
  | HOne z p => box_drop z (RBox p 1) h
  | HCOne z p => box1_drop z p h
  end.
Definition deref (k : handle) (h : heap) : res (list elem) :=
  match k with
  | HVec z v => vec_read z v h
  | HCVec z v => cvec_deref z v h
  | HBox z b => from_raw_parts z (bp b) (bl b) h
  | HCBox z b => cbox_deref z b h
  | HString v => vec_read false v h
  | HCString v => cstring_deref v h
  | HStr b => from_raw_parts false (bp b) (bl b) h
  | HCStr b => cstr_deref b h
  | HOne z p => from_raw_parts z p 1 h
  | HCOne z p => box1_deref z p h
  end.
(** The slice of the elements, as a Rust reference would have it. *)
Definition whole (k : handle) : option (bool * ptr * nat) :=
  match k with
  | HVec z v => Some (z, rp v, rl v)
  | HCVec z v => Some (z, ptr_ v, len_ v)
  | HBox z b => Some (z, bp b, bl b)
  | HCBox z b => Some (z, cptr b, clen b)
  | HString v => Some (false, rp v, rl v)
  | HCString v => Some (false, ptr_ v, len_ v)
  | HStr b => Some (false, bp b, bl b)
  | HCStr b => Some (false, cptr b, clen b)
  | HOne z p | HCOne z p => Some (z, p, 1%nat)
  end.
Definition as_ref (k : handle) (h : heap) : option (res (list elem)) :=
  match k with
  | HCVec z v => Some (as_slice z (cvec_as_ref v) h)
  | HCBox z b => Some (as_slice z (cbox_as_ref b) h)
  | HCStr b => Some (as_str (cbox_as_ref b) h)
  | _ => None
  end.
Definition as_mut (k : handle) (h : heap) : option (res (list elem)) :=
  match k with
  | HCVec z v => Some (as_slice z (mut_as_ref (cvec_as_ref v)) h)
  | HCBox z b => Some (as_slice z (mut_as_ref (cbox_as_ref b)) h)
  | _ => None
  end.
Definition ptr_add (p : ptr) (n : nat) : ptr := match p with At b o => At b (o + n) | p => p end.
Definition capacity (k : handle) : option N :=
  match k with
  | HVec _ v | HString v => Some (rc v)
  | HCVec _ v | HCString v => Some (cap_ v)
  | _ => None
  end.
(** [None]: no such program. *)
Definition read (k : handle) (w : how) (h : heap) : option (res (list elem)) :=
  match w with
  | Deref => Some (deref k h)
  | AsRef => as_ref k h
  | AsMut => as_mut k h
  | Sub a b =>
      match whole k with
      | Some (z, p, len) =>
          if (a <=? b)%nat && (b <=? len)%nat then
            Some (as_slice z (raw_as_ref (raw_from (slice_from (if z then p else ptr_add p a) (b - a)))) h)
          else None
      | None => None
      end
  end.
(** [x[k] = y] with the old element dropped; [Ok None] is a panic. *)
Definition write (hd : handle) (k : nat) (x : elem) (h : heap) : option (res (option heap)) :=
  match hd with
  | HVec _ _ | HCVec _ _ | HBox _ _ | HCBox _ _ | HOne _ _ | HCOne _ _ =>
      match whole hd with
      | Some (z, p, len) =>
          Some
            (xs ← from_raw_parts z p len h;
             match xs !! k with
             | Some y => h ← set_data z p (<[k := x]> xs) h; Ok (Some (drop_elems [y] h))
             | None => Ok None
             end)
      | None => None
      end
  | _ => None
  end.
Definition prim (o : op) (s : state) : out :=
  match o with
  | New f z xs g =>
      match new f z xs g (mem s) with
      | Some (h, k) => Done (add_slot (Own k) (with_mem h s))
      | None => Stuck
      end
  | Empty f z => match empty f z with Some k => Done (add_slot (Own k) s) | None => Stuck end
  | Conv i f =>
      match slots s !! i with
      | Some (Own k) =>
          match conv f k (mem s) with
          | Some r => lift r (λ '(h, k), Done (set_slot i (Own k) (with_mem h s)))
          | None => Stuck
          end
      | _ => Stuck
      end
  | VOp i o =>
      let go z v ctor check :=
        lift (vec_op z o v (mem s)) (λ '(h, v, bad),
          lift (vec_read z v h) (λ xs,
            if check xs : bool then
              let s := set_slot i (ctor v) (with_mem h s) in if bad : bool then Panicked s else Done s
            else Stuck)) in
      match slots s !! i with
      | Some (Own (HVec z v)) => go z v (λ v, Own (HVec z v)) (λ _, true)
      | Some (Local (HVec z v)) => go z v (λ v, Local (HVec z v)) (λ _, true)
      | Some (Own (HString v)) => go false v (λ v, Own (HString v)) utf8
      | Some (Local (HString v)) => go false v (λ v, Local (HString v)) utf8
      | _ => Stuck
      end
  | Swap i j =>
      let go k l ck cl := Done (set_slot j (cl k) (set_slot i (ck l) s)) in
      let ctor (k : slot) : option (handle * (handle → slot)) :=
        match k with Own k => Some (k, Own) | Local k => Some (k, Local) | _ => None end in
      match slots s !! i ≫= ctor, slots s !! j ≫= ctor with
      | Some (HVec z v as k, ck), Some (HVec z' v' as l, cl) =>
          if (i =? j)%nat || negb (Bool.eqb z z') then Stuck else go k l ck cl
      | Some (HString v as k, ck), Some (HString v' as l, cl) => if (i =? j)%nat then Stuck else go k l ck cl
      | _, _ => Stuck
      end
  | Read i w =>
      match slots s !! i with
      | Some (Own k) | Some (Local k) =>
          match read k w (mem s) with
          | Some r => lift r (λ xs, Done (with_mem (note [ERead xs (capacity k)] (mem s)) s))
          | None => Stuck
          end
      | _ => Stuck
      end
  | Write i k x =>
      match slots s !! i with
      | Some (Own hd) | Some (Local hd) =>
          match write hd k (elem_of match hd with HVec z _ | HCVec z _ | HBox z _ | HCBox z _ | HOne z _ | HCOne z _ => z | _ => false end x) (mem s) with
          | Some r => lift r (λ o, match o with Some h => Done (with_mem h s) | None => Panicked s end)
          | None => Stuck
          end
      | _ => Stuck
      end
  | Clone i g panic =>
      match slots s !! i with
      | Some (Own (HCVec z v)) =>
          lift (cvec_clone z v g panic (mem s)) (λ '(h, o),
            match o with Some v => Done (add_slot (Own (HCVec z v)) (with_mem h s)) | None => Panicked (with_mem h s) end)
      | Some (Own (HCString v)) =>
          lift (cvec_clone false v g None (mem s)) (λ '(h, o),
            match o with Some v => Done (add_slot (Own (HCString v)) (with_mem h s)) | None => Panicked (with_mem h s) end)
      | Some (Own (HCOne z p)) =>
          lift (box1_clone z p (match panic with Some O => true | _ => false end) (mem s)) (λ '(h, o),
            match o with Some p => Done (add_slot (Own (HCOne z p)) (with_mem h s)) | None => Panicked (with_mem h s) end)
      | _ => Stuck
      end
  | Drop i =>
      match slots s !! i with
      | Some (Own k) => lift (drop_handle k (mem s)) (λ h, Done (set_slot i Gone (with_mem h s)))
      | _ => Stuck
      end
  end.

(** vec.rs 158-172, string/_mod.rs 103-114: the vector is read and converted
    into a variable of its own; after the closure, even if it unwinds, that
    is converted back and written over what was there. *)
Definition begin_with (i : nat) (s : state) : out :=
  match slots s !! i with
  | Some (Own (HCVec z v as k)) =>
      lift (cvec_into z v (mem s)) (λ v, Done (add_slot (Local (HVec z v)) (set_slot i (Lent k) s)))
  | Some (Own (HCString v as k)) =>
      lift (cvec_into false v (mem s)) (λ v,
        lift (vec_read false v (mem s)) (λ xs,
          lift (from_utf8_unchecked xs) (λ _, Done (add_slot (Local (HString v)) (set_slot i (Lent k) s)))))
  | _ => Stuck
  end.
Definition finally (i j : nat) (s : state) : out :=
  match slots s !! i, slots s !! j with
  | Some (Lent _), Some (Local (HVec z v)) => Done (set_slot j Gone (set_slot i (Own (HCVec z (cvec_from v))) s))
  | Some (Lent _), Some (Local (HString v)) => Done (set_slot j Gone (set_slot i (Own (HCString (cvec_from v))) s))
  | _, _ => Stuck
  end.
Fixpoint exec (c : cmd) (s : state) : out :=
  match c with
  | Skip => Done s
  | Prim o => prim o s
  | Seq c d => match exec c s with Done s => exec d s | r => r end
  | Panic => Panicked s
  | Catch c => match exec c s with Panicked s => Done s | r => r end
  | With i c =>
      let j := List.length (slots s) in
      match begin_with i s with
      | Done s =>
          match exec c s with
          | Done s => finally i j s
          | Panicked s => match finally i j s with Done s => Panicked s | r => r end
          | r => r
          end
      | r => r
      end
  end.
