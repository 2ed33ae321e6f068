(** Model of the NUL-terminated strings: [src/char_p.rs] ([char_p_ref], [char_p_boxed]),
    [src/shared_cstr.rs] ([SharedCStr]), [src/proc_macro/c_str.rs] (the [c!] macro) and the
    [withCString] helper of [src/js/ffi_helpers.rs].

    Memory is a list of heap blocks; a block knows the size it was allocated with, the initialised
    bytes at its start, whether it is still allocated and (for [Arc] allocations) its strong count.
    Undefined behaviour (reading or freeing a freed block, freeing with a wrong size, scanning past the
    initialised bytes, making a [str] out of invalid UTF-8) is the explicit result [None] / [OUndef].

    Simplifications: allocation never fails; block identities are never reused (no code in these files
    compares heap addresses other than against the static sentinel); strong counts are unbounded;
    weak [Arc] pointers are not modelled; lengths are unbounded (Rust: at most [isize::MAX]). *)

From stdpp Require Import base numbers list.
Local Open Scope N_scope.

(** ** Standard-library functions *)

(** [core::str::from_utf8] succeeds: well-formed UTF-8 as in RFC 3629. *)
Definition cont (b : N) : bool := (128 <=? b) && (b <=? 191).
Fixpoint utf8 (l : list N) : bool :=
  match l with
  | [] => true
  | b0 :: r0 =>
    if b0 <? 128 then utf8 r0 else
    match r0 with
    | [] => false
    | b1 :: r1 =>
      if (194 <=? b0) && (b0 <=? 223) then cont b1 && utf8 r1 else
      match r1 with
      | [] => false
      | b2 :: r2 =>
        if (224 <=? b0) && (b0 <=? 239) then
          ((if b0 =? 224 then (160 <=? b1) && (b1 <=? 191)
            else if b0 =? 237 then (128 <=? b1) && (b1 <=? 159) else cont b1)
           && cont b2) && utf8 r2 else
        match r2 with
        | [] => false
        | b3 :: r3 =>
          ((240 <=? b0) && (b0 <=? 244)) &&
          (if b0 =? 240 then (144 <=? b1) && (b1 <=? 191)
           else if b0 =? 244 then (128 <=? b1) && (b1 <=? 143) else cont b1) &&
          cont b2 && cont b3 && utf8 r3
        end
      end
    end
  end.

(** [bytes.position(|b| b == 0)]. *)
Fixpoint position0 (l : list N) : option nat :=
  match l with
  | [] => None
  | b :: l => if b =? 0 then Some O else S <$> position0 l
  end.

(** [bytes.contains(&0)]. *)
Definition contains0 (l : list N) : bool := existsb (λ b, b =? 0) l.

(** ** Borrowed C strings *)

(** A [char_p_ref] is modelled by the bytes readable from its address on: those of the [str] (or of
    the C string) followed by whatever comes next in memory. *)
Definition cref := list N.

(** char_p.rs L27-34, [char_p_ref::EMPTY]. *)
Definition ref_empty : cref := [0].

(** char_p.rs L109-133, [TryFrom<&str> for char_p_ref].  [post] is what follows the [str] in memory. *)
Definition ref_try_from (s post : list N) : option cref :=
  match length s with
  | S len_minus_one =>
    if decide (position0 s = Some len_minus_one) then Some (s ++ post) else None
  | O => Some ref_empty
  end.

(** char_p.rs L144-160, [From<&CStr> for char_p_ref]; [s] are the bytes before the NUL.
    [None]: the [unwrap] panics. *)
Definition ref_from_cstr (s post : list N) : option cref :=
  if utf8 s then Some (s ++ 0 :: post) else None.

(** char_p.rs L164-181, [bytes]: the iterator yields bytes until it meets a NUL; [count]ing it is a
    [strlen].  [None]: the scan runs past the readable bytes. *)
Definition ref_count (r : cref) : option nat := position0 r.

(** char_p.rs L197-207 (and L183-195, [to_nonzero_bytes]). *)
Definition ref_to_bytes (r : cref) : option (list N) :=
  n ← ref_count r; Some (take n r).

(** char_p.rs L209-219. *)
Definition ref_to_bytes_with_null (r : cref) : option (list N) :=
  n ← ref_count r; if decide (n + 1 ≤ length r)%nat then Some (take (n + 1) r) else None.

(** char_p.rs L221-229; [from_utf8_unchecked] on invalid UTF-8 is undefined. *)
Definition ref_to_str (r : cref) : option (list N) :=
  s ← ref_to_bytes r; if utf8 s then Some s else None.

(** char_p.rs L231-239. *)
Definition ref_to_str_with_null (r : cref) : option (list N) :=
  s ← ref_to_bytes_with_null r; if utf8 s then Some s else None.

(** char_p.rs L264-271. *)
Definition ref_eq (r1 r2 : cref) : option bool :=
  s1 ← ref_to_str r1; s2 ← ref_to_str r2; Some (bool_decide (s1 = s2)).

(** ** The [c!] macro and [withCString] *)

(** proc_macro/c_str.rs L5-45: the bytes of the emitted static, or the index of the offending NUL.
    [None] as input is [c!()]. *)
Definition c_macro (input : option (list N)) : list N + nat :=
  match input with
  | None => inl ref_empty
  | Some bytes =>
    match position0 bytes with
    | None => inl (bytes ++ [0])
    | Some n => if decide (n = length bytes - 1)%nat then inl bytes else inr n
    end
  end.

(** js/ffi_helpers.rs L49-84, [with_js_string_as_utf8].  A JS value is [null], a string (given by
    its UTF-8 bytes, as N-API returns them) or something else; the result is the buffer whose address
    is passed to the callback, the null pointer, or an error. *)
Inductive jsarg := JsNull | JsString (bytes : list N) | JsOther.
Inductive jsptr := JsPNull | JsPBuf (buf : list N).
Definition with_c_string (a : jsarg) : option jsptr :=
  match a with
  | JsNull => Some JsPNull
  | JsString bytes =>
    match position0 bytes with
    | Some n => if decide (n = length bytes - 1)%nat then Some (JsPBuf bytes) else None
    | None => Some (JsPBuf (bytes ++ [0]))
    end
  | JsOther => None
  end.

(** ** Heap *)

Record blk := Blk {
  b_size : nat;          (* size passed to the allocator *)
  b_data : list N;       (* initialised bytes *)
  b_live : bool;
  b_rc : nat;            (* strong count of an [Arc] allocation; 1 for the others *)
}.
Notation mem := (list blk).

Definition alloc (m : mem) (size : nat) (data : list N) : mem * nat :=
  (m ++ [Blk size data true 1], length m).

(** [dealloc(ptr, Layout)]: the layout must be the one of the allocation. *)
Definition dealloc (m : mem) (b size : nat) : option mem :=
  match m !! b with
  | Some k =>
    if b_live k && bool_decide (b_size k = size)
    then Some (<[b := Blk (b_size k) [] false 0]> m) else None
  | None => None
  end.

(** The initialised bytes of an allocated block. *)
Definition load (m : mem) (b : nat) : option (list N) :=
  match m !! b with
  | Some k => if b_live k then Some (b_data k) else None
  | None => None
  end.

(** [realloc]: the old layout must be right; keeps the first bytes. *)
Definition realloc (m : mem) (b old new : nat) : option mem :=
  match m !! b with
  | Some k =>
    if b_live k && bool_decide (b_size k = old)
    then Some (<[b := Blk new (take new (b_data k)) true (b_rc k)]> m) else None
  | None => None
  end.

(** Write one byte just after the first [len] ones. *)
Definition store_at (m : mem) (b len : nat) (x : N) : option mem :=
  match m !! b with
  | Some k =>
    if b_live k && bool_decide (len < b_size k ∧ len ≤ length (b_data k))%nat
    then Some (<[b := Blk (b_size k) (take len (b_data k) ++ [x]) true (b_rc k)]> m) else None
  | None => None
  end.

(** ** Values *)

(** Address held by a [char_p_boxed]: the address of the static [EMPTY_SENTINEL] (char_p.rs L468) or of a
    heap block. *)
Inductive ptr := PSentinel | PHeap (b : nat).
Global Instance ptr_eq_dec : EqDecision ptr.
Proof. solve_decision. Defined.

(** A growable buffer ([String] or [Vec<u8>]): its block and capacity, unless the capacity is 0, and
    its length. *)
Record buf := Buf { bf_blk : option (nat * nat); bf_len : nat }.

Inductive value :=
  | VString (s : buf)
  | VVec (s : buf)
  | VCString (b len : nat)       (* a Box<[u8]> of [len] bytes, NUL included *)
  | VBoxed (p : ptr)             (* char_p_boxed *)
  | VArc (b len : nat)           (* Arc<CStr>: [len] bytes, NUL included *)
  | VShared (b : nat).           (* SharedCStr *)

Definition buf_bytes (m : mem) (s : buf) : option (list N) :=
  match bf_blk s with
  | None => Some []
  | Some (b, _) => d ← load m b; Some (take (bf_len s) d)
  end.

Definition buf_drop (m : mem) (s : buf) : option mem :=
  match bf_blk s with
  | None => Some m
  | Some (b, cap) => dealloc m b cap
  end.

(** A fresh buffer with the given contents and spare capacity. *)
Definition buf_new (m : mem) (s : list N) (extra : nat) : mem * buf :=
  match (length s + extra)%nat with
  | O => (m, Buf None 0)
  | cap => let '(m, b) := alloc m cap s in (m, Buf (Some (b, cap)) (length s))
  end.

(** [reserve_exact(1)], then [push(x)]. *)
Definition buf_reserve1 (m : mem) (s : buf) : option (mem * buf) :=
  match bf_blk s with
  | None => let '(m, b) := alloc m 1 [] in Some (m, Buf (Some (b, 1%nat)) (bf_len s))
  | Some (b, cap) =>
    if decide (bf_len s < cap)%nat then Some (m, s)
    else m ← realloc m b cap (bf_len s + 1);
         Some (m, Buf (Some (b, (bf_len s + 1)%nat)) (bf_len s))
  end.
Definition buf_push (m : mem) (s : buf) (x : N) : option (mem * buf) :=
  match bf_blk s with
  | None => None                                      (* capacity was just reserved *)
  | Some (b, cap) =>
    m ← store_at m b (bf_len s) x; Some (m, Buf (Some (b, cap)) (bf_len s + 1))
  end.

(** [into_boxed_str] / [into_boxed_slice]: shrink the allocation to the length.  The result is the
    block of the [Box<[u8]>], [None] for an empty slice (dangling pointer). *)
Definition buf_into_boxed (m : mem) (s : buf) : option (mem * option nat) :=
  match bf_blk s with
  | None => Some (m, None)
  | Some (b, cap) =>
    if decide (bf_len s = 0)%nat then m ← dealloc m b cap; Some (m, None)
    else if decide (bf_len s < cap)%nat then m ← realloc m b cap (bf_len s); Some (m, Some b)
    else Some (m, Some b)
  end.

(** ** [char_p_boxed] *)

(** The bytes readable from the pointer ([as_ref], char_p.rs L401-408). *)
Definition as_ref (m : mem) (p : ptr) : option cref :=
  match p with
  | PSentinel => Some [0]
  | PHeap b => load m b
  end.

(** char_p.rs L470-504, [TryFrom<String> for char_p_boxed].  [inr]: the error, which gives the
    string back. *)
Definition boxed_try_from (m : mem) (s : buf) : option (mem * (ptr + buf)) :=
  d ← buf_bytes m s;
  if decide (d = [] ∨ d = [0]) then
    m ← buf_drop m s; Some (m, inl PSentinel)
  else
    let len_minus_one := (length d - 1)%nat in
    if contains0 (take len_minus_one d) then Some (m, inr s)
    else
      '(m, s) ← (if decide (d !! len_minus_one = Some 0) then Some (m, s)
                 else '(m, s) ← buf_reserve1 m s; buf_push m s 0);
      '(m, ob) ← buf_into_boxed m s;
      match ob with
      | Some b => Some (m, inl (PHeap b))
      | None => None                        (* a dangling pointer: no terminator to be found there *)
      end.

(** char_p.rs L506-522, [Drop for char_p_boxed]. *)
Definition boxed_drop (m : mem) (p : ptr) : option mem :=
  match p with
  | PSentinel => Some m
  | PHeap b =>
    r ← as_ref m p;
    d ← ref_to_bytes_with_null r;
    dealloc m b (length d)
  end.

(** char_p.rs L574-591, [into_vec]; L593-602 [into_string]. *)
Definition boxed_into_vec (m : mem) (p : ptr) : option buf :=
  match p with
  | PSentinel => Some (Buf None 0)
  | PHeap b =>
    r ← as_ref m p;
    d ← ref_to_bytes_with_null r;
    Some (Buf (Some (b, length d)) (length d - 1))
  end.
Definition boxed_into_string (m : mem) (p : ptr) : option buf :=
  s ← boxed_into_vec m p;
  d ← buf_bytes m s;
  if utf8 d then Some s else None.

(** ** [CString], [Arc<CStr>] and [SharedCStr] *)

(** [CString::new]: refuses inner NULs. *)
Definition cstring_new (m : mem) (s : list N) : option (mem * (nat * nat)) :=
  if contains0 s then None
  else let '(m, b) := alloc m (length s + 1) (s ++ [0]) in Some (m, (b, (length s + 1)%nat)).

(** [CStr::to_bytes]: without the NUL. *)
Definition cstr_bytes (m : mem) (b len : nat) : option (list N) :=
  d ← load m b; Some (take (len - 1) d).

(** [Arc<CStr>: From<CString>] and [From<&CStr>]: copy into a new allocation with count 1. *)
Definition arc_new (m : mem) (s : list N) : mem * (nat * nat) :=
  let '(m, b) := alloc m (length s + 1) (s ++ [0]) in (m, (b, (length s + 1)%nat)).

Definition arc_clone (m : mem) (b : nat) : option mem :=
  match m !! b with
  | Some k => if b_live k then Some (<[b := Blk (b_size k) (b_data k) true (S (b_rc k))]> m) else None
  | None => None
  end.
Definition arc_drop (m : mem) (b len : nat) : option mem :=
  match m !! b with
  | Some k =>
    if b_live k then
      match b_rc k with
      | O => None
      | 1%nat => dealloc m b len
      | S n => Some (<[b := Blk (b_size k) (b_data k) true n]> m)
      end
    else None
  | None => None
  end.

(** ** Operations *)

Inductive op :=
  | NewString (s : list N) (extra : nat)   (* any String; the contents are valid UTF-8 *)
  | NewVec (s : list N) (extra : nat)
  | NewCString (s : list N)                (* CString::new(..) *)
  | TryFromString (h : nat)                (* char_p_boxed::try_from(String) *)
  | NewFromString (h : nat)                (* char_p::new(String) *)
  | NewFromStr (h : nat)                   (* char_p::new(&str), the str borrowed from a String *)
  | FromCString (h : nat)                  (* char_p_boxed::from(CString), char_p::new(CString) *)
  | NewFromCStr (h : nat)                  (* char_p::new(&CStr), borrowed from a CString *)
  | DropIt (h : nat)
  | CloneIt (h : nat)                      (* of a char_p_boxed, an Arc<CStr> or a SharedCStr *)
  | IntoVec (h : nat)
  | IntoString (h : nat)
  | ToBytes (h : nat)                      (* of a char_p_boxed *)
  | ToBytesWithNull (h : nat)
  | ToStr (h : nat)                        (* of a char_p_boxed or SharedCStr (Deref) *)
  | ToStrWithNull (h : nat)
  | EqBoxed (h1 h2 : nat)
  | ReadBuf (h : nat)                      (* the contents of a String or Vec *)
  | RefOfString (h : nat)                  (* char_p_ref::try_from(&str) and to_str, immediately *)
  | ArcFromCString (h : nat)               (* Arc::<CStr>::from(CString) *)
  | SharedFromArc (h : nat)                (* SharedCStr::from(Arc<CStr>) *)
  | SharedFromStr (h : nat)                (* SharedCStr::from(&str) *)
  | SharedFromCString (h : nat)            (* SharedCStr::from(CString) *)
  | SharedFromCStr (h : nat).              (* SharedCStr::from(&CStr) *)

Inductive res :=
  | RUnit
  | RNew (h : nat)            (* a new value, at this index *)
  | RErr (h : nat)            (* the operation failed and gave the argument back *)
  | RFail                     (* the operation failed *)
  | RBytes (s : list N)
  | RBool (b : bool)
  | RIll.                     (* not a program: no such value (any more), or of another type *)

Record state := State { st_mem : mem; st_vals : list (option value) }.
Definition init : state := State [] [].

Inductive outcome :=
  | ODone (r : res) (st : state)
  | OPanic (st : state)        (* the state after unwinding *)
  | OUndef.

Definition put (m : mem) (vs : list (option value)) (v : value) : outcome :=
  ODone (RNew (length vs)) (State m (vs ++ [Some v])).
Definition take_out (vs : list (option value)) (h : nat) : list (option value) := <[h := None]> vs.
Definition done (m : mem) (vs : list (option value)) (r : res) : outcome := ODone r (State m vs).
Definition ill (st : state) : outcome := ODone RIll st.

(** Undefined behaviour if the computation is. *)
Definition req {A} (o : option A) (k : A → outcome) : outcome :=
  match o with Some a => k a | None => OUndef end.

(** [char_p::new] on a string ([my_from], char_p.rs L421-436): panics on error; the string inside the
    error is dropped by the unwinding. *)
Definition boxed_new (m : mem) (vs : list (option value)) (s : buf) : outcome :=
  req (boxed_try_from m s) (λ '(m, r),
    match r with
    | inl p => put m vs (VBoxed p)
    | inr s => req (buf_drop m s) (λ m, OPanic (State m vs))
    end).

(** char_p.rs L643-662, [From<CString>]; the unwinding drops the argument. *)
Definition boxed_from_cstring (m : mem) (vs : list (option value)) (b len : nat) : outcome :=
  req (cstr_bytes m b len) (λ s,
    if utf8 s then put m vs (VBoxed (PHeap b))
    else req (dealloc m b len) (λ m, OPanic (State m vs))).

(** shared_cstr.rs L32-46, [From<Arc<CStr>>]. *)
Definition shared_from_arc (m : mem) (vs : list (option value)) (b len : nat) : outcome :=
  req (cstr_bytes m b len) (λ s,
    if utf8 s then put m vs (VShared b)
    else req (arc_drop m b len) (λ m, OPanic (State m vs))).

(** shared_cstr.rs L63-73, [From<CString>]. *)
Definition shared_from_cstring (m : mem) (vs : list (option value)) (b len : nat) : outcome :=
  req (cstr_bytes m b len) (λ s,
    req (dealloc m b len) (λ m,
      let '(m, (b, len)) := arc_new m s in shared_from_arc m vs b len)).

(** [CStr::from_ptr]: the length, NUL included. *)
Definition shared_len (m : mem) (b : nat) : option nat :=
  d ← load m b; n ← position0 d; Some (n + 1)%nat.

Definition step (st : state) (o : op) : outcome :=
  let m := st_mem st in
  let vs := st_vals st in
  match o with
  | NewString s extra =>
    let '(m, b) := buf_new m s extra in put m vs (VString b)
  | NewVec s extra =>
    let '(m, b) := buf_new m s extra in put m vs (VVec b)
  | NewCString s =>
    match cstring_new m s with
    | Some (m, (b, len)) => put m vs (VCString b len)
    | None => done m vs RFail
    end
  | TryFromString h =>
    match vs !! h with
    | Some (Some (VString s)) =>
      req (boxed_try_from m s) (λ '(m, r),
        match r with
        | inl p => put m (take_out vs h) (VBoxed p)
        | inr s => done m (<[h := Some (VString s)]> vs) (RErr h)
        end)
    | _ => ill st
    end
  | NewFromString h =>
    match vs !! h with
    | Some (Some (VString s)) => boxed_new m (take_out vs h) s
    | _ => ill st
    end
  | NewFromStr h =>
    match vs !! h with
    | Some (Some (VString s)) =>
      req (buf_bytes m s) (λ d, let '(m, s) := buf_new m d 0 in boxed_new m vs s)
    | _ => ill st
    end
  | FromCString h =>
    match vs !! h with
    | Some (Some (VCString b len)) => boxed_from_cstring m (take_out vs h) b len
    | _ => ill st
    end
  | NewFromCStr h =>
    match vs !! h with
    | Some (Some (VCString b len)) =>
      req (cstr_bytes m b len) (λ s,
        let '(m, b) := alloc m (length s + 1) (s ++ [0]) in
        boxed_from_cstring m vs b (length s + 1))
    | _ => ill st
    end
  | DropIt h =>
    match vs !! h with
    | Some (Some v) =>
      req (match v with
           | VString s | VVec s => buf_drop m s
           | VCString b len => dealloc m b len
           | VBoxed p => boxed_drop m p
           | VArc b len => arc_drop m b len
           | VShared b => len ← shared_len m b; arc_drop m b len    (* shared_cstr.rs L87-101 *)
           end) (λ m, done m (take_out vs h) RUnit)
    | _ => ill st
    end
  | CloneIt h =>
    match vs !! h with
    | Some (Some (VBoxed p)) =>
      (* char_p.rs L604-610, L252-259: [char_p::new(self.to_str())] *)
      req (r ← as_ref m p; ref_to_str r) (λ d,
        let '(m, s) := buf_new m d 0 in boxed_new m vs s)
    | Some (Some (VArc b len)) => req (arc_clone m b) (λ m, put m vs (VArc b len))
    | Some (Some (VShared b)) =>
      (* shared_cstr.rs L103-119 *)
      req (shared_len m b) (λ len,
        req (arc_clone m b) (λ m, shared_from_arc m vs b len))
    | _ => ill st
    end
  | IntoVec h =>
    match vs !! h with
    | Some (Some (VBoxed p)) => req (boxed_into_vec m p) (λ s, put m (take_out vs h) (VVec s))
    | _ => ill st
    end
  | IntoString h =>
    match vs !! h with
    | Some (Some (VBoxed p)) => req (boxed_into_string m p) (λ s, put m (take_out vs h) (VString s))
    | _ => ill st
    end
  | ToBytes h =>
    match vs !! h with
    | Some (Some (VBoxed p)) =>
      req (r ← as_ref m p; ref_to_bytes r) (λ s, done m vs (RBytes s))
    | _ => ill st
    end
  | ToBytesWithNull h =>
    match vs !! h with
    | Some (Some (VBoxed p)) =>
      req (r ← as_ref m p; ref_to_bytes_with_null r) (λ s, done m vs (RBytes s))
    | _ => ill st
    end
  | ToStr h =>
    match vs !! h with
    | Some (Some (VBoxed p)) =>
      req (r ← as_ref m p; ref_to_str r) (λ s, done m vs (RBytes s))
    | Some (Some (VShared b)) =>
      (* shared_cstr.rs L121-137 *)
      req (len ← shared_len m b; s ← cstr_bytes m b len; if utf8 s then Some s else None)
          (λ s, done m vs (RBytes s))
    | _ => ill st
    end
  | ToStrWithNull h =>
    match vs !! h with
    | Some (Some (VBoxed p)) =>
      req (r ← as_ref m p; ref_to_str_with_null r) (λ s, done m vs (RBytes s))
    | _ => ill st
    end
  | EqBoxed h1 h2 =>
    match vs !! h1, vs !! h2 with
    | Some (Some (VBoxed p1)), Some (Some (VBoxed p2)) =>
      req (r1 ← as_ref m p1; r2 ← as_ref m p2; ref_eq r1 r2) (λ b, done m vs (RBool b))
    | _, _ => ill st
    end
  | ReadBuf h =>
    match vs !! h with
    | Some (Some (VString s)) | Some (Some (VVec s)) =>
      req (buf_bytes m s) (λ s, done m vs (RBytes s))
    | _ => ill st
    end
  | RefOfString h =>
    match vs !! h with
    | Some (Some (VString s)) =>
      req (buf_bytes m s) (λ d,
        match ref_try_from d [] with
        | Some r => req (ref_to_str r) (λ s, done m vs (RBytes s))
        | None => done m vs RFail
        end)
    | _ => ill st
    end
  | ArcFromCString h =>
    match vs !! h with
    | Some (Some (VCString b len)) =>
      req (cstr_bytes m b len) (λ s,
        req (dealloc m b len) (λ m,
          let '(m, (b, len)) := arc_new m s in put m (take_out vs h) (VArc b len)))
    | _ => ill st
    end
  | SharedFromArc h =>
    match vs !! h with
    | Some (Some (VArc b len)) => shared_from_arc m (take_out vs h) b len
    | _ => ill st
    end
  | SharedFromStr h =>
    (* shared_cstr.rs L48-61 *)
    match vs !! h with
    | Some (Some (VString s)) =>
      req (buf_bytes m s) (λ d,
        match cstring_new m d with
        | Some (m, (b, len)) => shared_from_cstring m vs b len
        | None => OPanic st
        end)
    | _ => ill st
    end
  | SharedFromCString h =>
    match vs !! h with
    | Some (Some (VCString b len)) => shared_from_cstring m (take_out vs h) b len
    | _ => ill st
    end
  | SharedFromCStr h =>
    match vs !! h with
    | Some (Some (VCString b len)) =>
      req (cstr_bytes m b len) (λ s,
        let '(m, (b, len)) := arc_new m s in shared_from_arc m vs b len)
    | _ => ill st
    end
  end.

(** A whole program: panics are caught ([catch_unwind]) and the program goes on. *)
Fixpoint run (st : state) (os : list op) : option (list (option res) * state) :=
  match os with
  | [] => Some ([], st)
  | o :: os =>
    match step st o with
    | ODone r st => '(rs, st) ← run st os; Some (Some r :: rs, st)
    | OPanic st => '(rs, st) ← run st os; Some (None :: rs, st)
    | OUndef => None
    end
  end.
