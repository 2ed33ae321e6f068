(** Model of the C layouts of Rust types and of the validity checks that
    [from_raw] performs on values coming from C.

    Sources (all in /repo/src):
    - layout/_mod.rs      851-900   from_raw_unchecked, from_raw, into_raw
    - layout/impls.rs     205-226   arrays
    - layout/impls.rs     420-431   function pointers
    - layout/impls.rs     721-746   [()] and PhantomData
    - layout/impls.rs     964-1022  bool, NonNull and friends, references, Out
    - layout/niche.rs     5-104     HasNiche, Option
    - option.rs           20-42     TaggedOption
    - proc_macro/derives/repr_c/struct_.rs 13-221 repr(C) structs
    - proc_macro/derives/repr_c/struct_.rs 223-388 repr(transparent) structs
    - proc_macro/derives/repr_c/enum_.rs 230-250 field-less enums
    - headers/languages/c.rs 127-171, headers/languages/csharp.rs 104-157
      emit_struct
    - utils/_mod.rs       14-29     transmute_unchecked

    Simplifications: a value in memory is the list of its bytes, all of them
    initialised.  Pointees are never read, so only their alignment matters.
    Sizes are unbounded naturals.  The Rust and C struct layout algorithms
    (declared order, each field at the next multiple of its alignment, total
    size rounded up) are part of the language definitions and are written out
    here as [offsets] and [seal]. *)

From Coq Require Import Arith NArith List Bool Lia.
From stdpp Require Import base numbers list.

Notation byte := N (only parsing).
Notation bytes := (list N) (only parsing).

(** ** The two struct layout algorithms' common core *)

(** Smallest multiple of [a] that is at least [n]. *)
Definition round_up (n a : nat) : nat := (n + a - 1) / a * a.

(** Offsets of fields with the given (size, alignment), from offset [o]. *)
Fixpoint offsets (o : nat) (ls : list (nat * nat)) : list nat :=
  match ls with
  | [] => []
  | (s, a) :: ls => let o := round_up o a in o :: offsets (o + s) ls
  end.

(** End of the last field. *)
Fixpoint ending (o : nat) (ls : list (nat * nat)) : nat :=
  match ls with
  | [] => o
  | (s, a) :: ls => ending (round_up o a + s) ls
  end.

Fixpoint max_align (ls : list (nat * nat)) : nat :=
  match ls with
  | [] => 1
  | (_, a) :: ls => Nat.max a (max_align ls)
  end.

(** Size and alignment of a [repr(C)] struct. *)
Definition seal (ls : list (nat * nat)) : nat * nat :=
  (round_up (ending 0 ls) (max_align ls), max_align ls).

(** Size and alignment of a [repr(C)] union. *)
Definition seal_union (ls : list (nat * nat)) : nat * nat :=
  (round_up (foldr Nat.max 0 (map fst ls)) (max_align ls), max_align ls).

(** ** Rust types *)

(** Kinds of thin pointers.
    [PRaw]: [*const T], [*mut T].
    [PNonNull]: [core::ptr::NonNull<T>], non-null, any alignment.
    [PAligned]: [&T], [&mut T], and the [NonNullRef/Mut/Owned<T>] inside
    [Box_], slices and [Vec], which point to a [T].
    [POut]: [uninit::Out<T>], an out reference. *)
Inductive ptrk := PRaw | PNonNull | PAligned | POut.

(** How a [repr(C)] struct of the crate implements [HasNiche].
    [NicheFirst]: [it.ptr.is_null()] or [Ptr::is_niche(&it.ptr)] on the first
    field (niche.rs 67-72, 89-92; dyn_traits/_mod.rs 128-145).
    [NicheDefault]: the default method, [!is_valid] (niche.rs 8-14; used by
    [Bytes] and [BoxDynFnMutN]). *)
Inductive nichek := NicheNone | NicheFirst | NicheDefault.

Inductive ty :=
(** integers, floats, [c_int]...: size and alignment; [from_CType_impl_ReprC] *)
| TPrim (s a : nat)
| TBool
| TPtr (k : ptrk) (t : ty)
(** [extern "C" fn(..)] *)
| TFn
(** [()] and [PhantomData] *)
| TUnit
(** an opaque pointee *)
| TOpaque (s a : nat)
| TArray (t : ty) (n : nat)
| TStruct (nk : nichek) (ts : list ty)
(** [repr(transparent)] around [t], other fields being [PhantomData];
    [zst_first] when one of those comes before [t] *)
| TTransp (zst_first : bool) (t : ty)
(** field-less enum: integer size and alignment, values of the variants as
    unsigned integers of that size *)
| TEnum (s a : nat) (ds : list N)
| TOption (t : ty)
| TTagged (t : ty).

(** Size and alignment rustc gives a type; [w] is the size of a pointer. *)
Fixpoint layout (w : nat) (t : ty) : nat * nat :=
  match t with
  | TPrim s a | TEnum s a _ | TOpaque s a => (s, a)
  | TBool => (1, 1)
  | TPtr _ _ | TFn => (w, w)
  | TUnit => (0, 1)
  | TArray t n => (n * fst (layout w t), snd (layout w t))
  | TStruct _ ts => seal (map (layout w) ts)
  | TTransp _ t | TOption t => layout w t
  | TTagged t =>
      (* repr(C, u8): a tag followed by a union of the variants' structs *)
      seal [(1, 1); seal_union [seal []; seal [layout w t]]]
  end.
Definition size_of w t := fst (layout w t).
Definition align_of w t := snd (layout w t).

(** ** C layouts *)

Inductive cty :=
| CPrim (s a : nat) | CPtr | CVoid | COpaque (s a : nat)
| CArray (c : cty) (n : nat)
| CStruct (cs : list cty).

(** [ReprC::CLayout]. *)
Fixpoint clayout (t : ty) : cty :=
  match t with
  | TPrim s a => CPrim s a
  | TBool => CPrim 1 1                                  (* impls.rs 965 *)
  | TPtr _ _ | TFn => CPtr                              (* impls.rs 420, 969-1021 *)
  | TUnit => CVoid                                      (* impls.rs 721-746 *)
  | TOpaque s a => COpaque s a
  | TArray t n => CArray (clayout t) n                  (* impls.rs 217 *)
  | TStruct _ ts => CStruct (map clayout ts)            (* struct_.rs 111-129 *)
  | TTransp zst_first t =>                              (* struct_.rs 238-243, 340 *)
      if zst_first then CVoid else clayout t
  | TEnum s a _ => CPrim s a                            (* enum_.rs *)
  | TOption t => clayout t                              (* niche.rs 21 *)
  | TTagged t => CStruct [CPrim 1 1; clayout t]         (* option.rs 29-30 *)
  end.

(** Size and alignment of the Rust struct used as C layout. *)
Fixpoint csa (w : nat) (c : cty) : nat * nat :=
  match c with
  | CPrim s a | COpaque s a => (s, a)
  | CPtr => (w, w)
  | CVoid => (0, 1)
  | CArray c n => (n * fst (csa w c), snd (csa w c))
  | CStruct cs => seal (map (csa w) cs)
  end.
Definition csize w t := fst (csa w (clayout t)).

(** ** Validity *)

(** [n] bytes from offset [o]. *)
Definition sub (o n : nat) (bs : bytes) : bytes := take n (drop o bs).

(** Little-endian value of a list of bytes; [le] is the endianness. *)
Fixpoint dec_le (bs : bytes) : N :=
  match bs with
  | [] => 0
  | b :: bs => b + 256 * dec_le bs
  end%N.
Definition word (le : bool) (bs : bytes) : N :=
  dec_le (if le then bs else rev bs).

Definition both (a b : option bool) : option bool :=
  match a, b with
  | Some a, Some b => Some (a && b)
  | _, _ => None
  end.

(** [HasNiche::is_niche]; [v] is what [Self::is_valid(it)] returns, for the
    default method.  [None]: no such impl. *)
Fixpoint is_niche (w : nat) (le : bool) (t : ty) (bs : bytes) (v : option bool)
  : option bool :=
  match t with
  | TPtr PRaw _ => None
  | TPtr _ _ => Some (N.eqb (word le (sub 0 w bs)) 0)   (* niche.rs 53-65, 103 *)
  | TFn => option_map negb v                            (* niche.rs 8-14 *)
  | TStruct NicheFirst _ => Some (N.eqb (word le (sub 0 w bs)) 0)
  | TStruct NicheDefault _ => option_map negb v
  | TTransp false t => is_niche w le t bs v             (* struct_.rs 355-388 *)
  | _ => None
  end.

(** [ReprC::is_valid]; [None] is a panic. *)
Fixpoint is_valid (w : nat) (le : bool) (t : ty) (bs : bytes) : option bool :=
  match t with
  | TPrim _ _ => Some true                              (* _mod.rs 838-842 *)
  | TBool =>                                            (* impls.rs 966 *)
      Some (N.eqb (N.land (default 0%N (head bs)) 254) 0)
  | TPtr PRaw _ => Some true
  | TPtr PNonNull t' | TPtr PAligned t' =>              (* impls.rs 969-1010 *)
      let a := word le (sub 0 w bs) in
      Some (negb (N.eqb a 0) && N.eqb (a mod N.of_nat (align_of w t')) 0)
  | TPtr POut t' =>                                     (* impls.rs 1016-1021 *)
      let a := word le (sub 0 w bs) in
      Some (N.eqb (a mod N.of_nat (align_of w t')) 0)
  | TFn => Some (negb (N.eqb (word le (sub 0 w bs)) 0)) (* impls.rs 425-430 *)
  | TUnit => None                                       (* impls.rs 729, 744 *)
  | TOpaque _ _ => None
  | TArray t n =>                                       (* impls.rs 220-225 *)
      (fix go (n : nat) (bs : bytes) :=
         match n with
         | O => Some true
         | S n =>
             match is_valid w le t (take (csize w t) bs) with
             | Some true => go n (drop (csize w t) bs)
             | r => r
             end
         end) n bs
  | TStruct _ ts =>                                     (* struct_.rs 169-199 *)
      (fix go (ts : list ty) (os : list nat) :=
         match ts, os with
         | t :: ts, o :: os =>
             both (if size_of w t =? 0 then Some true
                   else is_valid w le t (sub o (csize w t) bs))
                  (go ts os)
         | _, _ => Some true
         end) ts (offsets 0 (map (csa w) (map clayout ts)))
  | TTransp zst_first t =>                              (* struct_.rs 343-347 *)
      if zst_first then None else is_valid w le t bs
  | TEnum s _ ds =>                                     (* enum_.rs 239-248 *)
      Some (existsb (N.eqb (word le (sub 0 s bs))) ds)
  | TOption t =>                                        (* niche.rs 27 *)
      match is_niche w le t bs (is_valid w le t bs) with
      | Some true => Some true
      | Some false => is_valid w le t bs
      | None => None
      end
  | TTagged t =>                                        (* option.rs 31-41 *)
      match default 0%N (head bs) with
      | 0%N => Some true
      | 1%N => is_valid w le t (sub (align_of w t) (csize w t) bs)
      | _ => Some false
      end
  end.

(** ** from_raw and friends *)

(** [Value bs]: the Rust value with bytes [bs]. *)
Inductive outcome := Value (bs : bytes) | Rejected | Panic | Undefined.

(** utils/_mod.rs 14-29: panics when the two sizes differ. *)
Definition transmute_unchecked (n m : nat) (bs : bytes) : outcome :=
  if n =? m then Value bs else Panic.

(** layout/_mod.rs 871-885. *)
Definition from_raw w le t (bs : bytes) : outcome :=
  match is_valid w le t bs with
  | None => Panic
  | Some false => Rejected
  | Some true => transmute_unchecked (csize w t) (size_of w t) bs
  end.

(** layout/_mod.rs 892-900; the bytes of the result are those of the value. *)
Definition into_raw w t (bs : bytes) : outcome :=
  transmute_unchecked (size_of w t) (csize w t) bs.

(** layout/_mod.rs 851-865. *)
Definition from_raw_unchecked w le (debug : bool) t (bs : bytes) : outcome :=
  match from_raw w le t bs with
  | Rejected => if debug then Panic else Undefined
  | o => o
  end.

(** ** Structs in headers *)

(** C types as printed in a header. *)
Inductive hty :=
| HPrim (s a : nat) | HPtr | HOpaque (s a : nat)
| HArray (h : hty) (n : nat)
| HStruct (hs : list hty).

(** Size and alignment a C compiler computes. *)
Fixpoint hsa (w : nat) (h : hty) : nat * nat :=
  match h with
  | HPrim s a | HOpaque s a => (s, a)
  | HPtr => (w, w)
  | HArray h n => (n * fst (hsa w h), snd (hsa w h))
  | HStruct hs => seal (map (hsa w) hs)
  end.

(** emit_struct (c.rs 127-171, csharp.rs 104-157, python.rs 56-98) for
    structs.  Arrays are [typedef struct { T idx[N]; }] in C (impls.rs
    116-141), and a struct of N fields in C# (impls.rs 160-204; the [fixed]
    arrays used for numbers there have the layout of N fields).  The [Size]
    that the C# attribute states is the size of the Rust type.
    [None]: the generator panics.  [CVoid] as such is printed as [void],
    which is not the type of a field: the crate leaves it out as zero-sized. *)
Inductive lang := C_or_Python | CSharp.

Fixpoint printed (l : lang) (w : nat) (c : cty) : option hty :=
  match c with
  | CPrim s a => Some (HPrim s a)
  | CPtr => Some HPtr
  | COpaque s a => Some (HOpaque s a)
  | CVoid => None
  | CArray c n =>
      match printed l w c with
      | Some h =>
          Some (HStruct (match l with C_or_Python => [HArray h n] | CSharp => repeat h n end))
      | None => None
      end
  | CStruct cs =>
      if fst (csa w (CStruct cs)) =? 0 then None
      else
        match
          (fix go (cs : list cty) : option (list hty) :=
             match cs with
             | [] => Some []
             | c :: cs =>
                 if fst (csa w c) =? 0 then
                   if 1 <? snd (csa w c) then None else go cs
                 else
                   match printed l w c, go cs with
                   | Some h, Some hs => Some (h :: hs)
                   | _, _ => None
                   end
             end) cs
        with
        | Some hs => Some (HStruct hs)
        | None => None
        end
  end.

(** ** repr attributes of a deriving struct *)

(** The words the derive and rustc look at. *)
Inductive repr := RC | RTransparent | ROpaque | RAlign (n : nat) | RPacked | ROther.

(** A struct definition: its [#[repr(..)]] attributes, each with its words,
    and the fields' types. *)
Record def := Def { d_reprs : list (list repr); d_fields : list ty }.

(** struct_.rs 23-62: looks for the first [repr] attribute that consists of
    one plain identifier ([align(..)] does not parse as one) and goes on with
    the [repr(C)] case if it is [C]. *)
Fixpoint first_ident (rs : list (list repr)) : option repr :=
  match rs with
  | [] => None
  | [RAlign _] :: rs => first_ident rs
  | [r] :: _ => Some r
  | _ :: rs => first_ident rs
  end.
Definition derive_accepts (d : def) : bool :=
  match first_ident (d_reprs d) with
  | Some RC => negb (length (d_fields d) =? 0)
  | _ => false
  end.

(** The C layout the derive defines: [#[repr(C)]] only (struct_.rs 89-131). *)
Definition derived (d : def) : cty := CStruct (map clayout (d_fields d)).

(** What rustc does with the Rust struct: [packed] caps alignments at 1,
    [align(n)] raises that of the struct. *)
Definition rust_fields w (d : def) : list (nat * nat) :=
  let ls := map (layout w) (d_fields d) in
  if existsb (fun r => match r with RPacked => true | _ => false end)
       (concat (d_reprs d))
  then map (fun '(s, _) => (s, 1)) ls else ls.
Definition rust_align w (d : def) : nat :=
  foldr (fun r a => match r with RAlign n => Nat.max n a | _ => a end)
    (max_align (rust_fields w d)) (concat (d_reprs d)).
Definition rust_struct w (d : def) : nat * nat :=
  (round_up (ending 0 (rust_fields w d)) (rust_align w d), rust_align w d).
Definition rust_offsets w (d : def) : list nat := offsets 0 (rust_fields w d).

(** ** Option and TaggedOption *)

(** [repr(C, u8)] enum of option.rs 20-24. *)
Inductive tagged (A : Type) := TNone | TSome (x : A).
Arguments TNone {A}.
Arguments TSome {A} x.

(** option.rs 44-51. *)
Definition tagged_from_option {A} (o : option A) : tagged A :=
  match o with Some v => TSome v | None => TNone end.
(** option.rs 53-60. *)
Definition option_from_tagged {A} (o : tagged A) : option A :=
  match o with TSome v => Some v | TNone => None end.
