(** Model of the types of the [stabby] crate as types with a C layout.

    Sources (all in /repo/src/stabby): _mod.rs 35-57 [Stabbied];
    boxed_impl.rs 11-58; sync_impl.rs 10-100; fatptr_impl.rs 7-97.

    The types themselves are those of [stabby] ([slayout] is their size and
    alignment): an owning pointer is one pointer, an owning slice the addresses
    of its start and of its end, a trait object a pointer and the reference to
    its table of functions.

    Simplifications: a pointee matters by its alignment, and is any type of
    LayoutModel; allocators are zero-sized ([IStable<Size = USIZE>] in the
    bounds of the impls, boxed_impl.rs 13). *)

From Coq Require Import Arith NArith List Bool.
From stdpp Require Import base numbers list.
From Verif Require Import LayoutModel.
Import stdpp.list.

Inductive owner := OBox | OArc | OWeak.

Inductive sty :=
(** any other type of the user, with a C layout *)
| SReprC (t : ty)
(** [Box<T>], [Arc<T>], [Weak<T>] *)
| SPtr (o : owner) (t : ty)
(** [BoxedSlice<T>], [ArcSlice<T>], [WeakSlice<T>] *)
| SSlice (o : owner) (t : ty)
(** [BoxedStr], [ArcStr], [WeakStr] *)
| SStr (o : owner)
| SOption (s : sty)
| SDyn (ptr vt : sty)
| SDynRef (vt : sty)
| SVtDrop
| SVTable (head tail : sty)
| SVtSend (tail : sty)
| SVtSync (tail : sty)
| SStableIf (s : sty)
| SStableLike (s : sty).

(** Size and alignment of the Rust type. *)
Fixpoint slayout (w : nat) (s : sty) : nat * nat :=
  match s with
  | SReprC t => layout w t
  | SPtr _ _ => (w, w)
  | SSlice _ _ | SStr _ => LayoutModel.seal [(w, w); (w, w)]
  | SOption s => slayout w s
  | SDyn p _ => LayoutModel.seal [slayout w p; (w, w)]
  | SDynRef _ => LayoutModel.seal [(w, w); (w, w)]
  | SVtDrop => LayoutModel.seal [(w, w)]
  | SVTable h t => LayoutModel.seal [slayout w t; slayout w h]
  | SVtSend t | SVtSync t => slayout w t
  | SStableIf s | SStableLike s => slayout w s
  end.

(** [ReprC::CLayout] *)
Fixpoint sclayout (s : sty) : cty :=
  match s with
  | SReprC t => clayout t
  | SPtr _ _ => CPtr                          (* boxed_impl.rs 15; sync_impl.rs 14, 56 *)
  | SSlice _ _ | SStr _ => CStruct [CPtr; CPtr]
      (* boxed_impl.rs 34, 45, 51-57; sync_impl.rs 35, 46, 77, 88 *)
  | SOption s => sclayout s                   (* layout/niche.rs 21 *)
  | SDyn p _ => CStruct [sclayout p; CPtr]    (* fatptr_impl.rs 10, 23-29 *)
  | SDynRef _ => CStruct [CPtr; CPtr]         (* fatptr_impl.rs 17 *)
  | SVtDrop => CStruct [CPtr]                 (* fatptr_impl.rs 31-38 *)
  | SVTable h t => CStruct [sclayout t; sclayout h]
                                              (* fatptr_impl.rs 44-59 *)
  | SVtSend t | SVtSync t => sclayout t       (* fatptr_impl.rs 66, 73 *)
  | SStableIf s | SStableLike s => sclayout s (* fatptr_impl.rs 80, 87 *)
  end.

(** The address in a field of pointer type. *)
Definition address (w : nat) (le : bool) (bs : list N) : N :=
  word le (sub 0 w bs).

(** [it.align_offset(a) == 0]: so many elements away from being aligned,
    [usize::MAX] when no number of them helps. *)
Definition aligned (a : nat) (p : N) : bool := N.eqb (p mod N.of_nat a) 0.

(** [is_valid] as [derive_ReprC] has it for a struct: the fields of size 0 are
    not looked at (proc_macro/src/derives/repr_c/struct_.rs 169-199).  A field
    is the size of its Rust type, its C layout and its check. *)
Fixpoint checks (fs : list (nat * cty * (list N → option bool)))
    (w : nat) (os : list nat) (bs : list N) : option bool :=
  match fs, os with
  | (n, c, f) :: fs, o :: os =>
      both (if n =? 0 then Some true else f (sub o (fst (csa w c)) bs))
           (checks fs w os bs)
  | _, _ => Some true
  end.
Definition struct_valid fs w bs : option bool :=
  checks fs w (offsets 0 (map (λ f, csa w (snd (fst f))) fs)) bs.

(** [&T]: layout/impls.rs 969-1010. *)
Definition ref_valid (w : nat) (le : bool) (a : nat) (bs : list N) : option bool :=
  let p := address w le bs in Some (negb (N.eqb p 0) && aligned a p).

(** [HasNiche::is_niche]; [None]: no such impl.  boxed_impl.rs 20-27;
    sync_impl.rs 19-26, 61-68. *)
Definition sniche (w : nat) (le : bool) (s : sty) (bs : list N) : option bool :=
  match s with
  | SReprC t => is_niche w le t bs (is_valid w le t bs)
  | SPtr _ _ => Some (N.eqb (address w le bs) 0)
  | _ => None
  end.

(** The check of a slice; boxed_impl.rs 35-39, sync_impl.rs 36-40. *)
Definition slice_valid (w : nat) (le : bool) (a : nat) (bs : list N) : option bool :=
  let start := address w le bs in
  let stop := address w le (sub w w bs) in
  Some (negb (N.eqb start 0 || N.eqb stop 0) && aligned a start && aligned a stop).

(** [ReprC::is_valid]; [None] is a panic. *)
Fixpoint svalid (w : nat) (le : bool) (s : sty) (bs : list N) : option bool :=
  match s with
  | SReprC t => is_valid w le t bs
  | SPtr _ t =>                              (* boxed_impl.rs 16-18; sync_impl.rs 15-17, 57-59 *)
      match sniche w le s bs with
      | Some n => Some (negb n && aligned (align_of w t) (address w le bs))
      | None => None
      end
  | SSlice _ t => slice_valid w le (align_of w t) bs   (* also sync_impl.rs 78-80 *)
  | SStr _ => slice_valid w le 1 bs          (* boxed_impl.rs 46-48; sync_impl.rs 47-49, 89-91 *)
  | SOption s' =>                            (* layout/niche.rs 27 *)
      match sniche w le s' bs with
      | Some true => Some true
      | Some false => svalid w le s' bs
      | None => None
      end
  | SDyn p v =>                              (* fatptr_impl.rs 11-13 *)
      struct_valid [(fst (slayout w p), sclayout p, svalid w le p);
                    (w, CPtr, ref_valid w le (snd (slayout w v)))] w bs
  | SDynRef v =>                             (* fatptr_impl.rs 18-20 *)
      struct_valid [(w, CPtr, ref_valid w le 1);
                    (w, CPtr, ref_valid w le (snd (slayout w v)))] w bs
  | SVtDrop =>                               (* fatptr_impl.rs 39-41 *)
      struct_valid [(w, CPtr, is_valid w le TFn)] w bs
  | SVTable h t =>                           (* fatptr_impl.rs 60-62 *)
      struct_valid [(fst (slayout w t), sclayout t, svalid w le t);
                    (fst (slayout w h), sclayout h, svalid w le h)] w bs
  | SVtSend t | SVtSync t => svalid w le t bs          (* fatptr_impl.rs 67-69, 74-76 *)
  | SStableIf s | SStableLike s => svalid w le s bs    (* fatptr_impl.rs 81-83, 88-90 *)
  end.

(** layout/_mod.rs 871-885 and 892-900. *)
Definition sfrom_raw w le s (bs : list N) : outcome :=
  match svalid w le s bs with
  | None => Panic
  | Some false => Rejected
  | Some true => transmute_unchecked (fst (csa w (sclayout s))) (fst (slayout w s)) bs
  end.
Definition sinto_raw w s (bs : list N) : outcome :=
  transmute_unchecked (fst (slayout w s)) (fst (csa w (sclayout s))) bs.

(** ** [Stabbied<T>], for any [T : IStable] *)

(** [T::is_invalid] of [stabby] is all that is known of [T]. *)
Definition stabbied_valid (is_invalid : list N → bool) (bs : list N) : bool :=
  negb (is_invalid bs).                      (* _mod.rs 43-45 *)
(** _mod.rs 48-51: the default method of [__HasNiche__] (layout/niche.rs 8-14). *)
Definition stabbied_niche (is_invalid : list N → bool) (bs : list N) : bool :=
  negb (stabbied_valid is_invalid bs).
Definition opt_stabbied_valid (is_invalid : list N → bool) (bs : list N) : bool :=
  stabbied_niche is_invalid bs || stabbied_valid is_invalid bs.
