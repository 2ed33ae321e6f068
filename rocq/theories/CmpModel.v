(** Model of the comparisons, hashes, defaults and clones of slices with a C
    layout, on top of VecModel.

    Sources: /repo/src/slice.rs 562-739, "Extra traits for these #[repr(C)]
    slices": Ord, PartialOrd, PartialEq, Hash and Default of [slice_ref] (569-
    620), [slice_mut] (622-673) and [slice_boxed] (676-727), Clone of
    [slice_boxed] (728-737); deref: 221-245, 319-328, 511-519.

    The traits of the elements are arguments.  Those of [[T]] in the standard
    library are modelled by what they document: equal lengths and elements;
    lexicographical; the length is hashed first. *)

From Coq Require Import NArith List Bool.
From stdpp Require Import base numbers list.
From Verif Require Import VecModel.
Local Open Scope N_scope.

(** ** The standard library *)

(** What a [Hasher] is told. *)
Inductive hcall := HLen (n : nat) | HWrite (bs : list N).
Section T.
Context (eqt : elem → elem → bool) (pcmpt : elem → elem → option comparison)
        (cmpt : elem → elem → comparison) (hasht : elem → list hcall).

(** [<[T] as PartialEq>::eq] *)
Definition std_eq (xs ys : list elem) : bool :=
  if (List.length xs =? List.length ys)%nat then forallb (λ p, eqt p.1 p.2) (combine xs ys) else false.
(** [<[T] as PartialOrd>::partial_cmp]: the common length is compared element
    by element, then the lengths. *)
Fixpoint std_partial_cmp (xs ys : list elem) : option comparison :=
  match xs, ys with
  | x :: xs, y :: ys => match pcmpt x y with Some Eq => std_partial_cmp xs ys | r => r end
  | xs, ys => Some (Nat.compare (List.length xs) (List.length ys))
  end.
Fixpoint std_cmp (xs ys : list elem) : comparison :=
  match xs, ys with
  | x :: xs, y :: ys => match cmpt x y with Eq => std_cmp xs ys | r => r end
  | xs, ys => Nat.compare (List.length xs) (List.length ys)
  end.
(** [<[T] as Hash>::hash] *)
Definition std_hash (xs : list elem) : list hcall := HLen (List.length xs) :: concat (map hasht xs).

(** ** slice.rs *)

(** The three types; all are a pointer and a length. *)
Inductive skind := KRef | KMut | KBoxed.
(** [self[..]] *)
Definition full (k : skind) (z : bool) (s : slice) (h : heap) : res (list elem) :=
  match k with
  | KRef | KMut => as_slice z s h                        (* 319-328, 511-519 *)
  | KBoxed => cbox_deref z (CBox (sptr s) (slen s)) h    (* 221-245 *)
  end.
(** 569-578, 622-631, 676-685 *)
Definition s_cmp (k : skind) (z : bool) (a b : slice) (h : heap) : res comparison :=
  xs ← full k z a h; ys ← full k z b h; Ok (std_cmp xs ys).
(** 579-588, 632-641, 686-695 *)
Definition s_partial_cmp (k : skind) (z : bool) (a b : slice) (h : heap) : res (option comparison) :=
  xs ← full k z a h; ys ← full k z b h; Ok (std_partial_cmp xs ys).
(** 592-601, 645-654, 699-708 *)
Definition s_eq (k : skind) (z : bool) (a b : slice) (h : heap) : res bool :=
  xs ← full k z a h; ys ← full k z b h; Ok (std_eq xs ys).
(** 602-610, 655-663, 709-717: all that the hasher is told *)
Definition s_hash (k : skind) (z : bool) (a : slice) (h : heap) : res (list hcall) :=
  xs ← full k z a h; Ok (std_hash xs).
End T.
(** 611-620, 664-673: of [&[]]; 718-727: of [Box::new([])], which allocates
    nothing. *)
Definition s_default (k : skind) (z : bool) (h : heap) : heap * slice :=
  match k with
  | KRef | KMut => (h, slice_from Dangling 0)
  | KBoxed => let '(h, p) := alloc z 0 [] h in let b := cbox_from (RBox p 0) in (h, Slice (cptr b) (clen b))
  end.
(** 728-737: [Vec::from(&[T])] allocates for the elements, then clones them one
    by one; a panic of the clone of element [n] drops those before.  Then
    [into_boxed_slice] and back to C. *)
Definition cbox_clone (z : bool) (self : cbox) (panic : option nat) (h : heap) : res (heap * option cbox) :=
  xs ← cbox_deref z self h;
  let made := match panic with Some n => if (n <? List.length xs)%nat then Some n else None | None => None end in
  match made with
  | Some n =>
      let '(h, v) := vec_new z (firstn n xs) (N.of_nat (List.length xs)) h in
      h ← vec_drop z v h; Ok (h, None)
  | None =>
      let '(h, v) := vec_new z xs (N.of_nat (List.length xs)) h in
      r ← vec_into_box z v h; Ok (r.1, Some (cbox_from r.2))
  end.
