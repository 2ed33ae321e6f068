(** What the types of [stabby] are, in the terms of LayoutSpec: its [rep] says
    which byte strings represent a value of a Rust type. *)

From Coq Require Import Arith NArith List Bool.
From stdpp Require Import base numbers list.
From Verif Require Import LayoutModel LayoutSpec StabModel.
Import stdpp.list.

(** An owning pointer to [T] is like a [&T]; a slice is the addresses of its
    start and of its end; a table of functions for several traits has that of
    the other traits first, that of no trait at all being the drop function. *)
Fixpoint described (s : sty) : ty :=
  match s with
  | SReprC t => t
  | SPtr _ t => TPtr PAligned t
  | SSlice _ t => TStruct NicheNone [TPtr PAligned t; TPtr PAligned t]
  | SStr _ => TStruct NicheNone [TPtr PAligned (TPrim 1 1); TPtr PAligned (TPrim 1 1)]
  | SOption s => TOption (described s)
  | SDyn p v => TStruct NicheNone [described p; TPtr PAligned (described v)]
  | SDynRef v => TStruct NicheNone [TPtr PAligned TUnit; TPtr PAligned (described v)]
  | SVtDrop => TStruct NicheNone [TFn]
  | SVTable h t => TStruct NicheNone [described t; described h]
  | SVtSend t | SVtSync t => described t
  | SStableIf s | SStableLike s => described s
  end.

(** Types for which there are impls: [Option] of a type with a niche. *)
Fixpoint compiles (s : sty) : Prop :=
  match s with
  | SReprC _ | SPtr _ _ | SSlice _ _ | SStr _ | SVtDrop => True
  | SOption (SReprC _) | SOption (SPtr _ _) => True
  | SOption _ => False
  | SDyn p v => compiles p ∧ compiles v
  | SDynRef v => compiles v
  | SVTable h t => compiles h ∧ compiles t
  | SVtSend t | SVtSync t => compiles t
  | SStableIf s | SStableLike s => compiles s
  end.

(** A slice of elements of size [n]: the end is not before the start, and a
    whole number of elements lies between. *)
Definition slice_ok (n : nat) (v : value) : Prop :=
  match v with
  | VStruct [VPtr a; VPtr b] => (a ≤ b ∧ ∃ k, b = a + k * N.of_nat n)%N
  | _ => False
  end.

(** Tables of functions, as [stabby]'s [vtable!] makes them. *)
Fixpoint vtable (s : sty) : Prop :=
  match s with
  | SVtDrop => True
  | SVTable _ t | SVtSend t | SVtSync t => vtable t
  | _ => False
  end.

(** [upcast s s']: the table [s] extends the table [s']. *)
Inductive upcast : sty → sty → Prop :=
| up_refl s : upcast s s
| up_table h t s' : upcast t s' → upcast (SVTable h t) s'
| up_send t s' : upcast t s' → upcast (SVtSend t) s'
| up_sync t s' : upcast t s' → upcast (SVtSync t) s'.
