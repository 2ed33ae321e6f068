(** What the layout theorems talk about: Rust values, which byte strings
    represent them (a description of the Rust language, independent of the
    crate's checks), and the class of types the theorems cover. *)

From Coq Require Import Arith NArith List Bool Lia.
From stdpp Require Import base numbers list.
From Verif Require Import LayoutModel.

Inductive value :=
| VPrim (bs : list N)
| VBool (b : bool)
| VPtr (a : N)
| VFn (a : N)
| VUnit
| VArray (vs : list value)
| VStruct (vs : list value)
| VNew (v : value)
| VVariant (i : nat)
| VNone | VSome (v : value)
| VTagNone | VTagSome (v : value).

(** Where rustc puts the null pattern of [None::<T>]: at the first non-null
    pointer.  (rustc uses the field with the most invalid patterns, the first
    one among equals; see [slim].) *)
Fixpoint niche_at (w : nat) (t : ty) : option nat :=
  match t with
  | TPtr PRaw _ => None
  | TPtr _ _ | TFn => Some 0
  | TTransp _ t => niche_at w t
  | TStruct _ ts =>
      (fix go (ts : list ty) (os : list nat) :=
         match ts, os with
         | t :: ts, o :: os =>
             match niche_at w t with
             | Some n => Some (o + n)
             | None => go ts os
             end
         | _, _ => None
         end) ts (offsets 0 (map (layout w) ts))
  | _ => None
  end.

(** [rep w le t v bs]: [v] is a value of type [t] and its bytes in memory may
    be [bs].  Padding, and the payload of a [None], may be anything. *)
Fixpoint rep (w : nat) (le : bool) (t : ty) (v : value) (bs : list N) : Prop :=
  match t, v with
  | TPrim s _, VPrim p => p = bs ∧ length bs = s
  | TBool, VBool b => bs = [if b then 1%N else 0%N]
  | TPtr k t', VPtr a =>
      length bs = w ∧ word le bs = a ∧
      match k with
      | PRaw => True
      | PNonNull => a ≠ 0%N
      | PAligned | POut => a ≠ 0%N ∧ (N.of_nat (align_of w t') | a)%N
      end
  | TFn, VFn a => length bs = w ∧ word le bs = a ∧ a ≠ 0%N
  | TUnit, VUnit => bs = []
  | TArray t n, VArray vs =>
      length vs = n ∧ length bs = n * size_of w t ∧
      ∀ i v, vs !! i = Some v → rep w le t v (sub (i * size_of w t) (size_of w t) bs)
  | TStruct nk ts, VStruct vs =>
      length bs = size_of w (TStruct nk ts) ∧
      (fix go (ts : list ty) (vs : list value) (os : list nat) :=
         match ts, vs, os with
         | [], [], [] => True
         | t :: ts, v :: vs, o :: os => rep w le t v (sub o (size_of w t) bs) ∧ go ts vs os
         | _, _, _ => False
         end) ts vs (offsets 0 (map (layout w) ts))
  | TTransp _ t, VNew v => rep w le t v bs
  | TEnum s _ ds, VVariant i => length bs = s ∧ ds !! i = Some (word le bs)
  | TOption t, VNone =>
      length bs = size_of w t ∧
      ∃ n, niche_at w t = Some n ∧ word le (sub n w bs) = 0%N
  | TOption t, VSome v => rep w le t v bs
  | TTagged t, VTagNone => length bs = size_of w (TTagged t) ∧ head bs = Some 0%N
  | TTagged t, VTagSome v =>
      length bs = size_of w (TTagged t) ∧ head bs = Some 1%N ∧
      rep w le t v (sub (round_up 1 (align_of w t)) (size_of w t) bs)
  | _, _ => False
  end.

(** No [bool], enum or tagged option inside: every invalid pattern is a null
    pointer, so that [niche_at] is right about rustc. *)
Fixpoint slim (t : ty) : bool :=
  match t with
  | TPrim _ _ | TPtr _ _ | TFn | TUnit => true
  | TArray t _ | TTransp _ t | TOption t => slim t
  | TStruct _ ts => forallb slim ts
  | _ => false
  end.

(** Field types every pattern of which is valid. *)
Definition free (t : ty) : bool :=
  match t with
  | TPrim _ _ | TPtr PRaw _ | TOption TFn => true
  | _ => false
  end.

(** Types with a [HasNiche] impl, as the crate has them. *)
Fixpoint nichable (w : nat) (t : ty) : Prop :=
  match t with
  | TPtr k _ => k ≠ PRaw
  | TFn => True
  | TTransp false t => nichable w t
  | TStruct NicheFirst ts =>
      (* slices, Vec, VirtualPtr *)
      match ts with
      | TPtr k _ :: ts => k ≠ PRaw ∧ forallb slim ts = true
      | _ => False
      end
  | TStruct NicheDefault ts =>
      (* Bytes, BoxDynFnMutN: one non-null pointer to bytes among harmless
         fields *)
      ∃ pre k p post, ts = pre ++ TPtr k p :: post ∧
        (k = PNonNull ∨ k = PAligned) ∧ align_of w p = 1 ∧
        forallb free pre = true ∧ forallb free post = true
  | _ => False
  end.

(** The types the theorems cover.  Left out, with the reason:
    - [Out]: its check accepts null;
    - [NonNull<T>] with [T] of alignment above 1: its check asks for
      alignment, which [NonNull] does not guarantee;
    - [()] other than as a struct field: its check panics;
    - transparent structs that start with a zero-sized field: the C layout is
      [void];
    - structs with zero-sized fields only: the header generator refuses them.
    Each is the subject of a [_refuted] theorem or of C20. *)
Fixpoint good (w : nat) (t : ty) : Prop :=
  match t with
  | TPrim s a => 0 < s ∧ 0 < a ∧ Nat.divide a s
  | TBool | TFn => True
  | TPtr k t' => k ≠ POut ∧ (k = PNonNull → align_of w t' = 1)
  | TUnit | TOpaque _ _ => False
  | TArray t n => 0 < n ∧ good w t
  | TStruct _ ts =>
      (fix go (ts : list ty) : Prop :=
         match ts with
         | [] => True
         | t :: ts => (t = TUnit ∨ good w t) ∧ go ts
         end) ts ∧
      ¬ (∀ t, t ∈ ts → t = TUnit)
  | TTransp zst_first t => zst_first = false ∧ good w t
  | TEnum s a ds => 0 < s ∧ 0 < a ∧ Nat.divide a s ∧ NoDup ds
  | TOption t => good w t ∧ nichable w t
  | TTagged t => good w t
  end.

(** Offsets of the fields that are not zero-sized. *)
Definition kept_offsets (ls : list (nat * nat)) : list nat :=
  map snd (filter (λ p : (nat * nat) * nat, fst (fst p) ≠ 0) (zip ls (offsets 0 ls))).

(** No attribute other than [repr(C)] changes the layout. *)
Definition plain (d : def) : Prop :=
  ∀ r, r ∈ concat (d_reprs d) → r = RC ∨ r = ROther.

(** Field types as they appear in structs. *)
Definition fields_good (w : nat) (ts : list ty) : Prop :=
  ∀ t, t ∈ ts → t = TUnit ∨ good w t.
