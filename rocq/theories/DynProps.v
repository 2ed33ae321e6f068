(** Properties C33 and C34: dynamic traits. *)

From Coq Require Import List Bool String.
From stdpp Require Import base list strings.
From Verif Require Import DynModel DynSpec DynProofs.

(** A trait with all sorts of methods, one without, one with supertraits. *)
Definition reader : trait := Trait [RRef false RSelf; RRef false RSelf] true false false.
Definition writer : trait := Trait [RRef false RSelf; RRef true RSelf] false false false.
Definition future : trait := Trait [RWrap "Pin" (RRef true RSelf)] false false false.
(** dyn_traits/dyn_drop.rs 36-39 *)
Definition StaticDropGlue : trait := Trait [] true true true.
Definition send_reader : trait := Trait [RRef false RSelf] false true false.
Definition plain_ty : ty := Ty true true true.
(** [Cell<u8>] *)
Definition cell_ty : ty := Ty true false true.

(** ** C33 *)

(** If no automatic trait is a supertrait, a dynamic object that may go to, or
    be seen by, other threads comes from a pointer that may.
    Missing: [Send] or [Sync] as supertraits, see below. *)
Theorem C33_threads_partial t f c T :
  sup_send t = false → sup_sync t = false →
  (f, c) ∈ constructors t → bounds t f c T = true →
  (vptr_send t f = true → ptr_send c T = true) ∧ (vptr_sync t f = true → ptr_sync c T = true).
Proof.
  intros H1 H2 Hc Hb. split; intros Hv.
  - apply not_false_is_true. intros Hp. apply (send_exact t f c T) in Hp as [Hf _]; try done.
    unfold vptr_send in Hv. by rewrite Hf, H1 in Hv.
  - apply not_false_is_true. intros Hp. apply (sync_exact t f c T) in Hp as [Hf _]; try done.
    unfold vptr_sync in Hv. by rewrite Hf, H2 in Hv.
Qed.
(** Any trait, when [Send] ([Sync]) is written in the type of the object. *)
Theorem C33_written_partial t f c T :
  (f, c) ∈ constructors t → bounds t f c T = true →
  (is_send f = true → ptr_send c T = true) ∧ (is_sync f = true → ptr_sync c T = true).
Proof.
  intros Hc Hb. split; intros Hv.
  - apply not_false_is_true. intros Hp. apply (send_exact t f c T) in Hp as [Hf _]; try done.
    + by rewrite Hf in Hv.
    + unfold vptr_send. by rewrite Hv.
  - apply not_false_is_true. intros Hp. apply (sync_exact t f c T) in Hp as [Hf _]; try done.
    + by rewrite Hf in Hv.
    + unfold vptr_sync. by rewrite Hv.
Qed.
(** Exactly what goes wrong: [Rc], and references to types that are not
    [Sync], where [Send] or [Sync] comes from a supertrait. *)
Theorem C33_exact t f c T :
  (f, c) ∈ constructors t → bounds t f c T = true →
  (vptr_send t f = true ∧ ptr_send c T = false ↔
     sup_send t = true ∧ is_send f = false ∧ (c = CRc false ∨ c = CRef false ∧ t_sync T = false)) ∧
  (vptr_sync t f = true ∧ ptr_sync c T = false ↔
     sup_sync t = true ∧ is_sync f = false ∧ c = CRc false).
Proof.
  intros Hc Hb. split; split.
  - intros [Hv Hp]. apply (send_exact t f c T) in Hp as [Hf Hd]; try done. split; [|done].
    unfold vptr_send in Hv. by rewrite Hf in Hv.
  - intros (Hs & Hf & Hd). assert (Hv : vptr_send t f = true) by (unfold vptr_send; by rewrite Hs, orb_true_r).
    split; [done|]. by apply (send_exact t f c T).
  - intros [Hv Hp]. apply (sync_exact t f c T) in Hp as [Hf Hd]; try done. split; [|done].
    unfold vptr_sync in Hv. by rewrite Hf in Hv.
  - intros (Hs & Hf & Hd). assert (Hv : vptr_sync t f = true) by (unfold vptr_sync; by rewrite Hs, orb_true_r).
    split; [done|]. by apply (sync_exact t f c T).
Qed.
Lemma in_constructors t f c rs :
  shape_of t = Some rs →
  negb (is_sync f && negb (is_send f) || has_mutability false rs && is_send f && negb (is_sync f)) = true →
  is_eligible c (klone t) rs f = true → (f, c) ∈ constructors t.
Proof.
  intros Hs Hf Hc. eapply constructors_intro; [exact Hs| |exact Hc]. apply elem_of_list_filter. split.
  - by apply negb_true_iff.
  - destruct f as [[] []]; rewrite !elem_of_cons; tauto.
Qed.
Ltac eligible := eapply in_constructors; [vm_compute; reflexivity|vm_compute; reflexivity|vm_compute; reflexivity].
Example C33_example :
  (Flavour true true, CRc true) ∈ constructors reader ∧ bounds reader (Flavour true true) (CRc true) plain_ty = true ∧
  vptr_send reader (Flavour true true) = true ∧ ptr_send (CRc true) plain_ty = true ∧
  (Flavour true false, CRef true) ∈ constructors future ∧
  bounds future (Flavour true false) (CRef true) cell_ty = true ∧
  vptr_send future (Flavour true false) = true ∧ ptr_send (CRef true) cell_ty = true.
Proof. repeat split; try eligible; done. Qed.

(** [Rc<T>] as [VirtualPtr<dyn StaticDropGlue>], which is [Send], [Sync] and
    [Clone]: the trait is one of the crate. *)
Theorem C33_rc_refuted : ∃ f T,
  (f, CRc false) ∈ constructors StaticDropGlue ∧ bounds StaticDropGlue f (CRc false) T = true ∧
  vptr_send StaticDropGlue f = true ∧ vptr_sync StaticDropGlue f = true ∧ vptr_clone StaticDropGlue = true ∧
  ptr_send (CRc false) T = false ∧ ptr_sync (CRc false) T = false.
Proof. exists (Flavour false false), plain_ty. split; [eligible|done]. Qed.
(** [&Cell<u8>] as [VirtualPtr<dyn Trait>] with [trait Trait : Send]. *)
Theorem C33_ref_refuted : ∃ f T,
  (f, CRef false) ∈ constructors send_reader ∧ bounds send_reader f (CRef false) T = true ∧
  vptr_send send_reader f = true ∧ ptr_send (CRef false) T = false.
Proof. exists (Flavour false false), cell_ty. split; [eligible|done]. Qed.

(** ** C34 *)

(** A trait with a method that may change [self] is only made dynamic from a
    [Box] or a [&mut]. *)
Theorem C34_exclusive t f c m :
  (f, c) ∈ constructors t → m ∈ methods t → mut_access m → exclusive c.
Proof. apply exclusive_mut. Qed.
(** A mutable borrow never becomes a clonable object; a clonable object of a
    trait with such methods comes from a [Box]. *)
Theorem C34_clone t f c :
  (f, c) ∈ constructors t → klone t = true →
  c ≠ CRef true ∧ ((∃ m, m ∈ methods t ∧ mut_access m) → c = CBox).
Proof.
  intros Hc Hk. split.
  - intros ->. by eapply clone_not_mut.
  - intros (m & Hm & Ha). destruct (C34_exclusive _ _ _ _ Hc Hm Ha) as [?| ->]; [done|].
    by apply clone_not_mut in Hc.
Qed.
(** A dynamic object can be cloned only if what it was made from can. *)
Theorem C34_clone_sound t f c T :
  (f, c) ∈ constructors t → bounds t f c T = true → vptr_clone t = true → ptr_clone c T = true.
Proof.
  intros Hc Hb Hk. unfold vptr_clone in Hk. destruct c as [|b|[]]; cbn; try done.
  - unfold bounds in Hb. rewrite Hk in Hb. apply andb_prop in Hb as [_ Hb]. done.
  - by apply clone_not_mut in Hc.
Qed.
(** Boxes are always accepted. *)
Theorem C34_box t rs f : shape_of t = Some rs → f ∈ flavours rs → (f, CBox) ∈ constructors t.
Proof. intros Hs Hf. by eapply constructors_intro. Qed.
(** All methods of a trait made dynamic take a reference, pinned or not. *)
Theorem C34_receivers t f c m :
  (f, c) ∈ constructors t → m ∈ methods t → mut_access m ∨ shared_access m.
Proof.
  intros (rs & Hs%shape_entries & _)%constructors_inv Hm.
  destruct (entries_lookup _ _ _ Hs Hm) as (r & [[? _]|[? _]]%entry_inv & _); [by left|by right].
Qed.
(** Shared pointers are for traits without such methods, and all of those have
    them, in each flavour with both or none of [Send] and [Sync]. *)
Theorem C34_shared t rs f : shape_of t = Some rs → f ∈ flavours rs → is_send f = is_sync f →
  (f, CRc (is_send f)) ∈ constructors t ↔ ∀ m, m ∈ methods t → shared_access m.
Proof.
  intros Hs Hf E. split.
  - intros Hc m Hm. destruct (C34_receivers _ _ _ _ Hc Hm) as [Ha|]; [|done].
    by destruct (C34_exclusive _ _ _ _ Hc Hm Ha).
  - intros Ha. eapply constructors_intro; [done|done|]. cbn. rewrite E, !eqb_reflx, andb_true_r.
    apply negb_true_iff, not_true_is_false. intros H. apply (has_mut_spec t rs Hs) in H as (m & Hm & Hmut).
    apply Ha in Hm. destruct Hmut; inversion Hm.
Qed.
Example C34_example :
  (Flavour true true, CBox) ∈ constructors writer ∧ (Flavour false false, CRef true) ∈ constructors writer ∧
  RRef true RSelf ∈ methods writer ∧ mut_access (RRef true RSelf) ∧
  (Flavour false false, CRc false) ∉ constructors writer ∧
  (Flavour false false, CRc false) ∈ constructors reader ∧
  (Flavour false false, CRef true) ∉ constructors reader.
Proof.
  split; [eligible|]. split; [eligible|]. split; [right; left|]. split; [constructor|]. split; [|split; [eligible|]].
  - intros H. destruct (C34_exclusive _ _ _ (RRef true RSelf) H) as [|]; try done; [right; left|constructor].
  - by apply clone_not_mut.
Qed.
Example C34_shared_example : (Flavour true true, CRc true) ∈ constructors reader.
Proof.
  apply (C34_shared reader [Receiver (KRef false) false; Receiver (KRef false) false] (Flavour true true)); try done.
  - apply elem_of_list_filter. split; [done|]. rewrite !elem_of_cons. tauto.
  - intros m Hm. cbn in Hm. rewrite !elem_of_cons, elem_of_nil in Hm. destruct Hm as [->|[->|[]]]; constructor.
Qed.

(** ** C55 *)

(** A trait with pinned receivers is made dynamic from pinned pointers only,
    and has no method taking [&mut self], which could move the value. *)
Theorem C55_pinned t f c m :
  (f, c) ∈ constructors t → m ∈ methods t → pinned_access m →
  takes_pinned t = true ∧ RRef true RSelf ∉ methods t.
Proof.
  intros (rs & Hs & _)%constructors_inv Hm Hp.
  assert (Hpin : has_pin rs = true).
  { destruct (entries_lookup _ _ _ (shape_entries _ _ Hs) Hm) as (r & He & Hr).
    apply existsb_exists. exists r. rewrite <-elem_of_list_In. split; [done|].
    destruct Hp. cbn in He. by injection He as <-. }
  split; [by unfold takes_pinned; rewrite Hs|]. intros Hm'.
  assert (Hn : has_non_pin_non_ref rs = true).
  { destruct (entries_lookup _ _ _ (shape_entries _ _ Hs) Hm') as (r & He & Hr).
    apply existsb_exists. exists r. rewrite <-elem_of_list_In. split; [done|].
    cbn in He. by injection He as <-. }
  unfold shape_of in Hs. destruct (entries (methods t)) as [rs'|]; [|done].
  destruct (has_pin rs' && has_non_pin_non_ref rs') eqn:E; [done|]. injection Hs as ->.
  by rewrite Hpin, Hn in E.
Qed.
(** Without them, pointers that are not pinned are taken. *)
Theorem C55_unpinned t : (∀ m, m ∈ methods t → ¬ pinned_access m) → takes_pinned t = false.
Proof.
  intros H. unfold takes_pinned. destruct (shape_of t) as [rs|] eqn:Hs; [|done].
  apply not_true_is_false. intros (r & Hr%elem_of_list_In & Hp)%existsb_exists.
  destruct (entries_back _ _ _ (shape_entries _ _ Hs) Hr) as (m & He & Hm).
  apply (H m Hm). destruct (entry_inv _ _ He) as [[Ha Hk]|[Ha Hk]]; destruct Ha; cbn in He; injection He as <-; done || constructor.
Qed.
Example C55_example :
  (Flavour true false, CRef true) ∈ constructors future ∧ RWrap "Pin" (RRef true RSelf) ∈ methods future ∧
  pinned_access (RWrap "Pin" (RRef true RSelf)) ∧ takes_pinned future = true ∧ takes_pinned writer = false ∧
  shape_of (Trait [RWrap "Pin" (RRef true RSelf); RRef true RSelf] false false false) = None.
Proof. split; [eligible|]. split; [left|]. split; [constructor|done]. Qed.

Print Assumptions C33_threads_partial.
Print Assumptions C33_written_partial.
Print Assumptions C33_exact.
Print Assumptions C33_rc_refuted.
Print Assumptions C33_ref_refuted.
Print Assumptions C34_exclusive.
Print Assumptions C34_clone.
Print Assumptions C34_receivers.
Print Assumptions C34_shared.
Print Assumptions C34_clone_sound.
Print Assumptions C34_box.
Print Assumptions C55_pinned.
Print Assumptions C55_unpinned.
