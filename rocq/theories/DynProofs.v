(** Proofs about dynamic traits. *)

From Coq Require Import List Bool String.
From stdpp Require Import base list strings.
From Verif Require Import DynModel DynSpec.

Lemma constructors_inv t f c : (f, c) ∈ constructors t →
  ∃ rs, shape_of t = Some rs ∧ f ∈ flavours rs ∧ is_eligible c (klone t) rs f = true.
Proof.
  unfold constructors. destruct (shape_of t) as [rs|]; [|by intros H%elem_of_nil].
  intros H. apply elem_of_list_In, in_flat_map in H as (f' & Hf & H).
  apply in_map_iff in H as (c' & E & H). injection E as -> ->.
  apply elem_of_list_In, elem_of_list_filter in H as [H _]. exists rs. split; [done|]. split; [|done].
  by apply elem_of_list_In.
Qed.
Lemma constructors_intro t f c rs :
  shape_of t = Some rs → f ∈ flavours rs → is_eligible c (klone t) rs f = true → (f, c) ∈ constructors t.
Proof.
  intros Hs Hf Hc. unfold constructors. rewrite Hs. apply elem_of_list_In, in_flat_map. exists f.
  split; [by apply elem_of_list_In|]. apply in_map_iff. exists c. split; [done|].
  apply elem_of_list_In, elem_of_list_filter. split; [done|]. unfold coercibles.
  destruct c as [|[]|[]]; rewrite !elem_of_cons; tauto.
Qed.
Lemma flavours_sync rs f : f ∈ flavours rs → is_sync f = true → is_send f = true.
Proof.
  intros H Hs. apply elem_of_list_filter in H as [H _]. rewrite Hs in H. by destruct (is_send f).
Qed.

(** ** Receivers *)

Lemma entry_inv t r : entry t = Some r →
  (mut_access t ∧ r_kind r = KRef true) ∨ (shared_access t ∧ r_kind r = KRef false).
Proof.
  unfold entry. destruct t as [|m t|n t|]; cbn; try done.
  - destruct t; try done. intros [= <-]. destruct m; [left|right]; (split; [constructor|done]).
  - destruct t as [|m t|n' t|]; cbn.
    + destruct (String.eqb n "Box"); [done|]. by destruct (String.eqb n "Arc").
    + destruct (String.eqb n "Pin") eqn:E; [|done]. apply String.eqb_eq in E. subst n.
      destruct t; try done. intros [= <-]. destruct m; [left|right]; (split; [constructor|done]).
    + destruct (String.eqb n "Pin"); [|done].
      destruct t; cbn; try done. destruct (String.eqb n' "Box"); [done|]. by destruct (String.eqb n' "Arc").
    + by destruct (String.eqb n "Pin").
Qed.
Lemma entry_mut t r : entry t = Some r → mut_access t → r_kind r = KRef true.
Proof. by intros [[? ?]|[H ?]]%entry_inv; [|destruct H; inversion 1]. Qed.
Lemma entry_shared t r : entry t = Some r → shared_access t → r_kind r = KRef false.
Proof. by intros [[H ?]|[? ?]]%entry_inv; [destruct H; inversion 1|]. Qed.
Lemma entries_lookup ms rs t : entries ms = Some rs → t ∈ ms → ∃ r, entry t = Some r ∧ r ∈ rs.
Proof.
  revert rs. induction ms as [|m ms IH]; intros rs H Ht; [by apply elem_of_nil in Ht|]. cbn in H.
  destruct (entry m) as [r|] eqn:Em; [|done]. destruct (entries ms) as [rs'|]; [|done]. injection H as <-.
  apply elem_of_cons in Ht as [->|Ht].
  - exists r. split; [done|left].
  - destruct (IH _ eq_refl Ht) as (r' & ? & ?). exists r'. split; [done|by right].
Qed.
Lemma entries_back ms rs r : entries ms = Some rs → r ∈ rs → ∃ t, entry t = Some r ∧ t ∈ ms.
Proof.
  revert rs. induction ms as [|m ms IH]; intros rs H Hr; cbn in H.
  - injection H as <-. by apply elem_of_nil in Hr.
  - destruct (entry m) as [r'|] eqn:Em; [|done]. destruct (entries ms) as [rs'|]; [|done]. injection H as <-.
    apply elem_of_cons in Hr as [->|Hr].
    + exists m. split; [done|left].
    + destruct (IH _ eq_refl Hr) as (t & ? & ?). exists t. split; [done|by right].
Qed.
Lemma shape_entries t rs : shape_of t = Some rs → entries (methods t) = Some rs.
Proof.
  unfold shape_of. destruct (entries (methods t)) as [rs'|]; [|done].
  by destruct (has_pin rs' && has_non_pin_non_ref rs').
Qed.
Lemma has_mut_spec t rs : shape_of t = Some rs →
  has_mutability true rs = true ↔ ∃ m, m ∈ methods t ∧ mut_access m.
Proof.
  intros H%shape_entries. unfold has_mutability. rewrite existsb_exists. split.
  - intros (r & Hr & E). apply elem_of_list_In in Hr. destruct (entries_back _ _ _ H Hr) as (m & Em & Hm).
    exists m. split; [done|]. apply entry_inv in Em as [[? ?]|[? Ek]]; [done|]. by rewrite Ek in E.
  - intros (m & Hm & Ha). destruct (entries_lookup _ _ _ H Hm) as (r & Er & Hr). exists r.
    split; [by apply elem_of_list_In|]. by rewrite (entry_mut _ _ Er Ha).
Qed.
Lemma has_ref_spec t rs : shape_of t = Some rs →
  has_mutability false rs = true ↔ ∃ m, m ∈ methods t ∧ shared_access m.
Proof.
  intros H%shape_entries. unfold has_mutability. rewrite existsb_exists. split.
  - intros (r & Hr & E). apply elem_of_list_In in Hr. destruct (entries_back _ _ _ H Hr) as (m & Em & Hm).
    exists m. split; [done|]. apply entry_inv in Em as [[? Ek]|[? ?]]; [|done]. by rewrite Ek in E.
  - intros (m & Hm & Ha). destruct (entries_lookup _ _ _ H Hm) as (r & Er & Hr). exists r.
    split; [by apply elem_of_list_In|]. by rewrite (entry_shared _ _ Er Ha).
Qed.

(** ** Threads *)

Lemma send_exact t f c T :
  (f, c) ∈ constructors t → bounds t f c T = true → vptr_send t f = true →
  ptr_send c T = false ↔
  is_send f = false ∧ (c = CRc false ∨ c = CRef false ∧ t_sync T = false).
Proof.
  intros (rs & _ & Hf & He)%constructors_inv Hb Hv. pose proof (flavours_sync _ _ Hf) as Hs.
  destruct f as [fs fy], T as [Ts Ty Tc], t as [ms k ss sy].
  unfold bounds, implements, vptr_send, is_eligible in *. cbn in *.
  destruct c as [|[]|[]], (has_mutability true rs), fs, fy, ss, sy, Ts, Ty; cbn in *; naive_solver.
Qed.
Lemma sync_exact t f c T :
  (f, c) ∈ constructors t → bounds t f c T = true → vptr_sync t f = true →
  ptr_sync c T = false ↔ is_sync f = false ∧ c = CRc false.
Proof.
  intros (rs & _ & Hf & He)%constructors_inv Hb Hv. pose proof (flavours_sync _ _ Hf) as Hs.
  destruct f as [fs fy], T as [Ts Ty Tc], t as [ms k ss sy].
  unfold bounds, implements, vptr_sync, is_eligible in *. cbn in *.
  destruct c as [|[]|[]], (has_mutability true rs), fs, fy, ss, sy, Ts, Ty; cbn in *; naive_solver.
Qed.

(** ** Exclusivity *)

Lemma exclusive_mut t f c m :
  (f, c) ∈ constructors t → m ∈ methods t → mut_access m → exclusive c.
Proof.
  intros (rs & Hs & Hf & He)%constructors_inv Hm Ha.
  assert (Hh : has_mutability true rs = true) by (apply (has_mut_spec t); [done|by exists m]).
  unfold is_eligible in He. rewrite Hh in He. destruct c as [|?|[]]; cbn in He; try done; [by left|by right].
Qed.
Lemma clone_not_mut t f : klone t = true → (f, CRef true) ∉ constructors t.
Proof. intros Hk (rs & _ & _ & He)%constructors_inv. cbn in He. by rewrite Hk in He. Qed.
