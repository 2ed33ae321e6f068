(** Property C81: [Bytes] and the reference-counted slices they are made of: [Arc<[u8]>] and, with the
    feature [stabby], [ArcSlice<u8>]. *)
From stdpp Require Import base numbers list.
From Verif Require Import BytesModel BytesSpec BytesEnc BytesInv BytesOps BytesMeth BytesRefine BytesFacts BytesProps.
Local Open Scope N_scope.

(** 64-bit little-endian, with [stabby]. *)
Definition le64s := Platform 8 true true ex_addr true.
Lemma wf_le64s : wf_platform le64s. Proof. wf_tac. Qed.

(** The conversion the configuration copies into, and the values it takes. *)
Definition OInto (p : platform) (h : nat) : op := if stabby p then OIntoStab h else OIntoArc h.
Definition taken (p : platform) (s : state) (h : nat) (c : list N) : Prop :=
  ∃ s', step p s (OInto p h) = SDone s' (RArc (length (st_arcs s))) ∧ st_mem s' = st_mem s ∧
    arc_view s' !! length (st_arcs s) = Some (Some c) ∧ get_h s' h = None.

(** A value becomes an [ArcSlice] exactly if it is backed by one and starts where that starts; then the
    bytes are the same, those of the value, and no count changes.  Otherwise it is handed back. *)
Theorem C81_into_stabby : ∀ p s h x, wf_platform p → reach p s → get_h s h = Some x → stabby p = true →
  (starts_stab p s x →
     ∃ s' c, step p s (OIntoStab h) = SDone s' (RArc (length (st_arcs s))) ∧ st_mem s' = st_mem s
       ∧ view p s !! h = Some (Some c) ∧ arc_view s' !! length (st_arcs s) = Some (Some c)
       ∧ get_arc s' (length (st_arcs s)) = Some (Arc (b_owner (h_b x)) (N.of_nat (length c)) AStab)
       ∧ get_h s' h = None)
  ∧ (¬ starts_stab p s x → step p s (OIntoStab h) = SDone s (RFail h)).
Proof. intros p s h x Hwf. by apply into_stab_iff. Qed.
Print Assumptions C81_into_stabby.

Lemma view_get p s h c : view p s !! h = Some (Some c) → ∃ x, get_h s h = Some x ∧ as_slice p (st_mem s) (h_b x) = Some c.
Proof.
  unfold view, get_h. rewrite list_lookup_fmap. destruct (st_h s !! h) as [[x|]|]; [|done|done].
  cbn. intros [= H]. by exists x.
Qed.

(** There and back again: the same [ArcSlice]. *)
Theorem C81_round_trip : ∀ p s i a, wf_platform p → reach p s → stabby p = true →
  get_arc s i = Some a → a_t a = AStab →
  ∃ s1 s2, step p s (OFromStab i) = SDone s1 (RHandle (length (st_h s))) ∧
    view p s1 !! length (st_h s) = arc_view s !! i ∧
    step p s1 (OIntoStab (length (st_h s))) = SDone s2 (RArc (length (st_arcs s))) ∧
    get_arc s2 (length (st_arcs s)) = Some a ∧ st_mem s2 = st_mem s.
Proof.
  intros p s i a Hwf Hr Hs Ha Ht.
  assert (E : step p s (OFromStab i) = SDone (State (st_mem s)
      (st_h s ++ [Some (Handle (from_stab p (a_base a) (a_len a)) LStatic)]) (<[i := None]> (st_arcs s))) (RHandle (length (st_h s)))).
  { cbn [step]. rewrite Ha, bool_decide_eq_true_2 by done. done. }
  pose proof (step_refines p Hwf s (OFromStab i) Hr I) as Href. rewrite E in Href.
  assert (Hr1 : reach p _) by (eapply (reach_done p _ (OFromStab i)); [done|done|exact E]).
  destruct Href as (c & Hc & _ & Hv & _).
  set (s1 := State _ _ _) in *.
  assert (Hg : get_h s1 (length (st_h s)) = Some (Handle (from_stab p (a_base a) (a_len a)) LStatic)).
  { unfold get_h, s1. cbn [st_h]. by rewrite lookup_app_r, Nat.sub_diag by done. }
  assert (Hv1 : view p s1 !! length (st_h s) = Some (Some c)).
  { rewrite Hv. rewrite <- (fmap_length (λ x, x ≫= λ h, as_slice p (st_mem s) (h_b h)) (st_h s)).
    by rewrite lookup_app_r, Nat.sub_diag by done. }
  exists s1. destruct (into_stab_iff p Hwf s1 _ _ Hr1 Hg Hs) as [Hyes _].
  destruct Hyes as (s2 & c' & H1 & H2 & H3 & H4 & H5 & H6).
  { destruct (reach_inv p Hwf s1 Hr1) as (G & A & HS). destruct (get_h_ghost p _ _ _ _ _ HS Hg) as [c1 Hg1].
    pose proof (SInv_hok p _ _ _ _ _ _ HS Hg1) as Hok.
    destruct Hok as [(Hin & _)|(v & Hv' & Hx')].
    { cbn [h_b] in Hin. rewrite (not_inlined p _ VStab) in Hin by done. done. }
    assert (v = VStab) as -> by (eapply (wf_inj p Hwf); cbn in Hv'; congruence).
    destruct Hx' as [(j & r & Hj & Hb & _)|(? & _)]; [|done]. cbn [backs h_b] in Hb.
    pose proof (proj1 (stab_at_spec _ _ _) Hb) as (Hl & Hb' & _ & _ & n & Hk). exists j, r, n. split_and!; try done. }
  exists s2. split_and!; [done|by rewrite Hv1| | |done].
  - rewrite H1. f_equal. f_equal. unfold s1. cbn [st_arcs]. by rewrite insert_length.
  - replace (length (st_arcs s1)) with (length (st_arcs s)) in H5 by (unfold s1; cbn [st_arcs]; by rewrite insert_length).
    rewrite H5. cbn [h_b from_stab b_owner].
    destruct (live_readable p Hwf s1 _ _ Hr1 Hg) as (c1 & Hc1 & Hl1 & _).
    destruct (view_get _ _ _ _ H3) as (x & Hx & Hxc). assert (c1 = c') as -> by congruence.
    rewrite <- Hl1. cbn [h_b]. unfold len. rewrite (not_inlined p _ VStab) by done. cbn [from_stab b_len].
    destruct a as [? ? ?]. cbn in Ht |- *. by subst.
Qed.
Print Assumptions C81_round_trip.

Lemma copied_taken p m base data b m' : copied_from_slice p m base data = Ok b m' → (length m < length m')%nat →
  m' = m ++ [Region base data (if stabby p then KStab 1 else KArc 1) true] ∧
  b = (if stabby p then from_stab else from_arc) p base (N.of_nat (length data)).
Proof.
  unfold copied_from_slice, alloc. destruct (inline_slice p data); [intros [= <- <-]; lia|].
  destruct (can_alloc _ _ _ _ _); [|done]. by intros [= <- <-].
Qed.
Lemma same_taken p s h x c base data : wf_platform p → reach p s → get_h s h = Some x → view p s !! h = Some (Some c) →
  Region base data (if stabby p then KStab 1 else KArc 1) true ∈ st_mem s →
  h_b x = (if stabby p then from_stab else from_arc) p base (N.of_nat (length data)) → taken p s h c.
Proof.
  intros Hwf Hr Hx Hc (i & Hi)%elem_of_list_lookup Hb. unfold taken, OInto. destruct (stabby p) eqn:E.
  - destruct (into_stab_iff p Hwf s h x Hr Hx E) as [(s' & c' & H1 & H2 & H3 & H4 & _ & H6) _].
    { exists i. eexists _, _. rewrite Hb. split_and!; done. }
    assert (c' = c) as -> by congruence. by exists s'.
  - destruct (into_arc_iff p Hwf s h x Hr Hx) as [(s' & c' & H1 & H2 & H3 & H4 & H6) _].
    { exists i. eexists _, _. rewrite Hb. split_and!; done. }
    assert (c' = c) as -> by congruence. by exists s'.
Qed.
Lemma upd_len f g m m' : upd_at f g m = Some m' → length m' = length m.
Proof. unfold upd_at. destruct (list_find _ m) as [[? ?]|]; [|done]. intros [= <-]. apply insert_length. Qed.
Lemma retain_len f o c m m' : call_retain f o c m = Some m' → length m' = length m.
Proof. destruct f; cbn; try done; first [by intros H%upd_len|by intros [= <-]]. Qed.

(** A value made by a clone that allocates (as that of a value backed by a [Box] does when it is long) is
    accepted; so is one made by an upgrade that allocates. *)
Theorem C81_clone_taken : ∀ p s h base s' k, wf_platform p → reach p s →
  step p s (OClone h base) = SDone s' (RHandle k) → (length (st_mem s) < length (st_mem s'))%nat →
  ∃ c, view p s !! h = Some (Some c) ∧ taken p s' k c.
Proof.
  intros p s h base s' k Hwf Hr H Hlt.
  pose proof (step_refines p Hwf s (OClone h base) Hr I) as Href. rewrite H in Href.
  destruct Href as (c & Hc & [= ->] & Hv & _). exists c. split; [done|].
  assert (Hr' : reach p s') by (eapply (reach_done p s (OClone h base)); [done|done|exact H]).
  cbn [step] in H. unfold with_h in H. destruct (get_h s h) as [x|]; [|done].
  destruct (clone p (st_mem s) (h_b x) base) as [b m|m| |] eqn:E; try done. unfold push_h in H. injection H as <- _.
  cbn [st_mem] in Hlt.
  assert (∃ data, copied_from_slice p (st_mem s) base data = Ok b m) as [data Hd].
  { unfold clone, noalloc_clone in E. destruct (vtable p (h_b x)) as [| |v]; [injection E as <- <-; lia|done|].
    destruct (vt_retain v) as [f|].
    - destruct (call_retain _ _ _ _) eqn:E2; [|done]. injection E as <- <-. apply retain_len in E2. lia.
    - destruct (as_slice p (st_mem s) (h_b x)) as [data|]; [|done]. by exists data. }
  destruct (copied_taken _ _ _ _ _ _ Hd Hlt) as [-> Hb].
  eapply same_taken; [done|done| | | |].
  - unfold get_h. cbn [st_h]. rewrite lookup_app_r; [|unfold view; by rewrite fmap_length].
    unfold view at 1. rewrite fmap_length, Nat.sub_diag. done.
  - rewrite Hv. by rewrite lookup_app_r, Nat.sub_diag by done.
  - cbn [st_mem]. rewrite elem_of_app. right. by left.
  - done.
Qed.
Print Assumptions C81_clone_taken.
Theorem C81_upgrade_taken : ∀ p s h base s' r, wf_platform p → reach p s →
  step p s (OUpgrade h base) = SDone s' r → (length (st_mem s) < length (st_mem s'))%nat →
  ∃ c, view p s !! h = Some (Some c) ∧ taken p s' h c.
Proof.
  intros p s h base s' k Hwf Hr H Hlt.
  pose proof (step_refines p Hwf s (OUpgrade h base) Hr I) as Href. rewrite H in Href.
  destruct Href as (_ & Hv & _).
  assert (Hr' : reach p s') by (eapply (reach_done p s (OUpgrade h base)); [done|done|exact H]).
  cbn [step] in H. unfold with_h in H. destruct (get_h s h) as [x|] eqn:Hx; [|done].
  destruct (live_readable p Hwf s _ _ Hr Hx) as (c & Hc & _).
  assert (Hvc : view p s !! h = Some (Some c)).
  { unfold view. rewrite list_lookup_fmap. unfold get_h in Hx. destruct (st_h s !! h) as [[y|]|]; try done.
    cbn in Hx. injection Hx as ->. cbn. by rewrite Hc. }
  exists c. split; [done|].
  destruct (upgrade p (st_mem s) (h_b x) base) as [b m|m| |] eqn:E; try done. unfold replace_h in H. injection H as <- _.
  cbn [st_mem] in Hlt. unfold upgrade in E.
  destruct (vtable p (h_b x)) as [| |v] eqn:Ev; [injection E as <- <-; lia|done|].
  destruct (is_borrowed v) eqn:Eb; cbn [negb] in E; [|injection E as <- <-; lia]. rewrite Hc in E.
  destruct (copied_from_slice p (st_mem s) base c) as [b' m'|m'| |] eqn:Ed; try done.
  unfold drop_bytes in E. rewrite Ev in E. unfold is_borrowed in Eb. destruct (vt_release v) eqn:Er; [done|].
  injection E as <- <-.
  destruct (copied_taken _ _ _ _ _ _ Ed Hlt) as [-> Hb].
  assert (Hlh : (h < length (st_h s))%nat).
  { unfold get_h in Hx. destruct (st_h s !! h) eqn:E; [|done]. by eapply lookup_lt_Some. }
  eapply same_taken; [done|done| | | |].
  - unfold get_h, set_h. cbn [st_h]. rewrite list_lookup_insert by done. done.
  - by rewrite Hv.
  - cbn [st_mem]. rewrite elem_of_app. right. by left.
  - done.
Qed.
Print Assumptions C81_upgrade_taken.

(** Three values of one [ArcSlice]: a whole, one without its start, one without its end; a long value of a
    box and its clone. *)
Definition c81_ops : list op :=
  [ONewStab 4096 (seqN 200); OArcClone 0; OFromStab 0; OClone 0 0; OClone 0 0; ORead 1 50; OSplit 2 50 0;
   OFromBox (seqN 100) 8192; OClone 4 16384].
Definition c81_state : state := match run le64s init c81_ops with SDone s _ => s | _ => init end.
Example C81_example : reach le64s c81_state ∧ stabby le64s = true ∧
  get_arc c81_state 1 = Some (Arc 4096 200 AStab) ∧
  taken le64s c81_state 0 (seqN 200) ∧
  step le64s c81_state (OIntoStab 1) = SDone c81_state (RFail 1) ∧
  taken le64s c81_state 2 (seqN 50) ∧
  step le64s c81_state (OIntoStab 4) = SDone c81_state (RFail 4) ∧
  taken le64s c81_state 5 (seqN 100) ∧
  step le64s c81_state (OIntoArc 5) = SDone c81_state (RFail 5) ∧
  (∃ s, step le64s c81_state (OClone 4 32768) = SDone s (RHandle 6) ∧ (length (st_mem c81_state) < length (st_mem s))%nat).
Proof.
  split. { eapply (run_reach le64s init c81_ops); [apply reach_init|reflexivity|vm_compute; reflexivity]. }
  split_and!; try (vm_compute; reflexivity).
  all: eexists; split_and!; vm_compute; try reflexivity; lia.
Qed.
Example C81_example_upgrade : ∃ s s', reach le64s s ∧ step le64s s (OUpgrade 0 8192) = SDone s' (RHandle 0) ∧
  (length (st_mem s) < length (st_mem s'))%nat ∧ taken le64s s' 0 (seqN 60).
Proof.
  set (l := [ONewBorrow 4096 (seqN 60); OFromSlice 0 0 60]).
  exists (match run le64s init l with SDone s _ => s | _ => init end). eexists. split_and!.
  - eapply (run_reach le64s init l); [apply reach_init|reflexivity|vm_compute; reflexivity].
  - vm_compute. reflexivity.
  - vm_compute. lia.
  - eexists. split_and!; vm_compute; reflexivity.
Qed.

(** The documentation (bytes.rs L706-715, L737-745) says that "cloning or upgrading a [Bytes] that was
    backed by a type that requires an allocation to do so" gives a value of which the conversion "is
    guaranteed to succeed".  Of a short value it fails: the copy is inline. *)
Theorem C81_short_clone_refuted : ∀ b : bool, ∃ p s s', stabby p = b ∧ wf_platform p ∧ reach p s ∧
  step p s (ONoallocClone 0) = SDone s RNone ∧
  step p s (OClone 0 8192) = SDone s' (RHandle 1) ∧ step p s' (OInto p 1) = SDone s' (RFail 1).
Proof.
  intros b. exists (if b then le64s else le64).
  exists (match run (if b then le64s else le64) init [OFromBox [1; 2; 3] 4096] with SDone s _ => s | _ => init end).
  eexists. split_and!.
  - by destruct b.
  - destruct b; [apply wf_le64s|apply wf_le64].
  - destruct b; (eapply (run_reach _ init [OFromBox [1; 2; 3] 4096]); [apply reach_init|reflexivity|vm_compute; reflexivity]).
  - destruct b; vm_compute; reflexivity.
  - destruct b; [vm_compute; reflexivity|vm_compute; reflexivity].
  - destruct b; vm_compute; reflexivity.
Qed.
Print Assumptions C81_short_clone_refuted.

(** It also says that a value that has "been shrunk or cloned from a shrunk value" is refused.  As an
    [ArcSlice], one that was shrunk at its end is not: a shorter [ArcSlice] comes out. *)
Theorem C81_shrunk_refuted : ∃ p s s1 s2, wf_platform p ∧ reach p s ∧ view p s !! 0%nat = Some (Some (seqN 200)) ∧
  step p s (OShrink 0 Unb (Excl 50)) = SDone s1 RUnit ∧
  step p s1 (OIntoStab 0) = SDone s2 (RArc 1) ∧ arc_view s2 !! 1%nat = Some (Some (seqN 50)).
Proof.
  exists le64s, (match run le64s init [ONewStab 4096 (seqN 200); OFromStab 0] with SDone s _ => s | _ => init end).
  do 2 eexists. split_and!; [apply wf_le64s| | | | |].
  - eapply (run_reach _ init [ONewStab 4096 (seqN 200); OFromStab 0]); [apply reach_init|reflexivity|vm_compute; reflexivity].
  - vm_compute. reflexivity.
  - vm_compute. reflexivity.
  - vm_compute. reflexivity.
  - vm_compute. reflexivity.
Qed.
Print Assumptions C81_shrunk_refuted.
