(** Properties C08, C10, C11 for inlined values, exactly: the [len] field that
    [shrink_to] compares with is the second word of the bytes. *)
From Coq Require Import ZifyBool ZifyNat ZifyN.
From stdpp Require Import base numbers list.
From Verif Require Import BytesModel BytesSpec BytesEnc BytesInv BytesMeth BytesRefine BytesFacts BytesProps BytesInline.
Local Open Scope N_scope.
Ltac Zify.zify_post_hook ::= Z.div_mod_to_equations.

Lemma shrink_inline p m c lo hi : wf_platform p → bytelist c → (length c ≤ max_inline p)%nat →
  bound_ok p lo false → bound_ok p hi true →
  let s := lo_of lo in let e := hi_of c hi in
  shrink_to p m (inline_unchecked p c) lo hi =
    if (s <=? e) && (e <=? second_word p c) then
      if e - s <=? N.of_nat (max_inline p) then
        if e <=? N.of_nat (length c) then Ok (inline_unchecked p (slice c s e)) m else Panic m
      else
        match ptr_add m (b_start (inline_unchecked p c)) s with
        | Some a => Ok (Bytes a (e - s) (b_owner (inline_unchecked p c)) (b_cap (inline_unchecked p c)) (b_vt (inline_unchecked p c))) m
        | None => Undef
        end
    else Panic m.
Proof.
  intros Hwf Hb Hl B1 B2 s e. pose proof (second_word_lt p c Hwf Hb) as Hw. pose proof (max_inline_bounds p Hwf) as Hm.
  unfold shrink_to. destruct (start_bound p lo) as [s0|] eqn:Es.
  2: { apply start_bound_none in Es; [|done]. fold s in Es.
       destruct (N.leb_spec s e); [|done]. destruct (N.leb_spec e (second_word p c)); [lia|done]. }
  apply start_bound_spec in Es; [|done]. subst s0. fold s.
  destruct (end_bound p (inline_unchecked p c) hi) as [e0|] eqn:Ee.
  2: { apply (end_bound_none p _ _ c) in Ee; [|done]. fold e in Ee.
       destruct (N.leb_spec e (second_word p c)); [lia|]. by rewrite andb_false_r. }
  assert (e0 = e) as ->.
  { subst e. destruct hi as [i|i|]; cbn [end_bound hi_of] in *; [|congruence|].
    - unfold succ_usize in Ee. destruct (N.ltb_spec (i + 1) (wlim p)); [congruence|].
      destruct B2 as [B2|B2]; [by rewrite B2 in Ee|lia].
    - rewrite inl_len in Ee by done. congruence. }
  destruct (s <=? e) eqn:Hse; [|done]. cbn [negb andb]. rewrite len_field by done.
  destruct (e <=? second_word p c); [|done]. cbn [negb].
  destruct (e - s <=? N.of_nat (max_inline p)); [|done].
  rewrite inl_as_slice by done. unfold index_range. rewrite Hse. cbn [andb].
  destruct (e <=? N.of_nat (length c)); [|done]. unfold drop_bytes. rewrite vtable_inlined by (by apply inl_is_inlined). done.
Qed.

Lemma view_set p s h y c m arcs : m = st_mem s → as_slice p m (h_b y) = Some c →
  view p (State m (set_h s h (Some y)) arcs) = <[h := Some c]> (view p s).
Proof. intros -> Hc. unfold view, set_h. cbn [st_h st_mem]. rewrite list_fmap_insert. cbn. by rewrite Hc. Qed.
Lemma slice_inline p c s e : bytelist c → (length c ≤ max_inline p)%nat → s ≤ e → e ≤ N.of_nat (length c) →
  bytelist (slice c s e) ∧ (length (slice c s e) ≤ max_inline p)%nat.
Proof. intros Hb Hl H1 H2. split; [by apply bytelist_slice|]. pose proof (slice_length c s e H1 H2). lia. Qed.

(** Sub-slicing an inlined value: a good range is honoured iff its end is at most
    the second word, and panics otherwise; a bad one panics unless the second
    word lets it through and it is too long to be inlined. *)
Theorem C08_inline : ∀ p s h x c lo hi, wf_platform p → reach p s → get_h s h = Some x →
  view p s !! h = Some (Some c) → is_inlined p (h_b x) = true → bound_ok p lo false → bound_ok p hi true →
  (in_range c lo hi → hi_of c hi ≤ second_word p c → ∃ s', step p s (OShrink h lo hi) = SDone s' RUnit ∧
      view p s' = <[h := Some (slice c (lo_of lo) (hi_of c hi))]> (view p s)) ∧
  (in_range c lo hi → second_word p c < hi_of c hi → step p s (OShrink h lo hi) = SPanic s) ∧
  (¬ in_range c lo hi →
     (step p s (OShrink h lo hi) = SPanic s ↔
      ¬ (hi_of c hi ≤ second_word p c ∧ lo_of lo + N.of_nat (max_inline p) < hi_of c hi))).
Proof.
  intros p s h x c lo hi Hwf Hr Hx Hv Hi B1 B2. destruct (inlined_is p s h x c Hwf Hr Hx Hv Hi) as (Hb & Hl & Heq).
  cbn [step]. unfold with_h. rewrite Hx, Heq, shrink_inline by done. unfold in_range.
  assert (Hs : State (st_mem s) (st_h s) (st_arcs s) = s) by (by destruct s).
  split_and!.
  - intros [H1 H2] H3. rewrite (proj2 (N.leb_le _ _) H1), (proj2 (N.leb_le _ _) H3), (proj2 (N.leb_le _ _) H2). cbn [andb].
    rewrite (proj2 (N.leb_le _ (N.of_nat (max_inline p)))) by lia. eexists. split; [reflexivity|].
    destruct (slice_inline p c (lo_of lo) (hi_of c hi)) as [Hb' Hl']; [done..|]. apply view_set; [done|]. by apply inl_as_slice.
  - intros [H1 H2] H3. rewrite (proj2 (N.leb_gt _ _) H3), andb_false_r. by rewrite Hs.
  - intros Hn. destruct (N.leb_spec (lo_of lo) (hi_of c hi)) as [H1|H1]; cbn [andb].
    2: { rewrite Hs. split; [lia|done]. }
    destruct (N.leb_spec (hi_of c hi) (second_word p c)) as [H2|H2].
    2: { rewrite Hs. split; [lia|done]. }
    destruct (N.leb_spec (hi_of c hi - lo_of lo) (N.of_nat (max_inline p))) as [H3|H3].
    + destruct (N.leb_spec (hi_of c hi) (N.of_nat (length c))); [lia|]. rewrite Hs. split; [lia|done].
    + split; [|lia]. by destruct (ptr_add _ _ _).
Qed.

(** Whether an inlined value can be read, and split, at all. *)
Definition readable (p : platform) (c : list N) : Prop := N.of_nat (length c) ≤ second_word p c.

Theorem C10_inline : ∀ p s h x c n, wf_platform p → reach p s → get_h s h = Some x →
  view p s !! h = Some (Some c) → is_inlined p (h_b x) = true →
  (readable p c → ∃ s', step p s (ORead h n) = SDone s' (RData (take (N.to_nat n) c)) ∧
      view p s' = <[h := Some (drop (N.to_nat n) c)]> (view p s)) ∧
  (¬ readable p c → step p s (ORead h n) = SPanic s).
Proof.
  intros p s h x c n Hwf Hr Hx Hv Hi. destruct (inlined_is p s h x c Hwf Hr Hx Hv Hi) as (Hb & Hl & Heq).
  assert (Hs : State (st_mem s) (st_h s) (st_arcs s) = s) by (by destruct s).
  cbn [step]. unfold with_h. rewrite Hx, Heq. unfold read. rewrite inl_as_slice, inl_len by done. unfold index_range.
  rewrite (proj2 (N.leb_le 0 _)), (proj2 (N.leb_le _ (N.of_nat (length c)))) by lia. cbn [andb].
  rewrite shrink_inline by (done || (right; done)). cbn [lo_of hi_of].
  rewrite (proj2 (N.leb_le _ (N.of_nat (length c)))) by lia. cbn [andb]. unfold readable.
  destruct (N.leb_spec (N.of_nat (length c)) (second_word p c)) as [H|H]; (split; [intros Hrd|intros Hrd]); try (exfalso; lia).
  - rewrite (proj2 (N.leb_le _ (N.of_nat (max_inline p)))), N.leb_refl by lia.
    eexists. split.
    + unfold replace_h. f_equal. f_equal. change (N.to_nat 0) with 0%nat. rewrite drop_0, N.sub_0_r.
      destruct (decide (n ≤ N.of_nat (length c))); [by rewrite N.min_r by done|].
      rewrite N.min_l by lia. rewrite !take_ge by lia. done.
    + assert (E : slice c (N.min (N.of_nat (length c)) n) (N.of_nat (length c)) = drop (N.to_nat n) c).
      { rewrite slice_end. destruct (decide (n ≤ N.of_nat (length c))).
        - by rewrite N.min_r by done.
        - rewrite N.min_l by lia. rewrite Nat2N.id, !drop_ge by lia. done. }
      rewrite E. apply view_set; [done|]. apply inl_as_slice; [done|by apply Forall_drop|]. rewrite drop_length. lia.
  - by rewrite Hs.
Qed.
Theorem C11_inline : ∀ p s h x c i base, wf_platform p → reach p s → get_h s h = Some x →
  view p s !! h = Some (Some c) → is_inlined p (h_b x) = true →
  (N.of_nat (length c) < i → step p s (OSplit h i base) = SDone s (RFail h)) ∧
  (i ≤ N.of_nat (length c) → readable p c → ∃ s', step p s (OSplit h i base) = SDone s' (RPair h (length (view p s))) ∧
      view p s' = <[h := Some (take (N.to_nat i) c)]> (view p s) ++ [Some (drop (N.to_nat i) c)]) ∧
  (i ≤ N.of_nat (length c) → ¬ readable p c → ∃ s', step p s (OSplit h i base) = SPanic s' ∧
      view p s' = <[h := None]> (view p s)).
Proof.
  intros p s h x c i base Hwf Hr Hx Hv Hi. destruct (inlined_is p s h x c Hwf Hr Hx Hv Hi) as (Hb & Hl & Heq).
  cbn [step]. unfold with_h. rewrite Hx, Heq. unfold split_at. rewrite inl_len by done.
  assert (Hlv : length (view p s) = length (st_h s)) by (unfold view; by rewrite fmap_length).
  destruct (N.leb_spec i (N.of_nat (length c))) as [Hil|Hil]; split_and!; intros Hil'; try (exfalso; lia).
  3: { unfold replace_h. f_equal.
    assert (Hid : set_h s h (Some (Handle (inline_unchecked p c) (h_lt x))) = st_h s).
    { unfold set_h. apply list_insert_id. unfold get_h in Hx.
      destruct (st_h s !! h) as [[y|]|]; simpl in Hx; try done. rewrite <- Heq. simplify_eq. by destruct x. }
    rewrite Hid. by destruct s. }
  all: rewrite (proj2 (N.leb_le i (N.of_nat (max_inline p)))) by lia; rewrite inl_as_slice by done;
    unfold index_range; rewrite (proj2 (N.leb_le 0 i)), (proj2 (N.leb_le i (N.of_nat (length c)))) by lia; cbn [andb];
    unfold subsliced; rewrite shrink_inline by (done || (right; done)); cbn [lo_of hi_of];
    rewrite (proj2 (N.leb_le i (N.of_nat (length c)))) by lia; cbn [andb]; unfold readable; intros Hrd.
  - rewrite (proj2 (N.leb_le _ (second_word p c))) by lia.
    rewrite (proj2 (N.leb_le _ (N.of_nat (max_inline p)))), N.leb_refl by lia. rewrite <- Hlv. eexists. split; [reflexivity|].
    change (N.to_nat 0) with 0%nat. rewrite drop_0, N.sub_0_r, slice_end. unfold view, set_h. cbn [st_h st_mem].
    rewrite fmap_app, list_fmap_insert. cbn [fmap list_fmap mbind option_bind h_b].
    rewrite !inl_as_slice; [done|done|by apply Forall_drop|rewrite drop_length; lia|done|by apply Forall_take|rewrite take_length; lia].
  - rewrite (proj2 (N.leb_gt _ (second_word p c))) by lia. unfold drop_bytes. rewrite vtable_inlined by (by apply inl_is_inlined).
    eexists. split; [reflexivity|]. unfold view, set_h. cbn [st_h st_mem]. by rewrite list_fmap_insert.
Qed.

(** On little-endian machines a value longer than a word whose byte after the
    first word is at least its length can be read; nothing of at most a word can,
    but for the empty value. *)
Theorem C10_readable : ∀ p c, wf_platform p → bytelist c →
  (little p = true → ∀ x, c !! wsz p = Some x → N.of_nat (length c) ≤ x → readable p c) ∧
  ((length c ≤ wsz p)%nat → (readable p c ↔ c = [])).
Proof.
  intros p c Hwf Hb. pose proof (wf_wsz p Hwf) as Hw. split.
  - intros Hle x Hx Hl. unfold readable, second_word, dec. rewrite Hle.
    rewrite drop_app_le by (apply lookup_lt_Some in Hx; lia). rewrite (drop_S _ x) by done.
    destruct (wsz p) as [|k]; [lia|]. cbn [app take dec_le]. lia.
  - intros Hl. assert (second_word p c = 0) as Hz.
    { pose proof (two_words p Hwf). rewrite <- len_field by (done || lia). by apply inline_len_field. }
    unfold readable. rewrite Hz. destruct c; [done|]. cbn [length]. split; [lia|done].
Qed.

Example C10_inline_example : let c := replicate 12 97 in
  readable le64 c ∧ ¬ readable le64 (replicate 8 0 ++ [11; 0; 0; 0]) ∧ readable le64 (replicate 8 0 ++ [12; 0; 0; 0]) ∧
  ∃ s s', run le64 init [OInlineSlice c] = SDone s RUnit ∧ step le64 s (ORead 0 5) = SDone s' (RData (replicate 5 97)) ∧
    view le64 s' !! 0%nat = Some (Some (replicate 7 97)).
Proof.
  split_and!; [vm_compute; done|vm_compute; intros H; by apply H|vm_compute; done|].
  eexists _, _. split; [vm_compute; reflexivity|]. split; vm_compute; reflexivity.
Qed.
(** What is left of a value that can be read may not be readable. *)
Theorem C10_rest_refuted : ∃ p s s' r, wf_platform p ∧ reach p s ∧ step p s (ORead 0 5) = SDone s' r ∧
  view p s' !! 0%nat = Some (Some (replicate 7 97)) ∧ step p s' (ORead 0 5) = SPanic s'.
Proof.
  exists le64. eexists _, _, _. split; [apply wf_le64|]. split.
  { eapply (run_reach le64 init [OInlineSlice (replicate 12 97)]); [apply reach_init|reflexivity|vm_compute; reflexivity]. }
  split_and!; vm_compute; reflexivity.
Qed.

(** ** C05 and C06, exactly *)

(** [noalloc_upgrade] succeeds on every borrowed value, which it leaves as it is
    (so it still borrows); on others, iff they fit inline. *)
Theorem C05_noalloc_exact : ∀ p s h x c, wf_platform p → reach p s → get_h s h = Some x →
  view p s !! h = Some (Some c) →
  (b_vt (h_b x) = vt_addr p VBorrow →
     step p s (ONoallocUpgrade h) = SDone (State (st_mem s) (set_h s h (Some (Handle (h_b x) LStatic))) (st_arcs s)) (RHandle h)) ∧
  (b_vt (h_b x) ≠ vt_addr p VBorrow → (length c ≤ max_inline p)%nat →
     ∃ s', step p s (ONoallocUpgrade h) = SDone s' (RHandle h) ∧ view p s' = view p s ∧ ∃ y, get_h s' h = Some y ∧ h_lt y = LStatic) ∧
  (b_vt (h_b x) ≠ vt_addr p VBorrow → (max_inline p < length c)%nat → step p s (ONoallocUpgrade h) = SDone s (RFail h)).
Proof.
  intros p s h x c Hwf Hr Hx Hv.
  pose proof (step_refines p Hwf s (ONoallocUpgrade h) Hr) as Href.
  destruct (reach_inv p Hwf s Hr) as (G & A & HS).
  destruct (get_h_ghost p _ _ _ _ _ HS Hx) as [c' Hg].
  assert (c' = c) as ->.
  { rewrite (view_vals p Hwf s G A HS), (vals_lookup _ _ _ _ Hg) in Hv. congruence. }
  pose proof (noalloc_upgrade_ok p Hwf _ _ _ x c (SInv_front p _ _ _ _ _ _ HS Hg)) as H.
  cbn [step] in *. unfold with_h in *. rewrite Hx in *.
  assert (Hh : (h < length (st_h s))%nat).
  { unfold get_h in Hx. destruct (st_h s !! h) eqn:E; [|done]. by apply lookup_lt_Some in E. }
  split_and!.
  - intros Hb. unfold noalloc_upgrade. rewrite (vtable_addr p _ VBorrow) by done. reflexivity.
  - intros Hb Hl. specialize (H Hb). assert (Hadm : admissible p s (ONoallocUpgrade h)) by (cbn; intros y Hy; congruence).
    specialize (Href Hadm). destruct (noalloc_upgrade p (st_mem s) (h_b x)) as [[b|b] m'|m'| |]; try done.
    + eexists. split; [reflexivity|]. split; [apply Href|]. exists (Handle b LStatic). split; [|reflexivity].
      unfold get_h, set_h. cbn [st_h]. by rewrite list_lookup_insert.
    + destruct H as (_ & _ & H). lia.
  - intros Hb Hl. specialize (H Hb). destruct (noalloc_upgrade p (st_mem s) (h_b x)) as [[b|b] m'|m'| |]; try done.
    + destruct H as [_ H]. lia.
    + destruct H as (-> & -> & _). unfold replace_h. f_equal.
      assert (Hid : set_h s h (Some (Handle (h_b x) (h_lt x))) = st_h s).
      { unfold set_h. apply list_insert_id. unfold get_h in Hx.
        destruct (st_h s !! h) as [[y|]|]; simpl in Hx; try done. simplify_eq. by destruct x. }
      rewrite Hid. by destruct s.
Qed.

(** What is predicted is what happens, of five words or more only. *)
Theorem C06_exact : ∀ p s h x c, wf_platform p → reach p s → get_h s h = Some x → view p s !! h = Some (Some c) →
  (upgrade_will_allocate p (h_b x) = true ↔ upgrade_would_allocate p s x ∧ (5 * wsz p ≤ length c)%nat) ∧
  (clone_will_allocate p (h_b x) = true ↔ clone_would_allocate p s x ∧ (5 * wsz p ≤ length c)%nat).
Proof.
  intros p s h x c Hwf Hr Hx Hv. unfold upgrade_would_allocate, clone_would_allocate.
  destruct (view_handle p Hwf s h x Hr Hx) as (c' & Hc' & Hok & _). assert (c' = c) as -> by congruence.
  pose proof (h_ok_len p Hwf _ _ _ Hok) as Hl. pose proof (max_inline_bounds p Hwf) as Hm. unfold size_of_bytes in Hm.
  rewrite (upgrade_allocates p Hwf s h x Hr Hx), (clone_allocates p Hwf s h x Hr Hx).
  rewrite (upgrade_will_allocate_spec p Hwf s h x Hr Hx), (clone_will_allocate_spec p Hwf s h x Hr Hx).
  rewrite Hl. unfold size_of_bytes. split; (split; [intros [H1 H2]; split; [split; [done|lia]|lia]|intros [[H1 H2] H3]; split; [done|lia]]).
Qed.

Print Assumptions C05_noalloc_exact.
Print Assumptions C06_exact.
Print Assumptions C08_inline.
Print Assumptions C10_inline.
Print Assumptions C10_readable.
Print Assumptions C10_rest_refuted.
Print Assumptions C11_inline.
