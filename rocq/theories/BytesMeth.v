(** Preservation of the ownership invariant by each public method of [Bytes], together with the
    contents of the resulting values. *)
From Coq Require Import ZifyBool ZifyNat ZifyN.
From stdpp Require Import base numbers list.
From Verif Require Import BytesModel BytesSpec BytesEnc BytesInv BytesOps.
Local Open Scope N_scope.
Ltac Zify.zify_post_hook ::= Z.div_mod_to_equations.

Section Meth.
Context (p : platform) (Hwf : wf_platform p).

Lemma inline_ok data lt :
  (length data ≤ max_inline p)%nat → bytelist data →
  inl_ok p (Handle (inline_unchecked p data) lt) data.
Proof.
  intros Hl Hb. unfold inl_ok; simpl.
  rewrite inl_is_inlined, inl_len by done. split_and!; [done|lia|].
  rewrite Nat2N.id. by rewrite inl_take.
Qed.

Lemma copied_ok m hs ars data base lt :
  Inv p m hs ars → bytelist data →
  match copied_from_slice p m base data with
  | Ok b m' => Inv p m' ((Handle b lt, data) :: hs) ars
               ∧ (b = inline_unchecked p data ∧ m' = m ∧ (length data ≤ max_inline p)%nat
                  ∨ b_vt b = vt_addr p (if stabby p then VStab else VArc) ∧ (max_inline p < length data)%nat)
  | NoAlloc => True
  | _ => False
  end.
Proof.
  intros HI Hb. unfold copied_from_slice, inline_slice.
  destruct (Nat.ltb_spec (max_inline p) (length data)) as [Hlt|Hle].
  - unfold alloc. destruct (can_alloc _ _ _ _ _) eqn:Hc; [|done].
    destruct (stabby p); (split; [by apply alloc_arc_h || by apply alloc_stab_h|by right]).
  - split; [|by left]. apply Inv_add_inl; [done|done|]. apply inline_ok; [lia|done].
Qed.

Lemma noalloc_clone_ok m hs ars x c :
  Inv p m hs ars → h_ok p m x c →
  ∃ o m', noalloc_clone p m (h_b x) = Ok o m' ∧
    ((o = Some (h_b x) ∧ Inv p m' ((x, c) :: hs) ars ∧ b_vt (h_b x) ≠ vt_addr p VBox)
     ∨ (o = None ∧ m' = m ∧ b_vt (h_b x) = vt_addr p VBox)).
Proof.
  intros HI Hok. unfold noalloc_clone.
  pose proof Hok as Hok'.
  destruct Hok as [Hin|(v & Hv & Hx)].
  - rewrite vtable_inlined by apply Hin.
    eexists _, _. split; [done|]. left. split_and!; [done|by apply Inv_add_inl|].
    intros Hb. destruct Hin as [Hin _]. by rewrite (not_inlined p _ VBox) in Hin.
  - rewrite (vtable_addr p _ v) by done.
    destruct (decide (v = VBox)) as [->|Hne].
    + simpl. eexists _, _. split; [done|]. by right.
    + destruct (retain_ok p Hwf m hs ars x c v) as (f & m' & Hf & Hr & HI'); [done..|].
      rewrite Hf, Hr. eexists _, _. split; [done|]. left. split_and!; [done|done|].
      intros Hb. apply Hne. eapply (wf_inj p Hwf). congruence.
Qed.

Lemma clone_ok m hs ars x c base :
  Inv p m hs ars → h_ok p m x c →
  match clone p m (h_b x) base with
  | Ok b m' => Inv p m' ((Handle b (h_lt x), c) :: hs) ars
               ∧ (b = h_b x ∨ (b = inline_unchecked p c ∧ (length c ≤ max_inline p)%nat)
                  ∨ b_vt b = vt_addr p (if stabby p then VStab else VArc))
  | NoAlloc => True
  | _ => False
  end.
Proof.
  intros HI Hok. unfold clone.
  destruct (noalloc_clone_ok m hs ars x c HI Hok) as (o & m' & -> & [(-> & HI' & _)|(-> & -> & _)]).
  - split; [by destruct x|by left].
  - rewrite (as_slice_ok p Hwf m hs ars x c) by done.
    pose proof (copied_ok m hs ars c base (h_lt x) HI (h_ok_bytes p m hs ars x c HI Hok)) as H.
    destruct (copied_from_slice p m base c); try done. destruct H as [H [(-> & _ & ?)|[H2 _]]]; auto.
Qed.

Lemma h_ok_relabel m b lt lt' c :
  h_ok p m (Handle b lt) c → b_vt b ≠ vt_addr p VBorrow → h_ok p m (Handle b lt') c.
Proof.
  intros [Hin|(v & Hv & Hx)] Hnb; [by left|right]. exists v. split; [done|].
  destruct Hx as [(i & r & Hi & Hb & Hc & ->)|?]; [left|by right].
  exists i, r. split_and!; [done| |done|done].
  destruct v; simpl in *; try done.
Qed.

Lemma Inv_relabel m hs ars b b' lt lt' c c' :
  Inv p m ((Handle b lt, c) :: hs) ars → b_vt b' = b_vt b → b_owner b' = b_owner b →
  b_cap b' = b_cap b → h_ok p m (Handle b' lt') c' →
  Inv p m ((Handle b' lt', c') :: hs) ars.
Proof.
  intros [H1 H2 H3 H4 H5] E1 E2 E3 Hok. split; try done.
  - intros y d [[= -> ->]|Hy]%elem_of_cons; [done|]. apply H3. by right.
  - intros i r Hi Hl. specialize (H5 i r Hi Hl).
    assert (He : ∀ v base, owns p v base (Handle b' lt', c') = owns p v base (Handle b lt, c)).
    { intros. unfold owns; simpl. by rewrite E1, E2, E3. }
    unfold cnt_ok in *. simpl in *. by rewrite !He.
Qed.

Lemma h_of m hs ars x c : Inv p m ((x, c) :: hs) ars → h_ok p m x c.
Proof. intros HI. apply (I_h _ _ _ _ HI). by left. Qed.

Lemma index_range_spec (c : list N) (i j : N) :
  index_range c i j =
  if (i <=? j) && (j <=? N.of_nat (length c)) then Some (slice c i j) else None.
Proof. done. Qed.

Lemma bytelist_slice c s e : bytelist c → bytelist (slice c s e).
Proof. intros. by apply Forall_take, Forall_drop. Qed.
Lemma slice_length (c : list N) s e :
  s ≤ e → e ≤ N.of_nat (length c) → N.of_nat (length (slice c s e)) = e - s.
Proof. intros. unfold slice. rewrite take_length, drop_length. lia. Qed.

(** Sub-ranges of a range inside a region. *)
Lemma contains_sub a n s k r :
  contains a n r = true → s + k ≤ n → contains (a + s) k r = true.
Proof. rewrite !contains_spec. intros (? & ? & ?) ?. split_and!; [done|lia|lia]. Qed.
Lemma sub_data_sub a n s e r :
  contains a n r = true → s ≤ e → e ≤ n →
  sub_data (a + s) (e - s) r = slice (sub_data a n r) s e.
Proof.
  rewrite contains_spec. intros (_ & H1 & _) Hs He. unfold sub_data, slice.
  rewrite skipn_firstn_comm, drop_drop, take_take.
  replace (N.to_nat (a + s - r_base r)) with (N.to_nat (a - r_base r) + N.to_nat s)%nat by lia.
  f_equal. lia.
Qed.

Lemma ptr_add_ok (m : mem) i r a n :
  m !! i = Some r → contains a n r = true → ptr_add m a n = Some (a + n).
Proof.
  intros Hi Hc. unfold ptr_add. destruct (N.eqb_spec n 0) as [->|Hn]; [by rewrite N.add_0_r|].
  destruct (list_find (λ r, contains a n r = true) m) as [[]|] eqn:Hf; [done|].
  apply list_find_None in Hf. rewrite Forall_forall in Hf.
  exfalso. eapply Hf; [|done]. by eapply elem_of_list_lookup_2.
Qed.

(** Narrowing an out-of-line value in place (the cheap path of [shrink_to] and [split_at]). *)
Lemma narrow_ok m hs ars x c v s e :
  h_ok p m x c → b_vt (h_b x) = vt_addr p v → s ≤ e → e ≤ N.of_nat (length c) → s < e ∨ s = 0 →
  ptr_add m (b_start (h_b x)) s = Some (b_start (h_b x) + s) ∧
  h_ok p m (Handle (Bytes (b_start (h_b x) + s) (e - s) (b_owner (h_b x)) (b_cap (h_b x))
                      (b_vt (h_b x))) (h_lt x)) (slice c s e)
  ∧ (Inv p m ((x, c) :: hs) ars →
     Inv p m ((Handle (Bytes (b_start (h_b x) + s) (e - s) (b_owner (h_b x)) (b_cap (h_b x))
                      (b_vt (h_b x))) (h_lt x), slice c s e) :: hs) ars).
Proof.
  intros Hok Hv Hse Hec Hor.
  assert (Hgoal : ptr_add m (b_start (h_b x)) s = Some (b_start (h_b x) + s) ∧
    h_ok p m (Handle (Bytes (b_start (h_b x) + s) (e - s) (b_owner (h_b x)) (b_cap (h_b x))
                      (b_vt (h_b x))) (h_lt x)) (slice c s e)).
  { destruct Hok as [(Hin & _)|(w & Hw & Hx)].
    { by rewrite (not_inlined p _ v) in Hin. }
    destruct Hx as [(i & r & Hi & Hb & Hc & ->)|(-> & Hc0 & Hl0 & ->)].
    - pose proof (sub_data_length _ _ _ Hc) as Hlen.
      split.
      + apply (ptr_add_ok m i r); [done|].
        rewrite <- (N.add_0_r (b_start (h_b x))). eapply contains_sub; [done|lia].
      + right. exists w. split; [done|left]. exists i, r. simpl. split_and!; [done| | |].
        * destruct w; done.
        * eapply contains_sub; [done|lia].
        * symmetry. apply sub_data_sub; [done|done|lia].
    - simpl in Hec. assert (s = 0 ∧ e = 0) as [-> ->] by lia. split; [by rewrite N.add_0_r|].
      right. exists VBox. split; [done|right]. simpl. done. }
  destruct Hgoal as [G1 G2]. split_and!; [done|done|].
  intros HI. destruct x as [b lt]. eapply Inv_relabel; eauto.
Qed.

Lemma shrink_ok m hs ars x c lo hi :
  Inv p m ((x, c) :: hs) ars →
  (is_inlined p (h_b x) = true → ∀ e, end_bound p (h_b x) hi = Some e → e ≤ N.of_nat (length c)) →
  match shrink_to p m (h_b x) lo hi with
  | Ok b m' => ∃ s e, start_bound p lo = Some s ∧ end_bound p (h_b x) hi = Some e
       ∧ s ≤ e ∧ e ≤ N.of_nat (length c)
       ∧ Inv p m' ((Handle b (h_lt x), slice c s e) :: hs) ars
  | Panic m' => m' = m ∧
       (is_inlined p (h_b x) = true ∨
        ∀ s e, start_bound p lo = Some s → end_bound p (h_b x) hi = Some e →
           ¬ (s ≤ e ∧ e ≤ N.of_nat (length c)))
  | _ => False
  end.
Proof.
  intros HI Hadm. pose proof (h_of _ _ _ _ _ HI) as Hok.
  unfold shrink_to. destruct (start_bound p lo) as [s|] eqn:Hs.
  2: { split; [done|]. right. congruence. }
  destruct (end_bound p (h_b x) hi) as [e|] eqn:He.
  2: { split; [done|]. right. congruence. }
  destruct (N.leb_spec s e) as [Hse|Hse]; simpl.
  2: { split; [done|]. right. intros ?? [= <-] [= <-]. lia. }
  destruct (N.leb_spec e (b_len (h_b x))) as [Hel|Hel]; simpl.
  2: { split; [done|]. destruct (is_inlined p (h_b x)) eqn:Hin; [by left|right].
       intros ?? [= <-] [= <-]. pose proof (h_ok_len p Hwf m x c Hok) as Hlen.
       unfold len in Hlen. rewrite Hin in Hlen. lia. }
  assert (Hec : e ≤ N.of_nat (length c)).
  { destruct (is_inlined p (h_b x)) eqn:Hin; [by apply Hadm|].
    pose proof (h_ok_len p Hwf m x c Hok) as Hlen. unfold len in Hlen. rewrite Hin in Hlen. lia. }
  destruct (N.leb_spec (e - s) (N.of_nat (max_inline p))) as [Hn|Hn].
  - rewrite (as_slice_ok p Hwf m _ ars x c) by done.
    rewrite index_range_spec. rewrite (proj2 (N.leb_le s e)), (proj2 (N.leb_le e _)) by done. simpl.
    destruct (drop_ok p Hwf m hs ars x c HI) as (m' & -> & HI').
    exists s, e. split_and!; try done.
    apply Inv_add_inl; [done|done|]. apply inline_ok.
    + pose proof (slice_length c s e Hse Hec). lia.
    + apply bytelist_slice. exact (h_ok_bytes p m _ _ x c HI Hok).
  - destruct (is_inlined p (h_b x)) eqn:Hin.
    { exfalso. pose proof (h_ok_len p Hwf m x c Hok) as Hlen.
      destruct Hok as [(_ & Hle & _)|(v & Hv & _)]; [lia|].
      by rewrite (not_inlined p _ v) in Hin. }
    assert (Hv : ∃ v, b_vt (h_b x) = vt_addr p v).
    { destruct Hok as [(Hi & _)|(v & Hv & _)]; [congruence|by exists v]. }
    destruct Hv as [v Hv].
    destruct (narrow_ok m hs ars x c v s e) as (H1 & H2 & H3); [done|done|done|done|lia|].
    rewrite H1. exists s, e. split_and!; try done. by apply H3.
Qed.

Lemma subsliced_ok m hs ars x c lo hi :
  Inv p m ((x, c) :: hs) ars →
  (is_inlined p (h_b x) = true → ∀ e, end_bound p (h_b x) hi = Some e → e ≤ N.of_nat (length c)) →
  match subsliced p m (h_b x) lo hi with
  | Ok b m' => ∃ s e, start_bound p lo = Some s ∧ end_bound p (h_b x) hi = Some e
       ∧ s ≤ e ∧ e ≤ N.of_nat (length c)
       ∧ Inv p m' ((Handle b (h_lt x), slice c s e) :: hs) ars
  | Panic m' => Inv p m' hs ars ∧
       (is_inlined p (h_b x) = true ∨
        ∀ s e, start_bound p lo = Some s → end_bound p (h_b x) hi = Some e →
           ¬ (s ≤ e ∧ e ≤ N.of_nat (length c)))
  | _ => False
  end.
Proof.
  intros HI Hadm. unfold subsliced. pose proof (shrink_ok m hs ars x c lo hi HI Hadm) as H.
  destruct (shrink_to p m (h_b x) lo hi) as [b m'|m'| |]; try done.
  destruct H as [-> Hp].
  destruct (drop_ok p Hwf m hs ars x c HI) as (m' & -> & HI'). done.
Qed.

Lemma inl_len_le m x c : h_ok p m x c → is_inlined p (h_b x) = true →
  (length c ≤ max_inline p)%nat.
Proof.
  intros Hok Hin. pose proof (h_ok_len p Hwf m x c Hok) as Hlen.
  destruct Hok as [(_ & Hle & _)|(v & Hv & _)]; [lia|].
  by rewrite (not_inlined p _ v) in Hin.
Qed.

Lemma out_vt m x c : h_ok p m x c → is_inlined p (h_b x) = false → ∃ v, b_vt (h_b x) = vt_addr p v.
Proof. intros [(Hi & _)|(v & Hv & _)] Hin; [congruence|by exists v]. Qed.

Lemma slice_0 (c : list N) i : slice c 0 i = take (N.to_nat i) c.
Proof. unfold slice. change (N.to_nat 0) with 0%nat. by rewrite drop_0, N.sub_0_r. Qed.
Lemma slice_end (c : list N) i : slice c i (N.of_nat (length c)) = drop (N.to_nat i) c.
Proof. unfold slice. apply take_ge. rewrite drop_length. lia. Qed.

Lemma split_ok m hs ars x c i base :
  Inv p m ((x, c) :: hs) ars →
  match split_at p m (h_b x) i base with
  | Ok (inl (l, r)) m' => i ≤ N.of_nat (length c) ∧
      Inv p m' ((Handle l (h_lt x), take (N.to_nat i) c) ::
                (Handle r (h_lt x), drop (N.to_nat i) c) :: hs) ars
  | Ok (inr b) m' => N.of_nat (length c) < i ∧ m' = m ∧ b = h_b x
  | Panic m' => is_inlined p (h_b x) = true ∧ i ≤ N.of_nat (length c) ∧ Inv p m' hs ars
  | Undef => False
  | NoAlloc => True
  end.
Proof.
  intros HI. pose proof (h_of _ _ _ _ _ HI) as Hok.
  pose proof (h_ok_len p Hwf m x c Hok) as Hlen.
  pose proof (h_ok_bytes p m _ _ x c HI Hok) as Hbytes.
  unfold split_at. rewrite Hlen.
  destruct (N.leb_spec i (N.of_nat (length c))) as [Hi|Hi]; [|done].
  destruct (N.leb_spec i (N.of_nat (max_inline p))) as [Him|Him].
  { rewrite (as_slice_ok p Hwf m _ ars x c) by done.
    rewrite index_range_spec. rewrite (proj2 (N.leb_le 0 i)), (proj2 (N.leb_le i _)) by lia. simpl.
    pose proof (subsliced_ok m hs ars x c (Incl i) Unb HI) as H. simpl in H. rewrite Hlen in H.
    specialize (H ltac:(intros _ e [= <-]; lia)).
    destruct (subsliced p m (h_b x) (Incl i) Unb) as [r m'|m'| |]; try done.
    - destruct H as (s & e & [= <-] & [= <-] & _ & _ & H). rewrite slice_end in H.
      split; [done|]. rewrite slice_0. apply Inv_add_inl; [done|done|].
      apply inline_ok; [rewrite take_length; lia|by apply Forall_take].
    - destruct H as [H1 [H2|H2]]; [done|]. exfalso. eapply (H2 i); [done|done|]. lia. }
  destruct (is_inlined p (h_b x)) eqn:Hin.
  { exfalso. pose proof (inl_len_le m x c Hok Hin). lia. }
  destruct (N.leb_spec (N.of_nat (length c) - i) (N.of_nat (max_inline p))) as [Him'|Him'].
  { rewrite (as_slice_ok p Hwf m _ ars x c) by done.
    rewrite index_range_spec. rewrite (proj2 (N.leb_le i _)) by lia.
    rewrite N.leb_refl. simpl.
    pose proof (subsliced_ok m hs ars x c Unb (Excl i) HI) as H. simpl in H.
    specialize (H ltac:(congruence)).
    destruct (subsliced p m (h_b x) Unb (Excl i)) as [l m'|m'| |]; try done.
    - destruct H as (s & e & [= <-] & [= <-] & _ & _ & H). rewrite slice_0 in H.
      split; [done|]. rewrite slice_end.
      eapply Inv_perm; [apply perm_swap|done|]. apply Inv_add_inl; [done|done|].
      apply inline_ok; [rewrite drop_length; lia|by apply Forall_drop].
    - destruct H as [H1 [H2|H2]]; [congruence|]. exfalso. eapply (H2 0 i); [done|done|]. lia. }
  (* two clones *)
  pose proof (clone_ok m _ ars x c base HI Hok) as HC1.
  destruct (clone p m (h_b x) base) as [l m1|m1| |]; try done.
  destruct HC1 as [HI1 HC1].
  pose proof (h_of _ _ _ _ _ HI1) as Hokl.
  assert (Hbig : (max_inline p < length c)%nat) by lia.
  destruct (out_vt m x c Hok Hin) as [v Hv].
  assert (Hvl : ∃ vl, b_vt l = vt_addr p vl).
  { destruct HC1 as [->|[[_ ?]|?]]; [by exists v|lia|by eexists]. }
  destruct Hvl as [vl Hvl].
  pose proof (clone_ok m1 _ ars (Handle l (h_lt x)) c base HI1 Hokl) as HC2. simpl in HC2.
  destruct (clone p m1 l base) as [r m2|m2| |]; try done.
  destruct HC2 as [HI2 HC2].
  pose proof (h_of _ _ _ _ _ HI2) as Hokr.
  assert (Hvr : ∃ vr, b_vt r = vt_addr p vr).
  { destruct HC2 as [->|[[_ ?]|?]]; [by exists vl|lia|by eexists]. }
  destruct Hvr as [vr Hvr].
  pose proof (h_ok_len p Hwf m2 _ c Hokr) as Hlenr. simpl in Hlenr. unfold len in Hlenr.
  rewrite (not_inlined p r vr) in Hlenr by done.
  destruct (narrow_ok m2 [] [] (Handle r (h_lt x)) c vr i (N.of_nat (length c))) as (HP & _ & _);
    [done|done|lia|lia|lia|]. simpl in HP. rewrite HP.
  destruct (drop_ok p Hwf m2 ((Handle r (h_lt x), c) :: (Handle l (h_lt x), c) :: hs) ars x c)
    as (m3 & -> & HI3).
  { eapply Inv_perm; [|done|exact HI2].
    exact (Permutation_trans (perm_skip _ (perm_swap _ _ _)) (perm_swap _ _ _)). }
  split; [done|]. rewrite Hlenr.
  destruct (narrow_ok m3 ((Handle l (h_lt x), c) :: hs) ars (Handle r (h_lt x)) c vr i
              (N.of_nat (length c))) as (_ & _ & HR);
    [by eapply h_of|done|lia|lia|lia|].
  specialize (HR HI3). simpl in HR. rewrite slice_end in HR.
  eapply Inv_perm in HR; [|apply perm_swap|done].
  destruct (narrow_ok m3 ((Handle (Bytes (b_start r + i) (N.of_nat (length c) - i) (b_owner r)
               (b_cap r) (b_vt r)) (h_lt x), drop (N.to_nat i) c) :: hs) ars
              (Handle l (h_lt x)) c vl 0 i) as (_ & _ & HL);
    [by eapply h_of|done|lia|lia|lia|].
  specialize (HL HR). simpl in HL. by rewrite slice_0, N.add_0_r, N.sub_0_r in HL.
Qed.

Lemma upgrade_ok m hs ars x c base :
  Inv p m ((x, c) :: hs) ars →
  match upgrade p m (h_b x) base with
  | Ok b m' => Inv p m' ((Handle b LStatic, c) :: hs) ars ∧ b_vt b ≠ vt_addr p VBorrow
  | NoAlloc => True
  | _ => False
  end.
Proof.
  intros HI. pose proof (h_of _ _ _ _ _ HI) as Hok. unfold upgrade.
  assert (Hni : is_inlined p (h_b x) = true → b_vt (h_b x) ≠ vt_addr p VBorrow).
  { intros Hin Hb. by rewrite (not_inlined p _ VBorrow) in Hin. }
  assert (Hrel : b_vt (h_b x) ≠ vt_addr p VBorrow →
                 Inv p m ((Handle (h_b x) LStatic, c) :: hs) ars).
  { intros Hnb. destruct x as [b lt]. eapply (Inv_relabel m hs ars b b lt); try done.
    by eapply h_ok_relabel. }
  destruct (is_inlined p (h_b x)) eqn:Hin.
  { rewrite vtable_inlined by done. auto. }
  destruct (out_vt m x c Hok Hin) as [v Hv]. rewrite (vtable_addr p _ v) by done.
  destruct (decide (v = VBorrow)) as [->|Hnb]; simpl.
  2: { assert (Hne : b_vt (h_b x) ≠ vt_addr p VBorrow).
       { intros Hb. apply Hnb. eapply (wf_inj p Hwf). congruence. }
       destruct v; try done; simpl; auto. }
  rewrite (as_slice_ok p Hwf m _ ars x c) by done.
  pose proof (copied_ok m _ ars c base LStatic HI (h_ok_bytes p m _ ars x c HI Hok)) as H.
  destruct (copied_from_slice p m base c) as [b m'|m'| |]; try done.
  destruct H as [HI' Hb].
  eapply Inv_perm in HI'; [|apply perm_swap|done].
  destruct (drop_ok p Hwf m' _ ars x c HI') as (m'' & -> & HI'').
  split; [done|]. destruct Hb as [(-> & _ & Hle)|[Hb _]].
  - intros Hb. pose proof (inline_ok c LStatic Hle (h_ok_bytes p m _ ars x c HI Hok)) as [Hi _].
    simpl in Hi. by rewrite (not_inlined p _ VBorrow) in Hi.
  - rewrite Hb. intros ?%(wf_inj p Hwf). by destruct (stabby p).
Qed.

(** [noalloc_upgrade] is fine on everything but values that borrow. *)
Lemma noalloc_upgrade_ok m hs ars x c :
  Inv p m ((x, c) :: hs) ars → b_vt (h_b x) ≠ vt_addr p VBorrow →
  match noalloc_upgrade p m (h_b x) with
  | Ok (inl b) m' => Inv p m' ((Handle b LStatic, c) :: hs) ars ∧ (length c ≤ max_inline p)%nat
  | Ok (inr b) m' => b = h_b x ∧ m' = m ∧ (max_inline p < length c)%nat
  | _ => False
  end.
Proof.
  intros HI Hnb. pose proof (h_of _ _ _ _ _ HI) as Hok. unfold noalloc_upgrade.
  assert (Hsame : match
      match as_slice p m (h_b x) with
      | None => Undef
      | Some data =>
          match inline_slice p data with
          | Some b' => match drop_bytes p m (h_b x) with
                       | Ok _ m' => Ok (inl b') m' | Panic m' => Panic m'
                       | Undef => Undef | NoAlloc => NoAlloc end
          | None => Ok (inr (h_b x)) m
          end
      end : res (bytes + bytes) with
    | Ok (inl b) m' => Inv p m' ((Handle b LStatic, c) :: hs) ars ∧ (length c ≤ max_inline p)%nat
    | Ok (inr b) m' => b = h_b x ∧ m' = m ∧ (max_inline p < length c)%nat
    | _ => False
    end).
  { rewrite (as_slice_ok p Hwf m _ ars x c) by done. unfold inline_slice.
    destruct (Nat.ltb_spec (max_inline p) (length c)) as [Hlt|Hle]; [done|].
    destruct (drop_ok p Hwf m hs ars x c HI) as (m' & -> & HI').
    split; [|done]. apply Inv_add_inl; [done|done|].
    apply inline_ok; [done|]. by eapply (h_ok_bytes p m _ ars x c). }
  destruct (is_inlined p (h_b x)) eqn:Hin.
  - rewrite vtable_inlined by done. exact Hsame.
  - destruct (out_vt m x c Hok Hin) as [v Hv]. rewrite (vtable_addr p _ v) by done.
    destruct (decide (v = VBorrow)) as [->|Hv']; [done|].
    destruct v; try done.
Qed.

Lemma read_ok m hs ars x c n :
  Inv p m ((x, c) :: hs) ars →
  let k := N.min (N.of_nat (length c)) n in
  match read p m (h_b x) n with
  | Ok (l, b) m' => l = take (N.to_nat k) c
      ∧ Inv p m' ((Handle b (h_lt x), drop (N.to_nat k) c) :: hs) ars
  | Panic m' => m' = m ∧ is_inlined p (h_b x) = true
  | _ => False
  end.
Proof.
  intros HI k. pose proof (h_of _ _ _ _ _ HI) as Hok.
  pose proof (h_ok_len p Hwf m x c Hok) as Hlen.
  unfold read. rewrite Hlen. fold k.
  rewrite (as_slice_ok p Hwf m _ ars x c) by done.
  rewrite index_range_spec.
  rewrite (proj2 (N.leb_le 0 k)), (proj2 (N.leb_le k _)) by (unfold k; lia). simpl.
  pose proof (shrink_ok m hs ars x c (Incl k) Unb HI) as H. simpl in H. rewrite Hlen in H.
  specialize (H ltac:(intros _ e [= <-]; lia)).
  destruct (shrink_to p m (h_b x) (Incl k) Unb) as [b m'|m'| |]; try done.
  - destruct H as (s & e & [= <-] & [= <-] & _ & _ & H). rewrite slice_end in H.
    split; [|done]. by rewrite slice_0.
  - destruct H as [-> [?|H]]; [done|]. exfalso. eapply (H k); [done|done|]. unfold k; lia.
Qed.

(** *** [Arc]s *)
Definition a_vt (t : aty) : vt := match t with ASlice => VArc | AOf => VArcT | AStab => VStab end.

(** A value and an [Arc] of the same storage own the same. *)
Lemma own_conv b lt d a c base t :
  b_vt b = vt_addr p (a_vt (a_t a)) → b_owner b = a_base a →
  owns p (a_vt t) base (Handle b lt, d) = arc_owns t base (a, c).
Proof.
  intros Hv Ho. apply eq_bool_prop_intro. rewrite !Is_true_true, owns_spec, arc_owns_spec. simpl.
  rewrite Hv, Ho. split.
  - intros (H1%(wf_inj p Hwf) & H2 & _). split; [|done]. by destruct (a_t a), t.
  - intros [-> <-]. split_and!; [done|done|]. by destruct t.
Qed.
Lemma own_conv_box b lt d a base :
  b_vt b = vt_addr p (a_vt (a_t a)) → owns p VBox base (Handle b lt, d) = false.
Proof.
  intros Hv. apply not_true_is_false. intros (Hq & _)%owns_spec; simpl in Hq. rewrite Hv in Hq.
  apply (wf_inj p Hwf) in Hq. by destruct (a_t a).
Qed.

(** Moving a [Bytes] into an [Arc]. *)
Lemma to_arc_gen m hs ars a c b d lt :
  Inv p m ((Handle b lt, d) :: hs) ars → a_ok m a c →
  b_vt b = vt_addr p (a_vt (a_t a)) → b_owner b = a_base a →
  Inv p m hs ((a, c) :: ars).
Proof.
  intros [H1 H2 H3 H4 H5] Hok Hv Ho. split; try done.
  - intros y e Hy. apply H3. by right.
  - intros y e [[= -> ->]|Hy]%elem_of_cons; auto.
  - intros j rj Hj Hlj. specialize (H5 j rj Hj Hlj). unfold cnt_ok in *.
    pose proof (λ t, own_conv b lt d a c (r_base rj) t Hv Ho) as He.
    destruct (r_kind rj) eqn:Hkj; simpl in *; try done.
    + pose proof (He ASlice) as E; cbn [a_vt] in E; rewrite E in H5. lia.
    + pose proof (He AOf) as E; cbn [a_vt] in E; rewrite E in H5. lia.
    + by rewrite (own_conv_box b lt d a) in H5.
    + pose proof (He AStab) as E; cbn [a_vt] in E; rewrite E in H5. lia.
Qed.

Lemma into_arc_ok m hs ars x c :
  Inv p m ((x, c) :: hs) ars →
  match try_into_arc p (h_b x) with
  | Some (inl (base, n)) =>
      Inv p m hs ((Arc base n ASlice, c) :: ars) ∧ b_vt (h_b x) = vt_addr p VArc
      ∧ ∃ i r, m !! i = Some r ∧ arc_at base n r = true ∧ r_data r = c
  | Some (inr b) => b = h_b x ∧
      (b_vt (h_b x) = vt_addr p VArc → ∃ i r, m !! i = Some r ∧ r_live r = true
          ∧ arc_at (b_owner (h_b x)) (b_cap (h_b x)) r = true ∧
          (contains (b_start (h_b x)) (b_len (h_b x)) r = true) ∧ 
          ¬ (b_start (h_b x) = r_base r ∧ b_len (h_b x) = r_len r))
  | None => False
  end.
Proof.
  intros HI. pose proof (h_of _ _ _ _ _ HI) as Hok. unfold try_into_arc.
  destruct (is_inlined p (h_b x)) eqn:Hin.
  { rewrite vtable_inlined by done. split; [done|]. intros Hv.
    by rewrite (not_inlined p _ VArc) in Hin. }
  destruct (out_vt m x c Hok Hin) as [v Hv]. rewrite (vtable_addr p _ v) by done.
  destruct (N.eqb_spec (b_vt (h_b x)) (vt_addr p VArc)) as [Hva|Hva].
  2: { simpl. done. }
  assert (v = VArc) as -> by (eapply (wf_inj p Hwf); congruence).
  destruct Hok as [(Hi & _)|(w & Hw & Hx)]; [congruence|].
  assert (w = VArc) as -> by (eapply (wf_inj p Hwf); congruence).
  destruct Hx as [(i & r & Hi & Hb & Hc & ->)|([=] & _)]. simpl in Hb.
  pose proof Hb as Hb'. apply arc_at_spec in Hb' as (Hl & Hbase & Hrl & k & Hk).
  destruct (N.eqb_spec (b_start (h_b x)) (b_owner (h_b x))) as [Hs|Hs]; simpl.
  2: { split; [done|]. intros _. exists i, r. split_and!; try done. intros [? ?]. congruence. }
  destruct (N.eqb_spec (b_len (h_b x)) (b_cap (h_b x))) as [Hlc|Hlc]; simpl.
  2: { split; [done|]. intros _. exists i, r. split_and!; try done. intros [? ?]. congruence. }
  assert (Hdat : sub_data (b_start (h_b x)) (b_len (h_b x)) r = r_data r).
  { unfold sub_data. rewrite Hs, Hbase, N.sub_diag. change (N.to_nat 0) with 0%nat.
    rewrite drop_0, take_ge; [done|]. unfold r_len in Hrl. lia. }
  split_and!; [|done|by exists i, r].
  rewrite Hdat. destruct x as [b lt]. eapply to_arc_gen; [exact HI| |done|done].
  exists i, r. simpl in *. unfold r_len in Hrl. split_and!; [done| |unfold r_len; lia|done].
  rewrite take_ge; [done|lia].
Qed.

Lemma into_stab_ok m hs ars x c :
  Inv p m ((x, c) :: hs) ars →
  match try_into_stab p m (h_b x) with
  | Some (inl (base, n)) =>
      Inv p m hs ((Arc base n AStab, c) :: ars) ∧ b_vt (h_b x) = vt_addr p VStab
      ∧ n = N.of_nat (length c)
      ∧ ∃ i r, m !! i = Some r ∧ stab_at base (base + n) r = true ∧ c = take (length c) (r_data r)
  | Some (inr b) => b = h_b x ∧
      (b_vt (h_b x) = vt_addr p VStab → ∃ i r, m !! i = Some r ∧ r_live r = true
          ∧ stab_at (b_owner (h_b x)) (b_cap (h_b x)) r = true
          ∧ contains (b_start (h_b x)) (b_len (h_b x)) r = true
          ∧ b_start (h_b x) ≠ r_base r)
  | None => False
  end.
Proof.
  intros HI. pose proof (h_of _ _ _ _ _ HI) as Hok. unfold try_into_stab.
  destruct (is_inlined p (h_b x)) eqn:Hin.
  { rewrite vtable_inlined by done. split; [done|]. intros Hv.
    by rewrite (not_inlined p _ VStab) in Hin. }
  destruct (out_vt m x c Hok Hin) as [v Hv]. rewrite (vtable_addr p _ v) by done.
  destruct (N.eqb_spec (b_vt (h_b x)) (vt_addr p VStab)) as [Hva|Hva].
  2: { simpl. done. }
  assert (v = VStab) as -> by (eapply (wf_inj p Hwf); congruence).
  destruct Hok as [(Hi & _)|(w & Hw & Hx)]; [congruence|].
  assert (w = VStab) as -> by (eapply (wf_inj p Hwf); congruence).
  destruct Hx as [(i & r & Hi & Hb & Hc & ->)|([=] & _)]. simpl in Hb.
  pose proof Hb as Hb'. apply stab_at_spec in Hb' as (Hl & Hbase & Hlo & Hhi & k & Hk).
  destruct (N.eqb_spec (b_start (h_b x)) (b_owner (h_b x))) as [Hs|Hs]; simpl.
  2: { split; [done|]. intros _. exists i, r. split_and!; try done. congruence. }
  pose proof Hc as (_ & Hc1 & Hc2)%contains_spec.
  rewrite (ptr_add_ok m i r) by (done || by rewrite <- Hs).
  pose proof (sub_data_length _ _ _ Hc) as Hlen.
  assert (Hdat : sub_data (b_start (h_b x)) (b_len (h_b x)) r
                 = take (N.to_nat (b_len (h_b x))) (r_data r)).
  { unfold sub_data. rewrite Hs, Hbase, N.sub_diag. change (N.to_nat 0) with 0%nat.
    by rewrite drop_0. }
  replace (b_owner (h_b x) + b_len (h_b x) - b_owner (h_b x)) with (b_len (h_b x)) by lia.
  assert (Hst : stab_at (b_owner (h_b x)) (b_owner (h_b x) + b_len (h_b x)) r = true).
  { apply stab_at_spec. split_and!; [done|done|lia|lia|by exists k]. }
  split_and!; [|done|lia|].
  - destruct x as [b lt]. eapply to_arc_gen; [exact HI| |done|done].
    exists i, r. simpl in *. split_and!; [done|done|lia|done].
  - exists i, r. split_and!; [done|done|].
    rewrite Hdat at 1. f_equal. lia.
Qed.

Lemma a_of m hs ars a c : Inv p m hs ((a, c) :: ars) → a_ok m a c.
Proof. intros HI. apply (I_a _ _ _ _ HI). by left. Qed.

(** Moving an [Arc] into a [Bytes]. *)
Lemma from_arc_gen m hs ars a c b d lt :
  Inv p m hs ((a, c) :: ars) → h_ok p m (Handle b lt) d →
  b_vt b = vt_addr p (a_vt (a_t a)) → b_owner b = a_base a →
  Inv p m ((Handle b lt, d) :: hs) ars.
Proof.
  intros [H1 H2 H3 H4 H5] Hok Hv Ho. split; try done.
  - intros y e [[= -> ->]|Hy]%elem_of_cons; auto.
  - intros y e Hy. apply H4. by right.
  - intros j rj Hj Hlj. specialize (H5 j rj Hj Hlj). unfold cnt_ok in *.
    pose proof (λ t, own_conv b lt d a c (r_base rj) t Hv Ho) as He.
    destruct (r_kind rj) eqn:Hkj; simpl in *; try done.
    + pose proof (He ASlice) as E; cbn [a_vt] in E; rewrite E. lia.
    + pose proof (He AOf) as E; cbn [a_vt] in E; rewrite E. lia.
    + by rewrite (own_conv_box b lt d a).
    + pose proof (He AStab) as E; cbn [a_vt] in E; rewrite E. lia.
Qed.

Lemma from_arc_ok m hs ars a c :
  Inv p m hs ((a, c) :: ars) → a_t a = ASlice →
  Inv p m ((Handle (from_arc p (a_base a) (a_len a)) LStatic, c) :: hs) ars.
Proof.
  intros HI Ht. pose proof (a_of _ _ _ _ _ HI) as (i & r & Hi & -> & Hlen & Ha). unfold a_at in Ha.
  rewrite Ht in Ha. pose proof Ha as Ha'. apply arc_at_spec in Ha' as (Hl & Hb & _ & k & Hk).
  eapply (from_arc_gen m hs ars a); [done| |by rewrite Ht|done].
  right. exists VArc. split; [done|left]. exists i, r. simpl. split_and!; [done|done| |].
  - apply contains_spec. split_and!; [done|lia|lia].
  - unfold sub_data. rewrite Hb, N.sub_diag. change (N.to_nat 0) with 0%nat. by rewrite drop_0.
Qed.

Lemma from_stab_ok m hs ars a c :
  Inv p m hs ((a, c) :: ars) → a_t a = AStab →
  Inv p m ((Handle (from_stab p (a_base a) (a_len a)) LStatic, c) :: hs) ars.
Proof.
  intros HI Ht. pose proof (a_of _ _ _ _ _ HI) as (i & r & Hi & -> & Hlen & Ha). unfold a_at in Ha.
  rewrite Ht in Ha. pose proof Ha as Ha'. apply stab_at_spec in Ha' as (Hl & Hb & _ & _ & k & Hk).
  eapply (from_arc_gen m hs ars a); [done| |by rewrite Ht|done].
  right. exists VStab. split; [done|left]. exists i, r. simpl. split_and!; [done|done| |].
  - apply contains_spec. split_and!; [done|lia|lia].
  - unfold sub_data. rewrite Hb, N.sub_diag. change (N.to_nat 0) with 0%nat. by rewrite drop_0.
Qed.

Lemma from_arct_ok m hs ars a c off n :
  Inv p m hs ((a, c) :: ars) → a_t a = AOf → off + n ≤ a_len a →
  Inv p m ((Handle (from_arct p (a_base a) (a_base a + off) n) LStatic,
            slice c off (off + n)) :: hs) ars.
Proof.
  intros HI Ht Hle. pose proof (a_of _ _ _ _ _ HI) as (i & r & Hi & -> & Hlen & Ha). unfold a_at in Ha.
  rewrite Ht in Ha. pose proof Ha as Ha'. apply arct_at_spec in Ha' as (Hl & Hb & k & Hk).
  eapply (from_arc_gen m hs ars a); [done| |by rewrite Ht|done].
  right. exists VArcT. split; [done|left]. exists i, r. simpl. split_and!; [done|done| |].
  - apply contains_spec. split_and!; [done|lia|lia].
  - unfold sub_data, slice. rewrite skipn_firstn_comm, take_take. f_equal; [lia|]. f_equal. lia.
Qed.

(** The region an [Arc] points to is the one its [clone] and [drop] find. *)
Lemma a_find m hs ars a i r g :
  Inv p m hs ars → m !! i = Some r → a_at a r = true →
  match a_fn (a_t a) with
  | ArcFn => upd_at (arc_at (a_base a) (a_cap a)) g m
  | ArcTFn => upd_at (arct_at (a_base a)) g m
  | _ => upd_at (stab_at (a_base a) (a_cap a)) g m
  end = Some (<[i := g r]> m).
Proof.
  intros HI Hi Ha. unfold a_at in Ha. unfold a_cap, upd_at. destruct (a_t a); cbn [a_fn].
  - by rewrite (find_arc p Hwf m hs ars i r).
  - by rewrite (find_arct p Hwf m hs ars i r).
  - by rewrite (find_stab p Hwf m hs ars i r).
Qed.
Lemma a_at_shared a r : a_at a r = true → shared (r_kind r) = true.
Proof.
  unfold a_at. destruct (a_t a); rewrite ?arc_at_spec, ?arct_at_spec, ?stab_at_spec.
  - by intros (_ & _ & _ & n & ->).
  - by intros (_ & _ & n & ->).
  - by intros (_ & _ & _ & _ & n & ->).
Qed.

Lemma arc_clone_ok m hs ars a c :
  Inv p m hs ars → a_ok m a c →
  ∃ m', call_retain (a_fn (a_t a)) (a_base a) (a_cap a) m = Some m'
     ∧ Inv p m' hs ((a, c) :: ars).
Proof.
  intros HI Hok. pose proof Hok as (i & r & Hi & Hc & Hlen & Ha).
  assert (Hu : a_uses m a i) by (by exists r).
  exists (<[i := inc_strong r]> m). split.
  { pose proof (a_find m hs ars a i r inc_strong HI Hi Ha) as H. by destruct (a_t a). }
  pose proof (a_at_spec _ _ Ha) as [Hl Hb]. pose proof (a_at_shared _ _ Ha) as Hs.
  eapply (inc_inv p m hs ars i r); try done. right.
  eexists a, _. split_and!; [done|done|done| |].
  + eapply (no_aown_elsewhere p Hwf m hs ars); eauto.
  + pose proof (a_uses_owns m a c i r Hi Hu) as Ho. by destruct (r_kind r).
Qed.

Lemma arc_drop_ok m hs ars a c :
  Inv p m hs ((a, c) :: ars) →
  ∃ m', call_release (a_fn (a_t a)) (a_base a) (a_cap a) m = Some m'
     ∧ Inv p m' hs ars.
Proof.
  intros HI. pose proof (a_of _ _ _ _ _ HI) as (i & r & Hi & Hc & Hlen & Ha).
  assert (Hu : a_uses m a i) by (by exists r).
  exists (<[i := dec_strong r]> m). split.
  { pose proof (a_find m hs _ a i r dec_strong HI Hi Ha) as H. by destruct (a_t a). }
  pose proof (a_at_spec _ _ Ha) as [Hl Hb]. pose proof (a_at_shared _ _ Ha) as Hs.
  eapply (dec_inv p m hs _ i r); try done. right.
  eexists a, _. split_and!; [done|done| |].
  + eapply (no_aown_elsewhere p Hwf m hs); eauto.
  + pose proof (a_uses_owns m a c i r Hi Hu) as Ho. by destruct (r_kind r).
Qed.

(** *** Borrowed and static buffers *)
Lemma end_borrow_ok (m : mem) hs ars i r :
  Inv p m hs ars → m !! i = Some r → r_kind r = KBorrow →
  (∀ x c, (x, c) ∈ hs → h_lt x ≠ LBorrow i) →
  Inv p (<[i := kill r]> m) hs ars.
Proof.
  intros HI Hi Hk Hno.
  eapply (Inv_update p m hs ars); [done|done|apply kill_shape|done|done|..].
  - intros x c Hx. split; [by apply (I_h _ _ _ _ HI)|]. right.
    intros (v & r' & Hv & Hi' & Hb). simplify_eq.
    destruct v; simpl in Hb.
    + congruence.
    + destruct Hb as [_ Hb]. by eapply Hno.
    + apply arc_at_spec in Hb as (_ & _ & _ & n & Hn). congruence.
    + apply arct_at_spec in Hb as (_ & _ & n & Hn). congruence.
    + destruct Hb as [(_ & _ & _ & Hn)%box_at_spec _]. congruence.
    + apply stab_at_spec in Hb as (_ & _ & _ & _ & n & Hn). congruence.
  - intros a c Ha. split; [by apply (I_a _ _ _ _ HI)|]. right. intros Hu.
    pose proof (a_uses_owns m a c i r Hi Hu) as Hw. by rewrite Hk in Hw.
  - done.
  - intros. by eapply (I_cnt _ _ _ _ HI).
Qed.

Lemma from_static_ok m hs ars i r off n :
  Inv p m hs ars → m !! i = Some r → r_kind r = KStatic → r_live r = true → off + n ≤ r_len r →
  Inv p m ((Handle (from_static p (r_base r + off) n) LStatic, slice (r_data r) off (off + n)) :: hs) ars.
Proof.
  intros HI Hi Hk Hl Hle. apply Inv_add_h; [done| |].
  - right. exists VStatic. split; [done|left]. exists i, r. simpl. split_and!; [done|done| |].
    + apply contains_spec. split_and!; [done|lia|lia].
    + unfold sub_data, slice. f_equal; [lia|]. f_equal. lia.
  - intros. eapply no_own_vt; [done|done|]. by left.
Qed.

Lemma from_slice_ok m hs ars i r off n data :
  Inv p m hs ars → m !! i = Some r → r_kind r = KBorrow → r_live r = true →
  region_slice r off n = Some data →
  Inv p m ((Handle (from_slice p (r_base r + off) data) (LBorrow i), data) :: hs) ars.
Proof.
  intros HI Hi Hk Hl Hs. unfold region_slice in Hs.
  destruct (N.leb_spec (off + n) (r_len r)) as [Hle|]; [|done]. simplify_eq.
  assert (Hlen : N.of_nat (length (take (N.to_nat n) (drop (N.to_nat off) (r_data r)))) = n).
  { rewrite take_length, drop_length. unfold r_len in Hle. lia. }
  set (data := take _ _) in *.
  assert (Hb : bytelist data).
  { apply Forall_take, Forall_drop. apply (I_reg _ _ _ _ HI i r Hi). }
  unfold from_slice. destruct (Nat.leb_spec (length data) (max_inline p)) as [Hin|Hout].
  - apply Inv_add_inl; [done|done|]. by apply inline_ok.
  - rewrite Hlen. apply Inv_add_h; [done| |].
    + right. exists VBorrow. split; [done|left]. exists i, r. simpl. split_and!; [done|done|done| |].
      * apply contains_spec. split_and!; [done|lia|lia].
      * unfold sub_data, data. f_equal. f_equal. lia.
    + intros. eapply no_own_vt; [done|done|]. by right.
Qed.
End Meth.
