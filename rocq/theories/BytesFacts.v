(** Consequences of the refinement for [Bytes] programs. *)
From Coq Require Import ZifyBool ZifyNat ZifyN.
From stdpp Require Import base numbers list.
From Verif Require Import BytesModel BytesSpec BytesEnc BytesInv BytesOps BytesMeth BytesRefine.
Local Open Scope N_scope.
Ltac Zify.zify_post_hook ::= Z.div_mod_to_equations.

(** Which value an operation is applied to. *)
Definition target (o : op) : option nat :=
  match o with
  | OClone h _ | ONoallocClone h | ODrop h | OShrink h _ _ | OSubsliced h _ _ | OSplit h _ _
  | OUpgrade h _ | ONoallocUpgrade h | OIntoArc h | OIntoStab h | OAsSlice h | ORead h _ => Some h
  | _ => None
  end.

(** Operations with no known misbehaviour. *)
Definition plain (o : op) : bool :=
  match o with OShrink _ _ _ | OSubsliced _ _ _ | ONoallocUpgrade _ => false | _ => true end.

Section Facts.
Context (p : platform) (Hwf : wf_platform p).

Lemma run_reach s l s' r :
  reach p s → forallb plain l = true → run p s l = SDone s' r → reach p s'.
Proof.
  revert s. induction l as [|o l IH]; intros s Hr Hp Hrun; simpl in *; [by simplify_eq|].
  apply andb_true_iff in Hp as [Ho Hp].
  assert (Hadm : admissible p s o) by (destruct o; done).
  destruct (step p s o) as [s1 r1|s1| |] eqn:Hs; try done.
  - eapply IH; [|done|done]. by eapply reach_done.
  - eapply IH; [|done|done]. by eapply reach_panic.
Qed.

Lemma view_handle s h x : reach p s → get_h s h = Some x →
  ∃ c, view p s !! h = Some (Some c) ∧ h_ok p (st_mem s) x c
       ∧ as_slice p (st_mem s) (h_b x) = Some c.
Proof.
  intros Hr Hx. destruct (reach_inv p Hwf s Hr) as (G & A & HS).
  destruct (get_h_ghost p _ _ _ _ _ HS Hx) as [c Hg]. exists c.
  rewrite (view_vals p Hwf s G A HS). split_and!.
  - by eapply vals_lookup.
  - by eapply SInv_hok.
  - eapply (as_slice_ok p Hwf); [apply HS|]. by eapply SInv_hok.
Qed.

Lemma live_readable s h x : reach p s → get_h s h = Some x →
  ∃ c, as_slice p (st_mem s) (h_b x) = Some c ∧ len p (h_b x) = N.of_nat (length c)
       ∧ bytelist c.
Proof.
  intros Hr Hx. destruct (reach_inv p Hwf s Hr) as (G & A & HS).
  destruct (get_h_ghost p _ _ _ _ _ HS Hx) as [c Hg]. exists c.
  pose proof (SInv_hok p _ _ _ _ _ _ HS Hg) as Hok. split_and!.
  - eapply (as_slice_ok p Hwf); [apply HS|done].
  - by eapply h_ok_len.
  - eapply h_ok_bytes; [apply HS|done].
Qed.

(** An operation leaves every other value alone. *)
Lemma frame s o s' : reach p s → admissible p s o →
  (∃ r, step p s o = SDone s' r) ∨ step p s o = SPanic s' →
  ∀ j c, view p s !! j = Some c → target o ≠ Some j → view p s' !! j = Some c.
Proof.
  intros Hr Hadm Hst j c Hj Ht.
  pose proof (step_refines p Hwf s o Hr Hadm) as H.
  assert (Happ : ∀ l : strings, (view p s ++ l) !! j = Some c) by (intros; by apply lookup_app_l_Some).
  assert (Hins : ∀ h y, target o = Some h → <[h := y]> (view p s) !! j = Some c).
  { intros h y Ho. rewrite list_lookup_insert_ne; [done|]. congruence. }
  assert (Hinsapp : ∀ h y l, target o = Some h → (<[h := y]> (view p s) ++ l) !! j = Some c).
  { intros h y l Ho. by apply lookup_app_l_Some, Hins. }
  destruct Hst as [[r Hst]|Hst]; rewrite Hst in H.
  - destruct o; simpl in *; try done;
      repeat match goal with
             | H : ∃ _, _ |- _ => destruct H
             | H : _ ∧ _ |- _ => destruct H
             | H : _ ∨ _ |- _ => destruct H
             end;
      match goal with Hv : view p s' = _ |- _ => rewrite Hv end; auto.
  - destruct o; simpl in *; try done;
      repeat match goal with
             | H : ∃ _, _ |- _ => destruct H
             | H : _ ∧ _ |- _ => destruct H
             | H : _ ∨ _ |- _ => destruct H
             end;
      match goal with Hv : view p s' = _ |- _ => rewrite Hv end; auto.
Qed.

(** *** Upgrading *)
Lemma upgrade_step s h base s' r : reach p s → step p s (OUpgrade h base) = SDone s' r →
  view p s' = view p s ∧ arc_view s' = arc_view s ∧
  ∃ x, get_h s' h = Some x ∧ h_lt x = LStatic.
Proof.
  intros Hr Hst. pose proof (step_refines p Hwf s (OUpgrade h base) Hr I) as H.
  rewrite Hst in H. simpl in H. destruct H as (_ & H1 & H2). split_and!; [done|done|].
  simpl in Hst. unfold with_h in Hst. destruct (get_h s h) as [x|] eqn:Hx; [|done].
  destruct (upgrade p (st_mem s) (h_b x) base) as [b m| | |]; try done; unfold replace_h in Hst; simplify_eq.
  exists (Handle b LStatic). split; [|done].
  unfold get_h, set_h; cbn [st_h]. rewrite list_lookup_insert; [done|].
  unfold get_h in Hx. destruct (st_h s !! h) eqn:E; [|done]. by eapply lookup_lt_Some.
Qed.

Lemma end_borrows s rids s' r : reach p s → run p s (map OEndBorrow rids) = SDone s' r →
  reach p s' ∧ view p s' = view p s.
Proof.
  revert s. induction rids as [|rid rids IH]; intros s Hr Hrun; cbn [map run] in Hrun.
  { by simplify_eq. }
  pose proof (step_refines p Hwf s (OEndBorrow rid) Hr I) as H.
  destruct (step p s (OEndBorrow rid)) as [s1 r1|s1| |] eqn:Hst; try done.
  assert (Hr1 : reach p s1) by (by eapply (reach_done p s (OEndBorrow rid))).
  simpl in H. destruct H as (_ & H & _).
  destruct (IH s1 Hr1 Hrun) as [H1 H2]. split; [done|]. congruence.
Qed.

(** *** Predictions *)
Lemma copied_allocates m data : copied_from_slice p m 0 data = NoAlloc ↔
  (max_inline p < length data)%nat.
Proof.
  unfold copied_from_slice, inline_slice.
  destruct (Nat.ltb_spec (max_inline p) (length data)) as [H|H].
  - unfold alloc, can_alloc. rewrite (proj2 (N.ltb_ge _ 0)) by lia. simpl. done.
  - split; [done|lia].
Qed.

Lemma upgrade_allocates s h x : reach p s → get_h s h = Some x →
  upgrade p (st_mem s) (h_b x) 0 = NoAlloc ↔
  b_vt (h_b x) = vt_addr p VBorrow ∧ N.of_nat (max_inline p) < len p (h_b x).
Proof.
  intros Hr Hx. destruct (reach_inv p Hwf s Hr) as (G & A & HS).
  destruct (get_h_ghost p _ _ _ _ _ HS Hx) as [c Hg].
  pose proof (SInv_hok p _ _ _ _ _ _ HS Hg) as Hok.
  pose proof (SInv_front p _ _ _ _ _ _ HS Hg) as HI.
  rewrite (h_ok_len p Hwf _ _ _ Hok). unfold upgrade.
  destruct (is_inlined p (h_b x)) eqn:Hin.
  { rewrite vtable_inlined by done. split; [done|]. intros [Hv _].
    by rewrite (not_inlined p _ VBorrow) in Hin. }
  destruct (out_vt p _ x c Hok Hin) as [v Hv]. rewrite (vtable_addr p _ v) by done.
  destruct (decide (v = VBorrow)) as [->|Hnb]; simpl.
  - rewrite (as_slice_ok p Hwf _ _ _ x c HI Hok).
    pose proof (copied_ok p Hwf _ _ _ c 0 LStatic HI (h_ok_bytes p _ _ _ _ _ HI Hok)) as Hc.
    pose proof (copied_allocates (st_mem s) c) as Ha.
    destruct (copied_from_slice p (st_mem s) 0 c) as [b m| | |]; try done.
    + destruct Hc as [Hc _]. eapply Inv_perm in Hc; [|apply perm_swap|done].
      destruct (drop_ok p Hwf m _ _ x c Hc) as (m'' & -> & _).
      split; [done|]. intros [_ ?]. exfalso. assert ((max_inline p < length c)%nat) by lia.
      by apply Ha in H0.
    + split; [|done]. intros _. split; [done|]. assert ((max_inline p < length c)%nat) by tauto. lia.
  - split; [destruct v; done|]. intros [Hb _].
    exfalso. apply Hnb. eapply (wf_inj p Hwf). congruence.
Qed.

Lemma clone_allocates s h x : reach p s → get_h s h = Some x →
  clone p (st_mem s) (h_b x) 0 = NoAlloc ↔
  b_vt (h_b x) = vt_addr p VBox ∧ N.of_nat (max_inline p) < len p (h_b x).
Proof.
  intros Hr Hx. destruct (reach_inv p Hwf s Hr) as (G & A & HS).
  destruct (get_h_ghost p _ _ _ _ _ HS Hx) as [c Hg].
  pose proof (SInv_hok p _ _ _ _ _ _ HS Hg) as Hok.
  pose proof (SInv_front p _ _ _ _ _ _ HS Hg) as HI.
  rewrite (h_ok_len p Hwf _ _ _ Hok). unfold clone.
  destruct (noalloc_clone_ok p Hwf _ _ _ x c HI Hok)
    as (o & m' & -> & [(-> & _ & Hn)|(-> & -> & Hv)]).
  - split; [done|]. intros [? _]. done.
  - rewrite (as_slice_ok p Hwf _ _ _ x c HI Hok). rewrite copied_allocates.
    split; [intros; split; [done|lia]|intros [_ ?]; lia].
Qed.

Lemma upgrade_will_allocate_spec s h x : reach p s → get_h s h = Some x →
  upgrade_will_allocate p (h_b x) = true ↔
  b_vt (h_b x) = vt_addr p VBorrow ∧ N.of_nat (size_of_bytes p) ≤ len p (h_b x).
Proof.
  intros Hr Hx. destruct (view_handle s h x Hr Hx) as (c & _ & Hok & _).
  unfold upgrade_will_allocate.
  destruct (is_inlined p (h_b x)) eqn:Hin.
  { rewrite vtable_inlined by done. split; [done|]. intros [Hv _].
    by rewrite (not_inlined p _ VBorrow) in Hin. }
  destruct (out_vt p _ x c Hok Hin) as [v Hv]. rewrite (vtable_addr p _ v) by done.
  rewrite andb_true_iff, N.leb_le.
  assert (is_borrowed v = true ↔ b_vt (h_b x) = vt_addr p VBorrow); [|tauto].
  destruct (decide (v = VBorrow)) as [->|Hnb]; [done|].
  split; [destruct v; done|]. intros Hb. exfalso. apply Hnb. eapply (wf_inj p Hwf). congruence.
Qed.

Lemma clone_will_allocate_spec s h x : reach p s → get_h s h = Some x →
  clone_will_allocate p (h_b x) = true ↔
  b_vt (h_b x) = vt_addr p VBox ∧ N.of_nat (size_of_bytes p) ≤ len p (h_b x).
Proof.
  intros Hr Hx. destruct (view_handle s h x Hr Hx) as (c & _ & Hok & _).
  unfold clone_will_allocate.
  destruct (is_inlined p (h_b x)) eqn:Hin.
  { rewrite vtable_inlined by done. split; [done|]. intros [Hv _].
    by rewrite (not_inlined p _ VBox) in Hin. }
  destruct (out_vt p _ x c Hok Hin) as [v Hv]. rewrite (vtable_addr p _ v) by done.
  rewrite andb_true_iff, N.leb_le.
  assert (match vt_retain v with Some _ => false | None => true end = true
          ↔ b_vt (h_b x) = vt_addr p VBox); [|tauto].
  destruct (decide (v = VBox)) as [->|Hnb]; [done|].
  split; [destruct v; done|]. intros Hb. exfalso. apply Hnb. eapply (wf_inj p Hwf). congruence.
Qed.

(** *** Into [Arc] *)
Definition whole_arc (s : state) (x : handle) : Prop :=
  ∃ i r n, st_mem s !! i = Some r ∧ r_live r = true ∧ r_kind r = KArc n
    ∧ b_vt (h_b x) = vt_addr p VArc ∧ b_owner (h_b x) = r_base r
    ∧ b_start (h_b x) = r_base r ∧ b_len (h_b x) = r_len r.

Lemma into_arc_iff s h x : reach p s → get_h s h = Some x →
  (whole_arc s x →
     ∃ s' c, step p s (OIntoArc h) = SDone s' (RArc (length (st_arcs s))) ∧ st_mem s' = st_mem s
       ∧ view p s !! h = Some (Some c) ∧ arc_view s' !! length (st_arcs s) = Some (Some c)
       ∧ get_h s' h = None)
  ∧ (¬ whole_arc s x → step p s (OIntoArc h) = SDone s (RFail h)).
Proof.
  intros Hr Hx. destruct (reach_inv p Hwf s Hr) as (G & A & HS).
  destruct (get_h_ghost p _ _ _ _ _ HS Hx) as [c Hg].
  pose proof (into_arc_ok p Hwf _ _ _ x c (SInv_front p _ _ _ _ _ _ HS Hg)) as H.
  pose proof (step_refines p Hwf s (OIntoArc h) Hr I) as Href.
  pose proof HS as (Eh & Ea & HI).
  assert (Hlt : (h < length (st_h s))%nat).
  { unfold get_h in Hx. destruct (st_h s !! h) eqn:E; [|done]. by eapply lookup_lt_Some. }
  simpl in *. unfold with_h in *. rewrite Hx in *.
  destruct (try_into_arc p (h_b x)) as [[[base n]|b]|] eqn:Ht; try done.
  - assert (Hwa : whole_arc s x).
    { destruct H as (_ & Hv & i & r & Hi & Ha & _).
      unfold try_into_arc in Ht. rewrite (vtable_addr p _ VArc) in Ht by done.
      destruct (b_vt (h_b x) =? vt_addr p VArc); [|done]. simpl in Ht.
      destruct (N.eqb_spec (b_start (h_b x)) (b_owner (h_b x))); [|done].
      destruct (N.eqb_spec (b_len (h_b x)) (b_cap (h_b x))); [|done]. simplify_eq/=.
      apply arc_at_spec in Ha as (Hl & Hb & Hc & k & Hk). exists i, r, k.
      split_and!; try done; congruence. }
    split; [|done]. intros _. destruct Href as (c' & Hc & [(_ & Hv & Hav)|[? _]]); [|done].
    eexists _, c'. split_and!; [done|done|done| |].
    + rewrite Hav. rewrite lookup_app_r; [|by unfold arc_view; rewrite fmap_length].
      unfold arc_view. by rewrite fmap_length, Nat.sub_diag.
    + unfold get_h, set_h; cbn [st_h]. by rewrite list_lookup_insert.
  - destruct H as [-> Hno]. split.
    + intros (i & r & n & Hi & Hl & Hk & Hv & Ho & Hs & Hle).
      destruct (Hno Hv) as (j & r' & Hj & Hl' & Ha & _ & Hneq).
      apply arc_at_spec in Ha as (_ & Hb' & Hc' & k & Hk').
      assert (i = j) as <-.
      { eapply (shared_inj p Hwf _ _ _ i j r r' HI); eauto; rewrite ?Hk, ?Hk'; done || congruence. }
      assert (r' = r) as -> by congruence. exfalso. apply Hneq. done.
    + intros _. unfold replace_h. f_equal.
      assert (Hid : set_h s h (Some (Handle (h_b x) (h_lt x))) = st_h s).
      { unfold set_h. apply list_insert_id. unfold get_h in Hx.
        destruct (st_h s !! h) as [[y|]|]; simpl in Hx; try done. simplify_eq. by destruct x. }
      rewrite Hid. by destruct s.
Qed.

(** *** Into [ArcSlice] *)
Definition starts_stab (s : state) (x : handle) : Prop :=
  ∃ i r n, st_mem s !! i = Some r ∧ r_live r = true ∧ r_kind r = KStab n
    ∧ b_vt (h_b x) = vt_addr p VStab ∧ b_owner (h_b x) = r_base r
    ∧ b_start (h_b x) = r_base r.

Lemma into_stab_iff s h x : reach p s → get_h s h = Some x → stabby p = true →
  (starts_stab s x →
     ∃ s' c, step p s (OIntoStab h) = SDone s' (RArc (length (st_arcs s))) ∧ st_mem s' = st_mem s
       ∧ view p s !! h = Some (Some c) ∧ arc_view s' !! length (st_arcs s) = Some (Some c)
       ∧ get_arc s' (length (st_arcs s)) = Some (Arc (b_owner (h_b x)) (N.of_nat (length c)) AStab)
       ∧ get_h s' h = None)
  ∧ (¬ starts_stab s x → step p s (OIntoStab h) = SDone s (RFail h)).
Proof.
  intros Hr Hx Hsb. destruct (reach_inv p Hwf s Hr) as (G & A & HS).
  destruct (get_h_ghost p _ _ _ _ _ HS Hx) as [c Hg].
  pose proof (into_stab_ok p Hwf _ _ _ x c (SInv_front p _ _ _ _ _ _ HS Hg)) as H.
  pose proof (step_refines p Hwf s (OIntoStab h) Hr I) as Href.
  pose proof (view_vals p Hwf s G A HS) as HV.
  pose proof HS as (Eh & Ea & HI).
  assert (Hlt : (h < length (st_h s))%nat).
  { unfold get_h in Hx. destruct (st_h s !! h) eqn:E; [|done]. by eapply lookup_lt_Some. }
  simpl in *. unfold with_h in *. rewrite Hx, Hsb in *.
  destruct (try_into_stab p (st_mem s) (h_b x)) as [[[base n]|b]|] eqn:Ht; try done.
  - assert (Hwa : starts_stab s x ∧ base = b_owner (h_b x)).
    { destruct H as (_ & Hv & _ & i & r & Hi & Ha & _).
      unfold try_into_stab in Ht. rewrite (vtable_addr p _ VStab) in Ht by done.
      destruct (b_vt (h_b x) =? vt_addr p VStab); [|done]. simpl in Ht.
      destruct (N.eqb_spec (b_start (h_b x)) (b_owner (h_b x))) as [Hso|]; [|done].
      destruct (ptr_add (st_mem s) (b_owner (h_b x)) (b_len (h_b x))); [|done]. simplify_eq/=.
      apply stab_at_spec in Ha as (Hl & Hb & _ & _ & k & Hk). split; [|done]. exists i, r, k.
      split_and!; try done; congruence. }
    destruct Hwa as [Hwa ->].
    split; [|done]. intros _. destruct Href as (c' & Hc & [(_ & Hv & Hav)|[? _]]); [|done].
    assert (c' = c) as ->.
    { rewrite HV, (vals_lookup _ _ _ _ Hg) in Hc. congruence. }
    eexists _, c. split_and!; [done|done|done| | |].
    + rewrite Hav. rewrite lookup_app_r; [|by unfold arc_view; rewrite fmap_length].
      unfold arc_view. by rewrite fmap_length, Nat.sub_diag.
    + unfold get_arc; cbn [st_arcs]. rewrite lookup_app_r, Nat.sub_diag by done.
      destruct H as (_ & _ & -> & _). done.
    + unfold get_h, set_h; cbn [st_h]. by rewrite list_lookup_insert.
  - destruct H as [-> Hno]. split.
    + intros (i & r & n & Hi & Hl & Hk & Hv & Ho & Hs).
      destruct (Hno Hv) as (j & r' & Hj & Hl' & Ha & _ & Hneq).
      apply stab_at_spec in Ha as (_ & Hb' & _ & _ & k & Hk').
      assert (i = j) as <-.
      { eapply (shared_inj p Hwf _ _ _ i j r r' HI); eauto; rewrite ?Hk, ?Hk'; done || congruence. }
      assert (r' = r) as -> by congruence. exfalso. by apply Hneq.
    + intros _. unfold replace_h. f_equal.
      assert (Hid : set_h s h (Some (Handle (h_b x) (h_lt x))) = st_h s).
      { unfold set_h. apply list_insert_id. unfold get_h in Hx.
        destruct (st_h s !! h) as [[y|]|]; simpl in Hx; try done. simplify_eq. by destruct x. }
      rewrite Hid. by destruct s.
Qed.

(** *** Sub-slicing values stored out of line *)
Lemma shrink_exact s h x c lo hi : reach p s → get_h s h = Some x →
  view p s !! h = Some (Some c) → is_inlined p (h_b x) = false →
  bound_ok p lo false → bound_ok p hi true →
  (in_range c lo hi → ∃ s', step p s (OShrink h lo hi) = SDone s' RUnit ∧
      view p s' = <[h := Some (slice c (lo_of lo) (hi_of c hi))]> (view p s))
  ∧ (¬ in_range c lo hi → step p s (OShrink h lo hi) = SPanic s).
Proof.
  intros Hr Hx Hc Hin B1 B2.
  assert (Hadm : admissible p s (OShrink h lo hi)).
  { split_and!; try done. intros y Hy Hin'. congruence. }
  pose proof (step_refines p Hwf s (OShrink h lo hi) Hr Hadm) as Href.
  destruct (reach_inv p Hwf s Hr) as (G & A & HS). pose proof HS as (Eh & Ea & HI).
  destruct (get_h_ghost p _ _ _ _ _ HS Hx) as [c' Hg].
  assert (c' = c) as ->.
  { rewrite (view_vals p Hwf s G A HS), (vals_lookup _ _ _ _ Hg) in Hc. congruence. }
  pose proof (SInv_hok p _ _ _ _ _ _ HS Hg) as Hok.
  pose proof (shrink_ok p Hwf _ _ _ x c lo hi (SInv_front p _ _ _ _ _ _ HS Hg)) as H.
  specialize (H ltac:(congruence)).
  simpl in *. unfold with_h in *. rewrite Hx in *.
  destruct (shrink_to p (st_mem s) (h_b x) lo hi) as [b m'|m'| |]; try done.
  - destruct Href as (c2 & Hc2 & Hrange & _ & Hv & _).
    assert (c2 = c) as -> by congruence. split; [|done]. intros _. eexists. split; [done|]. done.
  - destruct H as [-> [?|Hno]]; [congruence|]. split.
    + intros [R1 R2]. exfalso.
      pose proof (content_lt p Hwf _ _ _ x c HI Hok) as Hlt.
      destruct (start_bound p lo) as [a|] eqn:Hs.
      2: { apply start_bound_none in Hs; [lia|done]. }
      destruct (end_bound p (h_b x) hi) as [e|] eqn:He.
      2: { apply (end_bound_none p _ _ c) in He; [lia|done]. }
      apply start_bound_spec in Hs; [|done]. eapply end_bound_spec in He; [|done|done|done].
      subst. by eapply Hno.
    + intros _. by destruct s.
Qed.

Lemma split_exact s h x c i base : reach p s → get_h s h = Some x →
  view p s !! h = Some (Some c) → is_inlined p (h_b x) = false →
  match step p s (OSplit h i base) with
  | SDone s' r =>
      (i ≤ N.of_nat (length c) ∧ r = RPair h (length (view p s))
       ∧ view p s' = <[h := Some (take (N.to_nat i) c)]> (view p s) ++ [Some (drop (N.to_nat i) c)])
      ∨ (N.of_nat (length c) < i ∧ r = RFail h ∧ s' = s)
  | SReject => i ≤ N.of_nat (length c)   (* the allocator refused *)
  | _ => False
  end.
Proof.
  intros Hr Hx Hc Hin.
  pose proof (step_refines p Hwf s (OSplit h i base) Hr I) as Href.
  destruct (reach_inv p Hwf s Hr) as (G & A & HS). pose proof HS as (Eh & Ea & HI).
  destruct (get_h_ghost p _ _ _ _ _ HS Hx) as [c' Hg].
  assert (c' = c) as ->.
  { rewrite (view_vals p Hwf s G A HS), (vals_lookup _ _ _ _ Hg) in Hc. congruence. }
  pose proof (SInv_hok p _ _ _ _ _ _ HS Hg) as Hok.
  pose proof (split_ok p Hwf _ _ _ x c i base (SInv_front p _ _ _ _ _ _ HS Hg)) as H.
  simpl in *. unfold with_h in *. rewrite Hx in *.
  assert (Hnoalloc : split_at p (st_mem s) (h_b x) i base = NoAlloc → i ≤ N.of_nat (length c)).
  { unfold split_at. rewrite (h_ok_len p Hwf _ _ _ Hok).
    destruct (N.leb_spec i (N.of_nat (length c))); done. }
  destruct (split_at p (st_mem s) (h_b x) i base) as [[[l r]|b] m'|m'| |]; try done.
  - destruct Href as (c2 & Hc2 & _ & [(R1 & R2 & R3)|(R1 & R2 & R3)]); [|done].
    assert (c2 = c) as -> by congruence. left. done.
  - destruct H as (Hi & -> & ->). right. split_and!; [done|done|].
    assert (Hid : set_h s h (Some (Handle (h_b x) (h_lt x))) = st_h s).
    { unfold set_h. apply list_insert_id. unfold get_h in Hx.
      destruct (st_h s !! h) as [[y|]|]; simpl in Hx; try done. simplify_eq. by destruct x. }
    rewrite Hid. by destruct s.
  - destruct H as [? _]. congruence.
  - auto.
Qed.

(** *** Repeated reads *)
Fixpoint reads (s : state) (h : nat) (ns : list N) : option (list (list N) * state) :=
  match ns with
  | [] => Some ([], s)
  | n :: ns =>
      match step p s (ORead h n) with
      | SDone s' (RData l) => match reads s' h ns with
                              | Some (ls, s'') => Some (l :: ls, s'')
                              | None => None end
      | _ => None
      end
  end.

Lemma reads_concat s h ns ls s' c : reach p s → view p s !! h = Some (Some c) →
  reads s h ns = Some (ls, s') →
  ∃ rest, view p s' !! h = Some (Some rest) ∧ c = mjoin ls ++ rest
    ∧ Forall2 (λ l n, N.of_nat (length l) ≤ n) ls ns
    ∧ reach p s'.
Proof.
  revert s ls c. induction ns as [|n ns IH]; intros s ls c Hr Hc Hreads; cbn [reads] in Hreads.
  { simplify_eq. exists c. split_and!; try done. }
  pose proof (step_refines p Hwf s (ORead h n) Hr I) as Href.
  destruct (step p s (ORead h n)) as [s1 r| | |] eqn:Hst; try done.
  destruct r as [| | | | | |l]; try done.
  destruct (reads s1 h ns) as [[ls' s2]|] eqn:Hrs; simplify_eq.
  simpl in Href. destruct Href as (c' & Hc' & _ & [= ->] & Hv).
  assert (c' = c) as -> by congruence.
  assert (Hr1 : reach p s1) by (by eapply (reach_done p s (ORead h n))).
  set (k := N.to_nat (N.min n (N.of_nat (length c)))) in *.
  assert (Hc1 : view p s1 !! h = Some (Some (drop k c))).
  { rewrite Hv. apply list_lookup_insert. by eapply lookup_lt_Some. }
  destruct (IH s1 ls' (drop k c) Hr1 Hc1 Hrs) as (rest & H1 & H2 & H3 & H4).
  exists rest. split_and!; [done| |constructor; [rewrite take_length; lia|done]|done].
  simpl. rewrite <- app_assoc, <- H2. by rewrite take_drop.
Qed.

(** A read returning nothing: the value was empty or the buffer was. *)
Lemma read_zero s h n s' : reach p s → step p s (ORead h n) = SDone s' (RData []) →
  n = 0 ∨ view p s !! h = Some (Some []).
Proof.
  intros Hr Hst. pose proof (step_refines p Hwf s (ORead h n) Hr I) as Href.
  rewrite Hst in Href. simpl in Href. destruct Href as (c & Hc & _ & [= Heq] & _).
  destruct c as [|y c]; [by right|left].
  destruct (decide (n = 0)) as [|Hn]; [done|].
  destruct (N.to_nat (N.min n (N.of_nat (length (y :: c))))) eqn:E; [simpl in E; lia|done].
Qed.

(** Reading never fails on a value stored out of line. *)
Lemma read_out_ok s h x n : reach p s → get_h s h = Some x → is_inlined p (h_b x) = false →
  ∃ s' l, step p s (ORead h n) = SDone s' (RData l).
Proof.
  intros Hr Hx Hin. destruct (reach_inv p Hwf s Hr) as (G & A & HS).
  destruct (get_h_ghost p _ _ _ _ _ HS Hx) as [c Hg].
  pose proof (read_ok p Hwf _ _ _ x c n (SInv_front p _ _ _ _ _ _ HS Hg)) as H. simpl in *.
  unfold with_h. rewrite Hx.
  destruct (read p (st_mem s) (h_b x) n) as [[l b] m'|m'| |]; try done.
  - eexists _, _. done.
  - destruct H as [_ H]. congruence.
Qed.

(** The [len] field of a value inlined from at most one word of bytes is zero. *)
Lemma inline_len_field data :
  (length data ≤ wsz p)%nat → bytelist data → b_len (inline_unchecked p data) = 0.
Proof.
  intros Hl Hb. pose proof (max_inline_bounds p Hwf) as Hm. pose proof (wf_wsz p Hwf) as Hw.
  unfold inline_unchecked, of_raw; cbn [b_len].
  assert (Hmi : (2 * wsz p ≤ max_inline p)%nat).
  { unfold max_inline, size_of_bytes in *. destruct (little p); lia. }
  assert (Hbuf : ∀ (buf : list N) t, take (wsz p) (drop (1 * wsz p) (<[max_inline p := t]> buf))
                 = take (wsz p) (drop (1 * wsz p) buf)).
  { intros buf t. apply list_eq. intros i.
    destruct (decide (i < wsz p)%nat) as [Hi|Hi].
    - rewrite !lookup_take, !lookup_drop by done. apply list_lookup_insert_ne. lia.
    - by rewrite !lookup_take_ge by lia. }
  rewrite Hbuf.
  rewrite drop_app_ge by lia.
  assert (Hrep : ∀ a b, drop a (replicate b (0:N)) = replicate (b - a) 0)
    by (intros; apply drop_replicate).
  rewrite Hrep, take_replicate.
  assert (Hz : ∀ k, dec_le (replicate k 0) = 0).
  { induction k as [|k IH]; [done|]. cbn [replicate dec_le]. rewrite IH. done. }
  unfold dec. destruct (little p); [apply Hz|]. rewrite reverse_replicate. apply Hz.
Qed.

Lemma small_reads_panic m data n :
  bytelist data → (1 ≤ length data ≤ wsz p)%nat →
  read p m (inline_unchecked p data) n = Panic m.
Proof.
  intros Hb [H1 H2]. pose proof (max_inline_bounds p Hwf) as Hm. pose proof (wf_wsz p Hwf) as Hw.
  assert (Hmi : (length data ≤ max_inline p)%nat).
  { unfold max_inline, size_of_bytes in *. destruct (little p); lia. }
  unfold read. rewrite inl_as_slice, inl_len by done.
  rewrite index_range_spec. rewrite (proj2 (N.leb_le 0 _)), (proj2 (N.leb_le _ (N.of_nat (length data)))) by lia.
  unfold shrink_to; cbn [start_bound end_bound andb negb]. rewrite inl_len by done. rewrite inline_len_field by done.
  rewrite (proj2 (N.leb_le _ (N.of_nat (length data)))) by lia. cbn [negb].
  rewrite (proj2 (N.leb_gt (N.of_nat (length data)) 0)) by lia. done.
Qed.

Lemma small_splits_panic m data i base :
  bytelist data → (1 ≤ length data ≤ wsz p)%nat → i ≤ N.of_nat (length data) →
  split_at p m (inline_unchecked p data) i base = Panic m.
Proof.
  intros Hb [H1 H2] Hi. pose proof (max_inline_bounds p Hwf) as Hm. pose proof (wf_wsz p Hwf) as Hw.
  assert (Hmi : (length data ≤ max_inline p)%nat).
  { unfold max_inline, size_of_bytes in *. destruct (little p); lia. }
  unfold split_at. rewrite inl_as_slice, inl_len by done.
  rewrite (proj2 (N.leb_le i _)) by lia. rewrite (proj2 (N.leb_le i _)) by lia.
  rewrite index_range_spec. rewrite (proj2 (N.leb_le 0 _)), (proj2 (N.leb_le i _)) by lia.
  unfold subsliced, shrink_to; cbn [start_bound end_bound andb negb]. rewrite inl_len by done.
  rewrite inline_len_field by done.
  rewrite (proj2 (N.leb_le _ (N.of_nat (length data)))) by lia. cbn [negb].
  rewrite (proj2 (N.leb_gt (N.of_nat (length data)) 0)) by lia. cbn [negb].
  unfold drop_bytes. rewrite vtable_inlined; [done|]. by apply inl_is_inlined.
Qed.
End Facts.

(** [lex] is the lexicographic order. *)
Lemma lex_eq a b : lex a b = Eq ↔ a = b.
Proof.
  revert b. induction a as [|x a IH]; intros [|y b]; simpl; try done.
  destruct (N.compare_spec x y) as [->| |]; [rewrite IH|..]; split; intros; try done;
    simplify_eq; try lia; done.
Qed.
Lemma lex_lt a b : lex a b = Lt ↔
  (∃ t, t ≠ [] ∧ b = a ++ t) ∨ (∃ q x y u v, a = q ++ x :: u ∧ b = q ++ y :: v ∧ x < y).
Proof.
  revert b. induction a as [|x a IH]; intros [|y b]; simpl.
  - split; [done|]. intros [(t & Ht & ?)|([|] & ? & ? & ? & ? & ? & ? & ?)]; simplify_eq/=.
  - split; [|done]. intros _. left. by exists (y :: b).
  - split; [done|]. intros [(t & Ht & ?)|([|] & ? & ? & ? & ? & ? & ? & ?)]; simplify_eq/=.
  - destruct (N.compare_spec x y) as [->|Hlt|Hgt].
    + rewrite IH. split.
      * intros [(t & Ht & ->)|(q & x' & y' & u & v & -> & -> & Hl)]; [left; by exists t|right].
        by exists (y :: q), x', y', u, v.
      * intros [(t & Ht & ?)|([|z q] & x' & y' & u & v & ? & ? & Hl)]; simplify_eq/=; [|lia|].
        -- left. by exists t.
        -- right. by exists q, x', y', u, v.
    + split; [|done]. intros _. right. by exists [], x, y, a, b.
    + split; [done|]. intros [(t & Ht & ?)|([|z q] & x' & y' & u & v & ? & ? & Hl)]; simplify_eq/=; lia.
Qed.
Lemma lex_antisym a b : lex b a = CompOpp (lex a b).
Proof.
  revert b. induction a as [|x a IH]; intros [|y b]; simpl; try done.
  rewrite (N.compare_antisym x y). destruct (N.compare x y); simpl; [apply IH|done|done].
Qed.
