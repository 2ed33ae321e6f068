(** Programs over [Bytes] refine programs over immutable strings, without undefined behaviour. *)
From Coq Require Import ZifyBool ZifyNat ZifyN.
From stdpp Require Import base numbers list.
From Verif Require Import BytesModel BytesSpec BytesEnc BytesInv BytesOps BytesMeth.
Local Open Scope N_scope.
Ltac Zify.zify_post_hook ::= Z.div_mod_to_equations.

(** ** Lists of optional values *)
Definition live {A} (l : list (option A)) : list A := omap id l.

Lemma live_app {A} (l k : list (option A)) : live (l ++ k) = live l ++ live k.
Proof. apply omap_app. Qed.
Lemma live_snoc {A} (l : list (option A)) x : live (l ++ [Some x]) ≡ₚ x :: live l.
Proof. rewrite live_app. simpl. by rewrite Permutation_app_comm. Qed.

Lemma live_kill {A} (l : list (option A)) i x :
  l !! i = Some (Some x) → live l ≡ₚ x :: live (<[i := None]> l).
Proof.
  revert i. induction l as [|y l IH]; intros i Hi; [done|].
  destruct i as [|i]; simpl in *; [by simplify_eq|].
  destruct y as [y|]; simpl; rewrite (IH i Hi); [|done]. apply perm_swap.
Qed.

Lemma live_set {A} (l : list (option A)) i x y :
  l !! i = Some (Some x) → live (<[i := Some y]> l) ≡ₚ y :: live (<[i := None]> l).
Proof.
  intros Hi. rewrite (live_kill (<[i:=Some y]> l) i y).
  - by rewrite list_insert_insert.
  - apply list_lookup_insert. by eapply lookup_lt_Some.
Qed.

Lemma elem_live {A} (l : list (option A)) x : x ∈ live l ↔ Some x ∈ l.
Proof.
  unfold live. rewrite elem_of_list_omap. split.
  - intros (y & Hy & Heq). unfold id in Heq. by subst.
  - intros Hx. by exists (Some x).
Qed.

Section Refine.
Context (p : platform) (Hwf : wf_platform p).

Notation firsts G := (fmap (M:=list) (fmap (M:=option) fst) G).
(** The state carries a ghost content for every value. *)
Definition SInv (s : state) (G : list (option gh)) (A : list (option ga)) : Prop :=
  st_h s = firsts G ∧ st_arcs s = firsts A
  ∧ Inv p (st_mem s) (live G) (live A).

Definition vals {X} (G : list (option (X * list N))) : strings := fmap (M:=list) (fmap (M:=option) snd) G.

Lemma view_vals s G A : SInv s G A → view p s = vals G.
Proof.
  intros (Hh & Ha & HI). unfold view, vals. rewrite Hh, <- list_fmap_compose.
  apply list_fmap_ext. intros i x Hx. unfold compose.
  destruct x as [[h c]|]; [|done]. simpl.
  apply (as_slice_ok p Hwf _ _ _ h c HI). apply (I_h _ _ _ _ HI).
  apply elem_live. by eapply elem_of_list_lookup_2.
Qed.

Lemma arc_view_vals s G A : SInv s G A → arc_view s = vals A.
Proof.
  intros (Hh & Ha & HI). unfold arc_view, vals. rewrite Ha, <- list_fmap_compose.
  apply list_fmap_ext. intros i x Hx. unfold compose.
  destruct x as [[h c]|]; [|done]. simpl.
  apply (a_ok_read p _ _ _ h c HI). apply (I_a _ _ _ _ HI).
  apply elem_live. by eapply elem_of_list_lookup_2.
Qed.

Lemma get_h_ghost s G A h x :
  SInv s G A → get_h s h = Some x → ∃ c, G !! h = Some (Some (x, c)).
Proof.
  intros (Hh & _ & _). unfold get_h. rewrite Hh, list_lookup_fmap.
  destruct (G !! h) as [[[y c]|]|] eqn:E; simpl; intros; simplify_eq. by exists c.
Qed.
Lemma get_arc_ghost s G A i x :
  SInv s G A → get_arc s i = Some x → ∃ c, A !! i = Some (Some (x, c)).
Proof.
  intros (_ & Ha & _). unfold get_arc. rewrite Ha, list_lookup_fmap.
  destruct (A !! i) as [[[y c]|]|] eqn:E; simpl; intros; simplify_eq. by exists c.
Qed.

Lemma vals_lookup {X} (G : list (option (X * list N))) i x c :
  G !! i = Some (Some (x, c)) → vals G !! i = Some (Some c).
Proof. intros H. unfold vals. by rewrite list_lookup_fmap, H. Qed.
Lemma vals_snoc {X} (G : list (option (X * list N))) x c :
  vals (G ++ [Some (x, c)]) = vals G ++ [Some c].
Proof. unfold vals. by rewrite fmap_app. Qed.
Lemma vals_insert {X} (G : list (option (X * list N))) i x c :
  vals (<[i := Some (x, c)]> G) = <[i := Some c]> (vals G).
Proof. unfold vals. by rewrite list_fmap_insert. Qed.
Lemma vals_kill {X} (G : list (option (X * list N))) i :
  vals (<[i := None]> G) = <[i := None]> (vals G).
Proof. unfold vals. by rewrite list_fmap_insert. Qed.
Lemma vals_length {X} (G : list (option (X * list N))) : length (vals G) = length G.
Proof. unfold vals. by rewrite fmap_length. Qed.

(** State updates. *)
Lemma SInv_mem s G A m : SInv s G A → Inv p m (live G) (live A) →
  SInv (State m (st_h s) (st_arcs s)) G A.
Proof. intros (H1 & H2 & _) HI. done. Qed.
Lemma SInv_push s G A m x c : SInv s G A → Inv p m ((x, c) :: live G) (live A) →
  SInv (State m (st_h s ++ [Some x]) (st_arcs s)) (G ++ [Some (x, c)]) A.
Proof.
  intros (H1 & H2 & _) HI. split_and!; simpl; [|done|].
  - by rewrite H1, fmap_app.
  - eapply Inv_perm; [|done|exact HI]. by rewrite live_snoc.
Qed.
Lemma SInv_push_a s G A m x c : SInv s G A → Inv p m (live G) ((x, c) :: live A) →
  SInv (State m (st_h s) (st_arcs s ++ [Some x])) G (A ++ [Some (x, c)]).
Proof.
  intros (H1 & H2 & _) HI. split_and!; simpl; [done| |].
  - by rewrite H2, fmap_app.
  - eapply Inv_perm; [done| |exact HI]. by rewrite live_snoc.
Qed.
Lemma SInv_set s G A m h x0 x c : SInv s G A → G !! h = Some (Some x0) →
  Inv p m ((x, c) :: live (<[h := None]> G)) (live A) →
  SInv (State m (set_h s h (Some x)) (st_arcs s)) (<[h := Some (x, c)]> G) A.
Proof.
  intros (H1 & H2 & _) Hh HI. split_and!; simpl; [|done|].
  - unfold set_h. by rewrite H1, list_fmap_insert.
  - eapply Inv_perm; [|done|exact HI]. by rewrite live_set.
Qed.
Lemma SInv_kill s G A m h : SInv s G A → 
  Inv p m (live (<[h := None]> G)) (live A) →
  SInv (State m (set_h s h None) (st_arcs s)) (<[h := None]> G) A.
Proof.
  intros (H1 & H2 & _) HI. split_and!; simpl; [|done|done].
  unfold set_h. by rewrite H1, list_fmap_insert.
Qed.
Lemma SInv_front s G A h x c : SInv s G A → G !! h = Some (Some (x, c)) →
  Inv p (st_mem s) ((x, c) :: live (<[h := None]> G)) (live A).
Proof.
  intros (_ & _ & HI) Hh. eapply Inv_perm; [|done|exact HI]. by apply live_kill.
Qed.
Lemma SInv_front_a s G A h x c : SInv s G A → A !! h = Some (Some (x, c)) →
  Inv p (st_mem s) (live G) ((x, c) :: live (<[h := None]> A)).
Proof.
  intros (_ & _ & HI) Hh. eapply Inv_perm; [done| |exact HI]. by apply live_kill.
Qed.
Lemma SInv_hok s G A h x c : SInv s G A → G !! h = Some (Some (x, c)) → h_ok p (st_mem s) x c.
Proof. intros HS Hh. eapply h_of, SInv_front; eauto. Qed.

Lemma len_st s G A : SInv s G A → length (st_h s) = length G ∧ length (st_arcs s) = length A.
Proof. intros (-> & -> & _). by rewrite !fmap_length. Qed.

Lemma bytes_dec data : forallb is_byte data = true → bytelist data.
Proof.
  rewrite forallb_forall. intros H. apply Forall_forall. intros x Hx.
  apply elem_of_list_In in Hx. specialize (H x Hx). unfold is_byte in H. lia.
Qed.

Lemma content_lt m hs ars x c : Inv p m hs ars → h_ok p m x c → N.of_nat (length c) < wlim p.
Proof.
  intros HI Hok. pose proof (h_ok_len p Hwf m x c Hok) as Hlen.
  destruct Hok as [(_ & Hle & _)|(v & Hv & Hx)].
  - pose proof (max_inline_bounds p Hwf) as Hm. pose proof (wf_wsz p Hwf) as Hw.
    rewrite <- Hlen. unfold wlim. pose proof (N.pow_le_mono_r 256 1 (N.of_nat (wsz p))). lia.
  - destruct Hx as [(i & r & Hi & _ & Hc & ->)|(_ & _ & _ & ->)].
    + pose proof (I_reg _ _ _ _ HI i r Hi) as (_ & _ & Hr & _).
      rewrite sub_data_length by done. apply contains_spec in Hc as (_ & ? & ?). lia.
    + pose proof (wf_wsz p Hwf) as Hw. unfold wlim.
      pose proof (N.pow_le_mono_r 256 1 (N.of_nat (wsz p))). simpl length. lia.
Qed.

(** Bounds, when they do not wrap. *)
Lemma start_bound_spec lo s : bound_ok p lo false → start_bound p lo = Some s → s = lo_of lo.
Proof.
  unfold start_bound, bound_ok, succ_usize. destruct lo; simpl; intros Hb; try congruence.
  destruct (N.ltb_spec (i + 1) (wlim p)); [congruence|].
  destruct (ovf_checks p); [done|]. destruct Hb; [done|lia].
Qed.
Lemma start_bound_none lo : bound_ok p lo false → start_bound p lo = None → wlim p ≤ lo_of lo.
Proof.
  unfold start_bound, bound_ok, succ_usize. destruct lo; simpl; intros Hb; try congruence.
  destruct (N.ltb_spec (i + 1) (wlim p)); done.
Qed.
Lemma end_bound_spec m x c hi e : h_ok p m x c →
  bound_ok p hi true → end_bound p (h_b x) hi = Some e → e = hi_of c hi.
Proof.
  intros Hok. unfold end_bound, bound_ok, succ_usize. destruct hi; simpl; intros Hb; try congruence.
  - destruct (N.ltb_spec (i + 1) (wlim p)); [congruence|].
    destruct (ovf_checks p); [done|]. destruct Hb; [done|lia].
  - rewrite (h_ok_len p Hwf m x c Hok). congruence.
Qed.
Lemma end_bound_none b hi c : bound_ok p hi true → end_bound p b hi = None → wlim p ≤ hi_of c hi.
Proof.
  unfold end_bound, bound_ok, succ_usize. destruct hi; simpl; intros Hb; try congruence.
  destruct (N.ltb_spec (i + 1) (wlim p)); done.
Qed.

Lemma out_of_range m hs ars x c lo hi :
  Inv p m hs ars → h_ok p m x c → bound_ok p lo false → bound_ok p hi true →
  (is_inlined p (h_b x) = true ∨
     ∀ s e, start_bound p lo = Some s → end_bound p (h_b x) hi = Some e →
        ¬ (s ≤ e ∧ e ≤ N.of_nat (length c))) →
  in_range c lo hi → (length c ≤ max_inline p)%nat.
Proof.
  intros HI Hok Hlo Hhi [Hin|Hno] [R1 R2].
  - by eapply inl_len_le.
  - exfalso. pose proof (content_lt m hs ars x c HI Hok) as Hlt.
    destruct (start_bound p lo) as [s|] eqn:Hs.
    2: { apply start_bound_none in Hs; [lia|done]. }
    destruct (end_bound p (h_b x) hi) as [e|] eqn:He.
    2: { apply (end_bound_none _ _ c) in He; [lia|done]. }
    apply start_bound_spec in Hs; [|done]. eapply end_bound_spec in He; [|done|done].
    subst. by eapply Hno.
Qed.

(** One step. *)
Definition good (s : state) (o : op) (out : outcome) : Prop :=
  match out with
  | SDone s' r => ∃ G A, SInv s' G A ∧
      expects (bufs_of s) (view p s) (arc_view s) o r (vals G) (vals A)
  | SPanic s' => ∃ G A, SInv s' G A ∧
      may_panic (max_inline p) (view p s) (arc_view s) o (vals G) (vals A)
  | SUndef => False
  | SReject => True
  end.

Lemma step_good s G A o : SInv s G A → admissible p s o → good s o (step p s o).
Proof.
  intros HS Hadm.
  pose proof (view_vals s G A HS) as HV. pose proof (arc_view_vals s G A HS) as HAV.
  pose proof (len_st s G A HS) as [HLh HLa].
  pose proof HS as (Eh & Ea & HI).
  unfold good. rewrite HV, HAV.
  destruct o as [base data|base data|rid|base data|base data|i|i|rid off n|rid off n|data|data base|i
    |i off n|data base|h base|h|h|h lo hi|h lo hi|h i base|h base|h|h|h|h n|base data|i|data base|h]; simpl.
  - (* ONewStatic *)
    destruct (forallb is_byte data) eqn:Hb; [|done]. apply bytes_dec in Hb.
    unfold alloc. destruct (can_alloc _ _ _ _ _) eqn:Hc; [|done].
    exists G, A. split; [|done]. eapply SInv_mem; [done|]. apply alloc_plain; auto.
  - destruct (forallb is_byte data) eqn:Hb; [|done]. apply bytes_dec in Hb.
    unfold alloc. destruct (can_alloc _ _ _ _ _) eqn:Hc; [|done].
    exists G, A. split; [|done]. eapply SInv_mem; [done|]. apply alloc_plain; auto.
  - (* OEndBorrow *)
    destruct (st_mem s !! rid) as [r|] eqn:Hr; [|done].
    destruct (r_kind r) eqn:Hk; try done.
    destruct (r_live r && negb (existsb (borrows rid) (st_h s))) eqn:Hcond; [|done].
    apply andb_true_iff in Hcond as [Hl Hno]. apply negb_true_iff in Hno.
    exists G, A. split; [|done]. eapply SInv_mem; [done|].
    apply end_borrow_ok; try done.
    intros x c Hx Hlt. apply elem_live in Hx.
    assert (existsb (borrows rid) (st_h s) = true); [|congruence].
    apply existsb_exists. exists (Some x). split.
    + rewrite Eh. apply elem_of_list_In, elem_of_list_fmap. by exists (Some (x, c)).
    + simpl. by apply bool_decide_eq_true.
  - (* ONewArc *)
    destruct (forallb is_byte data) eqn:Hb; [|done]. apply bytes_dec in Hb.
    unfold alloc. destruct (can_alloc _ _ _ _ _) eqn:Hc; [|done].
    exists G, (A ++ [Some (Arc base (N.of_nat (length data)) ASlice, data)]). split.
    + eapply SInv_push_a; [done|]. by apply (alloc_arc_a p Hwf _ _ _ _ _ ASlice).
    + rewrite vals_snoc, vals_length, HLa. done.
  - destruct (forallb is_byte data) eqn:Hb; [|done]. apply bytes_dec in Hb.
    unfold alloc. destruct (can_alloc _ _ _ _ _) eqn:Hc; [|done].
    exists G, (A ++ [Some (Arc base (N.of_nat (length data)) AOf, data)]). split.
    + eapply SInv_push_a; [done|]. by apply (alloc_arc_a p Hwf _ _ _ _ _ AOf).
    + rewrite vals_snoc, vals_length, HLa. done.
  - (* OArcClone *)
    destruct (get_arc s i) as [a|] eqn:Ha; [|done].
    destruct (get_arc_ghost _ _ _ _ _ HS Ha) as [c Hg].
    destruct (arc_clone_ok p Hwf (st_mem s) (live G) (live A) a c HI) as (m' & Hm & HI').
    { eapply a_of, SInv_front_a; eauto. }
    rewrite Hm. exists G, (A ++ [Some (a, c)]). split; [by eapply SInv_push_a|].
    exists c. rewrite vals_snoc, vals_length, HLa. split_and!; try done. by eapply vals_lookup.
  - (* OArcDrop *)
    destruct (get_arc s i) as [a|] eqn:Ha; [|done].
    destruct (get_arc_ghost _ _ _ _ _ HS Ha) as [c Hg].
    destruct (arc_drop_ok p Hwf (st_mem s) (live G) (live (<[i := None]> A)) a c) as (m' & Hm & HI').
    { eapply SInv_front_a; eauto. }
    rewrite Hm. exists G, (<[i := None]> A). split.
    + split_and!; simpl; [done| |done]. by rewrite Ea, list_fmap_insert.
    + by rewrite vals_kill.
  - (* OFromStatic *)
    destruct (st_mem s !! rid) as [r|] eqn:Hr; [|done].
    destruct (r_kind r) eqn:Hk; try done. destruct (r_live r) eqn:Hl; [|done].
    unfold region_slice. destruct (N.leb_spec (off + n) (r_len r)) as [Hle|]; [|done].
    eexists _, A. split.
    + eapply SInv_push; [done|]. by eapply from_static_ok.
    + exists (r_data r). unfold bufs_of. rewrite Hr. rewrite vals_snoc, vals_length, HLh.
      split_and!; try done.
  - (* OFromSlice *)
    destruct (st_mem s !! rid) as [r|] eqn:Hr; [|done].
    destruct (r_kind r) eqn:Hk; try done. destruct (r_live r) eqn:Hl; [|done].
    destruct (region_slice r off n) as [data|] eqn:Hs; [|done].
    eexists _, A. split.
    + eapply SInv_push; [done|]. by eapply from_slice_ok.
    + exists (r_data r). unfold bufs_of. rewrite Hr. rewrite vals_snoc, vals_length, HLh.
      unfold region_slice in Hs.
      destruct (N.leb_spec (off + n) (r_len r)) as [Hle|]; [|done]. simplify_eq.
      split_and!; try done. unfold slice. repeat f_equal. lia.
  - (* OInlineSlice *)
    destruct (forallb is_byte data) eqn:Hb; [|done]. apply bytes_dec in Hb.
    unfold inline_slice. destruct (Nat.ltb_spec (max_inline p) (length data)).
    + exists G, A. split; [done|]. by right.
    + exists (G ++ [Some (Handle (inline_unchecked p data) LStatic, data)]), A. split.
      * eapply SInv_push; [done|]. apply Inv_add_inl; [done|done|]. by apply inline_ok.
      * left. by rewrite vals_snoc, vals_length, HLh.
  - (* OCopied *)
    destruct (forallb is_byte data) eqn:Hb; [|done]. apply bytes_dec in Hb.
    pose proof (copied_ok p Hwf (st_mem s) (live G) (live A) data base LStatic HI Hb) as H.
    destruct (copied_from_slice p (st_mem s) base data) as [b m| | |]; try done.
    destruct H as [H _]. eexists _, A. split; [by eapply SInv_push|].
    by rewrite vals_snoc, vals_length, HLh.
  - (* OFromArc *)
    destruct (get_arc s i) as [a|] eqn:Ha; [|done].
    destruct (get_arc_ghost _ _ _ _ _ HS Ha) as [c Hg].
    case_bool_decide as Ht; [|done].
    exists (G ++ [Some (Handle (from_arc p (a_base a) (a_len a)) LStatic, c)]), (<[i := None]> A). split.
    + split_and!; simpl.
      * by rewrite Eh, fmap_app.
      * by rewrite Ea, list_fmap_insert.
      * eapply Inv_perm; [by rewrite live_snoc|done|]. eapply from_arc_ok; [done| |done].
        by eapply SInv_front_a.
    + exists c. rewrite vals_snoc, vals_kill, vals_length, HLh. split_and!; try done.
      by eapply vals_lookup.
  - (* OFromArcT *)
    destruct (get_arc s i) as [a|] eqn:Ha; [|done].
    destruct (get_arc_ghost _ _ _ _ _ HS Ha) as [c Hg].
    destruct (bool_decide (a_t a = AOf) && (off + n <=? a_len a)) eqn:Hcond; [|done].
    apply andb_true_iff in Hcond as [Ht%bool_decide_eq_true Hle]. apply N.leb_le in Hle.
    exists (G ++ [Some (Handle (from_arct p (a_base a) (a_base a + off) n) LStatic,
                        slice c off (off + n))]), (<[i := None]> A). split.
    + split_and!; simpl.
      * by rewrite Eh, fmap_app.
      * by rewrite Ea, list_fmap_insert.
      * eapply Inv_perm; [by rewrite live_snoc|done|]. eapply from_arct_ok; [done| |done|done].
        by eapply SInv_front_a.
    + exists c. rewrite vals_snoc, vals_kill, vals_length, HLh. split_and!; try done.
      * by eapply vals_lookup.
      * pose proof (SInv_front_a _ _ _ _ _ _ HS Hg) as HF.
        apply a_of in HF as (j & r & _ & -> & Hlen & _). unfold r_len in Hlen.
        rewrite take_length. lia.
  - (* OFromBox *)
    destruct (forallb is_byte data) eqn:Hb; [|done]. apply bytes_dec in Hb.
    destruct data as [|d data].
    + exists (G ++ [Some (Handle (from_box p 1 0) LStatic, [])]), A. split.
      * eapply SInv_push; [done|]. apply Inv_add_h; [done| |].
        -- right. exists VBox. split; [done|right]. done.
        -- intros. by apply no_own_emptybox.
      * by rewrite vals_snoc, vals_length, HLh.
    + unfold alloc. destruct (can_alloc _ _ _ _ _) eqn:Hc; [|done].
      eexists _, A. split.
      * eapply SInv_push; [done|]. by apply alloc_box_h.
      * by rewrite vals_snoc, vals_length, HLh.
  - (* OClone *)
    unfold with_h. destruct (get_h s h) as [x|] eqn:Hx; [|done].
    destruct (get_h_ghost _ _ _ _ _ HS Hx) as [c Hg].
    pose proof (SInv_hok _ _ _ _ _ _ HS Hg) as Hok.
    pose proof (clone_ok p Hwf (st_mem s) (live G) (live A) x c base HI Hok) as H.
    destruct (clone p (st_mem s) (h_b x) base) as [b m| | |]; try done.
    destruct H as [H _]. eexists _, A. split; [by eapply SInv_push|].
    exists c. rewrite vals_snoc, vals_length, HLh. split_and!; try done. by eapply vals_lookup.
  - (* ONoallocClone *)
    unfold with_h. destruct (get_h s h) as [x|] eqn:Hx; [|done].
    destruct (get_h_ghost _ _ _ _ _ HS Hx) as [c Hg].
    pose proof (SInv_hok _ _ _ _ _ _ HS Hg) as Hok.
    destruct (noalloc_clone_ok p Hwf (st_mem s) (live G) (live A) x c HI Hok)
      as (o & m' & -> & [(-> & HI' & _)|(-> & -> & _)]).
    + exists (G ++ [Some (x, c)]), A. split.
      * unfold push_h. destruct x as [b lt]. by eapply SInv_push.
      * exists c. rewrite vals_snoc, vals_length, HLh. split_and!; try done; [by eapply vals_lookup|].
        by left.
    + exists G, A. split; [by eapply SInv_mem|].
      exists c. split_and!; try done; [by eapply vals_lookup|]. by right.
  - (* ODrop *)
    unfold with_h. destruct (get_h s h) as [x|] eqn:Hx; [|done].
    destruct (get_h_ghost _ _ _ _ _ HS Hx) as [c Hg].
    destruct (drop_ok p Hwf (st_mem s) (live (<[h := None]> G)) (live A) x c) as (m' & -> & HI').
    { by eapply SInv_front. }
    exists (<[h := None]> G), A. split; [by eapply SInv_kill|]. by rewrite vals_kill.
  - (* OShrink *)
    unfold with_h. destruct (get_h s h) as [x|] eqn:Hx; [|done].
    destruct (get_h_ghost _ _ _ _ _ HS Hx) as [c Hg].
    pose proof (SInv_hok _ _ _ _ _ _ HS Hg) as Hok.
    destruct Hadm as (B1 & B2 & B3).
    pose proof (shrink_ok p Hwf (st_mem s) (live (<[h := None]> G)) (live A) x c lo hi
                  (SInv_front _ _ _ _ _ _ HS Hg)) as H.
    specialize (H ltac:(intros Hin e He; specialize (B3 x Hx Hin);
       eapply end_bound_spec in He; [|done|done];
       rewrite (h_ok_len p Hwf _ _ _ Hok) in B3; destruct hi; simpl in *; lia)).
    destruct (shrink_to p (st_mem s) (h_b x) lo hi) as [b m'|m'| |]; try done.
    + destruct H as (s0 & e & Hs & He & R1 & R2 & HI').
      apply start_bound_spec in Hs; [|done]. eapply end_bound_spec in He; [|done|done]. subst.
      eexists _, A. split; [by eapply SInv_set|].
      exists c. rewrite vals_insert. split_and!; try done. by eapply vals_lookup.
    + destruct H as [-> Hp]. exists G, A. split; [by eapply SInv_mem|].
      exists c. split_and!; [by eapply vals_lookup| |done|done].
      by eapply (out_of_range (st_mem s)).
  - (* OSubsliced *)
    unfold with_h. destruct (get_h s h) as [x|] eqn:Hx; [|done].
    destruct (get_h_ghost _ _ _ _ _ HS Hx) as [c Hg].
    pose proof (SInv_hok _ _ _ _ _ _ HS Hg) as Hok.
    destruct Hadm as (B1 & B2 & B3).
    pose proof (subsliced_ok p Hwf (st_mem s) (live (<[h := None]> G)) (live A) x c lo hi
                  (SInv_front _ _ _ _ _ _ HS Hg)) as H.
    specialize (H ltac:(intros Hin e He; specialize (B3 x Hx Hin);
       eapply end_bound_spec in He; [|done|done];
       rewrite (h_ok_len p Hwf _ _ _ Hok) in B3; destruct hi; simpl in *; lia)).
    destruct (subsliced p (st_mem s) (h_b x) lo hi) as [b m'|m'| |]; try done.
    + destruct H as (s0 & e & Hs & He & R1 & R2 & HI').
      apply start_bound_spec in Hs; [|done]. eapply end_bound_spec in He; [|done|done]. subst.
      eexists _, A. split; [by eapply SInv_set|].
      exists c. rewrite vals_insert. split_and!; try done. by eapply vals_lookup.
    + destruct H as [HI' Hp]. exists (<[h := None]> G), A. split; [by eapply SInv_kill|].
      exists c. rewrite vals_kill. split_and!; [by eapply vals_lookup| |done|done].
      by eapply (out_of_range (st_mem s)).
  - (* OSplit *)
    unfold with_h. destruct (get_h s h) as [x|] eqn:Hx; [|done].
    destruct (get_h_ghost _ _ _ _ _ HS Hx) as [c Hg].
    pose proof (SInv_hok _ _ _ _ _ _ HS Hg) as Hok.
    pose proof (split_ok p Hwf (st_mem s) (live (<[h := None]> G)) (live A) x c i base
                  (SInv_front _ _ _ _ _ _ HS Hg)) as H.
    destruct (split_at p (st_mem s) (h_b x) i base) as [[[l r]|b] m'|m'| |]; try done.
    + destruct H as [Hi HI'].
      exists (<[h := Some (Handle l (h_lt x), take (N.to_nat i) c)]> G
              ++ [Some (Handle r (h_lt x), drop (N.to_nat i) c)]), A.
      split.
      * split_and!; simpl; [|done|].
        -- unfold set_h. by rewrite Eh, fmap_app, list_fmap_insert.
        -- eapply Inv_perm; [|done|exact HI'].
           rewrite live_snoc. rewrite (live_set G h (x, c)) by done. apply perm_swap.
      * exists c. rewrite vals_snoc, vals_insert, vals_length, HLh.
        split_and!; [by eapply vals_lookup|done|]. by left.
    + destruct H as (Hi & -> & ->). exists G, A. split.
      * unfold replace_h. split_and!; simpl; [|done|done].
        unfold set_h. rewrite Eh. symmetry. rewrite list_insert_id; [done|].
        rewrite list_lookup_fmap, Hg. simpl. by destruct x.
      * exists c. split_and!; [by eapply vals_lookup|done|]. by right.
    + destruct H as (Hin & Hi & HI'). exists (<[h := None]> G), A. split; [by eapply SInv_kill|].
      exists c. rewrite vals_kill. split_and!; [by eapply vals_lookup| |done|done].
      by eapply inl_len_le.
  - (* OUpgrade *)
    unfold with_h. destruct (get_h s h) as [x|] eqn:Hx; [|done].
    destruct (get_h_ghost _ _ _ _ _ HS Hx) as [c Hg].
    pose proof (upgrade_ok p Hwf (st_mem s) (live (<[h := None]> G)) (live A) x c base
                  (SInv_front _ _ _ _ _ _ HS Hg)) as H.
    destruct (upgrade p (st_mem s) (h_b x) base) as [b m'|m'| |]; try done.
    destruct H as [H _]. eexists _, A. split; [by eapply SInv_set|].
    rewrite vals_insert, list_insert_id by (by eapply vals_lookup). done.
  - (* ONoallocUpgrade *)
    unfold with_h. destruct (get_h s h) as [x|] eqn:Hx; [|done].
    destruct (get_h_ghost _ _ _ _ _ HS Hx) as [c Hg].
    pose proof (noalloc_upgrade_ok p Hwf (st_mem s) (live (<[h := None]> G)) (live A) x c
                  (SInv_front _ _ _ _ _ _ HS Hg) (Hadm x Hx)) as H.
    destruct (noalloc_upgrade p (st_mem s) (h_b x)) as [[b|b] m'|m'| |]; try done.
    + destruct H as [H _]. eexists _, A. split; [by eapply SInv_set|].
      rewrite vals_insert, list_insert_id by (by eapply vals_lookup). auto.
    + destruct H as (-> & -> & _). exists G, A. split; [|auto].
      unfold replace_h. split_and!; simpl; [|done|done].
      unfold set_h. rewrite Eh. symmetry. rewrite list_insert_id; [done|].
      rewrite list_lookup_fmap, Hg. simpl. by destruct x.
  - (* OIntoArc *)
    unfold with_h. destruct (get_h s h) as [x|] eqn:Hx; [|done].
    destruct (get_h_ghost _ _ _ _ _ HS Hx) as [c Hg].
    pose proof (into_arc_ok p Hwf (st_mem s) (live (<[h := None]> G)) (live A) x c
                  (SInv_front _ _ _ _ _ _ HS Hg)) as H.
    destruct (try_into_arc p (h_b x)) as [[[base n]|b]|]; try done.
    + destruct H as (H & _ & _).
      exists (<[h := None]> G), (A ++ [Some (Arc base n ASlice, c)]). split.
      * split_and!; simpl.
        -- unfold set_h. by rewrite Eh, list_fmap_insert.
        -- by rewrite Ea, fmap_app.
        -- eapply Inv_perm; [done| |exact H]. by rewrite live_snoc.
      * exists c. rewrite vals_snoc, vals_kill, vals_length, HLa.
        split; [by eapply vals_lookup|]. by left.
    + destruct H as [-> _]. exists G, A. split.
      * unfold replace_h. split_and!; simpl; [|done|done].
        unfold set_h. rewrite Eh. symmetry. rewrite list_insert_id; [done|].
        rewrite list_lookup_fmap, Hg. simpl. by destruct x.
      * exists c. split; [by eapply vals_lookup|]. by right.
  - (* OAsSlice *)
    unfold with_h. destruct (get_h s h) as [x|] eqn:Hx; [|done].
    destruct (get_h_ghost _ _ _ _ _ HS Hx) as [c Hg].
    pose proof (SInv_hok _ _ _ _ _ _ HS Hg) as Hok.
    rewrite (as_slice_ok p Hwf _ _ _ x c HI Hok).
    exists G, A. split; [done|]. exists c. split_and!; try done. by eapply vals_lookup.
  - (* ORead *)
    unfold with_h. destruct (get_h s h) as [x|] eqn:Hx; [|done].
    destruct (get_h_ghost _ _ _ _ _ HS Hx) as [c Hg].
    pose proof (SInv_hok _ _ _ _ _ _ HS Hg) as Hok.
    pose proof (read_ok p Hwf (st_mem s) (live (<[h := None]> G)) (live A) x c n
                  (SInv_front _ _ _ _ _ _ HS Hg)) as H. simpl in H.
    rewrite N.min_comm in H.
    destruct (read p (st_mem s) (h_b x) n) as [[l b] m'|m'| |]; try done.
    + destruct H as [-> HI']. eexists _, A. split; [by eapply SInv_set|].
      exists c. rewrite vals_insert. split_and!; try done. by eapply vals_lookup.
    + destruct H as [-> Hin]. exists G, A. split; [by eapply SInv_mem|].
      exists c. split_and!; [by eapply vals_lookup| |done|done]. by eapply inl_len_le.
  - (* ONewStab *)
    destruct (stabby p); [|done]. cbn [andb].
    destruct (forallb is_byte data) eqn:Hb; [|done]. apply bytes_dec in Hb.
    unfold alloc. destruct (can_alloc _ _ _ _ _) eqn:Hc; [|done].
    exists G, (A ++ [Some (Arc base (N.of_nat (length data)) AStab, data)]). split.
    + eapply SInv_push_a; [done|]. by apply (alloc_arc_a p Hwf _ _ _ _ _ AStab).
    + rewrite vals_snoc, vals_length, HLa. done.
  - (* OFromStab *)
    destruct (get_arc s i) as [a|] eqn:Ha; [|done].
    destruct (get_arc_ghost _ _ _ _ _ HS Ha) as [c Hg].
    case_bool_decide as Ht; [|done].
    exists (G ++ [Some (Handle (from_stab p (a_base a) (a_len a)) LStatic, c)]), (<[i := None]> A). split.
    + split_and!; simpl.
      * by rewrite Eh, fmap_app.
      * by rewrite Ea, list_fmap_insert.
      * eapply Inv_perm; [by rewrite live_snoc|done|]. eapply from_stab_ok; [done| |done].
        by eapply SInv_front_a.
    + exists c. rewrite vals_snoc, vals_kill, vals_length, HLh. split_and!; try done.
      by eapply vals_lookup.
  - (* OFromStabVec *)
    destruct (stabby p); [|done]. cbn [andb].
    destruct (forallb is_byte data) eqn:Hb; [|done]. apply bytes_dec in Hb.
    unfold alloc. destruct (can_alloc _ _ _ _ _) eqn:Hc; [|done].
    eexists _, A. split.
    + eapply SInv_push; [done|]. by apply alloc_stab_h.
    + by rewrite vals_snoc, vals_length, HLh.
  - (* OIntoStab *)
    unfold with_h. destruct (get_h s h) as [x|] eqn:Hx; [|done].
    destruct (get_h_ghost _ _ _ _ _ HS Hx) as [c Hg].
    pose proof (into_stab_ok p Hwf (st_mem s) (live (<[h := None]> G)) (live A) x c
                  (SInv_front _ _ _ _ _ _ HS Hg)) as H.
    destruct (stabby p); [|done].
    destruct (try_into_stab p (st_mem s) (h_b x)) as [[[base n]|b]|]; try done.
    + destruct H as (H & _ & _ & _).
      exists (<[h := None]> G), (A ++ [Some (Arc base n AStab, c)]). split.
      * split_and!; simpl.
        -- unfold set_h. by rewrite Eh, list_fmap_insert.
        -- by rewrite Ea, fmap_app.
        -- eapply Inv_perm; [done| |exact H]. by rewrite live_snoc.
      * exists c. rewrite vals_snoc, vals_kill, vals_length, HLa.
        split; [by eapply vals_lookup|]. by left.
    + destruct H as [-> _]. exists G, A. split.
      * unfold replace_h. split_and!; simpl; [|done|done].
        unfold set_h. rewrite Eh. symmetry. rewrite list_insert_id; [done|].
        rewrite list_lookup_fmap, Hg. simpl. by destruct x.
      * exists c. split; [by eapply vals_lookup|]. by right.
Qed.

Lemma init_inv : SInv init [] [].
Proof.
  split_and!; [done|done|]. simpl. split; simpl.
  - intros i r Hi. done.
  - intros i j r r' _ Hi. done.
  - intros x c Hx. by apply elem_of_nil in Hx.
  - intros x c Hx. by apply elem_of_nil in Hx.
  - intros i r Hi. done.
Qed.

Lemma reach_inv s : reach p s → ∃ G A, SInv s G A.
Proof.
  induction 1 as [|s o s' r Hs (G & A & IH) Hadm Hst|s o s' Hs (G & A & IH) Hadm Hst].
  - exists [], []. apply init_inv.
  - pose proof (step_good s G A o IH Hadm) as H. rewrite Hst in H.
    destruct H as (G' & A' & H & _). eauto.
  - pose proof (step_good s G A o IH Hadm) as H. rewrite Hst in H.
    destruct H as (G' & A' & H & _). eauto.
Qed.

(** Refinement, through the views only. *)
Lemma step_refines s o : reach p s → admissible p s o →
  match step p s o with
  | SDone s' r => expects (bufs_of s) (view p s) (arc_view s) o r (view p s') (arc_view s')
  | SPanic s' => may_panic (max_inline p) (view p s) (arc_view s) o (view p s') (arc_view s')
  | SUndef => False
  | SReject => True
  end.
Proof.
  intros Hr Hadm. destruct (reach_inv s Hr) as (G & A & HS).
  pose proof (step_good s G A o HS Hadm) as H. unfold good in H.
  destruct (step p s o) as [s' r|s'| |]; try done.
  - destruct H as (G' & A' & HS' & H).
    by rewrite (view_vals s' G' A' HS'), (arc_view_vals s' G' A' HS').
  - destruct H as (G' & A' & HS' & H).
    by rewrite (view_vals s' G' A' HS'), (arc_view_vals s' G' A' HS').
Qed.

(** Reference counts are exactly the number of owners alive in the program. *)
Definition val_owns (v : vt) (base : N) (x : option handle) : bool :=
  match x with
  | Some h => (b_vt (h_b h) =? vt_addr p v) && (b_owner (h_b h) =? base)
              && negb (bool_decide (v = VBox) && (b_cap (h_b h) =? 0))
  | None => false
  end.
Definition arcv_owns (t : aty) (base : N) (x : option arc) : bool :=
  match x with Some a => bool_decide (a_t a = t) && (a_base a =? base) | None => false end.
Definition owners (s : state) (v : vt) (base : N) : nat :=
  cnt (val_owns v base) (st_h s) +
  match v with
  | VArc => cnt (arcv_owns ASlice base) (st_arcs s)
  | VArcT => cnt (arcv_owns AOf base) (st_arcs s)
  | VStab => cnt (arcv_owns AStab base) (st_arcs s)
  | _ => 0
  end.

Lemma cnt_live {X} (f : X * list N → bool) (g : option X → bool) (G : list (option (X * list N))) :
  (∀ x : option (X * list N), g (fst <$> x) = match x with Some y => f y | None => false end) →
  cnt f (live G) = cnt g (firsts G).
Proof.
  intros Hg. induction G as [|x G IH]; [done|]. cbn [fmap list_fmap cnt]. rewrite Hg, <- IH.
  unfold live. destruct x as [y|]; simpl; [by destruct (f y)|done].
Qed.

Lemma counts_exact s i r : reach p s → st_mem s !! i = Some r → r_live r = true →
  match r_kind r with
  | KStatic | KBorrow => True
  | KArc n => n = owners s VArc (r_base r) ∧ (0 < n)%nat
  | KArcT n => n = owners s VArcT (r_base r) ∧ (0 < n)%nat
  | KBox => owners s VBox (r_base r) = 1%nat
  | KStab n => n = owners s VStab (r_base r) ∧ (0 < n)%nat
  end.
Proof.
  intros Hr Hi Hl. destruct (reach_inv s Hr) as (G & A & HS). pose proof HS as (Eh & Ea & HI).
  pose proof (I_cnt _ _ _ _ HI i r Hi Hl) as Hc. unfold cnt_ok in Hc.
  assert (H1 : ∀ v, cnt (owns p v (r_base r)) (live G) = cnt (val_owns v (r_base r)) (st_h s)).
  { intros v. rewrite Eh. apply cnt_live. by intros [[h c]|]. }
  assert (H2 : ∀ t, cnt (arc_owns t (r_base r)) (live A) = cnt (arcv_owns t (r_base r)) (st_arcs s)).
  { intros t. rewrite Ea. apply cnt_live. by intros [[h c]|]. }
  unfold owners. destruct (r_kind r); rewrite ?H1, ?H2 in Hc; try done.
  by rewrite Nat.add_0_r.
Qed.
End Refine.
