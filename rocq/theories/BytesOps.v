(** Each [Bytes] method preserves the ownership invariant and never runs into undefined behaviour. *)
From Coq Require Import ZifyBool ZifyNat ZifyN.
From stdpp Require Import base numbers list.
From Verif Require Import BytesModel BytesEnc BytesInv.
Local Open Scope N_scope.
Ltac Zify.zify_post_hook ::= Z.div_mod_to_equations.

Section Ops.
Context (p : platform) (Hwf : wf_platform p).

Definition no_own (x : gh) (r : region) : Prop :=
  match r_kind r with
  | KArc _ => owns p VArc (r_base r) x = false
  | KArcT _ => owns p VArcT (r_base r) x = false
  | KBox => owns p VBox (r_base r) x = false
  | KStab _ => owns p VStab (r_base r) x = false
  | _ => True
  end.
Definition no_aown (a : ga) (r : region) : Prop :=
  match r_kind r with
  | KArc _ => arc_owns ASlice (r_base r) a = false
  | KArcT _ => arc_owns AOf (r_base r) a = false
  | KStab _ => arc_owns AStab (r_base r) a = false
  | _ => True
  end.

Lemma cnt_ok_no_own x r hs ars : no_own x r → cnt_ok p r (x :: hs) ars ↔ cnt_ok p r hs ars.
Proof. unfold no_own, cnt_ok. destruct (r_kind r); simpl; intros H; rewrite ?H; done. Qed.
Lemma cnt_ok_no_aown a r hs ars : no_aown a r → cnt_ok p r hs (a :: ars) ↔ cnt_ok p r hs ars.
Proof. unfold no_aown, cnt_ok. destruct (r_kind r); simpl; intros H; rewrite ?H; done. Qed.

Lemma owns_spec v base x :
  owns p v base x = true ↔
  b_vt (h_b (fst x)) = vt_addr p v ∧ b_owner (h_b (fst x)) = base
  ∧ (v = VBox → b_cap (h_b (fst x)) ≠ 0).
Proof.
  unfold owns. rewrite !andb_true_iff, !N.eqb_eq, negb_true_iff, andb_false_iff, N.eqb_neq.
  rewrite bool_decide_eq_false. destruct (decide (v = VBox)); naive_solver.
Qed.

Lemma arc_owns_spec t base a :
  arc_owns t base a = true ↔ a_t (fst a) = t ∧ a_base (fst a) = base.
Proof. unfold arc_owns. rewrite andb_true_iff, N.eqb_eq, bool_decide_eq_true. done. Qed.

Lemma no_own_inl x c r : is_inlined p (h_b x) = true → no_own (x, c) r.
Proof.
  intros Hin. unfold no_own.
  assert (H : ∀ v, owns p v (r_base r) (x, c) = false).
  { intros v. apply not_true_is_false. intros (Hv & _)%owns_spec. simpl in Hv.
    rewrite (not_inlined p (h_b x) v) in Hin by done. done. }
  destruct (r_kind r); auto.
Qed.

(** A value that does not rely on region [j] does not own a unit of it. *)
Lemma own_uses m hs ars x c j rj :
  Inv p m hs ars → h_ok p m x c → m !! j = Some rj → r_live rj = true →
  no_own (x, c) rj ∨ uses p m x j.
Proof.
  intros HI [(Hin & _)|(v & Hv & Hx)] Hj Hl; [left; by apply no_own_inl|].
  destruct Hx as [(i & r & Hi & Hb & Hc & ->)|(-> & Hcap & _)].
  - destruct (decide (i = j)) as [<-|Hne]; [right; exists v, r; done|left].
    unfold no_own.
    assert (H : ∀ w, owns p w (r_base rj) (x, sub_data (b_start (h_b x)) (b_len (h_b x)) r) = true →
       w = v ∧ b_owner (h_b x) = r_base rj).
    { intros w (H1 & H2 & _)%owns_spec. simpl in *. split; [|done].
      eapply (wf_inj p Hwf). congruence. }
    destruct (r_kind rj) eqn:Hk; try done; apply not_true_is_false; intros [<- Ho]%H.
    + apply arc_at_spec in Hb as (Hl' & Hb' & _ & n & Hk').
      apply Hne. eapply (shared_inj p Hwf m hs ars); eauto; rewrite ?Hk, ?Hk'; done || congruence.
    + apply arct_at_spec in Hb as (Hl' & Hb' & n & Hk').
      apply Hne. eapply (shared_inj p Hwf m hs ars); eauto; rewrite ?Hk, ?Hk'; done || congruence.
    + destruct Hb as [Hb _]. apply box_at_spec in Hb as (Hl' & Hb' & _ & Hk').
      apply Hne. eapply (box_inj p m hs ars); eauto. congruence.
    + apply stab_at_spec in Hb as (Hl' & Hb' & _ & _ & n & Hk').
      apply Hne. eapply (shared_inj p Hwf m hs ars); eauto; rewrite ?Hk, ?Hk'; done || congruence.
  - left. unfold no_own.
    assert (H : ∀ w, owns p w (r_base rj) (x, c) = false).
    { intros w. apply not_true_is_false. intros (H1 & _ & H3)%owns_spec. simpl in *.
      assert (w = VBox) as -> by (eapply (wf_inj p Hwf); congruence). by apply H3. }
    destruct (r_kind rj); auto.
Qed.

Lemma aown_uses m hs ars a c j rj :
  Inv p m hs ars → a_ok m a c → m !! j = Some rj → r_live rj = true →
  no_aown (a, c) rj ∨ a_uses m a j.
Proof.
  intros HI (i & r & Hi & -> & Hlen & Ha) Hj Hl.
  destruct (decide (i = j)) as [<-|Hne]; [right; by exists r|left].
  unfold no_aown.
  destruct (r_kind rj) eqn:Hk; try done; apply not_true_is_false; intros [Ht Hb]%arc_owns_spec;
    simpl in *; unfold a_at in Ha; rewrite Ht in Ha.
  - apply arc_at_spec in Ha as (Hl' & Hb' & _ & n & Hk').
    apply Hne. eapply (shared_inj p Hwf m hs ars); eauto; rewrite ?Hk, ?Hk'; done || congruence.
  - apply arct_at_spec in Ha as (Hl' & Hb' & n & Hk').
    apply Hne. eapply (shared_inj p Hwf m hs ars); eauto; rewrite ?Hk, ?Hk'; done || congruence.
  - apply stab_at_spec in Ha as (Hl' & Hb' & _ & _ & n & Hk').
    apply Hne. eapply (shared_inj p Hwf m hs ars); eauto; rewrite ?Hk, ?Hk'; done || congruence.
Qed.

(** Conversely a value relying on an owned region owns a unit of it. *)
Lemma uses_owns m x c i r :
  m !! i = Some r → uses p m x i →
  match r_kind r with
  | KArc _ => owns p VArc (r_base r) (x, c) = true
  | KArcT _ => owns p VArcT (r_base r) (x, c) = true
  | KBox => owns p VBox (r_base r) (x, c) = true
  | KStab _ => owns p VStab (r_base r) (x, c) = true
  | _ => True
  end.
Proof.
  intros Hi (v & r' & Hv & Hi' & Hb). simplify_eq.
  destruct v; simpl in Hb.
  - rewrite Hb. done.
  - destruct Hb as [-> _]. done.
  - apply arc_at_spec in Hb as (_ & Hb & _ & n & ->). apply owns_spec. done.
  - apply arct_at_spec in Hb as (_ & Hb & n & ->). apply owns_spec. done.
  - destruct Hb as [(_ & Hb & _ & ->)%box_at_spec Hc]. apply owns_spec. done.
  - apply stab_at_spec in Hb as (_ & Hb & _ & _ & n & ->). apply owns_spec. done.
Qed.

Lemma a_uses_owns (m : mem) a c i r :
  m !! i = Some r → a_uses m a i →
  match r_kind r with
  | KArc _ => arc_owns ASlice (r_base r) (a, c) = true
  | KArcT _ => arc_owns AOf (r_base r) (a, c) = true
  | KStab _ => arc_owns AStab (r_base r) (a, c) = true
  | _ => False
  end.
Proof.
  intros Hi (r' & Hi' & Ha). simplify_eq. unfold a_at in Ha.
  destruct (a_t a) eqn:Ht.
  - apply arc_at_spec in Ha as (_ & Hb & _ & n & ->). by apply arc_owns_spec.
  - apply arct_at_spec in Ha as (_ & Hb & n & ->). by apply arc_owns_spec.
  - apply stab_at_spec in Ha as (_ & Hb & _ & _ & n & ->). by apply arc_owns_spec.
Qed.

(** The shape of all updates: region [i] replaced, owners changed. *)
Lemma Inv_update (m : mem) hs ars hs' ars' i r r' :
  Inv p m hs ars → m !! i = Some r → same_shape r r' → hdr p (r_kind r') = hdr p (r_kind r) →
  (r_live r' = true → r_live r = true) →
  (∀ x c, (x, c) ∈ hs' → h_ok p m x c ∧ (r_live r' = r_live r ∨ ¬ uses p m x i)) →
  (∀ a c, (a, c) ∈ ars' → a_ok m a c ∧ (r_live r' = r_live r ∨ ¬ a_uses m a i)) →
  (r_live r' = true → cnt_ok p r' hs' ars') →
  (∀ j rj, j ≠ i → m !! j = Some rj → r_live rj = true → cnt_ok p rj hs' ars') →
  Inv p (<[i := r']> m) hs' ars'.
Proof.
  intros HI Hi Hsh Hh Hl Hhs Has Hci Hcj.
  destruct (regs_insert p m i r r' (I_reg _ _ _ _ HI) (I_sep _ _ _ _ HI)) as [R1 R2]; try done.
  split; [done|done|..].
  - intros x c Hx. destruct (Hhs x c Hx) as [Hok Hor].
    destruct (decide (r_live r' = r_live r)) as [Heq|Hneq].
    + eapply (h_ok_mono p None); [|by intros ? [=]|done]. eapply mono_insert; eauto.
    + eapply (h_ok_mono p (Some i)); [|intros j [= <-]; naive_solver|done].
      eapply mono_insert; eauto. done.
  - intros a c Ha. destruct (Has a c Ha) as [Hok Hor].
    destruct (decide (r_live r' = r_live r)) as [Heq|Hneq].
    + eapply (a_ok_mono None); [|by intros ? [=]|done]. eapply mono_insert; eauto.
    + eapply (a_ok_mono (Some i)); [|intros j [= <-]; naive_solver|done].
      eapply mono_insert; eauto. done.
  - intros j rj Hj Hlj. destruct (decide (j = i)) as [->|Hne].
    + rewrite list_lookup_insert in Hj by (by eapply lookup_lt_Some). simplify_eq. auto.
    + rewrite list_lookup_insert_ne in Hj by done. by eapply Hcj.
Qed.

(** Adding a value that owns nothing. *)
Lemma Inv_add_h m hs ars x c :
  Inv p m hs ars → h_ok p m x c → (∀ j rj, m !! j = Some rj → r_live rj = true → no_own (x, c) rj) →
  Inv p m ((x, c) :: hs) ars.
Proof.
  intros [H1 H2 H3 H4 H5] Hok Hno. split; try done.
  - intros y d [[= -> ->]|Hy]%elem_of_cons; auto.
  - intros j rj Hj Hl. apply cnt_ok_no_own; eauto.
Qed.
Lemma Inv_del_h m hs ars x c :
  Inv p m ((x, c) :: hs) ars → (∀ j rj, m !! j = Some rj → r_live rj = true → no_own (x, c) rj) →
  Inv p m hs ars.
Proof.
  intros [H1 H2 H3 H4 H5] Hno. split; try done.
  - intros y d Hy. apply H3. by right.
  - intros j rj Hj Hl. rewrite <- (cnt_ok_no_own (x, c)); eauto.
Qed.

Lemma Inv_add_inl m hs ars x c :
  Inv p m hs ars → inl_ok p x c → Inv p m ((x, c) :: hs) ars.
Proof.
  intros HI Hin. apply Inv_add_h; [done|by left|]. intros. apply no_own_inl, Hin.
Qed.

(** Values stored in static or borrowed memory own nothing. *)
Lemma no_own_vt x c v r :
  b_vt (h_b x) = vt_addr p v → v = VStatic ∨ v = VBorrow → no_own (x, c) r.
Proof.
  intros Hv Hor. unfold no_own.
  assert (H : ∀ w, w ≠ VStatic → w ≠ VBorrow → owns p w (r_base r) (x, c) = false).
  { intros w H1 H2. apply not_true_is_false. intros (Hw & _)%owns_spec. simpl in Hw.
    assert (v = w) by (eapply (wf_inj p Hwf); congruence). naive_solver. }
  destruct (r_kind r); try done; by apply H.
Qed.

Lemma no_own_emptybox x c r :
  b_vt (h_b x) = vt_addr p VBox → b_cap (h_b x) = 0 → no_own (x, c) r.
Proof.
  intros Hv Hc. unfold no_own.
  assert (H : ∀ w, owns p w (r_base r) (x, c) = false).
  { intros w. apply not_true_is_false. intros (Hw & _ & Hb)%owns_spec. simpl in *.
    assert (w = VBox) as -> by (eapply (wf_inj p Hwf); congruence). by apply Hb. }
  destruct (r_kind r); auto.
Qed.

Lemma list_find_region (m : mem) (f : region → bool) i r :
  m !! i = Some r → f r = true →
  (∀ j s, m !! j = Some s → f s = true → j = i) →
  list_find (λ r, f r = true) m = Some (i, r).
Proof.
  intros Hi Hf Hu. apply list_find_Some. split_and!; [done|done|].
  intros j s Hj Hlt Hs. assert (j = i) by eauto. lia.
Qed.

(** Finding the region of an owner. *)
Lemma find_arc (m : mem) hs ars i r o c :
  Inv p m hs ars → m !! i = Some r → arc_at o c r = true →
  list_find (λ r, arc_at o c r = true) m = Some (i, r).
Proof.
  intros HI Hi Ha. apply list_find_region; [done|done|]. intros j s Hj Hs.
  apply arc_at_spec in Ha as (L & B & _ & n & K). apply arc_at_spec in Hs as (L' & B' & _ & n' & K').
  eapply (shared_inj p Hwf m hs ars); eauto; rewrite ?K, ?K'; done || congruence.
Qed.
Lemma find_arct (m : mem) hs ars i r o :
  Inv p m hs ars → m !! i = Some r → arct_at o r = true →
  list_find (λ r, arct_at o r = true) m = Some (i, r).
Proof.
  intros HI Hi Ha. apply list_find_region; [done|done|]. intros j s Hj Hs.
  apply arct_at_spec in Ha as (L & B & n & K). apply arct_at_spec in Hs as (L' & B' & n' & K').
  eapply (shared_inj p Hwf m hs ars); eauto; rewrite ?K, ?K'; done || congruence.
Qed.
Lemma find_stab (m : mem) hs ars i r o c :
  Inv p m hs ars → m !! i = Some r → stab_at o c r = true →
  list_find (λ r, stab_at o c r = true) m = Some (i, r).
Proof.
  intros HI Hi Ha. apply list_find_region; [done|done|]. intros j s Hj Hs.
  apply stab_at_spec in Ha as (L & B & _ & _ & n & K).
  apply stab_at_spec in Hs as (L' & B' & _ & _ & n' & K').
  eapply (shared_inj p Hwf m hs ars); eauto; rewrite ?K, ?K'; done || congruence.
Qed.
Lemma find_box (m : mem) hs ars i r o c :
  Inv p m hs ars → m !! i = Some r → box_at o c r = true →
  list_find (λ r, box_at o c r = true) m = Some (i, r).
Proof.
  intros HI Hi Ha. apply list_find_region; [done|done|]. intros j s Hj Hs.
  apply box_at_spec in Ha as (L & B & _ & K). apply box_at_spec in Hs as (L' & B' & _ & K').
  eapply (box_inj p m hs ars); eauto. congruence.
Qed.

Lemma kind_arc_find r n : r_kind r = KArc n →
  inc_strong r = Region (r_base r) (r_data r) (KArc (S n)) (r_live r)
  ∧ dec_strong r = Region (r_base r) (r_data r) (KArc (pred n)) (1 <? n)%nat.
Proof. intros H. unfold inc_strong, dec_strong. by rewrite H. Qed.
Lemma kind_arct_find r n : r_kind r = KArcT n →
  inc_strong r = Region (r_base r) (r_data r) (KArcT (S n)) (r_live r)
  ∧ dec_strong r = Region (r_base r) (r_data r) (KArcT (pred n)) (1 <? n)%nat.
Proof. intros H. unfold inc_strong, dec_strong. by rewrite H. Qed.

Lemma kind_stab_find r n : r_kind r = KStab n →
  inc_strong r = Region (r_base r) (r_data r) (KStab (S n)) (r_live r)
  ∧ dec_strong r = Region (r_base r) (r_data r) (KStab (pred n)) (1 <? n)%nat.
Proof. intros H. unfold inc_strong, dec_strong. by rewrite H. Qed.

(** Incrementing the count of region [i], for a new owner that is a value or an [Arc]. *)
Lemma inc_inv m hs ars i r hs' ars' :
  Inv p m hs ars → m !! i = Some r → r_live r = true → shared (r_kind r) = true →
  ((∃ x c, hs' = (x, c) :: hs ∧ ars' = ars ∧ h_ok p m x c
          ∧ (∀ j rj, j ≠ i → m !! j = Some rj → r_live rj = true → no_own (x, c) rj)
          ∧ match r_kind r with KArc _ => owns p VArc (r_base r) (x, c) = true
                              | KStab _ => owns p VStab (r_base r) (x, c) = true
                              | _ => owns p VArcT (r_base r) (x, c) = true end)
   ∨ (∃ a c, hs' = hs ∧ ars' = (a, c) :: ars ∧ a_ok m a c
          ∧ (∀ j rj, j ≠ i → m !! j = Some rj → r_live rj = true → no_aown (a, c) rj)
          ∧ match r_kind r with KArc _ => arc_owns ASlice (r_base r) (a, c) = true
                              | KStab _ => arc_owns AStab (r_base r) (a, c) = true
                              | _ => arc_owns AOf (r_base r) (a, c) = true end)) →
  Inv p (<[i := inc_strong r]> m) hs' ars'.
Proof.
  intros HI Hi Hl Hk Hor.
  destruct (inc_shape p r) as (S1 & S2 & S3 & S4 & S5).
  pose proof (I_cnt _ _ _ _ HI i r Hi Hl) as Hc.
  assert (Hin : (∀ x c, (x, c) ∈ hs' → h_ok p m x c) ∧ (∀ a c, (a, c) ∈ ars' → a_ok m a c)).
  { destruct HI as [_ _ H3 H4 _].
    destruct Hor as [(x & c & -> & -> & Hok & _)|(a & c & -> & -> & Hok & _)]; split; try done.
    - intros y d [[= -> ->]|Hy]%elem_of_cons; auto.
    - intros y d [[= -> ->]|Hy]%elem_of_cons; auto. }
  destruct Hin as [Hin1 Hin2].
  eapply (Inv_update m hs ars); try done; try congruence.
  - intros x c Hx. split; [auto|left; done].
  - intros x c Hx. split; [auto|left; done].
  - intros _. unfold cnt_ok in *. rewrite S3.
    destruct (r_kind r) as [| |n|n| |n] eqn:Hkr; try done.
    + destruct (kind_arc_find r n Hkr) as [-> _]. simpl.
      destruct Hor as [(x & c & -> & -> & _ & _ & Ho)|(a & c & -> & -> & _ & _ & Ho)];
        simpl; rewrite Ho; lia.
    + destruct (kind_arct_find r n Hkr) as [-> _]. simpl.
      destruct Hor as [(x & c & -> & -> & _ & _ & Ho)|(a & c & -> & -> & _ & _ & Ho)];
        simpl; rewrite Ho; lia.
    + destruct (kind_stab_find r n Hkr) as [-> _]. simpl.
      destruct Hor as [(x & c & -> & -> & _ & _ & Ho)|(a & c & -> & -> & _ & _ & Ho)];
        simpl; rewrite Ho; lia.
  - intros j rj Hne Hj Hlj. pose proof (I_cnt _ _ _ _ HI j rj Hj Hlj) as Hcj.
    destruct Hor as [(x & c & -> & -> & _ & Hno & _)|(a & c & -> & -> & _ & Hno & _)].
    + apply cnt_ok_no_own; eauto.
    + apply cnt_ok_no_aown; eauto.
Qed.

(** Decrementing it, for an owner that goes away. *)
Lemma dec_inv m hs ars i r hs' ars' :
  Inv p m hs ars → m !! i = Some r → r_live r = true → shared (r_kind r) = true →
  ((∃ x c, hs = (x, c) :: hs' ∧ ars = ars'
          ∧ (∀ j rj, j ≠ i → m !! j = Some rj → r_live rj = true → no_own (x, c) rj)
          ∧ match r_kind r with KArc _ => owns p VArc (r_base r) (x, c) = true
                              | KStab _ => owns p VStab (r_base r) (x, c) = true
                              | _ => owns p VArcT (r_base r) (x, c) = true end)
   ∨ (∃ a c, hs = hs' ∧ ars = (a, c) :: ars'
          ∧ (∀ j rj, j ≠ i → m !! j = Some rj → r_live rj = true → no_aown (a, c) rj)
          ∧ match r_kind r with KArc _ => arc_owns ASlice (r_base r) (a, c) = true
                              | KStab _ => arc_owns AStab (r_base r) (a, c) = true
                              | _ => arc_owns AOf (r_base r) (a, c) = true end)) →
  Inv p (<[i := dec_strong r]> m) hs' ars'.
Proof.
  intros HI Hi Hl Hk Hor.
  destruct (dec_shape p r) as (S1 & S2 & S3 & S5).
  pose proof (I_cnt _ _ _ _ HI i r Hi Hl) as Hc.
  assert (Hin : (∀ x c, (x, c) ∈ hs' → h_ok p m x c) ∧ (∀ a c, (a, c) ∈ ars' → a_ok m a c)).
  { destruct HI as [_ _ H3 H4 _].
    destruct Hor as [(x & c & -> & -> & Hok & _)|(a & c & -> & -> & Hok & _)]; split; try done.
    - intros y d Hy. apply H3. by right.
    - intros y d Hy. apply H4. by right. }
  destruct Hin as [Hin1 Hin2].
  (* either the region stays alive, or nobody relies on it any more *)
  assert (Halive : r_live (dec_strong r) = true ∨
            (r_live (dec_strong r) = false ∧
             (∀ x c, (x, c) ∈ hs' → ¬ uses p m x i) ∧ (∀ a c, (a, c) ∈ ars' → ¬ a_uses m a i))).
  { unfold cnt_ok in Hc.
    destruct (r_kind r) as [| |n|n| |n] eqn:Hkr; try done.
    - destruct (kind_arc_find r n Hkr) as [_ ->]. simpl.
      destruct (Nat.ltb_spec 1 n) as [|Hn]; [by left|right].
      assert (Hz : cnt (owns p VArc (r_base r)) hs' = 0%nat ∧
                   cnt (arc_owns ASlice (r_base r)) ars' = 0%nat).
      { destruct Hor as [(x & c & -> & -> & _ & Ho)|(a & c & -> & -> & _ & Ho)];
          simpl in Hc; rewrite Ho in Hc; lia. }
      destruct Hz as [Hz1 Hz2]. split_and!; [done|..].
      + intros x c Hx Hu. pose proof (uses_owns m x c i r Hi Hu) as Hw. rewrite Hkr in Hw.
        rewrite (cnt_zero _ _ _ Hz1 Hx) in Hw. done.
      + intros a c Hx Hu. pose proof (a_uses_owns m a c i r Hi Hu) as Hw. rewrite Hkr in Hw.
        rewrite (cnt_zero _ _ _ Hz2 Hx) in Hw. done.
    - destruct (kind_arct_find r n Hkr) as [_ ->]. simpl.
      destruct (Nat.ltb_spec 1 n) as [|Hn]; [by left|right].
      assert (Hz : cnt (owns p VArcT (r_base r)) hs' = 0%nat ∧
                   cnt (arc_owns AOf (r_base r)) ars' = 0%nat).
      { destruct Hor as [(x & c & -> & -> & _ & Ho)|(a & c & -> & -> & _ & Ho)];
          simpl in Hc; rewrite Ho in Hc; lia. }
      destruct Hz as [Hz1 Hz2]. split_and!; [done|..].
      + intros x c Hx Hu. pose proof (uses_owns m x c i r Hi Hu) as Hw. rewrite Hkr in Hw.
        rewrite (cnt_zero _ _ _ Hz1 Hx) in Hw. done.
      + intros a c Hx Hu. pose proof (a_uses_owns m a c i r Hi Hu) as Hw. rewrite Hkr in Hw.
        rewrite (cnt_zero _ _ _ Hz2 Hx) in Hw. done.
    - destruct (kind_stab_find r n Hkr) as [_ ->]. simpl.
      destruct (Nat.ltb_spec 1 n) as [|Hn]; [by left|right].
      assert (Hz : cnt (owns p VStab (r_base r)) hs' = 0%nat ∧
                   cnt (arc_owns AStab (r_base r)) ars' = 0%nat).
      { destruct Hor as [(x & c & -> & -> & _ & Ho)|(a & c & -> & -> & _ & Ho)];
          simpl in Hc; rewrite Ho in Hc; lia. }
      destruct Hz as [Hz1 Hz2]. split_and!; [done|..].
      + intros x c Hx Hu. pose proof (uses_owns m x c i r Hi Hu) as Hw. rewrite Hkr in Hw.
        rewrite (cnt_zero _ _ _ Hz1 Hx) in Hw. done.
      + intros a c Hx Hu. pose proof (a_uses_owns m a c i r Hi Hu) as Hw. rewrite Hkr in Hw.
        rewrite (cnt_zero _ _ _ Hz2 Hx) in Hw. done. }
  eapply (Inv_update m hs ars); try done.
  - intros x c Hx. split; [auto|]. destruct Halive as [->|(_ & Hn & _)]; [by left|right; eauto].
  - intros x c Hx. split; [auto|]. destruct Halive as [->|(_ & _ & Hn)]; [by left|right; eauto].
  - intros Hlive. unfold cnt_ok in *. rewrite S2.
    destruct (r_kind r) as [| |n|n| |n] eqn:Hkr; try done.
    + destruct (kind_arc_find r n Hkr) as [_ Hd]. rewrite Hd in *. simpl in *.
      destruct (Nat.ltb_spec 1 n) as [Hn|]; [|done].
      destruct Hor as [(x & c & -> & -> & _ & Ho)|(a & c & -> & -> & _ & Ho)];
        simpl in Hc; rewrite Ho in Hc; lia.
    + destruct (kind_arct_find r n Hkr) as [_ Hd]. rewrite Hd in *. simpl in *.
      destruct (Nat.ltb_spec 1 n) as [Hn|]; [|done].
      destruct Hor as [(x & c & -> & -> & _ & Ho)|(a & c & -> & -> & _ & Ho)];
        simpl in Hc; rewrite Ho in Hc; lia.
    + destruct (kind_stab_find r n Hkr) as [_ Hd]. rewrite Hd in *. simpl in *.
      destruct (Nat.ltb_spec 1 n) as [Hn|]; [|done].
      destruct Hor as [(x & c & -> & -> & _ & Ho)|(a & c & -> & -> & _ & Ho)];
        simpl in Hc; rewrite Ho in Hc; lia.
  - intros j rj Hne Hj Hlj. pose proof (I_cnt _ _ _ _ HI j rj Hj Hlj) as Hcj.
    destruct Hor as [(x & c & -> & -> & Hno & _)|(a & c & -> & -> & Hno & _)].
    + apply cnt_ok_no_own in Hcj; eauto.
    + apply cnt_ok_no_aown in Hcj; eauto.
Qed.

(** A value backed by region [i] through an owning vtable owns nothing elsewhere. *)
Lemma no_own_elsewhere m hs ars x c v i r :
  Inv p m hs ars → b_vt (h_b x) = vt_addr p v → m !! i = Some r → r_live r = true →
  backs v (h_b x) (h_lt x) i r → v = VArc ∨ v = VArcT ∨ v = VBox ∨ v = VStab →
  ∀ j rj, j ≠ i → m !! j = Some rj → r_live rj = true → no_own (x, c) rj.
Proof.
  intros HI Hv Hi Hl Hb Hor j rj Hne Hj Hlj. unfold no_own.
  assert (H : ∀ w, owns p w (r_base rj) (x, c) = true → w = v ∧ b_owner (h_b x) = r_base rj).
  { intros w (H1 & H2 & _)%owns_spec. simpl in *. split; [|done].
    eapply (wf_inj p Hwf). congruence. }
  destruct (r_kind rj) eqn:Hk; try done; apply not_true_is_false; intros [<- Ho]%H.
  - apply arc_at_spec in Hb as (Hl' & Hb' & _ & n & Hk').
    apply Hne. eapply (shared_inj p Hwf m hs ars); eauto; rewrite ?Hk, ?Hk'; done || congruence.
  - apply arct_at_spec in Hb as (Hl' & Hb' & n & Hk').
    apply Hne. eapply (shared_inj p Hwf m hs ars); eauto; rewrite ?Hk, ?Hk'; done || congruence.
  - destruct Hb as [Hb _]. apply box_at_spec in Hb as (Hl' & Hb' & _ & Hk').
    apply Hne. eapply (box_inj p m hs ars); eauto. congruence.
  - apply stab_at_spec in Hb as (Hl' & Hb' & _ & _ & n & Hk').
    apply Hne. eapply (shared_inj p Hwf m hs ars); eauto; rewrite ?Hk, ?Hk'; done || congruence.
Qed.

Lemma no_aown_elsewhere m hs ars a c i r :
  Inv p m hs ars → m !! i = Some r → r_live r = true → a_uses m a i →
  ∀ j rj, j ≠ i → m !! j = Some rj → r_live rj = true → no_aown (a, c) rj.
Proof.
  intros HI Hi Hl (r' & Hi' & Ha) j rj Hne Hj Hlj. simplify_eq. unfold no_aown.
  destruct (r_kind rj) eqn:Hk; try done; apply not_true_is_false; intros [Ht Hb]%arc_owns_spec;
    simpl in *; unfold a_at in Ha; rewrite Ht in Ha.
  - apply arc_at_spec in Ha as (Hl' & Hb' & _ & n & Hk').
    apply Hne. eapply (shared_inj p Hwf m hs ars); eauto; rewrite ?Hk, ?Hk'; done || congruence.
  - apply arct_at_spec in Ha as (Hl' & Hb' & n & Hk').
    apply Hne. eapply (shared_inj p Hwf m hs ars); eauto; rewrite ?Hk, ?Hk'; done || congruence.
  - apply stab_at_spec in Ha as (Hl' & Hb' & _ & _ & n & Hk').
    apply Hne. eapply (shared_inj p Hwf m hs ars); eauto; rewrite ?Hk, ?Hk'; done || congruence.
Qed.

(** *** drop *)
Lemma drop_ok m hs ars x c :
  Inv p m ((x, c) :: hs) ars → ∃ m', drop_bytes p m (h_b x) = Ok () m' ∧ Inv p m' hs ars.
Proof.
  intros HI.
  pose proof (I_h _ _ _ _ HI x c ltac:(left)) as Hok.
  destruct Hok as [(Hin & _)|(v & Hv & Hx)].
  { exists m. unfold drop_bytes. rewrite vtable_inlined by done. split; [done|].
    eapply Inv_del_h; [done|]. intros. by apply no_own_inl. }
  unfold drop_bytes. rewrite (vtable_addr p _ v) by done.
  destruct Hx as [(i & r & Hi & Hb & Hc & ->)|(-> & Hcap & _)].
  2: { simpl. rewrite Hcap. simpl. eexists. split; [done|]. eapply Inv_del_h; [done|].
       intros. by apply no_own_emptybox. }
  pose proof (proj1 (contains_spec _ _ _) Hc) as (Hl & _).
  destruct v; simpl in *.
  - eexists. split; [done|]. eapply Inv_del_h; [done|]. intros.
    eapply no_own_vt; [done|]. by left.
  - eexists. split; [done|]. eapply Inv_del_h; [done|]. intros.
    eapply no_own_vt; [done|]. by right.
  - unfold upd_at. rewrite (find_arc m _ ars i r) by done.
    eexists. split; [done|].
    pose proof (proj1 (arc_at_spec _ _ _) Hb) as (_ & Hbase & _ & n & Hk).
    eapply (dec_inv m _ ars i r); try done; [by rewrite Hk|].
    left. eexists x, _. split_and!; [done|done| |].
    + eapply (no_own_elsewhere m _ ars x _ VArc i r); eauto.
    + rewrite Hk. apply owns_spec. done.
  - unfold upd_at. rewrite (find_arct m _ ars i r) by done.
    eexists. split; [done|].
    pose proof (proj1 (arct_at_spec _ _) Hb) as (_ & Hbase & n & Hk).
    eapply (dec_inv m _ ars i r); try done; [by rewrite Hk|].
    left. eexists x, _. split_and!; [done|done| |].
    + eapply (no_own_elsewhere m _ ars x _ VArcT i r); eauto.
    + rewrite Hk. apply owns_spec. done.
  - destruct Hb as [Hb Hcap]. rewrite (proj2 (N.eqb_neq _ _) Hcap).
    unfold upd_at. rewrite (find_box m _ ars i r) by done.
    eexists. split; [done|].
    pose proof (proj1 (box_at_spec _ _ _) Hb) as (_ & Hbase & _ & Hk).
    pose proof (I_cnt _ _ _ _ HI i r Hi Hl) as Hcnt.
    set (cc := sub_data (b_start (h_b x)) (b_len (h_b x)) r) in *.
    assert (Ho : owns p VBox (r_base r) (x, cc) = true) by by apply owns_spec.
    unfold cnt_ok in Hcnt. rewrite Hk in Hcnt. simpl in Hcnt. rewrite Ho in Hcnt.
    assert (Hz : cnt (owns p VBox (r_base r)) hs = 0%nat) by lia.
    eapply (Inv_update m _ ars); [done|done|apply kill_shape|done|done|..].
    + intros y d Hy. split; [apply (I_h _ _ _ _ HI); by right|]. right. intros Hu.
      pose proof (uses_owns m y d i r Hi Hu) as Hw. rewrite Hk in Hw.
      rewrite (cnt_zero _ _ _ Hz Hy) in Hw. done.
    + intros y d Hy. split; [by apply (I_a _ _ _ _ HI)|]. right. intros Hu.
      pose proof (a_uses_owns m y d i r Hi Hu) as Hw. by rewrite Hk in Hw.
    + done.
    + intros j rj Hne Hj Hlj. pose proof (I_cnt _ _ _ _ HI j rj Hj Hlj) as Hcj.
      apply cnt_ok_no_own in Hcj; [done|].
      eapply (no_own_elsewhere m _ ars x _ VBox i r); eauto. done.
  - unfold upd_at. rewrite (find_stab m _ ars i r) by done.
    eexists. split; [done|].
    pose proof (proj1 (stab_at_spec _ _ _) Hb) as (_ & Hbase & _ & _ & n & Hk).
    eapply (dec_inv m _ ars i r); try done; [by rewrite Hk|].
    left. eexists x, _. split_and!; [done|done| |].
    + eapply (no_own_elsewhere m _ ars x _ VStab i r); eauto.
    + rewrite Hk. apply owns_spec. done.
Qed.

(** *** retain *)
Lemma retain_ok m hs ars x c v :
  Inv p m hs ars → h_ok p m x c → b_vt (h_b x) = vt_addr p v → v ≠ VBox →
  ∃ f m', vt_retain v = Some f ∧ call_retain f (b_owner (h_b x)) (b_cap (h_b x)) m = Some m'
          ∧ Inv p m' ((x, c) :: hs) ars.
Proof.
  intros HI Hok Hv Hbox.
  pose proof Hok as Hok'.
  destruct Hok as [(Hin & _)|(w & Hw & Hx)].
  { rewrite (not_inlined p (h_b x) v) in Hin by done. done. }
  assert (w = v) as -> by (eapply (wf_inj p Hwf); congruence).
  destruct Hx as [(i & r & Hi & Hb & Hc & Hcc)|(-> & _)]; [|done].
  pose proof (proj1 (contains_spec _ _ _) Hc) as (Hl & _).
  destruct v; simpl in *; try done.
  - eexists _, m. split_and!; [done|done|]. apply Inv_add_h; [done|done|].
    intros. eapply no_own_vt; [done|]. by left.
  - eexists _, m. split_and!; [done|done|]. apply Inv_add_h; [done|done|].
    intros. eapply no_own_vt; [done|]. by right.
  - eexists _, _. split; [done|]. simpl. unfold upd_at.
    rewrite (find_arc m _ ars i r) by done. split; [done|].
    pose proof (proj1 (arc_at_spec _ _ _) Hb) as (_ & Hbase & _ & n & Hk).
    eapply (inc_inv m hs ars i r); try done; [by rewrite Hk|].
    left. eexists x, c. split_and!; [done|done|done| |].
    + eapply (no_own_elsewhere m hs ars x c VArc i r); eauto.
    + rewrite Hk. by apply owns_spec.
  - eexists _, _. split; [done|]. simpl. unfold upd_at.
    rewrite (find_arct m _ ars i r) by done. split; [done|].
    pose proof (proj1 (arct_at_spec _ _) Hb) as (_ & Hbase & n & Hk).
    eapply (inc_inv m hs ars i r); try done; [by rewrite Hk|].
    left. eexists x, c. split_and!; [done|done|done| |].
    + eapply (no_own_elsewhere m hs ars x c VArcT i r); eauto.
    + rewrite Hk. by apply owns_spec.
  - eexists _, _. split; [done|]. simpl. unfold upd_at.
    rewrite (find_stab m _ ars i r) by done. split; [done|].
    pose proof (proj1 (stab_at_spec _ _ _) Hb) as (_ & Hbase & _ & _ & n & Hk).
    eapply (inc_inv m hs ars i r); try done; [by rewrite Hk|].
    left. eexists x, c. split_and!; [done|done|done| |].
    + eapply (no_own_elsewhere m hs ars x c VStab i r); eauto 10.
    + rewrite Hk. by apply owns_spec.
Qed.

(** *** allocation *)
Lemma can_alloc_spec (m : mem) base n k :
  can_alloc p m base n k = true →
  hdr p k < base ∧ base + n < wlim p ∧
  ∀ i r, m !! i = Some r → r_live r = true →
    base + n ≤ r_base r - hdr p (r_kind r) ∨ r_base r + r_len r ≤ base - hdr p k.
Proof.
  unfold can_alloc. rewrite !andb_true_iff, !N.ltb_lt, forallb_forall.
  intros [[H1 H2] H3]. split_and!; [done|done|]. intros i r Hi Hl.
  assert (Hin : In r m) by (apply elem_of_list_In; by eapply elem_of_list_lookup_2).
  specialize (H3 r Hin). unfold ext_disjoint in H3. rewrite Hl in H3. simpl in H3.
  rewrite orb_true_iff, !N.leb_le in H3. done.
Qed.

Lemma alloc_inv m hs ars base data k hs' ars' :
  Inv p m hs ars → can_alloc p m base (N.of_nat (length data)) k = true →
  bytelist data → (k = KBox → data ≠ []) →
  let r := Region base data k true in
  (∀ x c, (x, c) ∈ hs' → h_ok p (m ++ [r]) x c) →
  (∀ a c, (a, c) ∈ ars' → a_ok (m ++ [r]) a c) →
  (∀ j rj, m !! j = Some rj → r_live rj = true → cnt_ok p rj hs' ars') →
  cnt_ok p r hs' ars' →
  Inv p (m ++ [r]) hs' ars'.
Proof.
  intros HI Hcan Hb Hbox r Hh Ha Hcm Hcr.
  apply can_alloc_spec in Hcan as (C1 & C2 & C3).
  assert (Hlk : ∀ i s, (m ++ [r]) !! i = Some s → m !! i = Some s ∨ (i = length m ∧ s = r)).
  { intros i s Hi. apply lookup_app_Some in Hi as [|[Hge Hi]]; [by left|right].
    apply list_lookup_singleton_Some in Hi as [? <-]. split; [lia|done]. }
  split; [..|done|done|].
  - intros i s [Hi|[-> ->]]%Hlk; [by eapply I_reg|]. unfold region_ok; simpl. done.
  - intros i j s s' Hne [Hi|[-> ->]]%Hlk [Hj|[-> ->]]%Hlk Hls Hls'; try done.
    + by eapply (I_sep _ _ _ _ HI i j).
    + specialize (C3 i s Hi Hls). unfold sep, r_len in *; simpl in *. tauto.
    + specialize (C3 j s' Hj Hls'). unfold sep, r_len in *; simpl in *. tauto.
  - intros i s [Hi|[-> ->]]%Hlk Hl; eauto.
Qed.

Lemma h_ok_app m l x c : h_ok p m x c → h_ok p (m ++ l) x c.
Proof. intros. eapply (h_ok_mono p None); [apply mono_app|done|done]. Qed.
Lemma a_ok_app m l a c : a_ok m a c → a_ok (m ++ l) a c.
Proof. intros. eapply (a_ok_mono None); [apply mono_app|done|done]. Qed.

(** Nobody owns storage at an address the allocator just found free. *)
Lemma fresh_arc m hs ars base n :
  Inv p m hs ars → can_alloc p m base n (KArc 1) = true →
  cnt (owns p VArc base) hs = 0%nat ∧ cnt (arc_owns ASlice base) ars = 0%nat ∧
  cnt (owns p VArcT base) hs = 0%nat ∧ cnt (arc_owns AOf base) ars = 0%nat ∧
  cnt (owns p VStab base) hs = 0%nat ∧ cnt (arc_owns AStab base) ars = 0%nat.
Proof.
  intros HI Hcan. apply can_alloc_spec in Hcan as (C1 & C2 & C3).
  assert (Hno : ∀ i r, m !! i = Some r → r_live r = true → shared (r_kind r) = true →
            r_base r ≠ base).
  { intros i r Hi Hl Hk Heq. destruct (C3 i r Hi Hl) as [H|H];
      pose proof (hdr_pos p Hwf (r_kind r)); pose proof (hdr_pos p Hwf (KArc 1));
      pose proof (I_reg _ _ _ _ HI i r Hi) as (_ & R2 & _ & _);
      destruct (r_kind r); try done; simpl in *; lia. }
  assert (Hz : ∀ {A} (f : A → bool) l, (∀ x, x ∈ l → f x = false) → cnt f l = 0%nat).
  { intros A f l Hf. induction l as [|y l IH]; [done|]. simpl. rewrite Hf by left.
    apply IH. intros. apply Hf. by right. }
  split_and!; apply Hz; intros [x c] Hx; apply not_true_is_false.
  - intros (Hv & Ho & _)%owns_spec. simpl in *.
    destruct (I_h _ _ _ _ HI x c Hx) as [(Hin & _)|(v & Hv' & Hx')].
    { rewrite (not_inlined p _ VArc) in Hin by done. done. }
    assert (v = VArc) as -> by (eapply (wf_inj p Hwf); congruence).
    destruct Hx' as [(i & r & Hi & (L & B & _ & n' & K)%arc_at_spec & _)|([=] & _)].
    eapply Hno; [done|done|by rewrite K|congruence].
  - intros (Ht & Hb)%arc_owns_spec. simpl in *.
    destruct (I_a _ _ _ _ HI x c Hx) as (i & r & Hi & _ & _ & Ha). unfold a_at in Ha. rewrite Ht in Ha.
    apply arc_at_spec in Ha as (L & B & _ & n' & K).
    eapply Hno; [done|done|by rewrite K|congruence].
  - intros (Hv & Ho & _)%owns_spec. simpl in *.
    destruct (I_h _ _ _ _ HI x c Hx) as [(Hin & _)|(v & Hv' & Hx')].
    { rewrite (not_inlined p _ VArcT) in Hin by done. done. }
    assert (v = VArcT) as -> by (eapply (wf_inj p Hwf); congruence).
    destruct Hx' as [(i & r & Hi & (L & B & n' & K)%arct_at_spec & _)|([=] & _)].
    eapply Hno; [done|done|by rewrite K|congruence].
  - intros (Ht & Hb)%arc_owns_spec. simpl in *.
    destruct (I_a _ _ _ _ HI x c Hx) as (i & r & Hi & _ & _ & Ha). unfold a_at in Ha. rewrite Ht in Ha.
    apply arct_at_spec in Ha as (L & B & n' & K).
    eapply Hno; [done|done|by rewrite K|congruence].
  - intros (Hv & Ho & _)%owns_spec. simpl in *.
    destruct (I_h _ _ _ _ HI x c Hx) as [(Hin & _)|(v & Hv' & Hx')].
    { rewrite (not_inlined p _ VStab) in Hin by done. done. }
    assert (v = VStab) as -> by (eapply (wf_inj p Hwf); congruence).
    destruct Hx' as [(i & r & Hi & (L & B & _ & _ & n' & K)%stab_at_spec & _)|([=] & _)].
    eapply Hno; [done|done|by rewrite K|congruence].
  - intros (Ht & Hb)%arc_owns_spec. simpl in *.
    destruct (I_a _ _ _ _ HI x c Hx) as (i & r & Hi & _ & _ & Ha). unfold a_at in Ha. rewrite Ht in Ha.
    apply stab_at_spec in Ha as (L & B & _ & _ & n' & K).
    eapply Hno; [done|done|by rewrite K|congruence].
Qed.

Lemma fresh_box m hs ars base n :
  Inv p m hs ars → can_alloc p m base n KBox = true → 0 < n →
  cnt (owns p VBox base) hs = 0%nat.
Proof.
  intros HI Hcan Hn. apply can_alloc_spec in Hcan as (C1 & C2 & C3).
  assert (Hz : ∀ {A} (f : A → bool) l, (∀ x, x ∈ l → f x = false) → cnt f l = 0%nat).
  { intros A f l Hf. induction l as [|y l IH]; [done|]. simpl. rewrite Hf by left.
    apply IH. intros. apply Hf. by right. }
  apply Hz; intros [x c] Hx; apply not_true_is_false.
  intros (Hv & Ho & Hcap)%owns_spec. simpl in *. specialize (Hcap eq_refl).
  destruct (I_h _ _ _ _ HI x c Hx) as [(Hin & _)|(v & Hv' & Hx')].
  { rewrite (not_inlined p _ VBox) in Hin by done. done. }
  assert (v = VBox) as -> by (eapply (wf_inj p Hwf); congruence).
  destruct Hx' as [(i & r & Hi & [(L & B & LL & K)%box_at_spec _] & _)|(_ & Hcap' & _)]; [|done].
  pose proof (I_reg _ _ _ _ HI i r Hi) as (_ & R2 & _ & _).
  destruct (C3 i r Hi L) as [H|H]; rewrite ?K in *; simpl in *; lia.
Qed.

Lemma contains_whole base data k :
  contains base (N.of_nat (length data)) (Region base data k true) = true
  ∧ sub_data base (N.of_nat (length data)) (Region base data k true) = data.
Proof.
  split.
  - apply contains_spec. unfold r_len; simpl. lia.
  - unfold sub_data; simpl. rewrite N.sub_diag. change (N.to_nat 0) with 0%nat. rewrite drop_0.
    apply take_ge. lia.
Qed.

Lemma arc_ne_base m hs ars base n j rj :
  Inv p m hs ars → can_alloc p m base n (KArc 1) = true →
  m !! j = Some rj → r_live rj = true → shared (r_kind rj) = true → r_base rj ≠ base.
Proof.
  intros HI (C1 & C2 & C3)%can_alloc_spec Hj Hl Hk Heq.
  pose proof (hdr_pos p Hwf (r_kind rj)). pose proof (hdr_pos p Hwf (KArc 1)).
  pose proof (I_reg _ _ _ _ HI j rj Hj) as (_ & R2 & _ & _).
  destruct (C3 j rj Hj Hl); destruct (r_kind rj); try done; simpl in *; lia.
Qed.

(** A fresh [Arc<[u8]>] wrapped at once in a [Bytes]. *)
Lemma alloc_arc_h m hs ars base (data : list N) lt :
  Inv p m hs ars → can_alloc p m base (N.of_nat (length data)) (KArc 1) = true → bytelist data →
  Inv p (m ++ [Region base data (KArc 1) true])
      ((Handle (from_arc p base (N.of_nat (length data))) lt, data) :: hs) ars.
Proof.
  intros HI Hcan Hb.
  destruct (fresh_arc m hs ars base _ HI Hcan) as (F1 & F2 & F3 & F4 & F5 & F6).
  destruct (contains_whole base data (KArc 1)) as [W1 W2].
  eapply (alloc_inv m hs ars); [done|done|done|done|..].
  - intros x c [[= -> ->]|Hx]%elem_of_cons; [|apply h_ok_app; by apply (I_h _ _ _ _ HI)].
    right. exists VArc. split; [done|left].
    exists (length m), (Region base data (KArc 1) true). split_and!.
    + by rewrite lookup_app_r, Nat.sub_diag by lia.
    + simpl. apply arc_at_spec. unfold r_len; simpl. split_and!; try done. by exists 1%nat.
    + done.
    + symmetry; exact W2.
  - intros a c Ha. apply a_ok_app. by apply (I_a _ _ _ _ HI).
  - intros j rj Hj Hl. apply cnt_ok_no_own; [|by apply (I_cnt _ _ _ _ HI j rj)].
    unfold no_own. destruct (r_kind rj) eqn:Hk; try done; apply not_true_is_false;
      intros (Hv & Ho & _)%owns_spec; simpl in *.
    + eapply (arc_ne_base m hs ars base); eauto. by rewrite Hk.
    + apply (wf_inj p Hwf) in Hv. done.
    + apply (wf_inj p Hwf) in Hv. done.
    + apply (wf_inj p Hwf) in Hv. done.
  - unfold cnt_ok; simpl. rewrite F1, F2.
    rewrite (proj2 (owns_spec VArc base (Handle (from_arc p base (N.of_nat (length data))) lt, data))); [lia|done].
Qed.

(** A fresh [ArcSlice<u8>] wrapped at once in a [Bytes]. *)
Lemma alloc_stab_h m hs ars base (data : list N) lt :
  Inv p m hs ars → can_alloc p m base (N.of_nat (length data)) (KStab 1) = true → bytelist data →
  Inv p (m ++ [Region base data (KStab 1) true])
      ((Handle (from_stab p base (N.of_nat (length data))) lt, data) :: hs) ars.
Proof.
  intros HI Hcan Hb.
  destruct (fresh_arc m hs ars base _ HI Hcan) as (F1 & F2 & F3 & F4 & F5 & F6).
  destruct (contains_whole base data (KStab 1)) as [W1 W2].
  eapply (alloc_inv m hs ars); [done|done|done|done|..].
  - intros x c [[= -> ->]|Hx]%elem_of_cons; [|apply h_ok_app; by apply (I_h _ _ _ _ HI)].
    right. exists VStab. split; [done|left].
    exists (length m), (Region base data (KStab 1) true). split_and!.
    + by rewrite lookup_app_r, Nat.sub_diag by lia.
    + simpl. apply stab_at_spec. unfold r_len; simpl. split_and!; try done; [lia|]. by exists 1%nat.
    + done.
    + symmetry; exact W2.
  - intros a c Ha. apply a_ok_app. by apply (I_a _ _ _ _ HI).
  - intros j rj Hj Hl. apply cnt_ok_no_own; [|by apply (I_cnt _ _ _ _ HI j rj)].
    unfold no_own. destruct (r_kind rj) eqn:Hk; try done; apply not_true_is_false;
      intros (Hv & Ho & _)%owns_spec; simpl in *.
    + apply (wf_inj p Hwf) in Hv. done.
    + apply (wf_inj p Hwf) in Hv. done.
    + apply (wf_inj p Hwf) in Hv. done.
    + eapply (arc_ne_base m hs ars base); eauto. by rewrite Hk.
  - unfold cnt_ok; simpl. rewrite F5, F6.
    rewrite (proj2 (owns_spec VStab base (Handle (from_stab p base (N.of_nat (length data))) lt, data))); [lia|done].
Qed.

(** A fresh [Arc] held by the program. *)
Definition a_kind (t : aty) : kind :=
  match t with ASlice => KArc 1 | AOf => KArcT 1 | AStab => KStab 1 end.
Lemma alloc_arc_a m hs ars base (data : list N) (t : aty) :
  Inv p m hs ars →
  can_alloc p m base (N.of_nat (length data)) (a_kind t) = true →
  bytelist data →
  Inv p (m ++ [Region base data (a_kind t) true])
      hs ((Arc base (N.of_nat (length data)) t, data) :: ars).
Proof.
  intros HI Hcan Hb.
  assert (Hcan' : can_alloc p m base (N.of_nat (length data)) (KArc 1) = true).
  { destruct t; done. }
  destruct (fresh_arc m hs ars base _ HI Hcan') as (F1 & F2 & F3 & F4 & F5 & F6).
  eapply (alloc_inv m hs ars); [done|done|done|by destruct t|..].
  - intros x c Hx. apply h_ok_app. by apply (I_h _ _ _ _ HI).
  - intros a c [[= -> ->]|Ha]%elem_of_cons; [|apply a_ok_app; by apply (I_a _ _ _ _ HI)].
    exists (length m), (Region base data (a_kind t) true).
    rewrite lookup_app_r, Nat.sub_diag by lia. split_and!; [done|..].
    + simpl. rewrite take_ge by lia. done.
    + unfold r_len. simpl. lia.
    + destruct t; unfold a_at; simpl.
      * apply arc_at_spec. split_and!; try done. by exists 1%nat.
      * apply arct_at_spec. split_and!; try done. by exists 1%nat.
      * apply stab_at_spec. unfold r_len; simpl. split_and!; try done; [lia|]. by exists 1%nat.
  - intros j rj Hj Hl. apply cnt_ok_no_aown; [|by apply (I_cnt _ _ _ _ HI j rj)].
    unfold no_aown. destruct (r_kind rj) eqn:Hk; try done; apply not_true_is_false;
      intros (Ht & Ho)%arc_owns_spec; simpl in *;
      (eapply (arc_ne_base m hs ars base); eauto; by rewrite Hk).
  - unfold cnt_ok; simpl.
    assert (Ho : arc_owns t base (Arc base (N.of_nat (length data)) t, data) = true)
      by (by apply arc_owns_spec).
    destruct t; simpl; rewrite Ho, ?F1, ?F2, ?F3, ?F4, ?F5, ?F6; simpl; lia.
Qed.

(** A buffer that nobody owns through a [Bytes]. *)
Lemma alloc_plain m hs ars base (data : list N) k :
  Inv p m hs ars → can_alloc p m base (N.of_nat (length data)) k = true → bytelist data →
  k = KStatic ∨ k = KBorrow → Inv p (m ++ [Region base data k true]) hs ars.
Proof.
  intros HI Hcan Hb Hk.
  eapply (alloc_inv m hs ars); [done|done|done|by destruct Hk as [-> | ->]|..].
  - intros x c Hx. apply h_ok_app. by apply (I_h _ _ _ _ HI).
  - intros x c Hx. apply a_ok_app. by apply (I_a _ _ _ _ HI).
  - intros j rj Hj Hl. by apply (I_cnt _ _ _ _ HI j rj).
  - by destruct Hk as [-> | ->].
Qed.

(** A boxed slice wrapped in a [Bytes]. *)
Lemma alloc_box_h m hs ars base (data : list N) lt :
  Inv p m hs ars → can_alloc p m base (N.of_nat (length data)) KBox = true → bytelist data →
  data ≠ [] →
  Inv p (m ++ [Region base data KBox true])
      ((Handle (from_box p base (N.of_nat (length data))) lt, data) :: hs) ars.
Proof.
  intros HI Hcan Hb Hne.
  assert (Hpos : 0 < N.of_nat (length data)) by (destruct data; simpl in *; [done|lia]).
  pose proof (fresh_box m hs ars base _ HI Hcan Hpos) as F.
  destruct (contains_whole base data KBox) as [W1 W2].
  eapply (alloc_inv m hs ars); [done|done|done|done|..].
  - intros x c [[= -> ->]|Hx]%elem_of_cons; [|apply h_ok_app; by apply (I_h _ _ _ _ HI)].
    right. exists VBox. split; [done|left].
    exists (length m), (Region base data KBox true). split_and!.
    + by rewrite lookup_app_r, Nat.sub_diag by lia.
    + simpl. split; [|lia]. by apply box_at_spec.
    + done.
    + symmetry; exact W2.
  - intros a c Ha. apply a_ok_app. by apply (I_a _ _ _ _ HI).
  - intros j rj Hj Hl. apply cnt_ok_no_own; [|by apply (I_cnt _ _ _ _ HI j rj)].
    unfold no_own. destruct (r_kind rj) eqn:Hk; try done; apply not_true_is_false;
      intros (Hv & Ho & _)%owns_spec; simpl in *.
    + apply (wf_inj p Hwf) in Hv. done.
    + apply (wf_inj p Hwf) in Hv. done.
    + apply can_alloc_spec in Hcan as (C1 & C2 & C3).
      pose proof (I_reg _ _ _ _ HI j rj Hj) as (_ & R2 & _ & R4). specialize (R4 Hk).
      assert (0 < r_len rj) by (unfold r_len; destruct (r_data rj); simpl; [done|lia]).
      destruct (C3 j rj Hj Hl); rewrite ?Hk in *; simpl in *; lia.
    + apply (wf_inj p Hwf) in Hv. done.
  - unfold cnt_ok; simpl. rewrite F.
    rewrite (proj2 (owns_spec VBox base (Handle (from_box p base (N.of_nat (length data))) lt, data))); [done|]. simpl. split_and!; [done|done|lia].
Qed.
End Ops.
