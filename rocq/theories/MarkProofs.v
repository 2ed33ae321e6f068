(** Proofs about MarkModel.v. *)
From Coq Require Import Bool Lia.
From stdpp Require Import base numbers list relations.
From Verif Require Import MarkModel MarkSpec.

Definition ok (c : mode * ty) : Prop :=
  match c.2 with SRaw _ => True | _ =>
  match c.1 with Shr => sync (marks_of c.2) = true | _ => send (marks_of c.2) = true end end.

Ltac bools := repeat match goal with
  | H : _ && _ = true |- _ => apply andb_true_iff in H as [? ?]
  | |- _ && _ = true => apply andb_true_iff; split
  end.

Lemma gives_ok r m t m' t' : built t = true → ok (m, t) → (m', t') ∈ gives r m t → built t' = true ∧ ok (m', t').
Proof.
  intros B O H.
  assert (K : ∀ m t, (match m with Shr => sync (marks_of t) = true | _ => send (marks_of t) = true end) → ok (m, t)).
  { intros m1 t1 Hm. unfold ok. cbn [fst snd]. destruct t1; done. }
  destruct t, m; cbn [gives] in H; try (by apply elem_of_nil in H);
    repeat (apply elem_of_cons in H as [H|H]; [injection H as -> ->|]); try (by apply elem_of_nil in H);
    unfold ok in O; cbn [built marks_of send sync fst snd m_ref m_mut m_slice m_box m_vec m_arc m_cvec m_sbox m_sref m_smut auto forallb] in O, B |- *;
    bools; (split; [bools; done|]); try done; apply K;
    cbn [built marks_of send sync fst snd m_ref m_mut m_slice m_box m_vec m_arc m_cvec m_sbox m_sref m_smut auto forallb]; bools; done.
Qed.

Lemma op_ok c c' : op c c' → built c.2 = true → ok c → built c'.2 = true ∧ ok c'.
Proof.
  destruct c as [m t], c' as [m' t']. intros [[r H]|[[E H]|[E H]]] B O; cbn [fst snd] in *.
  - by eapply gives_ok.
  - subst m. injection H as -> ->. done.
  - subst m. injection H as -> ->. done.
Qed.
Lemma reaches_ok c c' : reaches c c' → built c.2 = true → ok c → ok c'.
Proof.
  induction 1 as [c|c c1 c' Ho _ IH]; [done|]. intros B O.
  destruct (op_ok _ _ Ho B O) as [B' O']. by apply IH.
Qed.
Lemma harmless_ok m t : built t = true →
  match m with Shr => sync (marks_of t) = true | _ => send (marks_of t) = true end → harmless (m, t).
Proof.
  intros B O m' s y cell a H.
  assert (O' : ok (m, t)) by (unfold ok; cbn [fst snd]; destruct t; done).
  apply (reaches_ok _ _ H) in O'; [|done]. by destruct m'.
Qed.

(** ** Exactly *)

Lemma reaches_gives r m t m' t' c : (m', t') ∈ gives r m t → reaches (m', t') c → reaches (m, t) c.
Proof. intros H R. eapply rtc_l; [left; by exists r|done]. Qed.

Definition bad (c : mode * ty) : Prop := ∃ m s y cell a, reaches c (m, Any s y cell a) ∧ ¬ may m s y.
Lemma bad_harmless c : bad c → ¬ harmless c.
Proof. intros (m & s & y & cl & a & R & N) H. by eapply N, H. Qed.
Lemma bad_gives m t m' t' : (m', t') ∈ gives None m t → bad (m', t') → bad (m, t).
Proof. intros H (m1 & s & y & cl & a & R & N). exists m1, s, y, cl, a. split; [|done]. by eapply reaches_gives. Qed.
Lemma bad_own t : bad (Own, t) → bad (Mut, t).
Proof.
  intros (m1 & s & y & cl & a & R & N). exists m1, s, y, cl, a. split; [|done].
  eapply rtc_l; [|done]. right; right. done.
Qed.
Lemma bad_1 m t c l : gives None m t = c :: l → bad c → bad (m, t).
Proof. destruct c. intros E. apply bad_gives. rewrite E. apply elem_of_list_here. Qed.
Lemma bad_2 m t c d l : gives None m t = d :: c :: l → bad c → bad (m, t).
Proof. destruct c. intros E. apply bad_gives. rewrite E. apply elem_of_list_further, elem_of_list_here. Qed.

Lemma open_bad t : open t = true →
  (send (marks_of t) = false → bad (Own, t)) ∧ (sync (marks_of t) = false → bad (Shr, t)).
Proof.
  induction t; intros O; cbn [open] in O; try done;
    cbn [marks_of send sync m_ref m_mut m_slice m_box m_vec m_arc m_cvec m_sbox m_sref m_smut m_byte auto forallb];
    try (by split).
  - split; intros ->; [exists Own|exists Shr]; [exists false, y, cell, a|exists s, false, cell, a]; (split; [apply rtc_refl|done]).
  - destruct (IHt O) as [I1 I2]. split; intros H; (eapply bad_1; [reflexivity|auto]).
  - destruct (IHt O) as [I1 I2]. split; intros H; (eapply bad_1; [reflexivity|auto using bad_own]).
  - destruct (IHt O) as [I1 I2]. split; intros H; (eapply bad_1; [reflexivity|auto]).
  - destruct (IHt O) as [I1 I2]. split; intros H; (eapply bad_1; [reflexivity|auto]).
  - destruct (IHt O) as [I1 I2]. split; intros H; (eapply bad_1; [reflexivity|auto]).
  - destruct (IHt O) as [I1 I2].
    assert (D : bad (Own, t) ∨ bad (Shr, t) → bad (Own, RArc t)).
    { intros [D|D]; [eapply bad_2|eapply bad_1]; [reflexivity|exact D|reflexivity|exact D]. }
    split; intros [H|H]%andb_false_iff.
    + apply D. auto.
    + apply D. auto.
    + eapply bad_2; [reflexivity|]. apply D. auto.
    + eapply bad_2; [reflexivity|]. apply D. auto.
  - bools. destruct (IHt1 H) as [I1 I2], (IHt2 H0) as [J1 J2].
    split; rewrite andb_true_r; intros [K|K]%andb_false_iff;
      first [eapply bad_1; [reflexivity|]; by auto|eapply bad_2; [reflexivity|]; by auto].
  - destruct (IHt O) as [I1 I2]. split; intros H; [eapply bad_1; [reflexivity|]|]; (eapply bad_1; [reflexivity|auto]).
  - destruct (IHt O) as [I1 I2]. split; intros H; [eapply bad_1; [reflexivity|]; (eapply bad_1; [reflexivity|auto])|].
    eapply bad_2; [reflexivity|]. eapply bad_1; [reflexivity|auto].
  - destruct (IHt O) as [I1 I2].
    assert (D : bad (Shr, t) → bad (Own, SRef a t)).
    { intros D. eapply bad_1; [reflexivity|]. eapply bad_1; [reflexivity|]. eapply bad_1; [reflexivity|done]. }
    split; intros H; [auto|]. eapply bad_1; [reflexivity|auto].
  - destruct (IHt O) as [I1 I2]. split; intros H.
    + eapply bad_1; [reflexivity|]. eapply bad_1; [reflexivity|]. eapply bad_1; [reflexivity|]. by apply bad_own, I1.
    + eapply bad_2; [reflexivity|]. eapply bad_1; [reflexivity|auto].
  - destruct (IHt O) as [I1 I2]. split; intros H.
    + eapply bad_1; [reflexivity|]. eapply bad_1; [reflexivity|]. eapply bad_1; [reflexivity|auto].
    + eapply bad_2; [reflexivity|]. eapply bad_1; [reflexivity|auto].
  - destruct (IHt O) as [I1 I2]. rewrite !andb_true_r. split; intros H; (eapply bad_1; [reflexivity|auto]).
  - bools. destruct (IHt1 H) as [I1 I2], (IHt2 H0) as [J1 J2].
    split; rewrite andb_true_r; intros [K|K]%andb_false_iff;
      first [eapply bad_1; [reflexivity|]; by auto|eapply bad_2; [reflexivity|]; by auto].
Qed.

Lemma counterpart_marks t : has_char_raw t = false → marks_of t = marks_of (counterpart t).
Proof.
  induction t; cbn [has_char_raw counterpart marks_of]; intros H; try done;
    try (rewrite <- IHt by done; try done; first [by destruct (marks_of t)|unfold auto; cbn [forallb]; rewrite !andb_true_r; by destruct (marks_of t)]);
    try (apply orb_false_iff in H as [H1 H2]; rewrite <- IHt1, <- IHt2 by done; done).
Qed.

(** ** Subtyping *)

Lemma along_inv f d : along Inv f d = true → f true = true ∧ f false = true.
Proof. cbn. intros [? ?]%andb_true_iff. done. Qed.
Definition inv2 (v : view) : Prop :=
  rel (v_made v) (v_used v) (v_out v) = true ∧
  (v_mode v = Mut → rel (v_made v) (v_used v) (negb (v_out v)) = true).

Lemma outl_refl a : outl a a = true.
Proof. destruct a; cbn; [|done]. apply Nat.leb_refl. Qed.
Lemma rel_refl t d : rel t t d = true.
Proof.
  revert d. induction t; intros d; cbn [rel]; rewrite ?bool_decide_true by done;
    unfold along, v_ref, v_mut, v_nonnull, v_box, v_nnref, v_nnmut, v_nnowned, v_cbox, v_cvec, v_sraw, v_sbox, v_sref_lt, v_sref, v_smut_lt, v_smut,
      v_strref_lt, v_charref_lt, v_fn_arg, v_fn_ret, v_fn_lt, v_bytes_lt, v_arg, v_ret; cbn [meet under flip v_nnowned v_nnmut v_nnref v_nonnull v_phantom v_invariant v_covariant_lifetime v_ref v_arg v_ret v_sref_lt];
    unfold lt_rel; rewrite ?outl_refl, ?IHt, ?IHt1, ?IHt2, ?IHt3; try (destruct d; rewrite ?outl_refl; reflexivity).
  destruct cell, d; rewrite ?outl_refl; done.
Qed.

Ltac crush_rel := unfold along, v_ref, v_mut, v_nonnull, v_box, v_nnref, v_nnmut, v_nnowned, v_cbox, v_cvec, v_sraw, v_sbox, v_sref_lt, v_sref, v_smut_lt, v_smut,
      v_strref_lt, v_charref_lt, v_fn_arg, v_fn_ret, v_fn_lt, v_bytes_lt, v_arg, v_ret in *; cbn [meet under flip v_nnowned v_nnmut v_nnref v_nonnull v_phantom v_invariant v_covariant_lifetime v_ref v_arg v_ret v_sref_lt negb] in *.

Lemma both_ways (f : bool → bool) d : f true = true → f false = true → f d = true ∧ f (negb d) = true.
Proof. by destruct d. Qed.

Lemma gives_rel r m t u d i m1 t1 m1' u1 :
  rel t u d = true → (m = Mut → rel t u (negb d) = true) →
  gives r m t !! i = Some (m1, t1) → gives r m u !! i = Some (m1', u1) →
  m1 = m1' ∧ rel t1 u1 d = true ∧ (m1 = Mut → rel t1 u1 (negb d) = true).
Proof.
  intros R M G G'.
  destruct t, u; try (by (exfalso; revert R; clear; cbn [rel]; discriminate)).
  all: destruct m; cbn [gives] in G, G'; try (by (rewrite lookup_nil in G; discriminate)).
  all: first [specialize (M eq_refl)|clear M];
    repeat (destruct i as [|i]; [cbn [lookup list_lookup] in G, G'; injection G as <- <-; injection G' as <- <-|cbn [lookup list_lookup] in G, G'; try discriminate]).
  all: split; [reflexivity|]; cbn [rel] in *; crush_rel; bools; rewrite ?outl_refl.
  all: try (split; [|intros ?; try discriminate]; unfold lt_rel in *; rewrite ?outl_refl; bools; by (try destruct d)).
  all: try (repeat match goal with H : bool_decide _ = true |- _ => apply bool_decide_eq_true in H; subst end;
       split; [|intros ?; try discriminate]; unfold lt_rel in *; rewrite ?rel_refl, ?outl_refl, ?bool_decide_true by done; bools; by (try destruct d)).
Qed.
Lemma gives_modes r m t u d : rel t u d = true → (gives r m t).*1 = (gives r m u).*1.
Proof. intros R. destruct t, u; try (by (exfalso; revert R; clear; cbn [rel]; discriminate)); destruct m; reflexivity. Qed.
Lemma calls_rel m t u d : rel t u d = true →
  match calls m t, calls m u with
  | Some (a, r), Some (a', r') => rel a a' (negb d) = true ∧ rel r r' d = true
  | None, None => True
  | _, _ => False
  end.
Proof.
  intros R. destruct t, u; try (by (exfalso; revert R; clear; cbn [rel]; discriminate)); destruct m; cbn [calls]; try done;
    cbn [rel] in R; crush_rel; bools; done.
Qed.

Lemma op2_inv v v' : inv2 v → op2 v v' → inv2 v'.
Proof.
  intros [R M] [(r & i & m & t & u & G & G' & ->)|(a & r & a' & r' & C & C' & H)]; unfold inv2.
  - cbn. by eapply gives_rel.
  - pose proof (calls_rel (v_mode v) _ _ _ R) as K. rewrite C, C' in K. destruct K as [K1 K2].
    destruct H as [-> | ->]; cbn; done.
Qed.
Lemma inv2_fits v : inv2 v → fits v.
Proof.
  intros [R M] a c b c' L L'.
  destruct v as [m t u d]; cbn [v_made v_used v_mode v_out] in *.
  destruct t, u; try discriminate L; try discriminate L'; try (by (exfalso; revert R; clear; cbn [rel]; discriminate));
    cbn [lifetime] in L, L'; injection L as <- <-; injection L' as <- <-;
    cbn [rel] in R, M; crush_rel; bools; unfold lt_rel in *.
  - destruct cell; [apply bool_decide_eq_true in H; injection H as -> -> <-|]; bools.
    + destruct d; done.
    + split; [by destruct d|]. intros [->|?]; [|done]. specialize (M eq_refl). bools. by destruct d.
  - split; [by destruct d|]. intros [->|?]; [|done]. specialize (M eq_refl). bools. by destruct d.
  - split; [by destruct d|]. intros [->|?]; [|done]. specialize (M eq_refl). bools. by destruct d.
  - split; [by destruct d|]. intros [->|?]; [|done]. specialize (M eq_refl). bools. by destruct d.
  - split; [by destruct d|]. intros [->|?]; [|done]. specialize (M eq_refl). bools. by destruct d.
  - split; [by destruct d|]. intros [->|?]; [|done]. specialize (M eq_refl). bools. by destruct d.
  - split; [by destruct d|]. intros [->|?]; [|done]. specialize (M eq_refl). bools. by destruct d.
  - split; [by destruct d|]. intros [->|?]; [|done]. specialize (M eq_refl). bools. by destruct d.
  - split; [by destruct d|]. intros [->|?]; [|done]. specialize (M eq_refl). bools. by destruct d.
Qed.
Lemma rtc_inv2 v v' : rtc op2 v v' → inv2 v → inv2 v'.
Proof. induction 1 as [|v v1 v' Ho _ IH]; [done|]. intros I. by apply IH, (op2_inv v). Qed.

(** ** Borrows *)

Lemma outl_trans a b c : outl a b = true → outl b c = true → outl a c = true.
Proof. destruct a, b, c; cbn; rewrite ?Nat.leb_le; try done; lia. Qed.
Lemma outlives_trans t a b : outlives t a = true → outl a b = true → outlives t b = true.
Proof.
  induction t; cbn [outlives]; intros H L; bools; eauto using outl_trans.
Qed.

Lemma gives_usable now r m t m' t' : built t = true → usable now t → outl r (Some now) = true →
  (m', t') ∈ gives r m t → built t' = true ∧ usable now t'.
Proof.
  intros B O L H.
  destruct t, m; cbn [gives] in H; try (by apply elem_of_nil in H);
    repeat (apply elem_of_cons in H as [H|H]; [injection H as -> ->|]); try (by apply elem_of_nil in H);
    unfold usable in *; cbn [built outlives Byte outl] in O, B |- *;
    bools; (split; [bools; done|]); bools; try done; eauto using outlives_trans.
Qed.
Lemma op_at_usable now c c' : op_at now c c' → built c.2 = true → usable now c.2 → built c'.2 = true ∧ usable now c'.2.
Proof.
  destruct c as [m t], c' as [m' t']. intros [(r & L & H)|[[E H]|[E H]]] B O; cbn [fst snd] in *.
  - by eapply gives_usable.
  - subst m. injection H as -> ->. done.
  - subst m. injection H as -> ->. done.
Qed.
Lemma usable_lives now c : built c.2 = true → usable now c.2 → lives now c.
Proof.
  intros B O m s y cell a H. remember (m, Any s y cell a) as c' eqn:E.
  induction H as [c|c c1 c' Ho _ IH]; [by subst c|].
  destruct (op_at_usable _ _ _ Ho B O) as [B' O']. by apply IH.
Qed.
