(** Lemmas on the word/byte level of [BytesModel]: encoding, the storage tag, inlining. *)
From Coq Require Import ZifyBool ZifyNat ZifyN.
From stdpp Require Import base numbers list.
From Verif Require Import BytesModel.
Local Open Scope N_scope.
Ltac Zify.zify_post_hook ::= Z.div_mod_to_equations.

Definition bytelist (l : list N) : Prop := Forall (λ x, x < 256) l.

(** What is assumed of a platform: a sane pointer width, and vtables that are placed at distinct,
    non-null, 2-aligned addresses ([BytesVt] has pointer alignment). *)
Record wf_platform (p : platform) : Prop := {
  wf_wsz : (1 ≤ wsz p ≤ 25)%nat;
  wf_even : ∀ v, vt_addr p v mod 2 = 0;
  wf_nonnull : ∀ v, vt_addr p v ≠ 0;
  wf_range : ∀ v, vt_addr p v < wlim p;
  wf_inj : ∀ v w, vt_addr p v = vt_addr p w → v = w;
}.

Lemma enc_le_length n w : length (enc_le n w) = n.
Proof. revert w; induction n as [|n IH]; intros w; simpl; [done|]. by rewrite IH. Qed.

Lemma enc_le_bytes n w : bytelist (enc_le n w).
Proof.
  revert w; induction n as [|n IH]; intros w; simpl; constructor; [|apply IH].
  apply N.mod_lt; lia.
Qed.

Lemma dec_enc_le n w : w < 256 ^ N.of_nat n → dec_le (enc_le n w) = w.
Proof.
  revert w; induction n as [|n IH]; intros w Hw.
  - simpl. change (256 ^ N.of_nat 0) with 1 in Hw. lia.
  - cbn [enc_le dec_le]. rewrite IH.
    + pose proof (N.div_mod w 256). lia.
    + rewrite Nat2N.inj_succ, N.pow_succ_r' in Hw. apply N.div_lt_upper_bound; lia.
Qed.

Lemma dec_le_lt l : bytelist l → dec_le l < 256 ^ N.of_nat (length l).
Proof.
  induction 1 as [|x l Hx _ IH]; [done|].
  cbn [dec_le length]. rewrite Nat2N.inj_succ, N.pow_succ_r'. lia.
Qed.

Lemma enc_dec_le l : bytelist l → enc_le (length l) (dec_le l) = l.
Proof.
  induction 1 as [|x l Hx _ IH]; [done|].
  cbn [length enc_le dec_le].
  assert (H1 : (x + 256 * dec_le l) mod 256 = x).
  { rewrite N.mul_comm, N.mod_add by done. by apply N.mod_small. }
  assert (H2 : (x + 256 * dec_le l) / 256 = dec_le l).
  { rewrite N.mul_comm, N.div_add by done. rewrite N.div_small by done. lia. }
  rewrite H1, H2, IH. done.
Qed.

Lemma enc_length p w : length (enc p w) = wsz p.
Proof. unfold enc; destruct (little p); rewrite ?reverse_length; apply enc_le_length. Qed.

Lemma enc_bytes p w : bytelist (enc p w).
Proof.
  unfold enc, bytelist; destruct (little p); [apply enc_le_bytes|].
  apply Forall_reverse, enc_le_bytes.
Qed.

Lemma dec_enc p w : w < wlim p → dec p (enc p w) = w.
Proof.
  unfold dec, enc, wlim. intros Hw. destruct (little p).
  - by apply dec_enc_le.
  - rewrite reverse_involutive. by apply dec_enc_le.
Qed.

Lemma enc_dec p l : bytelist l → length l = wsz p → enc p (dec p l) = l.
Proof.
  unfold dec, enc. intros Hl Hlen. destruct (little p).
  - rewrite <- Hlen. by apply enc_dec_le.
  - rewrite <- Hlen, <- (reverse_length l), enc_dec_le by by apply Forall_reverse.
    apply reverse_involutive.
Qed.

Lemma dec_lt p l : bytelist l → length l = wsz p → dec p l < wlim p.
Proof.
  unfold dec, wlim. intros Hl Hlen. rewrite <- Hlen. destruct (little p).
  - by apply dec_le_lt.
  - rewrite <- (reverse_length l). apply dec_le_lt. by apply Forall_reverse.
Qed.

Lemma raw_length p b : length (raw p b) = size_of_bytes p.
Proof. unfold raw, size_of_bytes. rewrite !app_length, !enc_length. lia. Qed.

Lemma raw_bytes p b : bytelist (raw p b).
Proof. unfold raw, bytelist. rewrite !Forall_app. repeat split; apply enc_bytes. Qed.

(** Splitting five words off a buffer. *)
Lemma split5 (n : nat) (l : list N) :
  length l = (5 * n)%nat →
  l = take n (drop (0 * n) l) ++ take n (drop (1 * n) l) ++ take n (drop (2 * n) l)
      ++ take n (drop (3 * n) l) ++ take n (drop (4 * n) l).
Proof.
  intros Hl.
  replace (take n (drop (4 * n) l)) with (drop (4 * n) l)
    by (symmetry; apply take_ge; rewrite drop_length; lia).
  assert (Hstep : ∀ k, take n (drop (k * n) l) ++ drop (S k * n) l = drop (k * n) l).
  { intros k. replace (S k * n)%nat with (k * n + n)%nat by lia.
    rewrite <- drop_drop. apply take_drop. }
  rewrite (Hstep 3%nat), (Hstep 2%nat), (Hstep 1%nat), (Hstep 0%nat). done.
Qed.

Lemma raw_of_raw p l :
  bytelist l → length l = size_of_bytes p → raw p (of_raw p l) = l.
Proof.
  intros Hb Hl. unfold raw, of_raw; cbn [b_start b_len b_owner b_cap b_vt].
  rewrite (split5 (wsz p) l) at 6 by exact Hl.
  unfold size_of_bytes in Hl.
  assert (Hd : ∀ k, (k < 5)%nat →
     enc p (dec p (take (wsz p) (drop (k * wsz p) l))) = take (wsz p) (drop (k * wsz p) l)).
  { intros k Hk. apply enc_dec.
    - apply Forall_take, Forall_drop, Hb.
    - rewrite take_length, drop_length, Hl.
      assert (k * wsz p ≤ 4 * wsz p)%nat by (apply Nat.mul_le_mono_r; lia). lia. }
  rewrite !Hd by lia. done.
Qed.

Lemma of_raw_raw p b :
  b_start b < wlim p → b_len b < wlim p → b_owner b < wlim p → b_cap b < wlim p →
  b_vt b < wlim p → of_raw p (raw p b) = b.
Proof.
  intros H1 H2 H3 H4 H5. destruct b as [s n o c v]; simpl in *.
  unfold of_raw, raw; cbn [b_start b_len b_owner b_cap b_vt].
  assert (Hskip : ∀ (x y : list N) k, length x = wsz p →
            drop (S k * wsz p) (x ++ y) = drop (k * wsz p) y).
  { intros x y k Hx. rewrite drop_app_ge by (rewrite Hx; simpl; lia).
    f_equal. rewrite Hx. simpl. lia. }
  assert (Hhd : ∀ (x y : list N), length x = wsz p → take (wsz p) (drop (0 * wsz p) (x ++ y)) = x).
  { intros x y Hx. rewrite Nat.mul_0_l, drop_0, <- Hx. apply take_app. }
  assert (Hlast : ∀ (x : list N), length x = wsz p → take (wsz p) (drop (0 * wsz p) x) = x).
  { intros x Hx. rewrite Nat.mul_0_l, drop_0. apply take_ge. lia. }
  rewrite Hhd by apply enc_length. rewrite dec_enc by done. f_equal.
  - rewrite Hskip, Hhd by apply enc_length. by apply dec_enc.
  - rewrite !Hskip, Hhd by apply enc_length. by apply dec_enc.
  - rewrite !Hskip, Hhd by apply enc_length. by apply dec_enc.
  - rewrite !Hskip, Hlast by apply enc_length. by apply dec_enc.
Qed.

(** The tag byte is the least significant byte of the vtable word. *)
Lemma len_byte_vt p b : (1 ≤ wsz p)%nat → len_byte p b = b_vt b mod 256.
Proof.
  intros Hw. unfold len_byte, max_inline, size_of_bytes, raw.
  rewrite !app_assoc.
  set (pre := ((enc p (b_start b) ++ enc p (b_len b)) ++ enc p (b_owner b)) ++ enc p (b_cap b)).
  assert (Hpre : length pre = (4 * wsz p)%nat).
  { unfold pre. rewrite !app_length, !enc_length. lia. }
  unfold enc. destruct (wsz p) as [|k] eqn:Hk; [lia|].
  destruct (little p).
  - rewrite lookup_app_r by lia.
    replace (5 * S k - S k - length pre)%nat with 0%nat by lia. done.
  - rewrite lookup_app_r by lia. cbn [enc_le].
    rewrite reverse_cons.
    rewrite lookup_app_r by (rewrite reverse_length, enc_le_length; lia).
    rewrite reverse_length, enc_le_length.
    replace (5 * S k - 1 - length pre - k)%nat with 0%nat by lia. done.
Qed.

Lemma odd_mod2 x : N.odd x = negb (x mod 2 =? 0).
Proof.
  rewrite <- N.bit0_odd. pose proof (N.bit0_mod x) as H. destruct (N.testbit x 0); simpl in H;
    rewrite <- H; done.
Qed.

Lemma is_inlined_vt p b : (1 ≤ wsz p)%nat → is_inlined p b = N.odd (b_vt b).
Proof.
  intros Hw. unfold is_inlined. rewrite len_byte_vt by done.
  change 1 with (N.ones 1). rewrite N.land_ones. change (2 ^ 1) with 2.
  assert (Hm : (b_vt b mod 256) mod 2 = b_vt b mod 2) by lia.
  rewrite Hm. symmetry. apply odd_mod2.
Qed.

Lemma vt_even p v : wf_platform p → N.odd (vt_addr p v) = false.
Proof.
  intros Hwf. rewrite odd_mod2, wf_even by done. done.
Qed.

Lemma not_inlined p b v : wf_platform p → b_vt b = vt_addr p v → is_inlined p b = false.
Proof.
  intros Hwf Hb. rewrite is_inlined_vt by apply Hwf. rewrite Hb. by apply vt_even.
Qed.

Lemma vt_at_addr p v : wf_platform p → vt_at p (vt_addr p v) = Some v.
Proof.
  intros Hwf. unfold vt_at.
  assert (Hne : ∀ w, w ≠ v → vt_addr p v =? vt_addr p w = false).
  { intros w Hw. apply N.eqb_neq. intros Heq. apply Hw. symmetry. by eapply wf_inj. }
  destruct v; repeat first [ rewrite N.eqb_refl; reflexivity | rewrite Hne by done ].
Qed.

Lemma vtable_addr p b v : wf_platform p → b_vt b = vt_addr p v → vtable p b = IsVt v.
Proof.
  intros Hwf Hb. unfold vtable. rewrite (not_inlined p b v) by done.
  rewrite Hb, vt_at_addr by done. done.
Qed.

Lemma vtable_inlined p b : is_inlined p b = true → vtable p b = NoVt.
Proof. intros H. unfold vtable. by rewrite H. Qed.

Lemma max_inline_bounds p : wf_platform p →
  (1 ≤ max_inline p ∧ max_inline p < size_of_bytes p ∧ size_of_bytes p ≤ 125)%nat.
Proof.
  intros [Hw _ _ _ _]. unfold max_inline, size_of_bytes. destruct (little p); lia.
Qed.

Lemma tag_value n : n < 128 → N.lor 1 ((n mod 256) * 2 mod 256) = 2 * n + 1.
Proof.
  intros Hn. rewrite (N.mod_small n) by lia. rewrite N.mod_small by lia.
  replace (n * 2) with (2 * n) by lia. clear Hn.
  apply N.bits_inj; intros k. rewrite N.lor_spec.
  destruct (N.eq_dec k 0) as [->|Hk].
  - rewrite N.testbit_odd_0. done.
  - replace k with (N.succ (N.pred k)) by lia.
    rewrite N.testbit_odd_succ, N.testbit_even_succ by lia.
    change 1 with (2 ^ 0). rewrite N.pow2_bits_false by lia. done.
Qed.

Section Inline.
  Context (p : platform) (Hwf : wf_platform p).
  Context (data : list N) (Hb : bytelist data) (Hlen : (length data ≤ max_inline p)%nat).

  Let n := N.of_nat (length data).
  Let buf := data ++ replicate (size_of_bytes p - length data) 0.
  Let tag := N.lor 1 ((n mod 256) * 2 mod 256).

  Lemma inl_tag : tag = 2 * n + 1.
  Proof. apply tag_value. unfold n. pose proof (max_inline_bounds p Hwf). lia. Qed.

  Lemma inl_raw : raw p (inline_unchecked p data) = <[max_inline p := tag]> buf.
  Proof.
    pose proof (max_inline_bounds p Hwf) as Hmi.
    unfold inline_unchecked. apply raw_of_raw.
    - apply Forall_insert.
      + unfold bytelist in Hb. apply Forall_app; split; [done|]. apply Forall_replicate. lia.
      + change (tag < 256). rewrite inl_tag. unfold n. lia.
    - subst buf. rewrite insert_length, app_length, replicate_length. lia.
  Qed.

  Lemma inl_len_byte : len_byte p (inline_unchecked p data) = 2 * n + 1.
  Proof.
    pose proof (max_inline_bounds p Hwf) as Hmi.
    unfold len_byte. rewrite inl_raw, list_lookup_insert.
    - apply inl_tag.
    - unfold buf. rewrite app_length, replicate_length. lia.
  Qed.

  Lemma inl_is_inlined : is_inlined p (inline_unchecked p data) = true.
  Proof.
    unfold is_inlined. rewrite inl_len_byte.
    change 1 with (N.ones 1) at 2. rewrite N.land_ones. change (2 ^ 1) with 2.
    replace ((2 * n + 1) mod 2) with 1 by lia. done.
  Qed.

  Lemma inl_len : len p (inline_unchecked p data) = n.
  Proof.
    unfold len. rewrite inl_is_inlined, inl_len_byte.
    rewrite N.shiftr_div_pow2. change (2 ^ 1) with 2. lia.
  Qed.

  Lemma inl_take : take (length data) (raw p (inline_unchecked p data)) = data.
  Proof.
    rewrite inl_raw. rewrite take_insert by lia. unfold buf. apply take_app.
  Qed.

  Lemma inl_as_slice m : as_slice p m (inline_unchecked p data) = Some data.
  Proof.
    pose proof (max_inline_bounds p Hwf) as Hmi.
    unfold as_slice. rewrite inl_is_inlined, inl_len.
    destruct (N.leb_spec n (N.of_nat (size_of_bytes p))); [|unfold n in *; lia].
    unfold n. rewrite Nat2N.id. by rewrite inl_take.
  Qed.
End Inline.

(** Every odd vtable word makes the value inlined; the vtable word of an inlined value is non-zero. *)
Lemma inlined_nonzero p b : (1 ≤ wsz p)%nat → is_inlined p b = true → b_vt b ≠ 0.
Proof. intros Hw. rewrite is_inlined_vt by done. intros Ho Hz. rewrite Hz in Ho. done. Qed.
