(** Proofs about [SerdeModel]. *)
From Coq Require Import ZifyBool ZifyNat ZifyN.
From stdpp Require Import base numbers list.
From Verif Require Import BytesModel BytesSpec BytesEnc BytesInv BytesMeth BytesRefine BytesFacts SerdeModel SerdeSpec.
Local Open Scope N_scope.

Lemma wlim_half p : (0 < wsz p)%nat → wlim p / 2 = 2 ^ (8 * N.of_nat (wsz p) - 1).
Proof.
  intros H. unfold wlim. change 256 with (2 ^ 8). rewrite <- N.pow_mul_r.
  replace (8 * N.of_nat (wsz p)) with (N.succ (8 * N.of_nat (wsz p) - 1)) at 1 by lia.
  rewrite N.pow_succ_r', N.mul_comm. by apply N.div_mul.
Qed.

Lemma reserve_ok p avail n : (0 < wsz p)%nat → fits p avail n → reserve p avail n = RoomOk.
Proof.
  intros Hw [H1 H2]. unfold reserve, isize_max. rewrite wlim_half by done.
  destruct (N.ltb_spec (2 ^ (8 * N.of_nat (wsz p) - 1) - 1) n); [lia|].
  by destruct (N.ltb_spec avail n); [lia|].
Qed.
Lemma reserve_cases p avail n : (0 < wsz p)%nat →
  match reserve p avail n with
  | RoomOk => fits p avail n
  | RoomPanic => 2 ^ (8 * N.of_nat (wsz p) - 1) ≤ n
  | RoomAbort => n < 2 ^ (8 * N.of_nat (wsz p) - 1) ∧ avail < n
  end.
Proof.
  intros Hw. unfold reserve, isize_max. rewrite wlim_half by done.
  assert (0 < 2 ^ (8 * N.of_nat (wsz p) - 1)) by (apply N.neq_0_lt_0; by apply N.pow_nonzero).
  destruct (N.ltb_spec (2 ^ (8 * N.of_nat (wsz p) - 1) - 1) n); [lia|].
  destruct (N.ltb_spec avail n); [split; lia|]. split; lia.
Qed.

(** What the loop ends with is what it was given. *)
Lemma fill_done p avail l : ∀ cap buf data, fill p avail cap buf l = FDone data →
  ∃ c, l = map EByte c ∧ data = buf ++ c ∧ forallb is_byte c = true.
Proof.
  induction l as [|[x|] l IH]; intros cap buf data H; cbn [fill] in H; [|destruct (is_byte x) eqn:Hb; cbn [negb] in H; [|done]|done].
  { simplify_eq. exists []. split_and!; [done|by rewrite app_nil_r|done]. }
  assert (∃ cap', fill p avail cap' (buf ++ [x]) l = FDone data) as [cap' H'].
  { destruct (_ <? _); [eauto|]. destruct (reserve _ _ _); eauto; done. }
  destruct (IH _ _ _ H') as (c & -> & -> & Hc). exists (x :: c).
  split_and!; [done|by rewrite <- app_assoc|]. simpl. by rewrite Hb.
Qed.
Lemma collect_done p avail hint l data : collect p avail hint l = FDone data →
  l = map EByte data ∧ forallb is_byte data = true.
Proof.
  unfold collect. destruct (reserve _ _ _); try done. intros H.
  by destruct (fill_done _ _ _ _ _ _ H) as (c & -> & -> & Hc).
Qed.
Lemma fill_err p avail l : ∀ cap buf, fill p avail cap buf l = FErr → EError ∈ l.
Proof.
  induction l as [|[x|] l IH]; intros cap buf H; cbn [fill] in H; [done| |left].
  right. destruct (is_byte x); [|done]. cbn [negb] in H.
  destruct (_ <? _); [by eapply IH|]. destruct (reserve _ _ _); try done. by eapply IH.
Qed.

(** With memory enough, the loop neither panics nor aborts. *)
Lemma fill_modest p avail l : (0 < wsz p)%nat → ∀ cap buf,
  N.of_nat (length buf) ≤ cap →
  fits p avail (2 * N.of_nat (length buf + length l) + 8) →
  fill p avail cap buf l ≠ FPanic ∧ fill p avail cap buf l ≠ FAbort.
Proof.
  intros Hw. induction l as [|[x|] l IH]; intros cap buf Hcap Hf; cbn [fill]; [done| |done].
  destruct (is_byte x); cbn [negb]; [|done].
  assert (Hl : length (buf ++ [x]) = S (length buf)) by (rewrite app_length; simpl; lia).
  destruct (N.ltb_spec (N.of_nat (length buf)) cap).
  - apply IH; rewrite Hl; [lia|]. cbn [length] in Hf.
    replace (S (length buf) + length l)%nat with (length buf + S (length l))%nat by lia. done.
  - rewrite reserve_ok.
    + apply IH; rewrite Hl; [unfold grown; lia|]. cbn [length] in Hf.
      replace (S (length buf) + length l)%nat with (length buf + S (length l))%nat by lia. done.
    + done.
    + unfold fits, grown in *. cbn [length] in Hf. destruct Hf. split; lia.
Qed.
Lemma fill_end p avail l : ∀ cap buf, Forall (λ e, match e with EByte x => x < 256 | EError => True end) l →
  fill p avail cap buf l ≠ FReject.
Proof.
  induction l as [|[x|] l IH]; intros cap buf H; cbn [fill]; [done| |done].
  apply Forall_cons in H as [Hx H]. unfold is_byte. destruct (N.ltb_spec x 256); [|lia]. cbn [negb].
  destruct (_ <? _); [by apply IH|]. destruct (reserve _ _ _); try done. by apply IH.
Qed.

Lemma map_EByte_inj a b : map EByte a = map EByte b → a = b.
Proof.
  revert b. induction a as [|x a IH]; intros [|y b] H; try done. simpl in H. injection H as -> H. by rewrite (IH _ H).
Qed.
Lemma err_map c : EError ∈ map EByte c → False.
Proof. intros H. apply elem_of_list_In, in_map_iff in H as (x & H & _). done. Qed.

Lemma len_view p s : length (view p s) = length (st_h s).
Proof. unfold view. by rewrite fmap_length. Qed.

Section with_platform.
Context (p : platform) (Hwf : wf_platform p).

Lemma from_slice_step s rid off n s' r : reach p s → step p s (OFromSlice rid off n) = SDone s' r →
  ∃ buf, bufs_of s rid = Some buf ∧ off + n ≤ N.of_nat (length buf) ∧ r = RHandle (length (view p s)) ∧
    reach p s' ∧ view p s' = view p s ++ [Some (slice buf off (off + n))] ∧ arc_view s' = arc_view s.
Proof.
  intros Hr Hst. pose proof (step_refines p Hwf s (OFromSlice rid off n) Hr I) as H. rewrite Hst in H.
  cbn [expects] in H. destruct H as (c & H1 & H2 & H3 & H4 & H5). exists c.
  split_and!; try done. by eapply (reach_done p s (OFromSlice rid off n)).
Qed.
Lemma from_box_step s data base s' r : reach p s → step p s (OFromBox data base) = SDone s' r →
  r = RHandle (length (view p s)) ∧ reach p s' ∧ view p s' = view p s ++ [Some data] ∧ arc_view s' = arc_view s.
Proof.
  intros Hr Hst. pose proof (step_refines p Hwf s (OFromBox data base) Hr I) as H. rewrite Hst in H.
  cbn [expects] in H. destruct H as (H3 & H4 & H5).
  split_and!; try done. by eapply (reach_done p s (OFromBox data base)).
Qed.
Lemma from_slice_outcome s rid off n : reach p s →
  (∃ s', step p s (OFromSlice rid off n) = SDone s' (RHandle (length (view p s)))) ∨ step p s (OFromSlice rid off n) = SReject.
Proof.
  intros Hr. pose proof (step_refines p Hwf s (OFromSlice rid off n) Hr I) as H.
  destruct (step p s (OFromSlice rid off n)) as [s' r|s'| |] eqn:E; [|done|done|by right].
  left. exists s'. cbn [expects] in H. by destruct H as (c & _ & _ & -> & _).
Qed.
Lemma from_box_outcome s data base : reach p s →
  (∃ s', step p s (OFromBox data base) = SDone s' (RHandle (length (view p s)))) ∨ step p s (OFromBox data base) = SReject.
Proof.
  intros Hr. pose proof (step_refines p Hwf s (OFromBox data base) Hr I) as H.
  destruct (step p s (OFromBox data base)) as [s' r|s'| |] eqn:E; [|done|done|by right].
  left. exists s'. cbn [expects] in H. by destruct H as (-> & _).
Qed.
Lemma upgrade_outcome s h base : reach p s →
  (∃ s', step p s (OUpgrade h base) = SDone s' (RHandle h)) ∨ step p s (OUpgrade h base) = SReject.
Proof.
  intros Hr. pose proof (step_refines p Hwf s (OUpgrade h base) Hr I) as H.
  destruct (step p s (OUpgrade h base)) as [s' r|s'| |] eqn:E; [|done|done|by right].
  left. exists s'. cbn [expects] in H. by destruct H as (-> & _).
Qed.

Lemma de_value avail s v s' h : reach p s → deserialize p avail s v = DOk s' h →
  ∃ c, gives s v c ∧ reach p s' ∧ h = length (view p s) ∧ view p s' = view p s ++ [Some c] ∧ arc_view s' = arc_view s.
Proof.
  intros Hr H. destruct v as [rid off n|rid off n base|data base|hint l base|]; cbn [deserialize] in H.
  - destruct (step p s (OFromSlice rid off n)) as [s1 r| | |] eqn:E; try done.
    destruct (from_slice_step _ _ _ _ _ _ Hr E) as (buf & H1 & H2 & -> & H4 & H5 & H6). cbn [made] in H. simplify_eq.
    eexists. split; [by exists buf|]. done.
  - destruct (step p s (OFromSlice rid off n)) as [s1 r| | |] eqn:E; try done.
    destruct (from_slice_step _ _ _ _ _ _ Hr E) as (buf & H1 & H2 & -> & H4 & H5 & H6).
    destruct (step p s1 (OUpgrade _ base)) as [s2 r2| | |] eqn:E2; try done.
    destruct (upgrade_step p Hwf _ _ _ _ _ H4 E2) as (H7 & H8 & _).
    pose proof (step_refines p Hwf s1 (OUpgrade (length (view p s)) base) H4 I) as H9. rewrite E2 in H9.
    cbn [expects] in H9. destruct H9 as (-> & _). cbn [made] in H. simplify_eq.
    eexists. split; [by exists buf|]. split; [by eapply (reach_done p s1 (OUpgrade _ base))|].
    split; [done|]. split; [by rewrite H7|by rewrite H8].
  - destruct (step p s (OFromBox data base)) as [s1 r| | |] eqn:E; try done.
    destruct (from_box_step _ _ _ _ _ Hr E) as (-> & H4 & H5 & H6). cbn [made] in H. simplify_eq. by exists data.
  - destruct (collect p avail hint l) as [data| | | |] eqn:Ec; try done.
    destruct (collect_done _ _ _ _ _ Ec) as [-> _].
    destruct (step p s (OFromBox data base)) as [s1 r| | |] eqn:E; try done.
    destruct (from_box_step _ _ _ _ _ Hr E) as (-> & H4 & H5 & H6). cbn [made] in H. simplify_eq. by exists data.
  - done.
Qed.

Lemma de_lifetime avail s v s' h : reach p s → deserialize p avail s v = DOk s' h → from_input v = false →
  ∃ x, get_h s' h = Some x ∧ h_lt x = LStatic.
Proof.
  intros Hr H Hv.
  assert (Box : ∀ data base, made (step p s (OFromBox data base)) = DOk s' h → ∃ x, get_h s' h = Some x ∧ h_lt x = LStatic).
  { intros data base. cbn [step]. destruct (forallb is_byte data); [|done].
    assert (Push : ∀ m b, made (push_h s m (Handle b LStatic)) = DOk s' h → ∃ x, get_h s' h = Some x ∧ h_lt x = LStatic).
    { intros m b HP. unfold push_h in HP. cbn [made] in HP. simplify_eq. exists (Handle b LStatic).
      split; [|done]. unfold get_h. cbn [st_h]. by rewrite lookup_app_r, Nat.sub_diag by done. }
    destruct data as [|d data]; [by apply Push|]. destruct (alloc _ _ _ _ _); try done. by apply Push. }
  destruct v as [rid off n|rid off n base|data base|hint l base|]; cbn [deserialize] in H; try done.
  - destruct (step p s (OFromSlice rid off n)) as [s1 r| | |] eqn:E; try done.
    destruct (from_slice_step _ _ _ _ _ _ Hr E) as (buf & H1 & H2 & -> & H4 & H5 & H6).
    destruct (step p s1 (OUpgrade _ base)) as [s2 r2| | |] eqn:E2; try done.
    destruct (upgrade_step p Hwf _ _ _ _ _ H4 E2) as (_ & _ & H7).
    pose proof (step_refines p Hwf s1 (OUpgrade (length (view p s)) base) H4 I) as H9. rewrite E2 in H9.
    cbn [expects] in H9. destruct H9 as (-> & _). cbn [made] in H. by simplify_eq.
  - by eapply Box.
  - destruct (collect p avail hint l); try done. by eapply Box.
Qed.

Lemma de_never avail s v : reach p s → deserialize p avail s v ≠ DUndef ∧
  (∀ s', deserialize p avail s v = DPanic s' → s' = s ∧ ∃ hint l base, v = VSeq hint l base ∧ collect p avail hint l = FPanic) ∧
  (∀ s', deserialize p avail s v = DErr s' → s' = s ∧ fails v) ∧
  (deserialize p avail s v = DAbort → ∃ hint l base, v = VSeq hint l base ∧ collect p avail hint l = FAbort).
Proof.
  intros Hr.
  assert (Box : ∀ data base, (∃ s' h, made (step p s (OFromBox data base)) = DOk s' h) ∨ made (step p s (OFromBox data base)) = DReject).
  { intros data base. destruct (from_box_outcome s data base Hr) as [[s' ->]| ->]; cbn [made]; eauto. }
  destruct v as [rid off n|rid off n base|data base|hint l base|]; cbn [deserialize].
  - destruct (from_slice_outcome s rid off n Hr) as [[s' ->]| ->]; cbn [made]; split_and!; intros; done.
  - destruct (from_slice_outcome s rid off n Hr) as [[s1 E]| ->]; [|cbn [made]; split_and!; intros; done].
    destruct (from_slice_step _ _ _ _ _ _ Hr E) as (buf & H1 & H2 & _ & H4 & H5 & H6). rewrite E.
    destruct (upgrade_outcome s1 (length (view p s)) base H4) as [[s2 ->]| ->]; cbn [made]; split_and!; intros; done.
  - destruct (Box data base) as [(s' & h & ->)| ->]; split_and!; intros; done.
  - destruct (collect p avail hint l) as [data| | | |] eqn:Ec.
    + destruct (Box data base) as [(s' & h & ->)| ->]; split_and!; intros; done.
    + split_and!; try done. intros s' [= <-]. split; [done|]. cbn [fails]. unfold collect in Ec.
      destruct (reserve _ _ _); try done. by eapply fill_err.
    + split_and!; try done. intros s' [= <-]. split; [done|]. eauto 10.
    + split_and!; try done. eauto 10.
    + split_and!; done.
  - split_and!; try done. by intros s' [= <-].
Qed.
End with_platform.

Lemma collect_modest p avail hint l : (0 < wsz p)%nat →
  fits p avail (default 64 hint) → fits p avail (2 * N.of_nat (length l) + 8) →
  collect p avail hint l ≠ FPanic ∧ collect p avail hint l ≠ FAbort.
Proof.
  intros Hw H1 H2. unfold collect. rewrite reserve_ok by done. apply fill_modest; [done|simpl; lia|done].
Qed.
Lemma collect_bytes p avail hint c : (0 < wsz p)%nat → forallb is_byte c = true →
  fits p avail (default 64 hint) → fits p avail (2 * N.of_nat (length c) + 8) →
  collect p avail hint (map EByte c) = FDone c.
Proof.
  intros Hw Hb H1 H2.
  destruct (collect_modest p avail hint (map EByte c) Hw H1) as [H3 H4]; [by rewrite map_length|].
  destruct (collect p avail hint (map EByte c)) as [d| | | |] eqn:E; try done.
  - destruct (collect_done _ _ _ _ _ E) as [H5 _]. by rewrite (map_EByte_inj _ _ H5).
  - exfalso. unfold collect in E. destruct (reserve _ _ _); try done. by eapply err_map, fill_err.
  - exfalso. unfold collect in E. destruct (reserve _ _ _); try done. eapply fill_end; [|exact E].
    apply Forall_forall. intros e He. apply elem_of_list_In, in_map_iff in He as (x & <- & Hx).
    rewrite forallb_forall in Hb. apply Hb in Hx. unfold is_byte in Hx. lia.
Qed.
Lemma collect_error p avail hint l : (0 < wsz p)%nat → EError ∈ l →
  Forall (λ e, match e with EByte x => x < 256 | EError => True end) l →
  fits p avail (default 64 hint) → fits p avail (2 * N.of_nat (length l) + 8) →
  collect p avail hint l = FErr.
Proof.
  intros Hw He Hb H1 H2.
  destruct (collect_modest p avail hint l Hw H1 H2) as [H3 H4].
  destruct (collect p avail hint l) as [d| | | |] eqn:E; try done.
  - exfalso. destruct (collect_done _ _ _ _ _ E) as [-> _]. by eapply err_map.
  - exfalso. unfold collect in E. destruct (reserve _ _ _); try done. by eapply fill_end.
Qed.
Lemma collect_hint p avail hint l : (0 < wsz p)%nat → 2 ^ (8 * N.of_nat (wsz p) - 1) ≤ default 64 hint →
  collect p avail hint l = FPanic.
Proof.
  intros Hw H. unfold collect. pose proof (reserve_cases p avail (default 64 hint) Hw) as Hc.
  destruct (reserve _ _ _); [unfold fits in Hc; lia|done|lia].
Qed.
Lemma collect_abort p avail hint l : (0 < wsz p)%nat → default 64 hint < 2 ^ (8 * N.of_nat (wsz p) - 1) → avail < default 64 hint →
  collect p avail hint l = FAbort.
Proof.
  intros Hw H H'. unfold collect. pose proof (reserve_cases p avail (default 64 hint) Hw) as Hc.
  destruct (reserve _ _ _); [unfold fits in Hc; lia|lia|done].
Qed.
