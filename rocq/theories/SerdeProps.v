(** Property C70: serde and [Bytes]. *)
From Coq Require Import ZifyBool ZifyNat ZifyN.
From stdpp Require Import base numbers list.
From Verif Require Import BytesModel BytesSpec BytesEnc BytesInv BytesMeth BytesRefine BytesFacts BytesProps
  SerdeModel SerdeSpec SerdeProofs.
Local Open Scope N_scope.

(** A value that comes out holds exactly what the format handed over; nothing else changes. *)
Theorem C70_value : ∀ p avail s v s' h, wf_platform p → reach p s → deserialize p avail s v = DOk s' h →
  ∃ c, gives s v c ∧ reach p s' ∧ h = length (view p s) ∧ view p s' = view p s ++ [Some c] ∧
       arc_view s' = arc_view s.
Proof. intros p avail s v s' h Hwf. by apply de_value. Qed.
Print Assumptions C70_value.

(** Serialising and deserialising, whatever the format does in between as long as it hands over the
    same bytes, gives an equal value. *)
Theorem C70_round_trip : ∀ p avail s v s' h i x c, wf_platform p → reach p s → get_h s i = Some x →
  serialize p s x = Some c → gives s v c → deserialize p avail s v = DOk s' h →
  ∃ y, get_h s' i = Some x ∧ get_h s' h = Some y ∧ bytes_eq p (st_mem s') (h_b x) (h_b y) = Some true.
Proof.
  intros p avail s v s' h i x c Hwf Hr Hx Hs Hg H.
  destruct (de_value p Hwf _ _ _ _ _ Hr H) as (c' & Hg' & Hr' & Hh & Hv & _).
  assert (c' = c) as ->.
  { destruct v; cbn [gives] in Hg, Hg'; try naive_solver. subst. by apply map_EByte_inj in Hg'. }
  assert (Hi : view p s !! i = Some (Some c)).
  { unfold view. rewrite list_lookup_fmap. unfold get_h in Hx. destruct (st_h s !! i) as [o|]; [|done].
    cbn in Hx. subst o. cbn. by rewrite <- Hs. }
  assert (Hvh : view p s' !! h = Some (Some c)).
  { rewrite Hv, Hh. by rewrite lookup_app_r, Nat.sub_diag by done. }
  assert (Hx' : get_h s' i = Some x).
  { unfold get_h in *. destruct (st_h s !! i) as [o|] eqn:Eo; [|done]. cbn in Hx. subst o.
    revert H.
    assert (Box : ∀ data base, made (step p s (OFromBox data base)) = DOk s' h → mjoin (st_h s' !! i) = Some x).
    { intros data base. cbn [step]. destruct (forallb is_byte data); [|done].
      assert (Push : ∀ m b, made (push_h s m b) = DOk s' h → mjoin (st_h s' !! i) = Some x).
      { intros m b HP. unfold push_h in HP. cbn [made] in HP. simplify_eq. cbn [st_h]. by rewrite (lookup_app_l_Some _ _ _ _ Eo). }
      destruct data as [|d data]; [by apply Push|]. destruct (alloc _ _ _ _ _); try done. by apply Push. }
    assert (Fs : ∀ rid off n s1 r, step p s (OFromSlice rid off n) = SDone s1 r → st_h s1 !! i = Some (Some x)).
    { intros rid off n s1 r. cbn [step]. destruct (st_mem s !! rid) as [r0|]; [|done].
      destruct (r_kind r0), (r_live r0), (region_slice r0 off n); try done. unfold push_h. intros HP. simplify_eq.
      cbn [st_h]. by rewrite (lookup_app_l_Some _ _ _ _ Eo). }
    destruct v as [rid off n|rid off n base|data base|hint l base|]; cbn [deserialize]; try done.
    - destruct (step p s (OFromSlice rid off n)) as [s1 r| | |] eqn:E; try done.
      destruct r; try done. cbn [made]. intros [= -> ->]. by rewrite (Fs _ _ _ _ _ E).
    - destruct (step p s (OFromSlice rid off n)) as [s1 r| | |] eqn:E; try done.
      destruct (from_slice_step p Hwf _ _ _ _ _ _ Hr E) as (buf & _ & _ & -> & _).
      cbn [step]. unfold with_h. destruct (get_h s1 _) as [y|]; [|done].
      destruct (upgrade p (st_mem s1) (h_b y) base); try done. unfold replace_h. cbn [made]. intros [= <- <-].
      cbn [st_h]. unfold set_h. rewrite list_lookup_insert_ne, (Fs _ _ _ _ _ E); [done|].
      intros Hc. apply lookup_lt_Some in Eo. rewrite len_view in Hc. lia.
    - by apply Box.
    - destruct (collect p avail hint l); try done. by apply Box. }
  assert (Hy : ∃ y, get_h s' h = Some y ∧ as_slice p (st_mem s') (h_b y) = Some c).
  { unfold view in Hvh. rewrite list_lookup_fmap in Hvh. unfold get_h. destruct (st_h s' !! h) as [[y|]|]; try done.
    exists y. split; [done|]. cbn in Hvh. by injection Hvh. }
  destruct Hy as (y & Hy & Hyc). exists y. split_and!; [done|done|].
  assert (Hxc : as_slice p (st_mem s') (h_b x) = Some c).
  { assert (Hvi : view p s' !! i = Some (Some c)) by (rewrite Hv; by apply lookup_app_l_Some).
    unfold view in Hvi. rewrite list_lookup_fmap in Hvi. unfold get_h in Hx'.
    destruct (st_h s' !! i) as [o|]; [|done]. cbn in Hx'. subst o. cbn in Hvi. by injection Hvi. }
  unfold bytes_eq. rewrite Hxc, Hyc. by rewrite bool_decide_eq_true_2.
Qed.
Print Assumptions C70_round_trip.

(** Unless it is part of the input itself, the value stays readable when the buffers of the format go
    away. *)
Theorem C70_detached : ∀ p avail s v s' h rids s'' r, wf_platform p → reach p s → deserialize p avail s v = DOk s' h →
  from_input v = false → run p s' (map OEndBorrow rids) = SDone s'' r →
  (∃ x, get_h s' h = Some x ∧ h_lt x = LStatic) ∧
  ∃ c, gives s v c ∧ view p s'' !! h = Some (Some c).
Proof.
  intros p avail s v s' h rids s'' r Hwf Hr H Hv Hrun. split; [by eapply de_lifetime|].
  destruct (de_value p Hwf _ _ _ _ _ Hr H) as (c & Hg & Hr' & -> & Hview & _).
  destruct (end_borrows p Hwf s' rids s'' r Hr' Hrun) as [_ Hv2]. exists c. split; [done|].
  rewrite Hv2, Hview. by rewrite lookup_app_r, Nat.sub_diag by done.
Qed.
Print Assumptions C70_detached.

(** Never undefined behaviour; errors exactly of formats that fail, changing nothing; formats that do
    not exaggerate cause neither panic nor abort. *)
Theorem C70_safe_partial : ∀ p avail s v, wf_platform p → reach p s →
  deserialize p avail s v ≠ DUndef ∧
  (∀ s', deserialize p avail s v = DErr s' → s' = s ∧ fails v) ∧
  (modest p avail v → deserialize p avail s v ≠ DAbort ∧ ∀ s', deserialize p avail s v ≠ DPanic s').
Proof.
  intros p avail s v Hwf Hr. destruct (de_never p Hwf avail s v Hr) as (H1 & H2 & H3 & H4).
  assert (Hw : (0 < wsz p)%nat) by (pose proof (wf_wsz p Hwf); lia).
  split_and!; [done|done|]. intros Hm. split.
  - intros H. destruct (H4 H) as (hint & l & base & -> & Hc). destruct Hm as [Hm1 Hm2].
    by destruct (collect_modest p avail hint l Hw Hm1 Hm2).
  - intros s' H. destruct (H2 _ H) as (_ & hint & l & base & -> & Hc). destruct Hm as [Hm1 Hm2].
    by destruct (collect_modest p avail hint l Hw Hm1 Hm2).
Qed.
Print Assumptions C70_safe_partial.

(** Bytes are accepted when there is memory for them. *)
Theorem C70_accepts : ∀ p avail s v c, wf_platform p → reach p s → bytelist c →
  match v with
  | VBorrowed rid off n => ∃ r, st_mem s !! rid = Some r ∧ r_kind r = KBorrow ∧ r_live r = true ∧
      off + n ≤ r_len r ∧ c = slice (r_data r) off (off + n)
  | VBytes rid off n base => (∃ r, st_mem s !! rid = Some r ∧ r_kind r = KBorrow ∧ r_live r = true ∧
      off + n ≤ r_len r ∧ c = slice (r_data r) off (off + n)) ∧
      ((length c ≤ max_inline p)%nat ∨ can_alloc p (st_mem s) base (N.of_nat (length c)) (if stabby p then KStab 1 else KArc 1) = true)
  | VBuf data base => c = data ∧ (c = [] ∨ can_alloc p (st_mem s) base (N.of_nat (length c)) KBox = true)
  | VSeq hint l base => l = map EByte c ∧ modest p avail v ∧
      (c = [] ∨ can_alloc p (st_mem s) base (N.of_nat (length c)) KBox = true)
  | VOther => False
  end →
  ∃ s' h, deserialize p avail s v = DOk s' h.
Proof.
  intros p avail s v c Hwf Hr Hb Hc.
  assert (Hbb : forallb is_byte c = true).
  { apply forallb_forall. intros x Hx. unfold is_byte. apply N.ltb_lt. by apply (proj1 (Forall_forall _ _) Hb), elem_of_list_In. }
  assert (Box : ∀ base, (c = [] ∨ can_alloc p (st_mem s) base (N.of_nat (length c)) KBox = true) →
    ∃ s' h, made (step p s (OFromBox c base)) = DOk s' h).
  { intros base Ha. cbn [step]. rewrite Hbb. destruct c as [|d c]; [unfold push_h; cbn [made]; eauto|].
    destruct Ha as [Ha|Ha]; [done|]. unfold alloc. rewrite Ha. unfold push_h; cbn [made]; eauto. }
  assert (Fs : ∀ rid off n, (∃ r, st_mem s !! rid = Some r ∧ r_kind r = KBorrow ∧ r_live r = true ∧
      off + n ≤ r_len r ∧ c = slice (r_data r) off (off + n)) →
      ∃ a, step p s (OFromSlice rid off n) = push_h s (st_mem s) (Handle (from_slice p a c) (LBorrow rid))).
  { intros rid off n (r & Hm & Hk & Hl & Hn & Hcc). cbn [step]. rewrite Hm, Hk, Hl. unfold region_slice.
    destruct (N.leb_spec (off + n) (r_len r)); [|lia]. eexists. do 3 f_equal. rewrite Hcc. unfold slice.
    replace (off + n - off) with n by lia. done. }
  destruct v as [rid off n|rid off n base|data base|hint l base|]; cbn [deserialize].
  - destruct (Fs _ _ _ Hc) as [a ->]. unfold push_h. cbn [made]. eauto.
  - destruct Hc as [Hc Ha]. destruct (Fs _ _ _ Hc) as [a E]. pose proof E as E1. unfold push_h in E1.
    destruct (from_slice_step p Hwf _ _ _ _ _ _ Hr E1) as (buf & Hbuf & Hlen & _ & Hr1 & Hv1 & _). rewrite E1.
    cbn [step]. unfold with_h.
    set (s1 := State (st_mem s) (st_h s ++ [Some (Handle (from_slice p a c) (LBorrow rid))]) (st_arcs s)) in *.
    assert (Hg : get_h s1 (length (st_h s)) = Some (Handle (from_slice p a c) (LBorrow rid))).
    { unfold get_h, s1. cbn [st_h]. by rewrite lookup_app_r, Nat.sub_diag by done. }
    rewrite Hg. cbn [h_b]. change (st_mem s1) with (st_mem s).
    assert (Hup : ∃ b m, upgrade p (st_mem s) (from_slice p a c) base = Ok b m); [|destruct Hup as (b & m & ->); unfold replace_h; cbn [made]; eauto].
    unfold from_slice in *. destruct (Nat.leb_spec (length c) (max_inline p)).
    + unfold upgrade. rewrite vtable_inlined by (by apply inl_is_inlined). eauto.
    + destruct Ha as [Ha|Ha]; [lia|]. unfold upgrade, from_raw_parts.
      rewrite (vtable_addr p _ VBorrow) by done. cbn [is_borrowed vt_release negb].
      destruct (live_readable p Hwf s1 _ _ Hr1 Hg) as (c' & Hc' & Hl' & _). cbn [h_b] in Hc', Hl'.
      change (st_mem s1) with (st_mem s) in Hc'. unfold from_raw_parts in Hc', Hl'. rewrite Hc'.
      assert (c' = c) as ->.
      { assert (Hvl : view p s1 !! length (st_h s) = Some (Some c')).
        { unfold view. rewrite list_lookup_fmap. unfold s1 at 2. cbn [st_h]. rewrite lookup_app_r, Nat.sub_diag by done.
          cbn. by rewrite <- Hc'. }
        rewrite Hv1 in Hvl. rewrite <- (len_view p s) in Hvl. rewrite lookup_app_r, Nat.sub_diag in Hvl by done.
        cbn in Hvl. injection Hvl as <-. destruct Hc as (r & Hm & _ & _ & _ & ->).
        unfold bufs_of in Hbuf. rewrite Hm in Hbuf. cbn in Hbuf. by injection Hbuf as <-. }
      unfold copied_from_slice, inline_slice. destruct (Nat.ltb_spec (max_inline p) (length c)); [|lia].
      unfold alloc. rewrite Ha. destruct (stabby p); unfold drop_bytes; rewrite (vtable_addr p _ VBorrow) by done; cbn [vt_release]; eauto.
  - destruct Hc as [<- Ha]. by apply Box.
  - destruct Hc as (-> & [Hm1 Hm2] & Ha). rewrite map_length in Hm2. rewrite collect_bytes; try done.
    + by apply Box.
    + pose proof (wf_wsz p Hwf); lia.
  - done.
Qed.
Print Assumptions C70_accepts.

(** A sequence with a bad element is an error. *)
Theorem C70_errors : ∀ p avail s hint l base, wf_platform p →
  EError ∈ l → Forall (λ e, match e with EByte x => x < 256 | EError => True end) l →
  modest p avail (VSeq hint l base) → deserialize p avail s (VSeq hint l base) = DErr s.
Proof.
  intros p avail s hint l base Hwf He Hl [H1 H2]. cbn [deserialize]. rewrite collect_error; try done.
  pose proof (wf_wsz p Hwf); lia.
Qed.
Print Assumptions C70_errors.

(** A format that announces a long sequence makes [visit_seq] panic, or abort the process, whatever the
    sequence. *)
Theorem C70_hint : ∀ p avail s hint l base, wf_platform p →
  (2 ^ (8 * N.of_nat (wsz p) - 1) ≤ default 64 hint → deserialize p avail s (VSeq hint l base) = DPanic s) ∧
  (default 64 hint < 2 ^ (8 * N.of_nat (wsz p) - 1) → avail < default 64 hint →
   deserialize p avail s (VSeq hint l base) = DAbort).
Proof.
  intros p avail s hint l base Hwf. assert (Hw : (0 < wsz p)%nat) by (pose proof (wf_wsz p Hwf); lia).
  split; intros; cbn [deserialize]; [by rewrite collect_hint|by rewrite collect_abort].
Qed.
Print Assumptions C70_hint.

Lemma fill_over p avail l : isize_max p ≤ avail → Forall (λ e, ∃ x, e = EByte x ∧ x < 256) l → ∀ cap buf,
  N.of_nat (length buf) ≤ cap → cap ≤ isize_max p → isize_max p < N.of_nat (length buf + length l) →
  fill p avail cap buf l = FPanic.
Proof.
  intros Ha. induction 1 as [|e l (x & -> & Hx) _ IH]; intros cap buf Hb Hc Hl; cbn [length] in Hl; [lia|].
  cbn [fill]. unfold is_byte. destruct (N.ltb_spec x 256); [|lia]. cbn [negb].
  assert (El : length (buf ++ [x]) = S (length buf)) by (rewrite app_length; simpl; lia).
  destruct (N.ltb_spec (N.of_nat (length buf)) cap).
  - apply IH; rewrite ?El; lia.
  - unfold reserve. destruct (N.ltb_spec (isize_max p) (grown cap)); [done|].
    destruct (N.ltb_spec avail (grown cap)); [lia|].
    apply IH; rewrite ?El; unfold grown in *; lia.
Qed.
(** A sequence of more than [isize::MAX] bytes panics, however much memory there is. *)
Theorem C70_too_many : ∀ p avail s hint c base, wf_platform p → bytelist c →
  2 ^ (8 * N.of_nat (wsz p) - 1) ≤ avail + 1 → default 64 hint < 2 ^ (8 * N.of_nat (wsz p) - 1) →
  2 ^ (8 * N.of_nat (wsz p) - 1) ≤ N.of_nat (length c) →
  deserialize p avail s (VSeq hint (map EByte c) base) = DPanic s.
Proof.
  intros p avail s hint c base Hwf Hb Ha Hh Hl. assert (Hw : (0 < wsz p)%nat) by (pose proof (wf_wsz p Hwf); lia).
  assert (E : isize_max p = 2 ^ (8 * N.of_nat (wsz p) - 1) - 1) by (unfold isize_max; by rewrite wlim_half).
  assert (0 < 2 ^ (8 * N.of_nat (wsz p) - 1)) by (apply N.neq_0_lt_0, N.pow_nonzero; lia).
  cbn [deserialize]. unfold collect, reserve.
  destruct (N.ltb_spec (isize_max p) (default 64 hint)); [lia|]. destruct (N.ltb_spec avail (default 64 hint)); [lia|].
  rewrite fill_over; [done|lia| |cbn [length]; lia|lia|rewrite map_length; cbn [length]; lia].
  apply Forall_forall. intros e (x & -> & Hx)%elem_of_list_fmap. exists x. split; [done|].
  by apply (proj1 (Forall_forall _ _) Hb).
Qed.
Print Assumptions C70_too_many.

(** So an input of a few bytes that announces 2^63 elements panics, and one that announces 2^40 aborts
    the process on a machine with less memory. *)
Theorem C70_hint_refuted : ∃ p avail s, wf_platform p ∧ reach p s ∧
  (∃ v, gives s v [1; 2; 3] ∧ deserialize p avail s v = DPanic s) ∧
  (∃ v, gives s v [1; 2; 3] ∧ deserialize p avail s v = DAbort).
Proof.
  exists le64, (2 ^ 34), init. split; [apply wf_le64|]. split; [apply reach_init|]. split.
  - exists (VSeq (Some (2 ^ 63)) (map EByte [1; 2; 3]) 4096). split; [done|]. by vm_compute.
  - exists (VSeq (Some (2 ^ 40)) (map EByte [1; 2; 3]) 4096). split; [done|]. by vm_compute.
Qed.
Print Assumptions C70_hint_refuted.

(** Examples: a value of 40 bytes borrowed from the input and one copied out of a buffer of the format;
    a sequence announced too short. *)
Definition de_state : state := match step le64 init (ONewBorrow 4096 (seqN 100)) with SDone s _ => s | _ => init end.
Example C70_example :
  reach le64 de_state ∧
  (∃ s h, deserialize le64 (2 ^ 34) de_state (VBytes 0 10 40 8192) = DOk s h ∧
     view le64 s !! h = Some (Some (slice (seqN 100) 10 50)) ∧ gives de_state (VBytes 0 10 40 8192) (slice (seqN 100) 10 50) ∧
     ∃ s', run le64 s (map OEndBorrow [0%nat]) = SDone s' RUnit) ∧
  (∃ s h, deserialize le64 (2 ^ 34) de_state (VBorrowed 0 10 40) = DOk s h ∧
     view le64 s !! h = Some (Some (slice (seqN 100) 10 50)) ∧
     run le64 s (map OEndBorrow [0%nat]) = SReject) ∧
  (∃ s h, deserialize le64 (2 ^ 34) de_state (VSeq (Some 2) (map EByte (seqN 50)) 8192) = DOk s h ∧
     view le64 s !! h = Some (Some (seqN 50)) ∧ modest le64 (2 ^ 34) (VSeq (Some 2) (map EByte (seqN 50)) 8192)) ∧
  deserialize le64 (2 ^ 34) de_state (VSeq (Some 2) (map EByte (seqN 50) ++ [EError]) 8192) = DErr de_state.
Proof.
  split. { eapply (reach_done le64 init (ONewBorrow 4096 (seqN 100)) _ RUnit); [apply reach_init|done|by vm_compute]. }
  split_and!.
  - eexists _, _. split; [vm_compute; reflexivity|]. split; [by vm_compute|]. split; [exists (seqN 100); split_and!; [by vm_compute|vm_compute; done|done]|].
    eexists. by vm_compute.
  - eexists _, _. split; [vm_compute; reflexivity|]. split; [by vm_compute|by vm_compute].
  - eexists _, _. split; [vm_compute; reflexivity|]. split; [by vm_compute|]. by vm_compute.
  - by vm_compute.
Qed.
