(** Proofs about inlined [Bytes]: every one that programs get is made by
    [inline_unchecked], so its [len] field is the second word of its bytes. *)
From Coq Require Import ZifyBool ZifyNat ZifyN.
From stdpp Require Import base numbers list.
From Verif Require Import BytesModel BytesSpec BytesEnc BytesInv BytesOps BytesMeth BytesRefine BytesFacts.
Local Open Scope N_scope.
Ltac Zify.zify_post_hook ::= Z.div_mod_to_equations.

(** The second word of some bytes, padded with zeros. *)
Definition second_word (p : platform) (c : list N) : N :=
  dec p (take (wsz p) (drop (wsz p) (c ++ replicate (2 * wsz p) 0))).

Definition canon (p : platform) (b : bytes) : Prop :=
  is_inlined p b = false ∨ ∃ c, bytelist c ∧ (length c ≤ max_inline p)%nat ∧ b = inline_unchecked p c.

Lemma two_words p : wf_platform p → (2 * wsz p ≤ max_inline p)%nat.
Proof. intros Hwf. pose proof (wf_wsz p Hwf). unfold max_inline, size_of_bytes. destruct (little p); lia. Qed.

Lemma len_field p c : wf_platform p → (length c ≤ max_inline p)%nat → b_len (inline_unchecked p c) = second_word p c.
Proof.
  intros Hwf Hl. pose proof (two_words p Hwf) as H2. pose proof (max_inline_bounds p Hwf) as Hm. pose proof (wf_wsz p Hwf) as Hw.
  unfold inline_unchecked, of_raw, second_word; cbn [b_len]. f_equal. rewrite Nat.mul_1_l.
  apply list_eq. intros i. destruct (decide (i < wsz p)%nat) as [Hi|Hi]; [|by rewrite !lookup_take_ge by lia].
  rewrite !lookup_take, !lookup_drop by done. rewrite list_lookup_insert_ne by lia.
  destruct (decide (wsz p + i < length c)%nat) as [Hc|Hc].
  - by rewrite !lookup_app_l by done.
  - rewrite !lookup_app_r by lia. assert (size_of_bytes p = 5 * wsz p)%nat by done.
    rewrite !lookup_replicate_2 by lia. done.
Qed.
Lemma second_word_lt p c : wf_platform p → bytelist c → second_word p c < wlim p.
Proof.
  intros Hwf Hb. apply dec_lt.
  - apply Forall_take, Forall_drop, Forall_app. split; [done|]. apply Forall_replicate. lia.
  - rewrite take_length, drop_length, app_length, replicate_length. lia.
Qed.

Lemma canon_vt p b v : wf_platform p → b_vt b = vt_addr p v → canon p b.
Proof. intros Hwf H. left. by eapply not_inlined. Qed.
Lemma canon_inline p c : bytelist c → (length c ≤ max_inline p)%nat → canon p (inline_unchecked p c).
Proof. intros H1 H2. right. by exists c. Qed.
Lemma inlined_same p b b' : wf_platform p → b_vt b = b_vt b' → is_inlined p b = is_inlined p b'.
Proof. intros Hwf H. pose proof (wf_wsz p Hwf). by rewrite !is_inlined_vt, H by lia. Qed.
Lemma range_bytes c s e part : bytelist c → index_range c s e = Some part → bytelist part ∧ N.of_nat (length part) = e - s.
Proof.
  intros Hb. unfold index_range. destruct (N.leb_spec s e); [|done]. destruct (N.leb_spec e (N.of_nat (length c))); [|done].
  cbn [andb]. intros [= <-]. split; [apply Forall_take, Forall_drop, Hb|]. rewrite take_length, drop_length. lia.
Qed.

Section Canon.
Context (p : platform) (Hwf : wf_platform p) (m : mem) (b : bytes) (c : list N).
Context (Hc : as_slice p m b = Some c) (Hl : len p b = N.of_nat (length c)) (Hb : bytelist c) (Hcanon : canon p b).

Lemma copied_canon m0 base data b' m' : bytelist data → copied_from_slice p m0 base data = Ok b' m' → canon p b'.
Proof.
  intros Hd. unfold copied_from_slice, inline_slice. destruct (Nat.ltb_spec (max_inline p) (length data)) as [H|H].
  - destruct (alloc p m0 base data _); try done. intros [= <- <-].
    destruct (stabby p); [by apply (canon_vt _ _ VStab)|by apply (canon_vt _ _ VArc)].
  - intros [= <- <-]. by apply canon_inline.
Qed.
Lemma noalloc_clone_canon b' m' : noalloc_clone p m b = Ok (Some b') m' → b' = b.
Proof. unfold noalloc_clone. destruct (vtable p b) as [| |v]; [congruence|done|]. destruct (vt_retain v); [|done]. destruct (call_retain _ _ _ _); congruence. Qed.
Lemma noalloc_clone_none m' : noalloc_clone p m b = Ok None m' → m' = m.
Proof. unfold noalloc_clone. destruct (vtable p b) as [| |v]; [congruence|done|]. destruct (vt_retain v); [destruct (call_retain _ _ _ _)|]; congruence. Qed.
Lemma clone_canon base b' m' : clone p m b base = Ok b' m' → canon p b'.
Proof.
  unfold clone. destruct (noalloc_clone p m b) as [[b1|] m1|m1| |] eqn:E; try done.
  - intros [= <- <-]. by rewrite (noalloc_clone_canon _ _ E).
  - rewrite (noalloc_clone_none _ E), Hc. by apply copied_canon.
Qed.
Lemma shrink_canon lo hi b' m' :
  (is_inlined p b = true → ∀ e, end_bound p b hi = Some e → e ≤ N.of_nat (length c)) →
  shrink_to p m b lo hi = Ok b' m' → canon p b'.
Proof.
  intros Hadm. unfold shrink_to. destruct (start_bound p lo) as [s|]; [|done]. destruct (end_bound p b hi) as [e|]; [|done].
  destruct (N.leb_spec s e); [|done]. destruct (N.leb_spec e (b_len b)); [|done]. cbn [negb].
  destruct (N.leb_spec (e - s) (N.of_nat (max_inline p))).
  - rewrite Hc. destruct (index_range c s e) as [part|] eqn:Er; [|done]. destruct (range_bytes _ _ _ _ Hb Er) as [Hp1 Hp2].
    destruct (drop_bytes p m b); try done. intros [= <- <-]. apply canon_inline; [done|lia].
  - destruct (ptr_add m (b_start b) s); [|done]. intros [= <- <-].
    destruct (is_inlined p b) eqn:Hi; [|left; by rewrite <- Hi; apply inlined_same].
    exfalso. destruct Hcanon as [?|(d & Hd & Hdl & ->)]; [congruence|]. specialize (Hadm eq_refl e eq_refl).
    rewrite inl_len in Hl by done. lia.
Qed.
Lemma subsliced_canon lo hi b' m' :
  (is_inlined p b = true → ∀ e, end_bound p b hi = Some e → e ≤ N.of_nat (length c)) →
  subsliced p m b lo hi = Ok b' m' → canon p b'.
Proof.
  intros Hadm. unfold subsliced. destruct (shrink_to p m b lo hi) as [b1 m1|m1| |] eqn:E; try done.
  - intros [= <- <-]. by eapply shrink_canon.
  - by destruct (drop_bytes p m1 b).
Qed.
Lemma copied_long m0 base data b' m' : (max_inline p < length data)%nat → copied_from_slice p m0 base data = Ok b' m' → is_inlined p b' = false.
Proof.
  intros H. unfold copied_from_slice, inline_slice. rewrite (proj2 (Nat.ltb_lt _ _)) by done.
  destruct (alloc p m0 base data _); try done. destruct (stabby p); intros [= <- <-];
    [by eapply (not_inlined p _ VStab)|by eapply (not_inlined p _ VArc)].
Qed.
Lemma split_canon i base l r m' : split_at p m b i base = Ok (inl (l, r)) m' →
  N.of_nat (max_inline p) < i ∧ i ≤ N.of_nat (length c) ∧ (canon p r ∨ N.of_nat (max_inline p) < N.of_nat (length c) - i) ∨ canon p l ∧ canon p r.
Proof.
  unfold split_at. rewrite Hl. destruct (N.leb_spec i (N.of_nat (length c))); [|done].
  destruct (N.leb_spec i (N.of_nat (max_inline p))).
  - rewrite Hc. destruct (index_range c 0 i) as [d|] eqn:Er; [|by destruct (drop_bytes p m b)].
    destruct (range_bytes _ _ _ _ Hb Er) as [Hd1 Hd2]. destruct (subsliced p m b (Incl i) Unb) as [r1 m1|m1| |] eqn:Es; try done.
    intros [= <- <- <-]. right. split; [apply canon_inline; [done|lia]|]. eapply subsliced_canon; [|done].
    cbn [end_bound]. intros _ e [= <-]. rewrite Hl. lia.
  - destruct (N.leb_spec (N.of_nat (length c) - i) (N.of_nat (max_inline p))).
    + rewrite Hc. destruct (index_range c i _) as [d|] eqn:Er; [|by destruct (drop_bytes p m b)].
      destruct (range_bytes _ _ _ _ Hb Er) as [Hd1 Hd2]. destruct (subsliced p m b Unb (Excl i)) as [r1 m1|m1| |]; try done.
      intros [= <- <- <-]. left. split; [done|]. split; [done|]. left. apply canon_inline; [done|lia].
    + intros _. left. split; [done|]. split; [done|]. by right.
Qed.
Lemma upgrade_canon base b' m' : upgrade p m b base = Ok b' m' → canon p b'.
Proof.
  unfold upgrade. destruct (vtable p b) as [| |v]; [by intros [= <- <-]|done|]. destruct (negb (is_borrowed v)); [by intros [= <- <-]|]. rewrite Hc.
  destruct (copied_from_slice p m base c) as [b1 m1|m1| |] eqn:E; try done. destruct (drop_bytes p m1 b); try done. intros [= <- <-].
  by eapply copied_canon.
Qed.
Lemma noalloc_upgrade_canon r m' : noalloc_upgrade p m b = Ok r m' → canon p (match r with inl b' => b' | inr b' => b' end).
Proof.
  unfold noalloc_upgrade. destruct (vtable p b) as [| |v]; [|done|].
  - cbn [negb]. rewrite Hc. unfold inline_slice. destruct (Nat.ltb_spec (max_inline p) (length c)); [by intros [= <- <-]|].
    destruct (drop_bytes p m b); try done. intros [= <- <-]. by apply canon_inline.
  - destruct (negb (negb (is_borrowed v))); [by intros [= <- <-]|]. rewrite Hc. unfold inline_slice. destruct (Nat.ltb_spec (max_inline p) (length c)); [by intros [= <- <-]|].
    destruct (drop_bytes p m b); try done. intros [= <- <-]. by apply canon_inline.
Qed.
Lemma read_canon n l b' m' : read p m b n = Ok (l, b') m' → canon p b'.
Proof.
  unfold read. rewrite Hc. destruct (index_range c 0 _); [|done]. destruct (shrink_to p m b _ Unb) as [b1 m1|m1| |] eqn:E; try done.
  intros [= <- <- <-]. eapply shrink_canon; [|done]. cbn [end_bound]. intros _ e [= <-]. rewrite Hl. lia.
Qed.
End Canon.

Lemma adm_end p b (c : list N) hi : len p b = N.of_nat (length c) → bound_ok p hi true →
  match hi with Unb => True | Incl i => i + 1 ≤ len p b | Excl i => i ≤ len p b end →
  ∀ e, end_bound p b hi = Some e → e ≤ N.of_nat (length c).
Proof.
  intros Hl Hok Hadm e. destruct hi as [i|i|]; cbn [end_bound].
  - unfold succ_usize. destruct (i + 1 <? wlim p); [|destruct (ovf_checks p); [done|]]; intros [= <-]; lia.
  - intros [= <-]. lia.
  - intros [= <-]. lia.
Qed.

Lemma long_canon p s h x c : wf_platform p → reach p s → get_h s h = Some x → view p s !! h = Some (Some c) →
  (max_inline p < length c)%nat → canon p (h_b x).
Proof.
  intros Hwf Hr Hx Hv Hlong. left. destruct (is_inlined p (h_b x)) eqn:Hi; [|done]. exfalso.
  destruct (view_handle p Hwf s h x Hr Hx) as (c' & Hc' & Hok & _). assert (c' = c) as -> by congruence.
  pose proof (inl_len_le p Hwf _ _ _ Hok Hi). lia.
Qed.

Definition all_canon (p : platform) (s : state) : Prop := ∀ h x, get_h s h = Some x → canon p (h_b x).

Lemma canon_push p s m x arcs : all_canon p s → canon p (h_b x) → all_canon p (State m (st_h s ++ [Some x]) arcs).
Proof.
  intros Ha Hx h y. unfold get_h. cbn [st_h]. destruct (decide (h < length (st_h s))%nat) as [Hh|Hh].
  - rewrite lookup_app_l by done. apply (Ha h).
  - rewrite lookup_app_r by lia. destruct (h - length (st_h s))%nat as [|k]; cbn; [intros [= <-]; done|done].
Qed.
Lemma canon_set p s m h x arcs : all_canon p s → (∀ y, x = Some y → canon p (h_b y)) → all_canon p (State m (set_h s h x) arcs).
Proof.
  intros Ha Hx k y. unfold get_h, set_h. cbn [st_h]. destruct (decide (h = k)) as [<-|Hne].
  - destruct (decide (h < length (st_h s))%nat).
    + rewrite list_lookup_insert by done. cbn. intros ->. by apply Hx.
    + rewrite list_insert_ge by lia. rewrite lookup_ge_None_2 by lia. done.
  - rewrite list_lookup_insert_ne by done. apply (Ha k).
Qed.
Lemma canon_same p s m arcs : all_canon p s → all_canon p (State m (st_h s) arcs).
Proof. intros Ha h x. apply (Ha h). Qed.

Lemma canon_step p s o s' : wf_platform p → reach p s → admissible p s o → all_canon p s →
  (∃ r, step p s o = SDone s' r) ∨ step p s o = SPanic s' → reach p s' → all_canon p s'.
Proof.
  intros Hwf Hr Hadm Ha Hst Hr'.
  destruct o as [base data|base data|rid|base data|base data|i|i|rid off n|rid off n|data|data base|i|i off n|data base|h base|h|h|h lo hi|h lo hi|h i base|h base|h|h|h|h n|base data|i|data base|h].
  all: cbn [step] in Hst.
  all: unfold push_h, replace_h in Hst.
  (* operations on a handle *)
  all: try match type of Hst with context [with_h] => unfold with_h in Hst;
    destruct (get_h s h) as [x|] eqn:Hx; [|naive_solver];
    destruct (live_readable p Hwf s h x Hr Hx) as (c & Hc & Hl & Hb); pose proof (Ha h x Hx) as Hcx end.
  - destruct (forallb is_byte data); [|naive_solver]. destruct (alloc _ _ _ _ _); naive_solver eauto using canon_same.
  - destruct (forallb is_byte data); [|naive_solver]. destruct (alloc _ _ _ _ _); naive_solver eauto using canon_same.
  - destruct (st_mem s !! rid) as [r|]; [|naive_solver]. destruct (r_kind r); try (exfalso; naive_solver). destruct (r_live r && _); naive_solver eauto using canon_same.
  - destruct (forallb is_byte data); [|naive_solver]. destruct (alloc _ _ _ _ _); naive_solver eauto using canon_same.
  - destruct (forallb is_byte data); [|naive_solver]. destruct (alloc _ _ _ _ _); naive_solver eauto using canon_same.
  - destruct (get_arc s i) as [a|]; [|naive_solver]. destruct (call_retain _ _ _ _); naive_solver eauto using canon_same.
  - destruct (get_arc s i) as [a|]; [|naive_solver]. destruct (call_release _ _ _ _); naive_solver eauto using canon_same.
  - destruct (st_mem s !! rid) as [r|]; [|naive_solver]. destruct (r_kind r), (r_live r), (region_slice r off n); try (exfalso; naive_solver).
    destruct Hst as [[? [= <- <-]]|[=]]. apply canon_push; [done|]. by apply (canon_vt _ _ VStatic).
  - destruct (st_mem s !! rid) as [r|] eqn:Em; [|naive_solver]. destruct (r_kind r), (r_live r), (region_slice r off n) as [data|] eqn:Er; try (exfalso; naive_solver).
    destruct Hst as [[? [= <- <-]]|[=]]. apply canon_push; [done|]. cbn [h_b]. unfold from_slice.
    destruct (Nat.leb_spec (length data) (max_inline p)); [|by apply (canon_vt _ _ VBorrow)]. apply canon_inline; [|done].
    destruct (reach_inv p Hwf s Hr) as (G & A & HS). pose proof HS as (_ & _ & HI).
    pose proof (I_reg _ _ _ _ HI rid r Em) as (Hreg & _). unfold region_slice in Er. destruct (off + n <=? r_len r); [|done].
    injection Er as <-. by apply Forall_take, Forall_drop.
  - destruct (forallb is_byte data) eqn:Hd; [|naive_solver]. apply bytes_dec in Hd. unfold inline_slice in Hst.
    destruct (Nat.ltb_spec (max_inline p) (length data)); destruct Hst as [[? [= <- <-]]|[=]]; [done|]. apply canon_push; [done|]. by apply canon_inline.
  - destruct (forallb is_byte data) eqn:Hd; [|naive_solver]. apply bytes_dec in Hd. destruct (copied_from_slice _ _ _ _) as [b m'|m'| |] eqn:Ec; try (exfalso; naive_solver).
    destruct Hst as [[? [= <- <-]]|[=]]. apply canon_push; [done|]. by eapply copied_canon.
  - destruct (get_arc s i) as [a|]; [|naive_solver]. destruct (bool_decide _); [|naive_solver]. destruct Hst as [[? [= <- <-]]|[=]].
    apply canon_push; [done|]. by apply (canon_vt _ _ VArc).
  - destruct (get_arc s i) as [a|]; [|naive_solver]. destruct (bool_decide _ && _); [|naive_solver]. destruct Hst as [[? [= <- <-]]|[=]].
    apply canon_push; [done|]. by apply (canon_vt _ _ VArcT).
  - destruct (forallb is_byte data); [|naive_solver]. destruct data as [|d data]; [|destruct (alloc _ _ _ _ _); try naive_solver];
      destruct Hst as [[? [= <- <-]]|[=]]; (apply canon_push; [done|]); by apply (canon_vt _ _ VBox).
  - destruct (clone p (st_mem s) (h_b x) base) as [b m'|m'| |] eqn:Ec; try (exfalso; naive_solver).
    + destruct Hst as [[? [= <- <-]]|[=]]. apply canon_push; [done|]. by eapply clone_canon.
    + destruct Hst as [[? [=]]|[= <-]]. by apply canon_same.
  - destruct (noalloc_clone p (st_mem s) (h_b x)) as [[b|] m'|m'| |] eqn:Ec; try (exfalso; naive_solver).
    + destruct Hst as [[? [= <- <-]]|[=]]. apply canon_push; [done|]. cbn [h_b]. by rewrite (noalloc_clone_canon _ _ _ _ _ Ec).
    + destruct Hst as [[? [= <- <-]]|[=]]. by apply canon_same.
    + destruct Hst as [[? [=]]|[= <-]]. by apply canon_same.
  - destruct (drop_bytes p (st_mem s) (h_b x)) as [u m'|m'| |]; try (exfalso; naive_solver).
    + destruct Hst as [[? [= <- <-]]|[=]]. by apply canon_set.
    + destruct Hst as [[? [=]]|[= <-]]. by apply canon_set.
  - destruct (shrink_to p (st_mem s) (h_b x) lo hi) as [b m'|m'| |] eqn:Ec; try (exfalso; naive_solver).
    + destruct Hst as [[? [= <- <-]]|[=]]. apply canon_set; [done|]. intros y [= <-]. cbn [h_b].
      destruct Hadm as (H1 & H2 & H3).
      refine (shrink_canon p Hwf _ _ c Hc Hl Hb Hcx _ _ _ _ (λ Hi, adm_end p _ c _ Hl H2 (H3 x Hx Hi)) Ec).
    + destruct Hst as [[? [=]]|[= <-]]. by apply canon_same.
  - destruct (subsliced p (st_mem s) (h_b x) lo hi) as [b m'|m'| |] eqn:Ec; try (exfalso; naive_solver).
    + destruct Hst as [[? [= <- <-]]|[=]]. apply canon_set; [done|]. intros y [= <-]. cbn [h_b].
      destruct Hadm as (H1 & H2 & H3).
      refine (subsliced_canon p Hwf _ _ c Hc Hl Hb Hcx _ _ _ _ (λ Hi, adm_end p _ c _ Hl H2 (H3 x Hx Hi)) Ec).
    + destruct Hst as [[? [=]]|[= <-]]. by apply canon_set.
  - pose proof (split_canon p Hwf _ _ c Hc Hl Hb Hcx i base) as Hsp.
    destruct (split_at p (st_mem s) (h_b x) i base) as [[[l r]|b] m'|m'| |] eqn:Ec; try (exfalso; naive_solver).
    + destruct Hst as [[? [= <- <-]]|[=]].
      destruct (Hsp l r m' eq_refl) as [(H1 & H2 & H3)|[H1 H2]].
      * destruct (view_handle p Hwf s h x Hr Hx) as (c' & Hv & _ & Hc'). assert (c' = c) as -> by congruence.
        pose proof (step_refines p Hwf s (OSplit h i base) Hr I) as Href. cbn [step] in Href. unfold with_h in Href. rewrite Hx, Ec in Href.
        destruct Href as (c2 & Hc2 & _ & [(_ & _ & Hvw)|(_ & [=] & _)]). assert (c2 = c) as -> by congruence.
        set (s' := State m' (set_h s h (Some (Handle l (h_lt x))) ++ [Some (Handle r (h_lt x))]) (st_arcs s)) in *.
        assert (Hlen : length (view p s) = length (st_h s)) by (unfold view; by rewrite fmap_length).
        assert (Hh : (h < length (st_h s))%nat).
        { unfold get_h in Hx. destruct (st_h s !! h) eqn:E; [|done]. by apply lookup_lt_Some in E. }
        assert (Hcl : canon p l).
        { apply (long_canon p s' h (Handle l (h_lt x)) (take (N.to_nat i) c) Hwf Hr').
          - unfold get_h, s', set_h. cbn [st_h]. rewrite lookup_app_l by (rewrite insert_length; done). by rewrite list_lookup_insert.
          - rewrite Hvw, lookup_app_l by (rewrite insert_length; lia). rewrite list_lookup_insert by lia. done.
          - rewrite take_length. lia. }
        assert (Hcr : canon p r).
        { destruct H3 as [?|H3]; [done|].
          apply (long_canon p s' (length (st_h s)) (Handle r (h_lt x)) (drop (N.to_nat i) c) Hwf Hr').
          - unfold get_h, s', set_h. cbn [st_h]. rewrite lookup_app_r by (rewrite insert_length; done). by rewrite insert_length, Nat.sub_diag.
          - rewrite Hvw, lookup_app_r by (rewrite insert_length; lia). rewrite insert_length, Hlen, Nat.sub_diag. done.
          - rewrite drop_length. lia. }
        unfold s'. change (set_h s h (Some (Handle l (h_lt x)))) with (st_h (State m' (set_h s h (Some (Handle l (h_lt x)))) (st_arcs s))).
        apply canon_push; [|done]. apply canon_set; [done|]. by intros y [= <-].
      * change (set_h s h (Some (Handle l (h_lt x)))) with (st_h (State m' (set_h s h (Some (Handle l (h_lt x)))) (st_arcs s))).
        apply canon_push; [|done]. apply canon_set; [done|]. by intros y [= <-].
    + destruct Hst as [[? [= <- <-]]|[=]]. apply canon_set; [done|]. intros y [= <-]. cbn [h_b].
      assert (b = h_b x) as ->; [|done]. unfold split_at in Ec. destruct (i <=? _); [|congruence].
      repeat case_match; done.
    + destruct Hst as [[? [=]]|[= <-]]. by apply canon_set.
  - destruct (upgrade p (st_mem s) (h_b x) base) as [b m'|m'| |] eqn:Ec; try (exfalso; naive_solver).
    + destruct Hst as [[? [= <- <-]]|[=]]. apply canon_set; [done|]. intros y [= <-]. cbn [h_b]. by eapply upgrade_canon.
    + destruct Hst as [[? [=]]|[= <-]]. by apply canon_set.
  - pose proof (noalloc_upgrade_canon p (st_mem s) (h_b x) c Hc Hb Hcx) as Hu.
    destruct (noalloc_upgrade p (st_mem s) (h_b x)) as [[b|b] m'|m'| |] eqn:Ec; try (exfalso; naive_solver).
    + destruct Hst as [[? [= <- <-]]|[=]]. apply canon_set; [done|]. intros y [= <-]. cbn [h_b]. exact (Hu _ _ eq_refl).
    + destruct Hst as [[? [= <- <-]]|[=]]. apply canon_set; [done|]. intros y [= <-]. cbn [h_b]. exact (Hu _ _ eq_refl).
    + destruct Hst as [[? [=]]|[= <-]]. by apply canon_set.
  - destruct (try_into_arc p (h_b x)) as [[[base n]|b]|] eqn:Ec; try (exfalso; naive_solver).
    + destruct Hst as [[? [= <- <-]]|[=]]. by apply canon_set.
    + destruct Hst as [[? [= <- <-]]|[=]]. apply canon_set; [done|]. intros y [= <-]. cbn [h_b].
      assert (b = h_b x) as ->; [|done]. unfold try_into_arc in Ec. repeat case_match; congruence.
  - rewrite Hc in Hst. destruct Hst as [[? [= <- <-]]|[=]]. done.
  - destruct (read p (st_mem s) (h_b x) n) as [[l b] m'|m'| |] eqn:Ec; try (exfalso; naive_solver).
    + destruct Hst as [[? [= <- <-]]|[=]]. apply canon_set; [done|]. intros y [= <-]. cbn [h_b]. by eapply read_canon.
    + destruct Hst as [[? [=]]|[= <-]]. by apply canon_same.
  - destruct (stabby p && forallb is_byte data); [|naive_solver]. destruct (alloc _ _ _ _ _); naive_solver eauto using canon_same.
  - destruct (get_arc s i) as [a|]; [|naive_solver]. destruct (bool_decide _); [|naive_solver]. destruct Hst as [[? [= <- <-]]|[=]].
    apply canon_push; [done|]. by apply (canon_vt _ _ VStab).
  - destruct (stabby p && forallb is_byte data); [|naive_solver]. destruct (alloc _ _ _ _ _); try naive_solver.
    destruct Hst as [[? [= <- <-]]|[=]]. apply canon_push; [done|]. by apply (canon_vt _ _ VStab).
  - destruct (stabby p); [|naive_solver].
    destruct (try_into_stab p (st_mem s) (h_b x)) as [[[base n]|b]|] eqn:Ec; try (exfalso; naive_solver).
    + destruct Hst as [[? [= <- <-]]|[=]]. by apply canon_set.
    + destruct Hst as [[? [= <- <-]]|[=]]. apply canon_set; [done|]. intros y [= <-]. cbn [h_b].
      assert (b = h_b x) as ->; [|done]. unfold try_into_stab in Ec. repeat case_match; congruence.
Qed.
Lemma reach_canon p s : wf_platform p → reach p s → all_canon p s.
Proof.
  intros Hwf Hr. induction Hr as [|s o s' r Hr IH Hadm Hst|s o s' Hr IH Hadm Hst].
  - intros h x. unfold get_h. cbn. by rewrite lookup_nil.
  - eapply canon_step; eauto. by eapply reach_done.
  - eapply canon_step; eauto. by eapply reach_panic.
Qed.
(** An inlined value of a program is that of its bytes. *)
Lemma inlined_is p s h x c : wf_platform p → reach p s → get_h s h = Some x → view p s !! h = Some (Some c) →
  is_inlined p (h_b x) = true → bytelist c ∧ (length c ≤ max_inline p)%nat ∧ h_b x = inline_unchecked p c.
Proof.
  intros Hwf Hr Hx Hv Hi. destruct (reach_canon p s Hwf Hr h x Hx) as [?|(d & Hd & Hdl & Heq)]; [congruence|].
  destruct (view_handle p Hwf s h x Hr Hx) as (c' & Hc' & _ & Has). assert (c' = c) as -> by congruence.
  rewrite Heq, inl_as_slice in Has by done. injection Has as <-. done.
Qed.
