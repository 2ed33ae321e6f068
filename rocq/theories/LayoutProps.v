(** Theorems about layouts: C16 to C20. *)

From Coq Require Import Arith NArith List Bool Lia ZifyBool ZifyNat ZifyN.
From stdpp Require Import base numbers list.
From Verif Require Import LayoutModel LayoutSpec LayoutProofs.

Notation all_bytes bs := (Forall (λ b, (b < 256)%N) bs).

(** ** C16: round trip *)

(** Whatever bytes a value has, [into_raw] succeeds and hands them out, and
    [from_raw] takes them back as that value and no other.
    Missing: the types left out of [good], see the refutations. *)
Theorem C16_round_trip_partial w le t v bs :
  0 < w → good w t → rep w le t v bs →
  into_raw w t bs = Value bs ∧
  from_raw w le t bs = Value bs ∧
  (∀ debug, from_raw_unchecked w le debug t bs = Value bs) ∧
  (∀ v', rep w le t v' bs → v' = v).
Proof.
  intros Hw Hg Hr.
  assert (HF : from_raw w le t bs = Value bs).
  { unfold from_raw, transmute_unchecked.
    by rewrite (rep_valid _ _ _ _ _ Hw Hg Hr), good_csize, Nat.eqb_refl. }
  repeat split; [|done|intros d; unfold from_raw_unchecked; by rewrite HF|].
  - unfold into_raw, transmute_unchecked. by rewrite good_csize, Nat.eqb_refl.
  - intros v' Hr'. eapply rep_fun; [done|right; done|done..].
Qed.

(** [NonNull<u32>] may be misaligned, and is then rejected; without debug
    assertions [from_raw_unchecked] is undefined behaviour on it. *)
Theorem C16_nonnull_refuted :
  ∃ t v bs, rep 8 true t v bs ∧ from_raw 8 true t bs = Rejected ∧
    from_raw_unchecked 8 true false t bs = Undefined.
Proof.
  exists (TPtr PNonNull (TPrim 4 4)), (VPtr 4097), [1;16;0;0;0;0;0;0]%N.
  split; [|by vm_compute]. repeat split; vm_compute; done.
Qed.

(** A transparent struct that starts with [PhantomData]. *)
Theorem C16_transparent_refuted :
  ∃ t v bs, rep 8 true t v bs ∧ into_raw 8 t bs = Panic ∧ from_raw 8 true t bs = Panic.
Proof.
  exists (TTransp true (TPrim 4 4)), (VNew (VPrim [1;2;3;4]%N)), [1;2;3;4]%N.
  by repeat split.
Qed.

(** Arrays of unit and [TaggedOption<()>] panic. *)
Theorem C16_unit_refuted :
  (∃ v bs, rep 8 true (TArray TUnit 2) v bs ∧ from_raw 8 true (TArray TUnit 2) bs = Panic) ∧
  (∃ v bs, rep 8 true (TTagged TUnit) v bs ∧ from_raw 8 true (TTagged TUnit) bs = Panic).
Proof.
  split.
  - exists (VArray [VUnit; VUnit]), []. split; [|by vm_compute].
    split; [done|]. split; [done|]. intros [|[|]] v Hv; by simplify_eq/=.
  - exists (VTagSome VUnit), [1%N]. by repeat split.
Qed.

(** ** C17: exactness *)

(** Missing: the types left out of [good], see the refutations. *)
Theorem C17_exact_partial w le t bs :
  0 < w → good w t → all_bytes bs → length bs = size_of w t →
  (from_raw w le t bs = Value bs ∧ ∃ v, rep w le t v bs) ∨
  (from_raw w le t bs = Rejected ∧ ¬ ∃ v, rep w le t v bs).
Proof.
  intros Hw Hg Hb Hl. unfold from_raw, transmute_unchecked.
  destruct (is_valid w le t bs) as [[]|] eqn:E.
  - left. rewrite good_csize, Nat.eqb_refl by done. split; [done|]. by apply valid_rep.
  - right. split; [done|]. intros [v Hr]. by rewrite (rep_valid _ _ _ _ _ Hw Hg Hr) in E.
  - by destruct (valid_total w le t bs Hw Hg Hl).
Qed.

(** Spelled out for what C code gets wrong, at any depth: whatever is
    accepted is made of values, and values have no null reference, no null
    function pointer, no bool other than 0 and 1 and no unknown enum value. *)
Fixpoint sound (w : nat) (t : ty) (v : value) : Prop :=
  match t, v with
  | TPtr PAligned t', VPtr a => a ≠ 0%N ∧ (a mod N.of_nat (align_of w t') = 0)%N
  | TPtr PNonNull _, VPtr a => a ≠ 0%N
  | TFn, VFn a => a ≠ 0%N
  | TEnum _ _ ds, VVariant i => i < length ds
  | TArray t n, VArray vs => length vs = n ∧ ∀ i v, vs !! i = Some v → sound w t v
  | TStruct _ ts, VStruct vs =>
      (fix go (ts : list ty) (vs : list value) : Prop :=
         match ts, vs with
         | [], [] => True
         | t :: ts, v :: vs => sound w t v ∧ go ts vs
         | _, _ => False
         end) ts vs
  | TTransp _ t, VNew v | TOption t, VSome v | TTagged t, VTagSome v => sound w t v
  | TPrim _ _, VPrim _ | TBool, VBool _ | TPtr PRaw _, VPtr _ | TUnit, VUnit
  | TOption _, VNone | TTagged _, VTagNone => True
  | _, _ => False
  end.

Lemma rep_sound w le t v bs :
  0 < w → t = TUnit ∨ good w t → rep w le t v bs → sound w t v.
Proof.
  intros Hw. revert v bs.
  induction t as [s a| |k t IH| | |s a|t n IH|nk ts IH|z t IH|s a ds|t IH|t IH] using ty_rec';
    intros v bs Hg Hr; destruct v; try (by destruct Hr); try done.
  - destruct Hg as [?|Hg]; [done|]. cbn in *. destruct k; try tauto.
    destruct Hr as (_ & _ & H0 & Hd). split; [done|].
    destruct (decide (align_of w t = 0)) as [E|E].
    + rewrite E in *. destruct Hd as [x ->]. cbn [N.of_nat]. by rewrite N.mul_0_r.
    + apply N.mod_divide; [lia|done].
  - cbn in Hr. tauto.
  - destruct Hg as [?|[Hn Hg]]; [done|]. destruct Hr as (Hl & _ & Hr). split; [done|].
    intros i v Hv. eapply IH; [by right|]. by apply Hr.
  - destruct Hg as [?|Hg]; [done|]. apply good_struct in Hg as [Hf _].
    rewrite rep_struct in Hr. destruct Hr as [_ Hr]. cbn [sound].
    revert vs Hr. generalize (offsets 0 (map (layout w) ts)).
    induction ts as [|t ts IHts]; intros [|o os] [|v vs] Hr; try done.
    apply Forall_cons in IH as [IHt IH]. apply Forall_cons in Hf as [Hft Hf].
    destruct Hr as [Hr Hrs]. split; [by eapply IHt|]. by eapply IHts.
  - destruct Hg as [?|[-> Hg]]; [done|]. eapply IH; [by right|]. exact Hr.
  - destruct Hr as [_ Hr]. by apply lookup_lt_Some in Hr.
  - destruct Hg as [?|[Hg _]]; [done|]. eapply IH; [by right|]. exact Hr.
  - destruct Hg as [?|Hg]; [done|]. eapply IH; [by right|]. apply Hr.
Qed.

Theorem C17_nothing_invalid w le t bs :
  0 < w → good w t → all_bytes bs → length bs = size_of w t →
  from_raw w le t bs = Value bs → ∃ v, rep w le t v bs ∧ sound w t v.
Proof.
  intros Hw Hg Hb Hl Hf. destruct (C17_exact_partial w le t bs Hw Hg Hb Hl) as [[_ [v Hv]]|[Hr _]].
  - exists v. split; [done|]. eapply rep_sound; [done|by right|done].
  - congruence.
Qed.

(** A null [Out] reference is accepted. *)
Theorem C17_out_refuted :
  ∃ t bs, all_bytes bs ∧ length bs = size_of 8 t ∧
    from_raw 8 true t bs = Value bs ∧ ¬ ∃ v, rep 8 true t v bs.
Proof.
  exists (TPtr POut (TPrim 4 4)), (repeat 0%N 8).
  repeat split; [repeat constructor|].
  intros [v Hr]. destruct v; try done. destruct Hr as (_ & <- & H & _). by vm_compute in H.
Qed.

(** ** C18: niches *)

(** Types with a niche the theorem is about: also [Out] and any [NonNull]. *)
Definition pointer_like w t := nichable w t ∧ (good w t ∨ ∃ k p, t = TPtr k p).

Lemma pointer_niche w le t bs :
  0 < w → pointer_like w t → length bs = size_of w t →
  ∃ n, niche_at w t = Some n ∧
    is_niche w le t bs (is_valid w le t bs) = Some (word le (sub n w bs) =? 0)%N ∧
    (∀ v, rep w le t v bs → word le (sub n w bs) ≠ 0%N).
Proof.
  intros Hw [Hn [Hg|(k & p & ->)]] Hl.
  - destruct (niche_ok w le t bs Hw Hg Hn Hl) as (n & H1 & H2 & H3).
    exists n. split; [done|]. split; [done|]. intros v Hr. apply H3. by eapply rep_valid.
  - change (size_of w (TPtr k p)) with w in Hl. exists 0. cbn in Hn.
    destruct k; try done; (split; [done|]; split; [done|]);
      intros v Hr; destruct v; try done; destruct Hr as (_ & <- & Hr);
      rewrite sub_all by done; tauto.
Qed.

Theorem C18_niche w le t bs :
  0 < w → pointer_like w t → length bs = size_of w t →
  (* the crate's test for None recognises exactly the representations of None *)
  (is_niche w le t bs (is_valid w le t bs) = Some true ↔ rep w le (TOption t) VNone bs) ∧
  (* Some(x) is represented by x's own pattern, which is never that of None *)
  (∀ v, rep w le (TOption t) (VSome v) bs ↔ rep w le t v bs) ∧
  (∀ v, rep w le t v bs → ¬ rep w le (TOption t) VNone bs ∧
    is_niche w le t bs (is_valid w le t bs) = Some false) ∧
  (* the representations of None are accepted *)
  (rep w le (TOption t) VNone bs → is_valid w le (TOption t) bs = Some true).
Proof.
  intros Hw Hp Hl. destruct (pointer_niche w le t bs Hw Hp Hl) as (n & H1 & H2 & H3).
  assert (HN : rep w le (TOption t) VNone bs ↔ word le (sub n w bs) = 0%N).
  { cbn. split.
    - intros (_ & n' & Hn' & Hz). by simplify_eq.
    - intros Hz. split; [done|]. by exists n. }
  rewrite HN, H2. split; [|split; [done|split]].
  - split; [intros [=E]; by apply N.eqb_eq|]. intros E. by rewrite E.
  - intros v Hr. specialize (H3 v Hr). split; [by rewrite HN|]. f_equal. by apply N.eqb_neq.
  - intros Hz. cbn [is_valid]. rewrite H2, Hz. done.
Qed.

(** For a thin pointer None is exactly the null pointer. *)
Theorem C18_null w le k p bs :
  0 < w → k ≠ PRaw → all_bytes bs →
  rep w le (TOption (TPtr k p)) VNone bs ↔ bs = repeat 0%N w.
Proof.
  intros Hw Hk Hb.
  assert (Hz : ∀ bs : list N, all_bytes bs → dec_le bs = 0%N ↔ bs = repeat 0%N (length bs)).
  { clear. intros bs Hb. induction Hb as [|b bs Hb Hbs IH]; [done|].
    cbn [dec_le length repeat]. split.
    - intros E. assert (b = 0%N) as -> by lia. f_equal. apply IH. lia.
    - intros [=-> E]. rewrite (proj2 IH E). done. }
  assert (Hrev : ∀ n, rev (repeat 0%N n) = repeat 0%N n).
  { clear. intros n. induction n as [|n IH]; [done|]. cbn. rewrite IH.
    clear. induction n; cbn; congruence. }
  assert (Hword : ∀ bs : list N, all_bytes bs → word le bs = 0%N ↔ bs = repeat 0%N (length bs)).
  { clear -Hz Hrev. intros bs Hb. unfold word. destruct le; [by apply Hz|].
    rewrite Hz by (by apply Forall_rev).
    rewrite rev_length. split.
    - intros E. rewrite <-(rev_involutive bs), E, rev_length, repeat_length. apply Hrev.
    - intros E. rewrite E at 1. apply Hrev. }
  assert (Hn : niche_at w (TPtr k p) = Some 0) by (by destruct k).
  cbn [rep]. change (size_of w (TPtr k p)) with w. rewrite Hn. split.
  - intros (Hl & n & [=<-] & E). rewrite sub_all in E by done.
    apply Hword in E; [|done]. by rewrite E, Hl.
  - intros ->. rewrite repeat_length. split; [done|]. exists 0. split; [done|].
    rewrite sub_all by apply repeat_length. apply Hword; [|by rewrite repeat_length].
    clear. induction w; cbn; constructor; [lia|done].
Qed.

(** ** C19: TaggedOption *)

Theorem C19_conversions {A} (o : option A) (t : tagged A) :
  option_from_tagged (tagged_from_option o) = o ∧
  tagged_from_option (option_from_tagged t) = t.
Proof. by destruct o, t. Qed.

(** The payload of the C struct, a bool followed by the payload. *)
Definition payload w t (bs : list N) : list N :=
  sub (default 0 (offsets 0 [(1, 1); layout w t] !! 1)) (size_of w t) bs.

(** Missing: payloads outside of [good], in particular [()]. *)
Theorem C19_accepts_partial w le t bs :
  0 < w → good w t → all_bytes bs → length bs = size_of w (TTagged t) →
  (from_raw w le (TTagged t) bs = Value bs ↔
   head bs = Some 0%N ∨ (head bs = Some 1%N ∧ from_raw w le t (payload w t bs) = Value (payload w t bs))) ∧
  (from_raw w le (TTagged t) bs ≠ Value bs → from_raw w le (TTagged t) bs = Rejected).
Proof.
  intros Hw Hg Hb Hl. pose proof (good_layout w t Hw Hg) as (E & Hs & Ha & Hd).
  assert (HP : payload w t bs = sub (align_of w t) (size_of w t) bs).
  { unfold payload, align_of, size_of. destruct (layout w t) as [s a]. cbn in Ha.
    cbn [offsets lookup list_lookup default from_option fst snd].
    rewrite round_up_1. cbn [Nat.add]. by rewrite round_up_one. }
  assert (HV : ∀ (g : good w (TTagged t)), from_raw w le (TTagged t) bs =
    match is_valid w le (TTagged t) bs with None => Panic | Some false => Rejected | Some true => Value bs end).
  { intros g. unfold from_raw, transmute_unchecked. by rewrite good_csize, Nat.eqb_refl. }
  rewrite HV by done. clear HV.
  destruct bs as [|b bs]; [pose proof (good_pos w (TTagged t) Hw Hg) as Hp; rewrite <-Hl in Hp; cbn in Hp; lia|].
  rewrite HP. cbn [is_valid head default from_option]. unfold from_raw, transmute_unchecked.
  rewrite !good_csize, Nat.eqb_refl by done.
  destruct b as [|[q|q|]]; cbn [head].
  - split; [|done]. split; [by left|done].
  - split; [|done]. split; [done|]. by intros [?|[? ?]].
  - split; [|done]. split; [done|]. by intros [?|[? ?]].
  - destruct (is_valid w le t _) as [[]|] eqn:Ev.
    + split; [|done]. split; [by right|done].
    + split; [|done]. split; [done|]. by intros [?|[? ?]].
    + exfalso. revert Ev. apply valid_total; [done..|]. apply sub_length.
      rewrite Hl. unfold size_of, align_of in *. cbn [layout].
      destruct (layout w t) as [s a]. cbn in Hs, Ha, Hd. rewrite seal_tagged by done. cbn [fst snd].
      etrans; [|apply seal_ge]. cbn [ending]. rewrite round_up_1. cbn.
      by rewrite round_up_one.
Qed.

(** With tag 0 the rest is irrelevant, for every payload type. *)
Theorem C19_none_payload w le t bs bs' :
  head bs = Some 0%N → head bs' = Some 0%N → length bs = length bs' →
  is_valid w le (TTagged t) bs = Some true ∧
  is_valid w le (TTagged t) bs' = Some true ∧
  ∀ v, rep w le (TTagged t) v bs ↔ rep w le (TTagged t) v bs'.
Proof.
  intros H H' Hl. cbn [is_valid]. rewrite H, H'. cbn. split; [done|]. split; [done|].
  intros v. destruct v; try done; cbn [rep]; rewrite H, H', Hl; [done|].
  split; intros (_ & ? & _); done.
Qed.

Theorem C19_decodes w le t bs v :
  0 < w → good w t → rep w le (TTagged t) v bs →
  (head bs = Some 0%N ∧ v = VTagNone) ∨
  (head bs = Some 1%N ∧ ∃ x, v = VTagSome x ∧ rep w le t x (payload w t bs)).
Proof.
  intros Hw Hg Hr. pose proof (good_layout w t Hw Hg) as (E & Hs & Ha & Hd).
  destruct v; try done.
  - left. by destruct Hr.
  - right. destruct Hr as (_ & H & Hr). split; [done|]. eexists. split; [done|].
    unfold payload. cbn [rep] in Hr. unfold size_of, align_of in Hr.
    unfold size_of. destruct (layout w t) as [s a]. cbn in Hr, Ha.
    cbn [offsets lookup list_lookup default from_option fst snd].
    rewrite round_up_1. exact Hr.
Qed.

(** A payload of [()]. *)
Theorem C19_unit_refuted : from_raw 8 true (TTagged TUnit) [1%N] = Panic.
Proof. by vm_compute. Qed.

(** ** C20: structs in headers *)

Lemma rust_plain w d :
  plain d → rust_struct w d = seal (map (layout w) (d_fields d)) ∧
    rust_fields w d = map (layout w) (d_fields d).
Proof.
  intros Hp. unfold rust_struct, rust_align.
  assert (HF : rust_fields w d = map (layout w) (d_fields d)).
  { unfold rust_fields. destruct (existsb _ _) eqn:E; [|done].
    apply existsb_exists in E as (r & Hr & E). apply elem_of_list_In in Hr.
    by destruct (Hp r Hr) as [-> | ->]. }
  rewrite HF. split; [|done]. unfold seal.
  assert (HA : ∀ x l, (∀ r, r ∈ l → r = RC ∨ r = ROther) →
    foldr (λ r a, match r with RAlign n => Nat.max n a | _ => a end) x l = x).
  { clear. intros x l H. induction l as [|r l IH]; [done|]. cbn.
    rewrite IH; [|intros; apply H; by right].
    destruct (H r) as [-> | ->]; [left|done|done]. }
  by rewrite HA.
Qed.

(** The struct printed for an accepted definition has the size, alignment and
    offsets of the Rust struct, and so has its C layout in Rust; the printed
    fields are the ones that are not zero-sized, with their sizes and
    alignments.
    Missing: definitions with further [repr] attributes, see the refutation. *)
Theorem C20_header_struct_partial l w d h :
  0 < w → derive_accepts d = true → plain d → fields_good w (d_fields d) →
  printed l w (derived d) = Some h →
  csa w (derived d) = rust_struct w d ∧
  hsa w h = rust_struct w d ∧
  ∃ hs, h = HStruct hs ∧
    offsets 0 (map (hsa w) hs) = kept_offsets (rust_fields w d) ∧
    map (hsa w) hs = filter (λ x, fst x ≠ 0) (rust_fields w d).
Proof.
  intros Hw _ Hpl Hf Hp. destruct (rust_plain w d Hpl) as [-> ->].
  assert (Hf' : Forall (field_ok w) (d_fields d)) by (by apply Forall_forall).
  assert (HC : csane (derived d)).
  { apply csane_struct. rewrite Forall_fmap. eapply Forall_impl; [exact Hf'|].
    intros t Ht. apply (good_csane w). by destruct Ht; [right|left]. }
  assert (HM : csa w (derived d) = seal (map (layout w) (d_fields d))).
  { unfold derived. cbn [csa]. by rewrite (fields_csa w _ Hw Hf'). }
  split; [done|]. split; [rewrite <-HM; by eapply printed_ok|].
  unfold derived in *. rewrite printed_struct in Hp.
  destruct (fst _ =? 0); [done|].
  destruct (printed_fields l w _) as [hs|] eqn:E; [|done]. injection Hp as <-.
  exists hs. split; [done|].
  apply csane_struct in HC.
  destruct (printed_fields_ok l w _ hs HC Hw) as [H1 H2]; [|done|].
  { apply Forall_true. intros c h Hc Hh. by eapply printed_ok. }
  rewrite (fields_csa w _ Hw Hf') in H1, H2.
  rewrite H1. split; [|done]. by apply kept_offsets_go.
Qed.

(** It is printed unless all its fields are zero-sized. *)
Theorem C20_printed l w d :
  0 < w → fields_good w (d_fields d) →
  (∃ h, printed l w (derived d) = Some h) ↔ ∃ t, t ∈ d_fields d ∧ t ≠ TUnit.
Proof.
  intros Hw Hf.
  assert (HT : ∀ t, good w t → ∃ h, printed l w (clayout t) = Some h).
  { intros t. induction t as [s a| |k t IH| | |s a|t n IH|nk ts IH|z t IH|s a ds|t IH|t IH] using ty_rec';
      intros Hg; try (by destruct Hg); try (by eexists).
    - destruct Hg as [Hn Hg]. destruct (IH Hg) as [h Hh]. cbn. rewrite Hh. by eexists.
    - pose proof (good_layout w (TStruct nk ts) Hw Hg) as (E & Hs & _).
      apply good_struct in Hg as [Hfs _]. cbn [clayout] in *. rewrite printed_struct.
      rewrite <-E in Hs. destruct (fst _ =? 0) eqn:E0; [apply Nat.eqb_eq in E0; lia|].
      assert (∃ hs, printed_fields l w (map clayout ts) = Some hs) as [hs ->]; [|by eexists].
      clear -IH Hfs Hw. induction ts as [|t ts IHts]; [by eexists|].
      apply Forall_cons in IH as [IHt IH]. apply Forall_cons in Hfs as [Hft Hfs].
      destruct (IHts IH Hfs) as [hs Hhs]. cbn [map printed_fields]. rewrite Hhs.
      destruct Hft as [-> |Hg]; [by eexists|].
      destruct (IHt Hg) as [h Hh]. rewrite Hh.
      pose proof (good_pos w t Hw Hg) as Hp. rewrite <-good_csize in Hp by done. unfold csize in Hp.
      destruct (fst _ =? 0) eqn:E0; [apply Nat.eqb_eq in E0; lia|]. by eexists.
    - destruct Hg as [-> Hg]. by apply IH.
    - destruct Hg as [Hg _]. by apply IH.
    - pose proof (good_layout w (TTagged t) Hw Hg) as (E & Hs & _). cbn [good] in Hg.
      destruct (IH Hg) as [h Hh]. cbn [clayout] in *. rewrite printed_struct.
      rewrite <-E in Hs. destruct (fst _ =? 0) eqn:E0; [apply Nat.eqb_eq in E0; lia|].
      cbn [printed_fields csa fst printed]. cbn [Nat.eqb].
      pose proof (good_pos w t Hw Hg) as Hp. rewrite <-good_csize in Hp by done. unfold csize in Hp.
      destruct (fst (csa w (clayout t)) =? 0) eqn:E1; [apply Nat.eqb_eq in E1; lia|].
      rewrite Hh. by eexists. }
  split.
  - intros [h Hh]. assert (HD : ∀ t, Decision (clayout t = CVoid)) by
      (intros t; destruct (clayout t); ((by left) || (by right))).
    destruct (decide (Forall (λ t, clayout t = CVoid) (d_fields d))) as [Hz|Hz].
    + exfalso. unfold derived in Hh. rewrite printed_struct in Hh.
      assert (fst (csa w (CStruct (map clayout (d_fields d)))) = 0) as E0; [|by rewrite E0 in Hh].
      clear -Hz. cbn [csa]. unfold seal. cbn.
      assert (max_align (map (csa w) (map clayout (d_fields d))) = 1 ∧
        ending 0 (map (csa w) (map clayout (d_fields d))) = 0) as [-> ->]; [|by rewrite round_up_1].
      induction Hz as [|t ts Ht Hts [IH1 IH2]]; [done|]. cbn. rewrite Ht. cbn.
      rewrite IH1. split; [done|]. exact IH2.
    + apply not_Forall_Exists in Hz; [|intros t; apply HD].
      apply Exists_exists in Hz as (t & Ht & Hn). exists t. split; [done|]. intros ->. by apply Hn.
  - intros (t & Ht & Hn). destruct (HT (TStruct NicheNone (d_fields d))) as [h Hh]; [|by exists h].
    apply good_struct. split; [by apply Forall_forall|]. intros H. exact (Hn (H t Ht)).
Qed.

(** [#[repr(C)] #[repr(align(16))] struct S { x: u32 }] is accepted. *)
Theorem C20_attributes_refuted :
  (∃ d h, derive_accepts d = true ∧ fields_good 8 (d_fields d) ∧
     printed C_or_Python 8 (derived d) = Some h ∧ snd (hsa 8 h) ≠ snd (rust_struct 8 d) ∧
     fst (hsa 8 h) ≠ fst (rust_struct 8 d)) ∧
  (∃ d h, derive_accepts d = true ∧ fields_good 8 (d_fields d) ∧
     printed C_or_Python 8 (derived d) = Some h ∧
     offsets 0 (map (layout 8) (d_fields d)) ≠ rust_offsets 8 d).
Proof.
  split.
  - exists (Def [[RC]; [RAlign 16]] [TPrim 4 4]), (HStruct [HPrim 4 4]).
    split; [done|]. split; [|by vm_compute].
    intros t Ht. apply elem_of_list_singleton in Ht as ->. right. cbn. repeat split; try lia. by exists 1.
  - exists (Def [[RC]; [RPacked]] [TPrim 1 1; TPrim 4 4]), (HStruct [HPrim 1 1; HPrim 4 4]).
    split; [done|]. split; [|by vm_compute].
    intros t Ht. right. apply elem_of_cons in Ht as [-> |Ht].
    + cbn. repeat split; try lia. by exists 1.
    + apply elem_of_list_singleton in Ht as ->. cbn. repeat split; try lia. by exists 1.
Qed.

(** ** Examples *)

Notation u8 := (TPrim 1 1).
Notation u32 := (TPrim 4 4).
Notation usize := (TPrim 8 8).
(** [slice_ref<u32>] *)
Definition slice_u32 := TStruct NicheFirst [TPtr PAligned u32; usize].
(** [Bytes] *)
Definition bytes_ty := TStruct NicheDefault [TPtr PRaw u8; usize; TPtr PRaw u8; usize; TPtr PNonNull u8].
(** [BoxDynFnMut0<()>] *)
Definition box_dyn_fn := TStruct NicheDefault [TPtr PNonNull u8; TOption TFn; TOption TFn].
(** [VirtualPtr] with a vtable of two functions *)
Definition virtual_ptr := TStruct NicheFirst [TPtr PAligned u8; TStruct NicheNone [TFn; TFn]].
(** [struct { phantom; flag: bool; opt: Option<slice>; arr: [Enum; 2]; t: TaggedOption<&u32> }] *)
Definition nested :=
  TStruct NicheNone
    [TUnit; TBool; TOption slice_u32; TArray (TEnum 1 1 [0; 3]%N) 2;
     TTagged (TTransp false (TPtr PAligned u32))].

Ltac prim_tac := by repeat split; (lia || by exists 1).
Ltac fields_tac := repeat (first [apply Forall_nil_2 | apply Forall_cons_2]).

Example slice_good : good 8 (TOption slice_u32).
Proof.
  split; [|done]. apply good_struct. split.
  - fields_tac; right; [done|prim_tac].
  - intros H. by specialize (H (TPtr PAligned u32) ltac:(left)).
Qed.

Example bytes_good : good 8 (TOption bytes_ty).
Proof.
  split.
  - apply good_struct. split; [fields_tac; right; [done|prim_tac|done|prim_tac|done]|].
    intros H. by specialize (H (TPtr PRaw u8) ltac:(left)).
  - exists [TPtr PRaw u8; usize; TPtr PRaw u8; usize], PNonNull, u8, [].
    repeat split. by left.
Qed.

Example box_dyn_fn_good : good 8 (TOption box_dyn_fn).
Proof.
  split.
  - apply good_struct. split; [fields_tac; right; done|].
    intros H. by specialize (H (TPtr PNonNull u8) ltac:(left)).
  - exists [], PNonNull, u8, [TOption TFn; TOption TFn]. repeat split. by left.
Qed.

Example virtual_ptr_good : good 8 (TOption virtual_ptr).
Proof.
  split; [|done]. apply good_struct. split.
  - fields_tac; right; [done|]. apply good_struct. split; [fields_tac; by right|].
    intros H. by specialize (H TFn ltac:(left)).
  - intros H. by specialize (H (TPtr PAligned u8) ltac:(left)).
Qed.

Example nested_good : good 8 nested.
Proof.
  apply good_struct. split.
  - fields_tac; [by left|right..].
    + done.
    + apply slice_good.
    + split; [lia|]. split; [lia|]. split; [lia|]. split; [by exists 1|].
      apply NoDup_cons; split; [|apply NoDup_singleton].
      intros H%elem_of_list_singleton. done.
    + done.
  - intros H. by specialize (H TBool ltac:(right; left)).
Qed.

(** The bytes of one such value: padding is 204. *)
Definition nested_bytes (tag : N) : list N :=
  let pad := repeat 204%N in
  [1%N] ++ pad 7 ++ [0;16;0;0;0;0;0;0]%N ++ [2;0;0;0;0;0;0;0]%N ++ [3;0]%N ++ pad 6
  ++ [tag] ++ pad 7 ++ [4;0;0;0;0;0;0;0]%N.
Arguments nested_bytes tag%N_scope.

Example nested_accepted :
  length (nested_bytes 1) = size_of 8 nested ∧
  from_raw 8 true nested (nested_bytes 1) = Value (nested_bytes 1) ∧
  from_raw 8 true nested (nested_bytes 2) = Rejected.
Proof. by vm_compute. Qed.

Print Assumptions C16_round_trip_partial.
Print Assumptions C16_nonnull_refuted.
Print Assumptions C16_transparent_refuted.
Print Assumptions C16_unit_refuted.
Print Assumptions C17_exact_partial.
Print Assumptions C17_nothing_invalid.
Print Assumptions C17_out_refuted.
Print Assumptions C18_niche.
Print Assumptions C18_null.
Print Assumptions C19_conversions.
Print Assumptions C19_accepts_partial.
Print Assumptions C19_none_payload.
Print Assumptions C19_decodes.
Print Assumptions C19_unit_refuted.
Print Assumptions C20_header_struct_partial.
Print Assumptions C20_printed.
Print Assumptions C20_attributes_refuted.
