(** Proofs about the layout model. *)

From Coq Require Import Arith NArith List Bool Lia ZifyBool ZifyNat ZifyN.
From stdpp Require Import base numbers list.
From Verif Require Import LayoutModel LayoutSpec.

(** ** Induction over types *)

Section ty_ind.
  Context (P : ty → Prop).
  Context (Hprim : ∀ s a, P (TPrim s a)) (Hbool : P TBool)
    (Hptr : ∀ k t, P t → P (TPtr k t)) (Hfn : P TFn) (Hunit : P TUnit)
    (Hop : ∀ s a, P (TOpaque s a)) (Harr : ∀ t n, P t → P (TArray t n))
    (Hstr : ∀ nk ts, Forall P ts → P (TStruct nk ts))
    (Htr : ∀ z t, P t → P (TTransp z t)) (Henum : ∀ s a ds, P (TEnum s a ds))
    (Hopt : ∀ t, P t → P (TOption t)) (Htag : ∀ t, P t → P (TTagged t)).
  Fixpoint ty_rec' (t : ty) : P t :=
    match t with
    | TPrim s a => Hprim s a
    | TBool => Hbool
    | TPtr k t => Hptr k t (ty_rec' t)
    | TFn => Hfn
    | TUnit => Hunit
    | TOpaque s a => Hop s a
    | TArray t n => Harr t n (ty_rec' t)
    | TStruct nk ts =>
        Hstr nk ts
          ((fix go (ts : list ty) : Forall P ts :=
              match ts with
              | [] => Forall_nil_2 P
              | t :: ts => Forall_cons_2 P t ts (ty_rec' t) (go ts)
              end) ts)
    | TTransp z t => Htr z t (ty_rec' t)
    | TEnum s a ds => Henum s a ds
    | TOption t => Hopt t (ty_rec' t)
    | TTagged t => Htag t (ty_rec' t)
    end.
End ty_ind.

Section cty_ind.
  Context (P : cty → Prop).
  Context (Hprim : ∀ s a, P (CPrim s a)) (Hptr : P CPtr) (Hvoid : P CVoid)
    (Hop : ∀ s a, P (COpaque s a)) (Harr : ∀ c n, P c → P (CArray c n))
    (Hstr : ∀ cs, Forall P cs → P (CStruct cs)).
  Fixpoint cty_rec' (c : cty) : P c :=
    match c with
    | CPrim s a => Hprim s a
    | CPtr => Hptr
    | CVoid => Hvoid
    | COpaque s a => Hop s a
    | CArray c n => Harr c n (cty_rec' c)
    | CStruct cs =>
        Hstr cs
          ((fix go (cs : list cty) : Forall P cs :=
              match cs with
              | [] => Forall_nil_2 P
              | c :: cs => Forall_cons_2 P c cs (cty_rec' c) (go cs)
              end) cs)
    end.
End cty_ind.

(** ** Arithmetic of layouts *)

Lemma round_up_mul n a k : 0 < a → n = k * a → round_up n a = n.
Proof.
  intros Ha ->. unfold round_up.
  replace (k * a + a - 1) with ((a - 1) + k * a) by lia.
  rewrite Nat.div_add by lia. rewrite (Nat.div_small (a - 1) a) by lia. lia.
Qed.

Lemma round_up_div n a : 0 < a → Nat.divide a n → round_up n a = n.
Proof. intros Ha [k Hk]. by eapply round_up_mul. Qed.

Lemma round_up_divides n a : Nat.divide a (round_up n a).
Proof. unfold round_up. eexists. reflexivity. Qed.

Lemma round_up_ge n a : 0 < a → n ≤ round_up n a.
Proof.
  intros Ha. unfold round_up.
  pose proof (Nat.div_mod (n + a - 1) a ltac:(lia)) as H.
  pose proof (Nat.mod_upper_bound (n + a - 1) a ltac:(lia)). lia.
Qed.

Lemma round_up_1 n : round_up n 1 = n.
Proof. eapply (round_up_mul _ _ n); lia. Qed.

Lemma round_up_0 a : 0 < a → round_up 0 a = 0.
Proof. intros. eapply (round_up_mul _ _ 0); lia. Qed.

Lemma round_up_one a : 0 < a → round_up 1 a = a.
Proof.
  intros. unfold round_up. replace (1 + a - 1) with a by lia. rewrite Nat.div_same by lia. lia.
Qed.

Lemma max_align_pos ls : 1 ≤ max_align ls.
Proof. destruct ls as [|[s a] ls]; [done|]; cbn. induction ls as [|[]]; cbn in *; lia. Qed.

Lemma offsets_length o ls : length (offsets o ls) = length ls.
Proof. revert o; induction ls as [|[s a] ls IH]; intros o; cbn; [done|]. by rewrite IH. Qed.

Lemma ending_ge o ls : (∀ l, l ∈ ls → 0 < snd l) → o ≤ ending o ls.
Proof.
  revert o. induction ls as [|[s a] ls IH]; intros o Hp; cbn; [done|].
  assert (0 < a) by (apply (Hp (s, a)); left).
  pose proof (round_up_ge o a ltac:(done)).
  etrans; [|apply IH]; [lia|]. intros l Hl. apply Hp. by right.
Qed.

Lemma seal_divides ls : Nat.divide (snd (seal ls)) (fst (seal ls)).
Proof. apply round_up_divides. Qed.

Lemma seal_align_pos ls : 0 < snd (seal ls).
Proof. apply max_align_pos. Qed.

Lemma seal_ge ls : ending 0 ls ≤ fst (seal ls).
Proof. apply round_up_ge, max_align_pos. Qed.

Lemma seal_single s a : 0 < a → Nat.divide a s → seal [(s, a)] = (s, a).
Proof.
  intros Ha Hd. unfold seal; cbn. rewrite (round_up_0 a Ha). cbn.
  rewrite Nat.max_l by lia. by rewrite round_up_div.
Qed.

Lemma seal_tagged s a : 0 < a → Nat.divide a s →
  seal [(1, 1); seal_union [seal []; seal [(s, a)]]] = seal [(1, 1); (s, a)].
Proof.
  intros Ha Hd. rewrite seal_single by done.
  assert (seal_union [seal []; (s, a)] = (s, a)) as ->; [|done].
  unfold seal_union. cbn -[Nat.max].
  replace (Nat.max 0 (Nat.max s 0)) with s by lia.
  replace (Nat.max 1 (Nat.max a 1)) with a by lia.
  by rewrite round_up_div.
Qed.

(** ** Named versions of the inner loops *)

Section loops.
  Context (w : nat) (le : bool).

  Definition items_valid (t : ty) : nat → list N → option bool :=
    fix go n bs :=
      match n with
      | O => Some true
      | S n =>
          match is_valid w le t (take (csize w t) bs) with
          | Some true => go n (drop (csize w t) bs)
          | r => r
          end
      end.
  Definition fields_valid (bs : list N) : list ty → list nat → option bool :=
    fix go ts os :=
      match ts, os with
      | t :: ts, o :: os =>
          both (if size_of w t =? 0 then Some true
                else is_valid w le t (sub o (csize w t) bs))
               (go ts os)
      | _, _ => Some true
      end.
  Definition fields_rep (bs : list N) : list ty → list value → list nat → Prop :=
    fix go ts vs os :=
      match ts, vs, os with
      | [], [], [] => True
      | t :: ts, v :: vs, o :: os => rep w le t v (sub o (size_of w t) bs) ∧ go ts vs os
      | _, _, _ => False
      end.
  Definition niche_in : list ty → list nat → option nat :=
    fix go ts os :=
      match ts, os with
      | t :: ts, o :: os =>
          match niche_at w t with
          | Some n => Some (o + n)
          | None => go ts os
          end
      | _, _ => None
      end.

  Lemma is_valid_array t n bs : is_valid w le (TArray t n) bs = items_valid t n bs.
  Proof. reflexivity. Qed.
  Lemma is_valid_struct nk ts bs :
    is_valid w le (TStruct nk ts) bs =
    fields_valid bs ts (offsets 0 (map (csa w) (map clayout ts))).
  Proof. reflexivity. Qed.
  Lemma rep_struct nk ts vs bs :
    rep w le (TStruct nk ts) (VStruct vs) bs =
    (length bs = size_of w (TStruct nk ts) ∧
     fields_rep bs ts vs (offsets 0 (map (layout w) ts))).
  Proof. reflexivity. Qed.
  Lemma niche_struct nk ts :
    niche_at w (TStruct nk ts) = niche_in ts (offsets 0 (map (layout w) ts)).
  Proof. reflexivity. Qed.
End loops.

Lemma good_struct w nk ts :
  good w (TStruct nk ts) ↔
  Forall (λ t, t = TUnit ∨ good w t) ts ∧ ¬ (∀ t, t ∈ ts → t = TUnit).
Proof.
  cbn [good]. f_equiv. induction ts as [|t ts IH]; [by split|].
  rewrite Forall_cons. by rewrite IH.
Qed.

(** ** The C layout has the layout of the Rust type *)

Definition sane (l : nat * nat) := 0 < snd l ∧ Nat.divide (snd l) (fst l).

Lemma ending_pos o ls l :
  (∀ l, l ∈ ls → 0 < snd l) → l ∈ ls → 0 < fst l → 0 < ending o ls.
Proof.
  intros Hp Hl. revert o. induction Hl as [[s a] ls|l [s a] ls Hl IH]; intros o Hs; cbn in *.
  - pose proof (ending_ge (round_up o a + s) ls) as H.
    eapply Nat.lt_le_trans; [|apply H]; [lia|]. intros l' Hl'. apply Hp. by right.
  - apply IH; [|done]. intros l' Hl'. apply Hp. by right.
Qed.

Lemma good_layout w t :
  0 < w → good w t →
  csa w (clayout t) = layout w t ∧ 0 < fst (layout w t) ∧ sane (layout w t).
Proof.
  intros Hw. unfold sane.
  induction t as [s a| |k t IH| | |s a|t n IH|nk ts IH|z t IH|s a ds|t IH|t IH] using ty_rec';
    intros Hg.
  - cbn in *. tauto.
  - cbn. repeat split; try lia. by exists 1.
  - cbn. repeat split; try lia. by exists 1; lia.
  - cbn. repeat split; try lia. by exists 1; lia.
  - destruct Hg.
  - destruct Hg.
  - destruct Hg as [Hn Hg]. destruct (IH Hg) as (E & Hs & Ha & Hd).
    cbn. rewrite E. repeat split; [nia|done|]. by apply Nat.divide_mul_r.
  - apply good_struct in Hg as [Hf Hne].
    assert (Hm : map (csa w) (map clayout ts) = map (layout w) ts).
    { clear Hne. induction ts as [|t ts IHts]; [done|].
      apply Forall_cons in IH as [IHt IH]. apply Forall_cons in Hf as [Hft Hf].
      cbn. rewrite IHts by done. f_equal.
      destruct Hft as [-> |Hg]; [done|]. by apply IHt. }
    assert (Hpos : ∀ l, l ∈ map (layout w) ts → 0 < snd l).
    { intros l Hl. apply elem_of_list_fmap in Hl as (t & -> & Ht).
      rewrite Forall_forall in IH. rewrite Forall_forall in Hf.
      destruct (Hf t Ht) as [-> |Hg]; [cbn; lia|]. by apply IH. }
    cbn [clayout csa layout]. rewrite Hm. split; [done|].
    split; [|split; [apply seal_align_pos|apply seal_divides]].
    eapply Nat.lt_le_trans; [|apply seal_ge].
    destruct (decide (Forall (λ t, layout w t = (0, 1)) ts)) as [Hz|Hz].
    + exfalso. apply Hne. intros t Ht. rewrite Forall_forall in Hz.
      rewrite Forall_forall in IH. rewrite Forall_forall in Hf.
      destruct (Hf t Ht) as [-> |Hg]; [done|].
      destruct (IH t Ht Hg) as (_ & H & _). rewrite (Hz t Ht) in H. cbn in H. lia.
    + apply not_Forall_Exists in Hz; [|apply _]. apply Exists_exists in Hz as (t & Ht & Hl).
      rewrite Forall_forall in IH. rewrite Forall_forall in Hf.
      destruct (Hf t Ht) as [-> |Hg]; [by destruct Hl|].
      eapply ending_pos; [done|..].
      * by apply elem_of_list_fmap_1.
      * by apply IH.
  - destruct Hg as [-> Hg]. by apply IH.
  - cbn in *. tauto.
  - destruct Hg as [Hg _]. by apply IH.
  - cbn [good] in Hg. destruct (IH Hg) as (E & Hs & Ha & Hd).
    destruct (layout w t) as [s a] eqn:El. cbn in Hs, Ha, Hd.
    cbn [clayout csa layout map]. rewrite El, E. rewrite seal_tagged by done.
    split; [done|]. split; [|split; [apply seal_align_pos|apply seal_divides]].
    eapply Nat.lt_le_trans; [|apply seal_ge]. cbn. lia.
Qed.

Lemma good_csize w t : 0 < w → good w t → csize w t = size_of w t.
Proof. intros Hw Hg. unfold csize, size_of. by rewrite (proj1 (good_layout w t Hw Hg)). Qed.

Lemma good_pos w t : 0 < w → good w t → 0 < size_of w t.
Proof. intros Hw Hg. apply (good_layout w t Hw Hg). Qed.

Definition field_ok w (t : ty) := t = TUnit ∨ good w t.

Lemma field_csa w t : 0 < w → field_ok w t → csa w (clayout t) = layout w t.
Proof. intros Hw [-> |Hg]; [done|]. by apply good_layout. Qed.

Lemma field_align w t : 0 < w → field_ok w t → 0 < snd (layout w t).
Proof. intros Hw [-> |Hg]; [cbn; lia|]. by apply (good_layout w t). Qed.

Lemma fields_csa w ts : 0 < w → Forall (field_ok w) ts →
  map (csa w) (map clayout ts) = map (layout w) ts.
Proof.
  intros Hw. induction 1 as [|t ts Ht Hts IH]; [done|].
  cbn. rewrite IH. f_equal. by apply field_csa.
Qed.

Lemma sub_length o n (bs : list N) : o + n ≤ length bs → length (sub o n bs) = n.
Proof. intros. unfold sub. rewrite take_length, drop_length. lia. Qed.

Lemma sub_all n (bs : list N) : length bs = n → sub 0 n bs = bs.
Proof. intros <-. unfold sub. rewrite drop_0. by apply take_ge. Qed.

Lemma byte_bool b : (b < 256)%N → N.land b 254 = 0%N → b = 0%N ∨ b = 1%N.
Proof.
  intros Hb Hl.
  assert (H : ∀ n, n < 256 → N.land (N.of_nat n) 254 = 0%N → n = 0 ∨ n = 1).
  { intros n Hn. do 256 (destruct n as [|n]; [vm_compute; tauto || (intros; exfalso; congruence)|]).
    lia. }
  destruct (H (N.to_nat b)); [lia|by rewrite N2Nat.id|lia..].
Qed.

Lemma sub_bytes o n (bs : list N) : Forall (λ b, b < 256)%N bs → Forall (λ b, b < 256)%N (sub o n bs).
Proof. intros H. unfold sub. by apply Forall_take, Forall_drop. Qed.

(** ** rep gives the size *)

Lemma rep_length w le t v bs : 0 < w → good w t ∨ t = TUnit → rep w le t v bs → length bs = size_of w t.
Proof.
  intros Hw. revert v.
  induction t as [s a| |k t IH| | |s a|t n IH|nk ts IH|z t IH|s a ds|t IH|t IH] using ty_rec';
    intros v Hg Hr; destruct v; try (by destruct Hr); try (by apply Hr);
    try (by destruct Hr as (_ & Hr & _)); try (by cbn in Hr; subst).
  - destruct Hg as [[-> Hg]|?]; [|done]. eapply IH; [by left|]. exact Hr.
  - destruct Hg as [[Hg _]|?]; [|done]. eapply IH; [by left|]. exact Hr.
Qed.

(** ** Arrays *)

Lemma items_valid_iff w le t n bs :
  items_valid w le t n bs = Some true ↔
  ∀ i, i < n → is_valid w le t (sub (i * csize w t) (csize w t) bs) = Some true.
Proof.
  revert bs. induction n as [|n IH]; intros bs; cbn [items_valid]; [split; [intros; lia|done]|].
  split.
  - intros H. destruct (is_valid w le t _) as [[]|] eqn:E; try done.
    rewrite IH in H. intros [|i] Hi; [done|].
    specialize (H i ltac:(lia)). unfold sub in *. rewrite drop_drop in H.
    by replace (S i * csize w t) with (csize w t + i * csize w t) by lia.
  - intros H. pose proof (H 0 ltac:(lia)) as H0. unfold sub in H0. rewrite Nat.mul_0_l, drop_0 in H0. rewrite H0.
    apply IH. intros i Hi. specialize (H (S i) ltac:(lia)). unfold sub in *.
    rewrite drop_drop. by replace (csize w t + i * csize w t) with (S i * csize w t) by lia.
Qed.

Lemma items_valid_total w le t n bs :
  (∀ i, i < n → is_valid w le t (sub (i * csize w t) (csize w t) bs) ≠ None) →
  items_valid w le t n bs ≠ None.
Proof.
  revert bs. induction n as [|n IH]; intros bs H; cbn [items_valid]; [done|].
  pose proof (H 0 ltac:(lia)) as H0. unfold sub in H0. rewrite Nat.mul_0_l, drop_0 in H0.
  destruct (is_valid w le t (take _ _)) as [[]|]; try done.
  apply IH. intros i Hi. specialize (H (S i) ltac:(lia)). unfold sub in *.
  rewrite drop_drop. by replace (csize w t + i * csize w t) with (S i * csize w t) by lia.
Qed.

Lemma choose_list {A} (P : nat → A → Prop) n :
  (∀ i, i < n → ∃ x, P i x) → ∃ xs, length xs = n ∧ ∀ i x, xs !! i = Some x → P i x.
Proof.
  induction n as [|n IH]; intros H.
  - exists []. split; [done|]. intros i x Hx. by rewrite lookup_nil in Hx.
  - destruct IH as (xs & Hl & Hxs); [intros i Hi; apply H; lia|].
    destruct (H n ltac:(lia)) as [x Hx]. exists (xs ++ [x]).
    split; [rewrite app_length; cbn; lia|].
    intros i y Hy. apply lookup_app_Some in Hy as [Hy|[Hi Hy]]; [by apply Hxs|].
    apply list_lookup_singleton_Some in Hy as [? ->].
    by replace i with n by lia.
Qed.

(** ** Structs *)

(** The fields are where the struct has room for them. *)
Lemma offsets_fit w ts o :
  0 < w → Forall (field_ok w) ts →
  ∀ i t p, ts !! i = Some t → offsets o (map (layout w) ts) !! i = Some p →
  o ≤ p ∧ p + size_of w t ≤ ending o (map (layout w) ts).
Proof.
  intros Hw Hf. revert o. induction Hf as [|t ts Ht Hts IH]; intros o i t' p Ht' Hp; [done|].
  cbn in Hp |- *. pose proof (field_align w t Hw Ht) as Ha.
  unfold size_of in *. destruct (layout w t) as [s a] eqn:El. cbn in *.
  pose proof (round_up_ge o a Ha) as Hge.
  destruct i as [|i]; cbn in *.
  - injection Ht' as <-. injection Hp as <-. rewrite El. cbn. split; [lia|].
    apply ending_ge. intros l Hl. apply elem_of_list_fmap in Hl as (x & -> & Hx).
    rewrite Forall_forall in Hts. by apply field_align, Hts.
  - destruct (IH _ _ _ _ Ht' Hp) as [H1 H2]. split; [lia|done].
Qed.

Lemma struct_fit w nk ts (bs : list N) i t p :
  0 < w → Forall (field_ok w) ts → length bs = size_of w (TStruct nk ts) →
  ts !! i = Some t → offsets 0 (map (layout w) ts) !! i = Some p →
  p + size_of w t ≤ length bs.
Proof.
  intros Hw Hf Hl Ht Hp. destruct (offsets_fit w ts 0 Hw Hf i t p Ht Hp) as [_ H].
  rewrite Hl. unfold size_of at 2. cbn [layout].
  etrans; [exact H|apply seal_ge].
Qed.

Lemma fields_valid_iff w le bs ts os :
  length os = length ts →
  fields_valid w le bs ts os = Some true ↔
  ∀ i t p, ts !! i = Some t → os !! i = Some p → size_of w t ≠ 0 →
    is_valid w le t (sub p (csize w t) bs) = Some true.
Proof.
  revert os. induction ts as [|t ts IH]; intros [|o os] Hl; try done; cbn [fields_valid].
  cbn in Hl. specialize (IH os ltac:(lia)).
  split.
  - intros H [|i] t' p Ht Hp Hs; cbn in *.
    + injection Ht as <-. injection Hp as <-. apply Nat.eqb_neq in Hs. rewrite Hs in H.
      destruct (is_valid w le t _) as [[]|], (fields_valid w le bs ts os) as [[]|]; done.
    + eapply IH; [|done..].
      destruct (if size_of w t =? 0 then _ else _) as [[]|], (fields_valid w le bs ts os) as [[]|];
        done.
  - intros H. replace (fields_valid w le bs ts os) with (Some true).
    2: { symmetry. apply IH. intros i t' p Ht Hp Hs. by apply (H (S i) t' p). }
    destruct (size_of w t =? 0) eqn:E; [done|].
    rewrite (H 0 t o); [done..|]. by apply Nat.eqb_neq.
Qed.

Lemma fields_valid_total w le bs ts os :
  length os = length ts →
  (∀ i t p, ts !! i = Some t → os !! i = Some p → size_of w t ≠ 0 →
    is_valid w le t (sub p (csize w t) bs) ≠ None) →
  fields_valid w le bs ts os ≠ None.
Proof.
  revert os. induction ts as [|t ts IH]; intros [|o os] Hl H; try done; cbn [fields_valid].
  cbn in Hl. specialize (IH os ltac:(lia)).
  assert (fields_valid w le bs ts os ≠ None) as HT.
  { apply IH. intros i t' p Ht Hp. by apply (H (S i)). }
  destruct (size_of w t =? 0) eqn:E.
  - by destruct (fields_valid _ _ _ _ _) as [[]|].
  - pose proof (H 0 t o) as H0. apply Nat.eqb_neq in E. specialize (H0 eq_refl eq_refl E).
    destruct (is_valid _ _ _ _) as [[]|], (fields_valid _ _ _ _ _) as [[]|]; done.
Qed.

Lemma fields_rep_iff w le bs ts vs os :
  length os = length ts →
  fields_rep w le bs ts vs os ↔
  length vs = length ts ∧
  ∀ i t v p, ts !! i = Some t → vs !! i = Some v → os !! i = Some p →
    rep w le t v (sub p (size_of w t) bs).
Proof.
  revert vs os. induction ts as [|t ts IH]; intros [|v vs] [|o os] Hl; try done; cbn [fields_rep].
  - split; [done|]. by intros [? _].
  - split; [done|]. by intros [? _].
  - cbn in Hl. rewrite IH by lia. split.
    + intros (H0 & H1 & H2). split; [cbn; lia|].
      intros [|i] t' v' p Ht Hv Hp; cbn in *; [congruence|]. by apply (H2 i).
    + intros (H1 & H2). split; [by apply (H2 0)|]. split; [cbn in H1; lia|].
      intros i t' v' p Ht Hv Hp. by apply (H2 (S i)).
Qed.

(** ** Niches *)

Lemma offsets_head ls : (∀ l, l ∈ ls → 0 < snd l) →
  ls ≠ [] → offsets 0 ls !! 0 = Some 0.
Proof.
  intros Hp. destruct ls as [|[s a] ls]; [done|]. intros _. cbn.
  rewrite round_up_0; [done|]. apply (Hp (s, a)). left.
Qed.

Lemma free_valid w le t bs : free t = true → is_valid w le t bs = Some true.
Proof.
  destruct t as [| |[]| | | | | | | |[]|]; try done. intros _. cbn.
  by destruct (word le (sub 0 w bs) =? 0)%N.
Qed.

Lemma free_niche w t : free t = true → niche_at w t = None.
Proof. destruct t as [| |[]| | | | | | | |[]|]; done. Qed.

Lemma fields_valid_free w le bs ts os :
  forallb free ts = true → fields_valid w le bs ts os = Some true.
Proof.
  revert os. induction ts as [|t ts IH]; intros [|o os] H; try done.
  cbn in H. apply andb_true_iff in H as [H1 H2]. cbn [fields_valid].
  rewrite IH by done. rewrite free_valid by done. by destruct (size_of w t =? 0).
Qed.

Lemma niche_in_free w ts os : forallb free ts = true → niche_in w ts os = None.
Proof.
  revert os. induction ts as [|t ts IH]; intros [|o os] H; try done.
  cbn in H. apply andb_true_iff in H as [H1 H2]. cbn [niche_in].
  rewrite free_niche by done. by apply IH.
Qed.

Lemma default_niche w le bs pre k p post o :
  0 < w → (k = PNonNull ∨ k = PAligned) → align_of w p = 1 →
  forallb free pre = true → forallb free post = true →
  Forall (field_ok w) (pre ++ TPtr k p :: post) →
  ∃ n, niche_in w (pre ++ TPtr k p :: post)
         (offsets o (map (layout w) (pre ++ TPtr k p :: post))) = Some n ∧
    offsets o (map (layout w) (pre ++ TPtr k p :: post)) !! length pre = Some n ∧
    (o + w ≤ length bs → n + w ≤ length bs →
     fields_valid w le bs (pre ++ TPtr k p :: post)
       (offsets o (map (layout w) (pre ++ TPtr k p :: post))) =
     Some (negb (word le (sub n w bs) =? 0)%N)).
Proof.
  intros Hw Hk Ha Hpre Hpost Hf. revert o. induction pre as [|t pre IH]; intros o; cbn [app] in *.
  - cbn [map layout offsets niche_in length].
    exists (round_up o w + 0).
    split; [by destruct Hk as [-> | ->]|]. rewrite Nat.add_0_r. split; [done|].
    intros _ Hfit. cbn [fields_valid].
    rewrite fields_valid_free by done.
    unfold size_of at 1. cbn [layout fst]. destruct (w =? 0) eqn:E; [lia|].
    unfold csize. cbn [clayout csa fst].
    assert (is_valid w le (TPtr k p) (sub (round_up o w) w bs) =
      Some (negb (word le (sub (round_up o w) w bs) =? 0)%N)) as ->.
    2: { cbn [both]. by rewrite andb_true_r. }
    assert (Hs : sub 0 w (sub (round_up o w) w bs) = sub (round_up o w) w bs).
    { apply sub_all, sub_length. done. }
    destruct Hk as [-> | ->]; cbn [is_valid]; rewrite Hs, Ha; cbn [N.of_nat];
      rewrite N.mod_1_r, andb_true_r; done.
  - cbn in Hpre. apply andb_true_iff in Hpre as [Ht Hpre].
    apply Forall_cons in Hf as [Hft Hf].
    cbn [map]. destruct (layout w t) as [s a] eqn:El. cbn [offsets niche_in length].
    rewrite free_niche by done.
    destruct (IH Hpre Hf (round_up o a + s)) as (n & H1 & H2 & H3).
    exists n. split; [done|]. split; [done|].
    intros Ho Hn. cbn [fields_valid]. rewrite free_valid by done.
    pose proof (offsets_fit w _ (round_up o a + s) Hw Hf (length pre) (TPtr k p) n) as Hfit.
    rewrite H3; [by destruct (size_of w t =? 0)| |done].
    destruct Hfit as [Hfit _]; [by rewrite list_lookup_middle|done|]. lia.
Qed.

Lemma niche_ok w le t bs :
  0 < w → good w t → nichable w t → length bs = size_of w t →
  ∃ n, niche_at w t = Some n ∧
    is_niche w le t bs (is_valid w le t bs) = Some (word le (sub n w bs) =? 0)%N ∧
    (is_valid w le t bs = Some true → word le (sub n w bs) ≠ 0%N).
Proof.
  intros Hw. induction t as [s a| |k t IH| | |s a|t n IH|nk ts IH|z t IH|s a ds|t IH|t IH] using ty_rec';
    intros Hg Hn Hl; try (by destruct Hn).
  - exists 0. cbn in Hn, Hg. destruct k; try (by destruct Hn); try (by destruct Hg);
      cbn; (split; [done|]; split; [done|]);
      destruct (word le (sub 0 w bs) =? 0)%N eqn:E; cbn; try congruence;
      apply N.eqb_neq in E; done.
  - exists 0. cbn. split; [done|].
    destruct (word le (sub 0 w bs) =? 0)%N eqn:E; cbn; (split; [done|]);
      [congruence|]. by apply N.eqb_neq in E.
  - apply good_struct in Hg as [Hf _].
    assert (Hf' : Forall (field_ok w) ts) by exact Hf. clear Hf.
    destruct nk; [by destruct Hn|..].
    + destruct ts as [|[| |k p| | | | | | | | |] ts]; try (by destruct Hn).
      destruct Hn as [Hk Hslim]. exists 0.
      rewrite niche_struct. cbn [map layout offsets niche_in].
      rewrite round_up_0 by done.
      split; [by destruct k|]. split; [done|].
      intros Hv. rewrite is_valid_struct, fields_valid_iff in Hv.
      2: by rewrite offsets_length, !map_length.
      rewrite (fields_csa w _ Hw Hf') in Hv.
      specialize (Hv 0 (TPtr k p) 0 eq_refl).
      cbn [map layout offsets lookup list_lookup] in Hv. rewrite round_up_0 in Hv by done.
      specialize (Hv eq_refl). unfold size_of in Hv at 1. cbn [layout fst] in Hv.
      specialize (Hv ltac:(lia)). unfold csize in Hv. cbn [clayout csa fst] in Hv.
      assert (w ≤ length bs) as Hle.
      { pose proof (struct_fit w NicheFirst (TPtr k p :: ts) bs 0 (TPtr k p) 0 Hw Hf' Hl eq_refl).
        cbn [map layout offsets lookup list_lookup] in H.
        rewrite round_up_0 in H by done. specialize (H eq_refl). exact H. }
      assert (sub 0 w (sub 0 w bs) = sub 0 w bs) as Hs by (apply sub_all, sub_length; lia).
      apply Forall_cons in Hf' as [[?|Hgk] _]; [done|]. cbn in Hgk.
      destruct k; [done|..|by destruct Hgk]; cbn [is_valid] in Hv; rewrite Hs in Hv;
        destruct (word le (sub 0 w bs) =? 0)%N eqn:E; try done; by apply N.eqb_neq in E.
    + destruct Hn as (pre & k & p & post & -> & Hk & Ha & Hpre & Hpost).
      destruct (default_niche w le bs pre k p post 0 Hw Hk Ha Hpre Hpost Hf') as (n & H1 & H2 & H3).
      exists n. rewrite niche_struct. split; [done|].
      assert (n + w ≤ length bs) as Hfit.
      { apply (struct_fit w NicheDefault _ bs (length pre) (TPtr k p) n Hw Hf' Hl); [|done].
        by rewrite list_lookup_middle. }
      cbn [is_niche]. rewrite is_valid_struct, (fields_csa w _ Hw Hf'), H3 by lia.
      cbn. rewrite negb_involutive. split; [done|].
      intros [=E] E'. by rewrite E' in E.
  - destruct z; [by destruct Hn|]. destruct Hg as [_ Hg]. by apply IH.
Qed.

(** ** Every representation is accepted *)

Lemma rep_valid w le t v bs :
  0 < w → good w t → rep w le t v bs → is_valid w le t bs = Some true.
Proof.
  intros Hw. revert v bs.
  induction t as [s a| |k t IH| | |s a|t n IH|nk ts IH|z t IH|s a ds|t IH|t IH] using ty_rec';
    intros v bs Hg Hr; destruct v; try (by destruct Hr).
  - cbn in Hr. subst. by destruct b.
  - cbn in Hr. destruct Hr as (Hl & Ha & Hk). cbn in Hg.
    destruct k; cbn [is_valid]; rewrite ?sub_all, ?Ha by done; [done|..].
    + destruct Hg as [_ Hg]. rewrite Hg by done. cbn [N.of_nat]. rewrite N.mod_1_r.
      apply N.eqb_neq in Hk. by rewrite Hk.
    + destruct Hk as [H1 H2]. apply N.eqb_neq in H1. rewrite H1. cbn.
      f_equal. apply N.eqb_eq. destruct (decide (align_of w t = 0)) as [E|E].
      * rewrite E in *. destruct H2 as [x ->]. cbn [N.of_nat]. by rewrite N.mul_0_r.
      * apply N.mod_divide; [lia|done].
    + by destruct Hg.
  - cbn in Hr. destruct Hr as (Hl & Ha & Hk). cbn. rewrite sub_all by done.
    rewrite Ha. apply N.eqb_neq in Hk. by rewrite Hk.
  - destruct Hg as [Hn Hg]. destruct Hr as (Hvs & Hl & Hr).
    rewrite is_valid_array, items_valid_iff. intros i Hi.
    rewrite good_csize by done.
    destruct (lookup_lt_is_Some_2 vs i) as [x Hx]; [lia|].
    eapply IH; [done|]. by apply Hr.
  - rewrite rep_struct in Hr. destruct Hr as [Hl Hr].
    apply good_struct in Hg as [Hf _].
    assert (Hf' : Forall (field_ok w) ts) by exact Hf. clear Hf.
    rewrite fields_rep_iff in Hr by (by rewrite offsets_length, map_length).
    destruct Hr as [Hvs Hr].
    rewrite is_valid_struct, (fields_csa w _ Hw Hf'), fields_valid_iff
      by (by rewrite offsets_length, map_length).
    intros i t p Ht Hp Hs.
    destruct (lookup_lt_is_Some_2 vs i) as [x Hx].
    { rewrite Hvs. by eapply lookup_lt_Some. }
    rewrite Forall_lookup in IH, Hf'.
    destruct (Hf' i t Ht) as [-> |Hg]; [done|].
    rewrite good_csize by done. eapply IH; [done..|]. by eapply Hr.
  - destruct Hg as [-> Hg]. cbn in *. by eapply IH.
  - cbn in Hr. destruct Hr as [Hl Hr]. cbn [is_valid]. rewrite sub_all by done.
    f_equal. apply existsb_exists. exists (word le bs).
    split; [|apply N.eqb_refl]. apply elem_of_list_In. by eapply elem_of_list_lookup_2.
  - destruct Hg as [Hg Hn]. destruct Hr as (Hl & n & Hni & Hz).
    destruct (niche_ok w le t bs Hw Hg Hn Hl) as (n' & H1 & H2 & H3).
    cbn [is_valid]. rewrite H2. assert (n' = n) as -> by congruence.
    by rewrite Hz.
  - destruct Hg as [Hg Hn]. cbn [rep] in Hr.
    assert (Hl : length bs = size_of w t) by (eapply rep_length; eauto).
    destruct (niche_ok w le t bs Hw Hg Hn Hl) as (n' & H1 & H2 & H3).
    cbn [is_valid]. rewrite H2. rewrite (IH _ _ Hg Hr).
    by destruct (word le (sub n' w bs) =? 0)%N.
  - cbn in Hr. destruct Hr as [_ Hr]. cbn. by rewrite Hr.
  - cbn [rep] in Hr. destruct Hr as (_ & H1 & Hr). cbn [is_valid]. rewrite H1. cbn.
    cbn [good] in Hg. rewrite good_csize by done.
    replace (round_up 1 (align_of w t)) with (align_of w t) in Hr; [by eapply IH|].
    destruct (good_layout w t Hw Hg) as (_ & _ & Ha & _). change (snd (layout w t)) with (align_of w t) in Ha.
    unfold round_up. replace (1 + align_of w t - 1) with (align_of w t) by lia.
    rewrite Nat.div_same by lia. lia.
Qed.

(** ** Checks do not panic *)

Lemma valid_total w le t bs :
  0 < w → good w t → length bs = size_of w t → is_valid w le t bs ≠ None.
Proof.
  intros Hw. revert bs.
  induction t as [s a| |k t IH| | |s a|t n IH|nk ts IH|z t IH|s a ds|t IH|t IH] using ty_rec';
    intros bs Hg Hl; try done.
  - by destruct k.
  - destruct Hg as [Hn Hg]. rewrite is_valid_array. apply items_valid_total. intros i Hi.
    rewrite good_csize by done. apply IH; [done|]. apply sub_length.
    rewrite Hl. unfold size_of at 3. cbn. fold (size_of w t). nia.
  - apply good_struct in Hg as [Hf _].
    assert (Hf' : Forall (field_ok w) ts) by exact Hf. clear Hf.
    rewrite is_valid_struct, (fields_csa w _ Hw Hf').
    apply fields_valid_total; [by rewrite offsets_length, map_length|].
    intros i t p Ht Hp Hs. pose proof (Forall_lookup_1 _ _ _ _ Hf' Ht) as [-> |Hg]; [done|].
    rewrite good_csize by done.
    apply (Forall_lookup_1 _ _ _ _ IH Ht); [done|]. apply sub_length.
    by eapply struct_fit.
  - destruct Hg as [-> Hg]. by apply IH.
  - destruct Hg as [Hg Hn]. destruct (niche_ok w le t bs Hw Hg Hn Hl) as (n' & H1 & H2 & H3).
    cbn [is_valid]. rewrite H2. destruct (word le (sub n' w bs) =? 0)%N; [done|]. by apply IH.
  - cbn [good] in Hg. cbn [is_valid]. destruct (default 0%N (head bs)) as [|[]]; try done.
    rewrite good_csize by done. apply IH; [done|]. apply sub_length.
    destruct (good_layout w t Hw Hg) as (E & Hs & Ha & Hd).
    rewrite Hl. unfold size_of, align_of in *. cbn [layout].
    destruct (layout w t) as [s a]. cbn in Hs, Ha, Hd. rewrite seal_tagged by done. cbn [fst snd].
    etrans; [|apply seal_ge]. cbn [ending]. rewrite round_up_1. cbn.
    replace (round_up 1 a) with a; [lia|].
    unfold round_up. replace (1 + a - 1) with a by lia. rewrite Nat.div_same by lia. lia.
Qed.

(** ** Everything accepted represents a value *)

Lemma valid_rep w le t bs :
  0 < w → good w t → Forall (λ b, b < 256)%N bs → length bs = size_of w t →
  is_valid w le t bs = Some true → ∃ v, rep w le t v bs.
Proof.
  intros Hw. revert bs.
  induction t as [s a| |k t IH| | |s a|t n IH|nk ts IH|z t IH|s a ds|t IH|t IH] using ty_rec';
    intros bs Hg Hby Hl Hv.
  - by exists (VPrim bs).
  - destruct bs as [|b [|]]; try done. cbn in Hv.
    injection Hv as Hv. apply N.eqb_eq in Hv.
    apply Forall_cons in Hby as [Hb _].
    destruct (byte_bool b Hb Hv) as [-> | ->]; [by exists (VBool false)|by exists (VBool true)].
  - exists (VPtr (word le bs)). change (size_of w (TPtr k t)) with w in Hl.
    cbn. split; [done|]. split; [done|]. destruct k; [done|..]; cbn [is_valid] in Hv;
      rewrite sub_all in Hv by done; cbn in Hg; injection Hv as Hv.
    + apply andb_true_iff in Hv as [Hv _]. by apply negb_true_iff, N.eqb_neq in Hv.
    + apply andb_true_iff in Hv as [Hv Hm]. apply negb_true_iff, N.eqb_neq in Hv.
      split; [done|]. apply N.eqb_eq in Hm.
      destruct (decide (align_of w t = 0)) as [E|E].
      * rewrite E in *. cbn [N.of_nat] in *. by destruct (word le bs).
      * apply N.mod_divide; [lia|done].
    + by destruct Hg.
  - exists (VFn (word le bs)). change (size_of w TFn) with w in Hl. cbn in Hv |- *.
    rewrite sub_all in Hv by done. split; [done|]. split; [done|].
    injection Hv as Hv. by apply negb_true_iff, N.eqb_neq in Hv.
  - destruct Hg.
  - destruct Hg.
  - destruct Hg as [Hn Hg]. rewrite is_valid_array, items_valid_iff in Hv.
    rewrite good_csize in Hv by done.
    assert (Hl' : length bs = n * size_of w t) by (rewrite Hl; done).
    destruct (choose_list (λ i v, rep w le t v (sub (i * size_of w t) (size_of w t) bs)) n)
      as (vs & Hvs & Hr).
    { intros i Hi. apply IH; [done|by apply sub_bytes| |by apply Hv]. apply sub_length. nia. }
    by exists (VArray vs).
  - apply good_struct in Hg as [Hf _].
    assert (Hf' : Forall (field_ok w) ts) by exact Hf. clear Hf.
    rewrite is_valid_struct, (fields_csa w _ Hw Hf'), fields_valid_iff in Hv
      by (by rewrite offsets_length, map_length).
    destruct (choose_list (λ i v, ∀ t p, ts !! i = Some t →
        offsets 0 (map (layout w) ts) !! i = Some p →
        rep w le t v (sub p (size_of w t) bs)) (length ts)) as (vs & Hvs & Hr).
    { intros i Hi. destruct (lookup_lt_is_Some_2 ts i Hi) as [t Ht].
      destruct (lookup_lt_is_Some_2 (offsets 0 (map (layout w) ts)) i) as [p Hp].
      { by rewrite offsets_length, map_length. }
      pose proof (Forall_lookup_1 _ _ _ _ Hf' Ht) as [-> |Hg].
      - exists VUnit. intros t' p' Ht' _. assert (t' = TUnit) as -> by congruence. done.
      - destruct (Forall_lookup_1 _ _ _ _ IH Ht (sub p (size_of w t) bs) Hg) as [v Hv'].
        + by apply sub_bytes.
        + apply sub_length. by eapply struct_fit.
        + rewrite <-good_csize by done. eapply Hv; [done..|].
          pose proof (good_pos w t Hw Hg). lia.
        + exists v. intros t' p' Ht' Hp'. by simplify_eq. }
    exists (VStruct vs). rewrite rep_struct, fields_rep_iff
      by (by rewrite offsets_length, map_length).
    split; [done|]. split; [done|]. intros i t v p Ht Hx Hp. by eapply Hr.
  - destruct Hg as [-> Hg]. destruct (IH bs Hg Hby Hl Hv) as [v Hr]. by exists (VNew v).
  - cbn [is_valid] in Hv. change (size_of w (TEnum s a ds)) with s in Hl.
    rewrite sub_all in Hv by done. injection Hv as Hv. apply existsb_exists in Hv as (d & Hd & E).
    apply N.eqb_eq in E. subst d. apply elem_of_list_In, elem_of_list_lookup in Hd as [i Hi].
    by exists (VVariant i).
  - destruct Hg as [Hg Hn]. change (size_of w (TOption t)) with (size_of w t) in Hl.
    destruct (niche_ok w le t bs Hw Hg Hn Hl) as (n' & H1 & H2 & H3).
    cbn [is_valid] in Hv. rewrite H2 in Hv.
    destruct (word le (sub n' w bs) =? 0)%N eqn:E.
    + exists VNone. cbn. split; [done|]. exists n'. split; [done|]. by apply N.eqb_eq.
    + destruct (IH bs Hg Hby Hl Hv) as [v Hr]. by exists (VSome v).
  - pose proof Hg as Hg'. cbn [good] in Hg. cbn [is_valid] in Hv.
    pose proof (good_pos w (TTagged t) Hw Hg') as Hpos.
    destruct bs as [|b bs]; [rewrite <-Hl in Hpos; cbn in Hpos; lia|]. cbn [head default from_option] in Hv.
    destruct b as [|[]]; try done.
    + by exists VTagNone.
    + rewrite good_csize in Hv by done.
      destruct (good_layout w t Hw Hg) as (E & Hs & Ha & Hd).
      assert (HA : round_up 1 (align_of w t) = align_of w t).
      { unfold round_up. unfold align_of. replace (1 + _ - 1) with (snd (layout w t)) by lia.
        rewrite Nat.div_same by lia. lia. }
      destruct (IH (sub (align_of w t) (size_of w t) (1%N :: bs)) Hg) as [v Hr].
      * by apply sub_bytes.
      * apply sub_length. rewrite Hl. unfold size_of, align_of in *. cbn [layout].
        destruct (layout w t) as [s a]. cbn in Hs, Ha, Hd. rewrite seal_tagged by done. cbn [fst snd].
        etrans; [|apply seal_ge]. cbn [ending]. rewrite round_up_1. cbn in *. lia.
      * done.
      * exists (VTagSome v). cbn [rep]. split; [done|]. split; [done|]. by rewrite HA.
Qed.

(** ** A byte string represents at most one value *)

Lemma rep_fun w le t v v' bs :
  0 < w → t = TUnit ∨ good w t → rep w le t v bs → rep w le t v' bs → v = v'.
Proof.
  intros Hw. revert v v' bs.
  induction t as [s a| |k t IH| | |s a|t n IH|nk ts IH|z t IH|s a ds|t IH|t IH] using ty_rec';
    intros v v' bs Hg Hr Hr'; destruct v; try (by destruct Hr); destruct v'; try (by destruct Hr').
  - destruct Hr as [-> _], Hr' as [-> _]. done.
  - cbn in *. destruct b, b0; congruence.
  - destruct Hr as (_ & <- & _), Hr' as (_ & <- & _). done.
  - destruct Hr as (_ & <- & _), Hr' as (_ & <- & _). done.
  - destruct Hg as [?|[Hn Hg]]; [done|].
    destruct Hr as (H1 & _ & H2), Hr' as (H1' & _ & H2'). f_equal.
    apply list_eq_same_length with n; [done..|].
    intros i x y Hi Hx Hy. eapply IH; [by right|by apply H2|by apply H2'].
  - destruct Hg as [?|Hg]; [done|]. apply good_struct in Hg as [Hf _].
    rewrite rep_struct, fields_rep_iff in Hr by (by rewrite offsets_length, map_length).
    rewrite rep_struct, fields_rep_iff in Hr' by (by rewrite offsets_length, map_length).
    destruct Hr as (_ & H1 & H2), Hr' as (_ & H1' & H2'). f_equal.
    apply list_eq_same_length with (length ts); [done..|].
    intros i x y Hi Hx Hy. destruct (lookup_lt_is_Some_2 ts i) as [t Ht]; [lia|].
    destruct (lookup_lt_is_Some_2 (offsets 0 (map (layout w) ts)) i) as [p Hp].
    { by rewrite offsets_length, map_length; lia. }
    eapply (Forall_lookup_1 _ _ _ _ IH Ht); [by eapply (Forall_lookup_1 _ _ _ _ Hf Ht)|by eapply H2|by eapply H2'].
  - destruct Hg as [?|[-> Hg]]; [done|]. f_equal. eapply IH; [by right|exact Hr|exact Hr'].
  - destruct Hg as [?|(_ & _ & _ & Hnd)]; [done|]. destruct Hr as [_ H], Hr' as [_ H']. f_equal.
    by eapply NoDup_lookup.
  - destruct Hg as [?|[Hg Hn]]; [done|]. destruct Hr as (Hl & n & H1 & H2). cbn [rep] in Hr'.
    destruct (niche_ok w le t bs Hw Hg Hn Hl) as (n' & H1' & _ & H3).
    exfalso. apply H3; [by eapply rep_valid|]. by simplify_eq.
  - destruct Hg as [?|[Hg Hn]]; [done|]. destruct Hr' as (Hl & n & H1 & H2). cbn [rep] in Hr.
    destruct (niche_ok w le t bs Hw Hg Hn Hl) as (n' & H1' & _ & H3).
    exfalso. apply H3; [by eapply rep_valid|]. by simplify_eq.
  - destruct Hg as [?|[Hg Hn]]; [done|]. f_equal. eapply IH; [by right|exact Hr|exact Hr'].
  - destruct Hr as [_ H], Hr' as (_ & H' & _). congruence.
  - destruct Hr as (_ & H & _), Hr' as [_ H']. congruence.
  - destruct Hg as [?|Hg]; [done|]. f_equal. eapply IH; [by right|apply Hr|apply Hr'].
Qed.

(** ** Printed structs *)

(** C layouts whose numbers make sense. *)
Fixpoint csane (c : cty) : Prop :=
  match c with
  | CPrim s a => 0 < a ∧ Nat.divide a s
  | CPtr | CVoid => True
  | COpaque _ _ => False
  | CArray c n => 0 < n ∧ csane c
  | CStruct cs => (fix go cs := match cs with [] => True | c :: cs => csane c ∧ go cs end) cs
  end.

Lemma csane_struct cs : csane (CStruct cs) ↔ Forall csane cs.
Proof.
  cbn [csane]. induction cs as [|c cs IH]; [by split|].
  by rewrite Forall_cons, IH.
Qed.

Definition printed_fields (l : lang) (w : nat) : list cty → option (list hty) :=
  fix go cs :=
    match cs with
    | [] => Some []
    | c :: cs =>
        if fst (csa w c) =? 0 then
          if 1 <? snd (csa w c) then None else go cs
        else
          match printed l w c, go cs with
          | Some h, Some hs => Some (h :: hs)
          | _, _ => None
          end
    end.

Lemma printed_struct l w cs :
  printed l w (CStruct cs) =
  if fst (csa w (CStruct cs)) =? 0 then None
  else match printed_fields l w cs with Some hs => Some (HStruct hs) | None => None end.
Proof. reflexivity. Qed.

Lemma csane_layout w c : 0 < w → csane c → sane (csa w c).
Proof.
  intros Hw. unfold sane.
  induction c as [s a| | |s a|c n IH|cs IH] using cty_rec'; intros Hc.
  - done.
  - cbn. split; [lia|]. exists 1; lia.
  - cbn. split; [lia|]. by exists 0.
  - destruct Hc.
  - destruct Hc as [Hn Hc]. destruct (IH Hc). cbn. split; [done|]. by apply Nat.divide_mul_r.
  - split; [apply seal_align_pos|apply seal_divides].
Qed.

(** Zero-sized fields of alignment 1 do not move anything. *)
Definition kept (ls : list (nat * nat)) : list (nat * nat) := filter (λ l, fst l ≠ 0) ls.

Lemma kept_ending o ls :
  (∀ l, l ∈ ls → fst l = 0 → snd l = 1) → ending o (kept ls) = ending o ls.
Proof.
  revert o. induction ls as [|[s a] ls IH]; intros o H; [done|]. unfold kept.
  rewrite filter_cons. case_decide as Hs; cbn in Hs |- *.
  - apply IH. intros l Hl. apply H. by right.
  - assert (s = 0) as -> by lia. assert (a = 1) as -> by (apply (H (0, a)); [left|done]).
    rewrite round_up_1, Nat.add_0_r. apply IH. intros l Hl. apply H. by right.
Qed.

Lemma kept_max_align ls :
  (∀ l, l ∈ ls → fst l = 0 → snd l = 1) → max_align (kept ls) = max_align ls.
Proof.
  induction ls as [|[s a] ls IH]; intros H; [done|]. unfold kept in *.
  rewrite filter_cons. case_decide as Hs; cbn in Hs |- *.
  - rewrite IH; [done|]. intros l Hl. apply H. by right.
  - assert (s = 0) as -> by lia. assert (a = 1) as -> by (apply (H (0, a)); [left|done]).
    rewrite IH; [|intros l Hl; apply H; by right]. pose proof (max_align_pos ls). lia.
Qed.

Lemma kept_offsets_go o ls :
  (∀ l, l ∈ ls → fst l = 0 → snd l = 1) →
  offsets o (kept ls) =
  map snd (filter (λ p : (nat * nat) * nat, fst (fst p) ≠ 0) (zip ls (offsets o ls))).
Proof.
  revert o. induction ls as [|[s a] ls IH]; intros o H; [done|]. unfold kept in *.
  cbn [offsets]. cbn [zip zip_with].
  rewrite !filter_cons. cbn [fst]. case_decide as Hs.
  - cbn. f_equal. apply IH. intros l Hl. apply H. by right.
  - assert (s = 0) as -> by lia. assert (a = 1) as -> by (apply (H (0, a)); [left|done]).
    rewrite round_up_1, Nat.add_0_r. apply IH. intros l Hl. apply H. by right.
Qed.

Lemma kept_seal ls :
  (∀ l, l ∈ ls → fst l = 0 → snd l = 1) → seal (kept ls) = seal ls.
Proof. intros H. unfold seal. by rewrite kept_ending, kept_max_align. Qed.

Lemma printed_fields_ok l w cs hs :
  Forall csane cs → 0 < w →
  Forall (λ c, ∀ h, csane c → printed l w c = Some h → hsa w h = csa w c) cs →
  printed_fields l w cs = Some hs →
  map (hsa w) hs = kept (map (csa w) cs) ∧
  (∀ x, x ∈ map (csa w) cs → fst x = 0 → snd x = 1).
Proof.
  intros Hc Hw. revert hs. induction Hc as [|c cs Hc Hcs IH]; intros hs HI Hp.
  - injection Hp as <-. split; [done|]. intros x Hx. by apply elem_of_nil in Hx.
  - apply Forall_cons in HI as [HIc HI]. cbn [printed_fields] in Hp. cbn [map]. unfold kept in *.
    rewrite filter_cons. pose proof (csane_layout w c Hw Hc) as [Ha _].
    destruct (fst (csa w c) =? 0) eqn:Es.
    + apply Nat.eqb_eq in Es. destruct (1 <? snd (csa w c)) eqn:E1; [done|].
      apply Nat.ltb_ge in E1. destruct (IH hs HI Hp) as [H1 H2].
      case_decide; [done|]. split; [done|].
      intros x Hx. apply elem_of_cons in Hx as [-> |Hx]; [lia|]. by apply H2.
    + apply Nat.eqb_neq in Es. destruct (printed l w c) as [h|] eqn:Eh; [|done].
      destruct (printed_fields l w cs) as [hs'|]; [|done]. injection Hp as <-.
      destruct (IH hs' HI eq_refl) as [H1 H2].
      case_decide; [|done]. cbn. rewrite H1, (HIc h Hc eq_refl). split; [done|].
      intros x Hx. apply elem_of_cons in Hx as [-> |Hx]; [lia|]. by apply H2.
Qed.

Lemma seal_repeat s a n : 0 < a → Nat.divide a s → 0 < n →
  seal (repeat (s, a) n) = (n * s, a).
Proof.
  intros Ha Hd Hn. unfold seal.
  assert (He : ∀ o, Nat.divide a o → ending o (repeat (s, a) n) = o + n * s).
  { clear Hn. induction n as [|n IH]; intros o Ho; cbn; [lia|].
    rewrite (round_up_div o a) by done. rewrite IH; [lia|]. by apply Nat.divide_add_r. }
  assert (Hm : max_align (repeat (s, a) n) = a).
  { destruct n as [|n]; [lia|]. clear -Ha. cbn. induction n; cbn in *; lia. }
  rewrite He, Hm by (by exists 0). cbn. rewrite round_up_div; [done..|].
  by apply Nat.divide_mul_r.
Qed.

Lemma map_repeat' {A B} (f : A → B) x n : map f (repeat x n) = repeat (f x) n.
Proof. induction n; cbn; congruence. Qed.

Lemma printed_ok l w c h :
  0 < w → csane c → printed l w c = Some h → hsa w h = csa w c.
Proof.
  intros Hw. revert h.
  induction c as [s a| | |s a|c n IH|cs IH] using cty_rec'; intros h Hc Hp.
  - by injection Hp as <-.
  - by injection Hp as <-.
  - done.
  - destruct Hc.
  - destruct Hc as [Hn Hc]. cbn in Hp. destruct (printed l w c) as [h'|]; [|done].
    specialize (IH h' Hc eq_refl). pose proof (csane_layout w c Hw Hc) as [Ha Hd].
    injection Hp as <-. cbn [hsa csa]. rewrite <-IH in *. destruct (hsa w h') as [s a] eqn:E.
    destruct l; cbn [map hsa] in *.
    + rewrite E. cbn in *. apply seal_single; [done|]. by apply Nat.divide_mul_r.
    + rewrite map_repeat', E. by apply seal_repeat.
  - rewrite printed_struct in Hp. destruct (fst _ =? 0); [done|].
    destruct (printed_fields l w cs) as [hs|] eqn:E; [|done]. injection Hp as <-.
    apply csane_struct in Hc.
    assert (Forall (λ c, ∀ h, csane c → printed l w c = Some h → hsa w h = csa w c) cs) as IH'.
    { eapply Forall_impl; [exact IH|]. cbn. auto. }
    destruct (printed_fields_ok l w cs hs Hc Hw IH' E) as [H1 H2].
    cbn [hsa csa]. rewrite H1. by apply kept_seal.
Qed.

Lemma good_csane w t : good w t ∨ t = TUnit → csane (clayout t).
Proof.
  induction t as [s a| |k t IH| | |s a|t n IH|nk ts IH|z t IH|s a ds|t IH|t IH] using ty_rec';
    intros [Hg|?]; try done.
  - cbn in *; tauto.
  - split; [lia|]. by exists 1.
  - destruct Hg as [Hn Hg]. split; [done|]. apply IH. by left.
  - apply good_struct in Hg as [Hf _]. cbn [clayout]. rewrite csane_struct, Forall_fmap.
    rewrite Forall_forall in *. intros t Ht. apply IH; [done|]. destruct (Hf t Ht); tauto.
  - destruct Hg as [-> Hg]. apply IH. by left.
  - cbn in *; tauto.
  - destruct Hg as [Hg _]. apply IH. by left.
  - cbn [good] in Hg. cbn [clayout]. rewrite csane_struct. repeat constructor.
    + by exists 1.
    + apply IH. by left.
Qed.
