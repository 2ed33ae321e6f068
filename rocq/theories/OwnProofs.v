(** Proofs about the life of values. *)

From Coq Require Import List Bool Arith Lia.
From stdpp Require Import base numbers list strings.
From Verif Require Import DynModel DynSpec DynProofs OwnModel OwnSpec.

(** ** Classes of handles *)

Inductive cls := ClLocal | ClBox | ClRc (b : bool) | ClRef (m : bool).
Definition cls_of (k : akind) : cls :=
  match k with
  | AOwn PLocal => ClLocal
  | AOwn PBox | AVptr CBox _ | ABoxFn => ClBox
  | AOwn (PRc b) | AVptr (CRc b) _ => ClRc b
  | AArcFn _ => ClRc true
  | AOwn (PRef m) | AVptr (CRef m) _ => ClRef m
  | ARefFn => ClRef true
  end.
Definition cl (h : ahandle) : cls := cls_of (a_kind h).
Definition alone (c : cls) : Prop := c = ClLocal ∨ c = ClBox.
Definition sole (c : cls) : Prop := alone c ∨ c = ClRef true.

Lemma owning_cls k : owning k = match cls_of k with ClRef _ => false | _ => true end.
Proof. by destruct k as [[]|[]| | |]. Qed.
Lemma owning_ref k m : cls_of k = ClRef m → owning k = false.
Proof. intros H. by rewrite owning_cls, H. Qed.
Lemma owning_not_ref k : owning k = true ↔ ∀ m, cls_of k ≠ ClRef m.
Proof.
  rewrite owning_cls. destruct (cls_of k) eqn:E; split; intros H; try done.
  by destruct (H m).
Qed.
Lemma alone_owning k : alone (cls_of k) → owning k = true.
Proof. rewrite owning_cls. by intros [-> | ->]. Qed.

(** ** Lists of handles *)

Lemma look_lt A i h : look A i = Some h → i < length (handles A).
Proof.
  unfold look. intros H. apply lookup_lt_is_Some. destruct (handles A !! i); [by eexists|done].
Qed.
Lemma look_elem A i h : look A i = Some h ↔ handles A !! i = Some (Some h).
Proof. unfold look. destruct (handles A !! i) as [[]|]; cbn; split; congruence. Qed.
Lemma look_add A h i : look (add A h) i = if decide (i = length (handles A)) then Some h else look A i.
Proof.
  unfold look, add. cbn. destruct (decide (i = length (handles A))) as [->|Hn].
  - by rewrite list_lookup_middle.
  - destruct (decide (i < length (handles A))).
    + by rewrite lookup_app_l.
    + rewrite !lookup_ge_None_2; [done|lia|rewrite app_length; cbn; lia].
Qed.
Lemma look_add_new A k T i :
  look (add_new A k T) i = if decide (i = length (handles A)) then Some (AH k (next A) T None) else look A i.
Proof. exact (look_add A (AH k (next A) T None) i). Qed.
Lemma look_del A i j : look (del A i) j = if decide (j = i) then None else look A j.
Proof.
  unfold look, del. cbn. destruct (decide (j = i)) as [->|Hn].
  - destruct (decide (i < length (handles A))).
    + by rewrite list_lookup_insert.
    + by rewrite list_insert_ge, lookup_ge_None_2 by lia.
  - by rewrite list_lookup_insert_ne.
Qed.
Lemma length_del A i : length (handles (del A i)) = length (handles A).
Proof. unfold del. cbn. by rewrite insert_length. Qed.

Lemma owners_app a hs hs' : owners a (hs ++ hs') = owners a hs + owners a hs'.
Proof. induction hs as [|h hs IH]; [done|]. cbn [owners app]. rewrite IH. lia. Qed.
Lemma owners_add A h a :
  owners a (handles (add A h)) = owners a (handles A) + (if owns a (Some h) then 1 else 0).
Proof. unfold add. cbn [handles]. rewrite owners_app. cbn [owners]. lia. Qed.
Lemma owners_insert a hs i h : hs !! i = Some h →
  owners a (<[i := None]> hs) + (if owns a h then 1 else 0) = owners a hs.
Proof.
  revert i. induction hs as [|h' hs IH]; intros [|i] H; try done.
  - injection H as ->. change (<[0 := None]> (h :: hs)) with (None :: hs). cbn [owners]. cbn [owns]. lia.
  - change (<[S i := None]> (h' :: hs)) with (h' :: <[i := None]> hs). cbn [owners].
    apply IH in H. lia.
Qed.
Lemma owners_del A i h a : look A i = Some h →
  owners a (handles (del A i)) + (if owns a (Some h) then 1 else 0) = owners a (handles A).
Proof. intros H%look_elem. unfold del. cbn [handles]. by apply owners_insert. Qed.
Lemma owners_pos A i h : look A i = Some h → owning (a_kind h) = true → 0 < owners (a_addr h) (handles A).
Proof.
  intros H Ho. pose proof (owners_del A i h (a_addr h) H) as E. cbn in E.
  rewrite Ho, Nat.eqb_refl in E. cbn in E. lia.
Qed.
Lemma owners_ge a hs : 0 < owners a hs → ∃ i h, hs !! i = Some (Some h) ∧ owning (a_kind h) = true ∧ a_addr h = a.
Proof.
  induction hs as [|h hs IH]; cbn; [lia|]. destruct (owns a h) eqn:E.
  - intros _. destruct h as [h|]; [|done]. cbn in E. apply andb_prop in E as [E1 E2].
    exists 0, h. split; [done|]. split; [done|by apply Nat.eqb_eq].
  - intros H. destruct IH as (i & h' & ? & ?); [lia|]. by exists (S i), h'.
Qed.
Lemma owners_unique A i j h h' :
  look A i = Some h → look A j = Some h' → owning (a_kind h) = true → owning (a_kind h') = true →
  a_addr h = a_addr h' → owners (a_addr h) (handles A) = 1 → i = j.
Proof.
  intros Hi Hj Ho Ho' E H. destruct (decide (i = j)) as [|Hn]; [done|].
  pose proof (owners_del A i h (a_addr h) Hi) as E1. cbn [owns] in E1.
  rewrite Ho, Nat.eqb_refl in E1. cbn [andb] in E1.
  assert (Hj' : look (del A i) j = Some h') by (rewrite look_del; by destruct (decide (j = i))).
  apply owners_pos in Hj'; [|done]. rewrite <-E in Hj'. lia.
Qed.

(** ** Accesses *)

Fixpoint nacts (i : nat) (l : list (nat * bool)) : nat :=
  match l with [] => 0 | (j, _) :: l => (if Nat.eqb j i then 1 else 0) + nacts i l end.
Lemma nacts_elem i m l : (i, m) ∈ l → 0 < nacts i l.
Proof.
  induction l as [|[j m'] l IH]; intros H; [by apply elem_of_nil in H|]. cbn.
  apply elem_of_cons in H as [[= -> ->]|H]; [rewrite Nat.eqb_refl; lia|]. apply IH in H. lia.
Qed.
Lemma accessed_false A i : accessed A i false = false ↔ ∀ m, (i, m) ∉ actives A.
Proof.
  unfold accessed. split.
  - intros H m Hm. apply not_true_iff_false in H. apply H. apply existsb_exists. exists (i, m).
    split; [by apply elem_of_list_In|]. cbn. by rewrite Nat.eqb_refl, orb_true_r.
  - intros H. apply not_true_iff_false. intros ([j m] & Hin%elem_of_list_In & E)%existsb_exists.
    cbn in E. apply andb_prop in E as [->%Nat.eqb_eq _]. by apply (H m).
Qed.
Lemma accessed_true A i : accessed A i true = false ↔ (i, true) ∉ actives A.
Proof.
  unfold accessed. split.
  - intros H Hm. apply not_true_iff_false in H. apply H. apply existsb_exists. exists (i, true).
    split; [by apply elem_of_list_In|]. cbn. by rewrite Nat.eqb_refl.
  - intros H. apply not_true_iff_false. intros ([j m] & Hin%elem_of_list_In & E)%existsb_exists.
    cbn in E. apply andb_prop in E as [->%Nat.eqb_eq E]. by destruct m.
Qed.
Lemma borrowed_false A i : borrowed A i false = false ↔ ∀ j h m, look A j = Some h → a_from h ≠ Some (i, m).
Proof.
  unfold borrowed. split.
  - intros H j h m Hj E. apply not_true_iff_false in H. apply H. apply existsb_exists. exists (Some h).
    split; [apply elem_of_list_In, elem_of_list_lookup; exists j; by apply look_elem|]. cbn.
    by rewrite E, Nat.eqb_refl, orb_true_r.
  - intros H. apply not_true_iff_false. intros ([h|] & Hin%elem_of_list_In & E)%existsb_exists; [|done].
    cbn in E. destruct (a_from h) as [[j m]|] eqn:Ef; [|done]. apply andb_prop in E as [->%Nat.eqb_eq _].
    apply elem_of_list_lookup in Hin as [j' Hj']. apply look_elem in Hj'. by apply (H j' h m).
Qed.
Lemma borrowed_true A i : borrowed A i true = false ↔ ∀ j h, look A j = Some h → a_from h ≠ Some (i, true).
Proof.
  unfold borrowed. split.
  - intros H j h Hj E. apply not_true_iff_false in H. apply H. apply existsb_exists. exists (Some h).
    split; [apply elem_of_list_In, elem_of_list_lookup; exists j; by apply look_elem|]. cbn.
    by rewrite E, Nat.eqb_refl.
  - intros H. apply not_true_iff_false. intros ([h|] & Hin%elem_of_list_In & E)%existsb_exists; [|done].
    cbn in E. destruct (a_from h) as [[j m]|] eqn:Ef; [|done]. apply andb_prop in E as [->%Nat.eqb_eq E].
    destruct m; [|done].
    apply elem_of_list_lookup in Hin as [j' Hj']. apply look_elem in Hj'. by apply (H j' h).
Qed.
Lemma can_mut_spec A i : can_mut A i = true ↔
  (∀ j h m, look A j = Some h → a_from h ≠ Some (i, m)) ∧ (∀ m, (i, m) ∉ actives A).
Proof.
  unfold can_mut. rewrite andb_true_iff, !negb_true_iff, borrowed_false, accessed_false. done.
Qed.
Lemma can_share_spec A i : can_share A i = true ↔
  (∀ j h, look A j = Some h → a_from h ≠ Some (i, true)) ∧ (i, true) ∉ actives A.
Proof.
  unfold can_share. rewrite andb_true_iff, !negb_true_iff, borrowed_true, accessed_true. done.
Qed.
Lemma can_use_spec A i m : can_use A i m = true →
  (∀ j h m', look A j = Some h → a_from h = Some (i, m') → m = false ∧ m' = false) ∧
  (∀ m', (i, m') ∈ actives A → m = false ∧ m' = false).
Proof.
  destruct m; cbn.
  - intros [H1 H2]%can_mut_spec. split; [|by intros m' ?%H2]. intros j h m' Hj E. by destruct (H1 _ _ _ Hj E).
  - intros [H1 H2]%can_share_spec. split.
    + intros j h [] Hj E; [|done]. by destruct (H1 _ _ Hj E).
    + by intros [] H.
Qed.

(** ** What holds of all accepted programs *)

Record Inv (A : astate) : Prop := {
  I_addr : ∀ i h, look A i = Some h → a_addr h < next A;
  I_ref : ∀ i h m, look A i = Some h → cl h = ClRef m →
    ∃ j hj, a_from h = Some (j, m) ∧ look A j = Some hj ∧ a_addr hj = a_addr h ∧
      owning (a_kind hj) = true ∧ (m = true → alone (cl hj));
  I_own : ∀ i h, look A i = Some h → owning (a_kind h) = true → a_from h = None;
  I_uniq : ∀ i i' h h' j m, look A i = Some h → look A i' = Some h' →
    a_from h = Some (j, true) → a_from h' = Some (j, m) → i = i';
  I_one : ∀ i h, look A i = Some h → alone (cl h) → owners (a_addr h) (handles A) = 1;
  I_act : ∀ i m, (i, m) ∈ actives A → ∃ h, look A i = Some h ∧ (m = true → sole (cl h));
  I_acts : ∀ i, (i, true) ∈ actives A → nacts i (actives A) = 1;
  I_bor : ∀ i h j m m', look A i = Some h → a_from h = Some (j, m) → (j, m') ∈ actives A →
    m = false ∧ m' = false;
  I_con : ∀ i h c t, look A i = Some h → a_kind h = AVptr c t → ∃ f, (f, c) ∈ constructors t
}.

Lemma Inv_start : Inv astart.
Proof. split; unfold look; cbn; try done; by intros ? ? ?%elem_of_nil || by intros ? ?%elem_of_nil. Qed.

(** A new value. *)
Lemma Inv_new A k T : Inv A → owning k = true → (∀ c t, k = AVptr c t → ∃ f, (f, c) ∈ constructors t) →
  Inv (add_new A k T).
Proof.
  intros I Hk Hc. set (h0 := AH k (next A) T None).
  assert (Hold : ∀ i h, look A i = Some h → look (add_new A k T) i = Some h).
  { intros i h H. rewrite look_add_new. destruct (decide _) as [->|]; [|done]. apply look_lt in H. lia. }
  assert (Hadd : ∀ a, owners a (handles (add_new A k T)) = owners a (handles A) + (if Nat.eqb (next A) a then 1 else 0)).
  { intros a. change (add_new A k T) with (AState (handles (add A h0)) (S (next A)) (actives A)).
    cbn [handles]. rewrite (owners_add A h0). cbn. by rewrite Hk. }
  split; cbn [next actives].
  - intros i h. rewrite look_add_new. destruct (decide _).
    + intros [= <-]. cbn. lia.
    + intros H%(I_addr _ I). cbn. lia.
  - intros i h m. rewrite look_add_new. destruct (decide _).
    + intros [= <-] E. apply owning_ref in E. cbn in E. congruence.
    + intros H E. destruct (I_ref _ I _ _ _ H E) as (j & hj & ? & Hj & ?). exists j, hj.
      split; [done|]. split; [by apply Hold|done].
  - intros i h. rewrite look_add_new. destruct (decide _); [by intros [= <-]|apply (I_own _ I)].
  - intros i i' h h' j m. rewrite !look_add_new. destruct (decide _); [by intros [= <-]|].
    intros H. destruct (decide _); [by intros [= <-]|]. revert H. apply (I_uniq _ I).
  - intros i h. rewrite look_add_new, Hadd. destruct (decide _).
    + intros [= <-] _. cbn. rewrite Nat.eqb_refl.
      destruct (owners (next A) (handles A)) eqn:E; [done|].
      destruct (owners_ge (next A) (handles A)) as (j & hj & Hj%look_elem & _ & Ha); [lia|].
      apply (I_addr _ I) in Hj. lia.
    + intros H Ha. rewrite (I_one _ I _ _ H Ha). apply (I_addr _ I) in H.
      by replace (Nat.eqb (next A) (a_addr h)) with false by (symmetry; apply Nat.eqb_neq; lia).
  - intros i m H. destruct (I_act _ I _ _ H) as (h & Hh & ?). exists h. split; [by apply Hold|done].
  - apply (I_acts _ I).
  - intros i h j m m'. rewrite look_add_new. destruct (decide _); [by intros [= <-]|apply (I_bor _ I)].
  - intros i h c t. rewrite look_add_new. destruct (decide _); [|apply (I_con _ I)].
    intros [= <-]. apply Hc.
Qed.

(** Another handle about a value there is: a clone, or a borrow. *)
Lemma Inv_add A h : Inv A → a_addr h < next A →
  (owning (a_kind h) = true → a_from h = None) →
  (owning (a_kind h) = true → ¬ alone (cl h) ∧ ∀ i h', look A i = Some h' → a_addr h' = a_addr h → ¬ alone (cl h')) →
  (∀ m, cl h = ClRef m → ∃ j hj, a_from h = Some (j, m) ∧ look A j = Some hj ∧ a_addr hj = a_addr h ∧
      owning (a_kind hj) = true ∧ (m = true → alone (cl hj)) ∧
      (∀ i' h' m', look A i' = Some h' → a_from h' = Some (j, m') → m = false ∧ m' = false) ∧
      (∀ m', (j, m') ∈ actives A → m = false ∧ m' = false)) →
  (∀ c t, a_kind h = AVptr c t → ∃ f, (f, c) ∈ constructors t) →
  Inv (add A h).
Proof.
  intros I Ha Hf Hrc Href Hc.
  assert (Hold : ∀ i h', look A i = Some h' → look (add A h) i = Some h').
  { intros i h' H. rewrite look_add. destruct (decide _) as [->|]; [|done]. apply look_lt in H. lia. }
  assert (Hbor : ∀ j m, a_from h = Some (j, m) → cl h = ClRef m ∧
      (∀ i' h' m', look A i' = Some h' → a_from h' = Some (j, m') → m = false ∧ m' = false) ∧
      (∀ m', (j, m') ∈ actives A → m = false ∧ m' = false)).
  { intros j m E. destruct (owning (a_kind h)) eqn:Ho; [by rewrite Hf in E|].
    rewrite owning_cls in Ho. fold (cl h) in Ho. destruct (cl h) as [| | |m0] eqn:Ecl; try done.
    destruct (Href m0 eq_refl) as (j' & hj & E' & _ & _ & _ & _ & H1 & H2). rewrite E in E'.
    injection E' as -> ->. done. }
  split; cbn [next actives].
  - intros i h'. rewrite look_add. destruct (decide _); [by intros [= <-]|apply (I_addr _ I)].
  - intros i h' m. rewrite look_add. destruct (decide _).
    + intros [= <-] E. destruct (Href m E) as (j & hj & ? & ? & ? & ? & ? & _). exists j, hj.
      repeat split; try done. by apply Hold.
    + intros H E. destruct (I_ref _ I _ _ _ H E) as (j & hj & ? & Hj & ?). exists j, hj.
      split; [done|]. split; [by apply Hold|done].
  - intros i h'. rewrite look_add. destruct (decide _); [intros [= <-]; by apply Hf|apply (I_own _ I)].
  - intros i i' h1 h2 j m. rewrite !look_add. destruct (decide (i = _)) as [->|Hi].
    + intros [= <-]. destruct (decide (i' = _)) as [->|Hi']; [done|]. intros H2 E1 E2.
      apply Hbor in E1 as (_ & H & _). by destruct (H _ _ _ H2 E2).
    + intros H1. destruct (decide (i' = _)) as [->|Hi'].
      * intros [= <-] E1 E2. apply Hbor in E2 as (_ & H & _). by destruct (H _ _ _ H1 E1).
      * revert H1. apply (I_uniq _ I).
  - intros i h'. rewrite look_add, owners_add. destruct (decide _).
    + intros [= <-] Hal. destruct Hrc as [Hn _]; [by apply alone_owning|]. done.
    + intros H Hal. rewrite (I_one _ I _ _ H Hal). destruct (owns (a_addr h') (Some h)) eqn:E; [|done].
      cbn in E. apply andb_prop in E as [Ho E%Nat.eqb_eq]. destruct (Hrc Ho) as [_ Hn]. by destruct (Hn _ _ H).
  - intros i m H. destruct (I_act _ I _ _ H) as (h' & Hh & ?). exists h'. split; [by apply Hold|done].
  - apply (I_acts _ I).
  - intros i h' j m m'. rewrite look_add. destruct (decide _); [|apply (I_bor _ I)].
    intros [= <-] E Hm'. apply Hbor in E as (_ & _ & H). by apply H.
  - intros i h' c t. rewrite look_add. destruct (decide _); [|apply (I_con _ I)].
    intros [= <-]. apply Hc.
Qed.

(** A handle goes. *)
Lemma Inv_del A i : Inv A → can_mut A i = true → Inv (del A i).
Proof.
  intros I [Hb Ha]%can_mut_spec.
  assert (Hkeep : ∀ j h, look (del A i) j = Some h → look A j = Some h).
  { intros j h. rewrite look_del. by destruct (decide _). }
  split; cbn [next actives].
  - intros j h Hj%Hkeep. by apply (I_addr _ I) in Hj.
  - intros j h m Hj%Hkeep E. destruct (I_ref _ I _ _ _ Hj E) as (k & hk & Ef & Hk & ?). exists k, hk.
    split; [done|]. split; [|done]. rewrite look_del. destruct (decide (k = i)) as [->|]; [|done].
    by destruct (Hb _ _ _ Hj Ef).
  - intros j h Hj%Hkeep. by apply (I_own _ I j).
  - intros j j' h h' k m Hj%Hkeep Hj'%Hkeep. by apply (I_uniq _ I).
  - intros j h Hj Hal. pose proof (Hkeep _ _ Hj) as Hj0. pose proof (I_one _ I _ _ Hj0 Hal) as H1.
    destruct (look A i) as [hi|] eqn:Hi.
    + pose proof (owners_del A i hi (a_addr h) Hi) as E.
      apply owners_pos in Hj; [|by apply alone_owning]. lia.
    + unfold del. cbn. unfold look in Hi. destruct (handles A !! i) as [[?|]|] eqn:Ei; [done| |].
      * pose proof (owners_insert (a_addr h) (handles A) i None Ei) as E. cbn in E. lia.
      * rewrite list_insert_ge; [done|]. by apply lookup_ge_None_1.
  - intros j m Hj. destruct (I_act _ I _ _ Hj) as (h & Hh & ?). exists h. split; [|done].
    rewrite look_del. destruct (decide (j = i)) as [->|]; [|done]. by apply Ha in Hj.
  - apply (I_acts _ I).
  - intros j h k m m' Hj%Hkeep. by apply (I_bor _ I j).
  - intros j h c t Hj%Hkeep. by apply (I_con _ I j).
Qed.

(** A handle becomes another of the same class. *)
Lemma Inv_conv A i h k : Inv A → look A i = Some h → can_mut A i = true → cls_of k = cl h →
  (∀ c t, k = AVptr c t → ∃ f, (f, c) ∈ constructors t) →
  Inv (add (del A i) (AH k (a_addr h) (a_ty h) (a_from h))).
Proof.
  intros I Hi Hm Hk Hc. pose proof Hm as [Hb Ha]%can_mut_spec. pose proof (Inv_del A i I Hm) as I'.
  set (h' := AH k (a_addr h) (a_ty h) (a_from h)).
  assert (Ho : owning (a_kind h') = owning (a_kind h)) by (by rewrite !owning_cls; cbn; rewrite Hk).
  assert (Hkeep : ∀ j x, look (del A i) j = Some x → look A j = Some x ∧ j ≠ i).
  { intros j x. rewrite look_del. by destruct (decide _). }
  (* as adding, but the old one counts no more *)
  assert (Hold : ∀ j x, look (del A i) j = Some x → look (add (del A i) h') j = Some x).
  { intros j x H. rewrite look_add. destruct (decide _) as [->|]; [|done]. apply look_lt in H. lia. }
  assert (Hcnt : ∀ a, owners a (handles (add (del A i) h')) = owners a (handles A)).
  { intros a. rewrite owners_add, <-(owners_del A i h a Hi). unfold owns.
    rewrite Ho. done. }
  split; cbn [next actives].
  - intros j x. rewrite look_add. destruct (decide _); [intros [= <-]; exact (I_addr _ I _ _ Hi)|apply (I_addr _ I')].
  - intros j x m. rewrite look_add. destruct (decide _).
    + intros [= <-] E. change (cls_of k = ClRef m) in E. rewrite Hk in E.
      destruct (I_ref _ I _ _ _ Hi E) as (j' & hj & Ef & Hj & ?). exists j', hj. split; [done|]. split; [|done].
      apply Hold. rewrite look_del. destruct (decide (j' = i)) as [->|]; [|done].
      by destruct (Hb _ _ _ Hi Ef).
    + intros H E. destruct (I_ref _ I' _ _ _ H E) as (j' & hj & ? & Hj & ?). exists j', hj.
      split; [done|]. split; [by apply Hold|done].
  - intros j x. rewrite look_add. destruct (decide _); [|apply (I_own _ I')].
    intros [= <-]. rewrite Ho. exact (I_own _ I i h Hi).
  - intros j j' x x' j0 m. rewrite !look_add. destruct (decide (j = _)) as [->|Hj].
    + intros [= <-]. destruct (decide (j' = _)) as [->|Hj']; [done|]. intros [H2 Hne]%Hkeep E1 E2. cbn in E1.
      by destruct (Hne (eq_sym (I_uniq _ I _ _ _ _ _ _ Hi H2 E1 E2))).
    + intros H1. destruct (decide (j' = _)) as [->|Hj'].
      * intros [= <-] E1 E2. apply Hkeep in H1 as [H1 Hne]. cbn in E2.
        by destruct (Hne (I_uniq _ I _ _ _ _ _ _ H1 Hi E1 E2)).
      * revert H1. apply (I_uniq _ I').
  - intros j x. rewrite look_add, Hcnt. destruct (decide _).
    + intros [= <-] Hal. change (alone (cls_of k)) in Hal. rewrite Hk in Hal. exact (I_one _ I i h Hi Hal).
    + intros [H _]%Hkeep. by apply (I_one _ I j).
  - intros j m H. destruct (I_act _ I' _ _ H) as (x & Hx & ?). exists x. split; [by apply Hold|done].
  - apply (I_acts _ I).
  - intros j x j0 m m'. rewrite look_add. destruct (decide _); [intros [= <-]; exact (I_bor _ I i h j0 m m' Hi)|apply (I_bor _ I')].
  - intros j x c t. rewrite look_add. destruct (decide _); [|apply (I_con _ I')].
    intros [= <-]. apply Hc.
Qed.

(** An access begins, or ends. *)
Lemma Inv_begin A i m h : Inv A → look A i = Some h → can_use A i m = true → (m = true → sole (cl h)) →
  Inv (AState (handles A) (next A) ((i, m) :: actives A)).
Proof.
  intros I Hi [Hb Ha]%can_use_spec Hs.
  split; cbn [next actives handles]; [exact (I_addr _ I)|exact (I_ref _ I)|exact (I_own _ I)|exact (I_uniq _ I)|exact (I_one _ I)| | | |exact (I_con _ I)].
  - intros j m' [[= -> ->]|H]%elem_of_cons; [by exists h|by apply (I_act _ I)].
  - intros j Hj. cbn. apply elem_of_cons in Hj as [[= -> <-]|Hj].
    + rewrite Nat.eqb_refl. destruct (nacts i (actives A)) eqn:E; [done|]. exfalso.
      assert (∃ m', (i, m') ∈ actives A) as [m' Hm'].
      { clear -E. induction (actives A) as [|[j m'] l IH]; [done|]. cbn in E.
        destruct (Nat.eqb_spec j i) as [->|].
        - exists m'. left.
        - destruct IH as [m'' ?]; [lia|]. exists m''. by right. }
      by destruct (Ha _ Hm').
    + rewrite (I_acts _ I _ Hj). destruct (Nat.eqb_spec i j) as [->|]; [|done].
      by destruct (Ha _ Hj).
  - intros j x k m0 m' Hj Ef [[= -> ->]|H]%elem_of_cons; [|by apply (I_bor _ I j x k)].
    destruct (Hb _ _ _ Hj Ef). done.
Qed.
Lemma end_one_elem i m l l' : end_one i m l = Some l' → (i, m) ∈ l ∧ (∀ x, x ∈ l' → x ∈ l) ∧ ∀ j, nacts j l = nacts j l' + (if Nat.eqb i j then 1 else 0).
Proof.
  revert l'. induction l as [|[j m'] l IH]; intros l' H; [done|]. cbn in H.
  destruct (Nat.eqb j i && Bool.eqb m' m) eqn:E.
  - injection H as <-. apply andb_prop in E as [->%Nat.eqb_eq ->%eqb_prop].
    split; [left|]. split; [by right|]. intros j. cbn. lia.
  - destruct (end_one i m l) as [l0|]; [|done]. injection H as <-. destruct (IH _ eq_refl) as (H1 & H2 & H3).
    split; [by right|]. split.
    + intros x [->|Hx]%elem_of_cons; [left|right; by apply H2].
    + intros j0. cbn. rewrite H3. lia.
Qed.
Lemma Inv_end A i m l : Inv A → end_one i m (actives A) = Some l → Inv (AState (handles A) (next A) l).
Proof.
  intros I (H1 & H2 & H3)%end_one_elem.
  split; cbn [next actives handles]; [exact (I_addr _ I)|exact (I_ref _ I)|exact (I_own _ I)|exact (I_uniq _ I)|exact (I_one _ I)| | | |exact (I_con _ I)].
  - intros j m' H. by apply (I_act _ I), H2.
  - intros j Hj. pose proof (I_acts _ I j (H2 _ Hj)) as E. rewrite H3 in E.
    apply nacts_elem in Hj. lia.
  - intros j x k m0 m' Hj Ef H. apply (I_bor _ I j x k); [done|done|by apply H2].
Qed.

(** What gives exclusive access is the only one to. *)
Lemma gives_sole A i h : Inv A → look A i = Some h → gives true (a_kind h) = true → sole (cl h).
Proof.
  intros I Hi Hg. unfold cl. destruct (a_kind h) as [[| | |[]]|c t| | |] eqn:Ek; cbn in Hg; try done;
    try (left; by (left + right)); try by right.
  destruct (I_con _ I _ _ _ _ Hi Ek) as [f Hc]. apply existsb_exists in Hg as (r & Hr%elem_of_list_In & E).
  assert (Hma : mut_access r).
  { destruct r as [|m [| | |]|n [|m [| | |]| |]|]; cbn in E; try done.
    - destruct m; [constructor|done].
    - apply andb_prop in E as [->%String.eqb_eq E]. destruct m; [constructor|done]. }
  destruct (exclusive_mut _ _ _ _ Hc Hr Hma) as [-> | ->]; cbn; [left; by right|by right].
Qed.

Lemma look_cl_ref A i h m : Inv A → look A i = Some h → cl h = ClRef m → ∃ j, a_from h = Some (j, m).
Proof. intros I Hi E. destruct (I_ref _ I _ _ _ Hi E) as (j & _ & ? & _). by exists j. Qed.

(** Copying a handle that is not exclusive. *)
Lemma Inv_dup A i h : Inv A → look A i = Some h → can_share A i = true →
  (∃ b, cl h = ClRc b) ∨ cl h = ClRef false → Inv (add A h).
Proof.
  intros I Hi [Hb Ha]%can_share_spec Hcl. apply Inv_add; [done|by apply (I_addr _ I i)| | | |].
  - by apply (I_own _ I i).
  - intros Ho. destruct Hcl as [[b E]|E]; [|by rewrite (owning_ref _ _ E) in Ho]. split; [by rewrite E; intros [|]|].
    intros j h' Hj Ea Hal. pose proof (I_one _ I _ _ Hj Hal) as H1.
    pose proof (owners_unique A j i h' h Hj Hi (alone_owning _ Hal) Ho Ea H1). subst j.
    rewrite Hi in Hj. injection Hj as <-. rewrite E in Hal. by destruct Hal.
  - intros m E. destruct Hcl as [[b E']|E']; rewrite E in E'; [done|]. injection E' as ->.
    destruct (I_ref _ I _ _ _ Hi E) as (j & hj & Ef & Hj & ? & ? & ?). exists j, hj.
    do 5 (split; [done|]). split.
    + intros i' h' [] Hi' Ef'; [|done].
      pose proof (I_uniq _ I _ _ _ _ _ _ Hi' Hi Ef' Ef). subst i'. rewrite Hi in Hi'. injection Hi' as <-. congruence.
    + intros m' Hm'. by apply (I_bor _ I _ _ _ _ _ Hi Ef Hm').
  - intros c t. by apply (I_con _ I i).
Qed.

Lemma astep_Inv A o A' : Inv A → astep A o = Some A' → Inv A'.
Proof.
  intros I H. destruct o as [k T|T|i m|i t f|i|i|i m|i m|i]; cbn in H.
  - destruct k; try done; injection H as <-; by apply Inv_new.
  - injection H as <-. by apply Inv_new.
  - destruct (look A i) as [h|] eqn:Hi; [|done]. destruct (a_kind h) as [k| | | |] eqn:Ek; try done.
    assert (Hg : can_use A i m && gives m (AOwn k) = true ∧ owning (AOwn k) = true ∧
      A' = add A (AH (AOwn (PRef m)) (a_addr h) (a_ty h) (Some (i, m)))).
    { destruct k; try done; cbn [gives];
        match type of H with context [if ?b then _ else _] => destruct b end; try done; by injection H as <-. }
    destruct Hg as ([Hu Hg]%andb_prop & Ho & ->). apply can_use_spec in Hu as [Hb Ha].
    apply Inv_add; cbn; try done; [by apply (I_addr _ I i)|].
    intros m' [= <-]. exists i, h. rewrite Ek. split; [done|]. split; [done|]. split; [done|]. split; [done|].
    split; [|done]. intros ->. unfold cl. rewrite Ek. destruct k; try done; by (left + right).
  - destruct (look A i) as [h|] eqn:Hi; [|done]. destruct (a_kind h) as [k| | | |] eqn:Ek; try done.
    destruct (source k) as [c|] eqn:Es; [|done]. destruct (can_mut A i) eqn:Em; [|done].
    destruct (coerces t f c (a_ty h)) eqn:Ec; [|done]. injection H as <-.
    apply Inv_conv; [done|done|done| |].
    + unfold cl. rewrite Ek. by destruct k; cbn in Es; try done; injection Es as <-.
    + intros c' t' [= <- <-]. apply andb_prop in Ec as [Ec _]. apply bool_decide_eq_true in Ec. by exists f.
  - destruct (look A i) as [h|] eqn:Hi; [|done]. destruct (a_kind h) as [k| | | |] eqn:Ek; try done.
    destruct (fn_of k (a_ty h)) as [k'|] eqn:Es; [|done]. destruct (can_mut A i) eqn:Em; [|done]. injection H as <-.
    assert (cls_of k' = cls_of (AOwn k) ∧ ∀ c t, k' ≠ AVptr c t) as [Hk Hn].
    { destruct k as [| |[]|[]]; cbn in Es; try done; destruct (t_send (a_ty h)); cbn in Es; try done.
      - by injection Es as <-.
      - destruct (t_sync (a_ty h)); [by injection Es as <-|done].
      - by injection Es as <-. }
    apply Inv_conv; [done|done|done| |].
    + unfold cl. by rewrite Ek.
    + intros c t E. by apply Hn in E.
  - destruct (look A i) as [h|] eqn:Hi; [|done]. destruct (can_share A i) eqn:Hs; [|done].
    destruct (a_kind h) as [[]|c t|[]| |] eqn:Ek; try done.
    + injection H as <-. eapply Inv_dup; [done|done|done|]. left. unfold cl. rewrite Ek. by eexists.
    + destruct (vptr_clone t) eqn:Hk; [|done]. destruct (I_con _ I _ _ _ _ Hi Ek) as [f Hc]. destruct c as [| |m].
      * injection H as <-. apply Inv_new; [done|done|]. intros c t' [= <- <-]. by exists f.
      * injection H as <-. eapply Inv_dup; [done|done|done|]. left. unfold cl. rewrite Ek. by eexists.
      * injection H as <-. eapply Inv_dup; [done|done|done|]. right. unfold cl. rewrite Ek. cbn.
        destruct m; [|done]. by apply clone_not_mut in Hc.
    + injection H as <-. eapply Inv_dup; [done|done|done|]. left. unfold cl. rewrite Ek. by eexists.
  - destruct (look A i) as [h|] eqn:Hi; [|done]. destruct (can_use A i m) eqn:Hu; [|done].
    destruct (gives m (a_kind h)) eqn:Hg; [|done]. injection H as <-. eapply Inv_begin; [done|done|done|].
    intros ->. by eapply gives_sole.
  - destruct (end_one i m (actives A)) as [l|] eqn:E; [|done]. injection H as <-. by eapply Inv_end.
  - destruct (look A i) as [h|] eqn:Hi; [|done]. destruct (can_mut A i) eqn:Hm; [|done]. injection H as <-.
    by apply Inv_del.
Qed.
Lemma arun_Inv os A A' : Inv A → arun A os = Some A' → Inv A'.
Proof.
  revert A. induction os as [|o os IH]; intros A I H; cbn in H; [by injection H as <-|].
  destruct (astep A o) as [A1|] eqn:E; [|done]. eapply IH; [|done]. by eapply astep_Inv.
Qed.
