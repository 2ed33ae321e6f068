(** What the expected events say of the life of values. *)

From Coq Require Import List Bool Arith Lia.
From stdpp Require Import base numbers list strings.
From Verif Require Import DynModel DynSpec DynProofs OwnModel OwnSpec OwnProofs.

Lemma held A i h : Inv A → look A i = Some h → 0 < owners (a_addr h) (handles A).
Proof.
  intros I Hi. destruct (owning (a_kind h)) eqn:Ho; [by eapply owners_pos|].
  rewrite owning_cls in Ho. fold (cl h) in Ho. destruct (cl h) as [| | |m] eqn:Ecl; try done.
  destruct (I_ref _ I _ _ _ Hi Ecl) as (j & hj & _ & Hj & Ea & Hoj & _). rewrite <-Ea. by eapply owners_pos.
Qed.

(** ** Shapes of steps *)

(** What a step does to the handles. *)
Inductive shape (A A' : astate) : Prop :=
| Sh_new k T : A' = add_new A k T → owning k = true → shape A A'
| Sh_add i h h' : look A i = Some h → a_addr h' = a_addr h → A' = add A h' → shape A A'
| Sh_conv i h h' : look A i = Some h → a_addr h' = a_addr h → owning (a_kind h') = owning (a_kind h) →
    can_mut A i = true → A' = add (del A i) h' → shape A A'
| Sh_del i h : look A i = Some h → can_mut A i = true → A' = del A i → shape A A'
| Sh_act : handles A' = handles A → next A' = next A → shape A A'.
Lemma astep_shape A o A' : astep A o = Some A' → shape A A'.
Proof.
  intros H. destruct o as [k T|T|i m|i t f|i|i|i m|i m|i]; cbn [astep] in H.
  - destruct k; try done; injection H as <-; (eapply Sh_new; [reflexivity|done]).
  - injection H as <-. (eapply Sh_new; [reflexivity|done]).
  - destruct (look A i) as [h|] eqn:Hi; [|done]. destruct (a_kind h) as [k| | | |] eqn:Ek; try done.
    destruct k; try done; match type of H with context [if ?b then _ else _] => destruct b end; try done;
      injection H as <-; (eapply Sh_add; [eassumption| |reflexivity]; done).
  - destruct (look A i) as [h|] eqn:Hi; [|done]. destruct (a_kind h) as [k| | | |] eqn:Ek; try done.
    destruct (source k) as [c|] eqn:Es; [|done]. destruct (can_mut A i) eqn:Em; [|done].
    destruct (coerces t f c (a_ty h)) eqn:Ec; [|done]. injection H as <-.
    eapply Sh_conv; [eassumption| | |done|reflexivity]; [done|]. rewrite Ek.
    by destruct k; cbn in Es; try done; injection Es as <-.
  - destruct (look A i) as [h|] eqn:Hi; [|done]. destruct (a_kind h) as [k| | | |] eqn:Ek; try done.
    destruct (fn_of k (a_ty h)) as [k'|] eqn:Es; [|done]. destruct (can_mut A i) eqn:Em; [|done]. injection H as <-.
    eapply Sh_conv; [eassumption| | |done|reflexivity]; [done|]. rewrite Ek.
    destruct k as [| |[]|[]]; cbn in Es; try done; destruct (t_send (a_ty h)); cbn in Es; try done.
    + by injection Es as <-.
    + destruct (t_sync (a_ty h)); [by injection Es as <-|done].
    + by injection Es as <-.
  - destruct (look A i) as [h|] eqn:Hi; [|done]. destruct (can_share A i) eqn:Hs; [|done].
    destruct (a_kind h) as [[]|c t|[]| |] eqn:Ek; try done.
    + injection H as <-. (eapply Sh_add; [eassumption| |reflexivity]; done).
    + destruct (vptr_clone t) eqn:Hk; [|done].
      destruct c as [| |m]; injection H as <-; [(eapply Sh_new; [reflexivity|done])|(eapply Sh_add; [eassumption| |reflexivity]; done)|(eapply Sh_add; [eassumption| |reflexivity]; done)].
    + injection H as <-. (eapply Sh_add; [eassumption| |reflexivity]; done).
  - destruct (look A i) as [h|] eqn:Hi; [|done].
    destruct (can_use A i m && gives m (a_kind h)); [|done]. injection H as <-. by apply Sh_act.
  - destruct (end_one i m (actives A)) as [l|] eqn:E; [|done]. injection H as <-. by apply Sh_act.
  - destruct (look A i) as [h|] eqn:Hi; [|done]. destruct (can_mut A i) eqn:Hm; [|done]. injection H as <-.
    (eapply Sh_del; [eassumption|done|reflexivity]).
Qed.

Lemma next_mono A o A' : astep A o = Some A' → next A ≤ next A'.
Proof. intros []%astep_shape; subst; cbn; lia. Qed.

(** A handle with an access in progress stays. *)
Lemma astep_look A o A' j m h : astep A o = Some A' → (j, m) ∈ actives A → look A j = Some h → look A' j = Some h.
Proof.
  intros Hs Hj Hl. apply astep_shape in Hs as [k T -> _|i h1 h' _ _ ->|i h1 h' Hi _ _ [_ Ha]%can_mut_spec ->|i h1 Hi [_ Ha]%can_mut_spec ->|E _].
  - rewrite look_add_new. destruct (decide _) as [->|]; [|done]. apply look_lt in Hl. lia.
  - rewrite look_add. destruct (decide _) as [->|]; [|done]. apply look_lt in Hl. lia.
  - rewrite look_add, look_del, length_del. destruct (decide _) as [->|]; [apply look_lt in Hl; lia|].
    destruct (decide _) as [->|]; [|done]. by apply Ha in Hj.
  - rewrite look_del. destruct (decide _) as [->|]; [|done]. by apply Ha in Hj.
  - unfold look. by rewrite E.
Qed.

(** Nobody owns it: nobody will. *)
Lemma astep_dead A o A' a : Inv A → astep A o = Some A' → a < next A → owners a (handles A) = 0 → owners a (handles A') = 0.
Proof.
  intros I Hs Ha Hz. apply astep_shape in Hs as [k T -> Hk|i h1 h' Hi E ->|i h1 h' Hi E Ho _ ->|i h1 Hi _ ->|E _].
  - change (handles (add_new A k T)) with (handles (add A (AH k (next A) T None))). rewrite owners_add, Hz.
    cbn [owns a_kind a_addr]. by rewrite (proj2 (Nat.eqb_neq (next A) a)), andb_false_r by lia.
  - rewrite owners_add, Hz. apply (held _ _ _ I) in Hi. rewrite <-E in Hi. cbn [owns].
    rewrite (proj2 (Nat.eqb_neq (a_addr h') a)), andb_false_r; [done|]. intros E'. rewrite E' in Hi. lia.
  - rewrite owners_add. pose proof (owners_del A i h1 a Hi) as Hd. unfold owns in *. rewrite Ho, E. lia.
  - pose proof (owners_del A i h1 a Hi). lia.
  - by rewrite E.
Qed.

(** ** Events *)

Definition destroys (a : nat) (e : event) : bool := match e with EDestroy b => Nat.eqb b a | _ => false end.
Definition news (a : nat) (e : event) : bool := match e with ENew b => Nat.eqb b a | _ => false end.

Lemma tally_app p l l' : tally p (l ++ l') = tally p l + tally p l'.
Proof. induction l as [|e l IH]; [done|]. cbn [app tally]. rewrite IH. lia. Qed.
Lemma tally_zero p l e : tally p l = 0 → e ∈ l → p e = false.
Proof.
  induction l as [|x l IH]; intros H He; [by apply elem_of_nil in He|]. cbn [tally] in H.
  apply elem_of_cons in He as [->|He]; [by destruct (p x); [lia|]|]. apply IH; [lia|done].
Qed.
Lemma tally_pos p l e : e ∈ l → p e = true → 0 < tally p l.
Proof.
  induction l as [|x l IH]; intros He Hp; [by apply elem_of_nil in He|]. cbn [tally].
  apply elem_of_cons in He as [->|He]; [rewrite Hp; lia|]. specialize (IH He Hp). lia.
Qed.
Lemma not_destroyed a l : tally (destroys a) l = 0 → EDestroy a ∉ l.
Proof. intros H He. apply (tally_zero _ _ _ H) in He. cbn in He. by rewrite Nat.eqb_refl in He. Qed.
Lemma made a l : 0 < tally (news a) l → ENew a ∈ l.
Proof.
  induction l as [|e l IH]; cbn [tally]; [lia|]. intros H. destruct (news a e) eqn:E.
  - destruct e; try done. cbn in E. apply Nat.eqb_eq in E as ->. left.
  - right. apply IH. lia.
Qed.

(** Each operation makes at most one event. *)
Lemma expected_short A o : expected A o = [] ∨ ∃ e, expected A o = [e].
Proof.
  destruct o as [k T|T|i m|i t f|i|i|i m|i m|i]; cbn [expected]; try by left.
  - right. by eexists.
  - right. by eexists.
  - destruct (look A i) as [[[]]|]; try by left. destruct c; try by left. right. by eexists.
  - destruct (look A i); [right; by eexists|by left].
  - destruct (look A i); [right; by eexists|by left].
  - destruct (look A i) as [h|]; [|by left]. destruct (_ && _); [right; by eexists|by left].
Qed.

(** An event in the middle of the log comes from an operation in the middle of
    the program. *)
Lemma log_split os A A' pre e post : arun A os = Some A' → expected_log A os = pre ++ e :: post →
  ∃ os1 o os2 A1 A2, os = os1 ++ o :: os2 ∧ arun A os1 = Some A1 ∧ astep A1 o = Some A2 ∧ arun A2 os2 = Some A' ∧
    expected_log A os1 = pre ∧ expected A1 o = [e] ∧ expected_log A2 os2 = post.
Proof.
  revert A pre. induction os as [|o os IH]; intros A pre H E; cbn [arun expected_log] in *.
  - by destruct pre.
  - destruct (astep A o) as [A1|] eqn:Es; [|done].
    destruct (expected_short A o) as [E0|[e0 E0]]; rewrite E0 in E.
    + destruct (IH _ _ H E) as (os1 & o' & os2 & A1' & A2 & -> & H1 & H2 & H3 & H4 & H5 & H6).
      exists (o :: os1), o', os2, A1', A2. cbn [arun expected_log]. rewrite Es, E0. done.
    + destruct pre as [|e1 pre].
      * injection E as -> E. exists [], o, os, A, A1. done.
      * injection E as -> E. destruct (IH _ _ H E) as (os1 & o' & os2 & A1' & A2 & -> & H1 & H2 & H3 & H4 & H5 & H6).
        exists (o :: os1), o', os2, A1', A2. cbn [arun expected_log app]. rewrite Es, E0, <-H4. done.
Qed.
Lemma expected_log_app A os os' A1 : arun A os = Some A1 →
  expected_log A (os ++ os') = expected_log A os ++ expected_log A1 os'.
Proof.
  revert A. induction os as [|o os IH]; intros A H; cbn [app arun expected_log] in *.
  - by injection H as ->.
  - destruct (astep A o) as [A'|]; [|done]. by rewrite (IH _ H), app_assoc.
Qed.
Lemma arun_app A os os' A1 : arun A os = Some A1 → arun A (os ++ os') = arun A1 os'.
Proof.
  revert A. induction os as [|o os IH]; intros A H; cbn [app arun] in *.
  - by injection H as ->.
  - destruct (astep A o) as [A'|]; [|done]. by apply IH.
Qed.

(** ** Accesses in progress *)

Fixpoint nact (look : nat → option ahandle) (a : nat) (l : list (nat * bool)) : nat :=
  match l with
  | [] => 0
  | (j, _) :: l => (match look j with Some h => if Nat.eqb (a_addr h) a then 1 else 0 | None => 0 end) + nact look a l
  end.
Lemma nact_ext f g a l : (∀ j m, (j, m) ∈ l → f j = g j) → nact f a l = nact g a l.
Proof.
  induction l as [|[j m] l IH]; intros H; [done|]. cbn [nact]. rewrite (H j m), IH; [done| |left].
  intros j' m' Hj. apply (H j' m'). by right.
Qed.
Lemma nact_end f a i m l l' h : end_one i m l = Some l' → f i = Some h →
  nact f a l = nact f a l' + (if Nat.eqb (a_addr h) a then 1 else 0).
Proof.
  intros H Hi. revert l' H. induction l as [|[j m'] l IH]; intros l' H; [done|]. cbn [end_one] in H.
  destruct (Nat.eqb j i && Bool.eqb m' m) eqn:E.
  - injection H as <-. apply andb_prop in E as [->%Nat.eqb_eq _]. cbn [nact]. rewrite Hi. lia.
  - destruct (end_one i m l) as [l0|]; [|done]. injection H as <-. cbn [nact]. rewrite (IH _ eq_refl). lia.
Qed.
(** An exclusive access is the only one. *)
Lemma exclusive_same A i j m h hj : Inv A → look A i = Some h → sole (cl h) →
  (∀ m', (i, m') ∈ actives A → ∀ k x m'', look A k = Some x → a_from x ≠ Some (i, m'')) →
  (∃ m', (i, m') ∈ actives A) →
  (j, m) ∈ actives A → look A j = Some hj → a_addr hj = a_addr h → i = j.
Proof.
  intros I Hi Hs Hnb [m' Hact] Hj Hlj E.
  destruct Hs as [Hal|Hr].
  - (* an owner *)
    pose proof (alone_owning _ Hal) as Ho. pose proof (I_one _ I _ _ Hi Hal) as H1.
    destruct (owning (a_kind hj)) eqn:Hoj; [by apply (owners_unique A i j h hj)|].
    rewrite owning_cls in Hoj. fold (cl hj) in Hoj. destruct (cl hj) as [| | |mj] eqn:Ecl; try done.
    destruct (I_ref _ I _ _ _ Hlj Ecl) as (k & hk & Ef & Hk & Ea & Hok & _).
    assert (i = k) by (apply (owners_unique A i k h hk); congruence). subst k.
    by destruct (Hnb _ Hact _ _ _ Hlj Ef).
  - (* a borrower *)
    destruct (I_ref _ I _ _ _ Hi Hr) as (k & hk & Ef & Hk & Ea & Hok & Hal). specialize (Hal eq_refl).
    pose proof (I_one _ I _ _ Hk Hal) as H1.
    destruct (owning (a_kind hj)) eqn:Hoj.
    + assert (k = j) by (apply (owners_unique A k j hk hj); congruence). subst k.
      by destruct (I_bor _ I _ _ _ _ _ Hi Ef Hj).
    + rewrite owning_cls in Hoj. fold (cl hj) in Hoj. destruct (cl hj) as [| | |mj] eqn:Ecl; try done.
      destruct (I_ref _ I _ _ _ Hlj Ecl) as (k' & hk' & Ef' & Hk' & Ea' & Hok' & _).
      assert (k = k') by (apply (owners_unique A k k' hk hk'); congruence). subst k'.
      by apply (I_uniq _ I _ _ _ _ _ _ Hi Hlj Ef Ef').
Qed.
Lemma exclusive_alone A i h : Inv A → (i, true) ∈ actives A → look A i = Some h → nact (look A) (a_addr h) (actives A) = 1.
Proof.
  intros I Ha Hi. destruct (I_act _ I _ _ Ha) as (h' & Hi' & Hs). rewrite Hi in Hi'. injection Hi' as <-.
  specialize (Hs eq_refl). rewrite <-(I_acts _ I _ Ha).
  assert (H : ∀ j m, (j, m) ∈ actives A → ∃ hj, look A j = Some hj ∧ (a_addr hj = a_addr h ↔ j = i)).
  { intros j m Hj. destruct (I_act _ I _ _ Hj) as (hj & Hlj & _). exists hj. split; [done|]. split.
    - intros E. symmetry. eapply (exclusive_same A i j m h hj); try done; [|by exists true].
      intros m' _ k x m'' Hk Ef. by destruct (I_bor _ I _ _ _ _ _ Hk Ef Ha).
    - intros ->. rewrite Hi in Hlj. by injection Hlj as <-. }
  revert H. generalize (actives A). intros l. induction l as [|[j m] l IH]; intros H; [done|]. cbn [nact nacts].
  destruct (H j m) as (hj & Hlj & Hiff); [left|]. rewrite Hlj, IH.
  - destruct (Nat.eqb_spec (a_addr hj) (a_addr h)), (Nat.eqb_spec j i); tauto.
  - intros j' m' Hj. apply (H j' m'). by right.
Qed.
(** When an exclusive access begins, there is none. *)
Lemma exclusive_begin A A' i : Inv A → astep A (OBegin i true) = Some A' →
  ∃ h, look A i = Some h ∧ nact (look A) (a_addr h) (actives A) = 0.
Proof.
  intros I H. pose proof (astep_Inv _ _ _ I H) as I'. cbn [astep] in H.
  destruct (look A i) as [h|] eqn:Hi; [|done]. destruct (_ && _); [|done]. injection H as <-.
  exists h. split; [done|]. pose proof (exclusive_alone _ i h I') as H. cbn [actives] in H.
  specialize (H ltac:(left) Hi). cbn [nact] in H.
  unfold look in H at 1. cbn [handles] in H. fold (look A i) in H. rewrite Hi, Nat.eqb_refl in H.
  change (look (AState (handles A) (next A) ((i, true) :: actives A))) with (look A) in H. lia.
Qed.

(** ** What the log says of the state *)

Record LInv (A : astate) (l : list event) : Prop := {
  L_new : ∀ a, tally (news a) l = if Nat.ltb a (next A) then 1 else 0;
  L_dead : ∀ a, tally (destroys a) l = if Nat.ltb a (next A) && Nat.eqb (owners a (handles A)) 0 then 1 else 0;
  L_act : ∀ a, tally (begins a) l = tally (ends a) l + nact (look A) a (actives A)
}.
Lemma LInv_start : LInv astart [].
Proof. by split. Qed.

Lemma ltb_S a n : Nat.ltb a (S n) = Nat.ltb a n || Nat.eqb n a.
Proof. destruct (Nat.ltb_spec a (S n)), (Nat.ltb_spec a n), (Nat.eqb_spec n a); cbn; lia || done. Qed.

(** An operation that makes no event. *)
Lemma LInv_same A A' o l : Inv A → astep A o = Some A' → LInv A l → expected A o = [] →
  actives A' = actives A → next A' = next A →
  (∀ a, a < next A → owners a (handles A) = 0 ↔ owners a (handles A') = 0) → LInv A' (l ++ expected A o).
Proof.
  intros I Hs L -> Ha Hn Ho. rewrite app_nil_r. split.
  - intros a. rewrite Hn. apply (L_new _ _ L).
  - intros a. rewrite Hn, (L_dead _ _ L). destruct (Nat.ltb_spec a (next A)) as [Hlt|]; [|done].
    specialize (Ho a Hlt). destruct (Nat.eqb_spec (owners a (handles A)) 0), (Nat.eqb_spec (owners a (handles A')) 0); tauto.
  - intros a. rewrite (L_act _ _ L), Ha. f_equal. apply nact_ext. intros j m Hj.
    destruct (I_act _ I _ _ Hj) as (h & Hl & _). rewrite Hl. symmetry. by eapply astep_look.
Qed.
Lemma LInv_new A A' o l k T : Inv A → astep A o = Some A' → LInv A l → expected A o = [ENew (next A)] →
  A' = add_new A k T → owning k = true → LInv A' (l ++ expected A o).
Proof.
  intros I Hs L -> -> Hk. split.
  - intros a. rewrite tally_app, (L_new _ _ L). cbn [next add_new tally news]. rewrite ltb_S.
    destruct (Nat.ltb_spec a (next A)), (Nat.eqb_spec (next A) a); cbn; lia.
  - intros a. rewrite tally_app, (L_dead _ _ L). cbn [tally destroys].
    change (handles (add_new A k T)) with (handles (add A (AH k (next A) T None))). rewrite owners_add.
    cbn [next add_new]. rewrite ltb_S. cbn [owns a_kind a_addr]. rewrite Hk. cbn [andb].
    destruct (Nat.ltb_spec a (next A)), (Nat.eqb_spec (next A) a); cbn [andb orb]; try lia.
    + rewrite !Nat.add_0_r. done.
    + by rewrite Nat.add_1_r.
  - intros a. rewrite !tally_app, (L_act _ _ L). cbn [tally begins ends add_new actives].
    rewrite (nact_ext (look (add_new A k T)) (look A)); [lia|]. intros j m Hj.
    destruct (I_act _ I _ _ Hj) as (h & Hl & _). rewrite Hl. by eapply astep_look.
Qed.

Lemma LInv_step A A' o l : Inv A → astep A o = Some A' → LInv A l → LInv A' (l ++ expected A o).
Proof.
  intros I Hs L. pose proof Hs as H. destruct o as [k T|T|i m|i t f|i|i|i m|i m|i]; cbn [astep] in H.
  - destruct k; try done; injection H as <-; by eapply LInv_new.
  - injection H as <-. by eapply LInv_new.
  - destruct (look A i) as [h|] eqn:Hi; [|done]. destruct (a_kind h) as [k| | | |] eqn:Ek; try done.
    assert (A' = add A (AH (AOwn (PRef m)) (a_addr h) (a_ty h) (Some (i, m)))) as ->.
    { destruct k; try done;
        match type of H with context [if ?b then _ else _] => destruct b end; try done; by injection H as <-. }
    eapply LInv_same; try done. intros a _. rewrite owners_add. cbn. lia.
  - destruct (look A i) as [h|] eqn:Hi; [|done]. destruct (a_kind h) as [k| | | |] eqn:Ek; try done.
    destruct (source k) as [c|] eqn:Es; [|done]. destruct (_ && _); [|done]. injection H as <-.
    eapply LInv_same; try done. intros a _. rewrite owners_add, <-(owners_del A i h a Hi).
    unfold owns. cbn [a_kind a_addr]. rewrite Ek.
    replace (owning (AVptr c t)) with (owning (AOwn k)); [lia|]. by destruct k; cbn in Es; try done; injection Es as <-.
  - destruct (look A i) as [h|] eqn:Hi; [|done]. destruct (a_kind h) as [k| | | |] eqn:Ek; try done.
    destruct (fn_of k (a_ty h)) as [k'|] eqn:Es; [|done]. destruct (can_mut A i) eqn:Em; [|done]. injection H as <-.
    eapply LInv_same; try done. intros a _. rewrite owners_add, <-(owners_del A i h a Hi).
    unfold owns. cbn [a_kind a_addr]. rewrite Ek.
    replace (owning k') with (owning (AOwn k)); [lia|].
    destruct k as [| |[]|[]]; cbn in Es; try done; destruct (t_send (a_ty h)); cbn in Es; try done.
    + by injection Es as <-.
    + destruct (t_sync (a_ty h)); [by injection Es as <-|done].
    + by injection Es as <-.
  - destruct (look A i) as [h|] eqn:Hi; [|done]. destruct (can_share A i) eqn:Hsh; [|done].
    assert (Hdup : expected A (OClone i) = [] → A' = add A h → LInv A' (l ++ expected A (OClone i))).
    { intros E ->. eapply LInv_same; try done. intros a Ha. rewrite owners_add.
      destruct (owns a (Some h)) eqn:Eo; [|lia]. cbn in Eo. apply andb_prop in Eo as [Eo <-%Nat.eqb_eq].
      pose proof (owners_pos _ _ _ Hi Eo). lia. }
    destruct h as [k a T fr]. cbn [a_kind] in H. destruct k as [[]|c t|[]| |]; try done.
    + injection H as <-. apply Hdup; [|done]. cbn [expected]. by rewrite Hi.
    + destruct (vptr_clone t) eqn:Hk; [|done].
      destruct c as [| |m]; injection H as <-.
      * eapply LInv_new; try done. cbn [expected]. by rewrite Hi.
      * apply Hdup; [|done]. cbn [expected]. by rewrite Hi.
      * apply Hdup; [|done]. cbn [expected]. by rewrite Hi.
    + injection H as <-. apply Hdup; [|done]. cbn [expected]. by rewrite Hi.
  - destruct (look A i) as [h|] eqn:Hi; [|done]. destruct (_ && _); [|done]. injection H as <-.
    cbn [expected]. rewrite Hi. split; cbn [next handles actives].
    + intros a. rewrite tally_app, (L_new _ _ L). cbn. lia.
    + intros a. rewrite tally_app, (L_dead _ _ L). cbn [tally destroys]. lia.
    + intros a. rewrite !tally_app, (L_act _ _ L). cbn [tally begins ends nact].
      change (look (AState (handles A) (next A) ((i, m) :: actives A))) with (look A). rewrite Hi. lia.
  - destruct (end_one i m (actives A)) as [l'|] eqn:E; [|done]. injection H as <-.
    destruct (end_one_elem _ _ _ _ E) as (Hin & _). destruct (I_act _ I _ _ Hin) as (h & Hi & _).
    cbn [expected]. rewrite Hi. split; cbn [next handles actives].
    + intros a. rewrite tally_app, (L_new _ _ L). cbn. lia.
    + intros a. rewrite tally_app, (L_dead _ _ L). cbn [tally destroys]. lia.
    + intros a. rewrite !tally_app, (L_act _ _ L). cbn [tally begins ends].
      change (look (AState (handles A) (next A) l')) with (look A).
      rewrite (nact_end (look A) a _ _ _ _ _ E Hi). lia.
  - destruct (look A i) as [h|] eqn:Hi; [|done]. destruct (can_mut A i) eqn:Hm; [|done]. injection H as <-.
    destruct (owning (a_kind h) && Nat.eqb (owners (a_addr h) (handles A)) 1) eqn:Ed.
    + assert (Ee : expected A (ODrop i) = [EDestroy (a_addr h)]) by (cbn [expected]; by rewrite Hi, Ed).
      rewrite Ee. apply andb_prop in Ed as [Ho E1%Nat.eqb_eq]. split; cbn [next del actives].
      * intros a. rewrite tally_app, (L_new _ _ L). cbn. lia.
      * intros a. rewrite tally_app, (L_dead _ _ L). cbn [tally destroys].
        pose proof (owners_del A i h a Hi) as Hd. cbn [owns] in Hd. rewrite Ho in Hd. cbn [andb] in Hd.
        pose proof (I_addr _ I _ _ Hi). fold (del A i).
        destruct (Nat.eqb_spec (a_addr h) a) as [Ea|].
        -- subst a. rewrite E1 in Hd |- *. replace (owners (a_addr h) (handles (del A i))) with 0 by lia.
           by rewrite (proj2 (Nat.ltb_lt (a_addr h) (next A))).
        -- rewrite Nat.add_0_r in Hd. rewrite Hd. lia.
      * intros a. rewrite !tally_app, (L_act _ _ L). cbn [tally begins ends].
        rewrite (nact_ext (look (del A i)) (look A)); [lia|]. intros j m Hj.
        destruct (I_act _ I _ _ Hj) as (h' & Hl & _). rewrite Hl. by eapply astep_look.
    + eapply LInv_same; try done; [cbn [expected]; by rewrite Hi, Ed|].
      intros a _. pose proof (owners_del A i h a Hi) as Hd. cbn [owns] in Hd.
      destruct (owning (a_kind h)) eqn:Ho; cbn [andb] in *; [|lia].
      apply Nat.eqb_neq in Ed. pose proof (owners_pos _ _ _ Hi Ho).
      destruct (Nat.eqb_spec (a_addr h) a) as [Ea|]; [subst a|]; lia.
Qed.
Lemma LInv_run os A A' l : Inv A → arun A os = Some A' → LInv A l → LInv A' (l ++ expected_log A os).
Proof.
  revert A l. induction os as [|o os IH]; intros A l I H L; cbn [arun expected_log] in *.
  - injection H as <-. by rewrite app_nil_r.
  - destruct (astep A o) as [A1|] eqn:E; [|done]. rewrite app_assoc. eapply IH; [|done|].
    + by eapply astep_Inv.
    + by apply LInv_step.
Qed.

(** ** The dead stay dead *)

Definition about (a : nat) (e : event) : bool := begins a e || ends a e || destroys a e.
Lemma expected_about A A' o a e : Inv A → astep A o = Some A' → expected A o = [e] → about a e = true →
  ∃ i h, look A i = Some h ∧ a_addr h = a.
Proof.
  intros I Hs He Ha. destruct o as [k T|T|i m|i t f|i|i|i m|i m|i]; cbn [expected] in He; try done.
  - by injection He as <-.
  - by injection He as <-.
  - destruct (look A i) as [[[]]|]; try done. destruct c; try done. by injection He as <-.
  - destruct (look A i) as [h|] eqn:Hi; [|done]. injection He as <-. exists i, h. split; [done|].
    unfold about in Ha. cbn [begins ends destroys] in Ha. rewrite !orb_false_r in Ha. by apply Nat.eqb_eq.
  - destruct (look A i) as [h|] eqn:Hi; [|done]. injection He as <-. exists i, h. split; [done|].
    unfold about in Ha. cbn [begins ends destroys] in Ha. rewrite !orb_false_r in Ha. by apply Nat.eqb_eq.
  - destruct (look A i) as [h|] eqn:Hi; [|done]. destruct (_ && _); [|done]. injection He as <-.
    exists i, h. split; [done|]. by apply Nat.eqb_eq.
Qed.
Lemma dead_log os A A' a : Inv A → arun A os = Some A' → a < next A → owners a (handles A) = 0 →
  ∀ e, e ∈ expected_log A os → about a e = false.
Proof.
  revert A. induction os as [|o os IH]; intros A I H Ha Hz e He; cbn [arun expected_log] in *; [by apply elem_of_nil in He|].
  destruct (astep A o) as [A1|] eqn:E; [|done]. apply elem_of_app in He as [He|He].
  - apply not_true_iff_false. intros Hab. destruct (expected_short A o) as [E0|[e0 E0]]; rewrite E0 in He.
    + by apply elem_of_nil in He.
    + apply elem_of_list_singleton in He as ->.
      destruct (expected_about _ _ _ _ _ I E E0 Hab) as (i & h & Hi & <-). apply (held _ _ _ I) in Hi. lia.
  - eapply (IH A1); try done; [by eapply astep_Inv| |by eapply astep_dead].
    apply next_mono in E. lia.
Qed.

Lemma log_life os A : arun astart os = Some A → sound_life (expected_log astart os).
Proof.
  intros H a pre post E. destruct (log_split _ _ _ _ _ _ H E) as (os1 & o & os2 & A1 & A2 & -> & H1 & H2 & H3 & H4 & H5 & H6).
  pose proof (arun_Inv _ _ _ Inv_start H1) as I1. pose proof (astep_Inv _ _ _ I1 H2) as I2.
  pose proof (LInv_run _ _ _ [] Inv_start H1 LInv_start) as L1. cbn [app] in L1. rewrite H4 in L1.
  destruct (expected_about _ _ _ a _ I1 H2 H5) as (i & h & Hi & <-); [unfold about; cbn [begins ends destroys]; by rewrite Nat.eqb_refl, ?orb_true_r|].
  pose proof (I_addr _ I1 _ _ Hi) as Hlt. pose proof (held _ _ _ I1 Hi) as Hp.
  assert (Ho : owners (a_addr h) (handles A2) = 0 ∧ nact (look A1) (a_addr h) (actives A1) = 0).
  { pose proof (LInv_step _ _ _ _ I1 H2 L1) as L2. rewrite H5 in L2.
    pose proof (L_dead _ _ L2 (a_addr h)) as D. rewrite tally_app in D. cbn [tally destroys] in D.
    rewrite Nat.eqb_refl in D.
    assert (owners (a_addr h) (handles A2) = 0).
    { destruct (Nat.eqb_spec (owners (a_addr h) (handles A2)) 0); [done|]. rewrite andb_false_r in D. lia. }
    split; [done|].
    (* an access in progress would need a handle, and that one an owner *)
    assert (Hz : nact (look A2) (a_addr h) (actives A2) = 0).
    { assert (G : ∀ j m, (j, m) ∈ actives A2 → ∃ x, look A2 j = Some x ∧ a_addr x ≠ a_addr h).
      { intros j m Hj. destruct (I_act _ I2 _ _ Hj) as (x & Hx & _). exists x. split; [done|].
        intros Ex. apply (held _ _ _ I2) in Hx. rewrite Ex in Hx. lia. }
      revert G. generalize (actives A2). induction l as [|[j m] l IH]; intros G; [done|]. cbn [nact].
      destruct (G j m) as (x & -> & Hx); [left|]. rewrite (proj2 (Nat.eqb_neq _ _) Hx), IH; [done|].
      intros j' m' Hj. apply (G j' m'). by right. }
    pose proof (L_act _ _ L2 (a_addr h)) as Q. rewrite !tally_app, Hz in Q. cbn in Q.
    pose proof (L_act _ _ L1 (a_addr h)). lia. }
  destruct Ho as [Ho Hn].
  pose proof (next_mono _ _ _ H2) as Hmono.
  assert (Hpost : ∀ e, e ∈ post → about (a_addr h) e = false).
  { rewrite <-H6. eapply dead_log; try done. lia. }
  split; [|split; [|split; [|split; [|split]]]].
  - apply made. rewrite (L_new _ _ L1), (proj2 (Nat.ltb_lt _ _)); [lia|done].
  - apply not_destroyed. rewrite (L_dead _ _ L1).
    destruct (Nat.eqb_spec (owners (a_addr h) (handles A1)) 0); [lia|]. by rewrite andb_false_r.
  - intros He%Hpost. unfold about in He. cbn [begins ends destroys] in He. by rewrite Nat.eqb_refl, ?orb_true_r in He.
  - intros m He%Hpost. unfold about in He. cbn [begins ends destroys] in He. by rewrite Nat.eqb_refl, ?orb_true_r in He.
  - intros m He%Hpost. unfold about in He. cbn [begins ends destroys] in He. by rewrite Nat.eqb_refl, ?orb_true_r in He.
  - rewrite (L_act _ _ L1), Hn. lia.
Qed.
Lemma log_access os A : arun astart os = Some A → sound_access (expected_log astart os).
Proof.
  intros H a m pre post E. destruct (log_split _ _ _ _ _ _ H E) as (os1 & o & os2 & A1 & A2 & -> & H1 & H2 & H3 & H4 & H5 & H6).
  pose proof (arun_Inv _ _ _ Inv_start H1) as I1.
  pose proof (LInv_run _ _ _ [] Inv_start H1 LInv_start) as L1. cbn [app] in L1. rewrite H4 in L1.
  destruct (expected_about _ _ _ a _ I1 H2 H5) as (i & h & Hi & <-); [unfold about; cbn [begins ends destroys]; by rewrite Nat.eqb_refl, ?orb_true_r|].
  pose proof (I_addr _ I1 _ _ Hi) as Hlt. pose proof (held _ _ _ I1 Hi) as Hp. split.
  - apply made. rewrite (L_new _ _ L1), (proj2 (Nat.ltb_lt _ _)); [lia|done].
  - apply not_destroyed. rewrite (L_dead _ _ L1).
    destruct (Nat.eqb_spec (owners (a_addr h) (handles A1)) 0); [lia|]. by rewrite andb_false_r.
Qed.

(** An access lasts as long as none about the value ends. *)
Lemma access_lasts os A A' i m h : arun A os = Some A' → (i, m) ∈ actives A → look A i = Some h →
  tally (ends (a_addr h)) (expected_log A os) = 0 → (i, m) ∈ actives A' ∧ look A' i = Some h.
Proof.
  revert A. induction os as [|o os IH]; intros A H Hi Hl Ht; cbn [arun expected_log] in *; [by injection H as <-|].
  destruct (astep A o) as [A1|] eqn:E; [|done]. rewrite tally_app in Ht.
  pose proof (astep_look _ _ _ _ _ _ E Hi Hl) as Hl1. eapply (IH A1); try done; [|lia].
  (* only an end removes accesses *)
  destruct o as [k T|T|j m'|j t f|j|j|j m'|j m'|j]; cbn [astep] in E;
    try (destruct (look A j) as [x|]; [|done]).
  - destruct k; try done; by injection E as <-.
  - by injection E as <-.
  - destruct (a_kind x) as [k| | | |]; try done.
    destruct k; try done; match type of E with context [if ?b then _ else _] => destruct b end; try done; by injection E as <-.
  - destruct (a_kind x) as [k| | | |]; try done. destruct (source k); [|done]. destruct (_ && _); [|done].
    by injection E as <-.
  - destruct (a_kind x) as [k| | | |]; try done. destruct (fn_of k (a_ty x)); [|done]. destruct (can_mut A j); [|done].
    by injection E as <-.
  - destruct (can_share A j); [|done]. destruct (a_kind x) as [[]|c t|[]| |]; try done; try by injection E as <-.
    destruct (vptr_clone t); [|done]. by destruct c; injection E as <-.
  - destruct (_ && _); [|done]. injection E as <-. by right.
  - destruct (end_one j m' (actives A)) as [l|] eqn:Ee; [|done]. injection E as <-. cbn [actives].
    destruct (decide ((j, m') = (i, m))) as [[= -> ->]|Hne].
    + cbn [expected] in Ht. rewrite Hl in Ht. cbn in Ht. rewrite Nat.eqb_refl in Ht. lia.
    + clear -Ee Hi Hne. revert l Ee Hi. induction (actives A) as [|[k mk] acts IH]; intros l Ee Hi; [done|].
      cbn [end_one] in Ee. destruct (Nat.eqb k j && Bool.eqb mk m') eqn:Eq.
      * injection Ee as <-. apply andb_prop in Eq as [->%Nat.eqb_eq ->%eqb_prop].
        apply elem_of_cons in Hi as [Hi|Hi]; [congruence|done].
      * destruct (end_one j m' acts) as [l0|]; [|done]. injection Ee as <-.
        apply elem_of_cons in Hi as [Hi|Hi]; [rewrite Hi; left|right; by apply IH].
  - destruct (can_mut A j); [|done]. by injection E as <-.
Qed.

Lemma begin_op A o a m : expected A o = [EBegin a m] → ∃ i h, o = OBegin i m ∧ look A i = Some h ∧ a_addr h = a.
Proof.
  destruct o as [k T|T|i m'|i t f|i|i|i m'|i m'|i]; cbn [expected]; intros E; try done.
  - destruct (look A i) as [[[]]|]; try done. by destruct c.
  - destruct (look A i) as [h|] eqn:Hi; [|done]. injection E as <- ->. by exists i, h.
  - by destruct (look A i).
  - destruct (look A i); [|done]. by destruct (_ && _).
Qed.
Lemma log_exclusive os A : arun astart os = Some A → sound_exclusive (expected_log astart os).
Proof.
  intros H a pre post E. destruct (log_split _ _ _ _ _ _ H E) as (os1 & o & os2 & A1 & A2 & -> & H1 & H2 & H3 & H4 & H5 & H6).
  pose proof (arun_Inv _ _ _ Inv_start H1) as I1. pose proof (astep_Inv _ _ _ I1 H2) as I2.
  pose proof (LInv_run _ _ _ [] Inv_start H1 LInv_start) as L1. cbn [app] in L1. rewrite H4 in L1.
  pose proof (LInv_step _ _ _ _ I1 H2 L1) as L2. rewrite H5 in L2.
  destruct (begin_op _ _ _ _ H5) as (i & h & -> & Hi & <-).
  destruct (exclusive_begin _ _ _ I1 H2) as (h' & Hi' & Hn). rewrite Hi in Hi'. injection Hi' as <-.
  split; [rewrite (L_act _ _ L1), Hn; lia|]. intros m mid post' Ep. rewrite Ep in H6.
  destruct (Nat.eq_dec (tally (ends (a_addr h)) mid) 0) as [Hz|]; [exfalso|lia].
  destruct (log_split _ _ _ _ _ _ H3 H6) as (os3 & o' & os4 & A3 & A4 & -> & G1 & G2 & G3 & G4 & G5 & G6).
  pose proof (arun_Inv _ _ _ I2 G1) as I3. pose proof (astep_Inv _ _ _ I3 G2) as I4.
  pose proof (LInv_run _ _ _ _ I2 G1 L2) as L3. rewrite G4 in L3.
  pose proof (LInv_step _ _ _ _ I3 G2 L3) as L4. rewrite G5 in L4.
  assert (Ha2 : (i, true) ∈ actives A2 ∧ look A2 i = Some h).
  { cbn [astep] in H2. rewrite Hi in H2. destruct (_ && _); [|done]. injection H2 as <-. split; [left|done]. }
  destruct Ha2 as [Ha2 Hl2].
  destruct (access_lasts _ _ _ _ _ _ G1 Ha2 Hl2) as [Ha3 Hl3]; [by rewrite G4|].
  pose proof (astep_look _ _ _ _ _ _ G2 Ha3 Hl3) as Hl4.
  assert (Ha4 : (i, true) ∈ actives A4).
  { destruct (begin_op _ _ _ _ G5) as (j & hj & -> & Hj & _). cbn [astep] in G2. rewrite Hj in G2.
    destruct (_ && _); [|done]. injection G2 as <-. by right. }
  pose proof (exclusive_alone _ _ _ I4 Ha4 Hl4) as X.
  pose proof (L_act _ _ L4 (a_addr h)) as Q. rewrite !tally_app in Q. cbn [tally begins ends] in Q.
  rewrite !Nat.eqb_refl, X, Hz in Q. pose proof (L_act _ _ L1 (a_addr h)). lia.
Qed.
