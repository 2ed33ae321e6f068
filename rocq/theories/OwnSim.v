(** The model does what the specification expects. *)

From Coq Require Import List Bool Arith Lia.
From stdpp Require Import base numbers list strings.
From Verif Require Import DynModel DynSpec DynProofs OwnModel OwnSpec OwnProofs.

(** The handle of the model for one of the specification. *)
Definition conc (h : ahandle) : handle :=
  match a_kind h with
  | AOwn k => HRaw k (a_addr h)
  | AVptr c t =>
      HVptr (a_addr h) (match vtable_expr t c with Some v => v | None => VTable (release_vptr c) None end)
  | AArcFn b => HArcFn (a_addr h) (rc_dec true) (if b then Some (rc_inc true) else None)
  | ABoxFn => HBoxFn (a_addr h) (Some deref) (Some box_drop_raw)
  | ARefFn => HRefFn (a_addr h)
  end.
Definition cell_of (c : cls) (n : nat) : store :=
  match c with ClLocal => SLocal | ClBox => SBox | ClRc b => SRc b n | ClRef _ => SGone end.

Record Rel (A : astate) (S : state) : Prop := {
  R_len : length (s_heap S).1 = next A;
  R_handles : s_handles S = map (option_map conc) (handles A);
  R_owned : ∀ i h, look A i = Some h → owning (a_kind h) = true →
    (s_heap S).1 !! a_addr h = Some (cell_of (cl h) (owners (a_addr h) (handles A)));
  R_gone : ∀ a, a < next A → owners a (handles A) = 0 → (s_heap S).1 !! a = Some SGone
}.
Lemma Rel_start : Rel astart start.
Proof. split; cbn; try done; unfold look; cbn; lia || done. Qed.

Lemma get_conc A S i h : Rel A S → look A i = Some h → get S i = Some (conc h).
Proof.
  intros R H%look_elem. unfold get. rewrite (R_handles _ _ R).
  rewrite list_lookup_fmap, H. done.
Qed.
Lemma pointee_conc h : pointee (conc h) = a_addr h.
Proof. unfold conc. by destruct (a_kind h). Qed.

(** The value of a live handle is there. *)
Lemma alive A S i h : Inv A → Rel A S → look A i = Some h →
  0 < owners (a_addr h) (handles A) ∧ ∃ st, (s_heap S).1 !! a_addr h = Some st ∧ st ≠ SGone.
Proof.
  intros I R Hi. destruct (owning (a_kind h)) eqn:Ho.
  - split; [by eapply owners_pos|]. exists (cell_of (cl h) (owners (a_addr h) (handles A))).
    split; [by eapply R_owned|]. rewrite owning_cls in Ho. unfold cl. by destruct (cls_of (a_kind h)).
  - pose proof Ho as Ho'. rewrite owning_cls in Ho'. fold (cl h) in Ho'. destruct (cl h) as [| | |m] eqn:Ecl; try done.
    destruct (I_ref _ I _ _ _ Hi Ecl) as (j & hj & _ & Hj & Ea & Hoj & _). rewrite <-Ea.
    split; [by eapply owners_pos|]. exists (cell_of (cl hj) (owners (a_addr hj) (handles A))).
    split; [by eapply R_owned|]. rewrite owning_cls in Hoj. unfold cl. by destruct (cls_of (a_kind hj)).
Qed.
Lemma deref_alive A S i h : Inv A → Rel A S → look A i = Some h → deref (a_addr h) (s_heap S) = ROk ().
Proof.
  intros I R Hi. destruct (alive _ _ _ _ I R Hi) as (_ & st & E & Hn). unfold deref. rewrite E. by destruct st.
Qed.
Lemma access_alive A S i h : Inv A → Rel A S → look A i = Some h → access (conc h) (s_heap S) = ROk ().
Proof.
  intros I R Hi. pose proof (deref_alive _ _ _ _ I R Hi) as H. unfold conc.
  destruct (a_kind h); exact H.
Qed.

(** Two owners of one value are of the same class. *)
Lemma same_class A S i j h h' : Rel A S → look A i = Some h → look A j = Some h' →
  owning (a_kind h) = true → owning (a_kind h') = true → a_addr h = a_addr h' → cl h = cl h'.
Proof.
  intros R Hi Hj Ho Ho' E. pose proof (R_owned _ _ R _ _ Hi Ho) as H1. pose proof (R_owned _ _ R _ _ Hj Ho') as H2.
  rewrite <-E in H2. rewrite H1 in H2. injection H2 as H2.
  pose proof (owners_pos _ _ _ Hi Ho). rewrite owning_cls in Ho, Ho'. fold (cl h) (cl h') in *.
  destruct (cl h), (cl h'); try done; cbn in H2; congruence.
Qed.

Lemma map_add A h : map (option_map conc) (handles (add A h)) = map (option_map conc) (handles A) ++ [Some (conc h)].
Proof. unfold add. cbn [handles]. by rewrite map_app. Qed.
Lemma map_del A i : map (option_map conc) (handles (del A i)) = <[i := None]> (map (option_map conc) (handles A)).
Proof. unfold del. cbn [handles]. exact (list_fmap_insert (option_map conc) (handles A) i None). Qed.

(** *** A new value *)
Lemma Rel_new A S k T st : Inv A → Rel A S → owning k = true → st = cell_of (cls_of k) 1 →
  Rel (add_new A k T)
      (State ((s_heap S).1 ++ [st], (s_heap S).2 ++ [ENew (length (s_heap S).1)])
             (s_handles S ++ [Some (conc (AH k (length (s_heap S).1) T None))])).
Proof.
  intros I R Hk ->. set (h0 := AH k (next A) T None).
  assert (Hadd : ∀ a, owners a (handles (add_new A k T)) = owners a (handles A) + (if Nat.eqb (next A) a then 1 else 0)).
  { intros a. change (handles (add_new A k T)) with (handles (add A h0)). rewrite owners_add. cbn [owns h0 a_kind a_addr].
    by rewrite Hk. }
  assert (H0 : owners (next A) (handles A) = 0).
  { destruct (owners (next A) (handles A)) eqn:E; [done|].
    destruct (owners_ge (next A) (handles A)) as (j & hj & Hj%look_elem & _ & Ha); [lia|].
    apply (I_addr _ I) in Hj. lia. }
  split; cbn [s_heap s_handles fst snd].
  - rewrite app_length, (R_len _ _ R). cbn. lia.
  - rewrite (R_len _ _ R), (R_handles _ _ R). symmetry. exact (map_add A h0).
  - intros i h. rewrite look_add_new, Hadd. destruct (decide _).
    + intros [= <-] _. cbn [a_addr]. rewrite H0, Nat.eqb_refl, <-(R_len _ _ R).
      by rewrite list_lookup_middle.
    + intros Hi Ho. pose proof (I_addr _ I _ _ Hi) as Hlt.
      rewrite (proj2 (Nat.eqb_neq (next A) (a_addr h))) by lia.
      rewrite Nat.add_0_r. rewrite <-(R_len _ _ R) in Hlt. rewrite lookup_app_l by done. by eapply R_owned.
  - intros a. cbn [next]. rewrite Hadd. intros Ha Hz. destruct (Nat.eqb_spec (next A) a) as [E|Hn]; [lia|].
    cbn in Ha. pose proof (R_len _ _ R). rewrite lookup_app_l by lia. apply (R_gone _ _ R); lia.
Qed.

(** *** Another handle that owns nothing *)
Lemma Rel_add_ref A S h : Rel A S → owning (a_kind h) = false →
  Rel (add A h) (State (s_heap S) (s_handles S ++ [Some (conc h)])).
Proof.
  intros R Ho. assert (Hadd : ∀ a, owners a (handles (add A h)) = owners a (handles A)).
  { intros a. rewrite owners_add. cbn [owns]. rewrite Ho. cbn. lia. }
  split; cbn [s_heap s_handles].
  - apply (R_len _ _ R).
  - by rewrite map_add, (R_handles _ _ R).
  - intros i h'. rewrite look_add, Hadd. destruct (decide _); [|apply (R_owned _ _ R)]. intros [= <-]. congruence.
  - intros a. rewrite Hadd. apply (R_gone _ _ R).
Qed.
(** *** Another owner *)
Lemma Rel_add_rc A S i h b m : Inv A → Rel A S → look A i = Some h → cl h = ClRc b →
  m = <[a_addr h := SRc b (Datatypes.S (owners (a_addr h) (handles A)))]> (s_heap S).1 →
  Rel (add A h) (State (m, (s_heap S).2) (s_handles S ++ [Some (conc h)])).
Proof.
  intros I R Hi Hb ->. assert (Ho : owning (a_kind h) = true) by (rewrite owning_cls; fold (cl h); by rewrite Hb).
  assert (Hlt : a_addr h < length (s_heap S).1) by (rewrite (R_len _ _ R); by apply (I_addr _ I i)).
  assert (Hadd : ∀ a, owners a (handles (add A h)) = owners a (handles A) + (if Nat.eqb (a_addr h) a then 1 else 0)).
  { intros a. rewrite owners_add. cbn [owns]. by rewrite Ho. }
  assert (Hset : ∀ j h', look A j = Some h' → owning (a_kind h') = true →
    <[a_addr h := SRc b (Datatypes.S (owners (a_addr h) (handles A)))]> (s_heap S).1 !! a_addr h'
    = Some (cell_of (cl h') (owners (a_addr h') (handles (add A h))))).
  { intros j h' Hj Ho'. rewrite Hadd. destruct (Nat.eqb_spec (a_addr h) (a_addr h')) as [E|Hn].
    - rewrite <-E, list_lookup_insert by done. rewrite <-(same_class _ _ _ _ _ _ R Hi Hj Ho Ho' E), Hb. cbn.
      by rewrite Nat.add_1_r.
    - rewrite list_lookup_insert_ne, Nat.add_0_r by done. by eapply R_owned. }
  split; cbn [s_heap s_handles fst snd].
  - rewrite insert_length. apply (R_len _ _ R).
  - by rewrite map_add, (R_handles _ _ R).
  - intros j h'. rewrite look_add. destruct (decide _); [|apply Hset]. intros [= <-] _. by eapply Hset.
  - intros a Ha. rewrite Hadd. intros Hz. destruct (Nat.eqb_spec (a_addr h) a) as [|Hn]; [lia|].
    rewrite list_lookup_insert_ne by done. apply (R_gone _ _ R); [done|lia].
Qed.
(** *** A handle becomes another of the same class *)
Lemma Rel_conv A S i h k : Rel A S → look A i = Some h → cls_of k = cl h →
  Rel (add (del A i) (AH k (a_addr h) (a_ty h) (a_from h)))
      (State (s_heap S) (<[i := None]> (s_handles S) ++ [Some (conc (AH k (a_addr h) (a_ty h) (a_from h)))])).
Proof.
  intros R Hi Hk. set (h' := AH k (a_addr h) (a_ty h) (a_from h)).
  assert (Ho : owning (a_kind h') = owning (a_kind h)) by (by rewrite !owning_cls; cbn; rewrite Hk).
  assert (Hcnt : ∀ a, owners a (handles (add (del A i) h')) = owners a (handles A)).
  { intros a. rewrite owners_add, <-(owners_del A i h a Hi). unfold owns. by rewrite Ho. }
  split; cbn [s_heap s_handles].
  - apply (R_len _ _ R).
  - by rewrite map_add, map_del, (R_handles _ _ R).
  - intros j x. rewrite look_add, look_del, Hcnt. destruct (decide _).
    + intros [= <-]. rewrite Ho. change (cl h') with (cls_of k). rewrite Hk. by apply (R_owned _ _ R i h).
    + destruct (decide _); [done|]. apply (R_owned _ _ R).
  - intros a. rewrite Hcnt. apply (R_gone _ _ R).
Qed.
(** *** A handle that owns nothing goes *)
Lemma Rel_del_ref A S i h : Rel A S → look A i = Some h → owning (a_kind h) = false →
  Rel (del A i) (State (s_heap S) (<[i := None]> (s_handles S))).
Proof.
  intros R Hi Ho. assert (Hcnt : ∀ a, owners a (handles (del A i)) = owners a (handles A)).
  { intros a. rewrite <-(owners_del A i h a Hi). cbn [owns]. rewrite Ho. cbn [andb]. lia. }
  split; cbn [s_heap s_handles].
  - apply (R_len _ _ R).
  - by rewrite map_del, (R_handles _ _ R).
  - intros j x. rewrite look_del, Hcnt. destruct (decide _); [done|]. apply (R_owned _ _ R).
  - intros a. rewrite Hcnt. apply (R_gone _ _ R).
Qed.
(** *** An owner goes *)
Lemma Rel_del_own A S i h m l : Inv A → Rel A S → look A i = Some h → owning (a_kind h) = true →
  m = <[a_addr h := match owners (a_addr h) (handles A) with
                    | Datatypes.S (Datatypes.S n) => cell_of (cl h) (Datatypes.S n) | _ => SGone end]> (s_heap S).1 →
  Rel (del A i) (State (m, l) (<[i := None]> (s_handles S))).
Proof.
  intros I R Hi Ho ->. assert (Hlt : a_addr h < length (s_heap S).1) by (rewrite (R_len _ _ R); by apply (I_addr _ I i)).
  assert (Hcnt : ∀ a, owners a (handles (del A i)) + (if Nat.eqb (a_addr h) a then 1 else 0) = owners a (handles A)).
  { intros a. rewrite <-(owners_del A i h a Hi). cbn [owns]. by rewrite Ho. }
  split; cbn [s_heap s_handles fst snd].
  - rewrite insert_length. apply (R_len _ _ R).
  - by rewrite map_del, (R_handles _ _ R).
  - intros j x Hj Hox. pose proof (owners_pos _ _ _ Hj Hox) as Hp. pose proof (Hcnt (a_addr x)) as Hc.
    rewrite look_del in Hj. destruct (decide _); [done|].
    destruct (Nat.eqb_spec (a_addr h) (a_addr x)) as [E|Hn].
    + rewrite <-E in *. rewrite list_lookup_insert by done.
      destruct (owners (a_addr h) (handles A)) as [|[|n']]; [lia|lia|].
      rewrite (same_class _ _ _ _ _ _ R Hi Hj Ho Hox E).
      by replace (owners (a_addr h) (handles (del A i))) with (Datatypes.S n') by lia.
    + rewrite list_lookup_insert_ne by done. rewrite Nat.add_0_r in Hc. rewrite Hc. by eapply R_owned.
  - intros a Ha Hz. pose proof (Hcnt a) as Hc. destruct (Nat.eqb_spec (a_addr h) a) as [<-|Hn].
    + rewrite list_lookup_insert by done. by replace (owners (a_addr h) (handles A)) with 1 by lia.
    + rewrite list_lookup_insert_ne by done. apply (R_gone _ _ R); [done|lia].
Qed.
(** *** Accesses *)
Lemma Rel_say A S acts e : Rel A S → Rel (AState (handles A) (next A) acts) (State (say e (s_heap S)) (s_handles S)).
Proof. intros R. split; cbn; apply R. Qed.

(** *** Releasing and retaining *)

Lemma vtable_Some A i h c t : Inv A → look A i = Some h → a_kind h = AVptr c t →
  vtable_expr t c = Some (VTable (release_vptr c) (if klone t then retain_vptr c else None)) ∧
  (klone t = true → is_Some (retain_vptr c)).
Proof.
  intros I Hi Ek. destruct (I_con _ I _ _ _ _ Hi Ek) as [f Hc]. unfold vtable_expr.
  destruct (klone t) eqn:Hk; [|done]. destruct c as [| |[]]; cbn; try (split; [done|by eexists]).
  by apply clone_not_mut in Hc.
Qed.
Lemma rc_dec_spec A S i h b : Rel A S → look A i = Some h → cl h = ClRc b →
  rc_dec b (a_addr h) (s_heap S) =
  ROk (<[a_addr h := match owners (a_addr h) (handles A) with
                    | Datatypes.S (Datatypes.S n) => cell_of (cl h) (Datatypes.S n) | _ => SGone end]> (s_heap S).1,
       (s_heap S).2 ++ (if Nat.eqb (owners (a_addr h) (handles A)) 1 then [EDestroy (a_addr h)] else [])).
Proof.
  intros R Hi Hb. assert (Ho : owning (a_kind h) = true) by (rewrite owning_cls; fold (cl h); by rewrite Hb).
  unfold rc_dec. rewrite (R_owned _ _ R _ _ Hi Ho), Hb. cbn [cell_of].
  pose proof (owners_pos _ _ _ Hi Ho). destruct (owners (a_addr h) (handles A)) as [|[|n]]; [lia| |].
  - rewrite eqb_reflx. done.
  - rewrite eqb_reflx. cbn [Nat.eqb]. by rewrite app_nil_r.
Qed.
Lemma sole_drop_spec A S i h : Inv A → Rel A S → look A i = Some h → alone (cl h) →
  ROk (destroy (a_addr h) (s_heap S)) =
  ROk (<[a_addr h := match owners (a_addr h) (handles A) with
                    | Datatypes.S (Datatypes.S n) => cell_of (cl h) (Datatypes.S n) | _ => SGone end]> (s_heap S).1,
       (s_heap S).2 ++ (if Nat.eqb (owners (a_addr h) (handles A)) 1 then [EDestroy (a_addr h)] else [])).
Proof. intros I R Hi Hal. by rewrite (I_one _ I _ _ Hi Hal). Qed.
Lemma drop_spec A S i h : Inv A → Rel A S → look A i = Some h → owning (a_kind h) = true →
  drop_handle (conc h) (s_heap S) =
  ROk (<[a_addr h := match owners (a_addr h) (handles A) with
                    | Datatypes.S (Datatypes.S n) => cell_of (cl h) (Datatypes.S n) | _ => SGone end]> (s_heap S).1,
       (s_heap S).2 ++ (if Nat.eqb (owners (a_addr h) (handles A)) 1 then [EDestroy (a_addr h)] else [])).
Proof.
  intros I R Hi Ho. pose proof (R_owned _ _ R _ _ Hi Ho) as Hm.
  assert (Hbox : cl h = ClBox → box_drop_raw (a_addr h) (s_heap S) = ROk (destroy (a_addr h) (s_heap S))).
  { intros E. unfold box_drop_raw. by rewrite Hm, E. }
  unfold conc. destruct (a_kind h) as [[| |b|]|c t|b| |] eqn:Ek; try done.
  - assert (E : cl h = ClLocal) by (unfold cl; by rewrite Ek).
    rewrite <-(sole_drop_spec _ _ _ _ I R Hi); [|by left]. cbn. unfold drop_local. by rewrite Hm, E.
  - assert (E : cl h = ClBox) by (unfold cl; by rewrite Ek).
    rewrite <-(sole_drop_spec _ _ _ _ I R Hi); [|by right]. by apply Hbox.
  - apply (rc_dec_spec _ _ i); [done|done|]. unfold cl. by rewrite Ek.
  - destruct (vtable_Some _ _ _ _ _ I Hi Ek) as [-> _]. cbn [drop_handle v_release].
    destruct c as [|b|m]; [| |done]; cbn [release_vptr].
    + assert (E : cl h = ClBox) by (unfold cl; by rewrite Ek).
      rewrite <-(sole_drop_spec _ _ _ _ I R Hi); [|by right]. by apply Hbox.
    + apply (rc_dec_spec _ _ i); [done|done|]. unfold cl. by rewrite Ek.
  - apply (rc_dec_spec _ _ i); [done|done|]. unfold cl. by rewrite Ek.
  - assert (E : cl h = ClBox) by (unfold cl; by rewrite Ek).
    rewrite <-(sole_drop_spec _ _ _ _ I R Hi); [|by right]. by apply Hbox.
Qed.
Lemma drop_ref_spec A S i h : Inv A → look A i = Some h → owning (a_kind h) = false →
  drop_handle (conc h) (s_heap S) = ROk (s_heap S).
Proof.
  intros I Hi Ho. unfold conc. destruct (a_kind h) as [[| |b|]|c t|b| |] eqn:Ek; try done.
  destruct (vtable_Some _ _ _ _ _ I Hi Ek) as [-> _]. by destruct c.
Qed.
Lemma rc_inc_spec A S i h b : Rel A S → look A i = Some h → cl h = ClRc b →
  rc_inc b (a_addr h) (s_heap S) =
  ROk (<[a_addr h := SRc b (Datatypes.S (owners (a_addr h) (handles A)))]> (s_heap S).1, (s_heap S).2).
Proof.
  intros R Hi Hb. assert (Ho : owning (a_kind h) = true) by (rewrite owning_cls; fold (cl h); by rewrite Hb).
  unfold rc_inc. rewrite (R_owned _ _ R _ _ Hi Ho), Hb. cbn [cell_of].
  pose proof (owners_pos _ _ _ Hi Ho). destruct (owners (a_addr h) (handles A)) as [|n]; [lia|].
  by rewrite eqb_reflx.
Qed.

(** *** One operation *)

Lemma step_sim A S o A' : Inv A → Rel A S → astep A o = Some A' →
  ∃ S', step S o = ROk S' ∧ Rel A' S' ∧ (s_heap S').2 = (s_heap S).2 ++ expected A o.
Proof.
  intros I R H. destruct o as [k T|T|i m|i t f|i|i|i m|i m|i]; cbn [astep] in H; cbn [step expected].
  - destruct k; try done; injection H as <-; eexists; (split; [reflexivity|]); cbn [s_heap fst snd];
      (split; [|by rewrite (R_len _ _ R)]);
      match goal with |- Rel (add_new _ ?k _) (State (_ ++ [?st], _) _) => exact (Rel_new A S k T st I R eq_refl eq_refl) end.
  - injection H as <-. eexists. split; [reflexivity|]. cbn [s_heap fst snd].
    split; [exact (Rel_new A S (AArcFn false) T _ I R eq_refl eq_refl)|by rewrite (R_len _ _ R)].
  - destruct (look A i) as [h|] eqn:Hi; [|done]. rewrite (get_conc _ _ _ _ R Hi), pointee_conc.
    destruct (a_kind h) as [k| | | |] eqn:Ek; try done.
    assert (A' = add A (AH (AOwn (PRef m)) (a_addr h) (a_ty h) (Some (i, m)))) as ->.
    { destruct k; try done;
        match type of H with context [if ?b then _ else _] => destruct b end; try done; by injection H as <-. }
    eexists. split; [reflexivity|]. split; [by apply (Rel_add_ref A S (AH (AOwn (PRef m)) (a_addr h) (a_ty h) (Some (i, m))))|].
    by rewrite app_nil_r.
  - destruct (look A i) as [h|] eqn:Hi; [|done]. rewrite (get_conc _ _ _ _ R Hi). unfold conc at 1.
    destruct (a_kind h) as [k| | | |] eqn:Ek; try done.
    destruct (source k) as [c|] eqn:Es; [|done]. destruct (can_mut A i) eqn:Em; [|done].
    destruct (coerces t f c (a_ty h)) eqn:Ec; [|done]. injection H as <-.
    set (h' := AH (AVptr c t) (a_addr h) (a_ty h) (a_from h)).
    assert (Hk : cls_of (AVptr c t) = cl h).
    { unfold cl. rewrite Ek. by destruct k; cbn in Es; try done; injection Es as <-. }
    assert (Hv : into_virtual_ptr t k (a_addr h) = Some (conc h')).
    { unfold into_virtual_ptr, conc. rewrite Es. cbn [a_kind a_addr h'].
      apply andb_prop in Ec as [Ec _]. apply bool_decide_eq_true in Ec.
      unfold vtable_expr. destruct (klone t) eqn:Hkl; [|done]. destruct c as [| |[]]; try done.
      by apply clone_not_mut in Ec. }
    rewrite Hv. eexists. split; [reflexivity|]. split; [by apply Rel_conv|]. by rewrite app_nil_r.
  - destruct (look A i) as [h|] eqn:Hi; [|done]. rewrite (get_conc _ _ _ _ R Hi). unfold conc at 1.
    destruct (a_kind h) as [k| | | |] eqn:Ek; try done.
    destruct (fn_of k (a_ty h)) as [k'|] eqn:Es; [|done]. destruct (can_mut A i) eqn:Em; [|done]. injection H as <-.
    set (h' := AH k' (a_addr h) (a_ty h) (a_from h)).
    assert (cls_of k' = cls_of (AOwn k) ∧ into_fn k (a_addr h) = Some (conc h')) as [Hk Hv].
    { destruct k as [| |[]|[]]; cbn in Es; try done; destruct (t_send (a_ty h)); cbn in Es; try done.
      - by injection Es as <-.
      - destruct (t_sync (a_ty h)); [by injection Es as <-|done].
      - by injection Es as <-. }
    rewrite Hv. eexists. split; [reflexivity|]. split; [|by rewrite app_nil_r].
    apply Rel_conv; [done|done|]. unfold cl. by rewrite Ek.
  - destruct (look A i) as [h|] eqn:Hi; [|done]. rewrite (get_conc _ _ _ _ R Hi).
    destruct (can_share A i) eqn:Hs; [|done].
    assert (Hrc : ∀ b, cl h = ClRc b →
      Rel (add A h) (State (<[a_addr h := SRc b (Datatypes.S (owners (a_addr h) (handles A)))]> (s_heap S).1, (s_heap S).2)
                           (s_handles S ++ [Some (conc h)]))).
    { intros b E. by eapply Rel_add_rc. }
    destruct h as [k a T fr]. cbn [a_kind] in H. destruct k as [[]|c t|[]| |]; try done.
    + injection H as <-. cbn [conc a_kind a_addr clone_handle] in *.
      pose proof (rc_inc_spec _ _ _ _ _ R Hi eq_refl) as Hr. cbn [a_addr] in Hr. rewrite Hr. eexists. split; [reflexivity|].
      split; [by apply Hrc|]. by rewrite app_nil_r.
    + destruct (vptr_clone t) eqn:Hk; [|done]. unfold vptr_clone in Hk.
      destruct (vtable_Some _ _ _ _ _ I Hi eq_refl) as [Hv _]. rewrite Hk in Hv.
      assert (Hcon : conc (AH (AVptr c t) a T fr) = HVptr a (VTable (release_vptr c) (retain_vptr c))).
      { unfold conc. cbn [a_kind a_addr]. by rewrite Hv. }
      rewrite Hcon in *. cbn [clone_handle v_retain].
      destruct c as [|b|[]]; cbn [retain_vptr].
      * injection H as <-. unfold box_clone.
        pose proof (deref_alive _ _ _ _ I R Hi) as Hd. cbn [a_addr] in Hd. rewrite Hd. cbn [alloc].
        eexists. split; [reflexivity|]. cbn [s_heap fst snd]. split; [|by rewrite (R_len _ _ R)].
        assert (Hcon' : conc (AH (AVptr CBox t) (length (s_heap S).1) T None)
          = HVptr (length (s_heap S).1) (VTable (release_vptr CBox) (retain_vptr CBox))).
        { unfold conc. cbn [a_kind a_addr]. by rewrite Hv. }
        pose proof (Rel_new A S (AVptr CBox t) T SBox I R eq_refl eq_refl) as Hn. rewrite Hcon' in Hn. exact Hn.
      * injection H as <-. pose proof (rc_inc_spec _ _ _ _ b R Hi eq_refl) as Hr. cbn [a_addr] in Hr. rewrite Hr.
        eexists. split; [reflexivity|]. split; [by apply (Hrc b)|]. by rewrite app_nil_r.
      * destruct (I_con _ I _ _ _ _ Hi eq_refl) as [f Hc]. by apply clone_not_mut in Hc.
      * injection H as <-. eexists. split; [reflexivity|]. split; [|by rewrite app_nil_r].
        pose proof (Rel_add_ref A S (AH (AVptr (CRef false) t) a T fr) R eq_refl) as Hn. rewrite Hcon in Hn. exact Hn.
    + injection H as <-. cbn [conc a_kind a_addr clone_handle] in *.
      pose proof (rc_inc_spec _ _ _ _ _ R Hi eq_refl) as Hr. cbn [a_addr] in Hr. rewrite Hr. eexists. split; [reflexivity|].
      split; [by apply (Hrc true)|]. by rewrite app_nil_r.
  - destruct (look A i) as [h|] eqn:Hi; [|done]. rewrite (get_conc _ _ _ _ R Hi).
    destruct (can_use A i m && gives m (a_kind h)); [|done]. injection H as <-.
    rewrite (access_alive _ _ _ _ I R Hi), pointee_conc. eexists. split; [reflexivity|].
    split; [by apply Rel_say|done].
  - destruct (end_one i m (actives A)) as [l|] eqn:E; [|done]. injection H as <-.
    apply end_one_elem in E as (Hin & _). destruct (I_act _ I _ _ Hin) as (h & Hi & _).
    rewrite Hi, (get_conc _ _ _ _ R Hi), pointee_conc, (deref_alive _ _ _ _ I R Hi).
    eexists. split; [reflexivity|]. split; [by apply Rel_say|done].
  - destruct (look A i) as [h|] eqn:Hi; [|done]. rewrite (get_conc _ _ _ _ R Hi).
    destruct (can_mut A i) eqn:Hm; [|done]. injection H as <-. destruct (owning (a_kind h)) eqn:Ho.
    + rewrite (drop_spec _ _ _ _ I R Hi Ho). eexists. split; [reflexivity|]. split; [|done].
      by eapply Rel_del_own.
    + rewrite (drop_ref_spec _ _ _ _ I Hi Ho). eexists. split; [reflexivity|].
      split; [by eapply Rel_del_ref|]. by rewrite app_nil_r.
Qed.
Lemma run_sim os A S A' : Inv A → Rel A S → arun A os = Some A' →
  ∃ S', run S os = ROk S' ∧ Rel A' S' ∧ (s_heap S').2 = (s_heap S).2 ++ expected_log A os.
Proof.
  revert A S. induction os as [|o os IH]; intros A S I R H; cbn [arun] in H.
  - injection H as <-. exists S. cbn. by rewrite app_nil_r.
  - destruct (astep A o) as [A1|] eqn:E; [|done].
    destruct (step_sim _ _ _ _ I R E) as (S1 & E1 & R1 & L1).
    destruct (IH _ _ (astep_Inv _ _ _ I E) R1 H) as (S2 & E2 & R2 & L2).
    exists S2. cbn [run expected_log]. rewrite E1, E, L2, L1. by rewrite <-app_assoc.
Qed.
