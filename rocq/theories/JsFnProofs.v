(** Proofs about functions exported to JavaScript. *)

From Coq Require Import ZArith NArith Bool List Lia.
From stdpp Require Import base numbers list.
From Verif Require Import JsNumModel JsNumSpec NapiModel NapiSpec NapiProofs NapiProps JsFnModel JsFnSpec.

(** ** Arguments *)

Lemma from_napi_kind chk b ptr t j v : from_napi chk (Node b ptr) t j = Ok v → has_kind (kind_of (Node b ptr) t) j = true.
Proof. destruct (has_kind (kind_of (Node b ptr) t) j) eqn:E; [done|]. destruct t; cbn [from_napi]; rewrite extract_node, E; done. Qed.
Lemma from_values_ok chk p ps args : ∀ i vs, from_napi_values chk p i ps args = Ok vs ↔
  length vs = length ps ∧
  ∀ k q v, ps !! k = Some q → vs !! k = Some v → from_napi chk p (p_ty q) (arg args (i + k)) = Ok v.
Proof.
  induction ps as [|q ps IH]; intros i vs; cbn [from_napi_values].
  - split; [intros [= <-]; by split|]. intros [HL _]. destruct vs; [done|]. done.
  - destruct (from_napi chk p (p_ty q) (arg args i)) as [v| |] eqn:E.
    + split.
      * destruct (from_napi_values chk p (S i) ps args) as [ws| |] eqn:E2; [|done..]. cbn [mapr]. intros [= <-].
        destruct (proj1 (IH (S i) ws) E2) as [HL HI]. split; [by cbn; rewrite HL|].
        intros [|k] q' v' Hq Hv; cbn in Hq, Hv; simplify_eq; [by rewrite Nat.add_0_r|].
        rewrite <-Nat.add_succ_comm. by apply HI.
      * intros [HL HI]. destruct vs as [|w ws]; [done|].
        assert (Hw : w = v) by (specialize (HI 0 q w eq_refl eq_refl); rewrite Nat.add_0_r in HI; congruence). subst w.
        assert (HE : from_napi_values chk p (S i) ps args = Ok ws); [|by rewrite HE].
        apply IH. split; [by injection HL|]. intros k q' v' Hq Hv. rewrite Nat.add_succ_comm. by apply (HI (S k)).
    + split; [done|]. intros [HL HI]. destruct vs as [|w ws]; [done|]. specialize (HI 0 q w eq_refl eq_refl).
      rewrite Nat.add_0_r in HI. congruence.
    + split; [done|]. intros [HL HI]. destruct vs as [|w ws]; [done|]. specialize (HI 0 q w eq_refl eq_refl).
      rewrite Nat.add_0_r in HI. congruence.
Qed.
Lemma kinds_ok_of chk b ptr ps args : ∀ i vs, from_napi_values chk (Node b ptr) i ps args = Ok vs → kinds_ok (Node b ptr) i ps args = true.
Proof.
  induction ps as [|q ps IH]; intros i vs; cbn [from_napi_values kinds_ok]; [done|].
  destruct (from_napi chk (Node b ptr) (p_ty q) (arg args i)) as [v| |] eqn:E; [|done..].
  destruct (from_napi_values chk (Node b ptr) (S i) ps args) as [ws| |] eqn:E2; [|done..]. intros _.
  rewrite (from_napi_kind _ _ _ _ _ _ E). by rewrite (IH _ _ E2).
Qed.
Lemma convert_ok chk p f args vs : convert chk p (params f) args = Ok vs ↔ reads chk p f args vs.
Proof.
  unfold reads. pose proof (from_values_ok chk p (params f) args 0 vs) as H. unfold arg in H. cbn [Nat.add] in H.
  rewrite <-H. unfold convert. destruct p as [b n|]; [|done].
  split; [by destruct (kinds_ok _ _ _ _)|]. intros HE. by rewrite (kinds_ok_of _ _ _ _ _ _ _ HE).
Qed.
Lemma reads_det chk p f args vs vs' : reads chk p f args vs → reads chk p f args vs' → vs = vs'.
Proof. intros H1%convert_ok H2%convert_ok. congruence. Qed.
Lemma from_values_no_panic p ps args : ∀ i, from_napi_values false p i ps args ≠ Panic.
Proof.
  induction ps as [|q ps IH]; intros i; cbn [from_napi_values]; [done|].
  destruct (from_napi false p (p_ty q) (arg args i)) eqn:E; [|done|by apply C56_no_panic in E].
  specialize (IH (S i)). by destruct (from_napi_values false p (S i) ps args).
Qed.
Lemma convert_no_panic p ps args : convert false p ps args ≠ Panic.
Proof.
  unfold convert. destruct p; [destruct (kinds_ok _ _ _ _); [|done]|]; apply from_values_no_panic.
Qed.
Lemma all_valid_ok f vs : all_valid (params f) vs = true ↔ valid_args f vs.
Proof.
  unfold valid_args. generalize (params f) as ps. intros ps. revert vs.
  induction ps as [|q ps IH]; intros [|v vs]; cbn [all_valid]; try (split; [done|by intros [? _]]).
  rewrite andb_true_iff, IH. split.
  - intros (Hv & HL & HI). split; [by cbn; rewrite HL|]. intros [|i] q' v' Hq Hw; cbn in Hq, Hw; simplify_eq; [done|]. by eapply HI.
  - intros [HL HI]. split; [by apply (HI 0)|]. split; [by injection HL|]. intros i. by apply (HI (S i)).
Qed.
Lemma addrs_ok v a : a ∈ addrs v ↔ points_to v a.
Proof.
  revert v. fix IH 1. intros [z|x| |s|b|vs]; cbn [addrs]; try (split; [by intros ?%elem_of_nil|by inversion 1]).
  - rewrite elem_of_list_singleton. split; [intros H; rewrite H; constructor|by inversion 1].
  - transitivity (∃ v, v ∈ vs ∧ points_to v a); [|split; [intros (v & ? & ?); by eapply points_field|inversion 1; eauto]].
    revert vs. fix IHs 1. intros [|v vs].
    + split; [by intros ?%elem_of_nil|]. intros (v & ?%elem_of_nil & _). done.
    + rewrite elem_of_app, (IH v), (IHs vs). split.
      * intros [H|(w & H & Hp)]; [exists v; split; [left|done]|exists w; split; [by right|done]].
      * intros (w & [->|H]%elem_of_cons & Hp); [by left|right; eauto].
Qed.
Lemma dangling_ok freed vs : dangling freed vs = true ↔ ∃ a, uses vs a ∧ a ∈ freed.
Proof.
  unfold dangling, uses. rewrite existsb_exists. split.
  - intros (a & Ha & Hf). exists a. apply in_flat_map in Ha as (v & Hv & Ha). apply existsb_exists in Hf as (b & Hb & Heq).
    apply Z.eqb_eq in Heq as <-. split; [|by apply elem_of_list_In]. exists v. split; [by apply elem_of_list_In|].
    apply addrs_ok. by apply elem_of_list_In.
  - intros (a & (v & Hv & Hp) & Hf). exists a. split.
    + apply in_flat_map. exists v. split; [by apply elem_of_list_In|]. apply elem_of_list_In. by apply addrs_ok.
    + apply existsb_exists. exists a. split; [by apply elem_of_list_In|]. apply Z.eqb_refl.
Qed.
Lemma liberal_valid chk p f args vs : liberal p f → Forall (js_ok p) args → reads chk p f args vs → valid_args f vs.
Proof.
  intros [Hp HL] Ha [Hl HI]. split; [done|]. intros i q v Hq Hv.
  destruct (HL q) as [Hw Hval]; [by eapply elem_of_list_lookup_2|]. apply Hval.
  eapply C56_sound; [done|done| |by eapply HI].
  destruct (args !! i) as [j|] eqn:Hj; [|done]. cbn. rewrite Forall_lookup in Ha. by eapply Ha.
Qed.

(** ** Running the function *)

(** What one run does. *)
Lemma run_spec dbg g rust f w id vs w' r : run dbg g rust f w id vs = (w', r) →
  tasks w' = tasks w ∧ freed w' = freed w ∧
  match r with
  | Some v => dead w' = dead w ∧ calls w' = calls w ++ [(id, vs)] ∧ valid_args f vs ∧ rust (length (calls w)) vs = Returns v
  | None =>
      (dead w' = Some Undefined ∧ calls w' = calls w ∧
         (dbg = false ∧ ¬ valid_args f vs ∨ valid_args f vs ∧ ∃ a, uses vs a ∧ a ∈ freed w)) ∨
      (dead w' = Some (if g then Aborted else Unwound) ∧
         (calls w' = calls w ∧ dbg = true ∧ ¬ valid_args f vs ∨
          calls w' = calls w ++ [(id, vs)] ∧ valid_args f vs ∧ rust (length (calls w)) vs = Unwinds))
  end.
Proof.
  unfold run. destruct (all_valid (params f) vs) eqn:EV; cbn [negb].
  - apply all_valid_ok in EV. destruct (dangling (freed w) vs) eqn:ED.
    + intros [= <- <-]. split; [done|]. split; [done|]. left. split; [done|]. split; [done|]. right. by apply dangling_ok in ED.
    + destruct (rust (length (calls w)) vs) eqn:ER; intros [= <- <-]; (split; [done|]); (split; [done|]); [done|]. right. split; [done|]. right. done.
  - assert (HV : ¬ valid_args f vs) by (rewrite <-all_valid_ok; congruence).
    intros [= <- <-]. split; [done|]. split; [done|]. destruct dbg; [right|left]; (split; [done|]); auto.
Qed.
Lemma run_safe dbg g rust f w id vs w' r : run dbg g rust f w id vs = (w', r) → dead w = None →
  valid_args f vs → (∀ a, uses vs a → a ∉ freed w) → dead w' ≠ Some Undefined.
Proof.
  intros HR Hd HV HU. apply run_spec in HR as (_ & _ & HR). destruct r as [v|].
  - destruct HR as (-> & _). by rewrite Hd.
  - destruct HR as [(_ & _ & [[_ H]|(_ & a & H1 & H2)])|(-> & _)]; [done|by apply HU in H1|by destruct g].
Qed.

(** ** What the parameters are given *)

Lemma future_args_ok chk p ps args : ∀ i vs, future_args chk p i ps args = POk vs ↔
  from_napi_values chk p i ps args = Ok vs ∧ all_valid ps vs = true.
Proof.
  induction ps as [|q ps IH]; intros i vs; cbn [future_args from_napi_values].
  - split; [intros [= <-]; done|]. by intros [[= <-] _].
  - destruct (from_napi chk p (p_ty q) (arg args i)) as [v| |] eqn:E; [|split; [done|by intros [? _]]..].
    split.
    + destruct (p_valid q v) eqn:EV; [|done]. destruct (future_args chk p (S i) ps args) as [ws| | |] eqn:E2; [|done..].
      intros [= <-]. apply IH in E2 as [-> HA]. cbn [mapr all_valid]. by rewrite EV.
    + destruct (from_napi_values chk p (S i) ps args) as [ws| |] eqn:E2; [|by intros [? _]..]. cbn [mapr].
      intros [[= <-] HA]. cbn [all_valid] in HA. apply andb_true_iff in HA as [-> HA].
      by rewrite (proj2 (IH (S i) ws)).
Qed.
Lemma future_args_err chk p ps args : ∀ i vs, future_args chk p i ps args = PErr → from_napi_values chk p i ps args ≠ Ok vs.
Proof.
  induction ps as [|q ps IH]; intros i vs; cbn [future_args from_napi_values]; [done|].
  destruct (from_napi chk p (p_ty q) (arg args i)) as [v| |] eqn:E; [|done..].
  destruct (p_valid q v); [|done]. destruct (future_args chk p (S i) ps args) eqn:E2; try done. intros _.
  destruct (from_napi_values chk p (S i) ps args) as [ws| |] eqn:E3; try done. by apply (IH (S i) ws) in E2.
Qed.
Lemma future_args_panic p ps args : ∀ i, future_args false p i ps args ≠ PPanic.
Proof.
  induction ps as [|q ps IH]; intros i; cbn [future_args]; [done|].
  destruct (from_napi false p (p_ty q) (arg args i)) as [v| |] eqn:E; [|done|by apply C56_no_panic in E].
  destruct (p_valid q v); [|done]. specialize (IH (S i)). by destruct (future_args false p (S i) ps args).
Qed.
Lemma future_args_invalid chk p ps args : ∀ i, future_args chk p i ps args = PInvalid →
  ∃ k q v, ps !! k = Some q ∧ from_napi chk p (p_ty q) (arg args (i + k)) = Ok v ∧ p_valid q v = false.
Proof.
  induction ps as [|q ps IH]; intros i; cbn [future_args]; [done|].
  destruct (from_napi chk p (p_ty q) (arg args i)) as [v| |] eqn:E; [|done..].
  destruct (p_valid q v) eqn:EV.
  - destruct (future_args chk p (S i) ps args) eqn:E2; try done. intros _. destruct (IH _ E2) as (k & q' & v' & H1 & H2 & H3).
    exists (S k), q', v'. split; [done|]. by rewrite <-Nat.add_succ_comm.
  - intros _. exists 0, q, v. by rewrite Nat.add_0_r.
Qed.

Lemma prepare_ok chk p f args vs : prepare chk p f args = POk vs → reads chk p f args vs ∧ (mode f = Future → valid_args f vs).
Proof.
  unfold prepare. destruct (mode f) eqn:EM.
  - destruct (convert chk p (params f) args) eqn:E; [|done..]. intros [= <-]. by apply convert_ok in E.
  - destruct (convert chk p (params f) args) eqn:E; [|done..]. intros [= <-]. by apply convert_ok in E.
  - destruct (is_wasm p || _) eqn:EK; [|done]. intros [H1 H2]%future_args_ok. split; [|intros _; by apply all_valid_ok].
    apply convert_ok. unfold convert. destruct p; [|done]. cbn [is_wasm orb] in EK. by rewrite EK.
Qed.
Lemma prepare_reads chk p f args vs : reads chk p f args vs → mode f ≠ Future ∨ valid_args f vs → prepare chk p f args = POk vs.
Proof.
  intros HR HV. apply convert_ok in HR as HC. unfold prepare.
  assert (HF : mode f = Future → (if is_wasm p || kinds_ok p 0 (params f) args then future_args chk p 0 (params f) args else PErr) = POk vs).
  { intros HM. destruct HV as [|HV]; [done|]. unfold convert in HC.
    assert (from_napi_values chk p 0 (params f) args = Ok vs ∧ is_wasm p || kinds_ok p 0 (params f) args = true) as [HN ->].
    { destruct p; [|done]. destruct (kinds_ok _ _ _ _); [done|done]. }
    apply future_args_ok. split; [done|]. by apply all_valid_ok. }
  rewrite HC. destruct (mode f); [done|done|by apply HF].
Qed.
Lemma prepare_err chk p f args vs : prepare chk p f args = PErr → ¬ reads chk p f args vs.
Proof.
  intros HP HR. apply convert_ok in HR as HC. unfold prepare in HP. rewrite HC in HP.
  destruct (mode f); [done|done|]. unfold convert in HC. destruct p.
  - cbn [is_wasm orb] in HP. destruct (kinds_ok _ _ _ _); [|done]. exact (future_args_err _ _ _ _ _ _ HP HC).
  - exact (future_args_err _ _ _ _ _ _ HP HC).
Qed.
Lemma prepare_panic p f args : prepare false p f args ≠ PPanic.
Proof.
  unfold prepare. pose proof (convert_no_panic p (params f) args). pose proof (future_args_panic p (params f) args 0).
  destruct (mode f); [by destruct (convert _ _ _ _)..|]. by destruct (_ || _).
Qed.
Lemma prepare_invalid chk p f args : prepare chk p f args = PInvalid → mode f = Future ∧
  ∃ i q v, params f !! i = Some q ∧ from_napi chk p (p_ty q) (default JUndefined (args !! i)) = Ok v ∧ p_valid q v = false.
Proof.
  unfold prepare. destruct (mode f); [by destruct (convert _ _ _ _)..|].
  destruct (_ || _); [|done]. intros H. split; [done|]. by apply future_args_invalid in H.
Qed.
Lemma future_args_invalid_iff chk p ps args : ∀ i, future_args chk p i ps args = PInvalid ↔
  ∃ k q v, ps !! k = Some q ∧ from_napi chk p (p_ty q) (arg args (i + k)) = Ok v ∧ p_valid q v = false ∧
    ∀ k' q', k' < k → ps !! k' = Some q' → ∃ v', from_napi chk p (p_ty q') (arg args (i + k')) = Ok v' ∧ p_valid q' v' = true.
Proof.
  induction ps as [|q ps IH]; intros i; cbn [future_args].
  { split; [done|]. by intros (k & q & v & ? & _). }
  assert (H0 : ∀ k, (∃ k q' v, (q :: ps) !! k = Some q' ∧ from_napi chk p (p_ty q') (arg args (i + k)) = Ok v ∧ p_valid q' v = false ∧
      ∀ k' q'', k' < k → (q :: ps) !! k' = Some q'' → ∃ v', from_napi chk p (p_ty q'') (arg args (i + k')) = Ok v' ∧ p_valid q'' v' = true) →
      k = i → ∃ v, from_napi chk p (p_ty q) (arg args i) = Ok v).
  { intros _ (k & q' & v & Hq & HF & _ & HA) _. destruct k as [|k].
    - injection Hq as <-. rewrite Nat.add_0_r in HF. eauto.
    - destruct (HA 0 q) as (v' & HF' & _); [lia|done|]. rewrite Nat.add_0_r in HF'. eauto. }
  destruct (from_napi chk p (p_ty q) (arg args i)) as [v| |] eqn:E.
  2,3: split; [done|]; intros H; destruct (H0 i H eq_refl) as [v ?]; done.
  clear H0. destruct (p_valid q v) eqn:EV.
  - transitivity (future_args chk p (S i) ps args = PInvalid); [by destruct (future_args chk p (S i) ps args)|]. rewrite IH. split.
    + intros (k & q' & v' & Hq & HF & HN & HA). exists (S k), q', v'. rewrite <-Nat.add_succ_comm. split_and!; [done..|].
      intros [|k'] q'' Hk Hq''; [injection Hq'' as <-; exists v; by rewrite Nat.add_0_r|]. rewrite <-Nat.add_succ_comm. apply HA; [lia|done].
    + intros (k & q' & v' & Hq & HF & HN & HA). destruct k as [|k].
      { injection Hq as <-. rewrite Nat.add_0_r in HF. congruence. }
      exists k, q', v'. rewrite Nat.add_succ_comm. split_and!; [done..|]. intros k' q'' Hk Hq''. rewrite Nat.add_succ_comm. apply (HA (S k')); [lia|done].
  - split; [|done]. intros _. exists 0, q, v. rewrite Nat.add_0_r. split_and!; [done..|]. intros k' q' Hk. lia.
Qed.
Lemma kinds_ok_iff p ps args : ∀ i, kinds_ok p i ps args = true ↔ ∀ k q, ps !! k = Some q → has_kind (kind_of p (p_ty q)) (arg args (i + k)) = true.
Proof.
  induction ps as [|q ps IH]; intros i; cbn [kinds_ok]; [done|]. rewrite andb_true_iff, IH. split.
  - intros [H1 H2] [|k] q' Hq; [injection Hq as <-; by rewrite Nat.add_0_r|]. rewrite <-Nat.add_succ_comm. by apply H2.
  - intros H. split; [specialize (H 0 q eq_refl); by rewrite Nat.add_0_r in H|]. intros k q' Hq. rewrite Nat.add_succ_comm. by apply (H (S k)).
Qed.
Lemma prepare_invalid_async chk p f args : mode f = Future → prepare chk p f args = PInvalid ↔
  (is_wasm p = true ∨ ∀ i q, params f !! i = Some q → has_kind (kind_of p (p_ty q)) (default JUndefined (args !! i)) = true) ∧
  ∃ i q v, params f !! i = Some q ∧ from_napi chk p (p_ty q) (default JUndefined (args !! i)) = Ok v ∧ p_valid q v = false ∧
    ∀ i' q', i' < i → params f !! i' = Some q' → ∃ v', from_napi chk p (p_ty q') (default JUndefined (args !! i')) = Ok v' ∧ p_valid q' v' = true.
Proof.
  intros HM. pose proof (future_args_invalid_iff chk p (params f) args 0) as H1. pose proof (kinds_ok_iff p (params f) args 0) as H2.
  unfold arg in H1, H2. cbn [Nat.add] in H1, H2. rewrite <-H1, <-H2. unfold prepare. rewrite HM.
  destruct (is_wasm p), (kinds_ok _ _ _ _); cbn [orb]; split; try done; try tauto.
  all: intros [[H|H] ?]; done.
Qed.
Lemma prepare_liberal chk p f args : liberal p f → Forall (js_ok p) args → prepare chk p f args ≠ PInvalid.
Proof.
  intros [Hp HL] Ha (_ & i & q & v & Hq & HF & HV)%prepare_invalid.
  destruct (HL q) as [Hw Hval]; [by eapply elem_of_list_lookup_2|]. rewrite Hval in HV; [done|].
  eapply C56_sound; [done|done| |exact HF].
  destruct (args !! i) as [j|] eqn:Hj; [|done]. cbn. rewrite Forall_lookup in Ha. by eapply Ha.
Qed.

(** ** Calls *)

Definition called (chk : bool) (p : plat) (rust : nat → list val → outcome) (f : fn) (args : list js) (w w' : world) (v : val) : Prop :=
  ∃ vs, reads chk p f args vs ∧ valid_args f vs ∧ calls w' = calls w ++ [(length (tasks w), vs)] ∧
    rust (length (calls w)) vs = Returns v.

Lemma call_spec dbg chk p fresh rust f args sp w w' t r :
  call dbg chk p fresh rust f args sp w = (w', t, r) →
  tasks w' = tasks w ∧ freed w' = freed w ∧
  (calls w' = calls w ∨
   ∃ vs, reads chk p f args vs ∧ valid_args f vs ∧ calls w' = calls w ++ [(length (tasks w), vs)]) ∧
  match t with
  | TNone => match r with RPromise _ => False | _ => True end
  | TQueued vs => mode f = Worker ∧ is_wasm p = false ∧ reads chk p f args vs ∧ calls w' = calls w ∧ dead w' = dead w ∧ r = RPromise (length (tasks w))
  | TFuture v => mode f = Future ∧ called chk p rust f args w w' v ∧ dead w' = dead w ∧ r = RPromise (length (tasks w))
  | TDone _ | TSettled None => False
  | TSettled (Some j) => mode f = Worker ∧ is_wasm p = true ∧ dead w' = dead w ∧ r = RPromise (length (tasks w)) ∧
      ∃ v, called chk p rust f args w w' v ∧ to_napi p fresh (ret f) v = Ok j
  end ∧
  match r with
  | RReturn j => mode f = Plain ∧ dead w' = dead w ∧ t = TNone ∧
      ∃ v, called chk p rust f args w w' v ∧ to_napi p fresh (ret f) v = Ok j
  | RThrow => dead w' = dead w ∧ t = TNone ∧
      (calls w' = calls w ∧ (∀ vs, ¬ reads chk p f args vs) ∨
       calls w' = calls w ∧ mode f = Worker ∧ sp = false ∧ is_wasm p = false ∨
       mode f = Future ∧ sp = false ∧ is_wasm p = false ∨
       ∃ v, called chk p rust f args w w' v ∧ to_napi p fresh (ret f) v = Err)
  | RPromise i => i = length (tasks w) ∧ mode f ≠ Plain ∧ t ≠ TNone
  | RNothing => t = TNone ∧ ∃ d, dead w' = Some d
  end.
Proof.
  unfold call. destruct (prepare chk p f args) as [vs| | |] eqn:EP.
  2: { intros [= <- <- <-]. split_and!; try done; [by left|]. left. split; [done|]. intros vs. by apply prepare_err. }
  2,3: intros [= <- <- <-]; split_and!; try done; [by left|by eexists].
  apply prepare_ok in EP as [HR _].
  assert (HRun : ∀ g w1 o, run dbg g rust f w (length (tasks w)) vs = (w1, o) →
    tasks w1 = tasks w ∧ freed w1 = freed w ∧
    (calls w1 = calls w ∨ ∃ vs, reads chk p f args vs ∧ valid_args f vs ∧ calls w1 = calls w ++ [(length (tasks w), vs)]) ∧
    match o with
    | Some v => dead w1 = dead w ∧ called chk p rust f args w w1 v
    | None => ∃ d, dead w1 = Some d
    end).
  { intros g w1 o HE. apply run_spec in HE as (H1 & H2 & H3). split; [done|]. split; [done|]. destruct o as [v|].
    - destruct H3 as (? & ? & ? & ?). split; [right; eauto|]. split; [done|]. by exists vs.
    - destruct H3 as [(H & Hc & _)|(H & [(Hc & _)|(Hc & ? & _)])]; (split; [|by eexists]); [by left|by left|]. right. eauto. }
  destruct (mode f) eqn:EM.
  - destruct (run dbg true rust f w (length (tasks w)) vs) as [w1 o] eqn:ER. destruct (HRun _ _ _ ER) as (H1 & H2 & H3 & H4).
    destruct o as [v|].
    + destruct H4 as [H4 H5]. destruct (to_napi p fresh (ret f) v) as [j| |] eqn:EN; intros [= <- <- <-].
      * split_and!; try done. eauto.
      * split_and!; try done. do 3 right. eauto.
      * split_and!; try done. by eexists.
    + intros [= <- <- <-]. by split_and!.
  - destruct (is_wasm p) eqn:EW.
    + destruct (run dbg true rust f w (length (tasks w)) vs) as [w1 o] eqn:ER. destruct (HRun _ _ _ ER) as (H1 & H2 & H3 & H4).
      destruct o as [v|].
      * destruct H4 as [H4 H5]. destruct (to_napi p fresh (ret f) v) as [j| |] eqn:EN; intros [= <- <- <-].
        -- split_and!; try done. eauto.
        -- split_and!; try done. do 3 right. eauto.
        -- split_and!; try done. by eexists.
      * intros [= <- <- <-]. by split_and!.
    + destruct sp; intros [= <- <- <-]; split_and!; try done; [by left|by left|]. right. by left.
  - destruct (run dbg false rust f w (length (tasks w)) vs) as [w1 o] eqn:ER. destruct (HRun _ _ _ ER) as (H1 & H2 & H3 & H4).
    destruct o as [v|].
    + destruct H4 as [H4 H5]. destruct (sp || is_wasm p) eqn:EO; intros [= <- <- <-].
      * by split_and!.
      * apply orb_false_iff in EO as [-> ->]. split_and!; try done. right; right; left. done.
    + intros [= <- <- <-]. by split_and!.
Qed.

(** ** Histories *)

(** The call [i] with the arguments [args] ran the function, which returned [v]. *)
Definition ran (chk : bool) (p : plat) (rust : nat → list val → outcome) (f : fn) (gs : list (list js)) (w : world) (i : nat) (v : val) : Prop :=
  ∃ k vs, calls w !! k = Some (i, vs) ∧ rust k vs = Returns v.
Definition task_ok (chk : bool) (p : plat) (fresh : Z) (rust : nat → list val → outcome) (f : fn) (gs : list (list js)) (w : world) (i : nat) (t : task) : Prop :=
  match t with
  | TNone => True
  | TQueued vs => mode f = Worker ∧ is_wasm p = false ∧ (∃ args, gs !! i = Some args ∧ reads chk p f args vs) ∧ (dead w = None → i ∉ (calls w).*1)
  | TFuture v | TDone v => ran chk p rust f gs w i v
  | TSettled (Some j) => ∃ v, ran chk p rust f gs w i v ∧ to_napi p fresh (ret f) v = Ok j
  | TSettled None => ∃ v, ran chk p rust f gs w i v ∧ to_napi p fresh (ret f) v = Err
  end.
Record inv (chk : bool) (p : plat) (fresh : Z) (rust : nat → list val → outcome) (f : fn) (gs : list (list js)) (w : world) : Prop := Inv {
  inv_len : length (tasks w) ≤ length gs;
  inv_alive : dead w = None → length (tasks w) = length gs;
  inv_tasks : ∀ i t, tasks w !! i = Some t → task_ok chk p fresh rust f gs w i t;
  inv_calls : ∀ k i vs, calls w !! k = Some (i, vs) → i < length (tasks w) ∧ valid_args f vs ∧ ∃ args, gs !! i = Some args ∧ reads chk p f args vs;
  inv_nodup : NoDup (calls w).*1 }.

Lemma given_app ms ms' : given (ms ++ ms') = given ms ++ given ms'.
Proof. induction ms as [|[] ms IH]; cbn [given app]; [done|by rewrite IH|done..]. Qed.
Lemma runs_app dbg chk p fresh rust f ms ms' : ∀ w,
  (runs dbg chk p fresh rust f w (ms ++ ms')).1 = (runs dbg chk p fresh rust f (runs dbg chk p fresh rust f w ms).1 ms').1.
Proof.
  induction ms as [|m ms IH]; intros w; cbn [runs app]; [done|].
  destruct (step dbg chk p fresh rust f w m) as [w' r]. specialize (IH w').
  destruct (runs dbg chk p fresh rust f w' (ms ++ ms')) as [w1 rs1]. destruct (runs dbg chk p fresh rust f w' ms) as [w2 rs2]. exact IH.
Qed.
Lemma runs_snoc dbg chk p fresh rust f w ms m :
  (runs dbg chk p fresh rust f w (ms ++ [m])).1 = (step dbg chk p fresh rust f (runs dbg chk p fresh rust f w ms).1 m).1.
Proof. rewrite runs_app. cbn [runs]. by destruct (step _ _ _ _ _ _ _ _). Qed.
Lemma runs_cons dbg chk p fresh rust f w m ms :
  (runs dbg chk p fresh rust f w (m :: ms)).1 = (runs dbg chk p fresh rust f (step dbg chk p fresh rust f w m).1 ms).1.
Proof. cbn [runs]. destruct (step _ _ _ _ _ _ _ _) as [w' r]. cbn [fst]. by destruct (runs _ _ _ _ _ _ _ _). Qed.
Lemma runs_dead dbg chk p fresh rust f ms : ∀ w d, dead w = Some d → (runs dbg chk p fresh rust f w ms).1 = w.
Proof.
  induction ms as [|m ms IH]; intros w d Hd; [done|]. rewrite runs_cons. unfold step. rewrite Hd. cbn [fst]. by eapply IH.
Qed.

Lemma ran_mono chk p rust f gs gs' w w' l i v : calls w' = calls w ++ l → ran chk p rust f gs w i v → ran chk p rust f gs' w' i v.
Proof. intros HE (k & vs & HK & HV). exists k, vs. rewrite HE. split; [|done]. by apply lookup_app_l_Some. Qed.
(** A task that is not touched. *)
Lemma task_ok_mono chk p fresh rust f gs gs' w w' l i t : calls w' = calls w ++ l → gs `prefix_of` gs' →
  (dead w' = None → dead w = None) → (dead w' = None → i ∉ l.*1) →
  task_ok chk p fresh rust f gs w i t → task_ok chk p fresh rust f gs' w' i t.
Proof.
  intros HC HG HD HI. destruct t as [|vs|v|v|[j|]]; cbn [task_ok].
  - done.
  - intros (? & ? & (args & Hg & HR) & HN). split_and!; [done|done| |].
    + exists args. split; [|done]. destruct HG as [l' ->]. by apply lookup_app_l_Some.
    + intros Hd. rewrite HC, fmap_app, elem_of_app. intros [Hin|Hin]; [by apply HN in Hin; auto|by apply HI in Hin].
  - by eapply ran_mono.
  - by eapply ran_mono.
  - intros (v & ? & ?). exists v. split; [by eapply ran_mono|done].
  - intros (v & ? & ?). exists v. split; [by eapply ran_mono|done].
Qed.
Lemma called_ran chk p rust f gs args w w' v i : called chk p rust f args w w' v → i = length (tasks w) → ran chk p rust f gs w' i v.
Proof.
  intros (vs & _ & _ & HC & HV) ->. exists (length (calls w)), vs. split; [|done]. rewrite HC. by apply list_lookup_middle.
Qed.

Lemma step_inv dbg chk p fresh rust f gs w m : inv chk p fresh rust f gs w →
  inv chk p fresh rust f (gs ++ given [m]) (step dbg chk p fresh rust f w m).1.
Proof.
  intros [HL HA HT HC HN]. unfold step. destruct (dead w) as [d|] eqn:ED.
  { constructor; cbn [fst].
    - rewrite app_length. lia.
    - by rewrite ED.
    - intros i t Ht. eapply (task_ok_mono _ _ _ _ _ gs _ w _ []); [by rewrite app_nil_r|by eexists|by rewrite ED|by rewrite ED|by apply HT].
    - intros k i vs Hk. destruct (HC _ _ _ Hk) as (? & ? & args & Hg & ?). split_and!; [done|done|]. exists args. split; [by apply lookup_app_l_Some|done].
    - done. }
  specialize (HA eq_refl). destruct m as [args sp|i|i|a]; cbn [given]; rewrite ?app_nil_r.
  - destruct (call dbg chk p fresh rust f args sp w) as [[w' t] r] eqn:EC. cbn [fst].
    apply call_spec in EC as (H1 & H2 & H3 & H4 & H5). rewrite H1.
    assert (∃ l, calls w' = calls w ++ l ∧ (l = [] ∨ ∃ vs, l = [(length (tasks w), vs)] ∧ reads chk p f args vs ∧ valid_args f vs)) as (l & HE & Hl).
    { destruct H3 as [H3|(vs & ? & ? & H3)]; [exists []; rewrite app_nil_r; auto|eexists; split; [exact H3|]; right; eauto]. }
    assert (Hfresh : length (tasks w) ∉ (calls w).*1).
    { intros ([i vs] & Hi & Hin)%elem_of_list_fmap. apply elem_of_list_lookup in Hin as (k & Hk). apply HC in Hk as [Hk _]. cbn in Hi. lia. }
    constructor; cbn [set_tasks tasks calls dead freed].
    + rewrite !app_length. cbn [length]. lia.
    + intros _. rewrite !app_length. cbn [length]. lia.
    + intros i t' Ht. apply lookup_app_Some in Ht as [Ht|[Hge Ht]].
      * eapply (task_ok_mono _ _ _ _ _ gs _ w _ l); [done|by eexists|done| |by apply HT].
        intros _. destruct Hl as [->|(vs & -> & _)]; [by intros ?%elem_of_nil|]. intros ->%elem_of_list_singleton.
        apply lookup_lt_Some in Ht. cbn in Ht. lia.
      * apply list_lookup_singleton_Some in Ht as [Hi <-]. assert (i = length (tasks w)) as -> by lia.
        destruct t as [|vs|v|v|[j|]]; cbn [task_ok].
        -- done.
        -- destruct H4 as (? & ? & ? & Hcs & ? & _). split_and!; [done|done| |].
           ++ exists args. split; [|done]. rewrite HA. by apply list_lookup_middle.
           ++ intros _. cbn. rewrite Hcs. done.
        -- destruct H4 as (_ & H & _). exact (called_ran _ _ _ _ (gs ++ [args]) _ _ _ _ _ H eq_refl).
        -- done.
        -- destruct H4 as (_ & _ & _ & _ & v & H & ?). exists v. split; [|done]. exact (called_ran _ _ _ _ (gs ++ [args]) _ _ _ _ _ H eq_refl).
        -- done.
    + intros k i vs. rewrite HE. intros Hk. rewrite app_length. cbn [length]. apply lookup_app_Some in Hk as [Hk|[Hge Hk]].
      * destruct (HC _ _ _ Hk) as (? & ? & args' & Hg & ?). split_and!; [lia|done|]. exists args'. split; [by apply lookup_app_l_Some|done].
      * destruct Hl as [->|(ws & -> & ? & ?)]; [done|]. apply list_lookup_singleton_Some in Hk as [_ [= <- <-]].
        split_and!; [lia|done|]. exists args. split; [|done]. rewrite HA. by apply list_lookup_middle.
    + rewrite HE, fmap_app. apply NoDup_app. split; [done|]. destruct Hl as [->|(ws & -> & _)]; cbn [fmap list_fmap fst].
      * split; [by intros ? _ ?%elem_of_nil|constructor].
      * split; [|apply NoDup_singleton]. intros i Hi ->%elem_of_list_singleton. done.
  - destruct (tasks w !! i) as [t|] eqn:Hi; [|by constructor]. pose proof (HT _ _ Hi) as Ht.
    assert (HiL : i < length (tasks w)) by by eapply lookup_lt_Some.
    destruct t as [|vs|v|v|r]; try by constructor.
    + destruct Ht as (_ & _ & (args & Hg & HR) & Hnc). specialize (Hnc ED).
      destruct (run dbg true rust f w i vs) as [w' o] eqn:ER. apply run_spec in ER as (H1 & H2 & H3).
      assert (∃ l, calls w' = calls w ++ l ∧ (l = [] ∨ l = [(i, vs)] ∧ valid_args f vs)) as (l & HE & Hl).
      { destruct o as [v|].
        - destruct H3 as (_ & H3 & ? & _). exists [(i, vs)]. split; [done|]. right. done.
        - destruct H3 as [(_ & H3 & _)|(_ & [(H3 & _)|(H3 & ? & _)])]; [exists []; rewrite app_nil_r; auto..|].
          exists [(i, vs)]. split; [done|]. right. done. }
      assert (Hcalls : ∀ k i' vs', calls w' !! k = Some (i', vs') → i' < length (tasks w) ∧ valid_args f vs' ∧
        ∃ args, gs !! i' = Some args ∧ reads chk p f args vs').
      { intros k i' vs'. rewrite HE. intros Hk. apply lookup_app_Some in Hk as [Hk|[Hge Hk]]; [by apply HC in Hk|].
        destruct Hl as [->|[-> ?]]; [done|]. apply list_lookup_singleton_Some in Hk as [_ [= <- <-]]. split_and!; [done|done|]. eauto. }
      assert (Hnd : NoDup (calls w').*1).
      { rewrite HE, fmap_app. apply NoDup_app. split; [done|]. destruct Hl as [->|[-> _]]; cbn [fmap list_fmap fst].
        - split; [by intros ? _ ?%elem_of_nil|constructor].
        - split; [|apply NoDup_singleton]. intros i' Hi' ->%elem_of_list_singleton. done. }
      destruct o as [v|].
      * destruct H3 as (H3 & H4 & H5 & H6). cbn [fst]. constructor; cbn [set_tasks tasks calls dead freed]; rewrite ?insert_length, ?H1; try done.
        intros i' t' Ht'. apply list_lookup_insert_Some in Ht' as [(<- & <- & _)|[Hne Ht']].
        -- cbn [task_ok]. exists (length (calls w)), vs. cbn. rewrite H4. split; [by apply list_lookup_middle|done].
        -- eapply (task_ok_mono _ _ _ _ _ gs _ w _ [(i, vs)]); [done|done|done| |by apply HT].
           intros _ H. apply elem_of_list_singleton in H. cbn in H. congruence.
      * assert (HD : ∃ d, dead w' = Some d) by (destruct H3 as [[? _]|[? _]]; by eexists). destruct HD as [d HD].
        cbn [fst]. constructor; rewrite ?H1; try done.
        intros i' t' Ht'. eapply (task_ok_mono _ _ _ _ _ gs _ w _ l); [done|done|by rewrite HD|by rewrite HD|by apply HT].
    + cbn [fst]. constructor; cbn [set_tasks tasks calls dead freed]; rewrite ?insert_length; try done.
      intros i' t' Ht'. apply list_lookup_insert_Some in Ht' as [(<- & <- & _)|[Hne Ht']]; [done|].
      eapply (task_ok_mono _ _ _ _ _ gs _ w _ []); [by rewrite app_nil_r|done|done|by intros _ ?%elem_of_nil|by apply HT].
  - destruct (tasks w !! i) as [t|] eqn:Hi; [|by constructor]. pose proof (HT _ _ Hi) as Ht.
    destruct t as [|vs|v|v|r]; try by constructor. cbn [task_ok] in Ht.
    assert (HS : ∀ r, task_ok chk p fresh rust f gs w i (TSettled r) → inv chk p fresh rust f gs (set_tasks w (<[i := TSettled r]> (tasks w)))).
    { intros r Hr. constructor; cbn [set_tasks tasks calls dead freed]; rewrite ?insert_length; try done.
      intros i' t' Ht'. apply list_lookup_insert_Some in Ht' as [(<- & <- & _)|[Hne Ht']].
      - eapply (task_ok_mono _ _ _ _ _ gs _ w _ []); [by rewrite app_nil_r|done|done|by intros _ ?%elem_of_nil|done].
      - eapply (task_ok_mono _ _ _ _ _ gs _ w _ []); [by rewrite app_nil_r|done|done|by intros _ ?%elem_of_nil|by apply HT]. }
    destruct (to_napi p fresh (ret f) v) as [j| |] eqn:EN; cbn [fst].
    + apply HS. cbn [task_ok]. eauto.
    + apply HS. cbn [task_ok]. eauto.
    + constructor; cbn [die tasks calls dead freed]; try done.
      intros i' t' Ht'. eapply (task_ok_mono _ _ _ _ _ gs _ w _ []); [by rewrite app_nil_r|done|done|done|by apply HT].
  - cbn [fst]. constructor; cbn [tasks calls dead freed]; try done.
    intros i' t' Ht'. eapply (task_ok_mono _ _ _ _ _ gs _ w _ []); [by rewrite app_nil_r|done|done|by intros _ ?%elem_of_nil|by apply HT].
Qed.
Lemma runs_inv dbg chk p fresh rust f ms : inv chk p fresh rust f (given ms) (runs dbg chk p fresh rust f init ms).1.
Proof.
  induction ms as [|m ms IH] using rev_ind.
  - constructor; cbn; try done. constructor.
  - rewrite given_app, runs_snoc. by apply step_inv.
Qed.

(** A promise settled stays so; a function that ran stays so. *)
Lemma step_settled dbg chk p fresh rust f w m i r : tasks w !! i = Some (TSettled r) →
  tasks (step dbg chk p fresh rust f w m).1 !! i = Some (TSettled r).
Proof.
  intros Hi. unfold step. destruct (dead w); [done|]. destruct m as [args sp|k|k|a].
  - destruct (call dbg chk p fresh rust f args sp w) as [[w' t] r'] eqn:EC. cbn [fst set_tasks tasks].
    apply call_spec in EC as (-> & _). by apply lookup_app_l_Some.
  - destruct (tasks w !! k) as [t|] eqn:Hk; [|done]. destruct t as [|vs|v|v|r']; try done.
    + destruct (run dbg true rust f w k vs) as [w' o] eqn:ER. apply run_spec in ER as (H1 & _). destruct o; cbn [fst set_tasks tasks]; rewrite H1; [|done].
      rewrite list_lookup_insert_ne; [done|]. congruence.
    + cbn [fst set_tasks tasks]. rewrite list_lookup_insert_ne; [done|]. congruence.
  - destruct (tasks w !! k) as [t|] eqn:Hk; [|done]. destruct t as [|vs|v|v|r']; try done.
    destruct (to_napi _ _ _ _); cbn [fst set_tasks tasks die]; try done; (rewrite list_lookup_insert_ne; [done|]; congruence).
  - done.
Qed.
Lemma runs_settled dbg chk p fresh rust f i r ms : ∀ w, tasks w !! i = Some (TSettled r) →
  tasks (runs dbg chk p fresh rust f w ms).1 !! i = Some (TSettled r).
Proof. induction ms as [|m ms IH]; intros w Hi; [done|]. rewrite runs_cons. apply IH. by apply step_settled. Qed.

(** ** Safety *)

Definition patient_from (dbg chk : bool) (p : plat) (fresh : Z) (rust : nat → list val → outcome) (f : fn) (w : world) (ms : list move) : Prop :=
  ∀ ms1 a ms2 vs, ms = ms1 ++ MCollect a :: ms2 →
    TQueued vs ∈ tasks (runs dbg chk p fresh rust f w ms1).1 → ¬ uses vs a.
Lemma call_safe dbg chk p fresh rust f args sp w w' t r : call dbg chk p fresh rust f args sp w = (w', t, r) →
  dead w = None → liberal p f → Forall (js_ok p) args → (∀ vs a, reads chk p f args vs → uses vs a → a ∉ freed w) →
  dead w' ≠ Some Undefined.
Proof.
  intros HC Hd HL Ha HU. unfold call in HC. destruct (prepare chk p f args) as [vs| | |] eqn:EP.
  2-4: injection HC as <- _ _; cbn; rewrite ?Hd; try done; by apply prepare_liberal in EP.
  apply prepare_ok in EP as [HR _]. assert (HV : valid_args f vs) by by eapply liberal_valid.
  assert (HRun : ∀ g w1 o, run dbg g rust f w (length (tasks w)) vs = (w1, o) → dead w1 ≠ Some Undefined).
  { intros g w1 o HE. eapply run_safe; [exact HE|done|done|]. intros a. by apply HU. }
  destruct (mode f).
  - destruct (run dbg true rust f w (length (tasks w)) vs) as [w1 o] eqn:ER. pose proof (HRun _ _ _ ER).
    destruct o as [v|]; [destruct (to_napi _ _ _ _)|]; by injection HC as <- _ _.
  - destruct (is_wasm p).
    + destruct (run dbg true rust f w (length (tasks w)) vs) as [w1 o] eqn:ER. pose proof (HRun _ _ _ ER).
      destruct o as [v|]; [destruct (to_napi _ _ _ _)|]; by injection HC as <- _ _.
    + destruct sp; injection HC as <- _ _; by rewrite Hd.
  - destruct (run dbg false rust f w (length (tasks w)) vs) as [w1 o] eqn:ER. pose proof (HRun _ _ _ ER).
    destruct o as [v|]; [destruct (_ || _)|]; by injection HC as <- _ _.
Qed.
Lemma runs_safe dbg chk p fresh rust f ms : liberal p f → Forall (Forall (js_ok p)) (given ms) → ∀ w gone,
  dead w ≠ Some Undefined → (dead w = None → freed w = gone) →
  (∀ vs, TQueued vs ∈ tasks w → valid_args f vs ∧ ∀ a, uses vs a → a ∉ freed w) →
  lawful chk p f gone ms → patient_from dbg chk p fresh rust f w ms →
  dead (runs dbg chk p fresh rust f w ms).1 ≠ Some Undefined.
Proof.
  intros HL. induction ms as [|m ms IH]; intros HJ w gone Hd Hf HQ Hl Hp; [done|]. rewrite runs_cons.
  assert (HP : patient_from dbg chk p fresh rust f (step dbg chk p fresh rust f w m).1 ms).
  { intros ms1 a ms2 vs -> Hin. eapply (Hp (m :: ms1)); [done|]. by rewrite runs_cons. }
  destruct (dead w) as [d|] eqn:ED.
  { unfold step. rewrite ED. cbn [fst]. rewrite (runs_dead _ _ _ _ _ _ _ _ _ ED). by rewrite ED. }
  specialize (Hf eq_refl). subst gone.
  revert HP. unfold step. rewrite ED. destruct m as [args sp|i|i|a].
  - cbn [lawful given] in Hl, HJ. destruct Hl as [HU Hl]. apply Forall_cons in HJ as [Hj HJ].
    destruct (call dbg chk p fresh rust f args sp w) as [[w' t] r] eqn:EC. cbn [fst]. intros HP.
    pose proof (call_safe _ _ _ _ _ _ _ _ _ _ _ _ EC ED HL Hj HU) as Hs.
    apply call_spec in EC as (H1 & H2 & _ & H4 & _).
    apply (IH HJ _ (freed w)); [done|by intros _; cbn| |done|done].
    intros vs. cbn [set_tasks tasks freed]. rewrite H1, H2. intros [H|H]%elem_of_app; [by apply HQ|]. apply elem_of_list_singleton in H as <-.
    destruct H4 as (_ & _ & HR & _). split; [by eapply liberal_valid|]. intros a. by apply HU.
  - cbn [lawful given] in Hl, HJ.
    assert (HI : ∀ t vs, (∀ vs, t ≠ TQueued vs) → TQueued vs ∈ <[i:=t]> (tasks w) → TQueued vs ∈ tasks w).
    { intros t vs Hne (k & Hk)%elem_of_list_lookup. apply list_lookup_insert_Some in Hk as [(_ & H & _)|[_ Hk]]; [by apply Hne in H|by eapply elem_of_list_lookup_2]. }
    destruct (tasks w !! i) as [t|] eqn:Hi; [|cbn [fst]; intros HP; apply (IH HJ _ (freed w)); by rewrite ?ED].
    destruct t as [|vs|v|v|r]; try (cbn [fst]; intros HP; apply (IH HJ _ (freed w)); by rewrite ?ED).
    + destruct (HQ vs) as [HV HU]; [by eapply elem_of_list_lookup_2|].
      destruct (run dbg true rust f w i vs) as [w' o] eqn:ER. pose proof (run_safe _ _ _ _ _ _ _ _ _ ER ED HV HU) as Hs.
      apply run_spec in ER as (H1 & H2 & H3). destruct o as [v|]; cbn [fst]; intros HP.
      * apply (IH HJ _ (freed w)); [done|by intros _; cbn| |done|done]. cbn [set_tasks tasks freed]. rewrite H1, H2.
        intros ws Hws. apply HQ. by refine (HI _ _ _ Hws).
      * apply (IH HJ _ (freed w)); [done|done| |done|done]. rewrite H1, H2. done.
    + cbn [fst]. intros HP. apply (IH HJ _ (freed w)); [cbn; by rewrite ED|done| |done|done]. intros ws Hws. apply HQ. by refine (HI _ _ _ Hws).
  - cbn [lawful given] in Hl, HJ.
    assert (HI : ∀ t vs, (∀ vs, t ≠ TQueued vs) → TQueued vs ∈ <[i:=t]> (tasks w) → TQueued vs ∈ tasks w).
    { intros t vs Hne (k & Hk)%elem_of_list_lookup. apply list_lookup_insert_Some in Hk as [(_ & H & _)|[_ Hk]]; [by apply Hne in H|by eapply elem_of_list_lookup_2]. }
    destruct (tasks w !! i) as [t|] eqn:Hi; [|cbn [fst]; intros HP; apply (IH HJ _ (freed w)); by rewrite ?ED].
    destruct t as [|vs|v|v|r]; try (cbn [fst]; intros HP; apply (IH HJ _ (freed w)); by rewrite ?ED).
    destruct (to_napi _ _ _ _); cbn [fst]; intros HP; (apply (IH HJ _ (freed w)); [cbn; by rewrite ?ED|done| |done|done]);
      [intros ws Hws; apply HQ; by refine (HI _ _ _ Hws)..|done].
  - cbn [lawful given fst] in Hl, HJ |- *. intros HP. apply (IH HJ _ (a :: freed w)); [by rewrite ?ED|done| |done|done].
    cbn [tasks freed]. intros vs Hin. destruct (HQ vs Hin) as [HV HU]. split; [done|]. intros b Hb. rewrite elem_of_cons. intros [->|H].
    + by eapply (Hp [] a ms vs eq_refl Hin).
    + by eapply HU.
Qed.

(** ** The first argument that is not accepted *)

Lemma from_values_first chk p ps args : ∀ k i q, ps !! i = Some q →
  (∀ v, from_napi chk p (p_ty q) (arg args (k + i)) ≠ Ok v) →
  (∀ i' q', i' < i → ps !! i' = Some q' → ∃ v', from_napi chk p (p_ty q') (arg args (k + i')) = Ok v') →
  from_napi_values chk p k ps args = match from_napi chk p (p_ty q) (arg args (k + i)) with Panic => Panic | _ => Err end.
Proof.
  induction ps as [|q0 ps IH]; intros k i q Hq HN HB; [done|]. cbn [from_napi_values]. destruct i as [|i].
  - injection Hq as <-. rewrite Nat.add_0_r in *. destruct (from_napi _ _ _ _) as [v| |] eqn:E; [by destruct (HN v)|done..].
  - destruct (HB 0 q0) as [v Hv]; [lia|done|]. rewrite Nat.add_0_r in Hv. rewrite Hv.
    rewrite (IH (S k) i q).
    + rewrite Nat.add_succ_comm. by destruct (from_napi _ _ _ _).
    + done.
    + intros v'. rewrite Nat.add_succ_comm. apply HN.
    + intros i' q' Hi Hq'. rewrite Nat.add_succ_comm. apply (HB (S i')); [lia|done].
Qed.
Lemma future_args_first chk p ps args : ∀ k i q, ps !! i = Some q →
  (∀ v, from_napi chk p (p_ty q) (arg args (k + i)) ≠ Ok v) →
  (∀ i' q', i' < i → ps !! i' = Some q' → ∃ v', from_napi chk p (p_ty q') (arg args (k + i')) = Ok v' ∧ p_valid q' v' = true) →
  future_args chk p k ps args = match from_napi chk p (p_ty q) (arg args (k + i)) with Panic => PPanic | _ => PErr end.
Proof.
  induction ps as [|q0 ps IH]; intros k i q Hq HN HB; [done|]. cbn [future_args]. destruct i as [|i].
  - injection Hq as <-. rewrite Nat.add_0_r in *. destruct (from_napi _ _ _ _) as [v| |] eqn:E; [by destruct (HN v)|done..].
  - destruct (HB 0 q0) as (v & Hv & HV); [lia|done|]. rewrite Nat.add_0_r in Hv. rewrite Hv, HV.
    rewrite (IH (S k) i q).
    + rewrite Nat.add_succ_comm. by destruct (from_napi _ _ _ _).
    + done.
    + intros v'. rewrite Nat.add_succ_comm. apply HN.
    + intros i' q' Hi Hq'. rewrite Nat.add_succ_comm. apply (HB (S i')); [lia|done].
Qed.
