(** C64-C66: calls from JavaScript, promises, registration. *)

From Coq Require Import ZArith NArith Bool List String Lia.
From stdpp Require Import base numbers list.
From Verif Require Import JsNumModel JsNumSpec NapiModel NapiSpec NapiProps JsFnModel JsFnSpec JsFnProofs.
Local Open Scope nat_scope.

(** ** C64: calls *)

(** What is returned to JavaScript is what one call of the Rust function with
    the arguments given returned. *)
Theorem C64_returns dbg chk p fresh rust f w args sp w' j : dead w = None →
  step dbg chk p fresh rust f w (MCall args sp) = (w', RReturn j) →
  mode f = Plain ∧ dead w' = None ∧
  ∃ vs v, reads chk p f args vs ∧ valid_args f vs ∧ calls w' = calls w ++ [(length (tasks w), vs)] ∧
    rust (length (calls w)) vs = Returns v ∧ to_napi p fresh (ret f) v = Ok j.
Proof.
  intros Hd. unfold step. rewrite Hd. destruct (call dbg chk p fresh rust f args sp w) as [[w1 t] r] eqn:EC.
  intros [= <- ->]. apply call_spec in EC as (_ & _ & _ & _ & HM & HD & _ & v & (vs & ? & ? & ? & ?) & ?).
  split; [done|]. split; [cbn; by rewrite HD|]. by exists vs, v.
Qed.
(** If the arguments are values of the parameters and the function returns, so
    does the call. *)
Theorem C64_call dbg chk p fresh rust f w args sp vs v : dead w = None → mode f = Plain → typed p f rust →
  reads chk p f args vs → valid_args f vs → (∀ a, uses vs a → a ∉ freed w) → rust (length (calls w)) vs = Returns v →
  ∃ w' j, step dbg chk p fresh rust f w (MCall args sp) = (w', RReturn j) ∧ to_napi p fresh (ret f) v = Ok j.
Proof.
  intros Hd HM (Hp & Hw & HT) HR HV HU HV'. destruct (C56_total p fresh (ret f) v Hp Hw (HT _ _ _ HV')) as [j Hj].
  unfold step. rewrite Hd. unfold call. rewrite (prepare_reads _ _ _ _ vs HR) by (left; by rewrite HM). rewrite HM.
  unfold run. rewrite (proj2 (all_valid_ok f vs) HV). cbn [negb].
  destruct (dangling (freed w) vs) eqn:ED; [apply dangling_ok in ED as (a & H1 & H2); by apply HU in H1|].
  rewrite HV', Hj. by eexists _, j.
Qed.
(** It throws exactly when an argument is not a value of its parameter, and
    then calls nothing. *)
Theorem C64_throws dbg p fresh rust f w args sp : dead w = None → mode f = Plain → typed p f rust →
  let '(w', r) := step dbg false p fresh rust f w (MCall args sp) in
  (r = RThrow ↔ ¬ ∃ vs, reads false p f args vs) ∧ (r = RThrow → calls w' = calls w ∧ dead w' = None).
Proof.
  intros Hd HM (Hp & Hw & HT). unfold step. rewrite Hd. destruct (call dbg false p fresh rust f args sp w) as [[w1 t] r] eqn:EC.
  pose proof EC as HC. apply call_spec in HC as (_ & _ & _ & _ & HR).
  assert (HThrow : r = RThrow → calls w1 = calls w ∧ (∀ vs, ¬ reads false p f args vs) ∧ dead w1 = None).
  { intros ->. destruct HR as (HD & _ & [[? ?]|[(_ & ? & _)|[(? & _)|(v & (vs & _ & _ & _ & HV) & HE)]]]); [by rewrite HD|congruence..|].
    destruct (C56_total p fresh (ret f) v Hp Hw (HT _ _ _ HV)). congruence. }
  split; [split|].
  - intros (_ & H & _)%HThrow (vs & HRd). by apply H in HRd.
  - intros HN. unfold call in EC. destruct (prepare false p f args) as [vs| | |] eqn:EP.
    + destruct HN. exists vs. by apply prepare_ok in EP as [? _].
    + by injection EC.
    + by apply prepare_panic in EP.
    + apply prepare_invalid in EP as [? _]. congruence.
  - intros (? & _ & ?)%HThrow. done.
Qed.
(** In any history of calls, each runs the Rust function at most once, and only
    on what its own arguments are as values of the parameters. *)
Theorem C64_once dbg chk p fresh rust f ms : let w := (runs dbg chk p fresh rust f init ms).1 in
  NoDup (calls w).*1 ∧
  ∀ k i vs, calls w !! k = Some (i, vs) → valid_args f vs ∧ ∃ args, given ms !! i = Some args ∧ reads chk p f args vs.
Proof.
  intros w. destruct (runs_inv dbg chk p fresh rust f ms) as [_ _ _ HC HN]. split; [done|]. intros k i vs Hk.
  by apply HC in Hk as (_ & ? & ?).
Qed.
(** Arguments past the last parameter are not looked at, those that are missing
    are undefined. *)
Theorem C64_extra dbg chk p fresh rust f w args more sp : length (params f) ≤ length args →
  step dbg chk p fresh rust f w (MCall (args ++ more) sp) = step dbg chk p fresh rust f w (MCall args sp).
Proof.
  intros HL. unfold step, call, prepare, convert.
  assert (HA : ∀ i, i < length args → arg (args ++ more) i = arg args i) by (intros i Hi; unfold arg; by rewrite lookup_app_l).
  assert (H1 : ∀ ps i, i + length ps ≤ length args → from_napi_values chk p i ps (args ++ more) = from_napi_values chk p i ps args).
  { induction ps as [|q ps IH]; intros i Hi; [done|]. cbn [from_napi_values length] in *. rewrite HA by lia. by rewrite IH by lia. }
  assert (H2 : ∀ ps i, i + length ps ≤ length args → future_args chk p i ps (args ++ more) = future_args chk p i ps args).
  { induction ps as [|q ps IH]; intros i Hi; [done|]. cbn [future_args length] in *. rewrite HA by lia. by rewrite IH by lia. }
  assert (H3 : ∀ ps i, i + length ps ≤ length args → kinds_ok p i ps (args ++ more) = kinds_ok p i ps args).
  { induction ps as [|q ps IH]; intros i Hi; [done|]. cbn [kinds_ok length] in *. rewrite HA by lia. by rewrite IH by lia. }
  by rewrite H1, H2, H3 by (cbn; lia).
Qed.
Theorem C64_missing dbg chk p fresh rust f w args n sp :
  step dbg chk p fresh rust f w (MCall (args ++ repeat JUndefined n) sp) = step dbg chk p fresh rust f w (MCall args sp).
Proof.
  unfold step, call, prepare, convert.
  assert (HA : ∀ i, arg (args ++ repeat JUndefined n) i = arg args i).
  { intros i. unfold arg. destruct (decide (i < length args)) as [Hi|Hi]; [by rewrite lookup_app_l|].
    rewrite lookup_app_r by lia. rewrite (lookup_ge_None_2 args i) by lia.
    destruct (repeat JUndefined n !! (i - length args)) as [j|] eqn:E; [|done].
    apply elem_of_list_lookup_2, elem_of_list_In, repeat_spec in E. by rewrite E. }
  assert (H1 : ∀ ps i, from_napi_values chk p i ps (args ++ repeat JUndefined n) = from_napi_values chk p i ps args).
  { induction ps as [|q ps IH]; intros i; [done|]. cbn [from_napi_values]. by rewrite HA, IH. }
  assert (H2 : ∀ ps i, future_args chk p i ps (args ++ repeat JUndefined n) = future_args chk p i ps args).
  { induction ps as [|q ps IH]; intros i; [done|]. cbn [future_args]. by rewrite HA, IH. }
  assert (H3 : ∀ ps i, kinds_ok p i ps (args ++ repeat JUndefined n) = kinds_ok p i ps args).
  { induction ps as [|q ps IH]; intros i; [done|]. cbn [kinds_ok]. by rewrite HA, IH. }
  by rewrite H1, H2, H3.
Qed.
(** Whatever the kind of function and of build: the first argument that is not
    accepted decides (on Node.js, of those of the kinds expected), and nothing is
    called.  It makes the call throw, or panic if its conversion does. *)
Theorem C64_first dbg chk p fresh rust f w args sp i q : dead w = None →
  is_wasm p = true ∨ (∀ i q, params f !! i = Some q → has_kind (kind_of p (p_ty q)) (default JUndefined (args !! i)) = true) →
  params f !! i = Some q → (∀ v, from_napi chk p (p_ty q) (default JUndefined (args !! i)) ≠ Ok v) →
  (∀ i' q', i' < i → params f !! i' = Some q' →
     ∃ v', from_napi chk p (p_ty q') (default JUndefined (args !! i')) = Ok v' ∧ (mode f = Future → p_valid q' v' = true)) →
  let '(w', r) := step dbg chk p fresh rust f w (MCall args sp) in
  calls w' = calls w ∧
  match from_napi chk p (p_ty q) (default JUndefined (args !! i)) with
  | Panic => dead w' = Some Unwound ∧ r = RNothing
  | _ => dead w' = None ∧ r = RThrow
  end.
Proof.
  intros Hd HK Hq HN HB.
  assert (HP : prepare chk p f args = match from_napi chk p (p_ty q) (arg args i) with Panic => PPanic | _ => PErr end).
  { assert (HK' : is_wasm p || kinds_ok p 0 (params f) args = true).
    { destruct HK as [->|HK]; [done|]. apply orb_true_iff. right. apply kinds_ok_iff. exact HK. }
    unfold prepare. destruct (mode f) eqn:EM.
    3: { rewrite HK'. apply (future_args_first chk p (params f) args 0 i q); [done|done|].
         intros i' q' Hi Hq'. destruct (HB _ _ Hi Hq') as (v' & H1 & H2). eauto. }
    all: assert (HC : convert chk p (params f) args = match from_napi chk p (p_ty q) (arg args i) with Panic => Panic | _ => Err end);
      [|rewrite HC; by destruct (from_napi chk p (p_ty q) (arg args i))].
    all: assert (HV : from_napi_values chk p 0 (params f) args = match from_napi chk p (p_ty q) (arg args i) with Panic => Panic | _ => Err end);
      [apply (from_values_first chk p (params f) args 0 i q); [done|done|];
       intros i' q' Hi Hq'; destruct (HB _ _ Hi Hq') as (v' & H1 & H2); eauto|].
    all: unfold convert; destruct p; [|exact HV]; cbn [is_wasm orb] in HK'; by rewrite HK'. }
  unfold step. rewrite Hd. unfold call. rewrite HP. fold (arg args i).
  destruct (from_napi chk p (p_ty q) (arg args i)); cbn; by rewrite ?Hd.
Qed.
(** When a call is undefined behaviour: on values that are not of the Rust
    types, without debug assertions, and on buffers that were collected. *)
Theorem C64_undefined dbg chk p fresh rust f w args sp : dead w = None → mode f = Plain →
  dead (step dbg chk p fresh rust f w (MCall args sp)).1 = Some Undefined ↔
  ∃ vs, reads chk p f args vs ∧ (dbg = false ∧ ¬ valid_args f vs ∨ valid_args f vs ∧ ∃ a, uses vs a ∧ a ∈ freed w).
Proof.
  intros Hd HM. unfold step. rewrite Hd. unfold call. destruct (prepare chk p f args) as [vs| | |] eqn:EP.
  - apply prepare_ok in EP as [HR _]. rewrite HM. destruct (run dbg true rust f w (length (tasks w)) vs) as [w1 o] eqn:ER.
    transitivity (dead w1 = Some Undefined).
    { apply run_spec in ER as (_ & _ & HO). destruct o as [v|]; [|done]. destruct HO as (HD & _).
      destruct (to_napi _ _ _ _); cbn; rewrite ?HD, ?Hd; done. }
    split.
    + intros HD. exists vs. split; [done|]. apply run_spec in ER as (_ & _ & HO). destruct o as [v|].
      * destruct HO as (HD' & _). congruence.
      * destruct HO as [(_ & _ & HO)|(HD' & _)]; [done|congruence].
    + intros (vs' & HR' & HO). pose proof (reads_det _ _ _ _ _ _ HR HR') as <-. unfold run in ER.
      destruct HO as [[-> HV]|[HV HU]].
      * destruct (all_valid (params f) vs) eqn:EV; [by apply all_valid_ok in EV|]. by injection ER as <- _.
      * rewrite (proj2 (all_valid_ok f vs) HV) in ER. cbn [negb] in ER. rewrite (proj2 (dangling_ok _ _) HU) in ER. by injection ER as <- _.
  - cbn. rewrite Hd. split; [done|]. intros (vs & HR & _). by eapply prepare_err in EP.
  - split; [done|]. intros (vs & HR & _). erewrite prepare_reads in EP; [done|done|]. left. by rewrite HM.
  - apply prepare_invalid in EP as [? _]. congruence.
Qed.
(** For an async function, which makes its arguments values of the Rust types
    one by one: also if a later one is not accepted. *)
Theorem C64_undefined_async dbg chk p fresh rust f w args sp : dead w = None → mode f = Future →
  dead (step dbg chk p fresh rust f w (MCall args sp)).1 = Some Undefined ↔
  (∃ vs, reads chk p f args vs ∧ valid_args f vs ∧ ∃ a, uses vs a ∧ a ∈ freed w) ∨
  dbg = false ∧ (is_wasm p = true ∨ ∀ i q, params f !! i = Some q → has_kind (kind_of p (p_ty q)) (default JUndefined (args !! i)) = true) ∧
  ∃ i q v, params f !! i = Some q ∧ from_napi chk p (p_ty q) (default JUndefined (args !! i)) = Ok v ∧ p_valid q v = false ∧
    ∀ i' q', i' < i → params f !! i' = Some q' → ∃ v', from_napi chk p (p_ty q') (default JUndefined (args !! i')) = Ok v' ∧ p_valid q' v' = true.
Proof.
  intros Hd HM. unfold step. rewrite Hd. unfold call. destruct (prepare chk p f args) as [vs| | |] eqn:EP.
  - pose proof EP as HP. apply prepare_ok in HP as [HR HV]. specialize (HV HM). rewrite HM.
    destruct (run dbg false rust f w (length (tasks w)) vs) as [w1 o] eqn:ER.
    transitivity (dead w1 = Some Undefined).
    { apply run_spec in ER as (_ & _ & HO). destruct o as [v|]; [|done]. by destruct (_ || _). }
    split.
    + intros HD. left. exists vs. split; [done|]. apply run_spec in ER as (_ & _ & HO). destruct o as [v|].
      * destruct HO as (HD' & _). congruence.
      * destruct HO as [(_ & _ & [[_ HO]|HO])|(HD' & _)]; [done|done|congruence].
    + intros [(vs' & HR' & _ & HU)|(_ & _ & HI)].
      * pose proof (reads_det _ _ _ _ _ _ HR HR') as <-. unfold run in ER.
        rewrite (proj2 (all_valid_ok f vs) HV) in ER. cbn [negb] in ER. rewrite (proj2 (dangling_ok _ _) HU) in ER. by injection ER as <- _.
      * exfalso. destruct HI as (i & q & v & Hq & HF & HN & _). destruct HR as [HL HR]. destruct HV as [_ HV].
        destruct (lookup_lt_is_Some_2 vs i) as [v' Hv']; [rewrite HL; by eapply lookup_lt_Some|].
        pose proof (HR _ _ _ Hq Hv') as HF'. pose proof (HV _ _ _ Hq Hv'). congruence.
  - cbn. rewrite Hd. split; [done|]. intros [(vs & HR & _)|(_ & HK & HI)]; [by eapply prepare_err in EP|].
    assert (prepare chk p f args = PInvalid); [by apply prepare_invalid_async|congruence].
  - split; [done|]. intros [(vs & HR & HV & _)|(_ & HK & HI)]; [erewrite prepare_reads in EP; [done|done|by right]|].
    assert (prepare chk p f args = PInvalid); [by apply prepare_invalid_async|congruence].
  - apply prepare_invalid_async in EP as [HK HI]; [|done]. cbn. split.
    + destruct dbg; [done|]. intros _. by right.
    + intros [(vs & HR & HV & _)|(-> & _)]; [|done]. exfalso.
      assert (prepare chk p f args = POk vs) by (apply prepare_reads; auto).
      assert (prepare chk p f args = PInvalid); [by apply prepare_invalid_async|congruence].
Qed.
(** No arguments are undefined behaviour for functions all of whose parameters
    take all values of their C types (not references, say). *)
Theorem C64_safe_partial dbg chk p fresh rust f w args sp : dead w = None → liberal p f → Forall (js_ok p) args →
  (∀ vs a, reads chk p f args vs → uses vs a → a ∉ freed w) →
  dead (step dbg chk p fresh rust f w (MCall args sp)).1 ≠ Some Undefined.
Proof.
  intros Hd HL Ha HU. unfold step. rewrite Hd. destruct (call dbg chk p fresh rust f args sp w) as [[w1 t] r] eqn:EC.
  cbn. by eapply call_safe.
Qed.
(** [null] for a reference is. *)
Definition int := PBase (chars "int32_t").
Definition ref_int : param := Param (TPtr true int) (λ v, match v with VPtr a => negb (Z.eqb a 0) | _ => false end).
Definition node : plat := Node (λ _, 0%Z) 64.
Theorem C64_null_refuted : ∃ p fresh rust f args, Forall (js_ok p) args ∧ typed p f rust ∧
  dead (step false false p fresh rust f init (MCall args true)).1 = Some Undefined.
Proof.
  exists node, 0%Z, (λ _ _, Returns VUnit), (Fn [ref_int] TVoid Plain), [JNull]. split; [by repeat constructor|].
  split; [|by vm_compute]. split; [by vm_compute|]. split; [done|]. by intros k vs v [= <-].
Qed.

(** ** C65: promises *)

(** What a promise is at any time tells what was done. *)
Theorem C65_promise dbg chk p fresh rust f ms i t : let w := (runs dbg chk p fresh rust f init ms).1 in
  tasks w !! i = Some t → t ≠ TNone →
  ∃ args, given ms !! i = Some args ∧
  match t with
  | TNone => False
  | TQueued vs => reads chk p f args vs ∧ (dead w = None → i ∉ (calls w).*1)
  | TFuture v | TDone v => ∃ k vs, reads chk p f args vs ∧ valid_args f vs ∧ calls w !! k = Some (i, vs) ∧ rust k vs = Returns v
  | TSettled (Some j) => ∃ k vs v, reads chk p f args vs ∧ valid_args f vs ∧ calls w !! k = Some (i, vs) ∧ rust k vs = Returns v ∧ to_napi p fresh (ret f) v = Ok j
  | TSettled None => ∃ k vs v, reads chk p f args vs ∧ valid_args f vs ∧ calls w !! k = Some (i, vs) ∧ rust k vs = Returns v ∧ to_napi p fresh (ret f) v = Err
  end.
Proof.
  intros w Hi Ht. destruct (runs_inv dbg chk p fresh rust f ms) as [_ _ HT HC _]. fold w in HT, HC. specialize (HT _ _ Hi).
  assert (HR : ∀ v, ran chk p rust f (given ms) w i v → ∃ args, given ms !! i = Some args ∧
    ∃ k vs, reads chk p f args vs ∧ valid_args f vs ∧ calls w !! k = Some (i, vs) ∧ rust k vs = Returns v).
  { intros v (k & vs & Hk & Hv). destruct (HC _ _ _ Hk) as (_ & ? & args & ? & ?). exists args. split; [done|]. by exists k, vs. }
  destruct t as [|vs|v|v|[j|]]; cbn [task_ok] in HT.
  - done.
  - destruct HT as (_ & _ & (args & ? & ?) & ?). by exists args.
  - by apply HR.
  - by apply HR.
  - destruct HT as (v & (args & ? & k & vs & ? & ? & ? & ?)%HR & ?). exists args. split; [done|]. by exists k, vs, v.
  - destruct HT as (v & (args & ? & k & vs & ? & ? & ? & ?)%HR & ?). exists args. split; [done|]. by exists k, vs, v.
Qed.
(** What a call gives is its own promise, and it never changes once settled. *)
Theorem C65_own dbg chk p fresh rust f w args sp w' i : dead w = None →
  step dbg chk p fresh rust f w (MCall args sp) = (w', RPromise i) →
  mode f ≠ Plain ∧ i = length (tasks w) ∧ ∃ t, tasks w' = tasks w ++ [t] ∧ t ≠ TNone.
Proof.
  intros Hd. unfold step. rewrite Hd. destruct (call dbg chk p fresh rust f args sp w) as [[w1 t] r] eqn:EC.
  intros [= <- ->]. apply call_spec in EC as (HT & _ & _ & _ & -> & HM & Ht). split; [done|]. split; [done|].
  exists t. cbn. by rewrite HT.
Qed.
Theorem C65_stable dbg chk p fresh rust f w ms i r : tasks w !! i = Some (TSettled r) →
  tasks (runs dbg chk p fresh rust f w ms).1 !! i = Some (TSettled r).
Proof. apply runs_settled. Qed.
(** No promise is rejected if the function returns values of its type. *)
Theorem C65_resolved dbg chk p fresh rust f ms i : typed p f rust →
  tasks (runs dbg chk p fresh rust f init ms).1 !! i ≠ Some (TSettled None).
Proof.
  intros (Hp & Hw & HT) Hi. apply C65_promise in Hi as (args & _ & k & vs & v & _ & _ & _ & HV & HE); [|done].
  destruct (C56_total p fresh (ret f) v Hp Hw (HT _ _ _ HV)). congruence.
Qed.
(** A promise is settled once its function was run and the main thread was
    told: any promise that waits can be settled, unless the function panics. *)
Theorem C65_settles dbg chk p fresh rust f w i t : dead w = None → typed p f rust → tasks w !! i = Some t →
  match t with
  | TQueued vs => valid_args f vs ∧ (∀ a, uses vs a → a ∉ freed w) ∧ ∃ v, rust (length (calls w)) vs = Returns v
  | TFuture v | TDone v => has_type p (ret f) v
  | _ => False
  end →
  ∃ v j, match t with TQueued vs => rust (length (calls w)) vs = Returns v | TFuture u | TDone u => u = v | _ => False end ∧
    to_napi p fresh (ret f) v = Ok j ∧ let w' := (runs dbg chk p fresh rust f w [MWork i; MSettle i]).1 in
    dead w' = None ∧ tasks w' = <[i := TSettled (Some j)]> (tasks w).
Proof.
  intros Hd (Hp & Hw & HT) Hi Ht.
  assert (HS : ∀ v w1, has_type p (ret f) v → dead w1 = None → tasks w1 = <[i := TDone v]> (tasks w) →
    step dbg chk p fresh rust f w (MWork i) = (w1, RNothing) → ∃ j, to_napi p fresh (ret f) v = Ok j ∧
    let w' := (runs dbg chk p fresh rust f w [MWork i; MSettle i]).1 in dead w' = None ∧ tasks w' = <[i := TSettled (Some j)]> (tasks w)).
  { intros v w1 Hv Hd1 Ht1 HE. destruct (C56_total p fresh (ret f) v Hp Hw Hv) as [j Hj]. exists j. split; [done|].
    cbn [runs]. rewrite HE. unfold step. rewrite Hd1, Ht1. rewrite list_lookup_insert by by eapply lookup_lt_Some. rewrite Hj.
    cbn [fst set_tasks tasks dead]. split; [done|]. by rewrite list_insert_insert. }
  destruct t as [|vs|v|v|r]; try done.
  - destruct Ht as (HV & HU & v & Hv). exists v.
    destruct (HS v (World (<[i := TDone v]> (tasks w)) (freed w) (calls w ++ [(i, vs)]) None)) as (j & Hj & Hw'); [by eapply HT|done|done| |].
    + unfold step. rewrite Hd, Hi. unfold run. rewrite (proj2 (all_valid_ok f vs) HV). cbn [negb].
      destruct (dangling (freed w) vs) eqn:ED; [apply dangling_ok in ED as (a & H1 & H2); by apply HU in H1|].
      rewrite Hv. unfold set_tasks. cbn. by rewrite Hd.
    + exists j. done.
  - exists v. destruct (HS v (set_tasks w (<[i := TDone v]> (tasks w)))) as (j & Hj & Hw'); [done|done|done| |].
    + unfold step. by rewrite Hd, Hi.
    + exists j. done.
  - exists v. destruct (HS v w) as (j & Hj & Hw'); [done|done| | |].
    + by rewrite list_insert_id.
    + unfold step. by rewrite Hd, Hi.
    + exists j. done.
Qed.
(** No history is undefined behaviour, if buffers are not given to calls once
    collected, nor collected while a task waits that was given them. *)
Theorem C65_safe_partial dbg chk p fresh rust f ms : liberal p f → Forall (Forall (js_ok p)) (given ms) →
  lawful chk p f [] ms → patient dbg chk p fresh rust f ms →
  dead (runs dbg chk p fresh rust f init ms).1 ≠ Some Undefined.
Proof. intros HL HJ Hl Hp. apply (runs_safe _ _ _ _ _ _ _ HL HJ init []); try done. by intros vs ?%elem_of_nil. Qed.
(** The latter is not needed for async functions, nor on wasm. *)
Theorem C65_collect_safe dbg chk p fresh rust f ms : mode f ≠ Worker ∨ is_wasm p = true → liberal p f →
  Forall (Forall (js_ok p)) (given ms) → lawful chk p f [] ms →
  dead (runs dbg chk p fresh rust f init ms).1 ≠ Some Undefined.
Proof.
  intros HM HL HJ Hl. apply C65_safe_partial; [done..|]. intros ms1 a ms2 vs _ (i & Hi)%elem_of_list_lookup.
  destruct (runs_inv dbg chk p fresh rust f ms1) as [_ _ HT _ _]. destruct (HT _ _ Hi) as (? & ? & _). by destruct HM; [|congruence].
Qed.
(** On Node.js nothing keeps the buffers that a task of [async_worker] was
    given. *)
Definition u8 := PBase (chars "uint8_t").
Definition bytes : param := Param (TStruct true [(chars "ptr", TPtr true u8); (chars "len", TSize false); (chars "_lt", TVoid)]) (λ _, true).
Theorem C65_alive_refuted : ∃ p fresh rust f ms, mode f = Worker ∧ liberal p f ∧ typed p f rust ∧
  Forall (Forall (js_ok p)) (given ms) ∧ lawful false p f [] ms ∧
  dead (runs false false p fresh rust f init ms).1 = Some Undefined.
Proof.
  exists node, 0%Z, (λ _ _, Returns VUnit), (Fn [bytes] TVoid Worker), [MCall [JBuf 4096 [1%N]] true; MCollect 4096; MWork 0].
  split; [done|]. split; [|split; [|split; [|split; [|by vm_compute]]]].
  - split; [by vm_compute|]. intros q ->%elem_of_list_singleton. split; [|done]. split; [intros _; by eexists _, _, _|].
    split; [|done]. apply (bool_decide_unpack _). vm_compute. exact I.
  - split; [by vm_compute|]. split; [done|]. by intros k vs v [= <-].
  - constructor; [|constructor]. constructor; [|constructor]. split; by vm_compute.
  - split; [|done]. by intros vs a _ _ ?%elem_of_nil.
Qed.

(** ** C66: registration *)

Definition lookup_export {M} (exports : list (text * M)) (name : text) : option M :=
  snd <$> List.find (λ e, bool_decide (e.1 = name)) exports.
Lemma find_app {A} (g : A → bool) l l' : List.find g (l ++ l') = match List.find g l with Some x => Some x | None => List.find g l' end.
Proof. induction l as [|x l IH]; cbn [List.find app]; [done|]. by destruct (g x). Qed.
Lemma lookup_define {M} (es : list (text * M)) n m k :
  lookup_export (define es n m) k = if decide (k = n) then Some m else lookup_export es k.
Proof.
  unfold lookup_export, define. rewrite find_app. cbn [List.find].
  destruct (decide (k = n)) as [->|Hne].
  - rewrite (bool_decide_eq_true_2 (n = n)) by done.
    assert (HF : List.find (λ e : text * M, bool_decide (e.1 = n)) (List.filter (λ e, negb (bool_decide (e.1 = n))) es) = None).
    { induction es as [|[n' m'] es IH]; [done|]. cbn [List.filter fst]. destruct (bool_decide (n' = n)) eqn:E; cbn [negb]; [done|].
      cbn [List.find fst]. by rewrite E. }
    by rewrite HF.
  - rewrite (bool_decide_eq_false_2 (n = k)) by done.
    assert (HF : List.find (λ e : text * M, bool_decide (e.1 = k)) (List.filter (λ e, negb (bool_decide (e.1 = n))) es) = List.find (λ e, bool_decide (e.1 = k)) es).
    { induction es as [|[n' m'] es IH]; [done|]. cbn [List.filter fst]. destruct (bool_decide_reflect (n' = n)) as [->|H1]; cbn [negb List.find fst].
      - rewrite IH. by rewrite (bool_decide_eq_false_2 (n = k)).
      - by rewrite IH. }
    rewrite HF. by destruct (List.find _ es).
Qed.
(** The method of a name is that of the last entry of the name that N-API took. *)
Lemma lookup_register {M} made (entries : list (text * M)) : ∀ i es k,
  lookup_export (register made i entries es) k =
  match last (List.filter (λ e : nat * (text * M), made (i + e.1) && bool_decide (e.2.1 = k)) (imap pair entries)) with
  | Some e => Some e.2.2
  | None => lookup_export es k
  end.
Proof.
  induction entries as [|[n m] entries IH] using rev_ind; intros i es k; [done|].
  assert (HR : ∀ l i es, register made i (l ++ [(n, m)]) es = if made (i + length l) then define (register made i l es) n m else register made i l es).
  { clear. induction l as [|[n' m'] l IH]; intros i es; cbn [register app length]; [by rewrite Nat.add_0_r|].
    rewrite IH. by rewrite Nat.add_succ_comm. }
  rewrite HR, imap_app. cbn [imap]. assert (HF : ∀ A (g : A → bool) l l', List.filter g (l ++ l') = List.filter g l ++ List.filter g l').
  { intros A g l l'. induction l as [|x l IHl]; [done|]. cbn [List.filter app]. rewrite IHl. by destruct (g x). }
  rewrite HF. cbn [List.filter fst snd compose]. rewrite Nat.add_0_r.
  destruct (made (i + length entries)); cbn [andb]; [|by rewrite app_nil_r].
  rewrite lookup_define. destruct (decide (k = n)) as [->|Hne].
  - rewrite bool_decide_eq_true_2 by done. by rewrite last_snoc.
  - rewrite bool_decide_eq_false_2 by done. by rewrite app_nil_r.
Qed.
(** With names of their own, in whichever order, each name is the function that
    has it, and there are no others. *)
Theorem C66_exact {M} made (entries : list (text * M)) k m : (∀ i, made i = true) → NoDup entries.*1 →
  lookup_export (register made 0 entries []) k = Some m ↔ (k, m) ∈ entries.
Proof.
  intros Hm. rewrite lookup_register. induction entries as [|[n m'] entries IH] using rev_ind; intros HN.
  { split; [done|by intros ?%elem_of_nil]. }
  rewrite fmap_app in HN. apply NoDup_app in HN as (HN & HD & _). specialize (IH HN).
  assert (HF : ∀ A (g : A → bool) l l', List.filter g (l ++ l') = List.filter g l ++ List.filter g l').
  { intros A g l l'. induction l as [|x l IHl]; [done|]. cbn [List.filter app]. rewrite IHl. by destruct (g x). }
  rewrite imap_app, HF. cbn [imap List.filter fst snd compose]. rewrite Hm. cbn [andb]. rewrite elem_of_app, elem_of_list_singleton.
  destruct (bool_decide_reflect (n = k)) as [->|Hne].
  - rewrite last_snoc. cbn [snd]. split; [intros [= ->]; by right|]. intros [H|[= ->]]; [|done].
    destruct (HD k); [apply elem_of_list_fmap; by exists (k, m)|cbn; apply elem_of_list_singleton; done].
  - rewrite app_nil_r, IH. split; [by left|]. intros [H|[= -> _]]; done.
Qed.
Theorem C66_order {M} made made' (entries entries' : list (text * M)) k : (∀ i, made i = true) → (∀ i, made' i = true) →
  NoDup entries.*1 → entries ≡ₚ entries' → lookup_export (register made 0 entries []) k = lookup_export (register made' 0 entries' []) k.
Proof.
  intros Hm Hm' HN HP. assert (HN' : NoDup entries'.*1) by by rewrite <-HP.
  destruct (lookup_export (register made 0 entries []) k) as [m|] eqn:E.
  - symmetry. apply C66_exact; [done|done|]. rewrite <-HP. by apply C66_exact in E.
  - destruct (lookup_export (register made' 0 entries' []) k) as [m|] eqn:E'; [|done].
    apply C66_exact in E'; [|done..]. rewrite <-HP in E'. apply C66_exact with (made := made) in E'; [congruence|done..].
Qed.
(** What is registered without error is exported, but under a name that was
    used twice one of the functions is not; nothing tells. *)
Theorem C66_name {M} made (entries : list (text * M)) k : (∀ i, made i = true) → k ∈ entries.*1 →
  ∃ m, lookup_export (register made 0 entries []) k = Some m ∧ (k, m) ∈ entries.
Proof.
  intros Hm. rewrite lookup_register. induction entries as [|[n m] entries IH] using rev_ind; [by intros ?%elem_of_nil|].
  assert (HF : ∀ A (g : A → bool) l l', List.filter g (l ++ l') = List.filter g l ++ List.filter g l').
  { intros A g l l'. induction l as [|x l IHl]; [done|]. cbn [List.filter app]. rewrite IHl. by destruct (g x). }
  rewrite fmap_app, elem_of_app. rewrite imap_app, HF. cbn [imap List.filter fst snd compose]. rewrite Hm. cbn [andb].
  destruct (bool_decide_reflect (n = k)) as [->|Hne].
  - intros _. rewrite last_snoc. exists m. split; [done|]. apply elem_of_app. right. by apply elem_of_list_singleton.
  - rewrite app_nil_r. intros [H|H]; [|cbn in H; apply elem_of_list_singleton in H; congruence].
    destruct (IH H) as (m' & ? & ?). exists m'. split; [done|]. apply elem_of_app. by left.
Qed.
Theorem C66_twice_refuted : ∃ entries : list (text * nat), NoDup entries ∧
  ∃ e, e ∈ entries ∧ ∀ made k, (∀ i, made i = true) → lookup_export (register made 0 entries []) k ≠ Some e.2.
Proof.
  exists [(chars "f", 1); (chars "f", 2)]. split; [apply (bool_decide_unpack _); vm_compute; exact I|].
  exists (chars "f", 1). split; [by left|]. intros made k Hm. cbn [register]. rewrite !Hm, lookup_define.
  destruct (decide (k = chars "f")) as [->|Hne]; [done|]. by rewrite lookup_define, decide_False by done.
Qed.
Theorem C66_failed_refuted : ∃ made (entries : list (text * nat)) k, NoDup entries.*1 ∧ k ∈ entries.*1 ∧
  lookup_export (register made 0 entries []) k = None.
Proof.
  exists (λ _, false), [(chars "f", 1)], (chars "f"). split; [apply NoDup_singleton|]. split; [by left|done].
Qed.

(** ** Examples *)

(** [fn add(a: i32, b: &i32)]: called with an int and a pointer. *)
Definition add (h : how) : fn := Fn [Param (TSmall true 32) (λ _, true); ref_int] (TSmall true 32) h.
Definition add_rust : nat → list val → outcome := λ _ vs, match vs with [VInt z; VPtr _] => Returns (VInt z) | _ => Unwinds end.
Definition ptr4096 : js := JObj [(chars "addr", JNum (of_Z 4096)); (chars "type", JStr (chars "int32_t const *"))].
Example C64_example :
  step false true node 0 add_rust (add Plain) init (MCall [JNum (of_Z 7); ptr4096; JNull] true) =
    (World [TNone] [] [(0, [VInt 7; VPtr 4096])] None, RReturn (JNum (of_Z 7))) ∧
  (step false true node 0 add_rust (add Plain) init (MCall [JNum (of_Z 7)] true)).2 = RThrow ∧
  dead (step true true node 0 add_rust (add Plain) init (MCall [JNum (of_Z 7); JNull] true)).1 = Some Aborted ∧
  dead (step true true node 0 add_rust (add Future) init (MCall [JNum (of_Z 7); JNull] true)).1 = Some Unwound.
Proof. split_and!; vm_compute; reflexivity. Qed.
(** [async fn f(a: i32, s: char_p::Ref)]: an empty buffer for a string; a
    boolean for one. *)
Definition str_ref : param := Param (TPtr true (PBase (chars "char"))) (λ v, match v with VPtr a => negb (Z.eqb a 0) | _ => false end).
Definition print (h : how) : fn := Fn [Param (TSmall true 32) (λ _, true); str_ref] (TSmall true 32) h.
Example C64_first_example :
  step false true node 0 add_rust (print Future) init (MCall [JNum (of_Z 7); JBuf 4096 []] true) =
    (World [TNone] [] [] (Some Unwound), RNothing) ∧
  step false true node 0 add_rust (print Worker) init (MCall [JNum (of_Z 7); JBuf 4096 []] true) =
    (World [TNone] [] [] (Some Unwound), RNothing) ∧
  step false false node 0 add_rust (print Future) init (MCall [JNum (of_Z 7); JBuf 4096 []] true) = (World [TNone] [] [] None, RThrow) ∧
  step false true (Wasm (λ _, of_Z 0)) 0 add_rust (print Future) init (MCall [JNum (of_Z 7); JBool true] true) = (World [TNone] [] [] None, RThrow).
Proof. split_and!; vm_compute; reflexivity. Qed.
(** The hypotheses of the theorems can be met. *)
Definition id32 (h : how) : fn := Fn [Param (TSmall true 32) (λ _, true); bytes] (TSmall true 32) h.
Definition id32_rust : nat → list val → outcome := λ _ vs, match vs with [VInt z; _] => if decide (in_range true 32 z) then Returns (VInt z) else Unwinds | _ => Unwinds end.
Example C64_hypotheses : typed node (id32 Plain) id32_rust ∧ liberal node (id32 Plain) ∧
  reads true node (id32 Plain) [JNum (of_Z 7); JBuf 4096 [1%N]] [VInt 7; VStruct [VPtr 4096; VInt 1; VUnit]] ∧
  valid_args (id32 Plain) [VInt 7; VStruct [VPtr 4096; VInt 1; VUnit]] ∧
  uses [VInt 7; VStruct [VPtr 4096; VInt 1; VUnit]] 4096.
Proof.
  split_and!.
  - split; [by vm_compute|]. split; [by vm_compute|]. intros k vs v. unfold id32_rust. destruct vs as [|[z| | | | |] [|? []]]; try done.
    destruct (decide _); [|done]. by intros [= <-].
  - split; [by vm_compute|]. intros q Hq. unfold id32 in Hq. cbn [params] in Hq. apply elem_of_cons in Hq as [->|Hq]; [by split; [vm_compute|]|].
    apply elem_of_list_singleton in Hq as ->. split; [|done].
    split; [intros _; by eexists _, _, _|]. split; [|done]. apply (bool_decide_unpack _). vm_compute. exact I.
  - apply convert_ok. vm_compute. reflexivity.
  - split; [done|]. intros [|[|i]] q v Hq Hv; cbn in Hq, Hv; simplify_eq; try done; by injection Hq as <-.
  - eexists. split; [right; left|]. eapply points_field; [left|constructor].
Qed.
(** Two tasks that end in the other order. *)
Example C65_example : let ms := [MCall [JNum (of_Z 7); JBuf 4096 [1%N]] true; MCall [JNum (of_Z 8); JBuf 4096 [1%N]] true;
    MWork 1; MSettle 1; MSettle 0; MWork 0; MCollect 4096; MSettle 0] in
  runs false true node 0 id32_rust (id32 Worker) init ms =
    (World [TSettled (Some (JNum (of_Z 7))); TSettled (Some (JNum (of_Z 8)))] [4096%Z]
       [(1, [VInt 8; VStruct [VPtr 4096; VInt 1; VUnit]]); (0, [VInt 7; VStruct [VPtr 4096; VInt 1; VUnit]])] None,
     [RPromise 0; RPromise 1; RNothing; RNothing; RNothing; RNothing; RNothing; RNothing]) ∧
  lawful true node (id32 Worker) [] ms ∧ patient false true node 0 id32_rust (id32 Worker) ms.
Proof.
  split_and!; [vm_compute; reflexivity| |].
  - cbn. split; [by intros vs a _ _ ?%elem_of_nil|]. split; [by intros vs a _ _ ?%elem_of_nil|done].
  - intros ms1 a ms2 vs HE. assert (HI : ms1 = [MCall [JNum (of_Z 7); JBuf 4096 [1%N]] true; MCall [JNum (of_Z 8); JBuf 4096 [1%N]] true;
      MWork 1; MSettle 1; MSettle 0; MWork 0]).
    { repeat (destruct ms1 as [|? ms1]; [try done|]; injection HE as <- HE); try done. by destruct ms1. }
    subst ms1. vm_compute. intros H. repeat (apply elem_of_cons in H as [H|H]; [done|]). by apply elem_of_nil in H.
Qed.
Example C66_example : let es := [(chars "f", 1); (chars "g", 2); (chars "h", 3)] in
  NoDup es.*1 ∧ lookup_export (register (λ _, true) 0 es []) (chars "g") = Some 2 ∧ lookup_export (register (λ _, true) 0 es []) (chars "k") = None.
Proof. split_and!; [apply (bool_decide_unpack _); vm_compute; exact I|vm_compute; reflexivity..]. Qed.

Print Assumptions C64_returns.
Print Assumptions C64_call.
Print Assumptions C64_throws.
Print Assumptions C64_once.
Print Assumptions C64_first.
Print Assumptions C64_extra.
Print Assumptions C64_missing.
Print Assumptions C64_undefined.
Print Assumptions C64_undefined_async.
Print Assumptions C64_safe_partial.
Print Assumptions C64_null_refuted.
Print Assumptions C65_promise.
Print Assumptions C65_own.
Print Assumptions C65_stable.
Print Assumptions C65_resolved.
Print Assumptions C65_settles.
Print Assumptions C65_safe_partial.
Print Assumptions C65_collect_safe.
Print Assumptions C65_alive_refuted.
Print Assumptions C66_exact.
Print Assumptions C66_order.
Print Assumptions C66_name.
Print Assumptions C66_twice_refuted.
Print Assumptions C66_failed_refuted.
