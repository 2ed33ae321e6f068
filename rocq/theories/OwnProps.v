(** Properties C34 (at run time), C35, C36 and C37: the life of values behind
    dynamic objects and closures. *)

From Coq Require Import List Bool Arith Lia String.
From stdpp Require Import base numbers list strings.
From Verif Require Import DynModel DynSpec DynProofs OwnModel OwnSpec OwnProofs OwnSim OwnLog.

Definition log (s : state) : list event := (s_heap s).2.

(** ** C35 *)

(** Every program that the compiler accepts runs, and what happens to the
    values is exactly what the handles it has say. *)
Theorem C35_exact os A : arun astart os = Some A →
  ∃ St, run start os = ROk St ∧ log St = expected_log astart os.
Proof.
  intros H. destruct (run_sim _ _ _ _ Inv_start Rel_start H) as (St & E & _ & L). by exists St.
Qed.
(** So: every value is destroyed at most once, after it was made, with no call
    in progress, and no call comes after; every call finds its value alive. *)
Theorem C35_life os A : arun astart os = Some A →
  ∃ St, run start os = ROk St ∧ sound_life (log St) ∧ sound_access (log St).
Proof.
  intros H. destruct (C35_exact _ _ H) as (St & E & L). exists St. rewrite L. split; [done|].
  split; [by eapply log_life|by eapply log_access].
Qed.
(** At any moment the values without owner are those destroyed, once. *)
Theorem C35_owners os A : arun astart os = Some A →
  ∃ St, run start os = ROk St ∧ ∀ a,
    tally (λ e, match e with EDestroy b => Nat.eqb b a | _ => false end) (log St)
    = if bool_decide (a < next A) && bool_decide (owners a (handles A) = 0) then 1 else 0.
Proof.
  intros H. destruct (C35_exact _ _ H) as (St & E & L). exists St. split; [done|]. intros a. rewrite L.
  pose proof (LInv_run _ _ _ [] Inv_start H LInv_start) as LI. cbn [app] in LI.
  change (tally (destroys a) (expected_log astart os) = if bool_decide (a < next A) && bool_decide (owners a (handles A) = 0) then 1 else 0).
  rewrite (L_dead _ _ LI a).
  destruct (Nat.ltb_spec a (next A)), (Nat.eqb_spec (owners a (handles A)) 0);
    by rewrite ?bool_decide_true, ?bool_decide_false by lia.
Qed.
(** In particular not while there is a handle, owning or borrowing. *)
Theorem C35_held os A i h : arun astart os = Some A → look A i = Some h →
  ∃ St, run start os = ROk St ∧ EDestroy (a_addr h) ∉ log St.
Proof.
  intros H Hi. destruct (C35_exact _ _ H) as (St & E & L). exists St. split; [done|]. rewrite L.
  pose proof (arun_Inv _ _ _ Inv_start H) as I. apply (held _ _ _ I) in Hi.
  pose proof (LInv_run _ _ _ [] Inv_start H LInv_start) as LI. cbn [app] in LI.
  apply not_destroyed. rewrite (L_dead _ _ LI).
  destruct (Nat.eqb_spec (owners (a_addr h) (handles A)) 0); [lia|]. by rewrite andb_false_r.
Qed.
(** Dropping: the value goes if and only if the handle was an owner and there is
    no other. *)
Lemma drop_log os A A' i h : arun astart os = Some A → look A i = Some h → astep A (ODrop i) = Some A' →
  ∃ St St', run start os = ROk St ∧ step St (ODrop i) = ROk St' ∧
    log St' = log St ++ (if owning (a_kind h) && Nat.eqb (owners (a_addr h) (handles A)) 1 then [EDestroy (a_addr h)] else []).
Proof.
  intros H Hi Hd. destruct (run_sim _ _ _ _ Inv_start Rel_start H) as (St & E & R & L).
  destruct (step_sim _ _ _ _ (arun_Inv _ _ _ Inv_start H) R Hd) as (St' & E' & _ & L').
  exists St, St'. split; [done|]. split; [done|]. unfold log. rewrite L'. cbn [expected]. by rewrite Hi.
Qed.
Lemma other_owner A i h : look A i = Some h → owning (a_kind h) = true →
  Nat.eqb (owners (a_addr h) (handles A)) 1 = false ↔
  ∃ j h', j ≠ i ∧ look A j = Some h' ∧ owning (a_kind h') = true ∧ a_addr h' = a_addr h.
Proof.
  intros Hi Ho. pose proof (owners_del A i h (a_addr h) Hi) as Hd. cbn [owns] in Hd.
  rewrite Ho, Nat.eqb_refl in Hd. cbn [andb] in Hd. rewrite Nat.eqb_neq. split.
  - intros Hn. destruct (owners_ge (a_addr h) (handles (del A i))) as (j & h' & Hj%look_elem & ? & ?); [lia|].
    rewrite look_del in Hj. destruct (decide _) as [|Hji]; [done|]. by exists j, h'.
  - intros (j & h' & Hji & Hj & Ho' & Ea) E1. apply Hji. symmetry. by apply (owners_unique A i j h h').
Qed.
Theorem C35_drop os A A' i h : arun astart os = Some A → look A i = Some h → astep A (ODrop i) = Some A' →
  ∃ St St', run start os = ROk St ∧ step St (ODrop i) = ROk St' ∧
    ((log St' = log St ++ [EDestroy (a_addr h)] ∧ owning (a_kind h) = true ∧
        ¬ ∃ j h', j ≠ i ∧ look A j = Some h' ∧ owning (a_kind h') = true ∧ a_addr h' = a_addr h) ∨
     (log St' = log St ∧ (owning (a_kind h) = false ∨
        ∃ j h', j ≠ i ∧ look A j = Some h' ∧ owning (a_kind h') = true ∧ a_addr h' = a_addr h))).
Proof.
  intros H Hi Hd. destruct (drop_log _ _ _ _ _ H Hi Hd) as (St & St' & E & E' & L). exists St, St'.
  split; [done|]. split; [done|]. destruct (owning (a_kind h)) eqn:Ho.
  - cbn [andb] in L. pose proof (other_owner A i h Hi Ho) as Q.
    destruct (Nat.eqb (owners (a_addr h) (handles A)) 1).
    + left. split; [done|]. split; [done|]. intros X. by apply Q in X.
    + right. split; [by rewrite L, app_nil_r|]. right. by apply Q.
  - right. cbn [andb] in L. rewrite app_nil_r in L. split; [done|by left].
Qed.

(** An example with everything: a boxed value cloned, a shared one, a variable
    borrowed twice, calls that overlap. *)
Definition reader : trait := Trait [RRef false RSelf] true false false.
Definition writer : trait := Trait [RRef false RSelf; RRef true RSelf] false false false.
Definition T0 : ty := Ty true true true.
Definition plain : flavour := Flavour false false.
Definition both : flavour := Flavour true true.
Definition history : list op :=
  [ONew PBox T0; OCoerce 0 reader plain; OClone 1;               (* handles 1 and 2, values 0 and 1 *)
   ONew (PRc true) T0; OClone 3; OCoerce 3 reader both; OClone 5; (* handles 4, 5, 6 of value 2 *)
   ONew PLocal T0; OBorrow 7 false; OCoerce 8 reader both; OClone 9; (* handles 9 and 10 of value 3 *)
   OBegin 5 false; OBegin 6 false; OBegin 10 false; OBegin 1 false;
   ODrop 4; ODrop 9; ODrop 2; OEnd 6 false; ODrop 6; OEnd 5 false; OEnd 10 false; OEnd 1 false;
   ODrop 5; ODrop 10; ODrop 7; ODrop 1;
   ONew PLocal T0; OBorrow 11 true; OCoerce 12 writer plain; OBegin 13 true; OEnd 13 true; OBegin 13 false].
Example C35_example :
  is_Some (arun astart history) ∧
  match run start history with
  | ROk St => log St =
      [ENew 0; ENew 1; ENew 2; ENew 3; EBegin 2 false; EBegin 2 false; EBegin 3 false; EBegin 0 false;
       EDestroy 1; EEnd 2 false; EEnd 2 false; EEnd 3 false; EEnd 0 false; EDestroy 2; EDestroy 3; EDestroy 0;
       ENew 4; EBegin 4 true; EEnd 4 true; EBegin 4 false]
  | _ => False
  end.
Proof. split; [eexists|]; vm_compute; reflexivity. Qed.
(** Not accepted: dropping during a call, dropping what is borrowed, two
    exclusive borrows, [Rc] for a trait with [&mut self] methods. *)
Example C35_rejected :
  arun astart (history ++ [ODrop 13]) = None ∧ arun astart (history ++ [ODrop 11]) = None ∧
  arun astart (history ++ [OBorrow 11 true]) = None ∧ arun astart (history ++ [OBegin 13 true]) = None ∧
  arun astart [ONew (PRc true) T0; OCoerce 0 writer both] = None ∧
  is_Some (arun astart (history ++ [OEnd 13 false; ODrop 13; ODrop 11])).
Proof. repeat split; try (eexists; vm_compute; reflexivity); vm_compute; reflexivity. Qed.

(** ** C34, at run time *)

(** An exclusive call, through [&mut self] or [FnMut], is the only call about
    its value while it lasts. *)
Theorem C34_dynamic os A : arun astart os = Some A →
  ∃ St, run start os = ROk St ∧ sound_exclusive (log St).
Proof.
  intros H. destruct (C35_exact _ _ H) as (St & E & L). exists St. split; [done|]. rewrite L. by eapply log_exclusive.
Qed.
Example C34_dynamic_example :
  is_Some (arun astart [ONew PBox T0; OCoerce 0 writer both; OBegin 1 false; OBegin 1 false; OEnd 1 false; OEnd 1 false; OBegin 1 true]) ∧
  arun astart [ONew PBox T0; OCoerce 0 writer both; OBegin 1 false; OBegin 1 true] = None ∧
  arun astart [ONew PBox T0; OCoerce 0 writer both; OBegin 1 true; OBegin 1 false] = None.
Proof. repeat split; try (eexists; vm_compute; reflexivity); vm_compute; reflexivity. Qed.

(** ** C36 *)

(** A reference-counted closure: alive while there is a handle; destroyed when
    the last [ArcDynFn] or [Arc] goes, and not before; a clone is another handle of the same
    closure, unless there is no [retain], when it panics. *)
Theorem C36_arc os A i b a T fr : arun astart os = Some A → look A i = Some (AH (AArcFn b) a T fr) →
  ∃ St, run start os = ROk St ∧ EDestroy a ∉ log St ∧
    step St (OBegin i false) = ROk (State (say (EBegin a false) (s_heap St)) (s_handles St)) ∧
    (b = false → step St (OClone i) = RPanic) ∧
    (b = true → can_share A i = true → ∃ St', step St (OClone i) = ROk St' ∧ log St' = log St ∧
       ∀ A', astep A (OClone i) = Some A' → look A' (length (handles A)) = Some (AH (AArcFn b) a T fr)) ∧
    (can_mut A i = true → ∃ St', step St (ODrop i) = ROk St' ∧
       ((log St' = log St ++ [EDestroy a] ∧
           ¬ ∃ j h', j ≠ i ∧ look A j = Some h' ∧ owning (a_kind h') = true ∧ a_addr h' = a) ∨
        (log St' = log St ∧
           ∃ j h', j ≠ i ∧ look A j = Some h' ∧ owning (a_kind h') = true ∧ a_addr h' = a))).
Proof.
  intros H Hi. pose proof (arun_Inv _ _ _ Inv_start H) as I.
  destruct (run_sim _ _ _ _ Inv_start Rel_start H) as (St & E & R & L). exists St. split; [done|].
  pose proof (get_conc _ _ _ _ R Hi) as Hg.
  split; [|split; [|split; [|split]]].
  - destruct (C35_held _ _ _ _ H Hi) as (St0 & E0 & ?). rewrite E in E0. by injection E0 as <-.
  - cbn [step]. rewrite Hg, (access_alive _ _ _ _ I R Hi). done.
  - intros ->. cbn [step]. by rewrite Hg.
  - intros -> Hs. assert (Hc : astep A (OClone i) = Some (add A (AH (AArcFn true) a T fr))).
    { cbn [astep]. by rewrite Hi, Hs. }
    destruct (step_sim _ _ _ _ I R Hc) as (St' & E' & _ & L'). exists St'. split; [done|]. split.
    + unfold log. rewrite L'. cbn [expected]. by rewrite Hi, app_nil_r.
    + intros A'. rewrite Hc. intros [= <-]. rewrite look_add. by destruct (decide _).
  - intros Hm. assert (Hd : astep A (ODrop i) = Some (del A i)) by (cbn [astep]; by rewrite Hi, Hm).
    destruct (C35_drop _ _ _ _ _ H Hi Hd) as (St0 & St' & E0 & E' & Q). rewrite E in E0. injection E0 as <-.
    exists St'. split; [done|]. destruct Q as [(? & _ & ?)|(? & [?|?])]; [by left|done|by right].
Qed.
(** A program that clones, drops and calls; and one from C without [retain]. *)
Definition arc_history : list op :=
  [ONew (PRc true) T0; OClone 0; OFn 0; OClone 2; ODrop 1; OBegin 2 false; ODrop 3; OForeign T0; OBegin 4 false; OEnd 4 false].
Example C36_example :
  (∃ A, arun astart arc_history = Some A ∧ look A 2 = Some (AH (AArcFn true) 0 T0 None) ∧
    look A 4 = Some (AH (AArcFn false) 1 T0 None) ∧ can_mut A 4 = true ∧ can_mut A 2 = false ∧ can_share A 2 = true) ∧
  match run start (arc_history ++ [OEnd 2 false; ODrop 2; ODrop 4]) with
  | ROk St => log St = [ENew 0; EBegin 0 false; ENew 1; EBegin 1 false; EEnd 1 false; EEnd 0 false; EDestroy 0; EDestroy 1]
  | _ => False
  end ∧ run start (arc_history ++ [OClone 4]) = RPanic.
Proof. split; [eexists; split; [vm_compute; reflexivity|]|split]; vm_compute; [repeat split|reflexivity|reflexivity]. Qed.

(** ** C37 *)

(** A boxed closure: alive while there is the handle, destroyed exactly when it
    goes. *)
Theorem C37_boxed os A i a T fr : arun astart os = Some A → look A i = Some (AH ABoxFn a T fr) →
  ∃ St, run start os = ROk St ∧ EDestroy a ∉ log St ∧
    step St (OBegin i true) = ROk (State (say (EBegin a true) (s_heap St)) (s_handles St)) ∧
    (can_mut A i = true → ∃ St', step St (ODrop i) = ROk St' ∧ log St' = log St ++ [EDestroy a]).
Proof.
  intros H Hi. pose proof (arun_Inv _ _ _ Inv_start H) as I.
  destruct (run_sim _ _ _ _ Inv_start Rel_start H) as (St & E & R & L). exists St. split; [done|].
  pose proof (get_conc _ _ _ _ R Hi) as Hg. split; [|split].
  - destruct (C35_held _ _ _ _ H Hi) as (St0 & E0 & ?). rewrite E in E0. by injection E0 as <-.
  - cbn [step]. rewrite Hg, (access_alive _ _ _ _ I R Hi). done.
  - intros Hm. assert (Hd : astep A (ODrop i) = Some (del A i)) by (cbn [astep]; by rewrite Hi, Hm).
    destruct (drop_log _ _ _ _ _ H Hi Hd) as (St0 & St' & E0 & E' & Q). rewrite E in E0. injection E0 as <-.
    exists St'. split; [done|]. rewrite Q. pose proof (I_one _ I _ _ Hi (or_intror eq_refl)) as H1. cbn [a_addr a_kind] in H1 |- *.
    by rewrite H1.
Qed.
(** A borrowed closure: its going destroys nothing, and what it borrows from
    stays until it has gone. *)
Theorem C37_borrowed os A i a T fr : arun astart os = Some A → look A i = Some (AH ARefFn a T fr) →
  ∃ St, run start os = ROk St ∧ EDestroy a ∉ log St ∧
    (∃ j, fr = Some (j, true) ∧ astep A (ODrop j) = None) ∧
    step St (OBegin i true) = ROk (State (say (EBegin a true) (s_heap St)) (s_handles St)) ∧
    (can_mut A i = true → ∃ St', step St (ODrop i) = ROk St' ∧ s_heap St' = s_heap St).
Proof.
  intros H Hi. pose proof (arun_Inv _ _ _ Inv_start H) as I.
  destruct (run_sim _ _ _ _ Inv_start Rel_start H) as (St & E & R & L). exists St. split; [done|].
  pose proof (get_conc _ _ _ _ R Hi) as Hg. split; [|split; [|split]].
  - destruct (C35_held _ _ _ _ H Hi) as (St0 & E0 & ?). rewrite E in E0. by injection E0 as <-.
  - destruct (I_ref _ I _ _ true Hi eq_refl) as (j & hj & Ef & Hj & _). cbn in Ef. exists j. split; [done|].
    cbn [astep]. rewrite Hj. destruct (can_mut A j) eqn:Em; [|done]. exfalso.
    apply can_mut_spec in Em as [Hb _]. by apply (Hb _ _ true Hi).
  - cbn [step]. rewrite Hg, (access_alive _ _ _ _ I R Hi). done.
  - intros Hm. eexists. cbn [step]. rewrite Hg. cbn [conc a_kind drop_handle]. done.
Qed.
(** Null function pointers, from C, are noticed. *)
Theorem C37_null p m f : call_BoxDynFnMut p None m = RPanic ∧ drop_BoxDynFnMut p None m = RPanic ∧
  drop_BoxDynFnMut p (Some f) m = f p m.
Proof. done. Qed.
Definition box_history : list op :=
  [ONew PBox T0; OFn 0; OBegin 1 true; OEnd 1 true; ONew PLocal T0; OBorrow 2 true; OFn 3; OBegin 4 true; OEnd 4 true].
Example C37_example :
  (∃ A, arun astart box_history = Some A ∧ look A 1 = Some (AH ABoxFn 0 T0 None) ∧
    look A 4 = Some (AH ARefFn 1 T0 (Some (2, true))) ∧ can_mut A 1 = true ∧ can_mut A 4 = true) ∧
  match run start (box_history ++ [ODrop 4; ODrop 1; OBegin 2 true; OEnd 2 true; ODrop 2]) with
  | ROk St => log St = [ENew 0; EBegin 0 true; EEnd 0 true; ENew 1; EBegin 1 true; EEnd 1 true; EDestroy 0;
                      EBegin 1 true; EEnd 1 true; EDestroy 1]
  | _ => False
  end.
Proof. split; [eexists; split; [vm_compute; reflexivity|]|]; vm_compute; [repeat split|reflexivity]. Qed.

Print Assumptions C35_exact.
Print Assumptions C35_life.
Print Assumptions C35_owners.
Print Assumptions C35_held.
Print Assumptions C35_drop.
Print Assumptions C34_dynamic.
Print Assumptions C36_arc.
Print Assumptions C37_boxed.
Print Assumptions C37_borrowed.
Print Assumptions C37_null.
