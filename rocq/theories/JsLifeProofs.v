(** Proofs about the life of JavaScript functions given to Rust. *)

From Coq Require Import Bool List Lia.
From stdpp Require Import base numbers list.
From Verif Require Import JsLifeModel JsLifeSpec.

Lemma runs_app s ms ms' : runs s (ms ++ ms') = runs (runs s ms) ms'.
Proof. revert s. induction ms as [|m ms IH]; intros s; [done|]. exact (IH _). Qed.
Lemma creations_app ms ms' : creations (ms ++ ms') = creations ms ++ creations ms'.
Proof. apply flat_map_app. Qed.
Lemma releases_app ms ms' c : releases (ms ++ ms') c = releases ms c ++ releases ms' c.
Proof. apply flat_map_app. Qed.
Lemma retains_app ms ms' c : retains (ms ++ ms') c = retains ms c + retains ms' c.
Proof. unfold retains. by rewrite List.filter_app, app_length. Qed.
Lemma waits_app ms ms' c b : waits (ms ++ ms') c b = waits ms' c (waits ms c b).
Proof.
  revert b. induction ms as [|m ms IH]; intros b; [done|].
  destruct m as [t d f|t c'|t c'|t c' tk|t c' b' []|c'|c'|c']; cbn [app waits]; apply IH.
Qed.
Lemma waiting_app home d c ms ms' n : waiting home d c (ms ++ ms') n = waiting home d c ms' (waiting home d c ms n).
Proof.
  revert n. induction ms as [|m ms IH]; intros n; [done|].
  destruct m; cbn [app waiting]; apply IH.
Qed.
Lemma use_app home d c ms ms' :
  flat_map (use home d c) (ms ++ ms') = flat_map (use home d c) ms ++ flat_map (use home d c) ms'.
Proof. apply flat_map_app. Qed.

Lemma step_stop s m : undefined s || panicked s = true → step s m = s.
Proof. intros H. unfold step. by rewrite H. Qed.
Lemma runs_stop s ms : undefined s || panicked s = true → runs s ms = s.
Proof.
  intros H. induction ms as [|m ms IH]; [done|]. cbn [runs]. rewrite (step_stop _ _ H). exact IH.
Qed.

(** The state of a function after a history. *)
Record good (ms : list move) (s : state) (c : nat) (k : fn) (t : nat) (d : bool) (f : failing) : Prop := Good {
  g_home : home k = t;
  g_det : detached k = d;
  g_count : length (releases ms c) + count k = made ms c + retains ms c;
  g_ref : ref_ k = negb (count k =? 0);
  g_tsfn : tsfn k = negb (count k =? 0);
  g_fail : f ≠ Nowhere → count k = 0 ∧ releases ms c = [] ∧ flat_map (use t d c) ms = [];
  g_loop : count k ≠ 0 → loop_ k = waits ms c false;
  g_loop0 : count k = 0 → loop_ k = false;
  g_queued : queued k = waiting t d c ms 0;
  g_gone : gone k = true → count k = 0 ∧ queued k = 0 ∧ held k = false;
  g_log : log_of s c =
    birth t c f ++ flat_map (use t d c) ms ++
    (if count k =? 0 then match last (releases ms c) with Some t' => death c t' | None => [] end else []) }.

Record inv (ms : list move) (s : state) : Prop := Inv {
  i_undef : undefined s = false;
  i_panic : panicked s = false;
  i_len : length (fns s) = length (creations ms);
  i_good : ∀ c k t d f, fns s !! c = Some k → creations ms !! c = Some (t, d, f) → good ms s c k t d f;
  i_new : ∀ c, length (fns s) ≤ c → log_of s c = [] ∧ retains ms c = 0 ∧ releases ms c = [] ∧
    (∀ t d, flat_map (use t d c) ms = [] ∧ waiting t d c ms 0 = 0) ∧ waits ms c false = false }.

Lemma not_AtRef ms : refers ms → ∀ t d f, (t, d, f) ∈ creations ms → f ≠ AtRef.
Proof.
  intros _ t d f H ->. unfold creations in H. apply elem_of_list_In, in_flat_map in H as (m & _ & H).
  destruct m as [t' d' []| | | | | | |]; cbn [creation In] in H; destruct H as [H|[]] || destruct H; discriminate H.
Qed.

Lemma log_put s c k l c' : log_of (put s c k l) c' = log_of s c' ++ List.filter (λ e, on e =? c') l.
Proof. unfold log_of, put. cbn [log]. by rewrite List.filter_app. Qed.

Lemma owned_alive ms s c : inv ms s → owned ms c ↔ ∃ k, fns s !! c = Some k ∧ count k ≠ 0.
Proof.
  intros H. unfold owned. split.
  - intros Ho. destruct (fns s !! c) as [k|] eqn:E.
    + exists k. split; [done|]. destruct (lookup_lt_is_Some_2 (creations ms) c) as [[[t d] f] Ec].
      { rewrite <- (i_len _ _ H). by eapply lookup_lt_Some. }
      pose proof (g_count _ _ _ _ _ _ _ (i_good _ _ H _ _ _ _ _ E Ec)). lia.
    + apply lookup_ge_None_1 in E. destruct (i_new _ _ H c E) as (_ & Hr & Hl & _).
      rewrite Hr, Hl in Ho. unfold made in Ho.
      rewrite (lookup_ge_None_2 (creations ms) c) in Ho by (rewrite <- (i_len _ _ H); done).
      cbn [length] in Ho. lia.
  - intros (k & E & Hk). destruct (lookup_lt_is_Some_2 (creations ms) c) as [[[t d] f] Ec].
    { rewrite <- (i_len _ _ H). by eapply lookup_lt_Some. }
    pose proof (g_count _ _ _ _ _ _ _ (i_good _ _ H _ _ _ _ _ E Ec)). lia.
Qed.

(** A move that touches one function only, and creates none. *)
Lemma inv_put ms s m c k k' l t d f :
  inv ms s → fns s !! c = Some k → creations ms !! c = Some (t, d, f) → creation m = [] →
  (∀ c', c' ≠ c → retains [m] c' = 0 ∧ releases [m] c' = [] ∧ (∀ t d, use t d c' m = []) ∧
     (∀ t d n, waiting t d c' [m] n = n) ∧ (∀ b, waits [m] c' b = b)) →
  Forall (λ e, on e = c) l →
  good (ms ++ [m]) (put s c k' l) c k' t d f →
  inv (ms ++ [m]) (put s c k' l).
Proof.
  intros H E Ec Hm Ho Hl Hg.
  assert (Hc : creations (ms ++ [m]) = creations ms).
  { rewrite creations_app. cbn [creations flat_map]. rewrite Hm. apply app_nil_r. }
  assert (Hlog : ∀ c', c' ≠ c → log_of (put s c k' l) c' = log_of s c').
  { intros c' Hc'. rewrite log_put. replace (List.filter (λ e, on e =? c') l) with (@nil entry); [apply app_nil_r|].
    symmetry. clear -Hl Hc'. induction Hl as [|e l He _ IH]; [done|]. cbn [List.filter].
    rewrite He, (proj2 (Nat.eqb_neq c c')) by congruence. exact IH. }
  split.
  - exact (i_undef _ _ H).
  - exact (i_panic _ _ H).
  - unfold put. cbn [fns]. rewrite insert_length, Hc. exact (i_len _ _ H).
  - intros c' k'' t' d' f' E' Ec'. rewrite Hc in Ec'. unfold put in E'. cbn [fns] in E'.
    destruct (decide (c' = c)) as [->|Hne].
    + rewrite list_lookup_insert in E' by (by eapply lookup_lt_Some).
      assert (HI : ∀ x y : fn, Some x = Some y → x = y) by congruence. apply HI in E' as <-.
      rewrite Ec in Ec'. injection Ec' as <- <- <-. exact Hg.
    + rewrite list_lookup_insert_ne in E' by congruence.
      destruct (i_good _ _ H _ _ _ _ _ E' Ec') as [? ? ? ? ? G1 G2 G3 G4 G5 G6].
      destruct (Ho c' Hne) as (O1 & O2 & O3 & O4 & O5).
      assert (Hu : flat_map (use t' d' c') (ms ++ [m]) = flat_map (use t' d' c') ms).
      { rewrite use_app. cbn [flat_map]. rewrite O3. by rewrite !app_nil_r. }
      assert (Hr : releases (ms ++ [m]) c' = releases ms c') by (by rewrite releases_app, O2, app_nil_r).
      split; try done; rewrite ?Hu, ?Hr, ?retains_app, ?O1, ?waits_app, ?O5, ?waiting_app, ?O4; try done.
      * unfold made. rewrite Hc. fold (made ms c'). lia.
      * rewrite (Hlog c' Hne). exact G6.
  - intros c' Hc'. unfold put in Hc'. cbn [fns] in Hc'. rewrite insert_length in Hc'.
    assert (Hne : c' ≠ c) by (intros ->; apply lookup_lt_Some in E; lia).
    destruct (i_new _ _ H c' Hc') as (N1 & N2 & N3 & N4 & N5).
    destruct (Ho c' Hne) as (O1 & O2 & O3 & O4 & O5).
    rewrite (Hlog c' Hne), retains_app, releases_app, N2, N3, O1, O2, waits_app, O5.
    split; [done|]. split; [done|]. split; [done|]. split; [|done].
    intros t' d'. destruct (N4 t' d') as [N6 N7]. rewrite use_app, waiting_app, O4, N6. cbn [flat_map].
    rewrite O3. done.
Qed.

(** A move that touches none. *)
Lemma inv_same ms s m :
  inv ms s → creation m = [] →
  (∀ c', retains [m] c' = 0 ∧ releases [m] c' = [] ∧ (∀ t d, use t d c' m = []) ∧ (∀ b, waits [m] c' b = b)) →
  (∀ c' k t d f, fns s !! c' = Some k → creations ms !! c' = Some (t, d, f) →
     waiting t d c' [m] (queued k) = queued k) →
  (∀ c' t d, length (fns s) ≤ c' → waiting t d c' [m] 0 = 0) →
  inv (ms ++ [m]) s.
Proof.
  intros H Hm Ho Hw Hw0.
  assert (Hc : creations (ms ++ [m]) = creations ms).
  { rewrite creations_app. cbn [creations flat_map]. rewrite Hm. apply app_nil_r. }
  split.
  - exact (i_undef _ _ H).
  - exact (i_panic _ _ H).
  - rewrite Hc. exact (i_len _ _ H).
  - intros c' k t' d' f' E' Ec'. rewrite Hc in Ec'.
    pose proof (Hw _ _ _ _ _ E' Ec') as O4.
    destruct (i_good _ _ H _ _ _ _ _ E' Ec') as [? ? ? ? ? G1 G2 G3 G4 G5 G6].
    destruct (Ho c') as (O1 & O2 & O3 & O5).
    assert (Hu : flat_map (use t' d' c') (ms ++ [m]) = flat_map (use t' d' c') ms).
    { rewrite use_app. cbn [flat_map]. rewrite O3. by rewrite !app_nil_r. }
    assert (Hr : releases (ms ++ [m]) c' = releases ms c') by (by rewrite releases_app, O2, app_nil_r).
    split; try done; rewrite ?Hu, ?Hr, ?retains_app, ?O1, ?waits_app, ?O5, ?waiting_app; try done.
    + unfold made. rewrite Hc. fold (made ms c'). lia.
    + rewrite <- G4. done.
  - intros c' Hc'. destruct (i_new _ _ H c' Hc') as (N1 & N2 & N3 & N4 & N5).
    destruct (Ho c') as (O1 & O2 & O3 & O5).
    rewrite retains_app, releases_app, N2, N3, O1, O2, waits_app, O5.
    split; [done|]. split; [done|]. split; [done|]. split; [|done].
    intros t' d'. destruct (N4 t' d') as [N6 N7]. rewrite use_app, waiting_app, N6, N7. cbn [flat_map].
    rewrite O3, Hw0 by done. done.
Qed.

Lemma inv_create ms s t d f : inv ms s → f ≠ AtRef → inv (ms ++ [Create t d f]) (create s t d f).
Proof.
  intros H Hf. set (n := length (fns s)).
  assert (Hc : creations (ms ++ [Create t d f]) = creations ms ++ [(t, d, f)]).
  { rewrite creations_app. cbn [creations flat_map creation]. by destruct f. }
  assert (Hn : creations (ms ++ [Create t d f]) !! n = Some (t, d, f)).
  { rewrite Hc. unfold n. rewrite (i_len _ _ H). by apply list_lookup_middle. }
  assert (Hr : ∀ c, retains (ms ++ [Create t d f]) c = retains ms c).
  { intros c. rewrite retains_app. cbn. lia. }
  assert (Hl : ∀ c, releases (ms ++ [Create t d f]) c = releases ms c).
  { intros c. rewrite releases_app. cbn. by rewrite app_nil_r. }
  assert (Hu : ∀ t' d' c, flat_map (use t' d' c) (ms ++ [Create t d f]) = flat_map (use t' d' c) ms).
  { intros. rewrite use_app. cbn. by rewrite app_nil_r. }
  assert (Hw : ∀ t' d' c, waiting t' d' c (ms ++ [Create t d f]) 0 = waiting t' d' c ms 0).
  { intros. rewrite waiting_app. cbn. lia. }
  assert (Hb : ∀ c, waits (ms ++ [Create t d f]) c false = waits ms c false).
  { intros. rewrite waits_app. done. }
  assert (Hmade : ∀ c, c ≠ n → made (ms ++ [Create t d f]) c = made ms c).
  { intros c Hne. unfold made. rewrite Hc. destruct (decide (c < n)) as [Hlt|Hge].
    - rewrite lookup_app_l; [done|]. rewrite <- (i_len _ _ H). exact Hlt.
    - rewrite !lookup_ge_None_2; [done| |rewrite app_length; cbn [length]]; rewrite <- (i_len _ _ H); fold n; lia. }
  destruct (i_new _ _ H n) as (N1 & N2 & N3 & N4 & N5); [done|].
  assert (Key : ∀ k l,
    Forall (λ e, on e = n) l → l = birth t n f →
    k = Fn t d (match f with Nowhere => 1 | _ => 0 end) (match f with Nowhere => true | _ => false end)
          (match f with Nowhere => true | _ => false end) false 0 true false →
    inv (ms ++ [Create t d f]) (State (fns s ++ [k]) (log s ++ l) (undefined s) (panicked s))).
  { intros k l Hln -> ->.
    set (s' := State _ _ _ _).
    assert (Hlog : ∀ c, c ≠ n → log_of s' c = log_of s c).
    { intros c Hne. unfold log_of, s'. cbn [log]. rewrite List.filter_app.
      replace (List.filter (λ e, on e =? c) (birth t n f)) with (@nil entry); [apply app_nil_r|].
      clear -Hln Hne. induction Hln as [|e l' He _ IH]; [done|]. cbn [List.filter].
      rewrite He, (proj2 (Nat.eqb_neq n c)) by congruence. exact IH. }
    split.
    - exact (i_undef _ _ H).
    - exact (i_panic _ _ H).
    - unfold s'. cbn [fns]. rewrite Hc, !app_length, (i_len _ _ H). done.
    - intros c k' t' d' f' E' Ec'. destruct (decide (c = n)) as [Heq|Hne].
      + rewrite Heq in *. rewrite Hn in Ec'. injection Ec' as Et Ed Ef. rewrite <- Et, <- Ed, <- Ef.
        unfold s' in E'. cbn [fns] in E'. rewrite list_lookup_middle in E' by done.
        assert (HI : ∀ x y : fn, Some x = Some y → x = y) by congruence. apply HI in E' as <-.
        destruct (N4 t d) as [N6 N7].
        split; rewrite ?Hr, ?Hl, ?Hu, ?Hw, ?Hb, ?N2, ?N3, ?N5, ?N6, ?N7; try done.
        * cbn [length count]. unfold made. rewrite Hn. by destruct f.
        * by destruct f.
        * by destruct f.
        * cbn [count]. intros Hf'. by destruct f.
        * unfold log_of, s'. cbn [log]. rewrite List.filter_app.
          change (List.filter (λ e : entry, on e =? n) (log s)) with (log_of s n). rewrite N1.
          cbn [app last]. destruct (_ =? 0); rewrite ?app_nil_r;
          (clear -Hln; induction Hln as [|e l' He _ IH]; [done|]; cbn [List.filter];
           rewrite He, Nat.eqb_refl; by f_equal).
      + unfold s' in E'. cbn [fns] in E'.
        assert (Hlt : c < n).
        { apply lookup_lt_Some in E'. rewrite app_length in E'. cbn [length] in E'. unfold n in *. lia. }
        rewrite lookup_app_l in E' by exact Hlt. rewrite Hc, lookup_app_l in Ec' by (rewrite <- (i_len _ _ H); exact Hlt).
        destruct (i_good _ _ H _ _ _ _ _ E' Ec') as [? ? ? ? ? G1 G2 G3 G4 G5 G6].
        split; rewrite ?Hr, ?Hl, ?Hu, ?Hw, ?Hb, ?Hmade by done; try done.
        rewrite Hlog by done. exact G6.
    - intros c Hge. unfold s' in Hge. cbn [fns] in Hge. rewrite app_length in Hge. cbn [length] in Hge.
      assert (Hne : c ≠ n) by (unfold n; lia).
      destruct (i_new _ _ H c) as (M1 & M2 & M3 & M4 & M5); [lia|].
      rewrite Hlog, Hr, Hl, Hb by done. split; [done|]. split; [done|]. split; [done|]. split; [|done].
      intros t' d'. rewrite Hu, Hw. apply M4. }
  unfold create. destruct f; [done| | |]; apply Key; try done; repeat (apply Forall_cons; split; [done|]); apply Forall_nil_2.
Qed.

Lemma use_nil_failed ms s c k t d f (m : move) : inv ms s → fns s !! c = Some k → creations ms !! c = Some (t, d, f) →
  count k ≠ 0 → f = Nowhere.
Proof.
  intros H E Ec Hk. destruct (i_good _ _ H _ _ _ _ _ E Ec) as [? ? ? ? ? G1 G2 G3 G4 G5 G6].
  destruct f; try done; by destruct (G1 ltac:(done)).
Qed.

Lemma neqb c c' : c' ≠ c → (c =? c') = false.
Proof. intros H. apply Nat.eqb_neq. congruence. Qed.

Lemma inv_step ms s m : inv ms s → (∀ t d, m ≠ Create t d AtRef) → (∀ c, uses m = Some c → owned ms c) →
  inv (ms ++ [m]) (step s m).
Proof.
  intros H Hm Hu. unfold step. rewrite (i_undef _ _ H), (i_panic _ _ H). cbn [orb].
  assert (Mem : ∀ c, uses m = Some c → ∃ k t d, fns s !! c = Some k ∧ count k ≠ 0 ∧
    creations ms !! c = Some (t, d, Nowhere) ∧ good ms s c k t d Nowhere).
  { intros c Hc. apply Hu, (proj1 (owned_alive _ _ _ H)) in Hc as (k & E & Hk).
    destruct (lookup_lt_is_Some_2 (creations ms) c) as [[[t d] f] Ec].
    { rewrite <- (i_len _ _ H). by eapply lookup_lt_Some. }
    assert (f = Nowhere) as -> by exact (use_nil_failed _ _ _ _ _ _ _ m H E Ec Hk).
    exists k, t, d. split; [done|]. split; [done|]. split; [done|]. exact (i_good _ _ H _ _ _ _ _ E Ec). }
  destruct m as [t d f|t c|t c|t c tk|t c b ok|c|c|c].
  - apply inv_create; [done|]. intros ->. by apply (Hm t d).
  - destruct (Mem c eq_refl) as (k & th & d & E & Hk & Ec & G). unfold with_memory. rewrite E.
    destruct (count k) as [|n] eqn:En; [done|]. cbn [Nat.eqb]. unfold retain_arc. rewrite En.
    eapply inv_put; [done..| |apply Forall_nil_2|].
    + intros c' Hne. unfold retains. cbn. by rewrite (neqb _ _ Hne).
    + destruct G as [? ? G0 G01 G02 G1 G2 G3 G4 G5 G6]. rewrite En in *.
      split; cbn [home detached count ref_ tsfn loop_ queued held gone set_count]; try done;
        rewrite ?releases_app, ?retains_app, ?waits_app, ?waiting_app, ?use_app, ?log_put;
        unfold retains; cbn [releases released flat_map app List.filter length uses use waits waiting enters];
        rewrite ?Nat.eqb_refl, ?app_nil_r; try done.
      * unfold made. rewrite creations_app. cbn [creations flat_map creation]. rewrite app_nil_r. fold (made ms c).
        cbn [length]. fold (retains ms c). lia.
      * intros _. by apply G2.
      * rewrite Nat.add_0_r. done.
      * intros Hg. by destruct (G5 Hg).
      * cbn [Nat.eqb] in G6 |- *. rewrite ?app_nil_r in *. exact G6.
  - destruct (Mem c eq_refl) as (k & th & d & E & Hk & Ec & G). unfold with_memory. rewrite E.
    destruct (count k) as [|n] eqn:En; [done|]. cbn [Nat.eqb]. unfold release_arc. rewrite En.
    assert (Hoth : ∀ c', c' ≠ c → retains [Release t c] c' = 0 ∧ releases [Release t c] c' = [] ∧
      (∀ t0 d0, use t0 d0 c' (Release t c) = []) ∧
      (∀ t0 d0 n, waiting t0 d0 c' [Release t c] n = n) ∧ (∀ b, waits [Release t c] c' b = b)).
    { intros c' Hne. cbn. rewrite (neqb _ _ Hne). repeat split; done || (intros; lia). }
    assert (Hmade : made (ms ++ [Release t c]) c = made ms c).
    { unfold made. rewrite creations_app. cbn [creations flat_map creation]. by rewrite app_nil_r. }
    destruct n as [|n].
    + eapply inv_put; [done..| |].
      { repeat (apply Forall_cons; split; [done|]). apply Forall_nil_2. }
      destruct G as [? ? G0 G01 G02 G1 G2 G3 G4 G5 G6]. rewrite En in *.
      split; cbn [home detached count ref_ tsfn loop_ queued held gone dropped]; try done;
        rewrite ?releases_app, ?retains_app, ?waits_app, ?waiting_app, ?use_app, ?log_put, ?Hmade;
        unfold retains; cbn [releases released flat_map app List.filter length uses use waits waiting enters];
        rewrite ?Nat.eqb_refl, ?app_nil_r; try done.
      * rewrite app_length. cbn [length]. fold (retains ms c). lia.
      * rewrite Nat.add_0_r. done.
      * intros Hg. by destruct (G5 Hg).
      * cbn [Nat.eqb] in G6 |- *. rewrite last_snoc, G6. cbn [drop_log List.filter on]. rewrite Nat.eqb_refl.
        rewrite app_nil_r, <- app_assoc. done.
    + eapply inv_put; [done..|apply Forall_nil_2|].
      destruct G as [? ? G0 G01 G02 G1 G2 G3 G4 G5 G6]. rewrite En in *.
      split; cbn [home detached count ref_ tsfn loop_ queued held gone set_count]; try done;
        rewrite ?releases_app, ?retains_app, ?waits_app, ?waiting_app, ?use_app, ?log_put, ?Hmade;
        unfold retains; cbn [releases released flat_map app List.filter length uses use waits waiting enters];
        rewrite ?Nat.eqb_refl, ?app_nil_r; try done.
      * rewrite app_length. cbn [length]. fold (retains ms c). lia.
      * intros _. by apply G2.
      * rewrite Nat.add_0_r. done.
      * intros Hg. by destruct (G5 Hg).
      * cbn [Nat.eqb] in G6 |- *. rewrite ?app_nil_r in *. exact G6.
  - destruct (Mem c eq_refl) as (k & th & d & E & Hk & Ec & G). unfold with_memory. rewrite E.
    destruct (count k) as [|n] eqn:En; [done|]. cbn [Nat.eqb].
    assert (Hoth : ∀ c', c' ≠ c → retains [Invoke t c tk] c' = 0 ∧ releases [Invoke t c tk] c' = [] ∧
      (∀ t0 d0, use t0 d0 c' (Invoke t c tk) = []) ∧
      (∀ t0 d0 n, waiting t0 d0 c' [Invoke t c tk] n = n) ∧ (∀ b, waits [Invoke t c tk] c' b = b)).
    { intros c' Hne. cbn. rewrite (neqb _ _ Hne). repeat split; done || (intros; destruct tk; cbn; done || lia). }
    assert (Hmade : made (ms ++ [Invoke t c tk]) c = made ms c).
    { unfold made. rewrite creations_app. cbn [creations flat_map creation]. by rewrite app_nil_r. }
    assert (Hq : (d || negb (t =? th) = true) →
      inv (ms ++ [Invoke t c tk]) (put s c (set_queued k (if tk then S (queued k) else queued k)) [Entry t CallTsfn c])).
    { intros Hd. eapply inv_put; [done..| |].
      { repeat (apply Forall_cons; split; [done|]). apply Forall_nil_2. }
      destruct G as [? ? G0 G01 G02 G1 G2 G3 G4 G5 G6]. rewrite En in *.
      split; cbn [home detached count ref_ tsfn loop_ queued held gone set_queued]; rewrite ?En; try done;
        rewrite ?releases_app, ?retains_app, ?waits_app, ?waiting_app, ?use_app, ?log_put, ?Hmade;
        unfold retains; cbn [releases released flat_map app List.filter length uses use waits waiting enters];
        rewrite ?Nat.eqb_refl, ?app_nil_r; try done.
      * cbn [length]. fold (retains ms c). lia.
      * rewrite <- G4, Hd. destruct tk; cbn [andb]; lia.
      * intros Hg. by destruct (G5 Hg).
      * cbn [Nat.eqb] in G6 |- *. rewrite G6. cbn [List.filter on]. rewrite ?Nat.eqb_refl, ?app_nil_r, <- ?app_assoc.
        f_equal. f_equal. destruct d; [done|]. cbn [orb] in Hd. by destruct (t =? th). }
    unfold call_trampoline. rewrite (g_det _ _ _ _ _ _ _ G), (g_home _ _ _ _ _ _ _ G).
    destruct d; [by apply Hq|]. destruct (t =? th) eqn:Et; [|by apply Hq].
    destruct (gone k) eqn:Eg.
    { destruct (g_gone _ _ _ _ _ _ _ G Eg) as [Hz _]. congruence. }
    eapply inv_put; [done..| |].
    { repeat (apply Forall_cons; split; [done|]). apply Forall_nil_2. }
    destruct G as [? ? G0 G01 G02 G1 G2 G3 G4 G5 G6]. rewrite En in *.
    split; rewrite ?En; try done;
      rewrite ?releases_app, ?retains_app, ?waits_app, ?waiting_app, ?use_app, ?log_put, ?Hmade;
      unfold retains; cbn [releases released flat_map app List.filter length uses use waits waiting enters];
      rewrite ?Nat.eqb_refl, ?app_nil_r; try done.
    + cbn [length]. fold (retains ms c). lia.
    + rewrite Et. cbn. destruct tk; by rewrite Nat.add_0_r.
    + cbn [Nat.eqb] in G6 |- *. rewrite G6, Et. cbn [List.filter on]. by rewrite ?Nat.eqb_refl, ?app_nil_r, <- ?app_assoc.
  - destruct (Mem c eq_refl) as (k & th & d & E & Hk & Ec & G). unfold with_memory. rewrite E.
    destruct (count k) as [|n] eqn:En; [done|]. cbn [Nat.eqb]. unfold make_wait. rewrite En.
    assert (Hmade : made (ms ++ [Wait t c b ok]) c = made ms c).
    { unfold made. rewrite creations_app. cbn [creations flat_map creation]. by rewrite app_nil_r. }
    eapply inv_put; [done..| | |].
    + intros c' Hne. cbn. rewrite (neqb _ _ Hne). repeat split; done || (intros; lia) || by destruct ok.
    + repeat (apply Forall_cons; split; [done|]). apply Forall_nil_2.
    + destruct G as [? ? G0 G01 G02 G1 G2 G3 G4 G5 G6]. rewrite En in *.
      split; cbn [home detached count ref_ tsfn loop_ queued held gone]; try done;
        rewrite ?releases_app, ?retains_app, ?waits_app, ?waiting_app, ?use_app, ?log_put, ?Hmade;
        unfold retains; cbn [releases released flat_map app List.filter length uses use waiting enters];
        rewrite ?Nat.eqb_refl, ?app_nil_r; try done.
      * cbn [length]. fold (retains ms c). lia.
      * intros _. cbn [waits]. rewrite Nat.eqb_refl. destruct ok; [done|]. by apply G2.
      * by rewrite Nat.add_0_r.
      * cbn [Nat.eqb] in G6 |- *. rewrite G6. cbn [List.filter on]. by rewrite ?Nat.eqb_refl, ?app_nil_r, <- ?app_assoc.
  - destruct (fns s !! c) as [k|] eqn:E.
    + destruct (lookup_lt_is_Some_2 (creations ms) c) as [[[t d] f] Ec].
      { rewrite <- (i_len _ _ H). by eapply lookup_lt_Some. }
      pose proof (i_good _ _ H _ _ _ _ _ E Ec) as G.
      destruct (queued k) as [|n] eqn:Eq.
      * apply inv_same; try done.
        -- intros c' k' t' d' f' E' Ec'. cbn [waiting].
           destruct (c =? c') eqn:Ecc; [|done]. apply Nat.eqb_eq in Ecc as <-. rewrite E in E'.
           assert (HI : ∀ x y : fn, Some x = Some y → x = y) by congruence. apply HI in E' as <-. by rewrite Eq.
        -- intros c' t' d' _. cbn. by destruct (c =? c').
      * destruct (gone k) eqn:Eg.
        { destruct (g_gone _ _ _ _ _ _ _ G Eg) as (_ & Hz & _). congruence. }
        assert (Hmade : made (ms ++ [Run c]) c = made ms c).
        { unfold made. rewrite creations_app. cbn [creations flat_map creation]. by rewrite app_nil_r. }
        eapply inv_put; [done..| |apply Forall_nil_2|].
        -- intros c' Hne. cbn. rewrite (neqb _ _ Hne). done.
        -- destruct G as [? ? G0 G01 G02 G1 G2 G3 G4 G5 G6].
           split; cbn [home detached count ref_ tsfn loop_ queued held gone set_queued]; try done;
             rewrite ?releases_app, ?retains_app, ?waits_app, ?waiting_app, ?use_app, ?log_put, ?Hmade;
             unfold retains; cbn [releases released flat_map app List.filter length uses use waits waiting enters];
             rewrite ?Nat.eqb_refl, ?app_nil_r; try done.
           ++ cbn [length]. fold (retains ms c). lia.
           ++ rewrite <- G4, Eq. done.
           ++ intros; congruence.
    + apply inv_same; try done.
      * intros c' k' t' d' f' E' Ec'. cbn [waiting]. destruct (c =? c') eqn:Ecc; [|done].
        apply Nat.eqb_eq in Ecc as <-. congruence.
      * intros c' t' d' _. cbn. by destruct (c =? c').
  - destruct (fns s !! c) as [k|] eqn:E.
    + destruct (lookup_lt_is_Some_2 (creations ms) c) as [[[t d] f] Ec].
      { rewrite <- (i_len _ _ H). by eapply lookup_lt_Some. }
      pose proof (i_good _ _ H _ _ _ _ _ E Ec) as G.
      assert (Hmade : made (ms ++ [Forget c]) c = made ms c).
      { unfold made. rewrite creations_app. cbn [creations flat_map creation]. by rewrite app_nil_r. }
      eapply inv_put; [done..| |apply Forall_nil_2|].
      * intros c' Hne. cbn. repeat split; done || (intros; lia).
      * destruct G as [? ? G0 G01 G02 G1 G2 G3 G4 G5 G6].
        split; cbn [home detached count ref_ tsfn loop_ queued held gone]; try done;
          rewrite ?releases_app, ?retains_app, ?waits_app, ?waiting_app, ?use_app, ?log_put, ?Hmade;
          unfold retains; cbn [releases released flat_map app List.filter length uses use waits waiting enters];
          rewrite ?Nat.eqb_refl, ?app_nil_r; try done.
        -- cbn [length]. fold (retains ms c). lia.
        -- by rewrite Nat.add_0_r.
        -- intros Hg. by destruct (G5 Hg) as (? & ? & ?).
    + apply inv_same; try done; intros; cbn; lia.
  - destruct (fns s !! c) as [k|] eqn:E.
    + destruct (lookup_lt_is_Some_2 (creations ms) c) as [[[t d] f] Ec].
      { rewrite <- (i_len _ _ H). by eapply lookup_lt_Some. }
      pose proof (i_good _ _ H _ _ _ _ _ E Ec) as G.
      destruct (held k || ref_ k || tsfn k || negb (queued k =? 0)) eqn:Eb.
      { apply inv_same; try done; intros; cbn; lia. }
      apply orb_false_iff in Eb as [Eb Eq]. apply orb_false_iff in Eb as [Eb Et]. apply orb_false_iff in Eb as [Eh Er].
      apply negb_false_iff, Nat.eqb_eq in Eq.
      assert (Hmade : made (ms ++ [Collect c]) c = made ms c).
      { unfold made. rewrite creations_app. cbn [creations flat_map creation]. by rewrite app_nil_r. }
      eapply inv_put; [done..| |apply Forall_nil_2|].
      * intros c' Hne. cbn. repeat split; done || (intros; lia).
      * destruct G as [? ? G0 G01 G02 G1 G2 G3 G4 G5 G6].
        split; cbn [home detached count ref_ tsfn loop_ queued held gone]; try done;
          rewrite ?releases_app, ?retains_app, ?waits_app, ?waiting_app, ?use_app, ?log_put, ?Hmade;
          unfold retains; cbn [releases released flat_map app List.filter length uses use waits waiting enters];
          rewrite ?Nat.eqb_refl, ?app_nil_r; try done.
        -- cbn [length]. fold (retains ms c). lia.
        -- by rewrite Nat.add_0_r.
        -- intros _. split; [|done]. rewrite G01 in Er. apply negb_false_iff in Er. by apply Nat.eqb_eq.
    + apply inv_same; try done; intros; cbn; lia.
Qed.

Lemma inv_init : inv [] init.
Proof. split; try done. Qed.

Lemma lawful_snoc ms m : lawful (ms ++ [m]) ↔ lawful ms ∧ (∀ c, uses m = Some c → owned ms c).
Proof.
  split.
  - intros H. split.
    + intros past m' future c -> Hm. apply (H past m' (future ++ [m]) c); [|done]. by rewrite <- app_assoc.
    + intros c Hm. by apply (H ms m [] c).
  - intros [H Hm] past m' future c Heq Hu. destruct future as [|m'' future] using rev_ind.
    + apply app_inj_tail in Heq as [<- <-]. by apply Hm.
    + clear IHfuture. replace (past ++ m' :: future ++ [m'']) with ((past ++ m' :: future) ++ [m'']) in Heq
        by (by rewrite <- app_assoc).
      apply app_inj_tail in Heq as [Heq _]. exact (H past m' future c Heq Hu).
Qed.

Lemma inv_runs ms : refers ms → lawful ms → inv ms (runs init ms).
Proof.
  induction ms as [|m ms IH] using rev_ind; intros Hr Hl; [exact inv_init|].
  rewrite runs_app. cbn [runs]. apply lawful_snoc in Hl as [Hl Hm]. apply inv_step; [|intros t d ->|done].
  - apply IH; [|done]. intros t d Hin. apply (Hr t d). apply elem_of_app. by left.
  - apply (Hr t d). apply elem_of_app. right. by apply elem_of_list_singleton.
Qed.

Lemma not_lawful ms : refers ms → ¬ lawful ms → undefined (runs init ms) = true.
Proof.
  induction ms as [|m ms IH] using rev_ind; intros Hr Hl.
  { exfalso. apply Hl. intros past m future c Heq. by destruct past. }
  assert (Hr' : refers ms) by (intros t d Hin; apply (Hr t d), elem_of_app; by left).
  rewrite runs_app. cbn [runs]. destruct (undefined (runs init ms)) eqn:Eu.
  { rewrite step_stop; [done|]. by rewrite Eu. }
  assert (lawful ms ∨ ¬ lawful ms) as [Hms|Hms].
  { clear -Eu Hr'. revert Eu. induction ms as [|m ms IH] using rev_ind.
    - intros _. left. intros past m future c Heq. by destruct past.
    - rewrite runs_app. cbn [runs]. intros Eu.
      assert (Hr : refers ms) by (intros t d Hin; apply (Hr' t d), elem_of_app; by left).
      assert (Eu' : undefined (runs init ms) = false).
      { destruct (undefined (runs init ms)) eqn:E; [|done]. rewrite step_stop in Eu; [congruence|]. by rewrite E. }
      destruct (IH Hr Eu') as [Hl|Hl]; [|right; intros [Hl' _]%lawful_snoc; done].
      destruct (uses m) as [c|] eqn:Em.
      + destruct (decide (length (releases ms c) < made ms c + retains ms c)) as [Ho|Ho].
        * left. apply lawful_snoc. split; [done|]. intros c' Hc'. rewrite Em in Hc'. injection Hc' as <-. exact Ho.
        * right. intros [_ H]%lawful_snoc. apply Ho. exact (H c Em).
      + left. apply lawful_snoc. split; [done|]. intros c' Hc'. congruence. }
  2: { pose proof (IH Hr' Hms) as E; congruence. }
  pose proof (inv_runs ms Hr' Hms) as HI. set (s := runs init ms) in *.
  assert (Hno : ∀ c, uses m = Some c → ¬ owned ms c).
  { intros c Hc Ho. apply Hl, lawful_snoc. split; [done|]. intros c' Hc'. rewrite Hc in Hc'. by injection Hc' as <-. }
  assert (Hsome : ∃ c, uses m = Some c).
  { destruct (uses m) as [c|] eqn:Em; [by exists c|]. exfalso. apply Hl, lawful_snoc. split; [done|]. congruence. }
  destruct Hsome as [c Hc]. pose proof (Hno c Hc) as Ho.
  assert (Hmem : ∀ g, undefined (with_memory s c g) = true).
  { intros g. unfold with_memory. destruct (fns s !! c) as [k|] eqn:E; [|done].
    destruct (count k =? 0) eqn:Ek; [done|]. exfalso. apply Ho. apply (proj2 (owned_alive _ _ c HI)).
    exists k. split; [done|]. by apply Nat.eqb_neq. }
  unfold step. rewrite (i_undef _ _ HI), (i_panic _ _ HI). cbn [orb].
  destruct m; cbn [uses] in Hc; try discriminate Hc; injection Hc as ->; apply Hmem.
Qed.
