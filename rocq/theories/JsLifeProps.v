(** Properties of the life of JavaScript functions given to Rust (C68). *)

From Coq Require Import Bool List Lia.
From stdpp Require Import base numbers list.
From Verif Require Import JsLifeModel JsLifeSpec JsLifeProofs.

(** Freed memory is used if and only if someone uses a function they do not
    own; and otherwise nothing panics. *)
Theorem C68_safe ms : refers ms → undefined (runs init ms) = true ↔ ¬ lawful ms.
Proof.
  intros Hr. split; [|by apply not_lawful]. intros Hu Hl.
  rewrite (i_undef _ _ (inv_runs ms Hr Hl)) in Hu. discriminate Hu.
Qed.
Theorem C68_no_panic ms : refers ms → lawful ms → panicked (runs init ms) = false.
Proof. intros Hr Hl. exact (i_panic _ _ (inv_runs ms Hr Hl)). Qed.

Lemma found ms c x : refers ms → lawful ms → creations ms !! c = Some x →
  ∃ k, fns (runs init ms) !! c = Some k ∧ good ms (runs init ms) c k x.1.1 x.1.2 x.2.
Proof.
  intros Hr Hl Hc. pose proof (inv_runs ms Hr Hl) as HI.
  destruct (lookup_lt_is_Some_2 (fns (runs init ms)) c) as [k Hk].
  { rewrite (i_len _ _ HI). by eapply lookup_lt_Some. }
  exists k. split; [done|]. destruct x as [[t d] f]. exact (i_good _ _ HI _ _ _ _ _ Hk Hc).
Qed.
Lemma owned_count ms s c k t d f : good ms s c k t d f → owned ms c ↔ count k ≠ 0.
Proof. intros G. pose proof (g_count _ _ _ _ _ _ _ G). unfold owned. lia. Qed.

(** All N-API is asked for a function: the reference and the thread-safe
    function are made on the thread it came from; each use asks one thing, on
    its own thread; the last owner deletes the one and releases the other. *)
Theorem C68_life ms c t d : refers ms → lawful ms → creations ms !! c = Some (t, d, Nowhere) →
  (owned ms c ∧ log_of (runs init ms) c = birth t c Nowhere ++ flat_map (use t d c) ms) ∨
  (¬ owned ms c ∧ ∃ t', last (releases ms c) = Some t' ∧
     log_of (runs init ms) c = birth t c Nowhere ++ flat_map (use t d c) ms ++ death c t').
Proof.
  intros Hr Hl Hc. destruct (found _ _ _ Hr Hl Hc) as (k & Hk & G). cbn [fst snd] in G.
  pose proof (owned_count _ _ _ _ _ _ _ G) as Ho. pose proof (g_count _ _ _ _ _ _ _ G) as Hn.
  pose proof (g_log _ _ _ _ _ _ _ G) as Hg.
  destruct (count k) as [|n] eqn:E; cbn [Nat.eqb] in Hg.
  - right. split; [tauto|]. destruct (last (releases ms c)) as [t'|] eqn:El; [by exists t'|].
    apply last_None in El. rewrite El in Hn. unfold made in Hn. rewrite Hc in Hn. cbn [length] in Hn. lia.
  - left. split; [by apply Ho|]. by rewrite app_nil_r in Hg.
Qed.

(** The reference is deleted once and the thread-safe function released once,
    by the thread of the last release, if and only if no one owns the function;
    nothing is asked for it after that. *)
Definition asked (a : api) (l : list entry) : nat :=
  length (List.filter (λ e, match what e, a with
    | CreateRef, CreateRef | DeleteRef, DeleteRef | CreateTsfn, CreateTsfn | ReleaseTsfn, ReleaseTsfn => true
    | _, _ => false end) l).
Lemma asked_app a l l' : asked a (l ++ l') = asked a l + asked a l'.
Proof. unfold asked. by rewrite List.filter_app, app_length. Qed.
Lemma asked_use a t d c ms : asked a (flat_map (use t d c) ms) = 0.
Proof.
  induction ms as [|m ms IH]; [done|]. cbn [flat_map]. rewrite asked_app, IH, Nat.add_0_r.
  destruct m as [| | |t' c' tk|t' c' b ok| | |]; try done; cbn [use]; destruct (c' =? c); try done.
  - destruct d; [|destruct (t' =? t)]; by destruct a.
  - destruct b; by destruct a.
Qed.
Theorem C68_once ms c t d a b : refers ms → lawful ms → creations ms !! c = Some (t, d, Nowhere) →
  (a, b) ∈ [(CreateRef, DeleteRef); (CreateTsfn, ReleaseTsfn)] →
  asked a (log_of (runs init ms) c) = 1 ∧ asked b (log_of (runs init ms) c) ≤ 1 ∧
  (asked b (log_of (runs init ms) c) = 1 ↔ ¬ owned ms c).
Proof.
  intros Hr Hl Hc Hab.
  assert ((a = CreateRef ∧ b = DeleteRef) ∨ (a = CreateTsfn ∧ b = ReleaseTsfn)) as Hab'.
  { repeat (apply elem_of_cons in Hab as [Hab|Hab]; [injection Hab as -> ->; tauto|]). by apply elem_of_nil in Hab. }
  destruct (C68_life _ _ _ _ Hr Hl Hc) as [[Ho ->]|(Ho & t' & _ & ->)]; rewrite !asked_app, !asked_use;
    destruct Hab' as [[-> ->]|[-> ->]]; cbn; repeat split; try lia; tauto || (intros; lia).
Qed.
Theorem C68_last ms c t d t' l1 l2 : refers ms → lawful ms → creations ms !! c = Some (t, d, Nowhere) →
  log_of (runs init ms) c = l1 ++ Entry t' DeleteRef c :: l2 →
  ¬ owned ms c ∧ last (releases ms c) = Some t' ∧ l2 = [Entry t' ReleaseTsfn c].
Proof.
  intros Hr Hl Hc Hlog.
  assert (Hno : ∀ l l3, asked DeleteRef l = 0 → l = l1 ++ Entry t' DeleteRef c :: l3 → False).
  { intros l l3 Hl0 ->. rewrite asked_app in Hl0. cbn in Hl0. lia. }
  destruct (C68_life _ _ _ _ Hr Hl Hc) as [[Ho E]|(Ho & t'' & Hlast & E)]; rewrite E in Hlog; clear E.
  - exfalso. eapply Hno; [|exact Hlog]. by rewrite asked_app, asked_use.
  - rewrite app_assoc in Hlog. set (pre := birth t c Nowhere ++ flat_map (use t d c) ms) in *.
    assert (Hpre : asked DeleteRef pre = 0) by (unfold pre; by rewrite asked_app, asked_use).
    assert (pre = l1) as Heq.
    { clear -Hpre Hlog. revert l1 Hlog. induction pre as [|e pre IH]; intros [|e1 l1] Hlog; try done; cbn in Hlog.
      - exfalso. injection Hlog as _ Hlog. destruct l1 as [|? []]; discriminate Hlog.
      - exfalso. injection Hlog as -> _. discriminate Hpre.
      - injection Hlog as -> Hlog. f_equal. apply IH; [|done].
        change (asked DeleteRef ([e1] ++ pre) = 0) in Hpre. rewrite asked_app in Hpre. lia. }
    rewrite Heq in Hlog. apply app_inv_head in Hlog. injection Hlog as -> Hl2. split; [done|]. split; [done|].
    by rewrite <- Hl2.
Qed.

(** While someone owns it, or while calls are queued, the function is there; a
    queued call is run even when the last owner let go before. *)
Theorem C68_kept ms c x k : refers ms → lawful ms → creations ms !! c = Some x → fns (runs init ms) !! c = Some k →
  owned ms c ∨ waiting x.1.1 x.1.2 c ms 0 ≠ 0 → gone k = false.
Proof.
  intros Hr Hl Hc Hk Ho. destruct (found _ _ _ Hr Hl Hc) as (k' & Hk' & G). rewrite Hk in Hk'. injection Hk' as <-.
  destruct (gone k) eqn:Eg; [|done]. exfalso. destruct (g_gone _ _ _ _ _ _ _ G Eg) as (Hz & Hq & _).
  rewrite (g_queued _ _ _ _ _ _ _ G) in Hq. apply (owned_count _ _ _ _ _ _ _ G) in Ho || (destruct Ho as [Ho|Ho]; [|done]).
  - apply (owned_count _ _ _ _ _ _ _ G) in Ho. done.
Qed.
Theorem C68_queued ms c x k : refers ms → lawful ms → creations ms !! c = Some x → fns (runs init ms) !! c = Some k →
  queued k = waiting x.1.1 x.1.2 c ms 0.
Proof.
  intros Hr Hl Hc Hk. destruct (found _ _ _ Hr Hl Hc) as (k' & Hk' & G). rewrite Hk in Hk'. injection Hk' as <-.
  exact (g_queued _ _ _ _ _ _ _ G).
Qed.

(** It does not leak: once no one owns it and no call is queued, and JS code
    drops its own, it can be collected. *)
Theorem C68_freed ms c x : refers ms → lawful ms → creations ms !! c = Some x →
  ¬ owned ms c → waiting x.1.1 x.1.2 c ms 0 = 0 →
  ∃ k, fns (runs init (ms ++ [Forget c; Collect c])) !! c = Some k ∧ gone k = true.
Proof.
  intros Hr Hl Hc Ho Hw. destruct (found _ _ _ Hr Hl Hc) as (k & Hk & G).
  pose proof (inv_runs ms Hr Hl) as HI. rewrite runs_app. set (s := runs init ms) in *.
  assert (Hz : count k = 0). { destruct (count k) eqn:E; [done|]. exfalso. apply Ho, (owned_count _ _ _ _ _ _ _ G). lia. }
  assert (Hlt : c < length (fns s)) by (by eapply lookup_lt_Some).
  set (k1 := Fn (home k) (detached k) (count k) (ref_ k) (tsfn k) (loop_ k) (queued k) false (gone k)).
  assert (E1 : step s (Forget c) = put s c k1 []).
  { unfold step. by rewrite (i_undef _ _ HI), (i_panic _ _ HI), Hk. }
  assert (E2 : fns (put s c k1 []) !! c = Some k1) by (unfold put; cbn [fns]; by apply list_lookup_insert).
  cbn [runs]. rewrite E1. exists (Fn (home k) (detached k) (count k) (ref_ k) (tsfn k) (loop_ k) (queued k) false true).
  split; [|done]. unfold step. rewrite E2.
  assert (Eb : held k1 || ref_ k1 || tsfn k1 || negb (queued k1 =? 0) = false).
  { cbn [held ref_ tsfn queued k1].
    by rewrite (g_ref _ _ _ _ _ _ _ G), (g_tsfn _ _ _ _ _ _ _ G), (g_queued _ _ _ _ _ _ _ G), Hw, Hz. }
  rewrite Eb. unfold put at 1 2. cbn [undefined panicked]. rewrite (i_undef _ _ HI), (i_panic _ _ HI). cbn [orb].
  unfold put. cbn [fns]. rewrite list_insert_insert, list_lookup_insert by done. done.
Qed.

(** A function whose creation fails is not owned, and what had been made is
    unmade at once, on the same thread; if the reference itself cannot be made
    the code panics. *)
Theorem C68_failed ms c t d f : refers ms → lawful ms → creations ms !! c = Some (t, d, f) → f ≠ Nowhere →
  ¬ owned ms c ∧ log_of (runs init ms) c = birth t c f.
Proof.
  intros Hr Hl Hc Hf. destruct (found _ _ _ Hr Hl Hc) as (k & Hk & G). cbn [fst snd] in G.
  destruct (g_fail _ _ _ _ _ _ _ G Hf) as (Hz & Hn & Hu). split.
  - rewrite (owned_count _ _ _ _ _ _ _ G). lia.
  - rewrite (g_log _ _ _ _ _ _ _ G), Hz, Hn, Hu. cbn. apply app_nil_r.
Qed.
Theorem C68_failed_balanced t c f : f ≠ Nowhere →
  asked CreateRef (birth t c f) = asked DeleteRef (birth t c f) ∧
  asked CreateTsfn (birth t c f) = asked ReleaseTsfn (birth t c f) ∧
  ∀ e, e ∈ birth t c f → by_ e = t ∧ on e = c.
Proof.
  intros Hf. destruct f; try done; (split; [done|]); (split; [done|]); intros e He; cbn [birth] in He;
    repeat (apply elem_of_cons in He as [->|He]; [done|]); by apply elem_of_nil in He.
Qed.
Theorem C68_reference ms t d : refers ms → lawful ms → panicked (runs init (ms ++ [Create t d AtRef])) = true.
Proof.
  intros Hr Hl. pose proof (inv_runs ms Hr Hl) as HI. rewrite runs_app. cbn [runs]. unfold step.
  rewrite (i_undef _ _ HI), (i_panic _ _ HI). done.
Qed.

(** The event loop is kept running by an owned function only as last set, and
    by default not. *)
Theorem C68_loop ms c x k : refers ms → lawful ms → creations ms !! c = Some x → fns (runs init ms) !! c = Some k →
  (owned ms c → loop_ k = waits ms c false) ∧ (¬ owned ms c → loop_ k = false).
Proof.
  intros Hr Hl Hc Hk. destruct (found _ _ _ Hr Hl Hc) as (k' & Hk' & G). rewrite Hk in Hk'. injection Hk' as <-.
  rewrite (owned_count _ _ _ _ _ _ _ G). split.
  - exact (g_loop _ _ _ _ _ _ _ G).
  - intros Hz. apply (g_loop0 _ _ _ _ _ _ _ G). lia.
Qed.

(** N-API functions that take the environment are called on its thread, if
    releases and settings are on that thread… *)
Theorem C68_threads_partial ms c t d f e : refers ms → lawful ms → creations ms !! c = Some (t, d, f) →
  Forall (at_home t c) ms → e ∈ log_of (runs init ms) c → takes_env (what e) = true → by_ e = t.
Proof.
  intros Hr Hl Hc Hat He Henv.
  assert (Hb : ∀ l, e ∈ l → l = birth t c f → by_ e = t).
  { intros l Hin ->. destruct f; cbn [birth] in Hin;
      repeat (apply elem_of_cons in Hin as [->|Hin]; [done|]); by apply elem_of_nil in Hin. }
  assert (f = Nowhere ∨ f ≠ Nowhere) as [->|Hf] by (destruct f; by (left + right)).
  2: { rewrite (proj2 (C68_failed _ _ _ _ _ Hr Hl Hc Hf)) in He. by eapply Hb. }
  assert (Hu : e ∈ flat_map (use t d c) ms → by_ e = t).
  { intros Hin. apply elem_of_list_In, in_flat_map in Hin as (m & Hm & Hin). apply elem_of_list_In in Hm.
    rewrite Forall_forall in Hat. pose proof (Hat m Hm) as Hh.
    destruct m as [| | |t' c' tk|t' c' b ok| | |]; cbn [use] in Hin; try done; destruct (c' =? c) eqn:E; try done.
    - destruct Hin as [<-|[]]. cbn [what by_ takes_env] in *. destruct d; [done|].
      destruct (t' =? t) eqn:Et; [by apply Nat.eqb_eq|done].
    - destruct Hin as [<-|[]]. cbn [at_home] in Hh. apply Hh. by apply Nat.eqb_eq. }
  destruct (C68_life _ _ _ _ Hr Hl Hc) as [[Ho E]|(Ho & t' & Hlast & E)]; rewrite E in He; clear E.
  - apply elem_of_app in He as [He|He]; [by eapply Hb|by apply Hu].
  - apply elem_of_app in He as [He|He]; [by eapply Hb|]. apply elem_of_app in He as [He|He]; [by apply Hu|].
    assert (Ht : t' = t).
    { apply last_Some_elem_of in Hlast. apply elem_of_list_In, in_flat_map in Hlast as (m & Hm & Hin).
      apply elem_of_list_In in Hm. rewrite Forall_forall in Hat. pose proof (Hat m Hm) as Hh.
      destruct m as [| |t'' c'| | | | |]; cbn [released] in Hin; try done.
      destruct (c' =? c) eqn:Ec; [|done]. destruct Hin as [<-|[]]. cbn [at_home] in Hh. apply Hh. by apply Nat.eqb_eq. }
    unfold death in He. repeat (apply elem_of_cons in He as [->|He]; [done|]). by apply elem_of_nil in He.
Qed.
(** … and only then: a last release on another thread deletes the reference
    there. *)
Theorem C68_threads_refuted :
  ∃ ms c t d e, refers ms ∧ lawful ms ∧ creations ms !! c = Some (t, d, Nowhere) ∧
    e ∈ log_of (runs init ms) c ∧ takes_env (what e) = true ∧ by_ e ≠ t.
Proof.
  exists [Create 0 false Nowhere; Invoke 7 0 true; Release 7 0], 0, 0, false, (Entry 7 DeleteRef 0).
  split; [|split; [|split; [done|split; [|split; [done|done]]]]].
  - intros t d Hin. repeat (apply elem_of_cons in Hin as [Hin|Hin]; [discriminate Hin|]). by apply elem_of_nil in Hin.
  - intros past m future c Heq Hm.
    destruct past as [|m0 [|m1 [|m2 past]]]; cbn in Heq; injection Heq as; subst; try discriminate.
    + cbn in Hm. injection Hm as <-. unfold owned. vm_compute. lia.
    + cbn in Hm. injection Hm as <-. unfold owned. vm_compute. lia.
    + by destruct past.
  - vm_compute. do 4 right. left.
Qed.

(** A history that meets the hypotheses: two functions, one that fails; shared
    by two threads, called from both, queued, released, run and collected. *)
Definition example_life : list move :=
  [Create 0 false Nowhere; Create 0 true AtUnref; Retain 0 0; Invoke 0 0 true; Wait 0 0 true true; Invoke 3 0 true;
   Forget 0; Collect 0; Release 3 0; Release 0 0; Collect 0; Run 0; Collect 0].
Example example_refers : refers example_life.
Proof. intros t d Hin. unfold example_life in Hin.
  repeat (apply elem_of_cons in Hin as [Hin|Hin]; [discriminate Hin|]). by apply elem_of_nil in Hin. Qed.
Example example_safe : undefined (runs init example_life) = false ∧ panicked (runs init example_life) = false.
Proof. by vm_compute. Qed.
Example example_log : log (runs init example_life) =
  [Entry 0 CreateRef 0; Entry 0 CreateTsfn 0; Entry 0 UnrefTsfn 0;
   Entry 0 CreateRef 1; Entry 0 CreateTsfn 1; Entry 0 ReleaseTsfn 1; Entry 0 DeleteRef 1;
   Entry 0 GetRef 0; Entry 0 RefTsfn 0; Entry 3 CallTsfn 0; Entry 0 DeleteRef 0; Entry 0 ReleaseTsfn 0].
Proof. by vm_compute. Qed.
Example example_gone : gone <$> fns (runs init example_life) = [true; false] ∧
  gone <$> fns (runs init (take 11 example_life)) = [false; false].
Proof. by vm_compute. Qed.
Example example_lawful : lawful example_life.
Proof.
  intros past m future c Heq Hm. unfold example_life in Heq.
  do 13 (destruct past as [|m0 past]; cbn [app] in Heq;
    [injection Heq as <- <-;
     first [discriminate Hm|cbn [uses] in Hm; injection Hm as <-; unfold owned; vm_compute; lia]
    |injection Heq as <- Heq]).
  by destruct past.
Qed.

Print Assumptions C68_safe.
Print Assumptions C68_no_panic.
Print Assumptions C68_life.
Print Assumptions C68_once.
Print Assumptions C68_last.
Print Assumptions C68_kept.
Print Assumptions C68_queued.
Print Assumptions C68_freed.
Print Assumptions C68_failed.
Print Assumptions C68_failed_balanced.
Print Assumptions C68_reference.
Print Assumptions C68_loop.
Print Assumptions C68_threads_partial.
Print Assumptions C68_threads_refuted.
