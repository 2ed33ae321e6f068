From Coq Require Import ZifyBool ZifyNat ZifyN.
From stdpp Require Import base numbers list sets.
From Verif Require Import CStrModel CStrSpec CStrProofs CStrOps.
Local Open Scope N_scope.

(** Slots: a concrete value together with the byte string it stands for. *)
Notation slots := (list (option (value * aval))).
Definition concrete (ws : slots) : list (option value) := fmap (M:=list) (fmap (M:=option) fst) ws.
Definition abstract (ws : slots) : astate := fmap (M:=list) (fmap (M:=option) snd) ws.
Definition held (ws : slots) : list (value * aval) := omap (M:=list) id ws.

Lemma concrete_len ws : length (concrete ws) = length ws.
Proof. apply fmap_length. Qed.
Lemma abstract_len ws : length (abstract ws) = length ws.
Proof. apply fmap_length. Qed.
Lemma concrete_snoc ws v a : concrete (ws ++ [Some (v, a)]) = concrete ws ++ [Some v].
Proof. unfold concrete. by rewrite fmap_app. Qed.
Lemma abstract_snoc ws v a : abstract (ws ++ [Some (v, a)]) = abstract ws ++ [Some a].
Proof. unfold abstract. by rewrite fmap_app. Qed.
Lemma concrete_gone ws h : concrete (<[h := None]> ws) = take_out (concrete ws) h.
Proof. unfold concrete, take_out. by rewrite list_fmap_insert. Qed.
Lemma abstract_gone ws h : abstract (<[h := None]> ws) = agone (abstract ws) h.
Proof. unfold abstract, agone. by rewrite list_fmap_insert. Qed.
Lemma held_snoc ws x : held (ws ++ [Some x]) ≡ₚ x :: held ws.
Proof. unfold held. rewrite omap_app. cbn. by rewrite Permutation_app_comm. Qed.
Lemma held_at ws h x : ws !! h = Some (Some x) → held ws ≡ₚ x :: held (<[h := None]> ws).
Proof.
  revert h; induction ws as [|w ws IH]; intros [|h] H; cbn in H; try done.
  - injection H as ->. done.
  - cbn. destruct w as [w|]; cbn.
    + rewrite (IH h H). apply perm_swap.
    + apply (IH h H).
Qed.

Definition SInv (m : mem) (ws : slots) : Prop := Inv m (held ws).

Lemma SInv_snoc m ws v a : Inv m ((v, a) :: held ws) → SInv m (ws ++ [Some (v, a)]).
Proof. intros H. unfold SInv. eapply Inv_perm; [|exact H]. by rewrite held_snoc. Qed.
Lemma SInv_at m ws h v a :
  SInv m ws → ws !! h = Some (Some (v, a)) → Inv m ((v, a) :: held (<[h := None]> ws)).
Proof. intros HI H. eapply Inv_perm; [|exact HI]. by apply held_at. Qed.

(** The outcome of an operation is as the specification says. *)
Definition agrees (oc : outcome) (ex : option res * astate) : Prop :=
  ∃ m' ws', abstract ws' = ex.2 ∧ SInv m' ws' ∧
    oc = match ex.1 with
         | Some r => ODone r (State m' (concrete ws'))
         | None => OPanic (State m' (concrete ws'))
         end.

Lemma agrees_put m ws v a :
  Inv m ((v, a) :: held ws) → agrees (put m (concrete ws) v) (anew (abstract ws) a).
Proof.
  intros HI. exists m, (ws ++ [Some (v, a)]). rewrite abstract_snoc, concrete_snoc. split_and!.
  - done.
  - by apply SInv_snoc.
  - unfold put, anew. cbn [fst snd]. by rewrite concrete_len, abstract_len.
Qed.
Lemma agrees_panic m ws : SInv m ws → agrees (OPanic (State m (concrete ws))) (None, abstract ws).
Proof. intros HI. exists m, ws. done. Qed.
Lemma agrees_done m ws r : SInv m ws → agrees (done m (concrete ws) r) (Some r, abstract ws).
Proof. intros HI. exists m, ws. done. Qed.
Lemma agrees_ill m ws : SInv m ws → agrees (ill (State m (concrete ws))) (aill (abstract ws)).
Proof. intros HI. exists m, ws. done. Qed.

Lemma concrete_at ws h : concrete ws !! h = fmap (M:=option) (fmap (M:=option) fst) (ws !! h).
Proof. unfold concrete. apply list_lookup_fmap. Qed.
Lemma abstract_at ws h : abstract ws !! h = fmap (M:=option) (fmap (M:=option) snd) (ws !! h).
Proof. unfold abstract. apply list_lookup_fmap. Qed.

(** Temporaries. *)
Lemma boxed_new_ok m ws s x :
  Inv m ((VString s, AString x) :: held ws) →
  agrees (boxed_new m (concrete ws) s)
    (if decide (no_inner_nul x) then anew (abstract ws) (ABoxed (strip x)) else (None, abstract ws)).
Proof.
  intros HI. destruct (boxed_try_from_ok _ _ _ _ HI) as [H1 H2]. unfold boxed_new.
  destruct (decide (no_inner_nul x)) as [Hn|Hn].
  - destruct (H1 Hn) as (m' & p & -> & HI'). cbn [req]. by apply agrees_put.
  - rewrite (H2 Hn). cbn [req]. destruct (string_drop_ok _ _ _ _ HI) as (m' & -> & HI'). cbn [req].
    by apply agrees_panic.
Qed.
Lemma boxed_from_cstring_ok m ws b len x :
  Inv m ((VCString b len, ACString x) :: held ws) →
  agrees (boxed_from_cstring m (concrete ws) b len)
    (if utf8 x then anew (abstract ws) (ABoxed x) else (None, abstract ws)).
Proof.
  intros HI. pose proof (Inv_head _ _ _ _ HI) as (Hb & -> & Hx). unfold boxed_from_cstring.
  rewrite (cstr_bytes_ok _ _ _ _ _ Hb). cbn [req]. destruct (utf8 x) eqn:Hu.
  - apply agrees_put. eapply Inv_become; [exact HI|done|]. done.
  - destruct (free_ok m (held ws) _ _ b _ _ HI eq_refl Hb) as (m' & -> & HI'). cbn [req].
    by apply agrees_panic.
Qed.
Lemma shared_from_arc_ok m ws b len x :
  Inv m ((VArc b len, AArc x) :: held ws) →
  agrees (shared_from_arc m (concrete ws) b len)
    (if utf8 x then anew (abstract ws) (AShared x) else (None, abstract ws)).
Proof.
  intros HI. pose proof (Inv_head _ _ _ _ HI) as (n & Hb & -> & Hx). unfold shared_from_arc.
  rewrite (cstr_bytes_ok _ _ _ _ _ Hb). cbn [req]. destruct (utf8 x) eqn:Hu.
  - apply agrees_put. by eapply arc_as_shared.
  - destruct (arc_drop_ok _ _ _ _ _ HI) as (m' & -> & HI'). cbn [req]. by apply agrees_panic.
Qed.
Lemma shared_from_cstring_ok m ws b len x :
  Inv m ((VCString b len, ACString x) :: held ws) →
  agrees (shared_from_cstring m (concrete ws) b len)
    (if utf8 x then anew (abstract ws) (AShared x) else (None, abstract ws)).
Proof.
  intros HI. pose proof (Inv_head _ _ _ _ HI) as (Hb & -> & Hx). unfold shared_from_cstring.
  rewrite (cstr_bytes_ok _ _ _ _ _ Hb). cbn [req].
  destruct (free_ok m (held ws) _ _ b _ _ HI eq_refl Hb) as (m' & -> & HI'). cbn [req].
  unfold arc_new, alloc. apply shared_from_arc_ok. by apply arc_alloc_ok.
Qed.

Ltac slot ws h HI :=
  rewrite ?(concrete_at ws h), ?(abstract_at ws h);
  destruct (ws !! h) as [[[[?s|?s|?b ?len|?p|?b ?len|?b] a]|]|] eqn:?E; cbn [fmap option_fmap option_map fst snd];
  try (pose proof (Inv_head _ _ _ _ (SInv_at _ _ _ _ _ HI ltac:(eassumption))) as ?Hr;
       destruct a as [?x|?x|?x|?x|?x|?x];
       try (exfalso; by first [destruct Hr | destruct p]));
  try (by apply agrees_ill).

Lemma step_refines m ws o :
  SInv m ws → wf_op o → agrees (step (State m (concrete ws)) o) (expected (abstract ws) o).
Proof.
  intros HI Hwf. destruct o as [x e|x e|x|h|h|h|h|h|h|h|h|h|h|h|h|h|h1 h2|h|h|h|h|h|h|h];
    cbn [step expected st_mem st_vals].
  - destruct (string_new_ok m _ x e Hwf HI) as (m' & s & -> & HI'). by apply agrees_put.
  - destruct (buf_new_ok m _ x e HI) as (m' & s & -> & HI'). by apply agrees_put.
  - unfold cstring_new. destruct (decide (0 ∈ x)) as [Hx|Hx].
    + apply contains0_spec in Hx. rewrite Hx. by apply agrees_done.
    + replace (contains0 x) with false by (symmetry; apply not_true_is_false; by rewrite contains0_spec).
      apply agrees_put. by apply cstring_alloc_ok.
  - (* TryFromString *)
    slot ws h HI. pose proof (SInv_at _ _ _ _ _ HI E) as HI'.
    destruct (boxed_try_from_ok _ _ _ _ HI') as [H1 H2]. destruct (decide (no_inner_nul x)) as [Hn|Hn].
    + destruct (H1 Hn) as (m' & p & -> & HI''). cbn [req].
      rewrite <-concrete_gone, <-abstract_gone. by apply agrees_put.
    + rewrite (H2 Hn). cbn [req]. rewrite list_insert_id by (by rewrite concrete_at, E).
      by apply agrees_done.
  - slot ws h HI. pose proof (SInv_at _ _ _ _ _ HI E) as HI'.
    rewrite <-concrete_gone, <-abstract_gone. by apply boxed_new_ok.
  - slot ws h HI. destruct Hr as [Hr Hu]. rewrite (buf_bytes_ok _ _ _ Hr). cbn [req].
    destruct (string_new_ok m _ x 0 Hu HI) as (m' & s' & -> & HI'). by apply boxed_new_ok.
  - slot ws h HI. pose proof (SInv_at _ _ _ _ _ HI E) as HI'.
    rewrite <-concrete_gone, <-abstract_gone. by apply boxed_from_cstring_ok.
  - slot ws h HI. destruct Hr as (Hb & -> & Hx). rewrite (cstr_bytes_ok _ _ _ _ _ Hb). cbn [req].
    unfold alloc. apply boxed_from_cstring_ok. by apply cstring_alloc_ok.
  - (* DropIt *)
    slot ws h HI; pose proof (SInv_at _ _ _ _ _ HI E) as HI'; rewrite <-?concrete_gone, <-?abstract_gone.
    + destruct (string_drop_ok _ _ _ _ HI') as (m' & -> & HI''). by apply agrees_done.
    + destruct (buf_drop_ok _ _ _ _ HI') as (m' & -> & HI''). by apply agrees_done.
    + destruct Hr as (Hb & -> & Hx).
      destruct (free_ok m _ _ _ b _ _ HI' eq_refl Hb) as (m' & -> & HI''). by apply agrees_done.
    + destruct (boxed_drop_ok _ _ _ _ HI') as (m' & -> & HI''). by apply agrees_done.
    + destruct (arc_drop_ok _ _ _ _ _ HI') as (m' & -> & HI''). by apply agrees_done.
    + destruct (shared_drop_ok _ _ _ _ HI') as (m' & -> & HI''). by apply agrees_done.
  - (* CloneIt *)
    slot ws h HI.
    + destruct (as_ref_ok _ _ _ Hr) as (-> & Hx & Hu). cbn [mbind option_bind].
      rewrite ref_to_str_ok by done. cbn [req].
      destruct (string_new_ok m _ x 0 Hu HI) as (m' & s' & -> & HI').
      pose proof (boxed_new_ok _ _ _ _ HI') as Hok.
      rewrite decide_True in Hok by (apply no_inner_nul_cases; by left).
      by rewrite strip_nonul in Hok.
    + pose proof (SInv_at _ _ _ _ _ HI E) as HI'.
      destruct (arc_clone_ok _ _ _ _ _ HI') as (m' & -> & HI''). cbn [req]. apply agrees_put.
      eapply Inv_perm; [|exact HI'']. constructor. symmetry. by apply held_at.
    + pose proof (SInv_at _ _ _ _ _ HI E) as HI'. rewrite (shared_len_ok _ _ _ Hr). cbn [req].
      pose proof Hr as (n & Hb & Hx & Hu).
      destruct (arc_clone_ok m _ b (length x + 1) x (shared_as_arc _ _ _ _ HI')) as (m' & -> & HI'').
      cbn [req]. pose proof (shared_from_arc_ok m' ws b (length x + 1) x) as Hok.
      rewrite Hu in Hok. apply Hok.
      eapply Inv_perm; [constructor; symmetry; exact (held_at _ _ _ E)|].
      apply (Inv_perm _ ((VShared b, AShared x) :: (VArc b (length x + 1), AArc x) :: held (<[h:=None]> ws)));
        [apply perm_swap|]. by eapply arc_as_shared.
  - slot ws h HI. pose proof (SInv_at _ _ _ _ _ HI E) as HI'. rewrite <-concrete_gone, <-abstract_gone.
    destruct (boxed_into_vec_ok _ _ _ _ HI') as (s & -> & HI''). by apply agrees_put.
  - slot ws h HI. pose proof (SInv_at _ _ _ _ _ HI E) as HI'. rewrite <-concrete_gone, <-abstract_gone.
    destruct (boxed_into_string_ok _ _ _ _ HI') as (s & -> & HI''). by apply agrees_put.
  - slot ws h HI. destruct (as_ref_ok _ _ _ Hr) as (-> & Hx & Hu). cbn [mbind option_bind].
    rewrite ref_to_bytes_ok by done. by apply agrees_done.
  - slot ws h HI. destruct (as_ref_ok _ _ _ Hr) as (-> & Hx & Hu). cbn [mbind option_bind].
    rewrite ref_to_bytes_with_null_ok by done. by apply agrees_done.
  - slot ws h HI.
    + destruct (as_ref_ok _ _ _ Hr) as (-> & Hx & Hu). cbn [mbind option_bind].
      rewrite ref_to_str_ok by done. by apply agrees_done.
    + rewrite (shared_len_ok _ _ _ Hr). cbn [mbind option_bind]. destruct Hr as (n & Hb & Hx & Hu).
      rewrite (cstr_bytes_ok _ _ _ _ _ Hb). cbn [mbind option_bind]. rewrite Hu. by apply agrees_done.
  - slot ws h HI. destruct (as_ref_ok _ _ _ Hr) as (-> & Hx & Hu). cbn [mbind option_bind].
    rewrite ref_to_str_with_null_ok by done. by apply agrees_done.
  - (* EqBoxed *)
    rewrite (concrete_at ws h1), (abstract_at ws h1), (concrete_at ws h2), (abstract_at ws h2).
    destruct (ws !! h1) as [[[v1 a1]|]|] eqn:E1; cbn [fmap option_fmap option_map fst snd];
      [|by apply agrees_ill..].
    pose proof (Inv_head _ _ _ _ (SInv_at _ _ _ _ _ HI E1)) as Hr1.
    destruct v1 as [| | |p1| |]; destruct a1 as [| | |x1| |]; try (exfalso; by first [destruct Hr1|destruct p1]);
      try (by apply agrees_ill).
    destruct (ws !! h2) as [[[v2 a2]|]|] eqn:E2; cbn [fmap option_fmap option_map fst snd];
      [|by apply agrees_ill..].
    pose proof (Inv_head _ _ _ _ (SInv_at _ _ _ _ _ HI E2)) as Hr2.
    destruct v2 as [| | |p2| |]; destruct a2 as [| | |x2| |]; try (exfalso; by first [destruct Hr2|destruct p2]);
      try (by apply agrees_ill).
    destruct (as_ref_ok _ _ _ Hr1) as (-> & Hx1 & Hu1), (as_ref_ok _ _ _ Hr2) as (-> & Hx2 & Hu2).
    cbn [mbind option_bind]. unfold ref_eq. rewrite !ref_to_str_ok by done. by apply agrees_done.
  - slot ws h HI.
    + destruct Hr as [Hr Hu]. rewrite (buf_bytes_ok _ _ _ Hr). by apply agrees_done.
    + rewrite (buf_bytes_ok _ _ _ Hr). by apply agrees_done.
  - slot ws h HI. destruct Hr as [Hr Hu]. rewrite (buf_bytes_ok _ _ _ Hr). cbn [req].
    destruct (ref_try_from_ok x []) as [H1 H2]. destruct (decide (terminated x)) as [Ht|Ht].
    + destruct (H1 Ht) as (t & -> & Hx). rewrite ref_to_str_ok; [by apply agrees_done|done|].
      apply terminated_cases in Ht as [->|(y & -> & Hy)]; [done|].
      rewrite strip_snoc. by rewrite utf8_snoc in Hu.
    + rewrite (H2 Ht). by apply agrees_done.
  - slot ws h HI. pose proof (SInv_at _ _ _ _ _ HI E) as HI'. rewrite <-concrete_gone, <-abstract_gone.
    destruct Hr as (Hb & -> & Hx). rewrite (cstr_bytes_ok _ _ _ _ _ Hb). cbn [req].
    destruct (free_ok m _ _ _ b _ _ HI' eq_refl Hb) as (m' & -> & HI''). cbn [req].
    unfold arc_new, alloc. apply agrees_put. by apply arc_alloc_ok.
  - slot ws h HI. pose proof (SInv_at _ _ _ _ _ HI E) as HI'. rewrite <-concrete_gone, <-abstract_gone.
    by apply shared_from_arc_ok.
  - slot ws h HI. destruct Hr as [Hr Hu]. rewrite (buf_bytes_ok _ _ _ Hr). cbn [req].
    unfold cstring_new. destruct (decide (0 ∈ x)) as [Hx|Hx].
    + apply contains0_spec in Hx. rewrite Hx. by apply agrees_panic.
    + replace (contains0 x) with false by (symmetry; apply not_true_is_false; by rewrite contains0_spec).
      unfold alloc. pose proof (cstring_alloc_ok _ _ x HI Hx) as HI'.
      pose proof (shared_from_cstring_ok _ _ _ _ _ HI') as Hok. by rewrite Hu in Hok.
  - slot ws h HI. pose proof (SInv_at _ _ _ _ _ HI E) as HI'. rewrite <-concrete_gone, <-abstract_gone.
    by apply shared_from_cstring_ok.
  - slot ws h HI. destruct Hr as (Hb & -> & Hx). rewrite (cstr_bytes_ok _ _ _ _ _ Hb). cbn [req].
    unfold arc_new, alloc. apply shared_from_arc_ok. by apply arc_alloc_ok.
Qed.

Lemma run_refines_from m ws os :
  SInv m ws → Forall wf_op os →
  ∃ m' ws', run (State m (concrete ws)) os
            = Some ((expected_run (abstract ws) os).1, State m' (concrete ws')) ∧
    abstract ws' = (expected_run (abstract ws) os).2 ∧ SInv m' ws'.
Proof.
  intros HI Hos. revert m ws HI. induction Hos as [|o os Ho Hos IH]; intros m ws HI.
  - exists m, ws. done.
  - cbn [run expected_run]. destruct (step_refines m ws o HI Ho) as (m1 & ws1 & Ha & HI1 & Es).
    destruct (expected (abstract ws) o) as [r vs1] eqn:Ee. cbn in Ha, Es. subst vs1.
    destruct (IH m1 ws1 HI1) as (m2 & ws2 & Er & Ha2 & HI2).
    destruct (expected_run (abstract ws1) os) as [rs vs2]. cbn in Er, Ha2. subst vs2.
    exists m2, ws2. rewrite Es. destruct r; rewrite Er; done.
Qed.

Lemma run_refines os :
  Forall wf_op os →
  ∃ m' ws', run init os = Some ((expected_run [] os).1, State m' (concrete ws')) ∧
    abstract ws' = (expected_run [] os).2 ∧ SInv m' ws'.
Proof. intros Hos. by apply (run_refines_from [] []); [apply Inv_nil|]. Qed.

(** Blocks and the values in the slots. *)
Lemma SInv_owned m ws b k :
  SInv m ws → m !! b = Some k → b_live k = true →
  ∃ h v, concrete ws !! h = Some (Some v) ∧ owns v b.
Proof.
  intros [H1 H2 H3] Hk Hl. specialize (H2 b k Hk). specialize (H3 b k Hk). rewrite Hl in H3.
  symmetry in H3. apply bool_decide_eq_true in H3. rewrite H2 in H3. clear H1 H2.
  assert (∃ x, x ∈ held ws ∧ own x.1 = Some b) as ([v a] & Hx & Ho).
  { revert H3. induction (held ws) as [|x l IH]; [cbn; lia|]. rewrite occ_cons.
    destruct (decide (own x.1 = Some b)); [eexists; split; [left|done]|].
    intros H. destruct IH as (y & ? & ?); [done|]. eexists; split; [by right|done]. }
  unfold held in Hx. apply elem_of_list_omap in Hx as (w & Hw & Ew). unfold id in Ew. subst w.
  apply elem_of_list_lookup in Hw as [h Hh]. exists h, v. by rewrite concrete_at, Hh.
Qed.
