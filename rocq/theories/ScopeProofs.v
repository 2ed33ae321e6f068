(** Lemmas about names in generated code. *)

From Coq Require Import NArith List Bool Lia String Ascii.
From stdpp Require Import base numbers list list_numbers option strings pretty.
From Verif Require Import ScopeModel ScopeSpec.

(** ** Looking names up *)

Lemma resolve_ty_past b b' rs x : resolve_from b rs NType x = resolve_from b' rs NType x.
Proof.
  revert b b'. induction rs as [|[xs|xs|] rs IH]; intros b b'; cbn [resolve_from]; [done|apply IH|..].
  - destruct (find_item _ _ _); [done|apply IH].
  - done.
Qed.
Lemma resolve_type_boundary rs x : resolve (Boundary :: rs) NType x = resolve rs NType x.
Proof. unfold resolve. cbn [resolve_from]. apply resolve_ty_past. Qed.
Lemma resolve_type_locals xs rs x : resolve (Locals xs :: rs) NType x = resolve rs NType x.
Proof. done. Qed.
Lemma resolve_items xs rs n x : resolve (Items xs :: rs) n x =
  match find_item n (name x) xs with Some d => Some (RItem d) | None => resolve rs n x end.
Proof. done. Qed.

Lemma find_item_none n s xs : (∀ d, (n, s, d) ∉ xs) → find_item n s xs = None.
Proof.
  induction xs as [|[[m t] d] xs IH]; intros H; cbn [find_item]; [done|]. destruct (decide _) as [[= -> ->]|].
  - destruct (H d). left.
  - apply IH. intros d' Hd. apply (H d'). by right.
Qed.
Lemma find_item_in n s xs d : find_item n s xs = Some d → (n, s, d) ∈ xs.
Proof.
  induction xs as [|[[m t] d'] xs IH]; cbn [find_item]; [done|]. destruct (decide _) as [[= -> ->]|].
  - intros [= ->]. left.
  - intros H. right. by apply IH.
Qed.
Lemma find_user n s xs d : find_item n s (map (λ x : ns * string * nat, (x.1, DUser x.2)) xs) = Some d →
  ∃ k, d = DUser k ∧ (n, s, k) ∈ xs.
Proof.
  intros H%find_item_in. apply elem_of_list_fmap in H as ([[m t] k] & [= -> -> ->] & H). by exists k.
Qed.
Lemma find_user_none f n s : ¬ declares f n s → find_item n s (map (λ x : ns * string * nat, (x.1, DUser x.2)) (body f)) = None.
Proof.
  intros H. destruct (find_item _ _ _) as [d|] eqn:E; [|done]. apply find_user in E as (k & _ & Hk). destruct H. by exists k.
Qed.

Lemma find_local_none x xs : x ∉ xs.*1 → find_local x xs = None.
Proof.
  induction xs as [|[y v] xs IH]; cbn [find_local]; [done|]. intros H. cbn in H. apply not_elem_of_cons in H as [H1 H2].
  rewrite decide_False by done. by apply IH.
Qed.
Lemma find_local_in x xs v : find_local x xs = Some v → (x, v) ∈ xs.
Proof.
  induction xs as [|[y w] xs IH]; cbn [find_local]; [done|]. destruct (decide _) as [->|]; [intros [= ->]; left|].
  intros H. right. by apply IH.
Qed.
Lemma find_local_app x xs ys : find_local x (xs ++ ys) =
  match find_local x xs with Some v => Some v | None => find_local x ys end.
Proof. induction xs as [|[y v] xs IH]; cbn [find_local app]; [done|]. by destruct (decide _). Qed.
Lemma find_bind_all x xs (v : value) : find_local x (bind_all xs v) = if decide (x ∈ xs) then Some v else None.
Proof.
  induction xs as [|y xs IH]; cbn [bind_all map find_local].
  - rewrite decide_False; [done|]. apply not_elem_of_nil.
  - destruct (decide (x = y)) as [->|N].
    + rewrite decide_True; [done|left].
    + unfold bind_all in IH. rewrite IH. destruct (decide (x ∈ xs)) as [H|H].
      * rewrite decide_True; [done|by right].
      * rewrite decide_False; [done|]. rewrite elem_of_cons. tauto.
Qed.
Lemma find_concat x bs (ws : list value) i b w : NoDup (concat bs) → bs !! i = Some b → x ∈ b → ws !! i = Some w →
  find_local x (concat (zip_with bind_all bs ws)) = Some w.
Proof.
  revert ws i. induction bs as [|b0 bs IH]; intros [|w0 ws] i ND Hb Hx Hw; try done.
  cbn [zip_with concat]. rewrite find_local_app, find_bind_all. cbn [concat] in ND.
  change (NoDup (b0 ++ concat bs)) in ND. apply NoDup_app in ND as (_ & N1 & N2). destruct i as [|i]; cbn in Hb, Hw.
  - injection Hb as ->. injection Hw as ->. by rewrite decide_True.
  - rewrite decide_False.
    + by eapply IH.
    + intros H. apply (N1 _ H). apply elem_of_list_In, in_concat. exists b.
      split; apply elem_of_list_In; [by eapply elem_of_list_lookup_2|done].
Qed.
Lemma find_zip x xs (ws : list value) i w : NoDup xs → xs !! i = Some x → ws !! i = Some w → find_local x (zip xs ws) = Some w.
Proof.
  revert ws i. induction xs as [|y xs IH]; intros [|w0 ws] i ND Hx Hw; try done.
  apply NoDup_cons in ND as [N1 N2]. cbn [zip zip_with find_local]. destruct i as [|i]; cbn in Hx, Hw.
  - injection Hx as ->. injection Hw as ->. by rewrite decide_True.
  - rewrite decide_False; [by eapply IH|]. intros ->. destruct N1. by eapply elem_of_list_lookup_2.
Qed.

(** ** Types *)

Lemma resolve_ty_ext rs rs' t : (∀ s, s ∈ tnames t → resolve rs NType (call_site s) = resolve rs' NType (call_site s)) →
  resolve_ty rs t = resolve_ty rs' t.
Proof.
  intros H. unfold resolve_ty. f_equal. revert H. generalize (tnames t). intros l H.
  induction l as [|s l IH]; [done|]. cbn. rewrite H by left. rewrite IH; [done|]. intros s' Hs. apply H. by right.
Qed.
Lemma layout_ext P rs rs' t : (∀ s, s ∈ tnames t → resolve rs NType (call_site s) = resolve rs' NType (call_site s)) →
  layout_of P rs t = layout_of P rs' t.
Proof. intros H. unfold layout_of. by rewrite (resolve_ty_ext rs rs'). Qed.
Lemma layouts_ext P rs rs' ts : (∀ t s, t ∈ ts → s ∈ tnames t → resolve rs NType (call_site s) = resolve rs' NType (call_site s)) →
  mapM (layout_of P rs) ts = mapM (layout_of P rs') ts.
Proof.
  induction ts as [|t ts IH]; intros H; [done|]. cbn. rewrite (layout_ext P rs rs').
  - rewrite IH; [done|]. intros t' s Ht. apply H. by right.
  - intros s. apply H. left.
Qed.
Lemma layout_locals P xs rs t : layout_of P (Locals xs :: rs) t = layout_of P rs t.
Proof. by apply layout_ext. Qed.

(** Scopes of users give items of users. *)
Lemma user_resolve b rs x d : Forall user_rib rs → resolve_from b rs NType x = Some (RItem d) → is_user d = true.
Proof.
  revert b. induction rs as [|[xs|xs|] rs IH]; intros b HF; cbn [resolve_from]; [done|..]; apply Forall_cons in HF as [HR HF].
  - by apply IH.
  - destruct (find_item _ _ _) as [d'|] eqn:E; [|by apply IH]. intros [= ->]. apply find_item_in in E.
    exact (proj1 (Forall_forall _ _) HR _ E).
  - by apply IH.
Qed.
Lemma outer_user f : Forall user_rib (blocks f) → Forall user_rib (outer f).
Proof.
  intros H. unfold outer. apply Forall_app. split; [done|]. repeat constructor; cbn; apply Forall_forall;
    intros x (y & -> & _)%elem_of_list_fmap; done.
Qed.
Lemma resolve_ty_user rs t rt : Forall user_rib rs → resolve_ty rs t = Some rt → forallb is_user (args rt) = true.
Proof.
  intros HF. unfold resolve_ty. destruct (mapM _ _) as [ds|] eqn:E; [|done]. intros [= <-]. cbn [args].
  apply forallb_forall. intros d Hd. apply elem_of_list_In, elem_of_list_lookup in Hd as [i Hi].
  apply mapM_Some_1 in E. eapply Forall2_lookup_r in E as (s & _ & Hs); [|exact Hi].
  destruct (resolve rs NType (call_site s)) as [[v|d']|] eqn:ER; try done. injection Hs as ->. by eapply user_resolve.
Qed.
Lemma layout_user P rs t rt : Forall user_rib rs → resolve_ty rs t = Some rt → layout_of P rs t = Some (clayout P rt).
Proof. intros HF H. unfold layout_of. rewrite H. cbn. by rewrite (resolve_ty_user _ _ _ HF H). Qed.
Lemma layouts_user P rs ts rts : Forall user_rib rs → mapM (resolve_ty rs) ts = Some rts →
  mapM (layout_of P rs) ts = Some (map (clayout P) rts).
Proof.
  intros HF H. apply mapM_Some_1 in H. apply mapM_Some_2. apply Forall2_fmap_r. eapply Forall2_impl; [exact H|].
  intros t rt Ht. cbn. by eapply layout_user.
Qed.

Lemma header_ok P f : accepted P f → ∃ cs r, header P f = Some (cs, r) ∧ c_types P f = Some (cs, r) ∧
  mapM (layout_of P (outer f)) (map snd (params f)) = Some cs ∧ layout_of P (outer f) (ret f) = Some r ∧
  length cs = length (params f).
Proof.
  intros [HS HN (ts & r & HG & HT & HR) HP]. exists (map (clayout P) ts), (clayout P r). unfold header, c_types. rewrite HG.
  pose proof (outer_user f HS) as HU.
  assert (HU' : Forall user_rib (Boundary :: outer f)) by by constructor.
  pose proof (layouts_user P _ _ _ HU' HT) as HL. pose proof (layout_user P _ _ _ HU' HR) as HL'.
  assert (E : ∀ s, resolve (Boundary :: outer f) NType (call_site s) = resolve (outer f) NType (call_site s)) by (intros; apply resolve_type_boundary).
  assert (E2 : ∀ s, resolve (Boundary :: Items [(NValue, "gen_def"%string, DInner)] :: outer f) NType (call_site s) = resolve (outer f) NType (call_site s)).
  { intros s. rewrite resolve_type_boundary, resolve_items. done. }
  rewrite (layouts_ext P _ (outer f)) in HL by (intros; apply E). rewrite (layout_ext P _ (outer f)) in HL' by (intros; apply E).
  rewrite (layouts_ext P _ (outer f)) by (intros; apply E2). rewrite (layout_ext P _ (outer f) (ret f)) by (intros; apply E2).
  rewrite HL, HL'. split_and!; try done. apply mapM_length in HL. rewrite !map_length in *. lia.
Qed.

(** ** Parameters *)

Lemma each_args_lookup f i p : params f !! i = Some p → each_args f !! i = Some (each_arg i p.1).
Proof. intros H. unfold each_args. by rewrite list_lookup_imap, H. Qed.
Lemma each_args_length f : length (each_args f) = length (params f).
Proof. apply imap_length. Qed.
Lemma shim_binds_head i p b : shim_binds i p = Some b → each_arg i p ∈ b.
Proof.
  unfold shim_binds. destruct p as [x [[simple xs]|]|xs]; [|intros [= <-]; left..].
  destruct (kept x); [destruct simple; [|done]|]; intros [= <-]; left.
Qed.

Lemma c_value_args f bs cs vs rs : mapM (λ x : option (list ident), x) (imap (λ i p, shim_binds i p.1) (params f)) = Some bs →
  NoDup (concat bs) → length vs = length cs → length cs = length (params f) →
  mapM (c_value (Locals (concat (zip_with bind_all bs (zip_with (λ c v, (VC c, v)) cs vs))) :: rs)) (each_args f) = Some (zip cs vs).
Proof.
  intros HB ND L1 L2. apply mapM_Some_1 in HB. apply mapM_Some_2. apply Forall2_same_length_lookup_2.
  { rewrite each_args_length, zip_with_length. lia. }
  intros i x w Hx Hw. apply lookup_zip_with_Some in Hw as (c & v & -> & Hc & Hv).
  destruct (lookup_lt_is_Some_2 (params f) i) as [p Hp]; [apply lookup_lt_Some in Hc; lia|].
  rewrite (each_args_lookup _ _ _ Hp) in Hx. injection Hx as <-.
  assert (HI : imap (λ i (p : pat * ty), shim_binds i p.1) (params f) !! i = Some (shim_binds i p.1)) by by rewrite list_lookup_imap, Hp.
  eapply Forall2_lookup_l in HB as (b & Hb & HS); [|exact HI].
  unfold c_value, resolve. cbn [resolve_from]. rewrite (find_concat _ bs _ i b (VC c, v)); [done|done|done|by apply shim_binds_head|].
  by rewrite lookup_zip_with, Hc, Hv.
Qed.

Lemma shim_name_ne f : shim_name f ≠ uname (fname f).
Proof.
  unfold shim_name. intros H. apply (f_equal String.length) in H. revert H.
  assert (E : ∀ a b, String.length (a +:+ b) = String.length a + String.length b).
  { induction a as [|c a IH]; intros b; [done|]. exact (f_equal S (IH b)). }
  rewrite E. change (String.length "__ffi_export__"%string) with 14. lia.
Qed.

(** What the call in the shim calls. *)
Lemma callee_past f b : resolve_from b (in_block f) NValue (of_uid (fname f)) =
  match find_item NValue (uname (fname f)) (map (λ x : ns * string * nat, (x.1, DUser x.2)) (body f)) with
  | Some d => Some (RItem d)
  | None =>
      match find_local (of_uid (fname f)) (flat_map (λ p, bind_all (binds p.1) (VCtx, 0%N)) (params f)) with
      | Some v => if b then None else Some (RLocal v)
      | None => resolve_from true (outer f) NValue (of_uid (fname f))
      end
  end.
Proof.
  unfold in_block, in_body, items. cbn [resolve_from find_item of_uid name].
  rewrite decide_False; [done|]. intros [= H]. by destruct (shim_name_ne f).
Qed.
Lemma find_binds f x : find_local x (flat_map (λ p, bind_all (binds p.1) (VCtx, 0%N)) (params f)) = None ↔ ¬ binds_name f x.
Proof.
  unfold binds_name. induction (params f) as [|p ps IH]; cbn [flat_map].
  - split; [|done]. intros _ (p & H & _). by apply elem_of_nil in H.
  - rewrite find_local_app, find_bind_all. destruct (decide (x ∈ binds p.1)) as [H|H].
    + split; [done|]. intros []. exists p. split; [left|done].
    + rewrite IH. split.
      * intros HN (q & [->|Hq]%elem_of_cons & Hx); [done|]. apply HN. by exists q.
      * intros HN (q & Hq & Hx). apply HN. exists q. split; [by right|done].
Qed.

Definition shim_scope (bs : list (list ident)) (cs : list nat) (vs : list N) (f : fn) : list rib :=
  Locals (concat (zip_with bind_all bs (zip_with (λ c v, (VC c, v)) cs vs))) :: Boundary :: in_block f.
Lemma call_user P f bs cs vs k r v :
  mapM (λ x : option (list ident), x) (imap (λ i p, shim_binds i p.1) (params f)) = Some bs →
  NoDup (concat bs) → length vs = length (params f) → length cs = length (params f) →
  call_raw P (shim_scope bs cs vs f) (DUser k) (each_args f) = Some (r, v) ↔
  ∃ ts rt, sig P k = Some (ts, rt) ∧ map (clayout P) ts = cs ∧ clayout P rt = r ∧ v = sem P k vs.
Proof.
  intros HB ND L1 L2. unfold call_raw, shim_scope. rewrite (c_value_args f bs cs vs _ HB ND) by lia.
  destruct (sig P k) as [[ts rt]|]; cbn [mbind option_bind].
  - change (map fst (zip cs vs)) with (fst <$> zip cs vs). change (map snd (zip cs vs)) with (snd <$> zip cs vs).
    rewrite fst_zip, snd_zip by lia. destruct (decide _) as [E|E].
    + split; [intros [= <- <-]; by exists ts, rt|]. intros (ts' & rt' & [= <- <-] & _ & <- & ->). done.
    + split; [done|]. intros (ts' & rt' & [= <- <-] & H & _). by destruct E.
  - split; [done|]. by intros (? & ? & ? & _).
Qed.

(** ** The parameters of the shim *)

Definition gen (i : nat) : ident := Ident (ARG_PREFIX +:+ pretty (N.of_nat i)) CMixed.
Lemma gen_inj i j : gen i = gen j → i = j.
Proof. intros [= H]. apply (inj pretty) in H. lia. Qed.
Lemma each_arg_cases i p : (∃ x sub, p = PIdent x sub ∧ kept x = true ∧ each_arg i p = of_uid x) ∨ each_arg i p = gen i.
Proof. destruct p as [x sub|xs]; cbn [each_arg]; [|by right]. destruct (kept x) eqn:E; [|by right]. left. by exists x, sub. Qed.
Lemma shim_binds_cases i p b : shim_binds i p = Some b → b = binds p ∨ b = [gen i].
Proof.
  destruct p as [x [[[|] xs]|]|xs]; cbn [shim_binds each_arg binds]; destruct (kept x) || idtac;
    try destruct (kept x); intros [= <-]; auto.
Qed.
Lemma binds_user p x : x ∈ binds p → ctx x ≠ CMixed.
Proof.
  assert (H : ∀ (xs : list uid) y, y ∈ map of_uid xs → ctx y ≠ CMixed).
  { intros xs y (u & -> & _)%elem_of_list_fmap. done. }
  destruct p as [u [[b xs]|]|xs]; cbn [binds].
  - intros [->|Hx]%elem_of_cons; [done|by eapply H].
  - intros ->%elem_of_list_singleton. done.
  - apply H.
Qed.
Lemma elem_flat_map {A} (g : A → list ident) (l : list A) x : x ∈ flat_map g l ↔ ∃ y, y ∈ l ∧ x ∈ g y.
Proof.
  rewrite elem_of_list_In, in_flat_map. split; intros (y & H1 & H2); exists y; rewrite ?elem_of_list_In in *; done.
Qed.
Lemma shim_nodup k ps bs : mapM (λ x : option (list ident), x) (imap (λ i p, shim_binds (k + i) p.1) ps) = Some bs →
  NoDup (flat_map (λ p : pat * ty, binds p.1) ps) →
  NoDup (concat bs) ∧ ∀ x, x ∈ concat bs → x ∈ flat_map (λ p : pat * ty, binds p.1) ps ∨ ∃ i, k ≤ i ∧ x = gen i.
Proof.
  revert k bs. induction ps as [|p ps IH]; intros k bs HB ND.
  { injection HB as <-. split; [constructor|]. intros x Hx. by apply elem_of_nil in Hx. }
  rewrite imap_cons in HB. cbn [mapM] in HB. rewrite Nat.add_0_r in HB.
  destruct (shim_binds k p.1) as [b|] eqn:EB; [|done]. cbn [mbind option_bind] in HB.
  destruct (mapM _ _) as [bs'|] eqn:EM; [|done]. cbn [mbind option_bind] in HB. injection HB as <-.
  cbn [flat_map] in ND |- *. apply NoDup_app in ND as (N1 & N2 & N3).
  destruct (IH (S k) bs') as [IH1 IH2]; [|done|].
  { rewrite <- EM. f_equal. apply imap_ext. intros i q _. cbn. by rewrite Nat.add_succ_r. }
  change (concat (b :: bs')) with (b ++ concat bs').
  apply shim_binds_cases in EB. split.
  - apply NoDup_app. split; [|split; [|done]].
    + destruct EB as [->| ->]; [done|apply NoDup_singleton].
    + intros x Hx Hx'. destruct EB as [->| ->].
      * apply IH2 in Hx' as [H|(i & _ & ->)]; [by apply (N2 x)|]. by apply binds_user in Hx.
      * apply elem_of_list_singleton in Hx as ->. apply IH2 in Hx' as [H|(i & Hi & E)].
        -- apply elem_flat_map in H as (q & _ & Hq). by apply binds_user in Hq.
        -- apply gen_inj in E. lia.
  - intros x [Hx|Hx]%elem_of_app.
    + destruct EB as [->| ->]; [left; by apply elem_of_app; left|]. apply elem_of_list_singleton in Hx as ->. right. by exists k.
    + apply IH2 in Hx as [H|(i & Hi & ->)]; [left; by apply elem_of_app; right|]. right. exists i. split; [lia|done].
Qed.
Lemma shim_binds_some f : simple_params f →
  ∃ bs, mapM (λ x : option (list ident), x) (imap (λ i p, shim_binds i p.1) (params f)) = Some bs.
Proof.
  intros HS. apply mapM_is_Some. apply Forall_lookup. intros i o Ho. rewrite list_lookup_imap in Ho.
  destruct (params f !! i) as [p|] eqn:Ep; [|done]. injection Ho as <-. apply elem_of_list_lookup_2 in Ep.
  destruct (p.1) as [x [[b xs]|]|xs] eqn:E; cbn [shim_binds]; [|by eexists..].
  rewrite (HS p x b xs Ep E). destruct (kept x); by eexists.
Qed.
Lemma each_args_nodup f : NoDup (flat_map (λ p, binds p.1) (params f)) → simple_params f → NoDup (each_args f).
Proof.
  intros ND HS. destruct (shim_binds_some f HS) as [bs HB].
  destruct (shim_nodup 0 (params f) bs HB ND) as [N _]. apply NoDup_alt. intros i j x Hi Hj.
  destruct (lookup_lt_is_Some_2 (params f) i) as [p Hp]; [rewrite <- each_args_length; by eapply lookup_lt_Some|].
  destruct (lookup_lt_is_Some_2 (params f) j) as [q Hq]; [rewrite <- each_args_length; by eapply lookup_lt_Some|].
  rewrite (each_args_lookup _ _ _ Hp) in Hi. rewrite (each_args_lookup _ _ _ Hq) in Hj. injection Hi as Hi. injection Hj as Hj.
  apply mapM_Some_1 in HB.
  assert (H : ∀ k r, params f !! k = Some r → ∃ b, bs !! k = Some b ∧ each_arg k r.1 ∈ b).
  { intros k r Hr. assert (HI : imap (λ i (p : pat * ty), shim_binds i p.1) (params f) !! k = Some (shim_binds k r.1)) by by rewrite list_lookup_imap, Hr.
    eapply Forall2_lookup_l in HB as (b & Hb & E); [|exact HI]. exists b. split; [done|]. by apply shim_binds_head. }
  destruct (H _ _ Hp) as (b & Hb & Hx). destruct (H _ _ Hq) as (b' & Hb' & Hx'). rewrite Hi in Hx. rewrite Hj in Hx'.
  clear -N Hb Hb' Hx Hx'. revert i j Hb Hb'. induction bs as [|b0 bs IH]; intros i j Hb Hb'; [done|].
  change (NoDup (b0 ++ concat bs)) in N. apply NoDup_app in N as (_ & N1 & N2).
  assert (HC : ∀ k b, bs !! k = Some b → x ∈ b → x ∈ concat bs).
  { intros k c Hk Hc. apply elem_of_list_In, in_concat. exists c. split; apply elem_of_list_In; [by eapply elem_of_list_lookup_2|done]. }
  destruct i as [|i], j as [|j]; cbn in Hb, Hb'; simplify_eq; [done|..].
  - destruct (N1 x); eauto.
  - destruct (N1 x); eauto.
  - f_equal. by apply IH.
Qed.

(** The generated names are not that of the shim. *)
Fixpoint unders (s : string) : nat :=
  match s with EmptyString => 0 | String c s => (if Ascii.eqb c "_"%char then 1 else 0) + unders s end.
Lemma unders_app a b : unders (a +:+ b) = unders a + unders b.
Proof. induction a as [|c a IH]; [done|]. change (String c a +:+ b) with (String c (a +:+ b)). cbn [unders]. rewrite IH. lia. Qed.
Lemma unders_go x s : unders s = 0 → unders (pretty_N_go x s) = 0.
Proof.
  revert s. induction (N.lt_wf_0 x) as [x _ IH]; intros s Hs.
  assert (x = 0 ∨ 0 < x)%N as [->|Hx] by lia; [by rewrite pretty_N_go_0|]. rewrite pretty_N_go_step by done.
  apply IH; [by apply N.div_lt|]. cbn [unders]. rewrite Hs.
  assert (H : ∀ n, Ascii.eqb (pretty_N_char n) "_"%char = false); [|by rewrite H].
  intros n. unfold pretty_N_char. by repeat case_match.
Qed.
Lemma unders_pretty x : unders (pretty (x : N)) = 0.
Proof. unfold pretty, pretty_N. case_decide; [done|]. by apply unders_go. Qed.
Lemma shim_name_gen f i : shim_name f ≠ name (gen i).
Proof.
  unfold shim_name, gen. cbn [name]. intros H. apply (f_equal unders) in H. rewrite !unders_app, unders_pretty in H.
  change (unders "__ffi_export__"%string) with 5 in H. change (unders ARG_PREFIX) with 3 in H. lia.
Qed.
Lemma each_arg_not_mixed f s : s ∉ map (name ∘ gen) (seq 0 (length (params f))) → Ident s CMixed ∉ each_args f.
Proof.
  intros HS [i Hi]%elem_of_list_lookup. destruct (lookup_lt_is_Some_2 (params f) i) as [p Hp]; [rewrite <- each_args_length; by eapply lookup_lt_Some|].
  rewrite (each_args_lookup _ _ _ Hp) in Hi. injection Hi as Hi. destruct (each_arg_cases i p.1) as [(x & sub & _ & _ & E)|E]; rewrite E in Hi; [done|].
  destruct HS. apply elem_of_list_fmap. exists i. split; [unfold compose; by rewrite Hi|]. apply elem_of_seq. apply lookup_lt_Some in Hp. lia.
Qed.

(** ** Locals one after the other *)

Lemma resolve_cons_local x v rs n y : n = NType ∨ y ≠ x → resolve (Locals [(x, v)] :: rs) n y = resolve rs n y.
Proof.
  intros H. unfold resolve. cbn [resolve_from find_local]. destruct n; [done|]. rewrite decide_False; [done|]. by destruct H.
Qed.
Lemma resolve_local_hit x v rs : resolve (Locals [(x, v)] :: rs) NValue x = Some (RLocal v).
Proof. unfold resolve. cbn [resolve_from find_local]. by rewrite decide_True. Qed.

Lemma converted_inv P xs : ∀ ts rs rs', NoDup xs → length ts = length xs → converted P rs (zip xs ts) = Some rs' →
  (∀ i x t, xs !! i = Some x → ts !! i = Some t → ∃ c v, layout_of P rs t = Some c ∧ js_value rs x = Some (napi P c, v) ∧ c_value rs' x = Some (c, v)) ∧
  (∀ n y, n = NType ∨ y ∉ xs → resolve rs' n y = resolve rs n y).
Proof.
  induction xs as [|x xs IH]; intros [|t ts] rs rs' ND HL; try done.
  { cbn [zip zip_with converted]. intros [= <-]. done. }
  apply NoDup_cons in ND as [N1 N2]. cbn [zip zip_with converted].
  destruct (layout_of P rs t) as [c|] eqn:EL; [|done]. cbn [mbind option_bind].
  destruct (js_value rs x) as [[j v]|] eqn:EJ; [|done]. cbn [mbind option_bind]. destruct (decide _) as [->|]; [|done].
  intros HC. apply IH in HC as [H1 H2]; [|done|by injection HL]. split.
  - intros [|i] x' t' Hx Ht; cbn in Hx, Ht.
    + injection Hx as <-. injection Ht as <-. exists c, v. split; [done|]. split; [done|].
      unfold c_value. rewrite H2 by by right. by rewrite resolve_local_hit.
    + destruct (H1 i x' t' Hx Ht) as (c' & v' & E1 & E2 & E3). exists c', v'. rewrite layout_locals in E1. split; [done|].
      split; [|done]. unfold js_value in *. rewrite resolve_cons_local in E2; [done|].
      right. intros ->. destruct N1. by eapply elem_of_list_lookup_2.
  - intros n y Hy. rewrite H2.
    + apply resolve_cons_local. destruct Hy as [Hy|Hy]; [by left|right]. apply not_elem_of_cons in Hy. tauto.
    + destruct Hy as [Hy|Hy]; [by left|right]. apply not_elem_of_cons in Hy. tauto.
Qed.
Lemma converted_some P xs : ∀ ts rs, NoDup xs → length ts = length xs →
  (∀ i x t, xs !! i = Some x → ts !! i = Some t → ∃ c v, layout_of P rs t = Some c ∧ js_value rs x = Some (napi P c, v)) →
  ∃ rs', converted P rs (zip xs ts) = Some rs'.
Proof.
  induction xs as [|x xs IH]; intros [|t ts] rs ND HL H; try done; [by exists rs|].
  apply NoDup_cons in ND as [N1 N2]. cbn [zip zip_with converted].
  destruct (H 0 x t eq_refl eq_refl) as (c & v & E1 & E2). rewrite E1. cbn [mbind option_bind]. rewrite E2. cbn [mbind option_bind].
  rewrite decide_True by done. apply IH; [done|by injection HL|]. intros i x' t' Hx Ht.
  destruct (H (S i) x' t' Hx Ht) as (c' & v' & F1 & F2). exists c', v'. rewrite layout_locals. split; [done|].
  unfold js_value in *. rewrite resolve_cons_local; [done|]. right. intros ->. destruct N1. by eapply elem_of_list_lookup_2.
Qed.
Lemma wrapped_inv xs : ∀ rs rs', NoDup xs → wrapped rs xs = Some rs' →
  (∀ x, x ∈ xs → is_Some (c_value rs x) ∧ c_value rs' x = c_value rs x) ∧
  (∀ n y, n = NType ∨ y ∉ xs → resolve rs' n y = resolve rs n y).
Proof.
  induction xs as [|x xs IH]; intros rs rs' ND; cbn [wrapped].
  { intros [= <-]. split; [|done]. intros x Hx. by apply elem_of_nil in Hx. }
  apply NoDup_cons in ND as [N1 N2]. destruct (c_value rs x) as [[c v]|] eqn:EC; [|done]. cbn [mbind option_bind].
  intros HW. apply IH in HW as [H1 H2]; [|done]. split.
  - intros y [->|Hy]%elem_of_cons.
    + rewrite EC. split; [by eexists|]. unfold c_value. rewrite H2 by by right. by rewrite resolve_local_hit.
    + destruct (H1 y Hy) as [H3 H4]. unfold c_value in *. rewrite resolve_cons_local in H3, H4; [done|right; by intros ->..].
  - intros n y Hy. rewrite H2.
    + apply resolve_cons_local. destruct Hy as [Hy|Hy]; [by left|right]. apply not_elem_of_cons in Hy. tauto.
    + destruct Hy as [Hy|Hy]; [by left|right]. apply not_elem_of_cons in Hy. tauto.
Qed.
Lemma wrapped_some xs : ∀ rs, NoDup xs → (∀ x, x ∈ xs → is_Some (c_value rs x)) → ∃ rs', wrapped rs xs = Some rs'.
Proof.
  induction xs as [|x xs IH]; intros rs ND H; cbn [wrapped]; [by eexists|]. apply NoDup_cons in ND as [N1 N2].
  destruct (H x) as [[c v] E]; [left|]. rewrite E. cbn [mbind option_bind]. apply IH; [done|]. intros y Hy.
  unfold c_value. rewrite resolve_cons_local by (right; by intros ->). apply H. by right.
Qed.
Lemma c_values rs rs' xs : (∀ x, x ∈ xs → c_value rs' x = c_value rs x) → mapM (c_value rs') xs = mapM (c_value rs) xs.
Proof.
  induction xs as [|x xs IH]; intros H; [done|]. cbn [mapM]. rewrite H by left. rewrite IH; [done|]. intros y Hy. apply H. by right.
Qed.

(** The variable the shim declares is none of the user's. *)
Lemma guard_name f v rs : resolve (Locals [(Ident "abort_on_unwind_guard" CMixed, v)] :: rs) NValue (of_uid (fname f)) =
  resolve rs NValue (of_uid (fname f)).
Proof. apply resolve_cons_local. right. done. Qed.
Lemma guard_call P f v rs d : call_raw P (Locals [(Ident "abort_on_unwind_guard" CMixed, v)] :: rs) d (each_args f) = call_raw P rs d (each_args f).
Proof.
  unfold call_raw. destruct d; [|done..]. rewrite (c_values rs); [done|]. intros x Hx. unfold c_value. rewrite resolve_cons_local; [done|]. right.
  intros ->. eapply (each_arg_not_mixed f "abort_on_unwind_guard"); [|exact Hx]. intros (j & [=] & _)%elem_of_list_fmap.
Qed.
(** Inversion. *)
Lemma shim_inv P f vs cs r v : shim P f vs = Some (cs, r, v) →
  ∃ bs d, mapM (layout_of P (Boundary :: in_block f)) (map snd (params f)) = Some cs ∧
    layout_of P (Boundary :: in_block f) (ret f) = Some r ∧
    mapM (λ x : option (list ident), x) (imap (λ i p, shim_binds i p.1) (params f)) = Some bs ∧
    NoDup (concat bs) ∧ length vs = length (params f) ∧ length cs = length (params f) ∧
    resolve (shim_scope bs cs vs f) NValue (of_uid (fname f)) = Some (RItem d) ∧
    call_raw P (shim_scope bs cs vs f) d (each_args f) = Some (r, v).
Proof.
  unfold shim. destruct (mapM (layout_of _ _) _) as [cs'|] eqn:EC; [|done]. cbn [mbind option_bind].
  destruct (layout_of P _ (ret f)) as [r'|] eqn:ER; [|done]. cbn [mbind option_bind].
  destruct (mapM (λ x, x) _) as [bs|] eqn:EB; [|done]. cbn [mbind option_bind].
  destruct (decide _) as [[ND HL]|]; [|done]. fold (shim_scope bs cs' vs f).
  rewrite guard_name.
  destruct (resolve _ _ _) as [[w|d]|] eqn:EF; [done| |done]. rewrite guard_call.
  destruct (call_raw _ _ _ _) as [[c w]|] eqn:ECall; [|done]. cbn [mbind option_bind].
  destruct (decide (c = r')) as [->|]; [|done]. intros [= -> -> ->]. pose proof (mapM_length _ _ _ EC) as HL'. rewrite map_length in HL'.
  exists bs, d. split_and!; try done; lia.
Qed.
