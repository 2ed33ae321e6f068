(** C80: the code generated for an exported function refers to that function
    and its parameters. *)

From Coq Require Import NArith List Bool Lia String Ascii.
From stdpp Require Import base numbers list list_numbers option strings pretty.
From Verif Require Import ScopeModel ScopeSpec ScopeProofs.

(** If rustc accepts the shim and the body has no item of the name of the
    function, the shim is a call of the function with its arguments, in order, and
    its C types are those in the header. *)
Theorem C80_shim P f vs cs r v : accepted P f → ¬ declares f NValue (uname (fname f)) → shim P f vs = Some (cs, r, v) →
  header P f = Some (cs, r) ∧ length vs = length (params f) ∧ v = sem P 0 vs.
Proof.
  intros HA HN HS. apply shim_inv in HS as (bs & d & _ & _ & HB & ND & L1 & L2 & HD & HC).
  unfold shim_scope, resolve in HD. cbn [resolve_from] in HD. rewrite callee_past, (find_user_none _ _ _ HN) in HD.
  destruct (find_local _ _); [done|]. destruct (find_local _ _); [done|].
  pose proof (a_name _ _ HA) as HM. unfold resolve in HM. cbn [resolve_from] in HM. rewrite HM in HD. injection HD as <-.
  apply call_user in HC as (ts & rt & HG & <- & <- & ->); try done.
  destruct (header_ok P f HA) as (cs' & r' & -> & HT & _). unfold c_types in HT. rewrite HG in HT. by injection HT as -> ->.
Qed.
(** In any case it is a call of the function, or of what its body declares
    under its name. *)
Theorem C80_calls P f vs cs r v : accepted P f → shim P f vs = Some (cs, r, v) →
  ∃ k, (k = 0 ∨ (NValue, uname (fname f), k) ∈ body f) ∧ length vs = length (params f) ∧ v = sem P k vs.
Proof.
  intros HA HS. apply shim_inv in HS as (bs & d & _ & _ & HB & ND & L1 & L2 & HD & HC).
  unfold shim_scope, resolve in HD. cbn [resolve_from] in HD. destruct (find_local _ _); [done|]. rewrite callee_past in HD.
  destruct (find_item _ _ _) as [d'|] eqn:EF.
  - injection HD as ->. apply find_user in EF as (k & -> & Hk). apply call_user in HC as (ts & rt & _ & _ & _ & ->); try done.
    exists k. auto.
  - destruct (find_local _ _); [done|].
    pose proof (a_name _ _ HA) as HM. unfold resolve in HM. cbn [resolve_from] in HM. rewrite HM in HD. injection HD as <-.
    apply call_user in HC as (ts & rt & _ & _ & _ & ->); try done. exists 0. auto.
Qed.

(** It is accepted unless the names clash. *)
Lemma shim_types P f t : (∀ s, s ∈ tnames t → ¬ declares f NType s) →
  layout_of P (Boundary :: in_block f) t = layout_of P (outer f) t.
Proof.
  intros H. apply layout_ext. intros s Hs. rewrite resolve_type_boundary. unfold in_block, in_body, items.
  rewrite resolve_items. cbn [find_item]. rewrite decide_False by done.
  rewrite resolve_items. cbn [call_site name]. rewrite (find_user_none f NType s (H s Hs)). apply resolve_type_boundary.
Qed.
Lemma shim_typess P f ts : (∀ t s, t ∈ ts → s ∈ tnames t → ¬ declares f NType s) →
  mapM (layout_of P (Boundary :: in_block f)) ts = mapM (layout_of P (outer f)) ts.
Proof.
  induction ts as [|t ts IH]; intros H; [done|]. cbn [mapM]. rewrite shim_types.
  - rewrite IH; [done|]. intros t' s Ht. apply H. by right.
  - intros s. apply H. left.
Qed.
Theorem C80_accepts P f vs : accepted P f → simple_params f → ¬ binds_name f (of_uid (fname f)) →
  ¬ declares f NValue (uname (fname f)) → (∀ s, mentions f s → ¬ declares f NType s) → length vs = length (params f) →
  ∃ cs r, header P f = Some (cs, r) ∧ c_types P f = Some (cs, r) ∧ shim P f vs = Some (cs, r, sem P 0 vs).
Proof.
  intros HA HP HB HN HT HL. destruct (header_ok P f HA) as (cs & r & HH & HC & EC & ER & LC). exists cs, r. split; [done|]. split; [done|].
  unfold shim. rewrite shim_typess, EC.
  2: { intros t s (p & -> & Hp)%elem_of_list_fmap Hs. apply HT. right. by exists p. }
  cbn [mbind option_bind]. rewrite shim_types, ER by (intros s Hs; apply HT; by left). cbn [mbind option_bind].
  destruct (shim_binds_some f HP) as [bs EB]. rewrite EB. cbn [mbind option_bind].
  destruct (shim_nodup 0 (params f) bs EB (a_params _ _ HA)) as [ND HX].
  rewrite decide_True by (split; [done|lia]). fold (shim_scope bs cs vs f). rewrite guard_name.
  assert (HF : resolve (shim_scope bs cs vs f) NValue (of_uid (fname f)) = Some (RItem (DUser 0))).
  { unfold shim_scope, resolve. cbn [resolve_from]. rewrite find_local_none.
    - rewrite callee_past, (find_user_none _ _ _ HN), (proj2 (find_binds f _) HB).
      pose proof (a_name _ _ HA) as HM. unfold resolve in HM. by cbn [resolve_from] in HM.
    - intros H. apply elem_of_list_fmap in H as ([y w] & E & H). cbn in E. subst y.
      apply elem_of_list_In, in_concat in H as (l & Hl & Hy). apply elem_of_list_In, elem_of_list_lookup in Hl as [i Hi].
      apply lookup_zip_with_Some in Hi as (b & w' & -> & Hb & _). apply elem_of_list_In, elem_of_list_fmap in Hy as (y & [= <- _] & Hy).
      destruct (HX (of_uid (fname f))) as [H|(j & _ & H)]; [|apply HB|done].
      + apply elem_of_list_In, in_concat. exists b. split; apply elem_of_list_In; [by eapply elem_of_list_lookup_2|done].
      + apply elem_flat_map in H as (p & H1 & H2). by exists p. }
  rewrite HF, guard_call. unfold c_types in HC. destruct (sig P 0) as [[ts rt]|] eqn:ES; [|done]. injection HC as <- <-.
  assert (HR : call_raw P (shim_scope bs (map (clayout P) ts) vs f) (DUser 0) (each_args f) = Some (clayout P rt, sem P 0 vs)).
  { apply call_user; [done|done|done|done|]. by exists ts, rt. }
  rewrite HR. cbn [mbind option_bind]. by rewrite decide_True.
Qed.
(** A parameter of the name of the function is an error, never another
    function. *)
Theorem C80_param P f vs : accepted P f → binds_name f (of_uid (fname f)) →
  ¬ declares f NValue (uname (fname f)) ∨ (∃ i p, params f !! i = Some p ∧ each_arg i p.1 = of_uid (fname f)) →
  shim P f vs = None.
Proof.
  intros HA HB H. destruct (shim P f vs) as [[[cs r] v]|] eqn:E; [|done]. exfalso.
  apply shim_inv in E as (bs & d & _ & _ & EB & ND & L1 & L2 & HD & HC).
  unfold shim_scope, resolve in HD. cbn [resolve_from] in HD. destruct H as [HN|(i & p & Hp & He)].
  - rewrite callee_past, (find_user_none _ _ _ HN) in HD. destruct (find_local _ _); [done|].
    match type of HD with match ?x with _ => _ end = _ => destruct x eqn:EF; [done|] end. by apply find_binds in EF.
  - destruct (lookup_lt_is_Some_2 cs i) as [c Hc]; [apply lookup_lt_Some in Hp; lia|].
    destruct (lookup_lt_is_Some_2 vs i) as [w Hw]; [apply lookup_lt_Some in Hp; lia|].
    apply mapM_Some_1 in EB.
    assert (HI : imap (λ i (p : pat * ty), shim_binds i p.1) (params f) !! i = Some (shim_binds i p.1)) by by rewrite list_lookup_imap, Hp.
    eapply Forall2_lookup_l in EB as (b & Hb & HS); [|exact HI].
    rewrite (find_concat _ bs _ i b (VC c, w)) in HD; [done|done|done|rewrite <- He; by apply shim_binds_head|].
    by rewrite lookup_zip_with, Hc, Hw.
Qed.

(** ** What the body captures *)

(** [fn foo(x: u8) -> u8 { fn foo(x: u8) -> u8 { x + 1 } foo(x) * 2 }]: C calls
    the inner function. *)
Definition u (s : string) : uid := Uid false s 0.
Definition u8 : ty := Ty 0 ["u8"%string].
Definition foo : fn := Fn (u "foo") [(PIdent (u "x") None, u8)] u8 [(NValue, "foo"%string, 1)] []
  [(NValue, "foo"%string, 0)] [(NType, "u8"%string, 9)].
Definition byte : rty := RTy 0 [DUser 9].
Definition foos : program := Program
  (λ k, match k with 0 | 1 => Some ([byte], byte) | _ => None end)
  (λ k vs, match k, vs with 0, [x] => ((x + 1) * 2)%N | 1, [x] => (x + 1)%N | _, _ => 0%N end)
  (λ t, match t with RTy 0 [DUser k] => k | _ => 0 end) (λ c, c).
Theorem C80_captured_refuted : ∃ P f vs cs r v, accepted P f ∧ header P f = Some (cs, r) ∧ shim P f vs = Some (cs, r, v) ∧ v ≠ sem P 0 vs.
Proof.
  exists foos, foo, [3%N], [9], 9, 4%N. split_and!; [|by vm_compute..].
  split; [constructor|by vm_compute| |by apply (bool_decide_unpack _); vm_compute].
  exists [byte], byte. by vm_compute.
Qed.
(** [fn foo(x: T) -> u8 { struct T(u32); fn foo(x: T) -> u8 {..} .. }]: nor are the
    types those in the header. *)
Definition foo_t : fn := Fn (u "foo") [(PIdent (u "x") None, Ty 0 ["T"%string])] u8
  [(NType, "T"%string, 8); (NValue, "foo"%string, 1)] []
  [(NValue, "foo"%string, 0); (NType, "T"%string, 7)] [(NType, "u8"%string, 9)].
Definition foos_t : program := Program
  (λ k, match k with 0 => Some ([RTy 0 [DUser 7]], byte) | 1 => Some ([RTy 0 [DUser 8]], byte) | _ => None end)
  (sem foos) (clayout foos) (napi foos).
Theorem C80_types_refuted : ∃ P f vs cs r v cs' r', accepted P f ∧ header P f = Some (cs, r) ∧ shim P f vs = Some (cs', r', v) ∧ cs ≠ cs'.
Proof.
  exists foos_t, foo_t, [3%N], [7], 9, 4%N, [8], 9. split_and!; [|by vm_compute..].
  split; [constructor|by vm_compute| |by apply (bool_decide_unpack _); vm_compute].
  exists [RTy 0 [DUser 7]], byte. by vm_compute.
Qed.

(** ** JavaScript *)

(** If rustc accepts the function for JavaScript, it is a call of the shim, with
    the arguments in order, each converted at the type of its parameter. *)
Lemma js_start xs js vs i x rs j v : NoDup xs → length vs = length xs → length js = length xs → xs !! i = Some x →
  js_value (Locals [(Ident "__ctx__" CMixed, (VCtx, 0%N))] :: Locals (zip xs (zip_with (λ j v, (VNapi j, v)) js vs)) :: rs) x = Some (j, v) →
  js !! i = Some j ∧ vs !! i = Some v.
Proof.
  intros ND L1 L2 Hx. unfold js_value, resolve. cbn [resolve_from find_local]. destruct (decide _); [done|].
  destruct (lookup_lt_is_Some_2 js i) as [j' Hj]; [apply lookup_lt_Some in Hx; lia|].
  destruct (lookup_lt_is_Some_2 vs i) as [v' Hv]; [apply lookup_lt_Some in Hx; lia|].
  rewrite (find_zip x xs _ i (VNapi j', v')); [|done|done|by rewrite lookup_zip_with, Hj, Hv].
  intros [= <- <-]. done.
Qed.
Lemma aliases_length P f xs js : aliases P f xs = Some js → length js = length (params f).
Proof.
  unfold aliases. destruct (decide _); [|done]. destruct (mapM _ _) as [cs|] eqn:E; [|done]. intros [= <-].
  apply mapM_length in E. rewrite !map_length in *. lia.
Qed.
Theorem C80_js P f worker vs v : js P f worker vs = Some v →
  ∃ cs r, shim P f vs = Some (cs, r, v) ∧ aliases P f (each_args f) = Some (map (napi P) cs).
Proof.
  unfold js. destruct (aliases P f (each_args f)) as [js|] eqn:EA; [|done]. cbn [mbind option_bind].
  pose proof (aliases_length _ _ _ _ EA) as LA. destruct (decide _) as [[ND LV]|]; [|done].
  destruct (converted _ _ _) as [rs|] eqn:EC; [|done]. cbn [mbind option_bind]. intros HV.
  pose proof (each_args_length f) as LE.
  apply converted_inv in EC as [HC1 HC2]; [|done|rewrite map_length; lia].
  (* the values before wrapping *)
  assert (HM : ∃ cs, mapM (c_value rs) (each_args f) = Some (zip cs vs) ∧ length cs = length vs ∧ js = map (napi P) cs).
  { assert (HE : ∀ i x, each_args f !! i = Some x → ∃ c v, c_value rs x = Some (c, v) ∧ js !! i = Some (napi P c) ∧ vs !! i = Some v).
    { intros i x Hx. destruct (lookup_lt_is_Some_2 (map snd (params f)) i) as [t Ht]; [rewrite map_length, <- LE; by eapply lookup_lt_Some|].
      destruct (HC1 i x t Hx Ht) as (c & w & _ & HJ & HV'). apply (js_start _ _ _ i) in HJ as [? ?]; try done; [|lia..]. by exists c, w. }
    assert (HLl : length (each_args f) = length vs) by lia. assert (HLj : length js = length vs) by lia. clear -HE HLl HLj.
    revert js vs HE HLl HLj. induction (each_args f) as [|x xs IH]; intros js vs HE HLl HLj.
    - destruct vs; [|done]. destruct js; [|done]. by exists [].
    - destruct vs as [|w vs]; [done|]. destruct js as [|j js]; [done|].
      destruct (HE 0 x eq_refl) as (c & w' & H1 & [= ->] & [= <-]).
      destruct (IH js vs) as (cs & H2 & H3 & H4); [|by injection HLl|by injection HLj|].
      { intros i y Hy. apply (HE (S i) y Hy). }
      exists (c :: cs). cbn [mapM map zip zip_with length]. rewrite H1, H2, H3, H4. done. }
  destruct HM as (cs & HM & Lcs & HJ).
  assert (HCS : ∃ rs', mapM (c_value rs') (each_args f) = mapM (c_value rs) (each_args f) ∧ call_shim P f rs' (each_args f) = Some v).
  { destruct worker; [|by exists rs].
    destruct (wrapped _ _) as [rs1|] eqn:E1 in HV; [|done]. cbn [mbind option_bind] in HV.
    destruct (wrapped rs1 _) as [rs2|] eqn:E2; [|done]. cbn [mbind option_bind] in HV. exists rs2. split; [|done].
    apply wrapped_inv in E1 as [H1 _]; [|done]. apply wrapped_inv in E2 as [H2 _]; [|done]. apply c_values. intros x Hx.
    destruct (H2 x Hx) as [_ ->]. destruct (H1 x Hx) as [HS ->]. unfold c_value in *. rewrite resolve_items in *.
    destruct (find_item _ _ _); [|done]. by destruct HS. }
  destruct HCS as (rs' & HE & HCS). unfold call_shim in HCS. destruct (resolve _ _ _) as [[|[]]|]; try done.
  rewrite HE, HM in HCS. cbn [mbind option_bind] in HCS.
  change (map fst (zip cs vs)) with (fst <$> zip cs vs) in HCS. change (map snd (zip cs vs)) with (snd <$> zip cs vs) in HCS.
  rewrite fst_zip, snd_zip in HCS by lia. destruct (shim P f vs) as [[[cs' r] w]|]; [|done]. cbn [mbind option_bind] in HCS.
  destruct (decide _) as [<-|]; [|done]. injection HCS as ->. exists cs, r. by rewrite HJ.
Qed.
(** So it calls the function, if its body does not declare another. *)
Theorem C80_js_calls P f worker vs v : accepted P f → ¬ declares f NValue (uname (fname f)) →
  js P f worker vs = Some v → v = sem P 0 vs ∧ length vs = length (params f).
Proof. intros HA HN (cs & r & HS & _)%C80_js. by apply C80_shim in HS as (_ & ? & ?). Qed.

(** It is accepted unless the names clash: those of the arguments are names of
    types too, in the module of aliases, which does not see local items. *)
Lemma find_alias (g : nat → def) s xs : s ∉ map name xs → find_item NType s (imap (λ i x, (NType, name x, g i)) xs) = None.
Proof.
  revert g. induction xs as [|x xs IH]; intros g H; [done|]. rewrite imap_cons. cbn [find_item].
  cbn [map] in H. apply not_elem_of_cons in H as [H1 H2]. rewrite decide_False by congruence. by apply (IH (g ∘ S)).
Qed.
Lemma aliases_some P f : accepted P f → blocks f = [] → NoDup (map name (each_args f)) →
  (∀ p s, p ∈ params f → s ∈ tnames p.2 → s ∉ map name (each_args f)) →
  ∃ cs r, header P f = Some (cs, r) ∧ mapM (layout_of P (outer f)) (map snd (params f)) = Some cs ∧
    length cs = length (params f) ∧ aliases P f (each_args f) = Some (map (napi P) cs).
Proof.
  intros HA HB ND HN. destruct (header_ok P f HA) as (cs & r & HH & _ & EC & _ & LC). exists cs, r. split_and!; try done.
  unfold aliases. rewrite decide_True by done. replace (mapM _ _) with (Some cs); [done|]. rewrite <- EC.
  assert (HL : ∀ ts, (∀ t s, t ∈ ts → s ∈ tnames t → s ∉ map name (each_args f)) →
    mapM (layout_of P (in_aliases f (each_args f))) ts = mapM (layout_of P (outer f)) ts); [|symmetry; apply HL].
  { induction ts as [|t ts IH]; intros H; [done|]. cbn [mapM]. rewrite IH by (intros t' s Ht; apply H; by right).
    rewrite (layout_ext P _ (outer f)); [done|]. intros s Hs. unfold in_aliases, outer. rewrite HB. cbn [app].
    rewrite resolve_items. replace (find_item _ _ _) with (@None def); [done|]. symmetry.
    apply (find_alias (λ i, DAlias i)). by apply (H t s ltac:(left)). }
  intros t s (p & -> & Hp)%elem_of_list_fmap Hs. by eapply HN.
Qed.
Lemma js_types P f xs ys t : (∀ s, s ∈ tnames t → ¬ declares f NType s ∧ s ≠ "__ty_aliases"%string) →
  layout_of P (Locals xs :: Locals ys :: js_block (in_block f)) t = layout_of P (outer f) t.
Proof.
  intros H. rewrite <- (shim_types P f t) by (intros s Hs; by apply H). apply layout_ext. intros s Hs.
  rewrite !resolve_type_locals. unfold js_block. rewrite resolve_type_boundary, resolve_items. cbn [call_site name find_item].
  rewrite decide_False by (intros [= E]; by destruct (H s Hs)). rewrite decide_False by done. by rewrite !resolve_type_boundary.
Qed.
Lemma shim_name_few f s : unders s < 5 → shim_name f ≠ s.
Proof.
  intros H <-. unfold shim_name in H. rewrite unders_app in H. change (unders "__ffi_export__"%string) with 5 in H. lia.
Qed.
Lemma find_not x xs (ws : list value) : x ∉ xs → find_local x (zip xs ws) = None.
Proof.
  intros H. apply find_local_none. intros (y & -> & Hy)%elem_of_list_fmap. apply H. destruct y. by eapply elem_of_zip_l.
Qed.
Theorem C80_js_accepts P f worker vs : accepted P f → simple_params f → ¬ binds_name f (of_uid (fname f)) →
  ¬ declares f NValue (uname (fname f)) → (∀ s, mentions f s → ¬ declares f NType s) → length vs = length (params f) →
  blocks f = [] → NoDup (map name (each_args f)) →
  (∀ p s, p ∈ params f → s ∈ tnames p.2 → s ≠ "__ty_aliases"%string ∧ s ∉ map name (each_args f)) →
  (worker = true → "__assert_send"%string ∉ map name (each_args f)) →
  js P f worker vs = Some (sem P 0 vs).
Proof.
  intros HA HP HB HN HT HL HO HD HX HW.
  destruct (C80_accepts P f vs HA HP HB HN HT HL) as (cs & r & HH & _ & HS).
  destruct (aliases_some P f HA HO HD) as (cs' & r' & HH' & EC & LC & HAl); [intros p s H1 H2; by apply (HX p s)|].
  rewrite HH in HH'. injection HH' as <- <-. pose proof (each_args_length f) as LE.
  assert (ND : NoDup (each_args f)) by (apply each_args_nodup; [by eapply a_params|done]).
  unfold js. rewrite HAl. cbn [mbind option_bind]. rewrite decide_True by (split; [done|rewrite map_length; lia]).
  match goal with |- context [converted P ?r _] => set (rs := r) end.
  assert (H0 : ∀ i x t, each_args f !! i = Some x → map snd (params f) !! i = Some t →
    ∃ c v, layout_of P rs t = Some c ∧ js_value rs x = Some (napi P c, v) ∧ cs !! i = Some c ∧ vs !! i = Some v).
  { intros i x t Hx Ht. apply mapM_Some_1 in EC. destruct (Forall2_lookup_l _ _ _ _ _ EC Ht) as (c & Hc & Hct).
    destruct (lookup_lt_is_Some_2 vs i) as [v Hv]; [apply lookup_lt_Some in Hc; lia|]. exists c, v. split_and!; try done.
    - unfold rs. rewrite js_types; [done|]. intros s Hs. apply elem_of_list_lookup_2 in Ht. apply elem_of_list_fmap in Ht as (p & -> & Hp).
      split; [apply HT; right; by exists p|by apply (HX p s)].
    - unfold js_value, rs, resolve. cbn [resolve_from find_local].
      assert (NX : x ≠ Ident "__ctx__" CMixed).
      { intros ->. eapply (each_arg_not_mixed f "__ctx__"); [|by eapply elem_of_list_lookup_2].
        intros (j & [=] & _)%elem_of_list_fmap. }
      rewrite decide_False by done.
      by rewrite (find_zip x (each_args f) _ i (VNapi (napi P c), v)); [|done|done|rewrite lookup_zip_with; change (map (napi P) cs) with (napi P <$> cs); rewrite list_lookup_fmap, Hc, Hv]. }
  destruct (converted_some P (each_args f) (map snd (params f)) rs ND) as [rs1 E1]; [by rewrite map_length|intros i x t Hx Ht; destruct (H0 i x t Hx Ht) as (c & v & ? & ? & _); by exists c, v|].
  rewrite E1. cbn [mbind option_bind].
  destruct (converted_inv P _ _ _ _ ND (eq_trans (map_length _ _) (eq_sym LE)) E1) as [HC1 HC2].
  assert (HV : ∀ i x, each_args f !! i = Some x → ∃ c v, c_value rs1 x = Some (c, v) ∧ cs !! i = Some c ∧ vs !! i = Some v).
  { intros i x Hx. destruct (lookup_lt_is_Some_2 (map snd (params f)) i) as [t Ht]; [rewrite map_length, <- LE; by eapply lookup_lt_Some|].
    destruct (H0 i x t Hx Ht) as (c & v & A1 & A2 & A3 & A4). destruct (HC1 i x t Hx Ht) as (c' & v' & B1 & B2 & B3).
    rewrite A1 in B1. injection B1 as <-. rewrite A2 in B2. injection B2 as <-. by exists c, v. }
  assert (HM : mapM (c_value rs1) (each_args f) = Some (zip cs vs)).
  { apply mapM_Some_2. apply Forall2_same_length_lookup. split; [rewrite zip_with_length; lia|].
    intros i x [c v] Hx Hz. apply lookup_zip_with_Some in Hz as (c' & v' & [= -> ->] & Hc & Hv).
    destruct (HV i x Hx) as (? & ? & -> & Hc' & Hv'). congruence. }
  assert (HSh : ∀ rs', (∀ x, x ∈ each_args f → c_value rs' x = c_value rs1 x) → resolve rs' NValue (Ident (shim_name f) CMixed) = Some (RItem DShim) →
    call_shim P f rs' (each_args f) = Some (sem P 0 vs)).
  { intros rs' H1 H2. unfold call_shim. rewrite H2, (c_values rs1 rs') by done. rewrite HM. cbn [mbind option_bind].
    change (map fst (zip cs vs)) with (fst <$> zip cs vs). change (map snd (zip cs vs)) with (snd <$> zip cs vs).
    rewrite fst_zip, snd_zip by lia. rewrite HS. cbn [mbind option_bind]. by rewrite decide_True. }
  assert (NS : Ident (shim_name f) CMixed ∉ each_args f).
  { apply each_arg_not_mixed. intros (j & E & _)%elem_of_list_fmap. by apply shim_name_gen in E. }
  assert (HR1 : resolve rs1 NValue (Ident (shim_name f) CMixed) = Some (RItem DShim)).
  { rewrite HC2 by by right. unfold rs, resolve. cbn [resolve_from find_local].
    rewrite decide_False by (intros [= E]; eapply (shim_name_few f "__ctx__"); [|exact E]; cbn; lia).
    rewrite find_not by done. unfold js_block, in_block. cbn [resolve_from find_item name].
    rewrite decide_False by done. rewrite decide_False by (intros [= E]; eapply (shim_name_few f "__js"); [|symmetry; exact E]; cbn; lia).
    by rewrite decide_True. }
  destruct worker; [|by apply HSh].
  specialize (HW eq_refl). set (rs2 := Items _ :: rs1).
  assert (H2 : ∀ x, x ∈ each_args f → c_value rs2 x = c_value rs1 x).
  { intros x Hx. unfold c_value, rs2. rewrite resolve_items. cbn [find_item]. rewrite decide_False; [done|].
    intros [= E]. apply HW. rewrite E. apply elem_of_list_fmap. by exists x. }
  assert (HSome : ∀ x, x ∈ each_args f → is_Some (c_value rs1 x)).
  { intros x [i Hi]%elem_of_list_lookup. destruct (HV i x Hi) as (c & v & -> & _). by eexists. }
  destruct (wrapped_some (each_args f) rs2 ND) as [rs3 E3]; [intros x Hx; rewrite H2; by auto|]. rewrite E3. cbn [mbind option_bind].
  apply wrapped_inv in E3 as [H3 R3]; [|done].
  destruct (wrapped_some (each_args f) rs3 ND) as [rs4 E4]; [intros x Hx; destruct (H3 x Hx) as [? ->]; done|]. rewrite E4. cbn [mbind option_bind].
  apply wrapped_inv in E4 as [H4 R4]; [|done].
  apply HSh.
  - intros x Hx. destruct (H4 x Hx) as [_ ->]. destruct (H3 x Hx) as [_ ->]. by apply H2.
  - rewrite R4, R3 by by right. unfold rs2. rewrite resolve_items. cbn [find_item name].
    rewrite decide_False; [done|]. intros [= E]. eapply (shim_name_few f "__assert_send"); [|symmetry; exact E]; cbn; lia.
Qed.
(** [fn f(bool: bool)] can be exported to C, but not to JavaScript. *)
Definition fbool : fn := Fn (u "f") [(PIdent (u "bool") None, Ty 0 ["bool"%string])] (Ty 0 ["bool"%string]) [] []
  [(NValue, "f"%string, 0)] [(NType, "bool"%string, 9)].
Theorem C80_alias_refuted : ∃ P f vs cs r v, accepted P f ∧ shim P f vs = Some (cs, r, v) ∧ js P f false vs = None.
Proof.
  exists foos, fbool, [3%N], [9], 9, 8%N. split_and!; [|by vm_compute..].
  split; [constructor|by vm_compute| |by apply (bool_decide_unpack _); vm_compute].
  exists [byte], byte. by vm_compute.
Qed.

(** ** Async functions *)

(** If rustc accepts the function for JavaScript, the function inside gets the
    arguments in order, at the types the user wrote, as they are at the place where
    the user wrote them. *)
Lemma async_type f s : resolve (Boundary :: async_block f) NType (call_site s) =
  if decide (s = "__ty_aliases"%string) then Some (RItem DAliases) else resolve (outer f) NType (call_site s).
Proof.
  rewrite resolve_type_boundary. unfold async_block, js_block. rewrite resolve_items. cbn [find_item]. rewrite decide_False by done.
  rewrite resolve_type_boundary, resolve_items. cbn [find_item call_site name].
  destruct (decide (s = _)) as [->|E]; [by rewrite decide_True|]. rewrite decide_False by (intros [= H]; by apply E). rewrite decide_False by done.
  apply resolve_type_boundary.
Qed.
Lemma ty_defs rs rs' t t' : resolve_ty rs t = Some t' → forallb is_user (args t') = true →
  (∀ s d, resolve rs NType (call_site s) = Some (RItem d) → is_user d = true → resolve rs' NType (call_site s) = Some (RItem d)) →
  resolve_ty rs' t = Some t'.
Proof.
  intros E HU H. unfold resolve_ty in *. destruct (mapM _ (tnames t)) as [ds|] eqn:EM in E; [|done].
  injection E as <-. cbn [args] in HU. replace (mapM _ (tnames t)) with (Some ds); [done|]. symmetry.
  apply mapM_Some_2. apply mapM_Some_1 in EM. rewrite forallb_forall in HU. revert HU.
  induction EM as [|s d ss ds Hs EM IH]; intros HU; constructor.
  - destruct (resolve rs NType (call_site s)) as [[|d']|] eqn:ER; try done. injection Hs as ->. rewrite (H s d); [done|done|].
    apply HU. by left.
  - apply IH. intros y Hy. apply HU. by right.
Qed.
Theorem C80_async P f vs ws : async_js P f vs = Some ws →
  ∃ ts, mapM (resolve_ty (outer f)) (map snd (params f)) = Some ts ∧ length vs = length (params f) ∧ ws = zip (map VRust ts) vs.
Proof.
  unfold async_js. destruct (async_args f) as [xs|] eqn:EX; [|done]. cbn [mbind option_bind].
  destruct (aliases P f xs) as [js|] eqn:EA; [|done]. cbn [mbind option_bind]. pose proof (aliases_length _ _ _ _ EA) as LA.
  destruct (decide _) as [[ND LV]|]; [|done]. apply NoDup_cons in ND as [_ ND].
  destruct (mapM _ _) as [ts|] eqn:ET; [|done]. cbn [mbind option_bind].
  destruct (resolve _ _ _) as [[|[]]|]; try done. destruct (resolve _ _ _) as [[[[] ]|]|]; try done.
  intros HM. assert (LX : length xs = length (params f)) by (apply mapM_length in EX; lia).
  assert (LT : length ts = length (params f)) by (apply mapM_length in ET; rewrite map_length in ET; lia).
  assert (HE : ∀ i t t', map snd (params f) !! i = Some t → ts !! i = Some t' →
    resolve_ty (Boundary :: async_block f) t = Some t' ∧ forallb is_user (args t') = true ∧
    ∃ v, vs !! i = Some v ∧ ws !! i = Some (VRust t', v)).
  { intros i t t' Ht Ht'. apply mapM_Some_1 in ET. eapply Forall2_lookup_lr in ET as HR; [|exact Ht|exact Ht'].
    destruct (lookup_lt_is_Some_2 xs i) as [x Hx]; [apply lookup_lt_Some in Ht'; lia|].
    apply mapM_Some_1 in HM.
    assert (HZ : zip (zip xs (map snd (params f))) ts !! i = Some (x, t, t')) by (rewrite lookup_zip_with, lookup_zip_with, Hx, Ht; cbn; by rewrite Ht').
    eapply Forall2_lookup_l in HM as (w & Hw & HA); [|exact HZ]. cbn [fst snd] in HA. unfold async_arg, layout_of in HA.
    rewrite (resolve_ty_ext _ (Boundary :: async_block f)), HR in HA.
    2: { intros s Hs. rewrite resolve_type_boundary, resolve_type_locals. unfold async_block. by rewrite !resolve_items. }
    cbn [mbind option_bind] in HA. split; [done|]. destruct (forallb _ _); [|done]. split; [done|]. cbn [mbind option_bind] in HA.
    unfold js_value, resolve in HA. cbn [resolve_from find_local find_item] in HA.
    destruct (decide (x = _)); [done|]. destruct (decide (_ = (NValue, name x))); [done|].
    destruct (lookup_lt_is_Some_2 js i) as [j Hj]; [apply lookup_lt_Some in Ht'; lia|].
    destruct (lookup_lt_is_Some_2 vs i) as [v Hv]; [apply lookup_lt_Some in Ht'; lia|].
    rewrite (find_zip x xs _ i (VNapi j, v)) in HA; [|done|done|by rewrite lookup_zip_with, Hj, Hv].
    cbn [mbind option_bind] in HA. destruct (decide _); [|done]. injection HA as <-. by exists v. }
  exists ts. split_and!; [|lia|].
  - apply mapM_Some_2. apply Forall2_same_length_lookup. split; [rewrite map_length; lia|].
    intros i t t' Ht Ht'. destruct (HE i t t' Ht Ht') as (HR & HU & _). eapply ty_defs; [exact HR|done|]. intros s d.
    rewrite async_type. case_decide; [intros [= <-]; done|done].
  - apply list_eq_same_length with (length (params f)).
    + rewrite zip_with_length. change (map VRust ts) with (VRust <$> ts). rewrite fmap_length. lia.
    + apply mapM_length in HM. rewrite !zip_with_length, map_length in HM. lia.
    + intros i w w' Hi Hw Hw'. apply lookup_zip_with_Some in Hw' as (ty & v & -> & Hty & Hv).
      change (map VRust ts) with (VRust <$> ts) in Hty. rewrite list_lookup_fmap in Hty.
      destruct (ts !! i) as [t'|] eqn:Ht'; [|done]. injection Hty as <-.
      destruct (lookup_lt_is_Some_2 (map snd (params f)) i) as [t Ht]; [rewrite map_length; lia|].
      destruct (HE i t t' Ht Ht') as (_ & _ & v' & Hv' & Hw'). rewrite Hv in Hv'. injection Hv' as <-. pose proof (eq_trans (eq_sym Hw) Hw') as E. by injection E as ->.
Qed.
(** In the body the user wrote a parameter means the argument in its place. *)
Theorem C80_async_binds P f vs ws xs i p x sub w : async_js P f vs = Some ws → async_args f = Some xs →
  params f !! i = Some p → p.1 = PIdent x sub → ws !! i = Some w →
  resolve (async_body f xs ws) NValue (of_uid x) = Some (RLocal w).
Proof.
  unfold async_js. intros E EX Hp Ep Hw. rewrite EX in E. cbn [mbind option_bind] in E.
  destruct (aliases P f xs) as [js|] eqn:EA; [|done]. cbn [mbind option_bind] in E. destruct (decide _) as [[ND _]|]; [|done]. clear E.
  apply mapM_Some_1 in EX. eapply Forall2_lookup_l in EX as (y & Hy & E); [|exact Hp]. rewrite Ep in E. injection E as <-.
  apply NoDup_cons in ND as [N1 N2]. unfold async_body, resolve. cbn [resolve_from find_local].
  rewrite decide_False by (intros E; apply N1; rewrite <- E; by eapply elem_of_list_lookup_2).
  by rewrite (find_zip (of_uid x) xs ws i w).
Qed.
(** A parameter of the name of the function is an error. *)
Theorem C80_async_param P f vs xs : async_args f = Some xs → of_uid (fname f) ∈ xs → async_js P f vs = None.
Proof.
  intros EX HX. destruct (async_js P f vs) as [ws|] eqn:E; [|done]. exfalso. revert E.
  unfold async_js. rewrite EX. cbn [mbind option_bind].
  destruct (aliases P f xs) as [js|] eqn:EA; [|done]. cbn [mbind option_bind]. destruct (decide _); [|done].
  destruct (mapM _ _) as [ts|] eqn:ET; [|done]. cbn [mbind option_bind].
  destruct (resolve _ _ _) as [[|[]]|]; try done. destruct (resolve _ _ _) as [[[[] ]|]|]; try done.
  intros HM. apply mapM_Some_1 in HM. apply elem_of_list_lookup in HX as [i Hx].
  assert (LX : length xs = length (params f)) by (apply mapM_length in EX; lia).
  assert (LT : length ts = length (params f)) by (apply mapM_length in ET; rewrite map_length in ET; lia).
  destruct (lookup_lt_is_Some_2 (map snd (params f)) i) as [t Ht]; [rewrite map_length; apply lookup_lt_Some in Hx; lia|].
  destruct (lookup_lt_is_Some_2 ts i) as [t' Ht']; [apply lookup_lt_Some in Hx; lia|].
  assert (HZ : zip (zip xs (map snd (params f))) ts !! i = Some (of_uid (fname f), t, t')) by (rewrite lookup_zip_with, lookup_zip_with, Hx, Ht; cbn; by rewrite Ht').
  eapply Forall2_lookup_l in HM as (w & Hw & HA); [|exact HZ]. cbn [fst snd] in HA. unfold async_arg in HA.
  destruct (layout_of _ _ _); [|done]. cbn [mbind option_bind] in HA.
  unfold js_value, resolve in HA. cbn [resolve_from find_local find_item] in HA. destruct (decide _) as [_|_]; [done|].
  rewrite decide_True in HA by done. done.
Qed.
(** In the body the user wrote every other name means what it means in the
    function the user wrote. *)
Theorem C80_async_names f xs vs n x :
  (n = NValue → x ≠ call_site "__env__" ∧ name x ≠ uname (fname f) ∧ name x ≠ "__js"%string) →
  (n = NType → name x ≠ "__ty_aliases"%string) →
  resolve (async_body f xs vs) n x = resolve (Locals (zip xs vs) :: Boundary :: outer f) n x.
Proof.
  intros HV HT. unfold async_body, async_block, js_block, resolve. cbn [resolve_from find_local find_item].
  destruct n.
  - rewrite !decide_False by (try done; intros [= E]; by apply HT). done.
  - destruct (HV eq_refl) as (H1 & H2 & H3). rewrite (decide_False (P := x = _)) by done.
    destruct (find_local x (zip xs vs)); [done|]. rewrite !decide_False by (try done; congruence). done.
Qed.
(** But of [x @ y] only [x] is bound: [y] means something else, here the
    function [y] of the module ([async fn fut(x @ y: extern "C" fn() -> u8)]). *)
Definition fut_at : fn := Fn (u "fut") [(PIdent (u "x") (Some (true, [u "y"])), u8)] u8 [] []
  [(NValue, "fut"%string, 0); (NValue, "y"%string, 2)] [(NType, "u8"%string, 9)].
Theorem C80_async_sub_refuted : ∃ P f vs ws xs y p, async_js P f vs = Some ws ∧ async_args f = Some xs ∧ p ∈ params f ∧ y ∈ binds p.1 ∧
  resolve (async_body f xs ws) NValue y = Some (RItem (DUser 2)).
Proof.
  exists foos, fut_at, [3%N], [(VRust byte, 3%N)], [call_site "x"], (call_site "y"), (PIdent (u "x") (Some (true, [u "y"])), u8).
  split_and!; [by vm_compute..|left|right; left|by vm_compute].
Qed.
(** Its own name means the function inside, which takes one more argument. *)
Theorem C80_async_self f xs vs : call_site "__env__" ≠ of_uid (fname f) → of_uid (fname f) ∉ xs →
  resolve (async_body f xs vs) NValue (of_uid (fname f)) = Some (RItem DInner).
Proof.
  intros H1 H2. unfold async_body, async_block, resolve. cbn [resolve_from find_local find_item].
  rewrite decide_False by done. rewrite find_not by done. by rewrite decide_True.
Qed.

(** ** An example *)

(** [fn add(__arg_1: u8, (a, b): Pair, r#__arg_0: u8) -> u8 { fn helper() {..} use x::bool; .. }] *)
Definition add : fn := Fn (u "add")
  [(PIdent (u "__arg_1") None, u8); (POther [u "a"; u "b"], Ty 1 ["Pair"%string]); (PIdent (Uid true "__arg_0" 0) None, u8)] u8
  [(NValue, "helper"%string, 3); (NType, "bool"%string, 4)] []
  [(NValue, "add"%string, 0); (NType, "Pair"%string, 5)] [(NType, "u8"%string, 9)].
Definition adds : program := Program
  (λ k, match k with 0 => Some ([byte; RTy 1 [DUser 5]; byte], byte) | _ => None end)
  (λ k vs, match k, vs with 0, [x; y; z] => (x + 10 * y + 100 * z)%N | _, _ => 0%N end)
  (λ t, match t with RTy c [DUser k] => k + c | _ => 0 end) (λ c, c + 1).
Example C80_example_accepted : accepted adds add ∧ simple_params add ∧ ¬ binds_name add (of_uid (fname add)) ∧
  ¬ declares add NValue (uname (fname add)) ∧ (∀ s, mentions add s → ¬ declares add NType s).
Proof.
  split_and!.
  - split; [constructor|by vm_compute| |by apply (bool_decide_unpack _); vm_compute].
    exists [byte; RTy 1 [DUser 5]; byte], byte. by vm_compute.
  - intros p x b xs Hp. cbn [add params] in Hp. repeat (apply elem_of_cons in Hp as [->|Hp]; [intros E; cbn in E; discriminate E|]). by apply elem_of_nil in Hp.
  - intros (p & Hp & Hx). cbn [add params fname] in *. repeat (apply elem_of_cons in Hp as [->|Hp]; [by apply (bool_decide_pack _) in Hx; vm_compute in Hx|]). by apply elem_of_nil in Hp.
  - intros [k H]. cbn [add body fname u uname] in H. repeat (apply elem_of_cons in H as [H|H]; [done|]). by apply elem_of_nil in H.
  - intros s Hs [k H]. cbn [add body] in H. repeat (apply elem_of_cons in H as [H|H]; [|]); try done; [|by apply elem_of_nil in H].
    injection H as -> ->. destruct Hs as [Hs|(p & Hp & Hs)].
    + by apply (bool_decide_pack _) in Hs; vm_compute in Hs.
    + cbn [add params] in Hp. repeat (apply elem_of_cons in Hp as [->|Hp]; [by apply (bool_decide_pack _) in Hs; vm_compute in Hs|]). by apply elem_of_nil in Hp.
Qed.
Example C80_example : shim adds add [1%N; 2%N; 3%N] = Some ([9; 6; 9], 9, 321%N) ∧ header adds add = Some ([9; 6; 9], 9) ∧
  each_args add = [Ident "__arg_0" CMixed; Ident "__arg_1" CMixed; call_site "__arg_0"].
Proof. by vm_compute. Qed.
(** [fn add(__arg_1: u8, (a, b): Pair, c: u8) -> u8], which JavaScript can call
    too: [r#__arg_0] above gives two aliases of one name. *)
Definition add_js : fn := Fn (fname add)
  [(PIdent (u "__arg_1") None, u8); (POther [u "a"; u "b"], Ty 1 ["Pair"%string]); (PIdent (u "c") None, u8)] u8
  (body add) [] (module add) (prelude add).
Example C80_js_example : js adds add_js false [1%N; 2%N; 3%N] = Some 321%N ∧ js adds add_js true [1%N; 2%N; 3%N] = Some 321%N ∧
  js adds add false [1%N; 2%N; 3%N] = None ∧
  NoDup (map name (each_args add_js)) ∧ (∀ p s, p ∈ params add_js → s ∈ tnames p.2 → s ≠ "__ty_aliases"%string ∧ s ∉ map name (each_args add_js)).
Proof.
  split_and!; [by vm_compute..| |].
  - by apply (bool_decide_unpack _); vm_compute.
  - intros p s Hp. cbn [add_js params] in Hp.
    repeat (apply elem_of_cons in Hp as [->|Hp]; [intros Hs; cbn in Hs; apply elem_of_list_singleton in Hs as ->; split; [done|by apply (bool_decide_unpack _); vm_compute]|]).
    by apply elem_of_nil in Hp.
Qed.
(** A parameter [add]. *)
Definition add_add : fn := Fn (fname add) [(PIdent (u "add") None, u8)] u8 [] [] (module add) (prelude add).
Example C80_param_example : shim (Program (λ _, Some ([byte], byte)) (sem adds) (clayout adds) (napi adds)) add_add [1%N] = None ∧
  binds_name add_add (of_uid (fname add_add)).
Proof.
  split; [by vm_compute|]. exists (PIdent (u "add") None, u8). split; [left|]. left.
Qed.
(** An async function of two arguments; one of which a parameter is [__ctx__]. *)
Definition fut : fn := Fn (u "fut") [(PIdent (u "x") None, u8); (PIdent (u "y") None, Ty 1 ["Pair"%string])] u8 [] []
  [(NValue, "fut"%string, 0); (NType, "Pair"%string, 5)] [(NType, "u8"%string, 9)].
Definition fut_ctx : fn := Fn (u "fut") [(PIdent (u "__ctx__") None, u8)] u8 [] [] (module fut) (prelude fut).
Example C80_async_example : async_js adds fut [7%N; 8%N] = Some [(VRust byte, 7%N); (VRust (RTy 1 [DUser 5]), 8%N)] ∧
  async_js adds fut_ctx [7%N] = None ∧
  resolve (async_body fut [call_site "x"; call_site "y"] [(VRust byte, 7%N); (VCtx, 8%N)]) NValue (call_site "x") = Some (RLocal (VRust byte, 7%N)) ∧
  resolve (async_body fut [call_site "x"; call_site "y"] [(VRust byte, 7%N); (VCtx, 8%N)]) NValue (call_site "fut") = Some (RItem DInner).
Proof. by vm_compute. Qed.

Print Assumptions C80_shim.
Print Assumptions C80_calls.
Print Assumptions C80_accepts.
Print Assumptions C80_param.
Print Assumptions C80_captured_refuted.
Print Assumptions C80_types_refuted.
Print Assumptions C80_js.
Print Assumptions C80_js_calls.
Print Assumptions C80_js_accepts.
Print Assumptions C80_alias_refuted.
Print Assumptions C80_async.
Print Assumptions C80_async_binds.
Print Assumptions C80_async_sub_refuted.
Print Assumptions C80_async_param.
Print Assumptions C80_async_names.
Print Assumptions C80_async_self.
