From Coq Require Import Bool.
From stdpp Require Import base numbers list list_numbers strings pretty.
From Verif Require Import VtModel VtSpec.
From Verif Require DynModel.
Local Open Scope string_scope.

(** ** Entries *)

Lemma entry_receiver b p : DynModel.entry (receiver_of b p) = Some (DynModel.Receiver (DynModel.KRef b) p).
Proof. by destruct p. Qed.
Lemma entry_inv t r : DynModel.entry t = Some r → ∃ b p, t = receiver_of b p ∧ r = DynModel.Receiver (DynModel.KRef b) p.
Proof.
  unfold DynModel.entry, receiver_of.
  destruct t as [|b t|n t|]; simpl; try done.
  - destruct t; intros [= <-]. by exists b, false.
  - destruct t as [|b t|n' t|]; simpl; try done.
    + destruct (String.eqb n "Box"); simpl; [done|]. by destruct (String.eqb n "Arc").
    + destruct (String.eqb n "Pin") eqn:E; simpl; [|done]. apply String.eqb_eq in E as ->.
      destruct t; intros [= <-]. by exists b, true.
    + destruct (String.eqb n "Pin"); simpl; [|done]. destruct t; simpl; try done.
      destruct (String.eqb n' "Box"); simpl; [done|]. by destruct (String.eqb n' "Arc").
    + by destruct (String.eqb n "Pin").
Qed.

(** The entry a method gets. *)
Definition the_entry (m : method) (b p : bool) : entry :=
  Entry (m_name m) (DynModel.Receiver (DynModel.KRef b) p) b (arg_names (length (m_args m))) (m_args m) (default "()" (m_ret m)) (m_args m).
Definition entry_for (m : method) (e : entry) : Prop :=
  simple_method m ∧ ∃ b p, m_recv m = Some (receiver_of b p) ∧ e = the_entry m b p.

Lemma entry_of_spec m e : entry_of m = Some e ↔ entry_for m e.
Proof.
  unfold entry_of, entry_for, simple_method. split.
  - destruct (m_const m), (m_async m), (m_variadic m); simpl; try done.
    destruct (m_recv m) as [t|] eqn:R; [|done].
    destruct (DynModel.entry t) as [r|] eqn:E; [|done].
    apply entry_inv in E as (b & p & -> & ->). simpl. intros [= <-].
    split; [repeat split; by eexists _, _|]. by exists b, p.
  - intros [(-> & -> & -> & _) (b & p & -> & ->)]. simpl. by rewrite entry_receiver.
Qed.
Lemma entries_of_spec its es :
  entries_of its = Some es ↔ Forall is_method its ∧ Forall2 entry_for (methods_of its) es.
Proof.
  revert es. induction its as [|[m| |] its IH]; intros es; simpl.
  - split; [intros [= <-]; by split|]. intros [_ H]. by inversion H.
  - split.
    + destruct (entry_of m) as [e|] eqn:E; [|done]. destruct (entries_of its) as [es'|]; [|done].
      intros [= <-]. destruct (IH es') as [IH' _]. destruct (IH' eq_refl).
      split; constructor; try done. by apply entry_of_spec.
    + intros [H1 H2]. apply Forall_cons in H1 as [_ H1].
      remember (m :: methods_of its) as ms eqn:Em. destruct H2 as [|m' e ms' es H2 H3]; [done|].
      injection Em as -> ->. apply entry_of_spec in H2. rewrite H2.
      destruct (IH es) as [_ IH']. by rewrite (IH' (conj H1 H3)).
  - split; [done|]. intros [H _]. by inversion H.
  - split; [done|]. intros [H _]. by inversion H.
Qed.
Lemma entries_exist ms : Forall simple_method ms → ∃ es, Forall2 entry_for ms es.
Proof.
  induction 1 as [|m ms (H1 & H2 & H3 & b & p & H4) _ [es IH]]; [by exists []|].
  exists (the_entry m b p :: es). constructor; [|done]. split; [|by exists b, p].
  split; [done|]. split; [done|]. split; [done|]. by exists b, p.
Qed.
Lemma entry_for_name m e : entry_for m e → e_name e = m_name m.
Proof. intros [_ (b & p & _ & ->)]. done. Qed.
Lemma entries_names ms es : Forall2 entry_for ms es → e_name <$> es = m_name <$> ms.
Proof. induction 1 as [|m e ms es H _ IH]; [done|]. csimpl. by rewrite IH, (entry_for_name m e). Qed.
Lemma takes_mut_spec m b p : m_recv m = Some (receiver_of b p) → takes_mut m = b.
Proof. unfold takes_mut. intros ->. by destruct p. Qed.

(** ** Names *)

Lemma app_inj_l (s a b : string) : s +:+ a = s +:+ b → a = b.
Proof. induction s; simpl; intros [=]; auto. Qed.
Lemma arg_names_NoDup n : NoDup (arg_names n).
Proof.
  unfold arg_names. apply NoDup_fmap_2; [|apply NoDup_seq].
  intros i j H. apply app_inj_l in H. by apply (inj pretty) in H.
Qed.
Lemma arg_names_length n : length (arg_names n) = n.
Proof. unfold arg_names. by rewrite fmap_length, seq_length. Qed.
Lemma this_not_arg n : "__this" ∉ arg_names n.
Proof. unfold arg_names. intros (i & H & _)%elem_of_list_fmap. discriminate H. Qed.

Lemma existsb_In x xs : existsb (String.eqb x) xs = true ↔ x ∈ xs.
Proof.
  rewrite existsb_exists. setoid_rewrite elem_of_list_In. split.
  - intros (y & H & E%String.eqb_eq). by subst.
  - intros H. exists x. split; [done|]. by apply String.eqb_eq.
Qed.
Lemma distinct_spec xs : distinct xs = true ↔ NoDup xs.
Proof.
  induction xs as [|x xs IH]; simpl; [split; [constructor|done]|].
  rewrite andb_true_iff, negb_true_iff, NoDup_cons, IH, <- not_true_iff_false, existsb_In. done.
Qed.

(** ** Lookups *)

Lemma get_fmap_ne {A B} x (f : B → string) (g : B → A) l :
  x ∉ f <$> l → get x ((λ y, (f y, g y)) <$> l) = None.
Proof.
  induction l as [|y l IH]; [done|]. csimpl. rewrite not_elem_of_cons. intros [H1 H2].
  destruct (String.eqb_spec x (f y)); [done|]. auto.
Qed.
Lemma get_app {A} x (l k : list (string * A)) :
  get x (l ++ k) = match get x l with Some a => Some a | None => get x k end.
Proof. induction l as [|[y a] l IH]; [done|]. simpl. by destruct (String.eqb x y). Qed.
Lemma get_fmap {A B} (f : B → string) (g : B → A) l i y :
  NoDup (f <$> l) → l !! i = Some y → get (f y) ((λ y, (f y, g y)) <$> l) = Some (g y).
Proof.
  revert i. induction l as [|z l IH]; intros i; [done|]. csimpl. rewrite NoDup_cons. intros [H1 H2].
  destruct i as [|i]; simpl.
  - intros [= ->]. by rewrite String.eqb_refl.
  - intros H. destruct (String.eqb_spec (f y) (f z)) as [E|]; [|by eapply IH].
    exfalso. apply H1. rewrite <- E. apply elem_of_list_fmap. exists y. split; [done|]. by eapply elem_of_list_lookup_2.
Qed.
Lemma find_entry_spec es i e :
  NoDup (e_name <$> es) → es !! i = Some e → find_entry (e_name e) es = Some e.
Proof.
  revert i. induction es as [|z l IH]; intros i; [done|]. csimpl. rewrite NoDup_cons. intros [H1 H2].
  destruct i as [|i]; simpl.
  - intros [= ->]. by rewrite String.eqb_refl.
  - intros H. destruct (String.eqb_spec (e_name e) (e_name z)) as [E|]; [|by eapply IH].
    exfalso. apply H1. rewrite <- E. apply elem_of_list_fmap. exists e. split; [done|]. by eapply elem_of_list_lookup_2.
Qed.

Lemma bind_zip names (f : string → xty) ts vs :
  length names = length ts → length ts = length vs →
  bind (zip names (f <$> ts)) vs = Some (zip names (zip (f <$> ts) vs)).
Proof.
  revert ts vs. induction names as [|x names IH]; intros [|t ts] [|v vs]; simpl; try done.
  intros [= H1] [= H2]. by rewrite IH.
Qed.
Lemma get_zip_skip {A} x y (a : A) ρ : x ≠ y → get x ((y, a) :: ρ) = get x ρ.
Proof. simpl. intros H. by destruct (String.eqb_spec x y). Qed.

(** The arguments, one by one: [ρ'] is what comes before. *)
Lemma eval_args p (mk : atom → expr) (f g : string → xty) :
  (∀ ρ x t v, get x ρ = Some (f t, v) → eval p ρ (g t) (mk (Var x)) = Some v) →
  ∀ names ts vs ρ', NoDup names → (∀ x, x ∈ names → get x ρ' = None) →
  length names = length ts → length ts = length vs →
  eval_list p (ρ' ++ zip names (zip (f <$> ts) vs))%list (g <$> ts) ((λ x, mk (Var x)) <$> names) = Some vs.
Proof.
  intros Hmk. induction names as [|x names IH]; intros [|t ts] [|v vs] ρ'; try done.
  intros [Hx ND]%NoDup_cons H [= L1] [= L2]. csimpl.
  rewrite (Hmk _ x t v); [|
    rewrite get_app, H by (by left); simpl; by rewrite String.eqb_refl].
  specialize (IH ts vs (ρ' ++ [(x, (f t, v))])%list ND). rewrite <- app_assoc in IH. simpl in IH.
    rewrite IH; [done| |done|done].
    intros y Hy. rewrite get_app, H; [|by right]. simpl.
    destruct (String.eqb_spec y x) as [->|]; [done|]. done.
Qed.
Lemma eval_transmute p ρ x t v : get x ρ = Some (XRust t, v) → eval p ρ (XC t) (Transmute (Var x)) = Some v.
Proof. simpl. intros ->. simpl. by rewrite String.eqb_refl. Qed.
Lemma eval_from_raw p ρ x t v : get x ρ = Some (XC t, v) → eval p ρ (XRust t) (FromRaw (Var x)) = Some v.
Proof. simpl. intros ->. by rewrite String.eqb_refl. Qed.

Lemma run_shim_spec es I m e i a args :
  NoDup (e_name <$> es) → es !! i = Some e → entry_for m e → length args = length (m_args m) →
  run_shim es I (entry_shim e) (VAddr a :: args) = Some (the_call m a args, I (the_call m a args)).
Proof.
  intros ND Hi He L. unfold run_shim.
  assert (F : find_entry (s_method (entry_shim e)) es = Some e) by (by eapply (find_entry_spec es i)).
  rewrite F. destruct He as [_ (b & p & Hr & ->)]. unfold the_entry, entry_shim. cbn [s_params s_args s_ret s_method e_name e_mut e_arg_names e_arg_tys e_ret e_sig e_recv].
  cbn [bind]. rewrite bind_zip; [|by rewrite arg_names_length|done].
  cbn [eval_list].
  pose proof (eval_args None FromRaw XC XRust (λ ρ x t v, eval_from_raw None ρ x t v)
    (arg_names (length (m_args m))) (m_args m) args [("__this", (XErased b, VAddr a))] (arg_names_NoDup _)) as E.
  cbn [app] in E. rewrite E; [| |by rewrite arg_names_length|done].
  - simpl. rewrite String.eqb_refl. unfold the_call. by rewrite (takes_mut_spec m b p Hr).
  - intros x Hx. rewrite get_zip_skip; [done|]. intros ->. by apply this_not_arg in Hx.
Qed.

(** ** The vtable *)

Definition free (clone : bool) (es : list entry) : Prop :=
  NoDup (e_name <$> es) ∧
  ∀ x, x ∈ e_name <$> es → x ≠ "release_vptr" ∧ x ≠ "_invariant" ∧ (clone = true → x ≠ "retain_vptr").
Lemma vtable_def_names clone es :
  (vtable_def clone es).*1 = "release_vptr" :: (if clone then ["retain_vptr"] else []) ++ (e_name <$> es) ++ ["_invariant"].
Proof.
  unfold vtable_def. rewrite !fmap_app. csimpl. f_equal. f_equal; [by destruct clone|]. f_equal.
  rewrite <- list_fmap_compose. done.
Qed.
Lemma vtable_def_NoDup clone es : NoDup (vtable_def clone es).*1 ↔ free clone es.
Proof.
  rewrite vtable_def_names, NoDup_cons, !NoDup_app, not_elem_of_app, not_elem_of_app. unfold free. split.
  - intros ((H1 & H2 & _) & _ & H4 & H5 & H6 & _). split; [done|]. intros x Hx.
    split; [by intros ->|]. split.
    + intros ->. eapply H6; [done|]. by left.
    + intros -> ->. apply (H4 "retain_vptr"); [by left|]. apply elem_of_app. by left.
  - intros [H1 H2]. split; [split; [|split]|split; [|split]].
    + destruct clone; [by rewrite elem_of_list_singleton|apply not_elem_of_nil].
    + intros H. by destruct (H2 _ H).
    + by rewrite elem_of_list_singleton.
    + destruct clone; [apply NoDup_singleton|constructor].
    + destruct clone; [|by intros ? ?%elem_of_nil].
      intros x ->%elem_of_list_singleton. rewrite elem_of_app, elem_of_list_singleton. intros [H|H]; [|done].
      destruct (H2 _ H) as (_ & _ & H3). by apply H3.
    + split; [done|]. split; [|apply NoDup_singleton]. intros x Hx ->%elem_of_list_singleton.
      by destruct (H2 _ Hx) as (_ & ? & _).
Qed.
Lemma get_in_vtable {A} (r : A) (k : list (string * A)) (g : entry → A) z clone es i e :
  free clone es → es !! i = Some e → (k = [] ∨ clone = true ∧ ∃ s, k = [("retain_vptr", s)]) →
  get (e_name e) ([("release_vptr", r)] ++ k ++ ((λ e, (e_name e, g e)) <$> es) ++ [("_invariant", z)]) = Some (g e).
Proof.
  intros [ND H] Hi Hk. assert (Hx : e_name e ∈ e_name <$> es).
  { apply elem_of_list_fmap. exists e. split; [done|]. by eapply elem_of_list_lookup_2. }
  destruct (H _ Hx) as (H1 & H2 & H3). rewrite get_app, get_zip_skip; [|done]. simpl get at 1.
  rewrite get_app. assert (K : get (e_name e) k = None).
  { destruct Hk as [->|[Hc [s ->]]]; [done|]. rewrite get_zip_skip; [done|]. auto. }
  rewrite K, get_app, (get_fmap e_name g es i e); done.
Qed.
Lemma get_def clone es i e : free clone es → es !! i = Some e →
  get (e_name e) (vtable_def clone es) = Some (entry_ty e).
Proof.
  intros F Hi. unfold vtable_def. eapply (get_in_vtable FRelease _ entry_ty FPhantom); [done..|].
  destruct clone; [right|by left]. split; [done|]. by eexists.
Qed.
Lemma get_lit clone es c i e : free clone es → es !! i = Some e →
  get (e_name e) (vtable_expr clone es c) = Some (VShim (entry_shim e)).
Proof.
  intros F Hi. unfold vtable_expr. eapply (get_in_vtable (VRelease c) _ (λ e, VShim (entry_shim e)) VPhantom); [done..|].
  destruct clone; [|by left]. destruct c as [|?|[]]; [right..|by left|right]; (split; [done|]; by eexists).
Qed.

Lemma made_vtable t es a v : made t es a v → v_ptr v = a ∧ ∃ c, v_vtable v = vtable_expr (t_clone t) es c.
Proof. induction 1 as [c a|a v a' _ [_ [c IH]]]; split; try done; by exists c. Qed.

Lemma rust_call_spec t es I m e i a v args :
  free (t_clone t) es → es !! i = Some e → entry_for m e → length args = length (m_args m) → made t es a v →
  rust_call t es I v (m_name m) args = Some (the_call m a args, I (the_call m a args)).
Proof.
  intros F Hi He L [Hp [c Hv]]%made_vtable. unfold rust_call.
  rewrite <- (entry_for_name m e He), (find_entry_spec es i e (proj1 F) Hi).
  unfold entry_forward. cbn [w_params w_field w_args w_ret].
  assert (Hs : e_sig e = m_args m ∧ e_arg_tys e = m_args m ∧ e_arg_names e = arg_names (length (m_args m))).
  { destruct He as [_ (b & p & _ & ->)]. done. }
  destruct Hs as (Hs1 & Hs2 & Hs3).
  rewrite Hs1, Hs3, bind_zip; [|by rewrite arg_names_length|done].
  rewrite (get_def _ es i e F Hi). unfold entry_ty at 1. rewrite Hv, (get_lit _ es c i e F Hi), Hs2, Hp.
  simpl transmutable. rewrite String.eqb_refl.
  cbn [eval_list].
  pose proof (eval_args (Some a) Transmute XRust XC (λ ρ x t v, eval_transmute (Some a) ρ x t v)
    (arg_names (length (m_args m))) (m_args m) args [] (arg_names_NoDup _)) as E.
  cbn [app] in E. rewrite E; [|done|by rewrite arg_names_length|done].
  simpl eval. by eapply run_shim_spec; [apply F|..].
Qed.

Lemma c_fields_spec t es :
  c_fields t es = ("release_vptr", FRelease) :: (if t_clone t then [("retain_vptr", FRetain)] else []) ++
    ((λ e, (e_name e, entry_ty e)) <$> es).
Proof.
  unfold c_fields, vtable_def. cbn [app List.filter]. f_equal.
  rewrite !List.filter_app. f_equal; [by destruct (t_clone t)|].
  simpl. rewrite app_nil_r. induction es as [|e es IH]; [done|]. csimpl. by rewrite IH.
Qed.
Lemma entry_ty_spec m e : entry_for m e → entry_ty e = slot_type m.
Proof.
  intros [_ (b & p & H & ->)]. unfold entry_ty, slot_type. simpl. by rewrite (takes_mut_spec m b p H).
Qed.
Lemma c_fields_slots t es : Forall2 entry_for (methods_of (t_items t)) es → c_fields t es = slots t.
Proof.
  intros H. rewrite c_fields_spec. unfold slots. f_equal. f_equal.
  induction H as [|m e ms es H _ IH]; [done|]. csimpl. by rewrite IH, (entry_for_name m e), (entry_ty_spec m e).
Qed.
Lemma c_call_spec t es I m e i a v args :
  free (t_clone t) es → Forall2 entry_for (methods_of (t_items t)) es →
  es !! i = Some e → methods_of (t_items t) !! i = Some m → entry_for m e → length args = length (m_args m) → made t es a v →
  c_call t es I v (slot t i) args = Some (the_call m a args, I (the_call m a args)).
Proof.
  intros F F2 Hi Hm He L [Hp [c Hv]]%made_vtable. unfold c_call.
  assert (S : c_fields t es !! slot t i = Some (e_name e, entry_ty e)).
  { rewrite c_fields_spec. unfold slot. destruct (t_clone t); simpl; rewrite list_lookup_fmap, Hi; done. }
  rewrite S. unfold entry_ty. rewrite Hv, (get_lit _ es c i e F Hi), Hp.
  by eapply run_shim_spec; [apply F|..].
Qed.

(** ** Generics *)

Fixpoint sorted (l : list gparam) : bool :=
  match l with
  | [] => true
  | GConst _ :: l => negb (existsb is_ty l) && sorted l
  | _ :: l => sorted l
  end.
Lemma existsb_false {A} (f : A → bool) l : existsb f l = false ↔ ∀ x, x ∈ l → f x = false.
Proof.
  rewrite <- not_true_iff_false, existsb_exists. setoid_rewrite <- elem_of_list_In. split.
  - intros H x Hx. destruct (f x) eqn:E; [|done]. exfalso. eauto.
  - intros H (x & Hx & E). rewrite H in E; done.
Qed.
Lemma sorted_spec l : sorted l = true ↔ types_before_consts l.
Proof.
  unfold types_before_consts. induction l as [|g l IH]; [by split|].
  assert (E : (∀ i j x y, l !! i = Some (GConst x) → l !! j = Some (GTy y) → j < i) ↔
              (∀ i j x y, (g :: l) !! S i = Some (GConst x) → (g :: l) !! S j = Some (GTy y) → S j < S i)).
  { simpl. split; intros H i j x y H1 H2; specialize (H i j x y H1 H2); lia. }
  rewrite E in IH. clear E.
  assert (G : (is_const g = false → sorted (g :: l) = sorted l) ∧
              (is_const g = true → sorted (g :: l) = negb (existsb is_ty l) && sorted l)) by (by destruct g).
  destruct (is_const g) eqn:Eg.
  - rewrite (proj2 G eq_refl), andb_true_iff, negb_true_iff, existsb_false, IH. split.
    + intros [H1 H2] [|i] [|j] x y Hi Hj.
      * simpl in Hj. injection Hj as ->. done.
      * simpl in Hj. apply elem_of_list_lookup_2 in Hj. by apply H1 in Hj.
      * lia.
      * eauto.
    + intros H. split; [|eauto]. intros z Hz. destruct z as [|z|]; [done| |done].
      apply elem_of_list_lookup in Hz as [j Hj]. destruct g as [| |x]; [done|done|].
      specialize (H 0 (S j) x z eq_refl Hj). lia.
  - rewrite (proj1 G eq_refl), IH. split.
    + intros H [|i] [|j] x y Hi Hj.
      * simpl in Hi. injection Hi as ->. done.
      * simpl in Hi. injection Hi as ->. done.
      * lia.
      * eauto.
    + eauto.
Qed.
Lemma sorted_app a b : sorted (a ++ b) = sorted a && sorted b && negb (existsb is_const a && existsb is_ty b).
Proof.
  induction a as [|g a IH]; [simpl; by destruct (sorted b)|].
  destruct g; simpl; rewrite ?IH; [done|done|]. rewrite existsb_app.
  destruct (sorted a), (sorted b), (existsb is_ty a), (existsb is_ty b), (existsb is_const a); done.
Qed.
Lemma sorted_lts a b : Forall (λ g, is_lt g = true) a → sorted (a ++ b) = sorted b.
Proof. induction 1 as [|g a H _ IH]; [done|]. destruct g; simpl; done. Qed.
Lemma filter_none (f : gparam → bool) l : (∀ x, x ∈ l → f x = false) → List.filter f l = [].
Proof.
  induction l as [|g l IH]; intros H; [done|]. simpl. rewrite (H g) by (by left).
  apply IH. intros x Hx. apply H. by right.
Qed.
Lemma filter_all (f : gparam → bool) l : (∀ x, x ∈ l → f x = true) → List.filter f l = l.
Proof.
  induction l as [|g l IH]; intros H; [done|]. simpl. rewrite (H g) by (by left).
  f_equal. apply IH. intros x Hx. apply H. by right.
Qed.
Lemma sorted_split l : Forall (λ g, is_lt g = false) l →
  sorted l = true ↔ l = (List.filter is_ty l ++ List.filter is_const l)%list.
Proof.
  induction 1 as [|g l H Hl IH]; [done|]. destruct g as [|x|x]; [done| |]; simpl.
  - rewrite IH. split; [by intros <-|]. intros [= E]. by rewrite <- E.
  - rewrite andb_true_iff, negb_true_iff, existsb_false. rewrite Forall_forall in Hl. split.
    + intros [H1 _]. rewrite (filter_none is_ty), (filter_all is_const); [done| |done].
      intros y Hy. specialize (H1 y Hy). specialize (Hl y Hy). by destruct y.
    + intros E. assert (N : List.filter is_ty l = []).
      { destruct (List.filter is_ty l) as [|z zs] eqn:F; [done|]. simpl in E. injection E as <- _.
        assert (Hz : In (GConst x) (List.filter is_ty l)) by (rewrite F; by left).
        apply filter_In in Hz as [_ Hz]. done. }
      split.
      * intros y Hy. destruct (is_ty y) eqn:Ey; [|done]. exfalso.
        assert (Hz : In y (List.filter is_ty l)) by (apply filter_In; split; [by apply elem_of_list_In|done]).
        by rewrite N in Hz.
      * apply IH. rewrite N in E |- *. simpl in E |- *. injection E as E. done.
Qed.

Lemma instantiate_spec ps qs :
  (match instantiate ps qs with Some i => forallb (λ p, String.eqb p.1 p.2) i | None => false end) = true ↔ ps = qs.
Proof.
  revert qs. induction ps as [|p ps IH]; intros [|q qs]; simpl; try done. specialize (IH qs).
  destruct (same_kind p q) eqn:K.
  - destruct (instantiate ps qs) as [i|]; simpl.
    + rewrite andb_true_iff, IH, String.eqb_eq. split.
      * intros [H ->]. f_equal. destruct p, q; simpl in *; try done; by subst.
      * by intros [= -> ->].
    + split; [done|]. intros [= _ E]. by apply IH in E.
  - split; [done|]. intros [= -> _]. by destruct q.
Qed.
Lemma filter_filter (f g : gparam → bool) l :
  (∀ x, f x = true → g x = true) → List.filter f (List.filter g l) = List.filter f l.
Proof.
  intros H. induction l as [|x l IH]; [done|]. simpl.
  destruct (g x) eqn:G; simpl; [by rewrite IH|]. destruct (f x) eqn:F; [|done]. rewrite H in G; done.
Qed.
Lemma turbofish_sorted gs : turbofish_ok gs = true ↔ sorted (List.filter (negb ∘ is_lt) gs) = true.
Proof.
  unfold turbofish_ok. rewrite instantiate_spec. unfold intro_generics, fwd_generics.
  rewrite List.filter_app, (filter_none _ (List.filter is_lt gs)), (filter_filter _ (negb ∘ is_lt)); [|done|intros x Hx].
  2: { apply elem_of_list_In, filter_In in Hx as [_ Hx]. simpl. by rewrite Hx. }
  cbn [app]. rewrite sorted_split.
  - rewrite !(filter_filter _ (negb ∘ is_lt)); [done|by intros []..].
  - apply Forall_forall. intros x Hx. apply elem_of_list_In, filter_In in Hx as [_ Hx]. simpl in Hx. by apply negb_true_iff.
Qed.

Lemma lts_first l :
  (∀ i j x g, l !! i = Some (GLt x) → l !! j = Some g → is_lt g = false → i < j) →
  ∃ a b, l = (a ++ b)%list ∧ Forall (λ g, is_lt g = true) a ∧ Forall (λ g, is_lt g = false) b.
Proof.
  induction l as [|g l IH]; intros H; [by exists [], []|].
  destruct IH as (a & b & -> & Ha & Hb).
  { intros i j x h Hi Hj E. specialize (H (S i) (S j) x h Hi Hj E). lia. }
  destruct (is_lt g) eqn:G.
  - exists (g :: a), b. split; [done|]. split; [by constructor|done].
  - exists [], (g :: a ++ b)%list. split; [done|]. split; [done|]. constructor; [done|].
    apply Forall_app. split; [|done]. destruct a as [|z a]; [done|].
    apply Forall_cons in Ha as [Hz _]. destruct z as [x| |]; [|done|done].
    specialize (H 1 0 x g eq_refl eq_refl G). lia.
Qed.
Lemma count_app f a b : count f (a ++ b) = count f a + count f b.
Proof. unfold count. by rewrite List.filter_app, app_length. Qed.
Lemma count_all f a : (∀ x, x ∈ a → f x = true) → count f a = length a.
Proof. intros H. unfold count. by rewrite filter_all. Qed.
Lemma count_none f a : (∀ x, x ∈ a → f x = false) → count f a = 0.
Proof. intros H. unfold count. by rewrite filter_none. Qed.

Lemma all_generics_sorted t :
  (∀ i j x g, t_generics t !! i = Some (GLt x) → t_generics t !! j = Some g → is_lt g = false → i < j) →
  sorted (List.filter (negb ∘ is_lt) (all_generics t)) = true ↔ sorted (t_generics t) = true.
Proof.
  intros H. destruct (lts_first _ H) as (a & b & E & Ha & Hb). rewrite Forall_forall in Ha. rewrite Forall_forall in Hb.
  unfold all_generics, generics_and_lt. rewrite E.
  set (n := count is_ty b).
  assert (N : count is_lt (GLt "__usability" :: a ++ b)%list + count is_ty (GLt "__usability" :: a ++ b)%list = S (length a + n)).
  { change (GLt "__usability" :: a ++ b)%list with ([GLt "__usability"] ++ a ++ b)%list.
    rewrite !count_app, (count_all is_lt a), (count_none is_ty a), (count_none is_lt b); [|done|..|done].
    - change (count is_lt [GLt "__usability"]) with 1. change (count is_ty [GLt "__usability"]) with 0. fold n. lia.
    - intros x Hx. specialize (Ha x Hx). by destruct x. }
  rewrite N. cbn [take drop]. rewrite take_add_app, drop_add_app by done.
  rewrite sorted_lts by (by apply Forall_forall).
  assert (F : List.filter (negb ∘ is_lt) ((GLt "__usability" :: a ++ take n b) ++ GTy ("__impl_" +:+ t_name t) :: drop n b)%list
     = (take n b ++ GTy ("__impl_" +:+ t_name t) :: drop n b)%list).
  { rewrite List.filter_app. simpl. rewrite List.filter_app, (filter_none _ a), !(filter_all _ _); [done|..].
    - intros x Hx. simpl. rewrite Hb; [done|]. rewrite <- (take_drop n b). apply elem_of_app. by right.
    - intros x Hx. simpl. rewrite Hb; [done|]. rewrite <- (take_drop n b). apply elem_of_app. by left.
    - intros x Hx. simpl. by rewrite Ha. }
  rewrite F, sorted_app. split.
  - rewrite !andb_true_iff, negb_true_iff. intros [[H1 H2] H3]. rewrite <- (take_drop n b), sorted_app, H1.
    simpl in H2, H3. rewrite H2. simpl. rewrite andb_true_r in H3. by rewrite H3.
  - intros S. apply sorted_split in S; [|by apply Forall_forall].
    assert (T1 : take n b = List.filter is_ty b) by (rewrite S at 1; by apply take_app).
    assert (T2 : drop n b = List.filter is_const b) by (rewrite S at 1; by apply drop_app).
    rewrite T1, T2.
    assert (C : existsb is_const (List.filter is_ty b) = false).
    { apply existsb_false. intros x Hx. apply elem_of_list_In, filter_In in Hx as [_ Hx]. by destruct x. }
    rewrite C. simpl. rewrite andb_true_r, andb_true_iff.
    split; apply sorted_spec; intros i j x y Hi Hj; exfalso.
    + apply elem_of_list_lookup_2, elem_of_list_In, filter_In in Hi as [_ Hi]. done.
    + apply elem_of_list_lookup_2, elem_of_list_In, filter_In in Hj as [_ Hj]. done.
Qed.

(** ** Acceptance *)

Lemma covers_refl l : covers l l = true.
Proof.
  unfold covers. rewrite andb_diag. apply forallb_forall. intros x Hx. apply existsb_In. by apply elem_of_list_In.
Qed.
Lemma literals t es : literals_ok t es = true.
Proof.
  unfold literals_ok. apply forallb_forall. intros f _. apply forallb_forall. intros c _.
  destruct (DynModel.is_eligible c (t_clone t) (e_recv <$> es) f) eqn:E; [|done]. unfold implb.
  assert (N : (vtable_expr (t_clone t) es c).*1 = (vtable_def (t_clone t) es).*1); [|rewrite N; apply covers_refl].
  rewrite vtable_def_names. unfold vtable_expr. rewrite !fmap_app. cbn [fmap list_fmap fst app]. f_equal. f_equal.
  - destruct (t_clone t); [|done]. destruct c as [|?|[]]; done.
  - f_equal. rewrite <- list_fmap_compose. done.
Qed.
Lemma shim_params_NoDup m e : entry_for m e → distinct (s_params (entry_shim e)).*1 = true.
Proof.
  intros [_ (b & p & _ & ->)]. apply distinct_spec. simpl.
  rewrite fst_zip by (by rewrite fmap_length, arg_names_length). constructor; [apply this_not_arg|apply arg_names_NoDup].
Qed.

Lemma has_pin_spec ms es : Forall2 entry_for ms es →
  DynModel.has_pin (e_recv <$> es) = true ↔ ∃ m b, m ∈ ms ∧ m_recv m = Some (receiver_of b true).
Proof.
  unfold DynModel.has_pin. induction 1 as [|m e ms es [_ (b & p & H & ->)] _ IH].
  { split; [done|]. by intros (m & b & ?%elem_of_nil & _). }
  csimpl. rewrite orb_true_iff, IH. split.
  - intros [->|(m' & b' & H1 & H2)]; [exists m, b; split; [by left|done]|]. exists m', b'. split; [by right|done].
  - intros (m' & b' & [->|H1]%elem_of_cons & H2); [left|right; by exists m', b'].
    rewrite H in H2. by destruct p.
Qed.
Lemma has_plain_mut_spec ms es : Forall2 entry_for ms es →
  DynModel.has_non_pin_non_ref (e_recv <$> es) = true ↔ ∃ m, m ∈ ms ∧ m_recv m = Some (receiver_of true false).
Proof.
  unfold DynModel.has_non_pin_non_ref. induction 1 as [|m e ms es [_ (b & p & H & ->)] _ IH].
  { split; [done|]. by intros (m & ?%elem_of_nil & _). }
  csimpl. rewrite orb_true_iff, IH. split.
  - intros [H1|(m' & H1 & H2)]; [|exists m'; split; [by right|done]].
    exists m. split; [by left|]. destruct b, p; done.
  - intros (m' & [->|H1]%elem_of_cons & H2); [left|right; by exists m'].
    rewrite H in H2. destruct b, p; done.
Qed.

Lemma expand_spec t es :
  expand t = Some es ↔ simple t ∧ pins_agree t ∧ Forall2 entry_for (methods_of (t_items t)) es.
Proof.
  unfold expand, simple, pins_agree. split.
  - destruct (entries_of (t_items t)) as [es'|] eqn:E; [|done]. apply entries_of_spec in E as [H1 H2].
    destruct (DynModel.has_pin (e_recv <$> es') && DynModel.has_non_pin_non_ref (e_recv <$> es')) eqn:P; [done|].
    intros [= ->]. split; [split; [done|]|split; [|done]].
    + clear -H2. induction H2 as [|m e ms es [H _] _ IH]; constructor; done.
    + intros m m' Hm Hm' b R R'. apply andb_false_iff in P.
      assert (A : DynModel.has_pin (e_recv <$> es) = true) by (eapply has_pin_spec; [done|by exists m, b]).
      assert (B : DynModel.has_non_pin_non_ref (e_recv <$> es) = true) by (eapply has_plain_mut_spec; [done|by exists m']).
      rewrite A, B in P. by destruct P.
  - intros [[H1 _] [P H2]]. assert (E : entries_of (t_items t) = Some es) by (by apply entries_of_spec).
    rewrite E. destruct (DynModel.has_pin (e_recv <$> es) && DynModel.has_non_pin_non_ref (e_recv <$> es)) eqn:Q; [|done].
    exfalso. apply andb_true_iff in Q as [A B].
    apply (has_pin_spec _ _ H2) in A as (m & b & Hm & R). apply (has_plain_mut_spec _ _ H2) in B as (m' & Hm' & R').
    apply (P m m' Hm Hm' b R R').
Qed.
Lemma free_names t es : Forall2 entry_for (methods_of (t_items t)) es →
  NoDup (m_name <$> methods_of (t_items t)) → free (t_clone t) es ↔ names_free t.
Proof.
  intros H ND. unfold free, names_free. rewrite (entries_names _ _ H). split.
  - intros [_ F] m Hm. apply F. by apply elem_of_list_fmap_1.
  - intros F. split; [done|]. intros x (m & -> & Hm)%elem_of_list_fmap. by apply F.
Qed.

Lemma compiles_spec t : rust_trait t → compiles t = true ↔ supported t.
Proof.
  intros [ND LF]. unfold compiles, supported. split.
  - destruct (expand t) as [es|] eqn:E; [|done]. apply expand_spec in E as (S & P & F).
    rewrite !andb_true_iff, negb_true_iff. intros (((((H1 & _) & H3) & H4) & H5) & H6).
    split; [done|]. split; [done|].
    apply distinct_spec, vtable_def_NoDup, (free_names _ _ F ND) in H1. split; [done|].
    split; [|split; [|split; [done|]]].
    + destruct es as [|e es].
      * left. by inversion F.
      * right. simpl in H3. apply andb_true_iff in H3 as [H3 _]. apply andb_true_iff in H3 as [_ H3].
        apply turbofish_sorted in H3. apply (all_generics_sorted t LF) in H3. by apply sorted_spec.
    + intros C. rewrite C in H4. simpl in H4. apply Nat.eqb_eq in H4. by apply nil_length_inv.
    + intros s Hs. rewrite forallb_forall in H6. specialize (H6 s). rewrite <- elem_of_list_In in H6.
      specialize (H6 Hs). destruct s as [| |[]]; [by left|done|by right|done].
  - intros (S & P & N & G & C & U & Sup). destruct (entries_exist _ (proj2 S)) as [es F].
    assert (E : expand t = Some es) by (by apply expand_spec). rewrite E, literals, U.
    assert (D : distinct (vtable_def (t_clone t) es).*1 = true).
    { apply distinct_spec, vtable_def_NoDup. by apply (free_names _ _ F ND). }
    rewrite D. rewrite !andb_true_iff. repeat split; try done.
    + destruct G as [G|G].
      { rewrite G in F. by inversion F. }
      assert (T : turbofish_ok (all_generics t) = true).
      { apply turbofish_sorted, (all_generics_sorted t LF). by apply sorted_spec. }
      rewrite T. clear -F. induction F as [|m e ms es H _ IH]; [done|]. cbn [forallb].
      by rewrite (shim_params_NoDup m e H).
    + destruct (t_clone t); [|done]. by rewrite C.
    + apply forallb_forall. intros s Hs. apply elem_of_list_In in Hs. by destruct (Sup s Hs) as [->| ->].
Qed.
Lemma compiles_entries t : compiles t = true →
  ∃ es, expand t = Some es ∧ free (t_clone t) es ∧ Forall2 entry_for (methods_of (t_items t)) es.
Proof.
  unfold compiles. destruct (expand t) as [es|] eqn:E; [|done].
  rewrite !andb_true_iff. intros (((((H1 & _) & _) & _) & _) & _).
  exists es. split; [done|]. split; [by apply vtable_def_NoDup, distinct_spec|]. by apply expand_spec in E as (_ & _ & ?).
Qed.
