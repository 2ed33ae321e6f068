(** Proofs for C84, continued: the whole header. *)

From Coq Require Import NArith ZArith List Bool String Ascii Lia ZifyBool ZifyNat ZifyN.
From stdpp Require Import base numbers list strings pretty option.
From Verif Require Import LayoutModel NameModel HeaderModel HeaderSpec HeaderProofs HeaderRead HeaderNames CsModel
  TextModel TextSpec TextProofs CompSpec CompProofs CompRun CompStep.
From Verif Require HeaderProps CsSpec CsProofs.
Import stdpp.list CompSpec.

(** ** Where declarations come from *)

Definition made (is : list xitem) (d : lang * xdecl) : Prop :=
  d.1 = LC ∧
  match d.2 with
  | YEnum _ n _ vs => (n, vs) ∈ flat_map item_enums is
  | YConst d n t u v => JConst d n t u v ∈ is
  | YStruct _ _ fs => fs ≠ []
  | YDelegate _ _ _ => False
  | _ => True
  end.
Lemma erased_fields (fs : list (docs * string * xty)) :
  filter (λ f : string * cty, zst f.2 = false) (map (λ f : docs * string * xty, (f.1.2, erase f.2)) fs) ≠ [] →
  filter (λ f : docs * string * xty, zst (erase f.2) = false) fs ≠ [].
Proof.
  induction fs as [|f fs IH]; [done|]. cbn [map]. rewrite !filter_cons. cbn [snd].
  destruct (decide (zst (erase f.2) = false)); [done|]. apply IH.
Qed.
Lemma erase_struct d n gs fs : erase (XStruct d n gs fs) = TStruct n (map erase gs) (map (λ f : docs * string * xty, (f.1.2, erase f.2)) fs).
Proof.
  cbn [erase]. f_equal.
Qed.
Lemma body_made stable is s : xwrite_body LC stable is = XOk s → Forall (made is) (xout s).
Proof.
  intros E. unfold xwrite_body in E.
  assert (HJ : ∀ i, i ∈ (if stable then xbtree is else rev is) → i ∈ is).
  { destruct stable; intros i Hi.
    - unfold xbtree in Hi. assert (HB : ∀ js m, i ∈ fold_left (λ m i, xbtree_insert i m) js m → i ∈ m ∨ i ∈ js).
      { clear. assert (HI : ∀ j m, i ∈ xbtree_insert j m → i = j ∨ i ∈ m).
        { intros j m. induction m as [|k m IH]; cbn [xbtree_insert]; [intros ->%elem_of_list_singleton; by left|].
          destruct (String.compare _ _); rewrite !elem_of_cons; tauto. }
        induction js as [|j js IH]; intros m H; [by left|]. cbn [fold_left] in H. apply IH in H as [H|H].
        - apply HI in H as [->|H]; [right; left|by left].
        - right. by right. }
      by apply HB in Hi as [Hi%elem_of_nil|Hi].
    - apply elem_of_list_In, in_rev in Hi. by apply elem_of_list_In. }
  revert E HJ. generalize (if stable then xbtree is else rev is). intros js E HJ.
  set (keep := λ f : xst → xres, ∀ s, Forall (made is) (xout s) → match f s with XOk s' => Forall (made is) (xout s') | _ => True end).
  assert (Kok : keep XOk) by (by intros ? ?).
  assert (Kemit : ∀ y, made is (LC, y) → keep (xemit LC y)).
  { intros z Hz x Hx. cbn [xemit xout]. apply Forall_app. split; [done|]. apply Forall_cons. split; [exact Hz|constructor]. }
  assert (Kbind : ∀ f g, keep f → keep g → keep (λ s, xbind (f s) g)).
  { intros f g Hf Hg x Hx. specialize (Hf x Hx). destruct (f x) as [x'| |]; [by apply Hg|done|done]. }
  assert (Konce : ∀ k f, keep f → keep (xonce k f)).
  { intros k f Hf x Hx. unfold xonce. case_bool_decide; [done|]. by apply Hf. }
  assert (Kint : keep (xdefine_int LC)) by (by apply Konce, Kemit).
  assert (Kdef : ∀ t, (∀ e, e ∈ enums_of t → e ∈ flat_map item_enums is) → keep (xdefine LC t)).
  { intros t. induction t as [i|d| | | | |c t IH|t n IH|r args IHr IHa|d n gs fs IHg IHf|d n i vs|d n t IH|d n] using xty_ind';
      cbn [xdefine legacy enums_of]; intros He; try done.
    - by apply Konce, Kemit.
    - by apply IH.
    - apply Konce, Kbind; [by apply IH|by apply Kemit].
    - apply Kbind; [apply IHr; intros e H; apply He, elem_of_app; by left|]. apply Kbind; [|done].
      assert (He' : ∀ e, e ∈ flat_map enums_of args → e ∈ flat_map item_enums is) by (intros e H; apply He, elem_of_app; by right).
      clear -IHa Kok Kbind He'.
      induction IHa as [|a args Ia _ IH]; [done|]. apply Kbind.
      + apply Ia. intros e H. apply He'. cbn [flat_map]. apply elem_of_app. by left.
      + apply IH. intros e H. apply He'. cbn [flat_map]. apply elem_of_app. by right.
    - apply Konce, Kbind.
      + clear -IHf Kok Kbind He. induction IHf as [|[q t] fs If _ IH]; [done|]. apply Kbind.
        * apply If. intros e H. apply He. cbn [flat_map]. apply elem_of_app. by left.
        * apply IH. intros e H. apply He. cbn [flat_map]. apply elem_of_app. by right.
      + intros x Hx. destruct (zst _) eqn:Ez; [done|]. apply (Kemit (YStruct _ _ _)); [|done]. split; [done|]. cbn [snd].
        rewrite erase_struct in Ez. by apply zst_members, erased_fields in Ez.
    - apply Konce, Kbind; [done|]. apply Kemit. split; [done|]. apply He. left.
    - apply Konce, Kbind; [by apply IH|by apply Kemit].
    - by apply Konce, Kemit. }
  assert (Kgen : ∀ i, i ∈ is → keep (xgen_def LC i)).
  { intros i Hi. assert (He : ∀ e, e ∈ item_enums i → e ∈ flat_map item_enums is) by (intros e H; apply elem_flat; by exists i).
    destruct i as [d n args r|d n t u v|n t]; cbn [item_enums] in He.
    - intros x Hx. unfold xgen_def. destruct (bool_decide (n ∈ xseen x)); [done|].
      apply (Kbind (xdefine_all LC (map snd args)) (λ s, xbind (xdefine LC r s) (xemit LC (YFn d n args r)))); [| |exact Hx].
      + assert (He' : ∀ e, e ∈ flat_map (λ a : string * xty, enums_of a.2) args → e ∈ flat_map item_enums is)
          by (intros e H; apply He, elem_of_app; by left).
        clear -Kok Kbind Kdef He'. induction args as [|a args IH]; [done|]. apply Kbind.
        * apply Kdef. intros e H. apply He'. cbn [flat_map]. apply elem_of_app. by left.
        * apply IH. intros e H. apply He'. cbn [flat_map]. apply elem_of_app. by right.
      + apply Kbind; [|by apply Kemit]. apply Kdef. intros e H. apply He, elem_of_app. by right.
    - unfold xgen_def. apply Kbind; [by apply Kdef|]. destruct u; by apply Kemit.
    - exact (Kdef t He). }
  assert (Kall : keep (xgen_all LC js)).
  { clear -Kok Kbind Kgen HJ. induction js as [|i js IH]; [done|]. apply Kbind; [apply Kgen, HJ; left|]. apply IH. intros j Hj. apply HJ. by right. }
  specialize (Kall (Xst [] []) (List.Forall_nil _)). by rewrite E in Kall.
Qed.

(** ** The whole *)

Section Whole.
Context (stable : bool) (is : list xitem) (s : xst) (HE : xwrite_body LC stable is = XOk s).
Context (Hs : source_ok (map erase_item is)) (HN : NoDup (map xitem_name is)) (HA : enums_agree is).
Context (g : list ntext) (Hfresh : names_fresh g (map snd (xout s))).
Notation ys := (map snd (xout s)).

Lemma erased : write_body LC stable (map erase_item is) = Ok (St (xseen s) (map erase_decl ys)).
Proof.
  pose proof (write_erase LC stable is) as H. rewrite HE in H. cbn [abs] in H. rewrite <-H. f_equal.
  rewrite map_map. done.
Qed.
Lemma ys_from y : y ∈ ys → from_items (map erase_item is) (erase_decl y).
Proof. intros Hy. eapply write_body_from; [exact erased|]. apply elem_map. by exists y. Qed.
Lemma ys_made y : y ∈ ys → made is (LC, y).
Proof.
  intros (d & -> & Hd)%elem_map. pose proof (body_made _ _ _ HE) as H. rewrite Forall_forall in H. specialize (H d Hd).
  destruct d as [l y]. pose proof H as [El _]. cbn in El. by subst l.
Qed.
Lemma ys_texts : flat_map (λ d, expected false d.1 d.2) (xout s) = flat_map (expected false LC) ys.
Proof.
  pose proof (body_made _ _ _ HE) as H. revert H. generalize (xout s). clear. intros out H.
  induction H as [|[l y] out [H _] _ IH]; [done|]. cbn [fst] in H. subst l. cbn [flat_map map fst snd]. rewrite IH. reflexivity.
Qed.

Lemma printed i d : i ∈ is → own_decl (erase_item i) = Some d → ∃ y, y ∈ ys ∧ erase_decl y = d.
Proof.
  intros Hi Hd.
  destruct (HeaderProps.C24_printed_partial LC stable (map erase_item is) (St (xseen s) (map erase_decl ys)) (erase_item i) d ltac:(done)
    (so_clash _ Hs)) as (k & Hk & _); [|apply erased|..]; try done.
  - rewrite map_map. exact HN.
  - apply elem_map. by exists i.
  - apply elem_of_list_lookup_2, elem_map in Hk as (y & -> & Hy). by exists y.
Qed.

Lemma whole w0 : inv (map erase_item is) g [] w0 →
  ∃ w, delivers is w ∧ ∃ f0, ∀ f, f0 ≤ f → all f w0 (flat_map groups_of ys) = Some w.
Proof.
  intros HI0.
  destruct (steps (map erase_item is) Hs g ys) with (ys := @nil xdecl) (rest := ys) (w := w0) as (w & HI & f0 & HF).
  - apply ys_from.
  - intros y n r args Hy ->. by apply ys_made in Hy as [_ []].
  - pose proof (HeaderProps.C22_once _ _ _ _ erased) as H. cbn [out] in H. rewrite flat_map_concat_map, map_map in H.
    by rewrite flat_map_concat_map.
  - change (map erase_decl ys) with (out (St (xseen s) (map erase_decl ys))).
    eapply HeaderProps.C22_order_partial; [apply Hs| |exact erased].
    intros t Ht. pose proof (so_type _ Hs t Ht) as Ho. split; [intros ->; exact (Ho eq_refl)|]. intros n ->. exact (proj1 Ho eq_refl).
  - exact Hfresh.
  - intros d n fs Hy. by apply ys_made in Hy as [_ ?].
  - done.
  - done.
  - exists w. split; [|by exists f0]. clear f0 HF HI0 w0. split.
    + intros n p. split.
      * intros Hf. assert (Hp : (n, p) ∈ w_funs w).
        { clear -Hf. induction (w_funs w) as [|[m q] l IH]; [done|]. cbn [find] in Hf.
          destruct (String.eqb_spec n m) as [->|]; [injection Hf as ->; left|right; auto]. }
        apply (i_only _ _ _ _ HI) in Hp as (d & args & r & Hy & ->).
        destruct (origin_from _ Hs _ (ys_from _ Hy)) as (Ho & _ & _); [done|]. cbn [origin] in Ho.
        apply elem_map in Ho as (i & Ei & Hi). destruct i as [d' n' args' r'|d' n' t u v|n' t]; try discriminate Ei.
        cbn [erase_item] in Ei. injection Ei as -> Ea Er. exists d', args', r'. split; [done|]. unfold proto_of. rewrite Er. f_equal.
        assert (HM : ∀ l : list (string * xty), map (λ a, (a.1, view (erase a.2))) l =
          map (λ a : string * cty, (a.1, view a.2)) (map (λ a, (a.1, erase a.2)) l)) by (intros l; by rewrite map_map).
        by rewrite !HM, Ea.
      * intros (d & args & r & Hi & ->).
        destruct (printed (JFn d n args r) _ Hi eq_refl) as (y & Hy & Ey). destruct y as [| | | | | | | |d' n' args' r'|]; try discriminate Ey.
        cbn [erase_decl] in Ey. injection Ey as -> Ea Er. rewrite (i_funs _ _ _ _ HI _ _ _ _ Hy). unfold proto_of. rewrite Er. do 2 f_equal.
        assert (HM : ∀ l : list (string * xty), map (λ a, (a.1, view (erase a.2))) l =
          map (λ a : string * cty, (a.1, view a.2)) (map (λ a, (a.1, erase a.2)) l)) by (intros l; by rewrite map_map).
        by rewrite !HM, Ea.
    + intros n t k Hi Hk.
      assert (Hown : ∃ d, own_decl (erase_item (JType n t)) = Some d ∧ k ∈ type_names d).
      { cbn [erase_item]. destruct (erase t); cbn [type_key] in Hk; try discriminate Hk; injection Hk as <-; eexists; (split; [reflexivity|left]). }
      destruct Hown as (d & Hd & Hkd). destruct (printed _ _ Hi Hd) as (y & Hy & Ey). rewrite <-Ey in Hkd.
      pose proof (i_types _ _ _ _ HI _ _ Hy Hkd) as Hw. destruct (find_fst _ _ Hw) as (τ & Hf & Hin). rewrite Hf. f_equal.
      assert (Ho : occurs (erase t) (map erase_item is)).
      { exists (IType n (erase t)), (erase t). split; [|split; [left|constructor]]. apply elem_map. by exists (JType n t). }
      destruct (i_right _ _ _ _ HI _ _ Hin) as [[H1 _]|(u & Hu & Hku & ->)]; [by apply (so_keys _ Hs _ _ Ho) in Hk as [_ []]|].
      by rewrite (proj1 (so_clash _ Hs) _ _ _ Hu Ho Hku Hk).
    + intros t k τ Ho Hk Hf. destruct (find_fst k (w_types w)) as (τ' & Hf' & Hin).
      { clear -Hf. induction (w_types w) as [|[m q] l IH]; [done|]. cbn [find map fst] in *.
        destruct (String.eqb_spec k m) as [->|]; [left|right; auto]. }
      rewrite Hf in Hf'. injection Hf' as <-.
      destruct (i_right _ _ _ _ HI _ _ Hin) as [[H1 _]|(u & Hu & Hku & ->)]; [by apply (so_keys _ Hs _ _ Ho) in Hk as [_ []]|].
      by rewrite (proj1 (so_clash _ Hs) _ _ _ Hu Ho Hku Hk).
    + intros n vs j v z He Hf Hv Hz.
      assert (Hw : suffixed n ∈ map fst (w_types w)).
      { clear -Hf. induction (w_types w) as [|[m q] l IH]; [done|]. cbn [find map fst] in *.
        destruct (String.eqb_spec (suffixed n) m) as [->|]; [left|right; auto]. }
      assert (Ho : ∃ i, occurs (TEnum n i) (map erase_item is)).
      { apply elem_flat in He as (it & Hit & He).
        assert (HT : ∀ t, (n, vs) ∈ enums_of t → ∃ i, within (TEnum n i) (erase t)).
        { clear. intros t. induction t as [i|d| | | | |c t IH|t len IH|r args IHr IHa|d m gs fs IHg IHf|d m i vs'|d m t IH|d m] using xty_ind';
            cbn [enums_of]; intros H; try (by apply elem_of_nil in H).
          - destruct (IH H) as [i ?]. exists i. by constructor.
          - destruct (IH H) as [i ?]. exists i. by constructor.
          - apply elem_of_app in H as [H|H].
            + destruct (IHr H) as [i ?]. exists i. by apply W_ret.
            + apply elem_flat in H as (a & Ha & H). rewrite Forall_forall in IHa. destruct (IHa a Ha H) as [i ?]. exists i.
              cbn [erase]. eapply W_arg; [|done]. apply elem_map. by exists a.
          - apply elem_flat in H as (f & Hf & H). rewrite Forall_forall in IHf. destruct (IHf f Hf H) as [i ?]. exists i.
            rewrite erase_struct. eapply W_field; [|done]. apply elem_map. by exists f.
          - apply elem_of_list_singleton in H as [= <- <-]. exists i. constructor.
          - destruct (IH H) as [i ?]. exists i. by constructor. }
        assert (HI' : ∃ t, erase t ∈ item_types (erase_item it) ∧ (n, vs) ∈ enums_of t).
        { clear -He. destruct it as [d m args r|d m t u v|m t]; cbn [item_enums erase_item item_types] in *.
          - apply elem_of_app in He as [He|He].
            + apply elem_flat in He as (a & Ha & He). exists a.2. split; [|done]. apply elem_of_app. left. rewrite map_map.
              apply elem_map. by exists a.
            + exists r. split; [|done]. apply elem_of_app. right. left.
          - exists t. split; [left|done].
          - exists t. split; [left|done]. }
        destruct HI' as (t & Ht & Hte). destruct (HT t Hte) as [i Hi]. exists i, (erase_item it), (erase t).
        split; [|done]. apply elem_map. by exists it. }
      destruct Ho as [i Ho]. destruct (so_keys _ Hs (TEnum n i) (suffixed n) Ho eq_refl) as [_ Hnk].
      destruct (i_where _ _ _ _ HI _ Hw) as [?|(y & Hy & Hty)]; [done|].
      destruct (origin_from _ Hs _ (ys_from _ Hy)) as (Hor & _ & _).
      { intros m r args ->. by apply ys_made in Hy as [_ []]. }
      assert (HK : ∀ t, occurs t (map erase_item is) → type_key LC t = Some (suffixed n) → t = TEnum n i).
      { intros t Ht Hk. by eapply (proj1 (so_clash _ Hs)). }
      assert (Hyy : ∃ d i' vs', y = YEnum d n i' vs').
      { destruct y as [| |d m fs|m t len|d m i' vs'|d m t|d m|m r args|d m args r|d m t u v']; cbn [erase_decl type_names origin] in Hty, Hor.
        - destruct Hnk. revert Hty. generalize (suffixed n). apply Forall_forall. by apply (bool_decide_unpack _).
        - destruct Hnk. apply elem_of_list_singleton in Hty as ->. by apply (bool_decide_unpack _).
        - apply elem_of_list_singleton in Hty. destruct Hor as (nm & gs & fs0 & Ho2 & -> & _).
          by specialize (HK (TStruct nm gs fs0) Ho2 ltac:(by cbn [type_key]; rewrite Hty)).
        - apply elem_of_list_singleton in Hty. destruct Hor as (Ho2 & Hm). rewrite <-Hty in Hm.
          by specialize (HK _ Ho2 ltac:(by cbn [type_key]; rewrite Hm)).
        - apply elem_of_list_singleton in Hty. apply suffixed_inj in Hty as <-. eauto.
        - apply elem_of_list_singleton in Hty. destruct Hor as (m' & Hm & Ho2). rewrite <-Hty in Hm.
          by specialize (HK _ Ho2 ltac:(by cbn [type_key short]; rewrite Hm)).
        - apply elem_of_list_singleton in Hty. by specialize (HK _ Hor ltac:(by cbn [type_key short]; rewrite Hty)).
        - by apply ys_made in Hy as [_ []].
        - by apply elem_of_nil in Hty.
        - by apply elem_of_nil in Hty. }
      destruct Hyy as (d & i' & vs' & ->).
      pose proof (ys_made _ Hy) as [_ He']. cbn [snd] in He'. rewrite (HA _ _ _ He He') in Hv, Hz.
      eapply (i_consts _ _ _ _ HI); [exact Hy|]. unfold valued. apply elem_of_list_lookup. exists j.
      apply lookup_zip_with_Some. exists (text_of (variant_name n v.1.2)), z. split; [done|]. split; [|done].
      change ((λ v, text_of (variant_name n v.1.2)) <$> vs' !! j = Some (text_of (variant_name n v.1.2))) || idtac.
      rewrite list_lookup_fmap. by rewrite Hv.
    + intros d n t u v Hi. destruct (printed _ _ Hi eq_refl) as (y & Hy & Ey). destruct y as [| | | | | | | | |d' n' t' u' v']; try discriminate Ey.
      cbn [erase_decl] in Ey. injection Ey as -> Et. pose proof (ys_made _ Hy) as [_ Hm]. cbn [snd] in Hm.
      assert (EQ : JConst d' n t' u' v' = JConst d n t u v).
      { apply elem_of_list_lookup in Hm as [a Ha]. apply elem_of_list_lookup in Hi as [b Hb].
        assert (a = b) as ->; [|congruence].
        eapply NoDup_lookup; [exact HN|..]; change (map xitem_name is) with (xitem_name <$> is); rewrite list_lookup_fmap, ?Ha, ?Hb; done. }
      injection EQ as -> -> -> ->. apply (i_defs _ _ _ _ HI (YConst d n t u v)); [done|]. left.
Qed.
End Whole.

Lemma inv_start is g w : w_types w = [] → w_funs w = [] → w_consts w = [] → w_tags w = [] → w_included w = [] →
  (∀ x, x ∈ map fst (w_macros w) → x ∈ g) → inv is g [] w.
Proof.
  intros H1 H2 H3 H4 H5 H6. split; unfold ordinary; rewrite ?H1, ?H2, ?H3, ?H4, ?H5; cbn; try (by intros ? ?%elem_of_nil);
    try (by intros ? ? ?%elem_of_nil); try (by intros ? ? ? ? ?%elem_of_nil); try (by intros ? ? ? ?%elem_of_nil);
    try (by intros ? ? ? ? ? ? ?%elem_of_nil).
  intros x Hx. rewrite app_nil_r. auto.
Qed.
