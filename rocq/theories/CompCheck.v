(** Checkers for the hypotheses of C84, for its examples. *)

From Coq Require Import NArith ZArith List Bool String Ascii Lia ZifyBool ZifyNat ZifyN.
From stdpp Require Import base numbers list strings pretty option sets.
From Verif Require Import LayoutModel NameModel HeaderModel HeaderSpec HeaderProofs HeaderNames CsModel
  TextModel TextSpec CompSpec CompRun CompStep.
From Verif Require CsSpec.
Import stdpp.list CompSpec.

Definition intk_eqb (i j : intk) : bool := String.eqb (int_name i) (int_name j).
Lemma intk_eqb_sound i j : intk_eqb i j = true → i = j.
Proof. by destruct i, j. Qed.
Definition all2 {A B} (f : A → B → bool) : list A → list B → bool :=
  fix go l k := match l, k with [], [] => true | x :: l, y :: k => f x y && go l k | _, _ => false end.
Fixpoint cty_eqb (t u : cty) : bool :=
  match t, u with
  | TInt i, TInt j => intk_eqb i j
  | TFloat a, TFloat b => Bool.eqb a b
  | TVoid, TVoid | TBool, TBool | TCInt, TCInt | TChar, TChar => true
  | TPtr c t, TPtr d u => Bool.eqb c d && cty_eqb t u
  | TArr t n, TArr u m => (n =? m)%N && cty_eqb t u
  | TFn r args, TFn r' args' => cty_eqb r r' && all2 cty_eqb args args'
  | TStruct n gs fs, TStruct n' gs' fs' =>
      String.eqb n n' && all2 cty_eqb gs gs' && all2 (λ f g, String.eqb f.1 g.1 && cty_eqb f.2 g.2) fs fs'
  | TEnum n i, TEnum n' i' =>
      String.eqb n n' && match i, i' with Some i, Some j => intk_eqb i j | None, None => true | _, _ => false end
  | TAlias n t, TAlias n' u => String.eqb n n' && cty_eqb t u
  | TOpaque n, TOpaque n' => String.eqb n n'
  | _, _ => false
  end.
Lemma cty_eqb_sound t : ∀ u, cty_eqb t u = true → t = u.
Proof.
  induction t as [i|d| | | | |c t IH|t n IH|r args IHr IHa|n gs fs IHg IHf|n i|n t IH|n] using cty_ind'; intros u; destruct u; try done; cbn [cty_eqb].
  - by intros ->%intk_eqb_sound.
  - by intros ->%eqb_prop.
  - by intros [->%eqb_prop ->%IH]%andb_true_iff.
  - by intros [->%N.eqb_eq ->%IH]%andb_true_iff.
  - intros [->%IHr H]%andb_true_iff. f_equal. revert args0 H. induction IHa as [|a args Ha _ IH]; intros [|b bs] H; try done.
    cbn [all2] in H. apply andb_true_iff in H as [->%Ha H]. f_equal. by apply IH.
  - intros [[->%String.eqb_eq H1]%andb_true_iff H2]%andb_true_iff. f_equal.
    + revert gs0 H1. clear -IHg. induction IHg as [|a args Ha _ IH]; intros [|b bs] H; try done.
      cbn [all2] in H. apply andb_true_iff in H as [->%Ha H]. f_equal. by apply IH.
    + revert fs0 H2. clear -IHf. induction IHf as [|[x a] args Ha _ IH]; intros [|[y b] bs] H; try done. cbn [snd] in Ha.
      cbn [all2 fst snd] in H. apply andb_true_iff in H as [[->%String.eqb_eq ->%Ha]%andb_true_iff H]. f_equal. by apply IH.
  - intros [->%String.eqb_eq H]%andb_true_iff. destruct i as [i|], int as [j|]; try done. by apply intk_eqb_sound in H as ->.
  - by intros [->%String.eqb_eq ->%IH]%andb_true_iff.
  - by intros ->%String.eqb_eq.
Qed.

Definition good_declb (d : decl) : bool :=
  match d with
  | DInts | DBool | DOpaque _ | DEnum _ _ | DDelegate _ _ _ => true
  | DStruct _ fs => forallb (λ f, printable f.2 && is_name f.1) fs
  | DArr _ t _ | DConst _ t => printable t
  | DAlias _ t => object t
  | DFn n args r =>
      printable r && is_name n && forallb (λ a, printable a.2 && negb (HeaderSpec.is_void a.2) && is_name a.1) args
  end.
Lemma good_declb_sound d : good_declb d = true → good_decl d.
Proof.
  destruct d; cbn [good_declb good_decl]; try done.
  - intros H f Hf%elem_of_list_In. rewrite forallb_forall in H. by apply H, andb_true_iff in Hf.
  - intros [[H1 H2]%andb_true_iff H]%andb_true_iff. split; [done|]. split; [done|].
    intros f Hf%elem_of_list_In. rewrite forallb_forall in H. apply H in Hf.
    apply andb_true_iff in Hf as [[? ?%negb_true_iff]%andb_true_iff ?]. done.
Qed.
Definition distinctb (l : list string) : bool := bool_decide (NoDup l).
Definition names_okb (l : list string) : bool := distinctb l && forallb lettered l.
Lemma names_okb_sound l : names_okb l = true → names_ok l.
Proof.
  intros [H1%bool_decide_eq_true H2]%andb_true_iff. split; [done|]. intros x Hx%elem_of_list_In. rewrite forallb_forall in H2. auto.
Qed.
Definition type_okb (t : cty) : bool :=
  match t with
  | TInt i => negb (intk_eqb i Isize)
  | TArr t _ => negb (zst t)
  | TFn _ args => forallb (λ a, negb (CsSpec.is_void a)) args
  | TStruct _ _ fs => names_okb (map fst fs) && is_name (short t) && negb (String.eqb (short t) "")
  | TEnum n i => negb (match i with Some i => intk_eqb i Isize | None => false end) && is_name n && negb (String.eqb n "")
  | TOpaque n => is_name n && negb (String.eqb n "")
  | _ => true
  end.
Lemma eqb_not x y : negb (String.eqb x y) = true → x ≠ y.
Proof. intros H%negb_true_iff. by apply String.eqb_neq. Qed.
Lemma type_okb_sound t : type_okb t = true → type_ok t.
Proof.
  destruct t; cbn [type_okb type_ok]; try done.
  - by intros ? ->.
  - by intros ?%negb_true_iff.
  - intros H a Ha%elem_of_list_In. rewrite forallb_forall in H. by apply negb_true_iff, H.
  - intros [[H1%names_okb_sound H2]%andb_true_iff H3%eqb_not]%andb_true_iff. done.
  - intros [[H1 H2]%andb_true_iff H3%eqb_not]%andb_true_iff. split; [|done]. by intros ->.
  - intros [H2 H3%eqb_not]%andb_true_iff. done.
Qed.

Definition keys (is : list item) : list (string * cty) :=
  omap (λ t, match type_key LC t with Some k => Some (k, t) | None => None end) (all_types is).
Definition source_okb (is : list item) : bool :=
  let ks := keys is in
  forallb (λ a, forallb (λ b, negb (String.eqb a.1 b.1) || cty_eqb a.2 b.2) ks) ks &&
  forallb (λ i, match own_decl i with Some d => good_declb d | None => true end) is &&
  forallb (λ t, type_okb t && match own_decl (IType "" t) with Some d => good_declb d | None => true end) (all_types is) &&
  forallb (λ a, lettered a.1 && negb (in_strings a.1 std_names)) ks &&
  forallb (λ i, match i with
                | IFn n args _ =>
                    lettered n && negb (in_strings n ("bool" :: "__int_headers__" :: std_names ++ map fst ks)) && names_okb (map fst args) &&
                    forallb (λ a, negb (CsSpec.is_void a.2) && negb (in_strings a.1 (std_names ++ map fst ks))) args
                | _ => true
                end) is.
Lemma keys_spec is t k : occurs t is → type_key LC t = Some k → (k, t) ∈ keys is.
Proof. intros Ht%occurs_all Hk. apply elem_of_list_omap. exists t. by rewrite Hk. Qed.
Lemma not_in_strings x l : negb (in_strings x l) = true → x ∉ l.
Proof. intros H%negb_true_iff Hx. by apply in_strings_spec in Hx; rewrite Hx in H. Qed.
Lemma source_okb_sound is : source_okb is = true → source_ok is.
Proof.
  unfold source_okb. cbn zeta. set (ks := keys is). rewrite !andb_true_iff, !forallb_forall.
  intros [[[[H1 H2] H3] H4] H5].
  assert (HF : ∀ n args r, IFn n args r ∈ is →
    lettered n = true ∧ n ∉ "bool" :: "__int_headers__" :: std_names ++ map fst ks ∧ names_ok (map fst args) ∧
    ∀ a, a ∈ args → CsSpec.is_void a.2 = false ∧ a.1 ∉ std_names ++ map fst ks).
  { intros n args r Hi%elem_of_list_In. apply H5 in Hi. rewrite !andb_true_iff in Hi. destruct Hi as [[[Ha Hb] Hc] Hd].
    split; [done|]. split; [by apply not_in_strings|]. split; [by apply names_okb_sound|].
    intros a Hx%elem_of_list_In. rewrite forallb_forall in Hd. apply Hd in Hx. rewrite andb_true_iff in Hx. destruct Hx as [Hx Hy].
    split; [by apply negb_true_iff|by apply not_in_strings]. }
  assert (HK : ∀ t k, occurs t is → type_key LC t = Some k → k ∈ map fst ks).
  { intros t k Ht Hk. apply elem_map. exists (k, t). split; [done|]. by apply keys_spec. }
  split.
  - split.
    + intros t u k Ht Hu Kt Ku. apply keys_spec with (k := k) in Ht, Hu; [|done..].
      apply elem_of_list_In in Ht, Hu. specialize (H1 _ Ht). rewrite forallb_forall in H1. specialize (H1 _ Hu). cbn [fst snd] in H1.
      rewrite String.eqb_refl in H1. by apply cty_eqb_sound.
    + intros n args r Hi. apply HF in Hi as (_ & Hn & _). split; [set_solver|]. split; [set_solver|].
      intros t Ht Hk. apply Hn. do 2 right. apply elem_of_app. right. by eapply HK.
  - intros i d Hi%elem_of_list_In Hd. apply H2 in Hi. rewrite Hd in Hi. by apply good_declb_sound.
  - intros t d Ht%occurs_all%elem_of_list_In Hd. apply H3 in Ht. rewrite andb_true_iff, Hd in Ht. apply good_declb_sound, Ht.
  - intros t Ht%occurs_all%elem_of_list_In. apply H3 in Ht. rewrite andb_true_iff in Ht. apply type_okb_sound, Ht.
  - intros t k Ht Hk. pose proof (keys_spec _ _ _ Ht Hk) as Hin. apply elem_of_list_In, H4 in Hin. rewrite andb_true_iff in Hin.
    destruct Hin as [? ?%not_in_strings]. done.
  - intros n args r Hi. apply HF in Hi as (Ha & Hb & Hc & Hd). split; [done|]. split; [set_solver|]. split; [done|].
    intros a Hx. apply Hd in Hx as [Hx Hy]. split; [done|]. split; [set_solver|]. intros t Ht Hk. apply Hy, elem_of_app. right. by eapply HK.
Qed.

Definition names_freshb (g : list ntext) (ys : list xdecl) : bool :=
  let es := flat_map enum_names ys in
  let ms := g ++ flat_map macro_names ys in
  forallb (λ y, match y with
                | YEnum _ n _ vs =>
                    match vs with [] => false | _ => true end &&
                    forallb (λ v : docs * ntext * option Z, let x := text_of (variant_name n v.1.2) in
                      bool_decide (variant_name n v.1.2 = chars x) && lettered x && is_name x) vs
                | _ => true
                end) ys &&
  distinctb es && forallb (λ x, negb (in_strings x (std_names ++ flat_map (λ y, declares (erase_decl y)) ys))) es &&
  bool_decide (NoDup ms) &&
  forallb (λ y, forallb (λ t, match t with Wd x => bool_decide (x ∉ ms) | _ => true end) (decl_toks false LC y)) ys.
Lemma names_freshb_sound g ys : names_freshb g ys = true → names_fresh g ys.
Proof.
  unfold names_freshb. cbn zeta. rewrite !andb_true_iff, !forallb_forall. intros [[[[H1 H2%bool_decide_eq_true] H3] H4%bool_decide_eq_true] H5].
  split.
  - intros d n i vs Hy%elem_of_list_In. apply H1 in Hy. by destruct vs.
  - intros d n i vs v Hy%elem_of_list_In Hv%elem_of_list_In. apply H1 in Hy. rewrite andb_true_iff, forallb_forall in Hy. destruct Hy as [_ Hy].
    apply Hy in Hv. rewrite !andb_true_iff in Hv. destruct Hv as [[Hv%bool_decide_eq_true ?] ?]. eauto.
  - done.
  - intros x Hx%elem_of_list_In. apply H3, not_in_strings in Hx. set_solver.
  - done.
  - intros x y Hx Hy%elem_of_list_In Hw%elem_of_list_In. apply H5 in Hy. rewrite forallb_forall in Hy. apply Hy in Hw.
    by apply bool_decide_eq_true in Hw.
Qed.
Definition enums_agreeb (is : list xitem) : bool :=
  let es := flat_map item_enums is in
  forallb (λ a, forallb (λ b, negb (String.eqb a.1 b.1) || bool_decide (a.2 = b.2)) es) es.
Lemma enums_agreeb_sound is : enums_agreeb is = true → enums_agree is.
Proof.
  unfold enums_agreeb. cbn zeta. rewrite forallb_forall. intros H n vs vs' H1%elem_of_list_In H2%elem_of_list_In.
  specialize (H _ H1). rewrite forallb_forall in H. specialize (H _ H2). cbn [fst snd] in H. rewrite String.eqb_refl in H.
  by apply bool_decide_eq_true in H.
Qed.
