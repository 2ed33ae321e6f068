(** Proofs about [DeriveModel]. *)
From Coq Require Import String.
From stdpp Require Import base numbers list.
From Verif Require Import DeriveModel DeriveSpec.

(** ** Arguments *)
Lemma parse_args_spec ts : ∀ comma a,
  is_Some (parse_args ts comma a) ↔
  ((separated is_word ts ∨ comma = true ∧ ∃ ts', ts = TComma :: ts' ∧ separated is_word ts') ∧
   (times is_rename ts + (if a_rename a then 1 else 0) ≤ 1)%nat ∧ (times is_js ts + (if a_js a then 1 else 0) ≤ 1)%nat).
Proof.
  induction ts as [|t ts IH]; intros comma a; cbn [parse_args].
  { split; [|by eauto]. intros _. split; [left; constructor|]. destruct a as [[] []]; cbn; lia. }
  assert (Hsep : separated is_word (t :: ts) ↔ is_word t = true ∧ (separated is_word ts ∨ ∃ ts', ts = TComma :: ts' ∧ separated is_word ts')).
  { split.
    - intros H. inversion H; subst; eauto 10.
    - intros [Hw [H|(ts' & -> & H)]]; by constructor. }
  destruct t.
  - (* rename *)
    destruct (a_rename a) eqn:Er.
    + split; [by intros [? ?]|]. intros (_ & H & _). cbn [times List.filter is_rename List.length] in H. unfold times in H. cbn in H. lia.
    + rewrite IH, Hsep. cbn [a_rename a_js is_word]. unfold times. cbn [List.filter is_rename is_js List.length].
      split.
      * intros ([H|[_ H]] & H2 & H3); (split; [left; split; [done|]; by eauto|lia]).
      * intros ([[_ H]|(_ & ts' & ? & _)] & H2 & H3); [|done]. split; [|lia]. destruct H; [by left|right; eauto].
  - destruct (a_js a) eqn:Er.
    + split; [by intros [? ?]|]. intros (_ & _ & H). unfold times in H. cbn in H. lia.
    + rewrite IH, Hsep. cbn [a_rename a_js is_word]. unfold times. cbn [List.filter is_rename is_js List.length].
      split.
      * intros ([H|[_ H]] & H2 & H3); (split; [left; split; [done|]; by eauto|lia]).
      * intros ([[_ H]|(_ & ts' & ? & _)] & H2 & H3); [|done]. split; [|lia]. destruct H; [by left|right; eauto].
  - split; [by intros [? ?]|]. rewrite Hsep. intros ([[? _]|(_ & ? & ? & _)] & _); done.
  - split; [by intros [? ?]|]. rewrite Hsep. intros ([[? _]|(_ & ? & ? & _)] & _); done.
  - destruct comma.
    + rewrite IH, Hsep. unfold times. cbn [List.filter is_rename is_js]. split.
      * intros ([H|[? _]] & H2); [|done]. split; [|done]. right. eauto.
      * intros ([[? _]|(_ & ts' & [= <-] & H)] & H2); [done|]. split; [by left|done].
    + split; [by intros [? ?]|]. rewrite Hsep. intros ([[? _]|[? _]] & _); done.
  - split; [by intros [? ?]|]. rewrite Hsep. intros ([[? _]|(_ & ? & ? & _)] & _); done.
Qed.
Lemma repr_args_spec ts : is_Some (repr_args ts) ↔ good_args ts.
Proof.
  unfold repr_args, good_args. rewrite parse_args_spec. cbn [a_rename a_js]. rewrite !Nat.add_0_r.
  split; [intros ([H|[? _]] & ? & ?); done|intros (? & ? & ?); eauto].
Qed.
Lemma parse_args_val ts : ∀ comma a a', parse_args ts comma a = Some a' →
  a_rename a' = (a_rename a || existsb is_rename ts) ∧ a_js a' = (a_js a || existsb is_js ts).
Proof.
  induction ts as [|t ts IH]; intros comma a a' H; cbn [parse_args] in H.
  { simplify_eq. cbn. by rewrite !orb_false_r. }
  destruct t; try done.
  - destruct (a_rename a) eqn:E; [done|]. apply IH in H as [-> ->]. cbn. done.
  - destruct (a_js a) eqn:E; [done|]. apply IH in H as [-> ->]. cbn. done.
  - destruct comma; [|done]. apply IH in H as [-> ->]. cbn. done.
Qed.

Lemma parse_clone_spec ts : ∀ comma c c', parse_clone ts comma c = Some c' ↔
  (separated is_clone ts ∨ comma = true ∧ ∃ ts', ts = TComma :: ts' ∧ separated is_clone ts') ∧ c' = c || existsb is_clone ts.
Proof.
  induction ts as [|t ts IH]; intros comma c c'; cbn [parse_clone].
  { cbn. rewrite orb_false_r. split; [intros [= ->]; split; [left; constructor|done]|by intros [_ ->]]. }
  assert (Hsep : separated is_clone (t :: ts) ↔ is_clone t = true ∧ (separated is_clone ts ∨ ∃ ts', ts = TComma :: ts' ∧ separated is_clone ts')).
  { split.
    - intros H. inversion H; subst; eauto 10.
    - intros [Hw [H|(ts' & -> & H)]]; by constructor. }
  destruct t; try (split; [done|]; rewrite Hsep; by intros ([[? _]|(_ & ? & ? & _)] & _)).
  - rewrite IH, Hsep. cbn [existsb is_clone]. rewrite orb_true_r. cbn [orb]. split.
    + intros ([H|[_ H]] & ->); (split; [left; split; [done|]; by eauto|done]).
    + intros ([[_ H]|(_ & ts' & ? & _)] & ->); [|done]. split; [|done]. destruct H; [by left|right; eauto].
  - destruct comma.
    + rewrite IH, Hsep. cbn [existsb is_clone orb]. split.
      * intros ([H|[? _]] & H2); [|done]. split; [|done]. right. eauto.
      * intros ([[? _]|(_ & ts' & [= <-] & H)] & H2); [done|]. split; [by left|done].
    + split; [done|]. rewrite Hsep. by intros ([[? _]|[? _]] & _).
Qed.

(** ** Attributes *)
Lemma first_repr_reprs i : first_repr (i_attrs i) = head (reprs i).
Proof.
  unfold reprs. induction (i_attrs i) as [|[|ws|] l IH]; [done|..]; cbn; done.
Qed.
Lemma reprs_set l ws : omap (λ a, match a with ARepr ws => Some ws | _ => None end) (set_repr l ws) =
  match omap (λ a, match a with ARepr ws => Some ws | _ => None end) l with [] => [] | _ :: r => Some ws :: r end.
Proof. induction l as [|[|w|] l IH]; [done|..]; cbn; try done. Qed.
Lemma first_ident_reprs l : first_ident l =
  (fix go (rs : list (option (list word))) := match rs with [] => None | Some [WId s] :: _ => Some s | _ :: rs => go rs end)
    (omap (λ a, match a with ARepr ws => Some ws | _ => None end) l).
Proof. induction l as [|[|[[|[s|] [|? ?]]|]|] l IH]; [done|..]; cbn; done. Qed.

Lemma idents_fmap ss : idents (WId <$> ss) = Some ss.
Proof. induction ss as [|s ss IH]; [done|]. cbn. by rewrite IH. Qed.
Lemma idents_Some ws ss : idents ws = Some ss → ws = WId <$> ss.
Proof.
  revert ss. induction ws as [|[s|] ws IH]; intros ss H; cbn in H; [by simplify_eq| |done].
  destruct (idents ws) as [ss'|]; [|done]. cbn in H. simplify_eq. cbn. by rewrite (IH ss').
Qed.
Lemma idents_None ws : idents ws = None ↔ WGroup ∈ ws.
Proof.
  induction ws as [|[s|] ws IH]; cbn; [split; [done|intros H; by apply elem_of_nil in H]| |split; [left|done]].
  rewrite elem_of_cons. destruct (idents ws); cbn; naive_solver.
Qed.
Lemma WId_inj (a b : list string) : WId <$> a = WId <$> b → a = b.
Proof. revert b. induction a as [|x a IH]; intros [|y b] H; cbn in H; try done. injection H as -> H. by rewrite (IH b). Qed.

(** ** Removing [js] *)
Lemma position_Some s l n : position s l = Some n → ∃ a b, l = a ++ s :: b ∧ List.length a = n ∧ s ∉ a.
Proof.
  revert n. induction l as [|x l IH]; intros n H; cbn in H; [done|].
  destruct (String.eqb_spec x s) as [->|Hn].
  - simplify_eq. exists [], l. split_and!; [done..|]. apply not_elem_of_nil.
  - destruct (position s l) as [m|]; [|done]. cbn in H. simplify_eq.
    destruct (IH m eq_refl) as (a & b & -> & Hl & Ha). exists (x :: a), b. split_and!; [done|cbn; lia|].
    apply not_elem_of_cons. by split.
Qed.
Lemma position_None s l : position s l = None → s ∉ l.
Proof.
  induction l as [|x l IH]; cbn; [intros _; apply not_elem_of_nil|].
  destruct (String.eqb_spec x s) as [->|Hn]; [done|]. destruct (position s l); [done|]. intros _.
  apply not_elem_of_cons. by auto.
Qed.
Lemma position_in s l : s ∈ l → is_Some (position s l).
Proof. intros H. destruct (position s l) eqn:E; [done|]. by apply position_None in E. Qed.

Lemma swap_remove_perm {A} (a : list A) x b : swap_remove (List.length a) (a ++ x :: b) ≡ₚ a ++ b.
Proof.
  unfold swap_remove.
  destruct (exists_last (l := x :: b)) as (b' & z & Hb); [done|].
  assert (Hr : reverse (a ++ x :: b) = z :: reverse (a ++ b')) by (by rewrite Hb, app_assoc, reverse_snoc).
  rewrite Hr.
  assert (Hlen : (List.length (a ++ x :: b) - 1)%nat = List.length (a ++ b)) by (rewrite !app_length; cbn; lia).
  rewrite Hlen.
  rewrite (insert_app_r_alt a) by lia. rewrite Nat.sub_diag.
  change (<[0%nat := z]> (x :: b)) with (z :: b).
  destruct b' as [|y b'].
  - cbn in Hb. injection Hb as <- ->. rewrite app_nil_r. by rewrite take_app_alt.
  - cbn in Hb. injection Hb as <- ->.
    assert (Ha : a ++ z :: b' ++ [z] = (a ++ z :: b') ++ [z]) by (by rewrite <-app_assoc).
    rewrite Ha. rewrite (take_app_alt (a ++ z :: b')).
    + apply Permutation_app_head. by rewrite Permutation_cons_append.
    + rewrite !app_length. cbn. rewrite ?app_length. cbn. lia.
Qed.
Lemma without_js_none ss : "js"%string ∉ ss → without_js ss = ss.
Proof.
  unfold without_js. induction ss as [|s ss IH]; [done|]. rewrite not_elem_of_cons. intros [Hs Hss]. cbn.
  destruct (String.eqb_spec s "js") as [->|_]; [done|]. cbn. by rewrite IH.
Qed.
Lemma without_js_app a b : without_js (a ++ b) = without_js a ++ without_js b.
Proof. apply List.filter_app. Qed.

(** ** The two ways in *)
Lemma swap_js n ss : position "js" ss = Some n → (List.length (List.filter (String.eqb "js") ss) ≤ 1)%nat →
  swap_remove n ss ≡ₚ without_js ss.
Proof.
  intros Hp H1. apply position_Some in Hp as (a & b & -> & <- & Ha). rewrite swap_remove_perm.
  rewrite without_js_app. rewrite List.filter_app, app_length in H1. cbn [List.filter] in H1.
  rewrite String.eqb_refl in H1. cbn [List.length] in H1.
  change (without_js ("js"%string :: b)) with (without_js b).
  rewrite (without_js_none a) by done. rewrite (without_js_none b); [done|].
  intros Hb. assert ("js"%string ∈ List.filter (String.eqb "js") b) as Hin.
  { apply elem_of_list_In, filter_In. split; [by apply elem_of_list_In|done]. }
  destruct (List.filter (String.eqb "js") b); [by apply elem_of_nil in Hin|]. cbn [List.length] in H1. lia.
Qed.

Lemma derive_one f ts i ss : checks f = false → reprs i = [Some (WId <$> ss)] → i_data i ≠ DTrait → coherent ss →
  (feat_js f = false ∨ "js"%string ∉ ss) →
  ∃ i' ss', derive_with false f ts i = repr_c false false ts i' ∧ reprs i' = [Some (WId <$> ss')] ∧ ss' ≡ₚ without_js ss ∧
    i' = with_attrs i (i_attrs i').
Proof.
  intros Hck Hr Hd [H1 _] Hf.
  assert (Hfr : first_repr (i_attrs i) = Some (Some (WId <$> ss))) by (by rewrite first_repr_reprs, Hr).
  assert (E : derive_with false f ts i = match position "js" ss with
    | Some n => if feat_js f then match repr_args ts with Some _ => legacy false false i | None => Reject end
                else repr_c false false ts (with_attrs i (set_repr (i_attrs i) (WId <$> swap_remove n ss)))
    | None => repr_c false false ts i end).
  { unfold derive_with. rewrite Hfr, idents_fmap, Hck. by destruct (i_data i). }
  destruct (position "js" ss) as [n|] eqn:Ep.
  - destruct Hf as [Hf|Hf].
    2:{ apply position_Some in Ep as (a & b & -> & _). destruct Hf.
      apply elem_of_app. right. left. }
    rewrite Hf in E. eexists _, _. split; [exact E|]. split; [|split; [by apply swap_js|done]].
    unfold reprs. cbn [i_attrs with_attrs]. rewrite reprs_set. unfold reprs in Hr. by rewrite Hr.
  - eexists i, ss. split; [exact E|]. split; [done|]. split; [|by destruct i].
    apply position_None in Ep. by rewrite without_js_none.
Qed.

Lemma first_ident_one i ss : reprs i = [Some (WId <$> ss)] →
  first_ident (i_attrs i) = match ss with [s] => Some s | _ => None end.
Proof.
  intros H. rewrite first_ident_reprs. unfold reprs in H. rewrite H. destruct ss as [|s [|? ?]]; done.
Qed.

(** What [repr_c] makes of an item with one [repr] attribute, without [js]. *)
Definition kind' (ss : list string) (i : item) : option kind :=
  match i_data i with
  | DStruct sh fs =>
      match ss with
      | [s] =>
          if String.eqb s "transparent" then
            match sh, fs with
            | _, [] => None
            | (Braces | Parens), [f] =>
                if negb (is_pub (i_vis i)) then None
                else match f_fn f with
                     | None => Some KTransparent
                     | Some fn =>
                         if is_pub (f_vis f) && negb (fn_variadic fn) &&
                            match fn_abi fn with Some None => true | Some (Some a) => String.eqb a "C" | None => false end
                            && negb (match sh with Braces => (0 <? i_lifetimes i)%nat | _ => false end)
                         then Some KFptr else None
                     end
            | _, _ => Some KTransparent
            end
          else if String.eqb s "opaque" then Some KOpaque
          else if String.eqb s "C" then match fs with [] => None | _ => Some KStruct end
          else None
      | _ => None
      end
  | DEnum vs =>
      if match ss with [s] => String.eqb s "opaque" | _ => false end then Some KOpaque
      else if existsb id vs || (0 <? i_lifetimes i + i_params i + i_consts i)%nat || i_where i || is_nil vs then None
      else if forallb (λ s, String.eqb s "C" || is_int s) ss && negb (is_nil ss) then Some (KEnum (pick ss)) else None
  | _ => None
  end.
Definition kind_of (o : outcome) : option kind := match o with Expand x => Some (x_kind x) | _ => None end.

Lemma repr_c_kind ts i ss : reprs i = [Some (WId <$> ss)] →
  kind_of (repr_c false false ts i) = match repr_args ts with Some _ => kind' ss i | None => None end.
Proof.
  intros Hr. unfold repr_c. destruct (repr_args ts) as [a|]; [|done].
  assert (Hfr : first_repr (i_attrs i) = Some (Some (WId <$> ss))) by (by rewrite first_repr_reprs, Hr).
  pose proof (first_ident_one i ss Hr) as Hfi.
  unfold try_fptr, derive_struct, derive_enum, discriminant_type, kind'. rewrite Hfr, Hfi, idents_fmap.
  destruct (i_data i) as [sh fs|vs| |]; [| |done|done].
  - destruct ss as [|s [|s' ss]]; cbn [fmap list_fmap].
    + by destruct sh, fs as [|? [|? ?]].
    + destruct (String.eqb_spec s "transparent") as [->|Hs].
      * destruct sh, fs as [|fd [|? ?]]; try done; cbn -[String.eqb];
          destruct (is_pub (i_vis i)); try done; cbn -[String.eqb]; destruct (f_fn fd) as [fn|]; try done;
          destruct (is_pub (f_vis fd)); try done; cbn -[String.eqb]; destruct (fn_variadic fn); try done; cbn -[String.eqb];
          destruct (fn_abi fn) as [[abi|]|]; try done; cbn -[String.eqb]; try destruct (String.eqb abi "C"); cbn; try done;
          by destruct (0 <? i_lifetimes i)%nat eqn:E; cbn in E; rewrite ?E.
      * cbn -[String.eqb].
        assert (Hn : (s =? "transparent")%string = false) by (by apply String.eqb_neq).
        destruct sh, fs as [|fd [|? ?]]; cbn -[String.eqb]; rewrite ?Hn; cbn -[String.eqb];
          destruct (s =? "opaque")%string; try done; destruct (s =? "C")%string; done.
    + by destruct sh, fs as [|? [|? ?]].
  - destruct (match ss with [s] => (s =? "opaque")%string | _ => false end) eqn:Eo.
    + destruct ss as [|s [|? ?]]; try done. by rewrite Eo.
    + assert (Eo' : match match ss with [s] => Some s | _ => None end with Some s => (s =? "opaque")%string | None => false end = false).
      { by destruct ss as [|s [|? ?]]. }
      rewrite Eo'. destruct (existsb id vs); [done|]. destruct (0 <? i_lifetimes i + i_params i + i_consts i)%nat; [done|].
      destruct (i_where i); [done|]. destruct (is_nil vs); [done|]. cbn [orb].
      by destruct (forallb _ ss && _).
Qed.

Lemma an_int_spec s : an_int s = is_int s.
Proof.
  unfold an_int, is_int. cbn -[String.eqb].
  repeat match goal with |- context [String.eqb s ?w] => destruct (String.eqb s w) end; reflexivity.
Qed.
Lemma filter_an_int ss : List.filter an_int ss = List.filter is_int ss.
Proof. induction ss as [|s ss IH]; [done|]. cbn [List.filter]. by rewrite IH, an_int_spec. Qed.
Lemma Forall_an_int ss : Forall (λ s, s = "C"%string ∨ an_int s = true) ss ↔ Forall (λ s, s = "C"%string ∨ is_int s = true) ss.
Proof. by setoid_rewrite an_int_spec. Qed.

Lemma pick_spec ss : Forall (λ s, s = "C"%string ∨ is_int s = true) ss →
  pick ss = match List.filter is_int ss with [] => "C"%string | int :: _ => int end.
Proof.
  induction 1 as [|s ss Hs _ IH]; [done|]. cbn [pick List.filter].
  destruct (String.eqb_spec s "C") as [->|Hn]; [exact IH|].
  destruct Hs as [?|Hs]; [done|]. by rewrite Hs.
Qed.
Lemma filter_perm_one {A} (p : A → bool) l l' : l ≡ₚ l' → (List.length (List.filter p l') ≤ 1)%nat →
  List.filter p l = List.filter p l'.
Proof.
  intros Hp H1.
  assert (Hf : List.filter p l ≡ₚ List.filter p l').
  { clear H1. induction Hp as [|x a b Hp IH|x y a|a b c _ IH1 _ IH2]; cbn.
    - done.
    - destruct (p x); [by apply perm_skip|done].
    - destruct (p x), (p y); [apply perm_swap|done..].
    - by rewrite IH1. }
  destruct (List.filter p l') as [|z [|? ?]]; [by apply Permutation_nil_r in Hf| |cbn in H1; lia].
  by apply Permutation_singleton_r in Hf.
Qed.
Lemma supported_spec ss : forallb (λ s, String.eqb s "C" || is_int s) ss = true ↔
  Forall (λ s, s = "C"%string ∨ is_int s = true) ss.
Proof.
  induction ss as [|s ss IH]; cbn [forallb]; [split; [constructor|done]|].
  rewrite Forall_cons, andb_true_iff, IH, orb_true_iff, String.eqb_eq. done.
Qed.
Lemma int_without_js ss : List.filter is_int (without_js ss) = List.filter is_int ss.
Proof.
  induction ss as [|s ss IH]; [done|]. unfold without_js in *. cbn [List.filter].
  destruct (String.eqb_spec s "js") as [->|Hs]; cbn [negb].
  - rewrite IH. done.
  - cbn [List.filter]. by rewrite IH.
Qed.
Lemma noneb_spec vs : existsb id vs = false ↔ Forall (λ v, v = false) vs.
Proof.
  induction vs as [|v vs IH]; cbn [existsb]; [split; [constructor|done]|].
  rewrite Forall_cons, orb_false_iff, IH. done.
Qed.
Lemma is_pub_spec v : is_pub v = true ↔ v = Pub.
Proof. by destruct v. Qed.

Ltac ez := solve [
  split; intros; repeat match goal with
    | H : _ ∧ _ |- _ => destruct H
    | H : ?x = ?x → _ |- _ => specialize (H eq_refl)
    | H : Some _ = Some _ |- _ => injection H as H; subst
    | H : Some _ = None |- _ => done
    | H : None = Some _ |- _ => done
    | H : _ ∨ _ |- _ => destruct H
    end; split_and?; intros; split_and?; try done; try congruence; try lia; try (by left); try (by right);
  cbn in *; try (subst; done)].
Lemma kind'_spec ss ss' i k : ss' ≡ₚ without_js ss → (List.length (List.filter is_int ss) ≤ 1)%nat →
  kind' ss' i = Some k ↔ wanted ss i = Some k ∧ allowed ss i.
Proof.
  intros Hp H1. unfold kind', wanted, allowed.
  destruct (i_data i) as [sh fs|vs| |]; [| |ez..].
  - destruct (without_js ss) as [|s [|s' l]] eqn:Ew.
    + apply Permutation_nil_r in Hp as ->. ez.
    + apply Permutation_singleton_r in Hp as ->.
      destruct (String.eqb_spec s "transparent") as [->|Hs].
      * destruct sh, fs as [|[fv [fn|]] [|? ?]]; try ez; cbn [f_fn f_vis];
          destruct (is_pub (i_vis i)) eqn:Ei; cbn [negb];
          try (rewrite is_pub_spec in Ei);
          try (assert (i_vis i ≠ Pub) by (intros Hx; by rewrite Hx in Ei); ez).
        -- destruct (is_pub fv) eqn:Ef; [apply is_pub_spec in Ef as ->|ez].
           destruct fn as [abi va]. unfold c_function. cbn [fn_variadic fn_abi].
           destruct va; [ez|]. cbn [andb negb].
           destruct abi as [[abi|]|]; [|destruct (Nat.ltb_spec 0 (i_lifetimes i)); cbn [andb negb]|ez].
           ++ destruct (String.eqb_spec abi "C") as [->|]; [|ez]. cbn [andb].
              destruct (Nat.ltb_spec 0 (i_lifetimes i)); cbn [andb negb].
              ** split; [done|]. intros (_ & Hx). destruct (Hx eq_refl) as (_ & _ & _ & Hl). specialize (Hl eq_refl). lia.
              ** split; [intros [= <-]|intros [Hx _]; done]. split; [done|]. intros _. split_and!; try done; [by right|lia].
           ++ split; [done|]. intros (_ & Hx). destruct (Hx eq_refl) as (_ & _ & _ & Hl). specialize (Hl eq_refl). lia.
           ++ split; [intros [= <-]|intros [Hx _]; done]. split; [done|]. intros _. split_and!; try done; [by left|lia].
        -- ez.
        -- destruct (is_pub fv) eqn:Ef; [apply is_pub_spec in Ef as ->|ez].
           destruct fn as [abi va]. unfold c_function. cbn [fn_variadic fn_abi].
           destruct va; [ez|]. cbn [andb negb].
           destruct abi as [[abi|]|]; [|ez|ez].
           destruct (String.eqb_spec abi "C") as [->|]; [|ez]. cbn [andb]. ez.
        -- ez.
      * destruct (String.eqb_spec s "C") as [->|]; cbn -[String.eqb].
        -- change (("C" =? "opaque")%string) with false. destruct fs as [|? [|? ?]], sh; ez.
        -- destruct (String.eqb_spec s "opaque") as [->|]; destruct sh, fs as [|? [|? ?]]; ez.
    + assert (Hl : (List.length ss' = S (S (List.length l)))%nat) by (by rewrite Hp).
      destruct ss' as [|? [|? ?]]; try done. ez.
  - rewrite filter_an_int, Forall_an_int.
    assert (Ho : (ss' = ["opaque"%string]) ↔ without_js ss = ["opaque"%string]).
    { split; intros E; rewrite E in Hp; [by apply Permutation_singleton_l in Hp|by apply Permutation_singleton_r in Hp]. }
    assert (Eo : ∀ l, (match l with [s] => String.eqb s "opaque" | _ => false end) = true ↔ l = ["opaque"%string]).
    { intros [|s [|? ?]]; try done. rewrite String.eqb_eq. ez. }
    destruct (match ss' with [s] => String.eqb s "opaque" | _ => false end) eqn:E1.
    + apply Eo in E1. rewrite (proj1 Ho E1). cbn. ez.
    + assert (E2 : (match without_js ss with [s] => String.eqb s "opaque" | _ => false end) = false).
      { apply not_true_is_false. intros E. apply Eo, Ho, Eo in E. by rewrite E in E1. }
      rewrite E2.
      assert (Hno : without_js ss ≠ ["opaque"%string]).
      { intros E. apply Eo in E. by rewrite E in E2. }
      assert (Hfi : List.filter is_int ss' = List.filter is_int ss).
      { rewrite <-(int_without_js ss). apply filter_perm_one; [done|]. by rewrite int_without_js. }
      rewrite int_without_js.
      destruct (existsb id vs) eqn:Ev.
      { split; [done|]. intros (_ & [?|(Hv & _)]); [done|]. apply noneb_spec in Hv. by rewrite Hv in Ev. }
      destruct (Nat.ltb_spec 0 (i_lifetimes i + i_params i + i_consts i)).
      { split; [done|]. intros (_ & [?|(_ & _ & ? & ? & ? & _)]); [done|lia]. }
      destruct (i_where i) eqn:Ew.
      { split; [done|]. intros (_ & [?|(_ & _ & _ & _ & _ & ? & _)]); done. }
      destruct vs as [|v vs]; [split; [done|]; intros (_ & [?|(_ & ? & _)]); done|]. cbn [orb is_nil].
      destruct (forallb _ ss') eqn:Ef.
      * apply supported_spec in Ef. cbn [andb].
        assert (Ef' : Forall (λ s, s = "C"%string ∨ is_int s = true) (without_js ss)) by (by rewrite <-Hp).
        rewrite (pick_spec _ Ef), Hfi.
        assert (Hal : without_js ss = ["opaque"%string] ∨ Forall (λ v, v = false) (v :: vs) ∧ v :: vs ≠ [] ∧ i_lifetimes i = O ∧
           i_params i = O ∧ i_consts i = O ∧ false = false ∧ Forall (λ s, s = "C"%string ∨ is_int s = true) (without_js ss)).
        { right. split_and!; try done; [by apply noneb_spec|lia..]. }
        destruct (List.filter is_int ss) as [|int ints] eqn:Ei.
        -- destruct ss' as [|s ss'].
           ++ cbn. apply Permutation_nil_l in Hp. rewrite <-Hp. cbn. split; [done|by intros [? _]].
           ++ cbn [is_nil negb].
              assert (HC : existsb (String.eqb "C") (without_js ss) = true).
              { apply existsb_exists. exists "C"%string. split; [|done]. apply elem_of_list_In. rewrite <-Hp.
                apply Forall_cons in Ef as [[->|Hs] _]; [left|]. cbn [List.filter] in Hfi. by rewrite Hs in Hfi. }
              rewrite HC. split; [by intros [= <-]|by intros [[= <-] _]].
        -- destruct ss' as [|s ss']; [done|]. cbn [is_nil negb]. split; [by intros [= <-]|by intros [[= <-] _]].
      * cbn [andb]. split; [done|]. intros (_ & [?|(_ & _ & _ & _ & _ & _ & Hx)]); [done|].
        rewrite <-Hp, <-supported_spec in Hx. congruence.
Qed.
Lemma kind'_cong ss i l : kind' ss (with_attrs i l) = kind' ss i.
Proof. done. Qed.

Lemma derive_kind f ts i ss k : checks f = false → reprs i = [Some (WId <$> ss)] → coherent ss →
  (feat_js f = false ∨ "js"%string ∉ ss) →
  kind_of (derive_with false f ts i) = Some k ∧ i_data i ≠ DTrait ↔ good_args ts ∧ wanted ss i = Some k ∧ allowed ss i.
Proof.
  intros Hck Hr Hc Hf.
  destruct (decide (i_data i = DTrait)) as [Ht|Ht] || (assert (Dec : i_data i = DTrait ∨ i_data i ≠ DTrait) by (destruct (i_data i); naive_solver); destruct Dec as [Ht|Ht]).
  { unfold wanted. rewrite Ht. naive_solver. }
  destruct (derive_one f ts i ss Hck Hr Ht Hc Hf) as (i' & ss' & -> & Hr' & Hp & Hi').
  rewrite (repr_c_kind ts i' ss' Hr'), <-(repr_args_spec ts).
  assert (Hk : kind' ss' i' = Some k ↔ wanted ss i = Some k ∧ allowed ss i).
  { rewrite Hi', kind'_cong. destruct Hc as [_ Hc]. rewrite filter_an_int in Hc. by apply kind'_spec. }
  destruct (repr_args ts) as [a|]; [|split; [intros [? _]; done|intros [[? ?] _]; done]].
  rewrite Hk. naive_solver.
Qed.

(** ** Panics *)
Lemma repr_c_panic ts i : repr_c false false ts i = Panic ↔
  good_args ts ∧ fn_newtype Braces i ∧ (0 < i_lifetimes i)%nat ∧ head (reprs i) = Some (Some [WId "transparent"]).
Proof.
  rewrite <-first_repr_reprs, <-repr_args_spec. unfold repr_c.
  destruct (repr_args ts) as [a|].
  2:{ split; [done|]. intros ([? ?] & _). done. }
  assert (Hds : ∀ fs, derive_struct false false a i fs ≠ Panic).
  { intros fs. unfold derive_struct. destruct (first_ident _) as [s|]; [|done].
    destruct (s =? "transparent")%string; [by destruct fs|]. destruct (s =? "opaque")%string; [done|].
    destruct (s =? "C")%string; [by destruct fs|done]. }
  assert (Hde : ∀ vs, derive_enum a i vs ≠ Panic).
  { intros vs. unfold derive_enum. repeat case_match; done. }
  unfold fn_newtype, try_fptr. split.
  - destruct (i_data i) as [sh fs|vs| |] eqn:Ed; [|intros H; by apply Hde in H|done..].
    destruct sh; [| |intros H; by apply Hds in H].
    + destruct fs as [|fd [|? ?]]; [intros H; by apply Hds in H| |intros H; by apply Hds in H].
      destruct (first_repr (i_attrs i)) as [[[|[s|] [|? ?]]|]|]; try (intros H; by apply Hds in H); [|done].
      destruct (String.eqb_spec s "transparent") as [->|]; cbn [negb]; [|intros H; by apply Hds in H].
      destruct (is_pub (i_vis i)) eqn:Ei; cbn [negb]; [apply is_pub_spec in Ei|done].
      destruct (f_fn fd) as [fn|] eqn:Ef; [|intros H; by apply Hds in H].
      destruct (is_pub (f_vis fd)) eqn:Ev; cbn [negb]; [apply is_pub_spec in Ev|done].
      destruct (fn_variadic fn) eqn:Evar; [done|].
      intros H. assert (c_function fn ∧ (0 < i_lifetimes i)%nat) as [Hc Hl].
      { unfold c_function. destruct (fn_abi fn) as [[abi|]|]; [| |done].
        - destruct (String.eqb_spec abi "C") as [Ha|]; cbn [negb] in H; [|done].
          destruct (Nat.ltb_spec 0 (i_lifetimes i)); [|done]. rewrite Ha. eauto.
        - destruct (Nat.ltb_spec 0 (i_lifetimes i)); [|done]. eauto. }
      split_and!; try done. exists fd, fn. done.
    + destruct fs as [|fd [|? ?]]; [intros H; by apply Hds in H| |intros H; by apply Hds in H].
      destruct (first_repr (i_attrs i)) as [[[|[s|] [|? ?]]|]|]; try (intros H; by apply Hds in H); [|done].
      destruct (String.eqb_spec s "transparent") as [->|]; cbn [negb]; [|intros H; by apply Hds in H].
      destruct (is_pub (i_vis i)) eqn:Ei; cbn [negb]; [|done].
      destruct (f_fn fd) as [fn|] eqn:Ef; [|intros H; by apply Hds in H].
      destruct (is_pub (f_vis fd)) eqn:Ev; cbn [negb]; [|done].
      destruct (fn_variadic fn) eqn:Evar; [done|].
      destruct (fn_abi fn) as [[abi|]|]; [|done..]. by destruct (negb (abi =? "C")%string).
  - intros (_ & (Hv & fd & fn & Hd & Hfv & Hfn & Hva & Habi) & Hl & Hr).
    rewrite Hd, Hr, Hv, Hfn, Hfv, Hva. cbn [is_pub negb]. rewrite String.eqb_refl. cbn [negb].
    apply Nat.ltb_lt in Hl. rewrite Hl. by destruct Habi as [-> | ->].
Qed.

Lemma head_set i ws r : first_repr (i_attrs i) = Some r →
  head (reprs (with_attrs i (set_repr (i_attrs i) ws))) = Some (Some ws).
Proof.
  rewrite first_repr_reprs. unfold reprs. cbn [with_attrs i_attrs]. rewrite reprs_set.
  by destruct (omap _ (i_attrs i)).
Qed.
Lemma swap_single n ss s : position "js" ss = Some n → swap_remove n ss = [s] →
  ss = [s; "js"%string] ∨ ss = ["js"%string; s].
Proof.
  intros Hp H. apply position_Some in Hp as (a & b & -> & <- & _).
  pose proof (swap_remove_perm a "js"%string b) as Hpm. rewrite H in Hpm.
  symmetry in Hpm. apply Permutation_singleton_r in Hpm.
  destruct a as [|x [|? ?]], b as [|y [|? ?]]; cbn in Hpm; simplify_eq; eauto.
Qed.

Lemma legacy_attrs_spec l l' : legacy_attrs l = Some l' ↔
  ∃ docs s rest, Forall (λ a, a = ADoc) docs ∧ l = docs ++ ARepr (Some [WId s; WId "js"]) :: rest ∧
    l' = docs ++ ARepr (Some [WId s]) :: rest.
Proof.
  split.
  - revert l'. induction l as [|x l IH]; intros l' H; cbn in H; [done|].
    destruct x as [|[[|[s|] [|[j|] [|? ?]]]|]|]; try done.
    + destruct (legacy_attrs l) as [m|]; [|done]. cbn in H. simplify_eq.
      destruct (IH m eq_refl) as (docs & s & rest & Hd & -> & ->). exists (ADoc :: docs), s, rest.
      split; [by constructor|done].
    + destruct (String.eqb_spec j "js") as [->|]; [|done]. simplify_eq. by exists [], s, l.
  - intros (docs & s & rest & Hd & -> & ->). induction Hd as [|x docs -> Hd IH]; [done|]. cbn [app legacy_attrs]. by rewrite IH.
Qed.
Lemma docs_first docs ws rest : Forall (λ a, a = ADoc) docs → first_repr (docs ++ ARepr ws :: rest) = Some ws.
Proof. induction 1 as [|x docs -> _ IH]; [done|exact IH]. Qed.
Lemma docs_set docs ws ws' rest : Forall (λ a, a = ADoc) docs →
  set_repr (docs ++ ARepr ws :: rest) ws' = docs ++ ARepr (Some ws') :: rest.
Proof. induction 1 as [|x docs -> _ IH]; [done|]. cbn. by rewrite IH. Qed.

Lemma try_fptr_two i s t l : first_repr (i_attrs i) = Some (Some (WId s :: WId t :: l)) → try_fptr i = None.
Proof. intros H. unfold try_fptr. rewrite H. destruct (i_data i) as [[] [|? [|? ?]]| | |]; done. Qed.
Lemma swap_two s n : position "js" [s; "js"%string] = Some n → swap_remove n [s; "js"%string] = [s].
Proof.
  cbn. destruct (String.eqb_spec s "js") as [->|]; intros H; by injection H as <-.
Qed.

(** With [js] asked for and the feature, for an old-style item, both ways lead to the same place. *)
Lemma legacy_cases i ss : first_repr (i_attrs i) = Some (Some (WId <$> ss)) → "js"%string ∈ ss →
  (∃ n, position "js" ss = Some n ∧ old_style i ∧
     legacy false false i = repr_c false false [TJs] (with_attrs i (set_repr (i_attrs i) (WId <$> swap_remove n ss)))) ∨
  ¬ old_style i ∧ (legacy false false i = Reject ∨ try_fptr i = Some (legacy false false i)).
Proof.
  intros Hr Hj. destruct (position_in _ _ Hj) as [n Hn].
  unfold legacy. destruct (try_fptr i) as [o|] eqn:Et.
  { right. split; [|by right]. intros [_ (docs & s & rest & Hd & Ha)].
    rewrite (try_fptr_two i s "js" []) in Et; [done|]. by rewrite Ha, docs_first. }
  destruct (i_data i) as [sh fs|vs| |] eqn:Ed.
  2-4: right; split; [intros [[? ?] _]; congruence|by left].
  destruct sh.
  2-3: right; split; [intros [[? ?] _]; congruence|by left].
  destruct (legacy_attrs (i_attrs i)) as [l'|] eqn:El.
  - left. exists n. split; [done|]. apply legacy_attrs_spec in El as (docs & s & rest & Hd & Ha & ->).
    split; [split; [by eauto|by exists docs, s, rest]|].
    rewrite Ha, docs_first in Hr by done. injection Hr as Hr.
    change [WId s; WId "js"] with (WId <$> [s; "js"%string]) in Hr. apply WId_inj in Hr as <-.
    rewrite (swap_two s n Hn). unfold with_attrs. rewrite Ed, Ha, docs_set by done. done.
  - right. split; [|by left]. intros [_ (docs & s & rest & Hd & Ha)].
    assert (Hx : legacy_attrs (i_attrs i) = Some (docs ++ ARepr (Some [WId s]) :: rest)).
    { apply legacy_attrs_spec. by exists docs, s, rest. }
    by rewrite Hx in El.
Qed.
Lemma try_fptr_js i ss : first_repr (i_attrs i) = Some (Some (WId <$> ss)) → "js"%string ∈ ss → try_fptr i = None.
Proof.
  intros Hr Hj. unfold try_fptr. rewrite Hr. destruct (i_data i) as [sh fs|vs| |]; try done.
  assert (Hn : match WId <$> ss with [WId s] => negb (s =? "transparent")%string | _ => true end = true).
  { destruct ss as [|s [|? ?]]; try done. apply elem_of_list_singleton in Hj as <-. done. }
  destruct sh, fs as [|? [|? ?]]; try done; destruct (WId <$> ss) as [|[s|] [|? ?]]; try done; by rewrite Hn.
Qed.
Lemma legacy_or i ss : first_repr (i_attrs i) = Some (Some (WId <$> ss)) → "js"%string ∈ ss →
  ∃ n, position "js" ss = Some n ∧
  (old_style i ∧ legacy false false i = repr_c false false [TJs] (with_attrs i (set_repr (i_attrs i) (WId <$> swap_remove n ss))) ∨
   ¬ old_style i ∧ legacy false false i = Reject).
Proof.
  intros Hr Hj. destruct (position_in _ _ Hj) as [n Hn]. exists n. split; [done|].
  destruct (legacy_cases i ss Hr Hj) as [(n' & Hn' & Ho & Hl)|[Ho [Hl|Hl]]].
  - left. split; [done|]. assert (n' = n) as -> by congruence. exact Hl.
  - by right.
  - by rewrite (try_fptr_js i ss) in Hl.
Qed.

Lemma fn_newtype_attrs sh i l : fn_newtype sh (with_attrs i l) ↔ fn_newtype sh i.
Proof. done. Qed.

Lemma derive_non_trait f ts i : checks f = false → i_data i ≠ DTrait → derive_with false f ts i =
  match first_repr (i_attrs i) with
  | None => repr_c false false ts i
  | Some ows =>
      match match ows with Some ws => idents ws | None => None end with
      | None => Panic
      | Some ss =>
          match position "js" ss with
          | Some n =>
              if feat_js f
              then match repr_args ts with Some _ => legacy false false i | None => Reject end
              else repr_c false false ts (with_attrs i (set_repr (i_attrs i) (WId <$> swap_remove n ss)))
          | None => repr_c false false ts i
          end
      end
  end.
Proof. intros Hck. unfold derive_with. rewrite Hck. by destruct (i_data i). Qed.
Lemma not_plain ows : ¬ plain ows ↔ match ows with Some ws => idents ws | None => None end = None.
Proof.
  unfold plain. destruct ows as [ws|].
  - split.
    + destruct (idents ws) as [ss|] eqn:E; [|done]. intros H. destruct H. exists ss. by rewrite (idents_Some _ _ E).
    + intros H [ss [= ->]]. by rewrite idents_fmap in H.
  - split; [done|]. intros _ [ss ?]. done.
Qed.

Lemma good_js : good_args [TJs].
Proof. apply repr_args_spec. eexists. reflexivity. Qed.

Lemma derive_panic f ts i : checks f = false → derive_with false f ts i = Panic ↔
  (i_data i ≠ DTrait ∨ feat_dyn f = false) ∧ (∃ ows, head (reprs i) = Some ows ∧ ¬ plain ows) ∨
  good_args ts ∧ fn_newtype Braces i ∧ (0 < i_lifetimes i)%nat ∧
  (head (reprs i) = Some (Some [WId "transparent"]) ∨
   head (reprs i) = Some (Some [WId "transparent"; WId "js"]) ∧ (feat_js f = true → old_style i) ∨
   head (reprs i) = Some (Some [WId "js"; WId "transparent"]) ∧ feat_js f = false).
Proof.
  intros Hck.
  assert (Dec : i_data i = DTrait ∨ i_data i ≠ DTrait) by (destruct (i_data i); naive_solver).
  destruct Dec as [Ht|Ht].
  { assert (Hnf : ¬ fn_newtype Braces i) by (intros (_ & ? & ? & ? & _); congruence).
    unfold derive_with. rewrite Ht. rewrite <-first_repr_reprs. destruct (feat_dyn f).
    - split; [by destruct (dyn_args ts)|]. intros [[[?|?] _]|(_ & ? & _)]; done.
    - destruct (first_repr (i_attrs i)) as [ows|].
      + destruct (match ows with Some ws => idents ws | None => None end) eqn:E.
        * split; [done|]. intros [[_ (? & [= <-] & Hp)]|(_ & ? & _)]; [|done]. apply not_plain in Hp. congruence.
        * split; [|done]. intros _. left. split; [by right|]. exists ows. split; [done|]. by apply not_plain.
      + split; [done|]. intros [[_ (? & ? & _)]|(_ & ? & _)]; done. }
  rewrite derive_non_trait by done. rewrite <-first_repr_reprs.
  destruct (first_repr (i_attrs i)) as [ows|] eqn:Efr.
  2:{ rewrite repr_c_panic, <-first_repr_reprs, Efr. naive_solver. }
  destruct (match ows with Some ws => idents ws | None => None end) as [ss|] eqn:E.
  2:{ split; [|done]. intros _. left. split; [by left|]. exists ows. split; [done|]. by apply not_plain. }
  destruct ows as [ws|]; [|done]. apply idents_Some in E as ->.
  assert (Hl : ∀ P, (((i_data i ≠ DTrait ∨ feat_dyn f = false) ∧ ∃ ows, Some (Some (WId <$> ss)) = Some ows ∧ ¬ plain ows) ∨ P) ↔ P).
  { intros P. split; [|by right]. intros [[_ (? & [= <-] & Hp)]|]; [|done]. destruct Hp. by exists ss. }
  rewrite Hl. clear Hl.
  assert (Hinj : ∀ l, Some (Some (WId <$> ss)) = Some (Some (WId <$> l)) ↔ ss = l).
  { intros l. split; [|by intros ->]. intros H. injection H as H. by apply WId_inj. }
  pose proof (Hinj ["transparent"%string]) as Hi1. pose proof (Hinj ["transparent"%string; "js"%string]) as Hi2.
  pose proof (Hinj ["js"%string; "transparent"%string]) as Hi3. cbn [fmap list_fmap] in Hi1, Hi2, Hi3.
  rewrite Hi1, Hi2, Hi3. clear Hi1 Hi2 Hi3 Hinj.
  destruct (position "js" ss) as [n|] eqn:Ep.
  - assert (Hj : "js"%string ∈ ss).
    { apply position_Some in Ep as (a & b & -> & _). apply elem_of_app. right. left. }
    assert (Hoff : ∀ ts', repr_c false false ts' (with_attrs i (set_repr (i_attrs i) (WId <$> swap_remove n ss))) = Panic ↔
      good_args ts' ∧ fn_newtype Braces i ∧ (0 < i_lifetimes i)%nat ∧ (ss = ["transparent"%string; "js"%string] ∨ ss = ["js"%string; "transparent"%string])).
    { intros ts'. rewrite repr_c_panic, (head_set i _ (Some (WId <$> ss)) Efr), fn_newtype_attrs. cbn [with_attrs i_lifetimes].
      assert (Hx : Some (Some (WId <$> swap_remove n ss)) = Some (Some [WId "transparent"]) ↔
         (ss = ["transparent"%string; "js"%string] ∨ ss = ["js"%string; "transparent"%string])).
      { split.
        - intros H. injection H as H. change [WId "transparent"] with (WId <$> ["transparent"%string]) in H. apply WId_inj in H.
          by apply (swap_single n).
        - intros [->| ->]; cbn in Ep; injection Ep as <-; done. }
      by rewrite Hx. }
    assert (Hn1 : ss ≠ ["transparent"%string]).
    { intros ->. apply elem_of_list_singleton in Hj. done. }
    destruct (feat_js f) eqn:Ef.
    + destruct (legacy_or i ss Efr Hj) as (n' & Hn' & [[Ho Hlg]|[Ho Hlg]]); rewrite Ep in Hn'; injection Hn' as <-; rewrite Hlg.
      * rewrite <-repr_args_spec. destruct (repr_args ts) as [a|].
        -- rewrite Hoff. split.
           ++ intros (_ & Hf & Hlt & [->| ->]); [by eauto 10|]. exfalso.
              destruct Ho as [_ (docs & s & rest & Hd & Ha)]. rewrite Ha, docs_first in Efr by done. by injection Efr.
           ++ intros (_ & Hf & Hlt & [?|[[? _]|[_ ?]]]); [done| |done]. split; [exact good_js|]. by eauto.
        -- split; [done|]. intros ([? ?] & _). done.
      * split; [by destruct (repr_args ts)|]. intros (_ & _ & _ & [?|[[_ Hx]|[_ ?]]]); [done| |done]. destruct Ho. by apply Hx.
    + rewrite Hoff. split.
      * intros (Hg & Hf & Hlt & [->| ->]); (split_and!; [done..|]).
        -- right. left. done.
        -- right. right. done.
      * intros (Hg & Hf & Hlt & [?|[[? _]|[? _]]]); [done|by eauto..].
  - apply position_None in Ep. rewrite repr_c_panic, <-first_repr_reprs, Efr. split.
    + intros (? & ? & ? & H). split_and!; try done. left. injection H as H.
      change [WId "transparent"] with (WId <$> ["transparent"%string]) in H. by apply WId_inj in H.
    + intros (? & ? & ? & [->|[[-> _]|[-> _]]]); [done|exfalso; apply Ep..].
      * right. left.
      * left.
Qed.

(** ** Features, names, visibility *)
Lemma derive_js_free f f' ts i : checks f = checks f' → feat_dyn f = feat_dyn f' → ¬ asks_js i → derive_with false f ts i = derive_with false f' ts i.
Proof.
  intros Hck Hd Hn. unfold derive_with. rewrite Hd, Hck.
  assert (E : ∀ ss, match first_repr (i_attrs i) with Some (Some ws) => idents ws | _ => None end = Some ss → position "js" ss = None).
  { intros ss Hs. destruct (position "js" ss) eqn:Ep; [|done]. destruct Hn. rewrite first_repr_reprs in Hs.
    exists ss. destruct (head (reprs i)) as [[ws|]|]; [|done..]. rewrite (idents_Some _ _ Hs). split; [done|].
    apply position_Some in Ep as (a & b & -> & _). apply elem_of_app. right. left. }
  destruct (first_repr (i_attrs i)) as [[ws|]|]; [|done..].
  destruct (idents ws) as [ss|]; [|done]. by rewrite (E ss eq_refl).
Qed.

Lemma derive_struct_kind a b i fs : kind_of (derive_struct false false a i fs) = kind_of (derive_struct false false b i fs).
Proof. unfold derive_struct. repeat case_match; done. Qed.
Lemma derive_enum_kind a b i fs : kind_of (derive_enum a i fs) = kind_of (derive_enum b i fs).
Proof. unfold derive_enum. repeat case_match; done. Qed.
Lemma repr_c_kind_args ts ts' i : good_args ts → good_args ts' → kind_of (repr_c false false ts i) = kind_of (repr_c false false ts' i).
Proof.
  rewrite <-!repr_args_spec. intros [a Ha] [b Hb]. unfold repr_c. rewrite Ha, Hb.
  destruct (i_data i) as [sh fs|vs| |]; try done; (destruct (try_fptr i); [done|]).
  - apply derive_struct_kind.
  - apply derive_enum_kind.
Qed.

Lemma derive_js f f' ts i k : checks f = false → checks f' = false → asks_js i → i_data i ≠ DTrait → feat_js f = true → feat_js f' = false →
  kind_of (derive_with false f ts i) = Some k ↔ old_style i ∧ kind_of (derive_with false f' ts i) = Some k.
Proof.
  intros Hck Hck' (ss & Hr & Hj) Ht Hf Hf'. rewrite !derive_non_trait by done. rewrite <-first_repr_reprs in Hr.
  rewrite Hr, idents_fmap, Hf, Hf'. destruct (legacy_or i ss Hr Hj) as (n & -> & [[Ho ->]|[Ho ->]]).
  - destruct (repr_args ts) as [a|] eqn:Ea.
    + rewrite (repr_c_kind_args [TJs] ts); [naive_solver|exact good_js|]. apply repr_args_spec. by eauto.
    + cbn [kind_of]. split; [done|]. intros [_ H]. unfold repr_c in H. by rewrite Ea in H.
  - split; [|naive_solver]. by destruct (repr_args ts).
Qed.

Lemma try_fptr_exp i x : try_fptr i = Some (Expand x) → x_kind x = KFptr.
Proof. unfold try_fptr. intros H. repeat case_match; simplify_eq; done. Qed.
Lemma repr_c_names ts i x : repr_c false false ts i = Expand x → x_kind x ≠ KFptr →
  x_rename x = existsb is_rename ts ∧
  (x_kind x = KStruct ∨ (∃ s, x_kind x = KEnum s) → x_js x = existsb is_js ts).
Proof.
  unfold repr_c. destruct (repr_args ts) as [a|] eqn:Ea; [|done].
  apply parse_args_val in Ea as [Hr Hjs]. cbn in Hr, Hjs. rewrite <-Hr, <-Hjs. intros H Hk.
  destruct (i_data i) as [sh fs|vs| |]; try done.
  - destruct (try_fptr i) as [o|] eqn:Et.
    { subst o. by apply try_fptr_exp in Et. }
    unfold derive_struct in H. repeat case_match; simplify_eq; cbn; naive_solver.
  - destruct (try_fptr i) as [o|] eqn:Et.
    { subst o. by apply try_fptr_exp in Et. }
    unfold derive_enum in H. repeat case_match; simplify_eq; cbn; naive_solver.
  - by destruct (try_fptr i) eqn:Et; [subst; apply try_fptr_exp in Et|].
Qed.
Lemma derive_repr_c f ts i x : checks f = false → derive_with false f ts i = Expand x → i_data i ≠ DTrait → feat_js f = false ∨ ¬ asks_js i →
  ∃ i', repr_c false false ts i' = Expand x ∧ i_data i' = i_data i.
Proof.
  intros Hck H Ht Hf. rewrite derive_non_trait in H by done.
  destruct (first_repr (i_attrs i)) as [[ws|]|] eqn:Er; [|done|by eauto].
  destruct (idents ws) as [ss|] eqn:Es; [|done].
  destruct (position "js" ss) as [n|] eqn:Ep; [|by eauto].
  destruct Hf as [Hf|Hf].
  - rewrite Hf in H. eexists. split; [exact H|done].
  - destruct Hf. exists ss. rewrite <-first_repr_reprs, Er, (idents_Some _ _ Es). split; [done|].
    apply position_Some in Ep as (a & b & -> & _). apply elem_of_app. right. left.
Qed.

Lemma vis_try i v : (∀ sh fd, i_data i ≠ DStruct sh [fd]) → try_fptr i = None ∧ try_fptr (with_vis i v) = None.
Proof.
  intros H. unfold try_fptr. cbn [with_vis i_data]. destruct (i_data i) as [[] [|? [|? ?]]| | |]; try done; by edestruct H.
Qed.
Lemma vis_repr_c ts i v : (∀ sh fd, i_data i ≠ DStruct sh [fd]) → repr_c false false ts (with_vis i v) = repr_c false false ts i.
Proof.
  intros H. destruct (vis_try i v H) as [H1 H2]. unfold repr_c. rewrite H1, H2. done.
Qed.
Lemma vis_derive f ts i v : checks f = false → (∀ sh fd, i_data i ≠ DStruct sh [fd]) → derive_with false f ts (with_vis i v) = derive_with false f ts i.
Proof.
  intros Hck H.
  assert (Dec : i_data i = DTrait ∨ i_data i ≠ DTrait) by (destruct (i_data i); naive_solver).
  destruct Dec as [Ht|Ht]; [unfold derive_with; cbn [with_vis i_data i_attrs]; by rewrite Ht|].
  rewrite !derive_non_trait by done. cbn [with_vis i_attrs].
  rewrite vis_repr_c by done.
  destruct (first_repr (i_attrs i)) as [[ws|]|]; [|done..]. destruct (idents ws) as [ss|]; [|done].
  destruct (position "js" ss) as [n|]; [|done].
  assert (Hx : ∀ l, with_attrs (with_vis i v) l = with_vis (with_attrs i l) v) by done.
  rewrite Hx, (vis_repr_c ts (with_attrs i _) v) by done.
  assert (Hl : legacy false false (with_vis i v) = legacy false false i).
  { destruct (vis_try i v H) as [H1 H2]. unfold legacy. rewrite H1, H2. cbn [with_vis i_data i_attrs].
    destruct (i_data i) as [[] fs| | |] eqn:Ed; try done. destruct (legacy_attrs (i_attrs i)) as [l|]; [|done].
    cbn [negb andb]. by apply (vis_repr_c [TJs] (with_attrs i l) v); cbn [with_attrs i_data]; rewrite Ed. }
  by rewrite Hl.
Qed.

(** ** Overflow checks *)
Definition many (i : item) : bool := match i_data i with DStruct _ fs => (255 <? List.length fs)%nat | _ => false end.
Definition is_struct (o : outcome) : bool := match o with Expand (Expansion KStruct _ _) => true | _ => false end.
Definition check (ck : bool) (i : item) (o : outcome) : outcome := if ck && many i && is_struct o then Panic else o.

Lemma check_other ck i o : is_struct o = false → check ck i o = o.
Proof. unfold check. intros ->. by rewrite andb_false_r. Qed.
Lemma derive_struct_check ck a i sh fs : i_data i = DStruct sh fs →
  derive_struct ck false a i fs = check ck i (derive_struct false false a i fs).
Proof.
  intros Hd. unfold derive_struct, check, many. rewrite Hd. cbn [andb].
  destruct (first_ident _) as [s|]; [|by rewrite andb_false_r].
  destruct (s =? "transparent")%string; [destruct fs; by rewrite andb_false_r|].
  destruct (s =? "opaque")%string; [by rewrite andb_false_r|].
  destruct (s =? "C")%string; [|by rewrite andb_false_r].
  destruct (is_nil fs); [by rewrite andb_false_r|]. cbn [is_struct]. by rewrite andb_true_r.
Qed.
Lemma try_fptr_check ck i o : try_fptr i = Some o → check ck i o = o.
Proof. intros H. apply check_other. destruct o as [[[] ? ?]| |]; try done. by apply try_fptr_exp in H. Qed.
Lemma derive_enum_struct a i vs : is_struct (derive_enum a i vs) = false.
Proof. unfold derive_enum. repeat case_match; done. Qed.
Lemma repr_c_check ck ts i : repr_c ck false ts i = check ck i (repr_c false false ts i).
Proof.
  unfold repr_c. destruct (repr_args ts) as [a|]; [|by rewrite check_other].
  destruct (i_data i) as [sh fs|vs| |] eqn:Ed; [| | |by rewrite check_other];
    (destruct (try_fptr i) as [o|] eqn:Et; [by rewrite (try_fptr_check ck i o)|]).
  - by apply (derive_struct_check ck a i sh fs).
  - by rewrite (check_other ck i _ (derive_enum_struct a i vs)).
  - by rewrite check_other.
Qed.
Lemma legacy_check ck i : legacy ck false i = check ck i (legacy false false i).
Proof.
  unfold legacy. destruct (try_fptr i) as [o|] eqn:Et; [by rewrite (try_fptr_check ck i o)|].
  destruct (i_data i) as [sh fs| | |] eqn:Ed; try (by rewrite check_other). cbn [andb].
  destruct sh, (legacy_attrs (i_attrs i)) as [l|]; try (by rewrite check_other).
  rewrite repr_c_check. unfold check, many. cbn [with_attrs i_data]. by rewrite Ed.
Qed.
Lemma derive_check f ts i : derive_with false f ts i = check (checks f) i (derive_with false (unchecked f) ts i).
Proof.
  assert (Dec : i_data i = DTrait ∨ i_data i ≠ DTrait) by (destruct (i_data i); naive_solver).
  destruct Dec as [Ht|Ht].
  { unfold check, many. rewrite Ht, andb_false_r. cbn [andb]. unfold derive_with. rewrite Ht. done. }
  rewrite (derive_non_trait (unchecked f)) by done. cbn [unchecked feat_js].
  assert (E : ∀ f', derive_with false f' ts i = match first_repr (i_attrs i) with
    | None => repr_c (checks f') false ts i
    | Some ows =>
      match match ows with Some ws => idents ws | None => None end with
      | None => Panic
      | Some ss =>
          match position "js" ss with
          | Some n => if feat_js f' then match repr_args ts with Some _ => legacy (checks f') false i | None => Reject end
              else repr_c (checks f') false ts (with_attrs i (set_repr (i_attrs i) (WId <$> swap_remove n ss)))
          | None => repr_c (checks f') false ts i
          end
      end
    end) by (intros f'; unfold derive_with; by destruct (i_data i)).
  rewrite E. destruct (first_repr (i_attrs i)) as [ows|]; [|apply repr_c_check].
  destruct (match ows with Some ws => idents ws | None => None end) as [ss|]; [|by rewrite check_other].
  destruct (position "js" ss) as [n|]; [|apply repr_c_check].
  destruct (feat_js f).
  - destruct (repr_args ts); [apply legacy_check|by rewrite check_other].
  - rewrite repr_c_check. done.
Qed.
Lemma derive_check_expand f ts i x : derive_with false f ts i = Expand x ↔
  derive_with false (unchecked f) ts i = Expand x ∧ (checks f = true → x_kind x = KStruct → many i = false).
Proof.
  rewrite derive_check. unfold check. destruct (derive_with false (unchecked f) ts i) as [[k r j]| |]; cbn [is_struct];
    [|destruct (checks f), (many i); naive_solver..].
  destruct (checks f), (many i), k; cbn [andb]; naive_solver.
Qed.
Lemma derive_check_panic f ts i : derive_with false f ts i = Panic ↔
  derive_with false (unchecked f) ts i = Panic ∨
  checks f = true ∧ many i = true ∧ ∃ x, derive_with false (unchecked f) ts i = Expand x ∧ x_kind x = KStruct.
Proof.
  rewrite derive_check. unfold check. destruct (derive_with false (unchecked f) ts i) as [[k r j]| |]; cbn [is_struct];
    [|destruct (checks f), (many i); naive_solver..].
  destruct (checks f), (many i), k; cbn [andb]; naive_solver.
Qed.
Lemma many_spec i : many i = true ↔ many_fields i.
Proof.
  unfold many, many_fields. destruct (i_data i) as [sh fs| | |]; [|naive_solver..].
  destruct (Nat.ltb_spec 255 (List.length fs)) as [Hl|Hl].
  - split; [|done]. intros _. exists sh, fs. split; [done|]. lia.
  - split; [done|]. intros (? & ? & [= <- <-] & ?). lia.
Qed.

(** ** Const parameters *)
Definition js_struct (o : outcome) : bool := match o with Expand (Expansion KStruct _ true) => true | _ => false end.
Definition spc (sp : bool) (i : item) (o : outcome) : outcome := if sp && negb (splits i) && js_struct o then Panic else o.

Lemma spc_other sp i o : js_struct o = false → spc sp i o = o.
Proof. unfold spc. intros ->. by rewrite andb_false_r. Qed.
Lemma js_is_struct o : is_struct o = false → js_struct o = false.
Proof. by destruct o as [[[] ? []]| |]. Qed.
Lemma derive_struct_spc ck sp a i fs : derive_struct ck sp a i fs = spc sp i (derive_struct ck false a i fs).
Proof.
  unfold derive_struct, spc. destruct (first_ident _) as [s|]; [|by rewrite andb_false_r].
  destruct (s =? "transparent")%string; [destruct fs; by rewrite andb_false_r|].
  destruct (s =? "opaque")%string; [by rewrite andb_false_r|].
  destruct (s =? "C")%string; [|by rewrite andb_false_r].
  destruct (is_nil fs); [by rewrite andb_false_r|]. destruct (ck && _); [by rewrite andb_false_r|].
  cbn [andb js_struct]. destruct (a_js a); [by rewrite !andb_true_r|]. by rewrite !andb_false_r.
Qed.
Lemma try_fptr_spc sp i o : try_fptr i = Some o → spc sp i o = o.
Proof. intros H. apply spc_other, js_is_struct. destruct o as [[[] ? ?]| |]; try done. by apply try_fptr_exp in H. Qed.
Lemma repr_c_spc ck sp ts i : repr_c ck sp ts i = spc sp i (repr_c ck false ts i).
Proof.
  unfold repr_c. destruct (repr_args ts) as [a|]; [|by rewrite spc_other].
  destruct (i_data i) as [sh fs|vs| |] eqn:Ed; [| | |by rewrite spc_other];
    (destruct (try_fptr i) as [o|] eqn:Et; [by rewrite (try_fptr_spc sp i o)|]).
  - apply derive_struct_spc.
  - by rewrite (spc_other sp i _ (js_is_struct _ (derive_enum_struct a i vs))).
  - by rewrite spc_other.
Qed.
Lemma legacy_splits ck sp i : sp = false ∨ splits i = true → legacy ck sp i = legacy ck false i.
Proof.
  intros H. assert (E : sp && negb (splits i) = false) by (destruct H as [-> | ->]; [done|by rewrite andb_false_r]).
  unfold legacy. rewrite E. destruct (try_fptr i); [done|]. destruct (i_data i) as [sh fs| | |]; [|done..].
  cbn [andb]. destruct sh, (legacy_attrs (i_attrs i)) as [l|]; try done. rewrite repr_c_spc. unfold spc. 
  change (splits (with_attrs i l)) with (splits i). by rewrite E.
Qed.

Lemma derive_with_non_trait sp f ts i : i_data i ≠ DTrait → derive_with sp f ts i =
  match first_repr (i_attrs i) with
  | None => repr_c (checks f) sp ts i
  | Some ows =>
      match match ows with Some ws => idents ws | None => None end with
      | None => Panic
      | Some ss =>
          match position "js" ss with
          | Some n => if feat_js f then match repr_args ts with Some _ => legacy (checks f) sp i | None => Reject end
              else repr_c (checks f) sp ts (with_attrs i (set_repr (i_attrs i) (WId <$> swap_remove n ss)))
          | None => repr_c (checks f) sp ts i
          end
      end
  end.
Proof. intros Ht. unfold derive_with. by destruct (i_data i). Qed.
Lemma asks_position i ss : first_repr (i_attrs i) = Some (Some (WId <$> ss)) → asks_js i ↔ is_Some (position "js" ss).
Proof.
  rewrite first_repr_reprs. intros Hr. split.
  - intros (ss' & Hs & Hj). rewrite Hr in Hs. assert (ss = ss') as -> by (apply WId_inj; congruence). by apply position_in.
  - intros [n Hn]. exists ss. split; [done|]. apply position_Some in Hn as (a & b & -> & _). apply elem_of_app. right. left.
Qed.

Lemma derive_splits f ts i : feat_js f = false ∨ splits i = true → derive_ReprC f ts i = derive_with false f ts i.
Proof.
  intros H. unfold derive_ReprC.
  assert (Dec : i_data i = DTrait ∨ i_data i ≠ DTrait) by (destruct (i_data i); naive_solver).
  destruct Dec as [Ht|Ht]; [unfold derive_with; by rewrite Ht|].
  assert (Hs : ∀ l, repr_c (checks f) (feat_js f) ts (with_attrs i l) = repr_c (checks f) false ts (with_attrs i l)).
  { intros l. rewrite repr_c_spc. unfold spc. change (splits (with_attrs i l)) with (splits i).
    by destruct H as [-> | ->]; rewrite ?andb_false_r. }
  assert (Hi : repr_c (checks f) (feat_js f) ts i = repr_c (checks f) false ts i).
  { pose proof (Hs (i_attrs i)) as Hx. by destruct i. }
  rewrite !derive_with_non_trait by done. rewrite Hi, legacy_splits by done.
  destruct (first_repr (i_attrs i)) as [ows|]; [|done].
  destruct (match ows with Some ws => idents ws | None => None end) as [ss|]; [|done].
  destruct (position "js" ss) as [n|]; [|done]. by rewrite Hs.
Qed.
Lemma derive_unasked f ts i : feat_js f = true → ¬ asks_js i → derive_ReprC f ts i = spc true i (derive_with false f ts i).
Proof.
  intros Hf Ha. unfold derive_ReprC. rewrite Hf.
  assert (Dec : i_data i = DTrait ∨ i_data i ≠ DTrait) by (destruct (i_data i); naive_solver).
  destruct Dec as [Ht|Ht].
  { unfold derive_with. rewrite Ht. repeat case_match; by rewrite spc_other. }
  rewrite !derive_with_non_trait by done.
  destruct (first_repr (i_attrs i)) as [ows|] eqn:Er; [|apply repr_c_spc].
  destruct ows as [ws|]; [|by rewrite spc_other].
  destruct (idents ws) as [ss|] eqn:Es; [|by rewrite spc_other]. apply idents_Some in Es as ->.
  destruct (position "js" ss) as [n|] eqn:Ep; [|apply repr_c_spc].
  destruct Ha. apply (asks_position i ss Er). eauto.
Qed.
Lemma derive_asked f ts i : feat_js f = true → splits i = false → asks_js i → struct_item i →
  derive_ReprC f ts i = match repr_args ts with Some _ => Panic | None => Reject end.
Proof.
  intros Hf Hs (ss & Hr & Hj) (sh & fs & Hd). unfold derive_ReprC. rewrite Hf, derive_with_non_trait by (by rewrite Hd).
  rewrite <-first_repr_reprs in Hr. rewrite Hr, idents_fmap. destruct (position_in _ _ Hj) as [n ->]. rewrite Hf.
  destruct (repr_args ts); [|done]. unfold legacy. rewrite (try_fptr_js i ss Hr Hj), Hd, Hs. done.
Qed.
Lemma derive_asked_other f ts i : asks_js i → ¬ struct_item i → derive_ReprC f ts i = derive_with false f ts i.
Proof.
  intros (ss & Hr & Hj) Hn. destruct (feat_js f) eqn:Hf; [|apply derive_splits; by left]. unfold derive_ReprC.
  assert (Dec : i_data i = DTrait ∨ i_data i ≠ DTrait) by (destruct (i_data i); naive_solver).
  destruct Dec as [Ht|Ht]; [unfold derive_with; by rewrite Ht|].
  rewrite !derive_with_non_trait by done. rewrite <-first_repr_reprs in Hr. rewrite Hr, idents_fmap, Hf.
  destruct (position_in _ _ Hj) as [n ->]. destruct (repr_args ts); [|done]. unfold legacy.
  destruct (try_fptr i); [done|]. destruct (i_data i) eqn:Ed; try done. destruct Hn. by eexists _, _.
Qed.
Lemma struct_dec i : struct_item i ∨ ¬ struct_item i.
Proof. unfold struct_item. destruct (i_data i); [left; eauto|right; naive_solver..]. Qed.
Lemma asks_dec i : asks_js i ∨ ¬ asks_js i.
Proof.
  destruct (first_repr (i_attrs i)) as [[ws|]|] eqn:Er.
  - destruct (idents ws) as [ss|] eqn:Es.
    + apply idents_Some in Es as ->. rewrite (asks_position i ss Er). destruct (position "js" ss); [left; eauto|right; by intros [? ?]].
    + right. intros (ss & Hr & _). rewrite <-first_repr_reprs, Er in Hr. injection Hr as ->. by rewrite idents_fmap in Es.
  - right. intros (ss & Hr & _). by rewrite <-first_repr_reprs, Er in Hr.
  - right. intros (ss & Hr & _). by rewrite <-first_repr_reprs, Er in Hr.
Qed.
Lemma splits_spec i : splits i = true ↔ i_consts i = O.
Proof. apply Nat.eqb_eq. Qed.
Lemma splits_false i : splits i = false ↔ i_consts i ≠ O.
Proof. apply Nat.eqb_neq. Qed.

Lemma derive_with_args sp f ts i x : i_data i ≠ DTrait → derive_with sp f ts i = Expand x → good_args ts.
Proof.
  intros Ht H. rewrite <-repr_args_spec. rewrite derive_with_non_trait in H by done.
  assert (E : ∀ ck j, repr_c ck sp ts j = Expand x → is_Some (repr_args ts)).
  { intros ck j Hj. unfold repr_c in Hj. destruct (repr_args ts); [eauto|done]. }
  destruct (first_repr (i_attrs i)) as [ows|]; [|by eapply E].
  destruct (match ows with Some ws => idents ws | None => None end) as [ss|]; [|done].
  destruct (position "js" ss) as [n|]; [|by eapply E].
  destruct (feat_js f); [|by eapply E]. destruct (repr_args ts); [eauto|done].
Qed.
Lemma derive_struct_item sp f ts i x : derive_with sp f ts i = Expand x → x_kind x = KStruct → struct_item i.
Proof.
  intros H Hk.
  assert (E : ∀ ck ts' j, i_data j = i_data i → repr_c ck sp ts' j = Expand x → struct_item i).
  { intros ck ts' j Hd Hj. unfold repr_c in Hj. rewrite Hd in Hj. destruct (repr_args ts'); [|done].
    unfold struct_item. destruct (i_data i) as [sh fs|vs| |] eqn:Ed; [by eauto| |try done..].
    - destruct (try_fptr j) as [o|] eqn:Et; [subst o; apply try_fptr_exp in Et; congruence|].
      pose proof (derive_enum_struct a j vs) as He. rewrite Hj in He. destruct x as [[] ? ?]; done.
    - destruct (try_fptr j) as [o|] eqn:Et; [subst o; apply try_fptr_exp in Et; congruence|done]. }
  assert (Dec : i_data i = DTrait ∨ i_data i ≠ DTrait) by (destruct (i_data i); naive_solver).
  destruct Dec as [Ht|Ht]; [unfold derive_with in H; rewrite Ht in H; repeat case_match; simplify_eq; done|].
  rewrite derive_with_non_trait in H by done.
  destruct (first_repr (i_attrs i)) as [ows|]; [|by eapply E].
  destruct (match ows with Some ws => idents ws | None => None end) as [ss|]; [|done].
  destruct (position "js" ss) as [n|]; [|by eapply E].
  destruct (feat_js f); [|by eapply E; [|exact H]]. destruct (repr_args ts); [|done]. unfold legacy in H.
  unfold struct_item. destruct (i_data i) eqn:Ed; [by eauto|..];
    (destruct (try_fptr i) as [o|] eqn:Et; [subst o; apply try_fptr_exp in Et; congruence|done]).
Qed.

Lemma derive_expand f ts i x : derive_ReprC f ts i = Expand x ↔
  derive_with false f ts i = Expand x ∧
  (feat_js f = true → i_consts i ≠ O → ¬ (asks_js i ∧ struct_item i) ∧ ¬ (x_kind x = KStruct ∧ x_js x = true)).
Proof.
  destruct (feat_js f) eqn:Hf; [|rewrite derive_splits by (by left); naive_solver].
  destruct (splits i) eqn:Hs; [rewrite derive_splits by (by right); apply splits_spec in Hs; naive_solver|].
  pose proof Hs as Hc. apply splits_false in Hc.
  destruct (asks_dec i) as [Ha|Ha].
  - destruct (struct_dec i) as [Hst|Hst].
    + rewrite derive_asked by done. destruct (repr_args ts); naive_solver.
    + rewrite derive_asked_other by done. split; [|by intros [? _]]. intros H. split; [done|]. intros _ _. split; [naive_solver|].
      intros [Hk _]. by destruct Hst; eapply derive_struct_item.
  - rewrite derive_unasked by done. unfold spc. rewrite Hs. cbn [andb negb].
    destruct (derive_with false f ts i) as [[k r j]| |]; cbn [js_struct]; [|naive_solver..].
    destruct k, j; naive_solver.
Qed.
Lemma derive_panics f ts i : derive_ReprC f ts i = Panic ↔
  derive_with false f ts i = Panic ∨
  feat_js f = true ∧ i_consts i ≠ O ∧ struct_item i ∧ good_args ts ∧
  (asks_js i ∨ ∃ x, derive_with false f ts i = Expand x ∧ x_kind x = KStruct ∧ x_js x = true).
Proof.
  destruct (feat_js f) eqn:Hf; [|rewrite derive_splits by (by left); naive_solver].
  destruct (splits i) eqn:Hs; [rewrite derive_splits by (by right); apply splits_spec in Hs; naive_solver|].
  pose proof Hs as Hc. apply splits_false in Hc.
  destruct (asks_dec i) as [Ha|Ha].
  - destruct (struct_dec i) as [Hst|Hst].
    + rewrite derive_asked by done. rewrite <-repr_args_spec.
      assert (Hg : derive_with false f ts i = Panic → is_Some (repr_args ts)).
      { destruct Hst as (sh & fs & Hd). rewrite derive_with_non_trait by (by rewrite Hd).
        destruct Ha as (ss & Hr & Hj). rewrite <-first_repr_reprs in Hr. rewrite Hr, idents_fmap, Hf.
        destruct (position_in _ _ Hj) as [n ->]. destruct (repr_args ts); [eauto|done]. }
      destruct (repr_args ts) as [a|]; [|split; [done|]; intros [H|(_ & _ & _ & [? ?] & _)]; [destruct (Hg H) as [? ?]; done|done]].
      split; [|done]. intros _. right. split; [done|]. split; [done|]. split; [done|]. split; [by eauto|by left].
    + rewrite derive_asked_other by done. naive_solver.
  - rewrite derive_unasked by done. unfold spc. rewrite Hs. cbn [andb negb].
    destruct (derive_with false f ts i) as [[k r j]| |] eqn:Ed; cbn [js_struct]; [|naive_solver..].
    destruct k, j; try naive_solver. split; [|done]. intros _. right.
    assert (Hst : struct_item i) by (by eapply derive_struct_item).
    assert (Hg : good_args ts) by (eapply derive_with_args; [|exact Ed]; by destruct Hst as (? & ? & ->)).
    split; [done|]. split; [done|]. split; [done|]. split; [done|]. right. eexists. split; [reflexivity|]. done.
Qed.
Lemma derive_without_consts f ts i : struct_item i → splits (without_consts i) = true ∧
  derive_with false f ts (without_consts i) = derive_with false f ts i ∧
  (asks_js (without_consts i) ↔ asks_js i).
Proof.
  intros (sh & fs & Hd). split_and!; try done. destruct i as [at_ v lt pa co wh da]. cbn in Hd. subst da.
  rewrite !derive_with_non_trait by done. unfold without_consts. cbn [i_attrs i_vis i_lifetimes i_params i_consts i_where i_data].
  assert (E : ∀ ck ts' l, repr_c ck false ts' (Item l v lt pa O wh (DStruct sh fs)) = repr_c ck false ts' (Item l v lt pa co wh (DStruct sh fs))) by done.
  destruct (first_repr at_) as [ows|]; [|done].
  destruct (match ows with Some ws => idents ws | None => None end) as [ss|]; [|done].
  destruct (position "js" ss) as [n|]; [|done]. done.
Qed.
