(** Proofs for C84. *)

From Coq Require Import NArith ZArith List Bool String Ascii Lia ZifyBool ZifyNat ZifyN.
From stdpp Require Import base numbers list strings pretty option.
From Verif Require Import LayoutModel NameModel HeaderModel HeaderSpec HeaderProofs HeaderRead HeaderNames CsModel
  TextModel TextSpec TextProofs CompSpec.
From Verif Require ConstModel ConstSpec ConstProofs CsSpec CsProofs.

(** ** Tokens *)

Lemma fcons {A} (P : A → Prop) x l : Forall P (x :: l) → P x ∧ Forall P l.
Proof. by inversion 1. Qed.

Lemma text_of_chars s : text_of (chars s) = s.
Proof.
  unfold text_of. induction s as [|c s IH]; [done|]. cbn [chars map string_of_list_ascii].
  by rewrite ascii_N_embedding, IH.
Qed.
Lemma chars_string c s : chars (String c s) = N_of_ascii c :: chars s.
Proof. done. Qed.
Lemma num_head n : ∃ c w, num_text n = c :: w ∧ digit c = true.
Proof.
  pose proof (digits_chars n) as H. destruct (num_wordy n) as [Hn _]. destruct (num_text n) as [|c w]; [done|].
  apply fcons in H as [H _]. by exists c, w.
Qed.
Lemma number_num n : number (num_text n) = Some n.
Proof.
  unfold number, num_text. rewrite map_map.
  replace (map (λ x, ascii_of_N (N_of_ascii x)) (ConstModel.dtext (ConstModel.digits n)))
    with (ConstModel.dtext (ConstModel.digits n)).
  - by rewrite ConstProofs.read_number_digits.
  - symmetry. induction (ConstModel.dtext _) as [|c l IH]; [done|]. cbn [map]. by rewrite ascii_N_embedding, IH.
Qed.
Lemma lettered_word s : lettered s = true → ∃ c w, chars s = c :: w ∧ digit c = false ∧ text_of (c :: w) = s.
Proof.
  intros H. pose proof (text_of_chars s) as E. destruct s as [|c s]; [done|]. cbn [lettered] in H.
  apply negb_true_iff in H. by exists (N_of_ascii c), (chars s).
Qed.
Lemma name_of_wd s : lettered s = true → is_name s = true → name_of (wd s) = Some s.
Proof.
  intros H Hn. destruct (lettered_word s H) as (c & w & E & Hc & Ht). unfold wd, name_of. rewrite E, Hc, Ht, Hn. done.
Qed.
Lemma untok_tk t : (∀ s, t = TkId s → lettered s = true) → untok (tk t) = Some t.
Proof.
  destruct t as [s| | | | | | |n]; intros H; try done.
  - destruct (lettered_word s (H s eq_refl)) as (c & w & E & Hc & Ht). unfold tk, wd, untok. rewrite E, Hc, Ht. done.
  - destruct (num_head n) as (c & w & E & Hc). unfold tk, untok. pose proof (number_num n) as En. rewrite E in *.
    by rewrite Hc, En.
Qed.
Lemma untoks_tk ts : (∀ s, s ∈ idents ts → lettered s = true) → untoks (map tk ts) = Some ts.
Proof.
  induction ts as [|t ts IH]; intros H; [done|]. cbn [map untoks]. rewrite untok_tk, IH; [done|..].
  - intros s Hs. apply H. unfold idents. cbn [flat_map]. apply elem_of_app. by right.
  - intros s ->. apply H. left.
Qed.

Lemma ctok_eqb_refl t : ctok_eqb t t = true.
Proof. destruct t; cbn; [by apply bool_decide_eq_true|by apply bool_decide_eq_true|by apply N.eqb_eq]. Qed.
Lemma eqb_wd a b : ctok_eqb (wd a) (wd b) = bool_decide (a = b).
Proof.
  unfold wd, ctok_eqb. apply bool_decide_ext. split; [|by intros ->]. apply chars_inj.
Qed.

(** None of a kind of token. *)
Definition no (c : ctok) (ts : list ctok) : Prop := Forall (λ t, ctok_eqb t c = false) ts.
Definition quiet (ts : list ctok) : Prop := no semi ts ∧ no lbrace ts ∧ no rbrace ts.
Lemma no_app c a b : no c a → no c b → no c (a ++ b).
Proof. intros. by apply Forall_app. Qed.
Lemma quiet_app a b : quiet a → quiet b → quiet (a ++ b).
Proof. intros (? & ? & ?) (? & ? & ?). repeat split; by apply no_app. Qed.
Lemma quiet_tk ts : quiet (map tk ts).
Proof. repeat split; (induction ts as [|t ts IH]; [constructor|constructor; [by destruct t|done]]). Qed.
Lemma quiet_wd w : quiet [Wd w].
Proof. repeat split; by repeat constructor. Qed.
Lemma quiet_wds s l : quiet l → quiet (wd s :: l).
Proof. intros H. apply (quiet_app [wd s]); [apply quiet_wd|done]. Qed.

Lemma cut_app c a b : no c a → cut c (a ++ c :: b) = Some (a, b).
Proof.
  induction 1 as [|t a Ht _ IH]; cbn [cut app]; [by rewrite ctok_eqb_refl|]. by rewrite Ht, IH.
Qed.
Lemma parts_one c p : no c p → ∀ cur ts, parts c cur (p ++ c :: ts) = cons (cur ++ p) <$> parts c [] ts.
Proof.
  induction 1 as [|t p Ht _ IH]; intros cur ts; cbn [app parts].
  - by rewrite ctok_eqb_refl, app_nil_r.
  - rewrite Ht, IH, <-app_assoc. done.
Qed.
Lemma parts_all {A} c (f : A → list ctok) l : (∀ x, x ∈ l → no c (f x)) →
  parts c [] (flat_map (λ x, f x ++ [c]) l) = Some (map f l).
Proof.
  induction l as [|x l IH]; intros H; [done|]. cbn [flat_map map]. rewrite <-app_assoc. cbn [app].
  rewrite parts_one by (apply H; left). rewrite IH; [done|]. intros y Hy. apply H. by right.
Qed.

(** ** Grouping *)

Fixpoint walk (d : nat) (ts : list ctok) : option nat :=
  match ts with
  | [] => Some d
  | t :: ts =>
      if ctok_eqb t semi && (d =? 0)%nat then None
      else if ctok_eqb t lbrace then walk (S d) ts
      else if ctok_eqb t rbrace then match d with 0 => None | S d => walk d ts end
      else walk d ts
  end.
Lemma walk_app d d' a b : walk d a = Some d' → walk d (a ++ b) = walk d' b.
Proof.
  revert d. induction a as [|t a IH]; intros d E; [by injection E as ->|]. cbn [walk app] in *.
  destruct (ctok_eqb t semi && (d =? 0)%nat); [done|]. destruct (ctok_eqb t lbrace); [by apply IH|].
  destruct (ctok_eqb t rbrace); [|by apply IH]. destruct d; [done|]. by apply IH.
Qed.
Lemma walk_quiet d ts : quiet ts → walk d ts = Some d.
Proof.
  intros (H1 & H2 & H3). induction ts as [|t ts IH]; [done|]. cbn [walk].
  apply fcons in H1 as [-> H1]. apply fcons in H2 as [-> H2]. apply fcons in H3 as [-> H3].
  by apply IH.
Qed.
Lemma walk_inner d ts : no lbrace ts → no rbrace ts → walk (S d) ts = Some (S d).
Proof.
  intros H2 H3. induction ts as [|t ts IH]; [done|]. cbn [walk].
  apply fcons in H2 as [-> H2]. apply fcons in H3 as [-> H3]. rewrite andb_false_r. by apply IH.
Qed.
Lemma group_walk d d' ts cur es : walk d ts = Some d' → group d cur (map ETok ts ++ es) = group d' (cur ++ ts) es.
Proof.
  revert d cur. induction ts as [|t ts IH]; intros d cur E; [injection E as ->; by rewrite app_nil_r|].
  cbn [walk map app group] in *.
  destruct (ctok_eqb t semi && (d =? 0)%nat); [done|].
  assert (HC : (cur ++ [t]) ++ ts = cur ++ t :: ts) by (by rewrite <-app_assoc).
  destruct (ctok_eqb t lbrace); [by rewrite (IH _ _ E), HC|].
  destruct (ctok_eqb t rbrace); [|by rewrite (IH _ _ E), HC]. destruct d; [done|]. by rewrite (IH _ _ E), HC.
Qed.
Lemma group_decl ts es : walk 0 ts = Some 0 →
  group 0 [] (map ETok (ts ++ [semi]) ++ es) = cons (GDecl ts) <$> group 0 [] es.
Proof. intros H. rewrite map_app, <-app_assoc, (group_walk _ _ _ _ _ H). done. Qed.
Lemma walk_braces pre a post : quiet pre → no lbrace a → no rbrace a → quiet post →
  walk 0 (pre ++ lbrace :: a ++ rbrace :: post) = Some 0.
Proof.
  intros H1 H2 H3 H4. rewrite (walk_app _ 0) by (by apply walk_quiet). cbn [walk].
  change (ctok_eqb lbrace semi) with false. change (ctok_eqb lbrace lbrace) with true. cbn [andb].
  rewrite (walk_app _ 1) by (by apply walk_inner). cbn [walk].
  change (ctok_eqb rbrace semi) with false. change (ctok_eqb rbrace lbrace) with false.
  change (ctok_eqb rbrace rbrace) with true. cbn [andb]. by apply walk_quiet.
Qed.

(** The declarations of the compiler in what is written. *)
Definition members_toks (fs : list field) : list ctok :=
  flat_map (λ f : field, map tk (c_var (erase f.2) [TkId f.1.2]) ++ [semi]) fs.
Definition groups_of (y : xdecl) : list grp :=
  match y with
  | YInts => [GInclude (chars "<stddef.h>"); GInclude (chars "<stdint.h>")]
  | YBool => [GInclude (chars "<stdbool.h>")]
  | YConst _ n t untyped v =>
      match expected false LC y with [EDefine x v] => [GDefine x v] | _ => [] end
  | YStruct _ n fs =>
      [GDecl (wd "typedef" :: wd "struct" :: wd n :: lbrace :: members_toks fs ++ [rbrace; wd (suffixed n)])]
  | YArr n t len =>
      [GDecl (wd "typedef" :: wd "struct" :: lbrace :: (map tk (array_text (erase t) len) ++ [semi]) ++ [rbrace; wd n])]
  | YEnum _ n i vs =>
      match i with
      | Some i => [GDecl (enum_toks LC n vs); GDecl [wd "typedef"; wd (suffixed (int_name i)); wd (suffixed n)]]
      | None => [GDecl (wd "typedef" :: enum_toks LC n vs ++ [wd (suffixed n)])]
      end
  | YAlias _ n t => [GDecl (wd "typedef" :: map tk (alias_text n (erase t)))]
  | YOpaque _ n => [GDecl [wd "typedef"; wd "struct"; wd n; wd (suffixed n)]]
  | YFn _ n args r => [GDecl (map tk (fn_text n (map (λ a, (a.1, erase a.2)) args) (erase r)))]
  | YDelegate _ _ _ => []
  end.

Lemma members_quiet fs : no lbrace (members_toks fs) ∧ no rbrace (members_toks fs).
Proof.
  induction fs as [|f fs [IH1 IH2]]; [split; constructor|]. unfold members_toks. cbn [flat_map].
  split; (apply no_app; [apply no_app; [apply quiet_tk|by repeat constructor]|done]).
Qed.
Definition variant_part (n : string) (v : docs * ntext * option Z) : list ctok :=
  Wd (variant_name n v.1.2) :: match v.2 with None => [] | Some z => Pn 61 :: z_toks z end.
Lemma variant_part_toks n v : variant_toks LC n v = variant_part n v ++ [Pn 44].
Proof. destruct v as [[d x] [z|]]; done. Qed.
Lemma variant_part_quiet n v : quiet (variant_part n v) ∧ no (Pn 44) (variant_part n v).
Proof.
  destruct v as [[d x] [z|]]; unfold variant_part; cbn [fst snd]; [|repeat split; by repeat constructor].
  unfold z_toks. destruct (z <? 0)%Z; repeat split; by repeat constructor.
Qed.
Lemma variants_quiet n vs : quiet (flat_map (variant_toks LC n) vs).
Proof.
  induction vs as [|v vs IH]; [repeat split; constructor|]. cbn [flat_map]. apply quiet_app; [|done].
  rewrite variant_part_toks. apply quiet_app; [apply variant_part_quiet|]. repeat split; by repeat constructor.
Qed.
Lemma enum_walk pre n vs post : quiet pre → quiet post → walk 0 (pre ++ enum_toks LC n vs ++ post) = Some 0.
Proof.
  intros H1 H2. unfold enum_toks. change (wd "enum" :: wd n :: lbrace :: flat_map (variant_toks LC n) vs ++ [rbrace])
    with ([wd "enum"; wd n] ++ lbrace :: flat_map (variant_toks LC n) vs ++ [rbrace]).
  rewrite <-app_assoc. cbn [app]. rewrite <-app_assoc. cbn [app].
  change (pre ++ wd "enum" :: wd n :: lbrace :: flat_map (variant_toks LC n) vs ++ rbrace :: post)
    with (pre ++ ([wd "enum"; wd n] ++ lbrace :: flat_map (variant_toks LC n) vs ++ rbrace :: post)).
  rewrite app_assoc. pose proof (variants_quiet n vs) as (? & ? & ?).
  apply walk_braces; [|done..]. apply quiet_app; [done|]. by apply quiet_wds, quiet_wd.
Qed.

Lemma group_expected y es : (∀ n r args, y ≠ YDelegate n r args) →
  group 0 [] (expected false LC y ++ es) = app (groups_of y) <$> group 0 [] es.
Proof.
  assert (HI : ∀ (o : option (list grp)), o = app [] <$> o) by (by intros [|]).
  assert (H2 : ∀ a b (o : option (list grp)), cons a <$> (cons b <$> o) = app [a; b] <$> o) by (by intros ? ? [|]).
  assert (H1 : ∀ a (o : option (list grp)), cons a <$> o = app [a] <$> o) by (by intros ? [|]).
  intros HD. destruct y as [| |d n fs|n t len|d n i vs|d n t|d n|n r args|d n args r|d n t u v]; cbn [expected groups_of decl_toks].
  - cbn [app group]. by rewrite H2.
  - cbn [app group]. by rewrite H1.
  - unfold var_toks. change (flat_map (λ f : field, map tk (c_var (erase f.2) [TkId f.1.2]) ++ [semi]) fs) with (members_toks fs).
    replace (wd "typedef" :: wd "struct" :: wd n :: lbrace :: members_toks fs ++ [rbrace; wd (suffixed n); semi])
      with ((wd "typedef" :: wd "struct" :: wd n :: lbrace :: members_toks fs ++ [rbrace; wd (suffixed n)]) ++ [semi]).
    2: { cbn [app]. rewrite <-app_assoc. done. }
    rewrite group_decl; [by rewrite H1|].
    change (wd "typedef" :: wd "struct" :: wd n :: lbrace :: members_toks fs ++ [rbrace; wd (suffixed n)])
      with ([wd "typedef"; wd "struct"; wd n] ++ lbrace :: members_toks fs ++ rbrace :: [wd (suffixed n)]).
    destruct (members_quiet fs). apply walk_braces; [|done|done|apply quiet_wd].
    by apply quiet_wds, quiet_wds, quiet_wd.
  - replace (wd "typedef" :: wd "struct" :: lbrace :: map tk (array_text (erase t) len) ++ [semi; rbrace; wd n; semi])
      with ((wd "typedef" :: wd "struct" :: lbrace :: (map tk (array_text (erase t) len) ++ [semi]) ++ [rbrace; wd n]) ++ [semi]).
    2: { cbn [app]. do 3 f_equal. by rewrite <-!app_assoc. }
    rewrite group_decl; [by rewrite H1|].
    change (wd "typedef" :: wd "struct" :: lbrace :: (map tk (array_text (erase t) len) ++ [semi]) ++ [rbrace; wd n])
      with ([wd "typedef"; wd "struct"] ++ lbrace :: (map tk (array_text (erase t) len) ++ [semi]) ++ rbrace :: [wd n]).
    apply walk_braces; [by apply quiet_wds, quiet_wd|..|apply quiet_wd];
      (apply no_app; [apply quiet_tk|by repeat constructor]).
  - destruct i as [i|].
    + replace (enum_toks LC n vs ++ [semi; wd "typedef"; wd (suffixed (int_name i)); wd (suffixed n); semi])
        with ((enum_toks LC n vs ++ [semi]) ++ ([wd "typedef"; wd (suffixed (int_name i)); wd (suffixed n)] ++ [semi])).
      2: { by rewrite <-app_assoc. }
      rewrite map_app, <-app_assoc. rewrite group_decl.
      2: { pose proof (enum_walk [] n vs []) as H. cbn [app] in H. rewrite app_nil_r in H. apply H; repeat split; constructor. }
      rewrite group_decl; [by rewrite H2|]. apply walk_quiet. by apply quiet_wds, quiet_wds, quiet_wd.
    + replace (wd "typedef" :: enum_toks LC n vs ++ [wd (suffixed n); semi])
        with ((wd "typedef" :: enum_toks LC n vs ++ [wd (suffixed n)]) ++ [semi]).
      2: { cbn [app]. rewrite <-app_assoc. done. }
      rewrite group_decl; [by rewrite H1|]. apply (enum_walk [wd "typedef"]); apply quiet_wd.
  - change (wd "typedef" :: map tk (alias_text n (erase t)) ++ [semi]) with ((wd "typedef" :: map tk (alias_text n (erase t))) ++ [semi]).
    rewrite group_decl; [by rewrite H1|]. apply walk_quiet. apply quiet_wds, quiet_tk.
  - change [wd "typedef"; wd "struct"; wd n; wd (suffixed n); semi] with ([wd "typedef"; wd "struct"; wd n; wd (suffixed n)] ++ [semi]).
    rewrite group_decl; [by rewrite H1|]. apply walk_quiet. by apply quiet_wds, quiet_wds, quiet_wds, quiet_wd.
  - by destruct (HD n r args).
  - change (fn_toks LC n (map (λ a, (a.1, erase a.2)) args) (erase r)) with (fn_text n (map (λ a, (a.1, erase a.2)) args) (erase r)).
    rewrite group_decl; [by rewrite H1|]. apply walk_quiet, quiet_tk.
  - cbn [app group]. by rewrite H1.
Qed.
Lemma group_all ys : (∀ y n r args, y ∈ ys → y ≠ YDelegate n r args) →
  group 0 [] (flat_map (expected false LC) ys) = Some (flat_map groups_of ys).
Proof.
  induction ys as [|y ys IH]; intros H; [done|]. cbn [flat_map]. rewrite group_expected, IH; [done|..].
  - intros z n r args Hz. apply H. by right.
  - intros n r args. apply H. left.
Qed.
