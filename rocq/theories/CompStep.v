(** Proofs for C84, continued: a declaration does what it ought to. *)

From Coq Require Import NArith ZArith List Bool String Ascii Lia ZifyBool ZifyNat ZifyN.
From stdpp Require Import base numbers list strings pretty option.
From Verif Require Import LayoutModel NameModel HeaderModel HeaderSpec HeaderProofs HeaderRead HeaderNames CsModel
  TextModel TextSpec TextProofs CompSpec CompProofs CompRun.
From Verif Require ConstModel ConstSpec ConstProofs CsSpec CsProofs.
Import stdpp.list CompSpec.

Lemma elem_flat {A B} (f : A → list B) l x : x ∈ flat_map f l ↔ ∃ y, y ∈ l ∧ x ∈ f y.
Proof.
  rewrite elem_of_list_In, in_flat_map. split; intros (y & H1 & H2); exists y; by rewrite ?elem_of_list_In in *.
Qed.
Lemma elem_map {A B} (f : A → B) l x : x ∈ map f l ↔ ∃ y, x = f y ∧ y ∈ l.
Proof. apply elem_of_list_fmap. Qed.

(** ** Enumerators *)

Lemma enum_value_z z : enum_value (z_toks z) = Some z.
Proof.
  unfold z_toks. destruct (z <? 0)%Z eqn:E; cbn [enum_value]; rewrite number_num; cbn; f_equal; lia.
Qed.
Definition valued (n : string) (vs : list (docs * ntext * option Z)) : list (string * Z) :=
  zip (map (λ v, text_of (variant_name n v.1.2)) vs) (discriminants 0 vs).
Lemma enumerators_part n vs : (∀ v, v ∈ vs → ∃ x, variant_name n v.1.2 = chars x ∧ lettered x = true ∧ is_name x = true) →
  ∀ next, enumerators next (map (variant_part n) vs) =
    Some (zip (map (λ v, text_of (variant_name n v.1.2)) vs) (discriminants next vs)).
Proof.
  induction vs as [|[[d x] o] vs IH]; intros H next; [done|]. cbn [map enumerators discriminants zip].
  destruct (H (d, x, o)) as (s & Es & Hl & Hn); [left|]. cbn [fst snd] in Es.
  assert (HI : ∀ k, enumerators k (map (variant_part n) vs) =
    Some (zip (map (λ v, text_of (variant_name n v.1.2)) vs) (discriminants k vs))).
  { apply IH. intros v Hv. apply H. by right. }
  unfold variant_part at 1. cbn [fst snd]. rewrite Es, text_of_chars. pose proof (name_of_wd s Hl Hn) as HW. unfold wd in HW.
  destruct o as [z|].
  - cbn [default]. rewrite HW, enum_value_z, HI. done.
  - rewrite HW, HI. done.
Qed.
Lemma discriminants_length next vs : length (discriminants next vs) = length vs.
Proof. revert next. induction vs as [|[? o] vs IH]; intros next; [done|]. cbn. by rewrite IH. Qed.
Lemma valued_fst n vs : map fst (valued n vs) = map (λ v, text_of (variant_name n v.1.2)) vs.
Proof.
  unfold valued. change (fst <$> zip (map (λ v, text_of (variant_name n v.1.2)) vs) (discriminants 0 vs) =
    map (λ v, text_of (variant_name n v.1.2)) vs).
  apply fst_zip. by rewrite map_length, discriminants_length.
Qed.

(** ** Additions *)

Definition plus (w : world) T F C G I M : world :=
  World (w_types w ++ T) (w_funs w ++ F) (w_consts w ++ C) (w_tags w ++ G) (w_included w ++ I) (w_macros w ++ M).
Lemma plus_eq w T F C G I M : plus w T F C G I M = plus w T F C G I M.
Proof. done. Qed.
Lemma add_type_ok x t w : x ∉ ordinary w → add_type x t w = Some (plus w [(x, t)] [] [] [] [] []).
Proof. intros H. unfold add_type, plus. rewrite in_strings_not by done. by rewrite !app_nil_r. Qed.
Lemma add_fun_ok x ps r w : x ∉ ordinary w → add_fun x ps r w = Some (plus w [] [(x, (ps, r))] [] [] [] []).
Proof. intros H. unfold add_fun, plus. rewrite in_strings_not by done. by rewrite !app_nil_r. Qed.
Lemma add_tag_ok x w : x ∉ w_tags w → add_tag x w = Some (plus w [] [] [] [x] [] []).
Proof. intros H. unfold add_tag, plus. rewrite in_strings_not by done. by rewrite !app_nil_r. Qed.
Lemma add_macro_ok x v w : x ∉ map fst (w_macros w) → add_macro x v w = Some (plus w [] [] [] [] [] [(x, v)]).
Proof. intros H. unfold add_macro, plus. rewrite bool_decide_false by done. by rewrite !app_nil_r. Qed.
Lemma plus_plus w T F C G I M T' F' C' G' I' M' :
  plus (plus w T F C G I M) T' F' C' G' I' M' = plus w (T ++ T') (F ++ F') (C ++ C') (G ++ G') (I ++ I') (M ++ M').
Proof. unfold plus. cbn. by rewrite !app_assoc. Qed.
Lemma plus_nil w : plus w [] [] [] [] [] [] = w.
Proof. destruct w. unfold plus. cbn. by rewrite !app_nil_r. Qed.
Lemma ordinary_plus w T F C G I M x :
  x ∈ ordinary (plus w T F C G I M) ↔ x ∈ ordinary w ∨ x ∈ map fst T ∨ x ∈ map fst F ∨ x ∈ map fst C.
Proof.
  unfold ordinary, plus. cbn. rewrite !map_app, !elem_of_app. tauto.
Qed.
Lemma add_consts_ok l w : NoDup (map fst l) → (∀ x, x ∈ map fst l → x ∉ ordinary w) →
  add_consts l w = Some (plus w [] [] l [] [] []).
Proof.
  revert w. induction l as [|[x z] l IH]; intros w HN H; [by rewrite plus_nil|]. cbn [add_consts map fst] in *.
  apply NoDup_cons in HN as [HN1 HN2]. unfold add_const. rewrite in_strings_not by (apply H; left).
  assert (E : World (w_types w) (w_funs w) (w_consts w ++ [(x, z)]) (w_tags w) (w_included w) (w_macros w) =
    plus w [] [] [(x, z)] [] [] []) by (unfold plus; by rewrite !app_nil_r).
  rewrite E, IH; [by rewrite plus_plus|done|]. intros y Hy. rewrite ordinary_plus.
  intros [H1|[H1|[H1|H1]]]; [|by apply elem_of_nil in H1..|].
  - by apply (H y); [right|].
  - by apply elem_of_list_singleton in H1 as ->.
Qed.

(** *** Included files *)

Lemma std_known f ns x : std f = Some ns → x ∈ ns → x ∈ std_names.
Proof.
  unfold std. intros HE Hx. repeat case_match; try discriminate HE; injection HE as <-; revert x Hx; apply Forall_forall;
    repeat (apply List.Forall_cons; [apply (bool_decide_unpack _); vm_compute; exact I|]); apply List.Forall_nil.
Qed.
Lemma std_apart f f' ns ns' x : std f = Some ns → std f' = Some ns' → x ∈ ns → x ∈ ns' → f = f'.
Proof.
  assert (HC : ∀ f ns, std f = Some ns → ∃ h, f = chars h ∧ (h, ns) ∈
    [("<stddef.h>", ["size_t"]); ("<stdint.h>", ["uint8_t"; "uint16_t"; "uint32_t"; "uint64_t"; "int8_t"; "int16_t"; "int32_t"; "int64_t"]);
     ("<stdbool.h>", ["bool"])]).
  { clear. intros f ns. unfold std, TextSpec.is. repeat case_bool_decide; intros H'; try discriminate H'; injection H' as <-; eexists;
      (split; [eassumption|apply (bool_decide_unpack _); vm_compute; exact I]). }
  intros (h & -> & H1)%HC (h' & -> & H2)%HC X1 X2. f_equal.
  repeat (apply elem_of_cons in H1 as [H1|H1]; [|try by apply elem_of_nil in H1]);
  repeat (apply elem_of_cons in H2 as [H2|H2]; [|try by apply elem_of_nil in H2]); simplify_eq; try done; exfalso;
  repeat (apply elem_of_cons in X1 as [->|X1]; [revert X2; by apply (bool_decide_unpack _)|]); by apply elem_of_nil in X1.
Qed.
(** ** What holds between declarations *)

Section Step.
Context (is : list item) (Hs : source_ok is) (g : list ntext) (zs : list xdecl).
Context (Hfrom : ∀ y, y ∈ zs → from_items is (erase_decl y)).
Context (Hdel : ∀ y n r args, y ∈ zs → y ≠ YDelegate n r args).
Context (Honce : NoDup (flat_map (λ y, declares (erase_decl y)) zs)).
Context (Horder : in_order (known LC) LC (map erase_decl zs)).
Context (Hfresh : names_fresh g zs).
(** structs have members *)
Context (Hfull : ∀ d n fs, YStruct d n fs ∈ zs → fs ≠ []).

Definition tags_of (y : xdecl) : list string :=
  match y with YStruct _ n _ | YEnum _ n _ _ | YOpaque _ n => [n] | _ => [] end.
Definition macro_of (y : xdecl) : list (ntext * list ctok) :=
  match y with YConst _ _ _ _ _ => match expected false LC y with [EDefine x v] => [(x, v)] | _ => [] end | _ => [] end.
Definition proto_of (args : list (string * xty)) (r : xty) : list (string * rty) * rty :=
  (map (λ a, (a.1, view (erase a.2))) args, view (erase r)).

Record inv (ys : list xdecl) (w : world) : Prop := {
  i_right : ∀ m τ, (m, τ) ∈ w_types w → right is m τ;
  i_types : ∀ y m, y ∈ ys → m ∈ type_names (erase_decl y) → m ∈ map fst (w_types w);
  i_names : ∀ x, x ∈ ordinary w →
    x ∈ std_names ∨ x ∈ flat_map (λ y, declares (erase_decl y)) ys ∨ x ∈ flat_map enum_names ys;
  i_std : ∀ x, x ∈ ordinary w → x ∈ std_names → ∃ f ns, f ∈ w_included w ∧ std f = Some ns ∧ x ∈ ns;
  i_files : ∀ f ns x, f ∈ w_included w → std f = Some ns → x ∈ ns → x ∈ map fst (w_types w);
  i_tags : ∀ x, x ∈ w_tags w → x ∈ flat_map tags_of ys;
  i_macros : ∀ x, x ∈ map fst (w_macros w) → x ∈ g ++ flat_map macro_names ys;
  i_funs : ∀ d n args r, YFn d n args r ∈ ys → find n (w_funs w) = Some (proto_of args r);
  i_consts : ∀ d n i vs x z, YEnum d n i vs ∈ ys → (x, z) ∈ valued n vs → find x (w_consts w) = Some z;
  i_defs : ∀ y m, y ∈ ys → m ∈ macro_of y → m ∈ w_macros w;
  i_where : ∀ m, m ∈ map fst (w_types w) → m ∈ std_names ∨ ∃ y, y ∈ ys ∧ m ∈ type_names (erase_decl y);
  i_only : ∀ n p, (n, p) ∈ w_funs w → ∃ d args r, YFn d n args r ∈ ys ∧ p = proto_of args r }.

Lemma inv_plus ys y w T F C G I M : inv ys w →
  (∀ m τ, (m, τ) ∈ T → right is m τ) →
  (∀ m, m ∈ type_names (erase_decl y) → m ∈ map fst (w_types w ++ T)) →
  (∀ x, x ∈ map fst T ∨ x ∈ map fst F ∨ x ∈ map fst C →
    (x ∈ declares (erase_decl y) ∨ x ∈ enum_names y) ∧ x ∉ std_names ∨
    x ∈ std_names ∧ ∃ f ns, f ∈ w_included w ++ I ∧ std f = Some ns ∧ x ∈ ns) →
  (∀ f ns x, f ∈ I → std f = Some ns → x ∈ ns → x ∈ map fst (w_types w ++ T)) →
  (∀ x, x ∈ G → x ∈ tags_of y) →
  (∀ x, x ∈ map fst M → x ∈ macro_names y) →
  (∀ d n args r, y = YFn d n args r → find n (w_funs w ++ F) = Some (proto_of args r)) →
  (∀ d n i vs x z, y = YEnum d n i vs → (x, z) ∈ valued n vs → find x (w_consts w ++ C) = Some z) →
  (∀ m, m ∈ macro_of y → m ∈ w_macros w ++ M) →
  (∀ m, m ∈ map fst T → m ∈ std_names ∨ m ∈ type_names (erase_decl y)) →
  (∀ n p, (n, p) ∈ F → ∃ d args r, y = YFn d n args r ∧ p = proto_of args r) →
  inv (ys ++ [y]) (plus w T F C G I M).
Proof.
  intros [I1 I2 I3 I4 I10 I5 I6 I7 I8 I9 I11 I12] H1 H2 H3 H10 H4 H5 H6 H7 H8 H11 H12. split; cbn [plus w_types w_funs w_consts w_tags w_included w_macros].
  - intros m τ [?|?]%elem_of_app; auto.
  - intros z m [Hz|Hz%elem_of_list_singleton]%elem_of_app Hm.
    + rewrite map_app. apply elem_of_app. left. eauto.
    + subst z. auto.
  - intros x Hx%ordinary_plus. rewrite !flat_map_app, !elem_of_app. cbn [flat_map]. rewrite !app_nil_r.
    destruct Hx as [Hx|Hx]; [destruct (I3 x Hx) as [?|[?|?]]; tauto|]. destruct (H3 x Hx) as [[[?|?] _]|[? _]]; tauto.
  - intros x Hx%ordinary_plus Hd. destruct Hx as [Hx|Hx].
    + destruct (I4 x Hx Hd) as (f & ns & ? & ?). exists f, ns. split; [|done]. apply elem_of_app. by left.
    + destruct (H3 x Hx) as [[_ ?]|[_ ?]]; done.
  - intros f ns x [Hf|Hf]%elem_of_app Hd Hx; [|by eapply H10]. rewrite map_app. apply elem_of_app. left. eauto.
  - intros x [Hx|Hx]%elem_of_app; rewrite flat_map_app, elem_of_app; [left; auto|]. right. cbn [flat_map].
    rewrite app_nil_r. auto.
  - intros x Hx. rewrite map_app, elem_of_app in Hx. rewrite flat_map_app, !elem_of_app. cbn [flat_map]. rewrite app_nil_r.
    destruct Hx as [Hx|Hx]; [|right; right; auto]. apply I6 in Hx. rewrite elem_of_app in Hx. tauto.
  - intros d n args r [Hy|Hy%elem_of_list_singleton]%elem_of_app; [by eapply find_app, I7|]. by eapply H6.
  - intros d n i vs x z [Hy|Hy%elem_of_list_singleton]%elem_of_app Hv; [by eapply find_app, I8|]. by eapply H7.
  - intros z m [Hz|Hz%elem_of_list_singleton]%elem_of_app Hm.
    + apply elem_of_app. left. eauto.
    + subst z. auto.
  - intros m Hm. rewrite map_app, elem_of_app in Hm. destruct Hm as [Hm|Hm].
    + destruct (I11 m Hm) as [?|(z & Hz & ?)]; [by left|right]. exists z. split; [|done]. apply elem_of_app. by left.
    + destruct (H11 m Hm) as [?|?]; [by left|right]. exists y. split; [|done]. apply elem_of_app. right. left.
  - intros n p [Hp|Hp]%elem_of_app.
    + destruct (I12 n p Hp) as (d & args & r & Hd & ->). exists d, args, r. split; [|done]. apply elem_of_app. by left.
    + destruct (H12 n p Hp) as (d & args & r & -> & ->). exists d, args, r. split; [|done]. apply elem_of_app. right. left.
Qed.

Section Now.
Context (ys : list xdecl) (y : xdecl) (rest : list xdecl) (E : zs = ys ++ y :: rest) (w : world) (HI : inv ys w).

Lemma now_in : y ∈ zs.
Proof. rewrite E. apply elem_of_app. right. left. Qed.
Lemma past_in z : z ∈ ys → z ∈ zs.
Proof. intros H. rewrite E. apply elem_of_app. by left. Qed.
Lemma fresh_declared x : x ∈ declares (erase_decl y) → x ∉ std_names → x ∉ ordinary w.
Proof.
  intros Hx Hd Ho. apply (i_names _ _ HI) in Ho as [?|[Ho|Ho]]; [done|..].
  - rewrite E, flat_map_app, NoDup_app in Honce. destruct Honce as (_ & H & _). apply (H x Ho).
    cbn [flat_map]. apply elem_of_app. by left.
  - apply elem_flat in Ho as (z & Hz & Hx'). destruct (nf_other _ _ Hfresh x) as [_ []].
    + apply elem_flat. exists z. split; [by apply past_in|done].
    + apply elem_flat. exists y. split; [apply now_in|done].
Qed.
Lemma fresh_enum x : x ∈ enum_names y → x ∉ ordinary w.
Proof.
  intros Hx Ho. assert (Hz : x ∈ flat_map enum_names zs) by (apply elem_flat; exists y; split; [apply now_in|done]).
  destruct (nf_other _ _ Hfresh x Hz) as [N1 N2].
  apply (i_names _ _ HI) in Ho as [?|[Ho|Ho]]; [done|..].
  - apply elem_flat in Ho as (z & Hz' & Hx'). destruct N2. apply elem_flat. exists z. split; [by apply past_in|done].
  - pose proof (nf_once _ _ Hfresh) as HN. rewrite E, flat_map_app, NoDup_app in HN. destruct HN as (_ & H & _).
    apply (H x Ho). cbn [flat_map]. apply elem_of_app. by left.
Qed.
Lemma fresh_tag x : x ∈ tags_of y → x ∉ w_tags w.
Proof.
  assert (HT : ∀ z, x ∈ tags_of z → suffixed x ∈ declares (erase_decl z)).
  { intros [] H; cbn in *; try (by apply elem_of_nil in H); apply elem_of_list_singleton in H as ->; left. }
  intros Hx Ho. apply (i_tags _ _ HI), elem_flat in Ho as (z & Hz & Hx').
  rewrite E, flat_map_app, NoDup_app in Honce. destruct Honce as (_ & H & _). apply (H (suffixed x)).
  - apply elem_flat. exists z. eauto.
  - cbn [flat_map]. apply elem_of_app. left. eauto.
Qed.
Lemma fresh_macro x : x ∈ macro_names y → x ∉ map fst (w_macros w).
Proof.
  intros Hx Ho. apply (i_macros _ _ HI) in Ho. pose proof (nf_macros _ _ Hfresh) as HN.
  rewrite E, flat_map_app, app_assoc, NoDup_app in HN. destruct HN as (_ & H & _). apply (H x Ho).
  cbn [flat_map]. apply elem_of_app. by left.
Qed.
Lemma unused : existsb (uses w) (decl_toks false LC y) = false.
Proof.
  apply not_true_iff_false. intros (t & Ht%elem_of_list_In & Hu)%existsb_exists. destruct t as [x| |]; try done.
  cbn in Hu. apply bool_decide_eq_true in Hu. apply (i_macros _ _ HI) in Hu.
  eapply (nf_unused _ _ Hfresh x y); [|apply now_in|exact Ht].
  rewrite E, flat_map_app, app_assoc. apply elem_of_app. by left.
Qed.
Lemma unused_part a b c : decl_toks false LC y = a ++ b ++ c → existsb (uses w) b = false.
Proof. intros H. pose proof unused as HU. rewrite H, !existsb_app in HU. destruct (existsb (uses w) b); [|done]. by destruct (existsb (uses w) a). Qed.

Lemma mention m : m ∈ mentions LC (erase_decl y) → m ∈ known LC ∨ m ∈ map fst (w_types w).
Proof.
  intros Hm. destruct (Horder (length ys) (erase_decl y) m) as [?|(j & d & Hj & Hd & Hn)]; [|done|by left|].
  - rewrite E, map_app, lookup_app_r by (by rewrite map_length). rewrite map_length, Nat.sub_diag. done.
  - right. rewrite E, map_app, lookup_app_l in Hd by (by rewrite map_length).
    change ((erase_decl <$> ys) !! j = Some d) in Hd. apply list_lookup_fmap_Some in Hd as (z & Hz & ->).
    eapply (i_types _ _ HI); [by eapply elem_of_list_lookup_2|done].
Qed.
Lemma mention_lettered m : m ∈ mentions LC (erase_decl y) → lettered m = true.
Proof.
  intros Hm. destruct (mention m Hm) as [Hk|Ht].
  - unfold known in Hk. repeat (apply elem_of_cons in Hk as [->|Hk]; [reflexivity|]). by apply elem_of_nil in Hk.
  - destruct (find_fst _ _ Ht) as (τ & _ & Hin). destruct (i_right _ _ HI _ _ Hin) as [[Hd _]|(t & Ho & Hk & _)].
    + unfold std_names in Hd. repeat (apply elem_of_cons in Hd as [->|Hd]; [reflexivity|]). by apply elem_of_nil in Hd.
    + by destruct (so_keys _ Hs _ _ Ho Hk).
Qed.

Lemma declared_ok w' ts t x τ : w_types w' = w_types w → reads ts t (Some x) → (∀ s, s ∈ idents ts → lettered s = true) →
  resolve (w_types w) t = Some τ → ∃ f0, ∀ f, f0 ≤ f → declared f w' (map tk ts) = Some (τ, x).
Proof.
  intros HW [f0 HR] Hl Hr. exists f0. intros f Hf. unfold declared. rewrite untoks_tk, (HR f Hf), HW, Hr; done.
Qed.

End Now.

Lemma include_inv ys w f ns : inv ys w → std f = Some ns →
  ∃ w', include f w = Some w' ∧ inv ys w' ∧ (∀ x, x ∈ ns → x ∈ map fst (w_types w')) ∧
    (∀ x, x ∈ map fst (w_types w) → x ∈ map fst (w_types w')).
Proof.
  intros HI Hf. unfold include. case_bool_decide as Hin.
  { exists w. split; [done|]. split; [done|]. split; [|done]. intros x Hx. by eapply (i_files _ _ HI). }
  rewrite Hf.
  assert (existsb (λ n, in_strings n (ordinary w)) ns = false) as ->.
  { apply not_true_iff_false. intros (x & Hx%elem_of_list_In & Ho)%existsb_exists. apply in_strings_spec in Ho.
    destruct (i_std _ _ HI x Ho) as (f' & ns' & H1 & H2 & H3); [by eapply std_known|].
    by rewrite (std_apart _ _ _ _ _ Hf H2 Hx H3) in Hin. }
  assert (HN : ∀ x, x ∈ map fst (map (λ n, (n, RBase n)) ns) ↔ x ∈ ns) by (intros x; by rewrite map_map, map_id).
  eexists. split; [reflexivity|]. split; [|split].
  - destruct HI as [I1 I2 I3 I4 I10 I5 I6 I7 I8 I9 I11 I12]. split; cbn [w_types w_funs w_consts w_tags w_included w_macros]; try done.
    + intros m τ [H|H]%elem_of_app; [auto|]. apply elem_map in H as (n & [= -> ->] & Hn). left. split; [by eapply std_known|done].
    + intros z m Hz Hm. rewrite map_app. apply elem_of_app. left. eauto.
    + intros x. unfold ordinary. cbn [w_types w_funs w_consts]. rewrite map_app, <-app_assoc, elem_of_app, elem_of_app.
      intros [Hx|[Hx|Hx]].
      * apply I3. unfold ordinary. apply elem_of_app. by left.
      * left. apply HN in Hx. by eapply std_known.
      * apply I3. unfold ordinary. apply elem_of_app. by right.
    + intros x Hx Hd.
      assert (HX : x ∈ ns ∨ x ∈ ordinary w).
      { revert Hx. unfold ordinary. cbn [w_types w_funs w_consts]. rewrite map_app, !elem_of_app, HN. tauto. }
      destruct HX as [HX|HX].
      * exists f, ns. split; [|done]. apply elem_of_app. right. left.
      * destruct (I4 x HX Hd) as (f' & ns' & ? & ?). exists f', ns'. split; [|done]. apply elem_of_app. by left.
    + intros f' ns' x [Hf'|Hf']%elem_of_app Hd Hx; rewrite map_app; apply elem_of_app; [left; eauto|]. right.
      apply elem_of_list_singleton in Hf' as ->. apply HN. congruence.
    + intros m Hm. rewrite map_app, elem_of_app in Hm. destruct Hm as [Hm|Hm]; [auto|]. left. apply HN in Hm. by eapply std_known.
  - intros x Hx. cbn [w_types]. rewrite map_app. apply elem_of_app. right. by apply HN.
  - intros x Hx. cbn [w_types]. rewrite map_app. apply elem_of_app. by left.
Qed.
Lemma inv_more ys y w : inv ys w → y = YInts ∨ y = YBool → (∀ m, m ∈ type_names (erase_decl y) → m ∈ map fst (w_types w)) →
  inv (ys ++ [y]) w.
Proof.
  intros HI Hy Ht. rewrite <-(plus_nil w).
  apply inv_plus; try done; try (by intros ? ?%elem_of_nil); try (by intros ? ? ?%elem_of_nil).
  - intros m Hm. rewrite app_nil_r. auto.
  - intros x [Hx|[Hx|Hx]]; by apply elem_of_nil in Hx.
  - by intros ? ? ? ?%elem_of_nil.
  - intros ? ? ? ? ->. by destruct Hy.
  - intros ? ? ? ? ? ? ->. by destruct Hy.
  - destruct Hy as [->| ->]; by intros ? ?%elem_of_nil.
Qed.

(** ** One declaration *)

Section One.
Context (ys : list xdecl) (y : xdecl) (rest : list xdecl) (E : zs = ys ++ y :: rest) (w : world) (HI : inv ys w).

Definition stepped : Prop :=
  ∃ w', inv (ys ++ [y]) w' ∧ ∃ f0, ∀ f, f0 ≤ f → all f w (groups_of y) = Some w'.

Lemma origin_now : origin is y ∧ good_decl (erase_decl y) ∧ alias_name_ok (erase_decl y).
Proof.
  pose proof (now_in ys y rest E) as Hy. apply origin_from; [done|by apply Hfrom|]. intros n r args. by apply Hdel.
Qed.
Lemma mention_now t m : (∀ m, m ∈ mentioned LC t → m ∈ mentions LC (erase_decl y)) → m ∈ mentioned LC t →
  m ∈ known LC ∨ m ∈ map fst (w_types w).
Proof. intros H Hm. by apply (mention ys y rest E w HI), H. Qed.
Lemma resolve_now t : occurs t is → (∀ m, m ∈ mentioned LC t → m ∈ mentions LC (erase_decl y)) →
  resolve (w_types w) (sem t) = Some (view t).
Proof. intros Ho Hm. apply (resolve_view is Hs); [apply HI|done|]. intros m. by apply mention_now. Qed.
Lemma lettered_now t v s : (∀ m, m ∈ mentioned LC t → m ∈ mentions LC (erase_decl y)) → (∀ m, m ∈ idents v → lettered m = true) →
  s ∈ idents (c_var t v) → lettered s = true.
Proof. intros Hm Hv [H|H]%idents_c_var; [by apply (mention_lettered ys y rest E w HI), Hm|by apply Hv]. Qed.
Lemma one_decl f ts w' : existsb (uses w) ts = false → external f w ts = Some w' → all f w [GDecl ts] = Some w'.
Proof. intros H1 H2. cbn [all one]. by rewrite H1, H2. Qed.
Lemma typedef_now x τ k : x = suffixed k → x ∈ declares (erase_decl y) → x ∉ std_names → lettered x = true →
  ∀ G, (∀ t, t ∈ G → t ∈ w_tags w ∨ True) →
  name_of (wd x) = Some x ∧ add_type x τ (plus w [] [] [] G [] []) = Some (plus w [(x, τ)] [] [] G [] []).
Proof.
  intros -> Hd Hn Hl G _. split; [apply name_of_wd; [done|apply suffixed_name]|].
  rewrite add_type_ok; [by rewrite plus_plus, ?app_nil_r|].
  rewrite ordinary_plus. intros [H|[H|[H|H]]]; [|by apply elem_of_nil in H..].
  by eapply (fresh_declared ys y rest E w HI).
Qed.
Lemma inv_type x τ G : type_names (erase_decl y) = [x] → declares (erase_decl y) = [x] → x ∉ std_names → right is x τ →
  (∀ t, t ∈ G → t ∈ tags_of y) → (∀ d n args r, y ≠ YFn d n args r) → (∀ d n i vs, y ≠ YEnum d n i vs) → macro_of y = [] →
  inv (ys ++ [y]) (plus w [(x, τ)] [] [] G [] []).
Proof.
  intros Hn Hd Hs' Hr HG N1 N2 N3. apply inv_plus; try done.
  - intros m τ' H. apply elem_of_list_singleton in H as [= -> ->]. done.
  - intros m Hm. rewrite Hn in Hm. rewrite map_app. apply elem_of_app. by right.
  - intros z [Hz|[Hz|Hz]]; [|by apply elem_of_nil in Hz..]. apply elem_of_list_singleton in Hz as ->. cbn [fst].
    left. split; [|done]. left. rewrite Hd. left.
  - by intros f ns z H%elem_of_nil.
  - by intros z H%elem_of_nil.
  - intros d n args r H. by apply N1 in H.
  - intros d n i vs z zz H. by apply N2 in H.
  - rewrite N3. by intros m H%elem_of_nil.
  - intros m H%elem_of_list_singleton. subst m. right. rewrite Hn. left.
  - by intros m p H%elem_of_nil.
Qed.

Lemma step_ints : y = YInts → stepped.
Proof.
  intros Hy. unfold stepped. destruct (include_inv ys w (chars "<stddef.h>") ["size_t"] HI eq_refl) as (w1 & E1 & I1 & S1 & _).
  destruct (include_inv ys w1 (chars "<stdint.h>") _ I1 eq_refl) as (w2 & E2 & I2 & S2 & M2).
  exists w2. split.
  - apply inv_more; [done|by left|]. rewrite Hy. cbn [erase_decl type_names]. intros m Hm.
    repeat (apply elem_of_cons in Hm as [->|Hm];
      [first [apply S2; apply (bool_decide_unpack _); vm_compute; exact I|apply M2, S1; left]|]). by apply elem_of_nil in Hm.
  - exists 0. intros f _. rewrite Hy. cbn [groups_of all one]. by rewrite E1, E2.
Qed.
Lemma step_bool : y = YBool → stepped.
Proof.
  intros Hy. unfold stepped. destruct (include_inv ys w (chars "<stdbool.h>") ["bool"] HI eq_refl) as (w1 & E1 & I1 & S1 & _).
  exists w1. split.
  - apply inv_more; [done|by right|]. rewrite Hy. cbn [erase_decl type_names]. apply S1.
  - exists 0. intros f _. rewrite Hy. cbn [groups_of all one]. by rewrite E1.
Qed.

Lemma members_ok w' (fs : list field) : w_types w' = w_types w →
  (∀ f : field, f ∈ fs → printable (erase f.2) = true ∧ is_name f.1.2 = true ∧ lettered f.1.2 = true ∧ zst (erase f.2) = false ∧
    occurs (erase f.2) is ∧ ∀ m, m ∈ mentioned LC (erase f.2) → m ∈ mentions LC (erase_decl y)) →
  ∃ f0, ∀ f, f0 ≤ f → members f w' (map (λ f : field, map tk (c_var (erase f.2) [TkId f.1.2])) fs) =
    Some (map (λ f : field, (f.1.2, view (erase f.2))) fs).
Proof.
  intros HW. induction fs as [|x fs IH]; intros H; [by exists 0|].
  destruct IH as [f1 IH]; [intros z Hz; apply H; by right|].
  destruct (H x) as (H1 & H2 & H3 & H4 & H5 & H6); [left|].
  destruct (declared_ok w w' (field_text (erase x.2) x.1.2) (sem (erase x.2)) x.1.2 (view (erase x.2)) HW) as [f2 HD].
  - by apply field_reads.
  - intros s. apply lettered_now; [done|]. intros m Hm. by apply elem_of_list_singleton in Hm as ->.
  - by apply resolve_now.
  - exists (f1 `max` f2). intros f Hf. cbn [map members]. unfold field_text in HD.
    rewrite HD, IH by lia. by rewrite zst_complete.
Qed.

Lemma step_struct d n fs : y = YStruct d n fs → stepped.
Proof.
  intros Hy. destruct origin_now as (Ho & Hg & _). rewrite Hy in Ho, Hg. cbn [origin erase_decl good_decl] in Ho, Hg.
  destruct Ho as (nm & gs & fs0 & Ho & Hn & Hf).
  pose proof (so_type _ Hs _ Ho) as ([HND HL] & HT & HT0). destruct (so_keys _ Hs _ _ Ho eq_refl) as [HK HK'].
  assert (HE : ∀ f : field, f ∈ fs → zst (erase f.2) = false ∧ (f.1.2, erase f.2) ∈ fs0).
  { intros f Hf'. assert (H : (f.1.2, erase f.2) ∈ filter (λ f, zst f.2 = false) fs0).
    { rewrite <-Hf. apply elem_map. by exists f. }
    by apply elem_of_list_filter in H. }
  assert (HD : suffixed n ∈ declares (erase_decl y)) by (rewrite Hy; left).
  assert (HX : suffixed n ∉ std_names) by (by rewrite Hn).
  assert (Hln : lettered n = true ∧ is_name n = true).
  { rewrite <-Hn in HT, HT0, HK. split; [|done]. clear -HK HT0. by destruct n. }
  assert (HTG : n ∉ w_tags w) by (apply (fresh_tag ys y rest E w HI); rewrite Hy; left).
  destruct (typedef_now (suffixed n) (view (TStruct nm gs fs0)) n eq_refl HD HX) with (G := [n]) as [HN1 HN2];
    [by rewrite Hn|by intros; right|].
  destruct (members_ok (plus w [] [] [] [n] [] []) fs) as [f0 HM].
  { cbn. by rewrite app_nil_r. }
  { intros f Hin. destruct (HE f Hin) as [H1 H2].
    destruct (Hg (f.1.2, erase f.2)) as [H3 H4]; [apply elem_map; by exists f|].
    repeat split; try done.
    - apply HL. apply elem_map. by exists (f.1.2, erase f.2).
    - eapply (occurs_within is); [exact Ho|]. eapply W_field; [exact H2|constructor].
    - intros m Hm. rewrite Hy. cbn [erase_decl mentions]. apply elem_flat. exists (f.1.2, erase f.2). split; [|done].
      apply elem_map. by exists f. }
  eexists. split; [|exists f0; intros f Hf0; rewrite Hy; cbn [groups_of]; apply one_decl].
  - apply (inv_type (suffixed n) (view (TStruct nm gs fs0)) [n]); rewrite ?Hy; try done.
    right. exists (TStruct nm gs fs0). split; [done|]. split; [|done]. by rewrite Hn.
  - apply (unused_part ys y rest E w HI [] _ [semi]). rewrite Hy. cbn [decl_toks app]. unfold var_toks, members_toks.
    cbn [app]. rewrite <-app_assoc. done.
  - cbn [external]. rewrite !eqb_wd. rewrite !bool_decide_true by done. cbn [typedef_struct].
    change (ctok_eqb (wd n) lbrace) with false. cbn beta iota.
    rewrite name_of_wd by apply Hln. rewrite add_tag_ok by done.
    destruct (members_toks fs ++ [rbrace; wd (suffixed n)]) as [|q qs] eqn:Eq; [by destruct (members_toks fs)|].
    rewrite ctok_eqb_refl. rewrite <-Eq. clear q qs Eq. unfold struct_body.
    change [rbrace; wd (suffixed n)] with (rbrace :: [wd (suffixed n)]).
    rewrite cut_app by apply members_quiet.
    unfold members_toks. rewrite (parts_all semi (λ f : field, map tk (c_var (erase f.2) [TkId f.1.2]))).
    2: { intros x _. apply quiet_tk. }
    rewrite HM by done.
    pose proof (Hfull d n fs) as HF. rewrite <-Hy in HF. specialize (HF (now_in ys y rest E)).
    assert (HDI : distinct (map fst (map (λ f : field, (f.1.2, view (erase f.2))) fs)) = true).
    { apply bool_decide_eq_true. rewrite map_map. cbn [fst].
      assert (EQ : map (λ f : field, f.1.2) fs = map fst (filter (λ f, zst f.2 = false) fs0)) by (rewrite <-Hf, map_map; done).
      rewrite EQ. clear -HND. induction fs0 as [|f fs0 IH]; [done|]. cbn [map] in HND. apply NoDup_cons in HND as [H1 H2].
      rewrite filter_cons. case_decide; [|by apply IH]. cbn [map]. apply NoDup_cons. split; [|by apply IH].
      intros (z & Ez & Hz)%elem_map. apply elem_of_list_filter in Hz as [_ Hz]. destruct H1. apply elem_map. by exists z. }
    destruct fs as [|x fs]; [done|]. cbn [map]. cbn [map] in HDI. rewrite HDI. rewrite HN1.
    assert (EV : view (TStruct nm gs fs0) = RStruct (Some n) (map (λ f : field, (f.1.2, view (erase f.2))) (x :: fs)))
      by (by rewrite view_struct, <-Hf, map_map, <-Hn).
    rewrite EV in HN2 |- *. exact HN2.
Qed.

Lemma step_arr n t len : y = YArr n t len → stepped.
Proof.
  intros Hy. destruct origin_now as (Ho & Hg & _). rewrite Hy in Ho, Hg. cbn [origin erase_decl good_decl] in Ho, Hg.
  destruct Ho as (Ho & Hn). pose proof (so_type _ Hs _ Ho) as HZ. cbn in HZ. destruct (so_keys _ Hs _ _ Ho eq_refl) as [HK HK'].
  rewrite <-Hn in HK, HK'.
  assert (HD : n ∈ declares (erase_decl y)) by (rewrite Hy; left).
  destruct (typedef_now n (view (TArr (erase t) len)) _ Hn HD HK' HK) with (G := @nil string) as [HN1 HN2]; [by intros; right|].
  rewrite plus_nil in HN2.
  assert (HM : ∀ m, m ∈ mentioned LC (erase t) → m ∈ mentions LC (erase_decl y)) by (by rewrite Hy).
  assert (HR : resolve (w_types w) (CArr len (sem (erase t))) = Some (RArr len (view (erase t)))).
  { cbn [resolve]. rewrite resolve_now; [|by eapply (occurs_within is); [exact Ho|do 2 constructor]|done].
    by rewrite zst_complete. }
  destruct (declared_ok w w (array_text (erase t) len) _ "idx" (RArr len (view (erase t))) eq_refl (array_reads len (erase t) Hg)) as [f0 HDe].
  { intros s. apply lettered_now; [done|]. intros m Hm. by apply elem_of_list_singleton in Hm as ->. }
  { exact HR. }
  eexists. split; [|exists f0; intros f Hf0; rewrite Hy; cbn [groups_of]; apply one_decl].
  - apply (inv_type n (view (TArr (erase t) len)) []); rewrite ?Hy; try done.
    right. exists (TArr (erase t) len). split; [done|]. split; [|done]. by rewrite Hn.
  - apply (unused_part ys y rest E w HI [] _ [semi]). rewrite Hy. cbn [decl_toks app]. rewrite <-!app_assoc. cbn [app]. done.
  - cbn [external]. rewrite !eqb_wd. rewrite !bool_decide_true by done. cbn [typedef_struct].
    rewrite ctok_eqb_refl. unfold struct_body. rewrite <-app_assoc. cbn [app].
    change (map tk (array_text (erase t) len) ++ semi :: [rbrace; wd n])
      with (map tk (array_text (erase t) len) ++ [semi] ++ rbrace :: [wd n]).
    rewrite app_assoc. rewrite cut_app; [|apply no_app; [apply quiet_tk|by repeat constructor]].
    change (map tk (array_text (erase t) len) ++ [semi]) with (map tk (array_text (erase t) len) ++ semi :: []).
    rewrite parts_one by apply quiet_tk. cbn [parts app fmap option_fmap option_map members].
    rewrite HDe by done. change (complete (RArr len (view (erase t)))) with true. cbn [map fst].
    change (distinct ["idx"]) with true. cbn beta iota. rewrite HN1. exact HN2.
Qed.

Lemma step_alias d n t : y = YAlias d n t → stepped.
Proof.
  intros Hy. destruct origin_now as (Ho & Hg & Ha). rewrite Hy in Ho, Hg, Ha. cbn [origin erase_decl good_decl alias_name_ok] in Ho, Hg, Ha.
  destruct Ho as (m & Hn & Ho). destruct (so_keys _ Hs _ _ Ho eq_refl) as [HK HK']. cbn [short] in HK, HK'. rewrite <-Hn in HK, HK'.
  assert (HD : n ∈ declares (erase_decl y)) by (rewrite Hy; left).
  destruct (typedef_now n (view (erase t)) _ Hn HD HK' HK) with (G := @nil string) as [_ HN2]; [by intros; right|].
  rewrite plus_nil in HN2.
  assert (HM : ∀ m, m ∈ mentioned LC (erase t) → m ∈ mentions LC (erase_decl y)) by (by rewrite Hy).
  assert (HR : resolve (w_types w) (sem (erase t)) = Some (view (erase t))).
  { apply resolve_now; [by eapply (occurs_within is); [exact Ho|do 2 constructor]|done]. }
  destruct (declared_ok w w (alias_text n (erase t)) _ n (view (erase t)) eq_refl (alias_reads n (erase t) Hg Ha)) as [f0 HDe].
  { intros s. unfold alias_text. rewrite idents_app, elem_of_app. intros [Hm|Hm]; [by apply (lettered_now (erase t) []) in Hm; [|done|intros ? ?%elem_of_nil]|].
    by apply elem_of_list_singleton in Hm as ->. }
  { exact HR. }
  eexists. split; [|exists f0; intros f Hf0; rewrite Hy; cbn [groups_of]; apply one_decl].
  - apply (inv_type n (view (erase t)) []); rewrite ?Hy; try done.
    right. exists (TAlias m (erase t)). split; [done|]. split; [|done]. by rewrite Hn.
  - apply (unused_part ys y rest E w HI [] _ [semi]). rewrite Hy. done.
  - cbn [external]. rewrite eqb_wd, bool_decide_true by done. rewrite (HDe f Hf0).
    assert (HH : ∃ b ts, map tk (alias_text n (erase t)) = wd b :: ts ∧ is_type b = true).
    { destruct (alias_reads n (erase t) Hg Ha) as [f1 HR1]. specialize (HR1 (S f1) ltac:(lia)). cbn [parse_decl] in HR1.
      destruct (alias_text n (erase t)) as [|[b| | | | | | |] ts]; try discriminate HR1.
      exists b, (map tk ts). split; [done|]. by destruct (is_type b). }
    destruct HH as (b & ts & -> & Hb). rewrite !eqb_wd. rewrite !bool_decide_false; [done|by intros ->..].
Qed.

Lemma step_opaque d n : y = YOpaque d n → stepped.
Proof.
  intros Hy. destruct origin_now as (Ho & _ & _). rewrite Hy in Ho. cbn [origin] in Ho.
  destruct (so_keys _ Hs _ _ Ho eq_refl) as [HK HK']. cbn [short] in HK, HK'. pose proof (so_type _ Hs _ Ho) as [Hi Hi0].
  assert (HD : suffixed n ∈ declares (erase_decl y)) by (rewrite Hy; left).
  assert (Hln : lettered n = true) by (destruct n; [done|exact HK]).
  assert (HTG : n ∉ w_tags w) by (apply (fresh_tag ys y rest E w HI); rewrite Hy; left).
  destruct (typedef_now (suffixed n) (view (TOpaque n)) n eq_refl HD HK' HK) with (G := [n]) as [HN1 HN2]; [by intros; right|].
  eexists. split; [|exists 0; intros f _; rewrite Hy; cbn [groups_of]; apply one_decl].
  - apply (inv_type (suffixed n) (view (TOpaque n)) [n]); rewrite ?Hy; try done.
    right. exists (TOpaque n). done.
  - apply (unused_part ys y rest E w HI [] _ [semi]). rewrite Hy. done.
  - cbn [external]. rewrite !eqb_wd. rewrite !bool_decide_true by done. cbn [typedef_struct].
    change (ctok_eqb (wd n) lbrace) with false. cbn beta iota.
    rewrite name_of_wd by done. rewrite add_tag_ok by done. rewrite HN1. exact HN2.
Qed.

Lemma param_names_ok (args : list (string * xty)) :
  param_names (map (λ a, (sem a.2, Some a.1)) (map (λ a, (a.1, erase a.2)) args)) = Some (map fst args).
Proof. induction args as [|a args IH]; [done|]. cbn [map param_names fst snd]. by rewrite IH. Qed.

Lemma step_fn d n args r : y = YFn d n args r → stepped.
Proof.
  intros Hy. destruct origin_now as (Ho & Hg & _). rewrite Hy in Ho, Hg. cbn [origin erase_decl good_decl] in Ho, Hg.
  destruct Hg as (G1 & G2 & G3). set (args' := map (λ a : string * xty, (a.1, erase a.2)) args) in *.
  destruct (so_funs _ Hs _ _ _ Ho) as (HK & HK' & [HND HL] & HA).
  assert (HF : map fst args' = map fst args) by (unfold args'; by rewrite map_map).
  rewrite HF in HND, HL.
  assert (HD : n ∈ declares (erase_decl y)) by (rewrite Hy; left).
  assert (Hfn : n ∉ ordinary w) by (by apply (fresh_declared ys y rest E w HI)).
  assert (Hocc : ∀ t, t ∈ item_types (IFn n args' (erase r)) → occurs t is).
  { intros t Ht. exists (IFn n args' (erase r)), t. split; [done|]. split; [done|constructor]. }
  assert (HR : resolve (w_types w) (CFun (sem (erase r)) (map (λ a, (sem a.2, Some a.1)) args')) =
    Some (RFun (view (erase r)) (map (λ a, view a.2) args'))).
  { apply resolve_fun.
    - apply resolve_now.
      + apply Hocc. cbn [item_types]. apply elem_of_app. right. left.
      + intros m Hm. rewrite Hy. cbn [erase_decl mentions]. fold args'. apply elem_of_app. by right.
    - apply Forall2_fmap, Forall_Forall2_diag, Forall_forall. intros a Ha. cbn [fst]. split.
      + apply resolve_now.
        * apply Hocc. cbn [item_types]. apply elem_of_app. left. apply elem_map. by exists a.
        * intros m Hm. rewrite Hy. cbn [erase_decl mentions]. fold args'. apply elem_of_app. left. apply elem_flat. by exists a.
      + apply void_view. by apply HA. }
  destruct (fn_reads n args' (erase r) G1 G2 G3) as [f0 HRD].
  assert (HU : untoks (map tk (fn_text n args' (erase r))) = Some (fn_text n args' (erase r))).
  { apply untoks_tk. intros s. unfold fn_text. apply lettered_now.
    - intros m Hm. rewrite Hy. cbn [erase_decl mentions]. fold args'. apply elem_of_app. by right.
    - intros m Hm. apply elem_of_cons in Hm as [->|Hm]; [done|]. change (m ∈ idents (params_text args' ++ [TkRp])) in Hm.
      rewrite idents_app, elem_of_app in Hm. destruct Hm as [Hm|Hm]; [|by apply elem_of_nil in Hm].
      unfold params_text in Hm. destruct args' as [|a0 args0] eqn:Ea; [by apply elem_of_list_singleton in Hm as ->|]. rewrite <-Ea in *.
      apply idents_commas in Hm as (x & Hx & Hm). apply elem_map in Hx as (a & -> & Ha).
      revert Hm. apply lettered_now.
      + intros k Hk. rewrite Hy. cbn [erase_decl mentions]. fold args'. apply elem_of_app. left. apply elem_flat. exists a. by rewrite Ea in *.
      + intros k Hk. apply elem_of_list_singleton in Hk as ->. apply HL. rewrite <-HF. apply elem_map. by exists a. }
  assert (HP : negb (existsb (λ x, in_strings x (map fst (w_types w))) (map fst args)) = true).
  { apply negb_true_iff, not_true_iff_false. intros (x & Hx%elem_of_list_In & Ht)%existsb_exists. apply in_strings_spec in Ht.
    rewrite <-HF in Hx. apply elem_map in Hx as (a & -> & Ha). destruct (HA a Ha) as (_ & H1 & H2).
    destruct (find_fst _ _ Ht) as (τ & _ & Hin). destruct (i_right _ _ HI _ _ Hin) as [[? _]|(t & Hto & Hk & _)]; [done|].
    by apply (H2 t). }
  exists (plus w [] [(n, proto_of args r)] [] [] [] []). split.
  - apply inv_plus; rewrite ?Hy; try done; try (by intros ? ?%elem_of_nil); try (by intros ? ? ?%elem_of_nil).
    + intros x [Hx|[Hx|Hx]]; [by apply elem_of_nil in Hx| |by apply elem_of_nil in Hx].
      apply elem_of_list_singleton in Hx as ->. left. split; [|done]. left. left.
    + by intros ? ? ? ?%elem_of_nil.
    + intros d' n' args'' r' [= <- <- <- <-]. rewrite find_app_r; [cbn [find]; by rewrite String.eqb_refl|].
      intros Hx. apply Hfn. unfold ordinary. rewrite !elem_of_app. tauto.
    + intros n' p [= -> ->]%elem_of_list_singleton. eauto.
  - exists f0. intros f Hf. rewrite Hy. cbn [groups_of]. fold args'. apply one_decl.
    + apply (unused_part ys y rest E w HI [] _ [semi]). rewrite Hy. done.
    + specialize (HRD f Hf).
      assert (HH : ∃ b ts, map tk (fn_text n args' (erase r)) = wd b :: ts ∧ is_type b = true).
      { clear -HRD. destruct f as [|f]; [discriminate HRD|]. cbn [parse_decl] in HRD.
        destruct (fn_text n args' (erase r)) as [|[b| | | | | | |] ts]; try discriminate HRD.
        exists b, (map tk ts). split; [done|]. by destruct (is_type b). }
      destruct HH as (b & ts & Eb & Hb). unfold external. rewrite Eb at 1. rewrite !eqb_wd.
      rewrite bool_decide_false by (by intros ->). rewrite bool_decide_false by (by intros ->).
      unfold prototype. rewrite HU, HRD, HR. unfold args' at 1. rewrite param_names_ok.
      assert (distinct (map fst args) = true) as -> by (by apply bool_decide_eq_true). rewrite HP. cbn [andb].
      rewrite add_fun_ok by done. do 5 f_equal. unfold proto_of. f_equal.
      clear. unfold args'. induction args as [|a args IH]; [done|]. cbn [map zip zip_with fst snd]. by rewrite IH.
Qed.

Lemma step_const d n t u v : y = YConst d n t u v → stepped.
Proof.
  intros Hy. destruct (expected false LC (YConst d n t u v)) as [|[| |x b] [|]] eqn:EE; try discriminate EE.
  assert (x = chars n) as -> by (by injection EE).
  assert (HF : chars n ∉ map fst (w_macros w)) by (apply (fresh_macro ys y rest E w HI); rewrite Hy; left).
  exists (plus w [] [] [] [] [] [(chars n, b)]). split.
  - apply inv_plus; rewrite ?Hy; try done; try (by intros ? ?%elem_of_nil); try (by intros ? ? ?%elem_of_nil).
    + intros x [Hx|[Hx|Hx]]; by apply elem_of_nil in Hx.
    + by intros ? ? ? ?%elem_of_nil.
    + intros m. unfold macro_of. rewrite EE. intros Hm. apply elem_of_app. by right.
  - exists 0. intros f _. rewrite Hy. unfold groups_of. rewrite EE. cbn [all one]. by rewrite add_macro_ok.
Qed.

Lemma step_enum d n i vs : y = YEnum d n i vs → stepped.
Proof.
  intros Hy. pose proof (now_in ys y rest E) as Hin. destruct origin_now as (Ho & _ & Ha). rewrite Hy in Ho, Ha. cbn [origin erase_decl alias_name_ok] in Ho, Ha.
  destruct (so_keys _ Hs _ _ Ho eq_refl) as [HK HK']. cbn [short] in HK, HK'. pose proof (so_type _ Hs _ Ho) as (Hi & Hin' & Hi0).
  assert (HD : suffixed n ∈ declares (erase_decl y)) by (rewrite Hy; left).
  assert (Hln : lettered n = true) by (destruct n; [done|exact HK]).
  assert (HTG : n ∉ w_tags w) by (apply (fresh_tag ys y rest E w HI); rewrite Hy; left).
  assert (HEN : map fst (valued n vs) = enum_names y) by (rewrite Hy; apply valued_fst).
  assert (HNDe : NoDup (map fst (valued n vs))).
  { rewrite HEN. pose proof (nf_once _ _ Hfresh) as HN. rewrite E, flat_map_app, NoDup_app in HN. destruct HN as (_ & _ & HN).
    cbn [flat_map] in HN. by apply NoDup_app in HN as (? & _). }
  set (w1 := plus w [] [] (valued n vs) [n] [] []).
  assert (HES : ∀ rest', enum_spec w (wd n :: lbrace :: (flat_map (variant_toks LC n) vs ++ rbrace :: rest')) = Some (w1, REnum n, rest')).
  { intros rest'. cbn [enum_spec]. rewrite ctok_eqb_refl, name_of_wd by done.
    rewrite cut_app by apply variants_quiet. rewrite add_tag_ok by done.
    assert (flat_map (variant_toks LC n) vs = flat_map (λ v, variant_part n v ++ [Pn 44]) vs) as ->.
    { clear. induction vs as [|v vs IH]; [done|]. cbn [flat_map]. by rewrite variant_part_toks, IH. }
    rewrite (parts_all (Pn 44) (variant_part n)) by (intros x _; apply variant_part_quiet).
    pose proof (nf_enums _ _ Hfresh d n i vs) as HV. rewrite <-Hy in HV. specialize (HV Hin).
    assert (HNN : ∀ v, v ∈ vs → ∃ x, variant_name n v.1.2 = chars x ∧ lettered x = true ∧ is_name x = true).
    { intros v Hv. eapply (nf_names _ _ Hfresh); [rewrite <-Hy; exact Hin|done]. }
    pose proof (enumerators_part n vs HNN 0%Z) as HEP.
    fold (valued n vs) in HEP. destruct (map (variant_part n) vs) as [|p ps] eqn:Ep; [by destruct vs|]. rewrite HEP. clear p ps Ep HEP.
    rewrite add_consts_ok; [by rewrite plus_plus|done|].
    intros x Hx. rewrite ordinary_plus. intros [H|[H|[H|H]]]; [|by apply elem_of_nil in H..].
    revert H. apply (fresh_enum ys y rest E w HI). by rewrite <-HEN. }
  assert (HU : ∀ b c a, decl_toks false LC y = a ++ b ++ c → existsb (uses w) b = false)
    by (intros; by eapply (unused_part ys y rest E w HI)).
  assert (HFX : suffixed n ∉ ordinary w1).
  { unfold w1. rewrite ordinary_plus. intros [H|[H|[H|H]]]; [|by apply elem_of_nil in H..|].
    - by eapply (fresh_declared ys y rest E w HI).
    - rewrite HEN in H. destruct (nf_other _ _ Hfresh (suffixed n)) as [_ []].
      + apply elem_flat. by exists y.
      + apply elem_flat. by exists y. }
  assert (HINV : ∀ τ, τ = view (TEnum n i) → inv (ys ++ [y]) (plus w1 [(suffixed n, τ)] [] [] [] [] [])).
  { intros τ ->. unfold w1. rewrite plus_plus. cbn [app]. rewrite !app_nil_r. apply inv_plus; rewrite ?Hy; try done;
      try (by intros ? ?%elem_of_nil); try (by intros ? ? ? ?%elem_of_nil).
    - intros m τ H. apply elem_of_list_singleton in H as [= -> ->]. right. by exists (TEnum n i).
    - intros m Hm. rewrite map_app. apply elem_of_app. by right.
    - intros x [Hx|[Hx|Hx]]; [|by apply elem_of_nil in Hx|]; left.
      + apply elem_of_list_singleton in Hx as ->. split; [|done]. left. left.
      + rewrite HEN, Hy in Hx. split; [by right|]. destruct (nf_other _ _ Hfresh x); [|done].
        apply elem_flat. exists y. by rewrite Hy in *.
    - intros d' n' i' vs' x z [= <- <- <- <-] Hv. rewrite find_app_r; [by apply find_in|].
      intros Hx. assert (Hx' : x ∈ enum_names y) by (rewrite <-HEN; apply elem_map; by exists (x, z)).
      apply (fresh_enum ys y rest E w HI) in Hx'. apply Hx'. unfold ordinary. rewrite !elem_of_app. tauto.
    - intros m H%elem_of_list_singleton. subst m. right. left.
    - by intros m p H%elem_of_nil. }
  assert (HNS : name_of (wd (suffixed n)) = Some (suffixed n)) by (apply name_of_wd; [done|apply suffixed_name]).
  destruct i as [i|].
  - eexists. split; [apply HINV; reflexivity|].
    set (ts := alias_text (suffixed n) (TInt i)).
    destruct (declared_ok w w1 ts _ (suffixed n) (view (TInt i)) ltac:(cbn; by rewrite app_nil_r) (alias_reads (suffixed n) (TInt i) eq_refl Ha)) as [f0 HDe].
    { intros s Hm. apply elem_of_cons in Hm as [->|Hm]; [by destruct i|]. by apply elem_of_list_singleton in Hm as ->. }
    { assert (HS : ∀ s, s ∈ std_names → s ∈ mentioned LC (TInt i) → s ∉ known LC → in_strings s base_types = false →
        resolve (w_types w) (CBase s) = Some (RBase s)).
      { intros s H1 H2 H3 H4. cbn [resolve]. rewrite H4. destruct (mention ys y rest E w HI s) as [?|H5]; [by rewrite Hy|done|].
        destruct (find_fst _ _ H5) as (τ & -> & Hin2). destruct (i_right _ _ HI _ _ Hin2) as [[_ ->]|(u & Hu & Hk & _)]; [done|].
        by destruct (so_keys _ Hs _ _ Hu Hk) as [_ []]. }
      destruct i; try done; (apply HS; [| | |reflexivity]; apply (bool_decide_unpack _); vm_compute; exact I). }
    exists f0. intros f Hf. rewrite Hy. cbn [groups_of all one].
    rewrite (HU (enum_toks LC n vs) [semi; wd "typedef"; wd (suffixed (int_name i)); wd (suffixed n); semi] []) by (by rewrite Hy).
    assert (HE1 : external f w (enum_toks LC n vs) = Some w1).
    { unfold enum_toks. cbn [external]. rewrite !eqb_wd. rewrite bool_decide_false by done. rewrite bool_decide_true by done.
      change [rbrace] with (rbrace :: []). by rewrite HES. }
    rewrite HE1.
    assert (HUW : existsb (uses w1) [wd "typedef"; wd (suffixed (int_name i)); wd (suffixed n)] = false).
    { pose proof (HU [wd "typedef"; wd (suffixed (int_name i)); wd (suffixed n)] [semi] (enum_toks LC n vs ++ [semi])) as HUU.
      rewrite Hy in HUU. specialize (HUU ltac:(cbn [decl_toks]; by rewrite <-app_assoc)). revert HUU.
      unfold uses, w1, plus. cbn [w_macros]. by rewrite app_nil_r. }
    rewrite HUW. cbn [external]. rewrite !eqb_wd. rewrite bool_decide_true by done.
    rewrite bool_decide_false by (by destruct i). rewrite bool_decide_false by (by destruct i).
    specialize (HDe f Hf). change (map tk ts) with [wd (suffixed (int_name i)); wd (suffixed n)] in HDe. rewrite HDe.
    by rewrite add_type_ok.
  - eexists. split; [apply HINV; reflexivity|]. exists 0. intros f _. rewrite Hy. cbn [groups_of]. apply one_decl.
    + eapply (HU _ [semi] []). rewrite Hy. cbn [decl_toks app]. by rewrite <-app_assoc.
    + cbn [external]. rewrite !eqb_wd. rewrite bool_decide_true by done. unfold enum_toks. cbn [app]. rewrite !eqb_wd.
      rewrite bool_decide_false by done. rewrite bool_decide_true by done. rewrite <-app_assoc. cbn [app].
      rewrite HES, HNS. by rewrite add_type_ok.
Qed.

Lemma step : stepped.
Proof.
  assert (H : ∀ z, y = z → stepped); [|by apply (H y)].
  intros [| |d n fs|n t len|d n i vs|d n t|d n|n r args|d n args r|d n t u v] Hy.
  - by apply step_ints.
  - by apply step_bool.
  - by eapply step_struct.
  - by eapply step_arr.
  - by eapply step_enum.
  - by eapply step_alias.
  - by eapply step_opaque.
  - exfalso. by eapply (Hdel y); [eapply now_in|].
  - by eapply step_fn.
  - by eapply step_const.
Qed.
End One.

(** ** All of them *)

Lemma all_app f w a b : all f w (a ++ b) = match all f w a with Some w => all f w b | None => None end.
Proof. revert w. induction a as [|x a IH]; intros w; [done|]. cbn [app all]. destruct (one f w x); [apply IH|done]. Qed.

Lemma steps ys rest w : zs = ys ++ rest → inv ys w →
  ∃ w', inv zs w' ∧ ∃ f0, ∀ f, f0 ≤ f → all f w (flat_map groups_of rest) = Some w'.
Proof.
  revert ys w. induction rest as [|y rest IH]; intros ys w E HI.
  { rewrite app_nil_r in E. subst ys. exists w. split; [done|]. by exists 0. }
  destruct (step ys y rest E w HI) as (w1 & I1 & f1 & H1).
  destruct (IH (ys ++ [y]) w1) as (w2 & I2 & f2 & H2); [by rewrite <-app_assoc|done|].
  exists w2. split; [done|]. exists (f1 `max` f2). intros f Hf. cbn [flat_map]. rewrite all_app, H1, H2 by lia. done.
Qed.
End Step.
