(** C89: [safer_ffi::libc] has each C type, [::libc]'s where it has one. *)
From Coq Require Import NArith List Bool Lia.
From stdpp Require Import base strings list sets.
From Verif Require Import LibcModel LibcSpec.
Import stdpp.list.
Open Scope string_scope.

(** ** Lookup *)
Lemma filter_key (its : list (key * ent)) k e :
  NoDup its.*1 → (k, e) ∈ its → filter (λ i, i.1 = k) its = [(k, e)].
Proof.
  induction its as [|[k' e'] its IH]; intros ND H; [by apply elem_of_nil in H|].
  rewrite fmap_cons in ND. apply NoDup_cons in ND as [NI ND].
  apply elem_of_cons in H as [[= -> ->]|H].
  - rewrite filter_cons_True by done. f_equal.
    destruct (filter _ its) as [|i r] eqn:E; [done|exfalso].
    assert (i ∈ filter (λ i, i.1 = k') its) as X by (rewrite E; left).
    apply elem_of_list_filter in X as [X1 X2]. apply NI. cbn. rewrite <- X1.
    by apply elem_of_list_fmap_1.
  - rewrite filter_cons_False; [by apply IH|].
    cbn. intros ->. apply NI. apply elem_of_list_fmap. by exists (k, e).
Qed.

Lemma filter_nokey (its : list (key * ent)) k :
  k ∉ its.*1 → filter (λ i, i.1 = k) its = [].
Proof.
  intros H. destruct (filter _ its) as [|i r] eqn:E; [done|exfalso].
  assert (i ∈ filter (λ i, i.1 = k) its) as X by (rewrite E; left).
  apply elem_of_list_filter in X as [X1 X2]. apply H. rewrite <- X1.
  by apply elem_of_list_fmap_1.
Qed.

Lemma lookup_item m k e :
  NoDup (items m).*1 → (k, e) ∈ items m → lookup_in m k = Found e.
Proof. intros. unfold lookup_in. by rewrite (filter_key _ _ e). Qed.

Lemma lookup_glob its g k :
  k ∉ its.*1 →
  lookup_in (Modl its [g]) k = match g k with Some e => Found e | None => Missing end.
Proof. intros. unfold lookup_in. cbn. rewrite filter_nokey by done. by destruct (g k). Qed.

Lemma lookup_found_item m k e e' :
  (k, e) ∈ items m → lookup_in m k = Found e' → (k, e') ∈ items m.
Proof.
  intros H. unfold lookup_in.
  assert ((k, e) ∈ filter (λ i, i.1 = k) (items m)) as X
    by (by apply elem_of_list_filter).
  destruct (filter _ (items m)) as [|[k1 e1] [|? ?]] eqn:E; [by apply elem_of_nil in X| |done].
  intros [= <-]. apply elem_of_list_singleton in X as [= <- <-]. done.
Qed.

Lemma lookup_two m k e e' e'' :
  e ≠ e' → (k, e) ∈ items m → (k, e') ∈ items m → lookup_in m k ≠ Found e''.
Proof.
  intros N H H'. unfold lookup_in.
  assert ((k, e) ∈ filter (λ i, i.1 = k) (items m)) as X by (by apply elem_of_list_filter).
  assert ((k, e') ∈ filter (λ i, i.1 = k) (items m)) as X' by (by apply elem_of_list_filter).
  destruct (filter _ (items m)) as [|[k1 e1] [|? ?]] eqn:E; [by apply elem_of_nil in X| |done].
  apply elem_of_list_singleton in X, X'. congruence.
Qed.

Lemma mapM_all {A B} (f : A → option B) (g : A → B) l :
  (∀ x, x ∈ l → f x = Some (g x)) → mapM f l = Some (g <$> l).
Proof.
  induction l as [|x l IH]; intros H; [done|]. cbn.
  rewrite (H x) by left. cbn. rewrite IH; [done|]. intros y Hy. apply H. by right.
Qed.

(** ** The modules *)
Section M.
Context (L : libc) (l : list entry).

Lemma expand_plain n : outside l → ∀ e, e ∈ l → expand l n e.2 = Some (plain e.2).
Proof.
  intros O e He. unfold outside in O. rewrite Forall_forall in O. specialize (O e He).
  destruct (e.2) as [s|s] eqn:F; [|by destruct n].
  destruct n; unfold expand; fold expand.
  all: destruct (list_find (λ e : string * fty, e.1 = s) l) as [[i x]|] eqn:LF; [exfalso|done].
  all: apply list_find_Some in LF as (X1 & X2 & _); apply O; rewrite <- X2.
  all: apply elem_of_list_fmap_1; by eapply elem_of_list_lookup_2.
Qed.

Definition fb_items : list (key * ent) := (λ e : entry, ((NT, e.1), EType (plain e.2))) <$> l.

Lemma fallback_is : outside l → fallback l = Some (Modl fb_items []).
Proof.
  intros O. unfold fallback.
  rewrite (mapM_all _ (λ e : entry, ((NT, e.1), EType (plain e.2)))); [done|].
  intros e He. by rewrite expand_plain.
Qed.

Lemma nodup_ns {B} (ns : nspace) (f : entry → B) :
  NoDup l.*1 → NoDup (((λ e : entry, ((ns, e.1), f e)) <$> l).*1).
Proof.
  intros ND. rewrite <- list_fmap_compose.
  change (_ ∘ _) with ((λ n : string, (ns, n)) ∘ (fst : entry → string)).
  rewrite list_fmap_compose. apply NoDup_fmap_2; [|done]. by intros ?? [= ->].
Qed.

Lemma nodup_ns_inv {B} (ns : nspace) (f : entry → B) :
  NoDup (((λ e : entry, ((ns, e.1), f e)) <$> l).*1) → NoDup l.*1.
Proof.
  rewrite <- list_fmap_compose.
  change (_ ∘ _) with ((λ n : string, (ns, n)) ∘ (fst : entry → string)).
  rewrite list_fmap_compose. apply NoDup_fmap_1.
Qed.

Lemma real_nt n :
  lookup_in (real_libc L l) (NT, n) = if L NT n then Found (EType (TLibc n)) else Missing.
Proof.
  unfold real_libc. rewrite lookup_glob.
  - unfold libc_glob. cbn. by destruct (L NT n).
  - rewrite <- list_fmap_compose. intros H. apply elem_of_list_fmap in H as (e & [=] & _).
Qed.

Lemma real_nv e : NoDup l.*1 → e ∈ l → lookup_in (real_libc L l) (NV, e.1) = Found EUnit.
Proof.
  intros ND He. apply lookup_item.
  - by apply (nodup_ns NV (λ _, EUnit)).
  - cbn. apply elem_of_list_fmap. by exists e.
Qed.

Definition uses_of (e : entry) : list (key * ent) :=
  if L NT e.1 then [((NT, e.1), EType (TLibc e.1)); ((NV, e.1), EUnit)]
  else [((NV, e.1), EUnit)].

Lemma import_is e : NoDup l.*1 → e ∈ l → import (real_libc L l) e.1 = Some (uses_of e).
Proof.
  intros ND He. unfold import, uses_of. rewrite real_nt, real_nv by done.
  by destruct (L NT e.1).
Qed.

Definition h_items : list (key * ent) :=
  ((NT, "real_libc"), EMod "real_libc") :: ((NT, "fallback"), EMod "fallback")
    :: concat (uses_of <$> l).

Lemma helper_is :
  outside l → NoDup l.*1 →
  helper L l = Some (Modl h_items [glob_of (Modl fb_items [])]).
Proof.
  intros O ND. unfold helper. rewrite fallback_is by done. cbn.
  rewrite (mapM_all _ uses_of); [done|]. intros e He. by apply import_is.
Qed.

End M.

Lemma in_uses L l k x :
  (k, x) ∈ concat (uses_of L <$> l) ↔ ∃ e, e ∈ l ∧ (k, x) ∈ uses_of L e.
Proof.
  rewrite elem_of_list_In, in_concat. split.
  - intros (u & H1 & H2). apply elem_of_list_In in H1, H2.
    apply elem_of_list_fmap in H1 as (e & -> & He). eauto.
  - intros (e & He & H). exists (uses_of L e). rewrite <- !elem_of_list_In.
    split; [|done]. by apply elem_of_list_fmap_1.
Qed.

Lemma uses_key L e k x : (k, x) ∈ uses_of L e → k.2 = e.1 ∧ (k.1 = NT → L NT e.1 = true).
Proof.
  unfold uses_of. destruct (L NT e.1) eqn:E; intros H; repeat (apply elem_of_cons in H as [[= -> ->]|H]; [by split|]);
    by apply elem_of_nil in H.
Qed.

Lemma in_uses_key L l k : k ∈ (concat (uses_of L <$> l)).*1 → k.2 ∈ l.*1.
Proof.
  intros H. apply elem_of_list_fmap in H as ([k' x] & -> & H).
  apply in_uses in H as (e & He & H). cbn. apply uses_key in H as [-> _].
  by apply elem_of_list_fmap_1.
Qed.

Lemma nodup_uses L l : NoDup l.*1 → NoDup (concat (uses_of L <$> l)).*1.
Proof.
  induction l as [|e l IH]; intros ND; [constructor|].
  rewrite fmap_cons in ND. apply NoDup_cons in ND as [NI ND].
  cbn. rewrite fmap_app. apply NoDup_app. split; [|split; [|by apply IH]].
  - unfold uses_of. destruct (L NT e.1); cbn; repeat constructor; set_solver.
  - intros k H1 H2. apply in_uses_key in H2.
    apply elem_of_list_fmap in H1 as ([k' x] & -> & H1). apply uses_key in H1 as [H1 _].
    cbn in H2. rewrite H1 in H2. done.
Qed.

Lemma nodup_h L l :
  NoDup l.*1 → "real_libc" ∉ l.*1 → "fallback" ∉ l.*1 → NoDup (h_items L l).*1.
Proof.
  intros ND R F. unfold h_items. cbn. constructor; [|constructor; [|by apply nodup_uses]].
  - intros H. apply elem_of_cons in H as [H|H]; [done|]. by apply in_uses_key in H.
  - intros H. by apply in_uses_key in H.
Qed.

Lemma alias_is L l e :
  outside l → NoDup l.*1 → "real_libc" ∉ l.*1 → "fallback" ∉ l.*1 → e ∈ l →
  outer_alias (Modl (h_items L l) [glob_of (Modl (fb_items l) [])]) e.1
  = Some ((NT, e.1), EType (chosen (L NT) e)).
Proof.
  intros O ND R F He. unfold outer_alias, chosen.
  destruct (L NT e.1) eqn:E.
  - rewrite (lookup_item _ _ (EType (TLibc e.1))); [done|by apply nodup_h|].
    cbn. right. right. apply in_uses. exists e. split; [done|]. unfold uses_of. rewrite E. left.
  - rewrite lookup_glob.
    + unfold glob_of. rewrite (lookup_item _ _ (EType (plain e.2))); [done| |].
      * cbn. by apply (nodup_ns l NT (λ e, EType (plain e.2))).
      * cbn. apply elem_of_list_fmap. by exists e.
    + unfold h_items. cbn. intros H.
      apply elem_of_cons in H as [[= H]|H].
      { apply R. rewrite <- H. by apply elem_of_list_fmap_1. }
      apply elem_of_cons in H as [[= H]|H].
      { apply F. rewrite <- H. by apply elem_of_list_fmap_1. }
      apply elem_of_list_fmap in H as ([k x] & Hk & H). cbn in Hk. subst k.
      apply in_uses in H as (e' & He' & H). apply uses_key in H as [H1 H2]. cbn in *.
      rewrite H1, H2 in E by done. done.
Qed.

Definition out_items (L : libc) (l : list entry) : list (key * ent) :=
  (λ e : entry, ((NT, e.1), EType (chosen (L NT) e))) <$> l.

Lemma mod_is L l :
  outside l → NoDup l.*1 → (∀ n, n ∈ reserved → n ∉ l.*1) →
  libc_mod L l = Some (CrateMod (out_items L l) [((NT, "helper"), EMod "helper")]).
Proof.
  intros O ND RS.
  assert ("real_libc" ∉ l.*1) as R by (apply RS; set_solver).
  assert ("fallback" ∉ l.*1) as F by (apply RS; set_solver).
  assert ("helper" ∉ l.*1) as H by (apply RS; set_solver).
  unfold libc_mod. rewrite fallback_is by done. cbn.
  rewrite helper_is by done. cbn.
  rewrite (mapM_all _ (λ e : entry, ((NT, e.1), EType (chosen (L NT) e))))
    by (intros e He; by apply alias_is).
  cbn. unfold no_clash.
  rewrite !bool_decide_eq_true_2; [done|..].
  - cbn. rewrite fmap_app. apply NoDup_app.
    split; [by apply (nodup_ns l NT (λ e, EType (chosen (L NT) e)))|]. split.
    + intros k H1 H2. apply elem_of_list_singleton in H2. cbn in H2. subst k.
      rewrite <- list_fmap_compose in H1. apply elem_of_list_fmap in H1 as (e & [= H1] & He).
      apply H. rewrite H1. by apply elem_of_list_fmap_1.
    + cbn. repeat constructor. set_solver.
  - by apply nodup_h.
  - by apply (nodup_ns l NV (λ _, EUnit)).
  - by apply (nodup_ns l NT (λ e, EType (plain e.2))).
Qed.

(** ** C89 *)

(** Whatever [::libc] has, the module compiles and each of its names is
    [::libc]'s type when there is one, and its replacement when not. *)
Theorem C89_choice L l :
  outside l → NoDup l.*1 → (∀ n, n ∈ reserved → n ∉ l.*1) →
  ∃ c, libc_mod L l = Some c ∧
       ∀ n f, (n, f) ∈ l → type_of c n = Some (if L NT n then TLibc n else plain f).
Proof.
  intros O ND RS. eexists. split; [by apply mod_is|]. intros n f Hn.
  unfold type_of. rewrite (lookup_item _ _ (EType (chosen (L NT) (n, f)))); [done|..].
  - cbn. by apply (nodup_ns l NT (λ e, EType (chosen (L NT) e))).
  - cbn. apply elem_of_list_fmap. by exists (n, f).
Qed.

(** The list it is used with. *)
Lemma the_list_ok : outside the_list ∧ NoDup the_list.*1 ∧ (∀ n, n ∈ reserved → n ∉ the_list.*1).
Proof.
  split; [|split].
  - unfold outside, the_list. repeat constructor; cbn; set_solver.
  - apply (bool_decide_unpack _). vm_compute. exact I.
  - apply Forall_forall. apply (bool_decide_unpack _). vm_compute. exact I.
Qed.

Theorem C89_names L :
  ∃ c, libc_mod L the_list = Some c ∧
    type_of c "c_char" = Some (if L NT "c_char" then TLibc "c_char" else TPrim "u8") ∧
    type_of c "c_int" = Some (if L NT "c_int" then TLibc "c_int" else TCore "c_int") ∧
    type_of c "size_t" = Some (if L NT "size_t" then TLibc "size_t" else TPrim "usize") ∧
    type_of c "uintptr_t" = Some (if L NT "uintptr_t" then TLibc "uintptr_t" else TPrim "usize").
Proof.
  destruct the_list_ok as (O & ND & RS).
  destruct (C89_choice L the_list O ND RS) as (c & Hc & H). exists c. split; [done|].
  unfold the_list in H.
  repeat split; [apply (H _ (FName "u8"))|apply (H _ (FCore "c_int"))
                |apply (H _ (FName "usize"))|apply (H _ (FName "usize"))]; set_solver.
Qed.

(** When it compiles: exactly when no name is twice in the list and none is
    that of a module of the macro. *)
Lemma mapM_in {A B} (f : A → option B) l k : mapM f l = Some k → ∀ x, x ∈ l → is_Some (f x).
Proof.
  intros H x Hx. apply mapM_Some in H. apply elem_of_list_lookup in Hx as [i Hi].
  eapply Forall2_lookup_l in H as (y & _ & Hy); [|done]. eauto.
Qed.

Lemma mod_inv L l c :
  libc_mod L l = Some c →
  NoDup l.*1 ∧ (∀ n, n ∈ reserved → n ∉ l.*1) ∧
  (∀ k e, (k, e) ∈ public c ↔ (k, e) ∈ public c ∧ k.1 = NT) ∧ (public c).*1 = (λ e : entry, (NT, e.1)) <$> l.
Proof.
  unfold libc_mod. destruct (fallback l) as [fb|] eqn:Fb; [cbn|done].
  destruct (helper L l) as [h|] eqn:Hh; [cbn|done].
  destruct (mapM _ l) as [als|] eqn:Ha; [cbn|done].
  destruct (no_clash fb && _ && _ && _) eqn:NC; [|done]. intros [= <-]. cbn.
  rewrite !andb_true_iff in NC. destruct NC as [[[N1 N2] N3] N4].
  unfold no_clash in *. apply bool_decide_eq_true in N1, N2, N3, N4.
  assert (NoDup l.*1) as ND by (by apply (nodup_ns_inv l NV (λ _, EUnit))).
  assert (als.*1 = (λ e : entry, (NT, e.1)) <$> l) as K.
  { clear -Ha. apply mapM_Some in Ha. induction Ha as [|e x l als Hx _ IH]; [done|].
    rewrite !fmap_cons, IH. f_equal. unfold outer_alias in Hx.
    destruct (lookup_in h (NT, e.1)) as [[]| |]; by simplify_eq. }
  split; [done|]. split; [|split; [|done]].
  - assert (∃ its g, h = Modl (((NT, "real_libc"), EMod "real_libc") :: ((NT, "fallback"), EMod "fallback") :: its) [g])
      as (its & g & ->).
    { unfold helper in Hh. rewrite Fb in Hh. cbn in Hh.
      destruct (mapM _ l) as [u|]; [|done]. cbn in Hh. injection Hh as <-. eauto. }
    assert (∀ n e', (NT, n, EMod e') ∈ ((NT, "real_libc"), EMod "real_libc") :: ((NT, "fallback"), EMod "fallback") :: its
              → n ∉ l.*1) as X.
    { intros n e' Hi Hn. apply elem_of_list_fmap in Hn as (e & -> & He).
      destruct (mapM_in _ _ _ Ha e He) as [y Hy]. unfold outer_alias in Hy.
      rewrite (lookup_item (Modl _ _) _ (EMod e') N3 Hi) in Hy. done. }
    intros n Hn. unfold reserved in Hn.
    apply elem_of_cons in Hn as [->|Hn].
    + intros Hn. cbn in N4. rewrite fmap_app in N4. apply NoDup_app in N4 as (_ & N4 & _).
      apply elem_of_list_fmap in Hn as (e & Hn & He).
      apply (N4 (NT, "helper")); [|cbn; set_solver].
      enough ((NT, "helper") ∈ als.*1) by done. rewrite K.
      rewrite Hn. apply elem_of_list_fmap. by exists e.
    + apply elem_of_cons in Hn as [->|Hn]; [apply (X _ "real_libc"); left|].
      apply elem_of_list_singleton in Hn as ->. apply (X _ "fallback"). right. left.
  - intros k e. split; [|tauto]. intros H. split; [done|].
    assert (k ∈ als.*1) as Hk by (by apply (elem_of_list_fmap_1 fst) in H).
    rewrite K in Hk. by apply elem_of_list_fmap in Hk as (e' & -> & _).
Qed.

Theorem C89_compiles L l :
  outside l →
  is_Some (libc_mod L l) ↔ NoDup l.*1 ∧ (∀ n, n ∈ reserved → n ∉ l.*1).
Proof.
  intros O. split.
  - intros [c H]. apply mod_inv in H as (? & ? & _). done.
  - intros [ND RS]. rewrite mod_is by done. eauto.
Qed.

(** The module exports types only, those of the list, in its order: neither
    the constants it goes through nor anything else of [::libc]. *)
Theorem C89_exports L l c :
  libc_mod L l = Some c → (public c).*1 = (λ n, (NT, n)) <$> l.*1.
Proof.
  intros H. apply mod_inv in H as (_ & _ & _ & H). rewrite H.
  by rewrite <- list_fmap_compose.
Qed.

(** It depends on no more of [::libc] than which of these types it has. *)
Theorem C89_only_types L L' l :
  outside l → (∀ n, n ∈ l.*1 → L NT n = L' NT n) → libc_mod L l = libc_mod L' l.
Proof.
  intros O H.
  destruct (decide (NoDup l.*1 ∧ Forall (λ n, n ∉ l.*1) reserved)) as [[ND RS]|N].
  - rewrite Forall_forall in RS. rewrite !mod_is by done. do 2 f_equal.
    unfold out_items. apply list_fmap_ext. intros i e He.
    unfold chosen. rewrite H; [done|]. apply elem_of_list_fmap_1.
    by eapply elem_of_list_lookup_2.
  - rewrite Forall_forall in N.
    destruct (libc_mod L l) eqn:E; [exfalso; apply N, (C89_compiles L l O); eauto|].
    destruct (libc_mod L' l) eqn:E'; [exfalso; apply N, (C89_compiles L' l O); eauto|done].
Qed.

(** ** The assertions *)
Lemma prim_at_is p n f :
  (n, f) ∈ the_list →
  prim_at p n = Some (want p n (prim p (plain f))).
Proof.
  intros H. destruct the_list_ok as (O & ND & RS).
  destruct (C89_choice (libc_has p) the_list O ND RS) as (c & Hc & Ht).
  unfold prim_at. rewrite Hc. cbn. rewrite (Ht n f H). cbn. unfold want.
  by destruct (libc_has p NT n).
Qed.

(** The crate compiles just when [char] is of one byte and, where it is
    checked, [uintptr_t] and [size_t] are of one size. *)
Theorem C89_asserts p :
  compiles p = true ↔
  (libc_has p NT "c_char" = true → libc_def p "c_char" = "u8" ∨ libc_def p "c_char" = "i8") ∧
  (wasm32 p = false → std p = true →
   size_in p (want p "uintptr_t" "usize") = size_in p (want p "size_t" "usize")).
Proof.
  unfold compiles. destruct the_list_ok as (O & ND & RS).
  rewrite (mod_is _ _ O ND RS). rewrite andb_true_iff.
  unfold char_assert, size_assert.
  rewrite (prim_at_is p "c_char" (FName "u8")) by (unfold the_list; set_solver).
  rewrite (prim_at_is p "uintptr_t" (FName "usize")) by (unfold the_list; set_solver).
  rewrite (prim_at_is p "size_t" (FName "usize")) by (unfold the_list; set_solver).
  cbn [plain prim].
  assert (forall A B C D : Prop, (A ↔ C) → (B ↔ D) → (A ∧ B ↔ C ∧ D)) as X by tauto.
  apply X.
  - rewrite orb_true_iff, !bool_decide_eq_true. unfold want.
    destruct (libc_has p NT "c_char"); split; intros; try tauto; try (by apply H); by left.
  - destruct (wasm32 p), (std p); cbn; rewrite ?N.eqb_eq; split; intros; try done; tauto.
Qed.

(** Where [::libc] has none of these types both hold. *)
Theorem C89_bare p :
  (∀ n, n ∈ the_list.*1 → libc_has p NT n = false) → compiles p = true.
Proof.
  intros H. apply C89_asserts. unfold want.
  rewrite !H by (unfold the_list; set_solver). done.
Qed.

(** In a crate that compiles, [c_char] is as large as [libc::c_char], and
    [c_int] is what [libc::c_int] is. *)
Theorem C89_newtypes p :
  compiles p = true → size_in p "i8" = size_in p "u8" →
  (∃ f c, c_char_field p = Some f ∧ prim_at p "c_char" = Some c ∧ size_in p f = size_in p c) ∧
  (∃ c, c_int_field p = Some c ∧ prim_at p "c_int" = Some c ∧ c = want p "c_int" (core_def p "c_int")).
Proof.
  intros C S. split.
  - exists "u8", (want p "c_char" "u8"). split; [done|].
    rewrite (prim_at_is p "c_char" (FName "u8")) by (unfold the_list; set_solver).
    split; [done|]. apply C89_asserts in C as [C _]. unfold want.
    destruct (libc_has p NT "c_char"); [|done]. by destruct (C eq_refl) as [-> | ->].
  - unfold c_int_field.
    rewrite (prim_at_is p "c_int" (FCore "c_int")) by (unfold the_list; set_solver).
    eexists. split; [done|]. done.
Qed.

(** ** Examples *)
(** A [::libc] with [c_char], [c_int] and [size_t], a function [size_t] to
    boot, and no [uintptr_t]. *)
Definition some_libc : libc := λ ns n,
  match ns with
  | NT => bool_decide (n ∈ ["c_char"; "c_int"; "size_t"])
  | NV => bool_decide (n = "size_t")
  end.

Example some_libc_gives :
  libc_mod some_libc the_list =
  Some (CrateMod [((NT, "c_char"), EType (TLibc "c_char")); ((NT, "c_int"), EType (TLibc "c_int"));
                  ((NT, "size_t"), EType (TLibc "size_t")); ((NT, "uintptr_t"), EType (TPrim "usize"))]
                 [((NT, "helper"), EMod "helper")]).
Proof. vm_compute. reflexivity. Qed.

(** [c_int else c_int] would be an alias of itself. *)
Example own_fallback : libc_mod some_libc [("c_int", FName "c_int")] = None.
Proof. vm_compute. reflexivity. Qed.
Example reserved_name : libc_mod some_libc [("fallback", FName "u8")] = None.
Proof. vm_compute. reflexivity. Qed.
Example twice : libc_mod some_libc [("c_int", FName "u8"); ("c_int", FName "u8")] = None.
Proof. vm_compute. reflexivity. Qed.

Definition linux : platform :=
  Platform some_libc (λ n, if bool_decide (n = "c_char") then "i8"
                           else if bool_decide (n = "c_int") then "i32" else "usize")
           (λ _, "i32") (λ s, if bool_decide (s = "usize") then 8
                              else if bool_decide (s = "i32") then 4 else 1)%N false true.
Example linux_compiles : compiles linux = true.
Proof. vm_compute. reflexivity. Qed.
(** A [char] of 32 bits, or a [size_t] smaller than a pointer, is refused. *)
Example wide_char :
  compiles (Platform some_libc (λ _, "i32") (core_def linux) (size_in linux) false true) = false.
Proof. vm_compute. reflexivity. Qed.
Example small_size :
  compiles (Platform some_libc (λ n, if bool_decide (n = "size_t") then "u32" else "i8")
                     (core_def linux) (size_in linux) false true) = false.
Proof. vm_compute. reflexivity. Qed.

Print Assumptions C89_choice.
Print Assumptions C89_names.
Print Assumptions C89_compiles.
Print Assumptions C89_exports.
Print Assumptions C89_only_types.
Print Assumptions C89_asserts.
Print Assumptions C89_bare.
Print Assumptions C89_newtypes.
