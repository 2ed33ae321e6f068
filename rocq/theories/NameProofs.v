(** Lemmas for C28. *)

From Coq Require Import NArith List Bool Lia String Ascii ZifyBool ZifyNat ZifyN.
From stdpp Require Import base numbers list strings.
From Verif Require Import NameModel NameSpec.
Local Open Scope N_scope.

(** ** Lengths *)

Lemma split_ne c s : split c s ≠ [].
Proof. destruct s as [|x s]; [done|]. cbn [split]. destruct (x =? c); [done|]. by destruct (split c s). Qed.
Lemma split_len c s p : p ∈ split c s → (length p ≤ length s)%nat.
Proof.
  revert p. induction s as [|x s IH]; intros p; cbn [split].
  - intros ->%elem_of_list_singleton. done.
  - destruct (x =? c).
    + intros [->|H]%elem_of_cons; [cbn; lia|]. apply IH in H. cbn. lia.
    + destruct (split c s) as [|q qs] eqn:E; [by apply split_ne in E|].
      intros [->|H]%elem_of_cons.
      * pose proof (IH q ltac:(left)). cbn. lia.
      * pose proof (IH p ltac:(by right)). cbn. lia.
Qed.
Lemma split_once_len c s l r : split_once c s = Some (l, r) → (length l + length r < length s)%nat.
Proof.
  revert l r. induction s as [|x s IH]; intros l r; cbn [split_once]; [done|].
  destruct (x =? c).
  - intros [= <- <-]. cbn. lia.
  - destruct (split_once c s) as [[l' r']|] eqn:E; [|done]. intros [= <- <-]. specialize (IH _ _ eq_refl). cbn. lia.
Qed.
Lemma rsplit_once_len c s l r : rsplit_once c s = Some (l, r) → (length l + length r < length s)%nat.
Proof.
  revert l r. induction s as [|x s IH]; intros l r; cbn [rsplit_once]; [done|].
  destruct (rsplit_once c s) as [[l' r']|] eqn:E.
  - intros [= <- <-]. specialize (IH _ _ eq_refl). cbn. lia.
  - destruct (x =? c); [|done]. intros [= <- <-]. cbn. lia.
Qed.
Lemma strip_prefix_spec c s r : strip_prefix c s = Some r ↔ s = c :: r.
Proof.
  destruct s as [|x s]; cbn; [done|]. destruct (x =? c) eqn:E; split; intros H; simplify_eq; try done.
  - apply N.eqb_eq in E as ->. done.
  - by rewrite N.eqb_refl in E.
Qed.
Lemma strip_suffix_cons c x s : strip_suffix c (x :: s) =
  match s with [] => if x =? c then Some [] else None
  | _ => match strip_suffix c s with Some s => Some (x :: s) | None => None end end.
Proof. by destruct s. Qed.
Lemma strip_suffix_spec c s r : strip_suffix c s = Some r ↔ s = r ++ [c].
Proof.
  revert r. induction s as [|x s IH]; intros r.
  - cbn. split; [done|]. intros H. by destruct r.
  - rewrite strip_suffix_cons. destruct s as [|y s].
    + destruct (x =? c) eqn:E.
      * apply N.eqb_eq in E as ->. split; [by intros [= <-]|]. destruct r as [|? [|]]; cbn; intros; simplify_eq; done.
      * split; [done|]. destruct r as [|? [|]]; cbn; intros; simplify_eq. by rewrite N.eqb_refl in E.
    + destruct (strip_suffix c (y :: s)) as [q|] eqn:E.
      * destruct (IH q) as [IH' _]. rewrite (IH' eq_refl). split; [by intros [= <-]|].
        destruct r as [|z r]; cbn; [by destruct q|]. intros [= -> H]. apply app_inj_tail in H as [-> _]. done.
      * split; [done|]. destruct r as [|z r]; [done|]. intros [= -> H]. by apply IH in H.
Qed.
Lemma trim_start_len ws s : (length (trim_start ws s) ≤ length s)%nat.
Proof. induction s as [|x s IH]; cbn; [lia|]. destruct (ws x); cbn; lia. Qed.
Lemma trim_len ws s : (length (trim ws s) ≤ length s)%nat.
Proof.
  unfold trim. rewrite rev_length. pose proof (trim_start_len ws (rev (trim_start ws s))).
  rewrite rev_length in H. pose proof (trim_start_len ws s). lia.
Qed.
Lemma trim_start_sub ws s c : c ∈ trim_start ws s → c ∈ s.
Proof. induction s as [|x s IH]; cbn; [done|]. destruct (ws x); [|done]. intros H. right. auto. Qed.
Lemma trim_sub ws s c : c ∈ trim ws s → c ∈ s.
Proof.
  unfold trim. rewrite elem_of_list_In, <-in_rev, <-elem_of_list_In. intros H%trim_start_sub.
  rewrite elem_of_list_In, <-in_rev, <-elem_of_list_In in H. by apply trim_start_sub in H.
Qed.

(** ** Termination *)

Lemma each_nofuel f l : (∀ x, x ∈ l → f x ≠ NoFuel) → each f l ≠ NoFuel.
Proof.
  induction l as [|x l IH]; intros H; [done|]. cbn [each]. pose proof (H x ltac:(left)) as Hx.
  specialize (IH (λ y Hy, H y (elem_of_list_further _ _ _ Hy))).
  destruct (f x); cbn; [|done..]. by destruct (each f l).
Qed.
Lemma append_fuel alnum ws fuel s : (length s < fuel)%nat → append alnum ws fuel s ≠ NoFuel.
Proof.
  revert s. induction fuel as [|fuel IH]; intros s Hf; [lia|]. cbn [append].
  pose proof (trim_len ws s) as Ht. generalize dependent (trim ws s). intros t Ht.
  assert (HE : ∀ c q, (length q < length t)%nat → each (append alnum ws fuel) (split c q) ≠ NoFuel).
  { intros c q Hq. apply each_nofuel. intros x Hx%split_len. apply IH. lia. }
  destruct (strip_prefix 40 t) as [i|] eqn:E1.
  { apply strip_prefix_spec in E1 as ->. destruct (strip_suffix 41 i) as [j|] eqn:E2; [|done].
    apply strip_suffix_spec in E2 as ->. cbn in *. rewrite app_length in *. cbn in *. apply HE. cbn in *. lia. }
  destruct (strip_prefix 91 t) as [i|] eqn:E1'.
  { apply strip_prefix_spec in E1' as ->. destruct (strip_suffix 93 i) as [j|] eqn:E2; [|done].
    apply strip_suffix_spec in E2 as ->. cbn in *. rewrite app_length in *. cbn in *.
    destruct (rsplit_once 59 j) as [[e n]|] eqn:E3.
    - apply rsplit_once_len in E3. pose proof (IH e ltac:(lia)). pose proof (IH n ltac:(lia)).
      destruct (append alnum ws fuel e); cbn; [|done..]. by destruct (append alnum ws fuel n).
    - apply IH. lia. }
  set (pg := match split_once 60 t with Some (l, r) => (l, Some r) | None => (t, None) end).
  destruct pg as [path g] eqn:Epg.
  destruct (match strip_prefix_str (chars "dyn ") path with Some p => (chars "dyn_", p) | None => ([], path) end)
    as [dyn path'].
  assert (HG : match g with None => Name [] | Some g => match strip_suffix 62 g with
     Some g => each (append alnum ws fuel) (split 44 g) | None => Panic end end ≠ NoFuel).
  { destruct g as [g|]; [|done]. destruct (strip_suffix 62 g) as [q|] eqn:E2; [|done].
    apply strip_suffix_spec in E2 as ->. apply HE. unfold pg in Epg.
    destruct (split_once 60 t) as [[l r]|] eqn:E3; [|done]. injection Epg as -> ->.
    apply split_once_len in E3. rewrite app_length in E3. cbn in E3. lia. }
  cbn [seq]. by destruct (match g with None => _ | Some g => _ end).
Qed.

Lemma each_mono (f g : list N → outcome) l : (∀ x, f x ≠ NoFuel → g x = f x) →
  each f l ≠ NoFuel → each g l = each f l.
Proof.
  intros H. induction l as [|x l IH]; [done|]. cbn [each]. intros Hn.
  destruct (f x) as [s| |] eqn:E; [|rewrite (H x); rewrite E; done|done].
  rewrite (H x) by congruence. rewrite E. destruct (each f l) as [t| |] eqn:E'; [by rewrite IH..|done].
Qed.
Lemma append_more alnum ws fuel s : append alnum ws fuel s ≠ NoFuel →
  append alnum ws (S fuel) s = append alnum ws fuel s.
Proof.
  revert s. induction fuel as [|fuel IH]; intros s Hs; [done|].
  remember (S fuel) as f' eqn:Ef. cbn [append].
  replace (append alnum ws f' s) with (append alnum ws (S fuel) s) by (by rewrite Ef).
  rewrite Ef in Hs. clear Ef. cbn [append] in Hs |- *.
  destruct (strip_prefix 40 (trim ws s)) as [i|].
  { destruct (strip_suffix 41 i); [|done]. by apply each_mono. }
  destruct (strip_prefix 91 (trim ws s)) as [i|].
  { destruct (strip_suffix 93 i) as [j|]; [|done]. destruct (rsplit_once 59 j) as [[e n]|]; [|by apply IH].
    destruct (append alnum ws fuel e) as [a| |] eqn:E; [|rewrite (IH e), E; [done|congruence]|done].
    rewrite (IH e), E by congruence. destruct (append alnum ws fuel n) as [b| |] eqn:E'; [..|done];
      rewrite (IH n), E' by congruence; done. }
  destruct (match split_once 60 (trim ws s) with Some (l, r) => (l, Some r) | None => (trim ws s, None) end)
    as [path g].
  destruct (match strip_prefix_str (chars "dyn ") path with Some p => (chars "dyn_", p) | None => ([], path) end)
    as [dyn path'].
  destruct g as [g|]; [|done]. destruct (strip_suffix 62 g) as [q|]; [|done].
  rewrite (each_mono (append alnum ws fuel)); [done|done|]. intros E. by rewrite E in Hs.
Qed.
Lemma append_mono alnum ws fuel fuel' s : (fuel ≤ fuel')%nat → append alnum ws fuel s ≠ NoFuel →
  append alnum ws fuel' s = append alnum ws fuel s.
Proof. induction 1 as [|f _ IH]; [done|]. intros H. rewrite append_more; rewrite IH; done. Qed.

(** ** Characters *)

Definition oks (alnum : N → bool) (o : outcome) : Prop :=
  match o with Name s => Forall (λ c, ident_char alnum c = true) s | _ => True end.
Lemma seq_oks alnum a b : oks alnum a → oks alnum b → oks alnum (seq a b).
Proof. destruct a, b; cbn; try done. intros. by apply Forall_app. Qed.
Lemma each_oks alnum f l : (∀ x, oks alnum (f x)) → oks alnum (each f l).
Proof. intros H. induction l as [|x l IH]; [by constructor|]. cbn [each]. by apply seq_oks. Qed.
Lemma after_last_sub c s x : x ∈ after_last c s → x ∈ s ∧ x ≠ c.
Proof.
  unfold after_last. assert (HA : (∀ l r, rsplit_once c s = Some (l, r) → x ∈ r → x ∈ s ∧ x ≠ c) ∧
    (rsplit_once c s = None → x ∈ s → x ≠ c)).
  { induction s as [|y s [IH1 IH2]]; cbn [rsplit_once]; [split; [done|by intros _ ?%elem_of_nil]|].
    destruct (rsplit_once c s) as [[l r]|].
    - split; [|done]. intros l' r' [= <- <-] Hx. destruct (IH1 _ _ eq_refl Hx). split; [by right|done].
    - destruct (y =? c) eqn:E.
      + split; [|done]. intros l r [= <- <-] Hx. split; [by right|auto].
      + split; [done|]. intros _ [->|Hx]%elem_of_cons; [by apply N.eqb_neq|auto]. }
  destruct HA as [H1 H2]. destruct (rsplit_once c s) as [[l r]|]; [eauto|]. intros H. split; [done|auto].
Qed.
Lemma ident_chars alnum ws : tables alnum ws → ∀ c, c < 128 → ident_char alnum c = ascii_alnum c || (c =? 95).
Proof. intros [H _] c Hc. unfold ident_char. by destruct (H c Hc) as [-> _]. Qed.
Lemma append_oks alnum ws fuel s : tables alnum ws → oks alnum (append alnum ws fuel s).
Proof.
  intros HT.
  assert (HD : Forall (λ c, ident_char alnum c = true) (chars "dyn_")).
  { apply Forall_forall. intros c Hc. vm_compute in Hc.
    repeat (apply elem_of_cons in Hc as [->|Hc]; [by rewrite (ident_chars _ _ HT) by lia|]). by apply elem_of_nil in Hc. }
  revert s. induction fuel as [|fuel IH]; intros s; [done|]. cbn [append].
  generalize (trim ws s). intros t.
  destruct (strip_prefix 40 t) as [i|].
  { destruct (strip_suffix 41 i); [|done]. by apply each_oks. }
  destruct (strip_prefix 91 t) as [i|].
  { destruct (strip_suffix 93 i) as [j|]; [|done]. destruct (rsplit_once 59 j) as [[e n]|]; [by apply seq_oks|done]. }
  destruct (match split_once 60 t with Some (l, r) => (l, Some r) | None => (t, None) end) as [path g].
  destruct (strip_prefix_str (chars "dyn ") path) as [p|].
  all: apply seq_oks; [|destruct g as [g|]; [destruct (strip_suffix 62 g); [by apply each_oks|done]|by constructor]].
  all: cbn [oks]; apply Forall_app; split;
    [apply Forall_singleton; by rewrite (ident_chars _ _ HT)|apply Forall_app; split];
    [first [apply Forall_nil_2|exact HD]|].
  all: match goal with |- context [forallb _ ?q] => destruct (forallb _ q) eqn:E end;
    [apply Forall_forall; intros c Hc%trim_sub; apply after_last_sub in Hc as [Hc Hn];
     rewrite forallb_forall in E; apply elem_of_list_In, E in Hc; lia
    |apply Forall_forall; intros c (d & -> & _)%elem_of_list_fmap; destruct (ident_char alnum d) eqn:Ed;
     [done|by rewrite (ident_chars _ _ HT)]].
Qed.

(** ** Tame types *)

Lemma rty_ind' (P : rty → Prop) :
  (∀ m n l, Forall P l → P (RPath m n l)) → (∀ m n l, Forall P l → P (RDyn m n l)) →
  (∀ p m n l, Forall P l → P (RPtr p m n l)) → (∀ l, Forall P l → P (RTuple l)) →
  (∀ t, P t → P (RSlice t)) → (∀ t n, P t → P (RArray t n)) → ∀ t, P t.
Proof.
  intros H1 H2 H3 H4 H5 H6. fix IH 1.
  assert (HL : ∀ l, Forall P l).
  { fix IHl 1. intros [|t l]; constructor; [apply IH|apply IHl]. }
  intros [m n l|m n l|p m n l|l|t|t n];
    [apply H1, HL|apply H2, HL|apply H3, HL|apply H4, HL|apply H5, IH|apply H6, IH].
Qed.

Fixpoint names (l : list rty) : list (list N) := match l with [] => [] | t :: l => type_name t :: names l end.
Lemma names_map l : names l = map type_name l.
Proof. induction l as [|t l IH]; cbn; by rewrite ?IH. Qed.

Section tame.
Context (alnum ws : N → bool) (HT : tables alnum ws).

Fixpoint nices (l : list rty) : list N :=
  match l with [] => [] | t :: l => nice alnum t ++ nices l end.
Fixpoint tames (l : list rty) : Prop :=
  match l with [] => True | t :: l => tame alnum t ∧ 44 ∉ type_name t ∧ tames l end.

Lemma ic_ws c : ident_char alnum c = true → ws c = false.
Proof.
  destruct HT as [H1 H2]. intros [H|H]%orb_prop; [by apply H2|]. apply N.eqb_eq in H as ->.
  by destruct (H1 95 ltac:(lia)) as [_ ->].
Qed.
Lemma ic_not c : c ∈ chars "(),:;<>[] *&" → ident_char alnum c = false.
Proof.
  intros H. assert (Hc : c < 128 ∧ ascii_alnum c = false ∧ c ≠ 95).
  { vm_compute in H. repeat (apply elem_of_cons in H as [->|H]; [by vm_compute|]). by apply elem_of_nil in H. }
  destruct Hc as (Hc & Ha & Hn). rewrite (ident_chars _ _ HT) by done. rewrite Ha. cbn. lia.
Qed.
Lemma ident_not s c : ident alnum s → c ∈ chars "(),:;<>[] *&" → c ∉ s.
Proof. intros [_ Hs] Hc%ic_not Hin. rewrite Forall_forall in Hs. apply Hs in Hin. congruence. Qed.

(** Starts and ends with no white space. *)
Definition solid (s : list N) : Prop :=
  ∃ x y, head s = Some x ∧ last s = Some y ∧ ws x = false ∧ ws y = false.
Lemma trim_start_solid s x : head s = Some x → ws x = false → trim_start ws s = s.
Proof. destruct s as [|y s]; [done|]. cbn. intros [= ->] ->. done. Qed.
Lemma head_rev {A} (s : list A) : head (rev s) = last s.
Proof.
  destruct s as [|x s _] using rev_ind; [done|]. rewrite rev_unit. cbn. by rewrite last_snoc.
Qed.
Lemma trim_solid s : solid s → trim ws s = s ∧ trim ws (32 :: s) = s.
Proof.
  intros (x & y & Hx & Hy & Wx & Wy). unfold trim. cbn [trim_start].
  assert (ws 32 = true) as -> by (destruct HT as [H _]; by destruct (H 32 ltac:(lia)) as [_ ->]).
  rewrite !(trim_start_solid s x) by done.
  rewrite (trim_start_solid (rev s) y); [|by rewrite head_rev|done]. by rewrite rev_involutive.
Qed.
Lemma solid_app s t : solid s → solid t → solid (s ++ t).
Proof.
  intros (x & _ & Hx & _ & Wx & _) (_ & y & _ & Hy & _ & Wy). exists x, y. repeat split; try done.
  - by destruct s.
  - destruct t as [|z t _] using rev_ind; [done|]. rewrite app_assoc, last_snoc. by rewrite last_snoc in Hy.
Qed.
Lemma ident_solid s : ident alnum s → solid s.
Proof.
  intros [Hne Hs]. destruct s as [|x s]; [done|]. clear Hne.
  destruct (last (x :: s)) as [y|] eqn:Ey; [|by apply last_None in Ey]. exists x, y.
  rewrite Forall_forall in Hs. split; [done|]. split; [done|].
  split; apply ic_ws, Hs; [left|by apply last_Some_elem_of in Ey].
Qed.

Lemma qualified_cons m mods n : qualified (m :: mods) n = m ++ 58 :: 58 :: qualified mods n.
Proof. unfold qualified. cbn. by rewrite <-!app_assoc. Qed.
Lemma qualified_in mods n c : Forall (ident alnum) mods → ident alnum n →
  c ∈ qualified mods n → ident_char alnum c = true ∨ c = 58.
Proof.
  intros Hm Hn. assert (HI : ∀ s, ident alnum s → c ∈ s → ident_char alnum c = true).
  { intros s [_ Hs]. rewrite Forall_forall in Hs. apply Hs. }
  induction Hm as [|m mods Hm _ IH]; [cbn; eauto|]. rewrite qualified_cons.
  intros [H|[->|[->|H]%elem_of_cons]%elem_of_cons]%elem_of_app; eauto.
Qed.
Lemma qualified_solid mods n : Forall (ident alnum) mods → ident alnum n → solid (qualified mods n).
Proof.
  intros Hm Hn. induction Hm as [|m mods Hm _ IH]; [by apply ident_solid|]. rewrite qualified_cons.
  apply ident_solid in Hm as (x & y & Hx & Hy & Wx & Wy). destruct IH as (u & v & Hu & Hv & Wu & Wv).
  exists x, v. split; [by destruct m|]. split; [|done].
  destruct (qualified mods n) as [|z t _] using rev_ind; [done|]. rewrite last_snoc in Hv. simplify_eq.
  change (58 :: 58 :: t ++ [v]) with ((58 :: 58 :: t) ++ [v]). by rewrite app_assoc, last_snoc.
Qed.
Lemma rsplit_none c s : c ∉ s → rsplit_once c s = None.
Proof.
  induction s as [|x s IH]; [done|]. intros [Hx Hs]%not_elem_of_cons. cbn [rsplit_once]. rewrite IH by done.
  by destruct (x =? c) eqn:E; [apply N.eqb_eq in E|].
Qed.
Lemma rsplit_app c l s : c ∉ s → rsplit_once c (l ++ c :: s) = Some (l, s).
Proof.
  intros Hs. induction l as [|x l IH]; cbn [app rsplit_once].
  - by rewrite rsplit_none, N.eqb_refl.
  - by rewrite IH.
Qed.
Lemma split_once_none c s : c ∉ s → split_once c s = None.
Proof.
  induction s as [|x s IH]; [done|]. intros [Hx Hs]%not_elem_of_cons. cbn [split_once]. rewrite IH by done.
  by destruct (x =? c) eqn:E; [apply N.eqb_eq in E|].
Qed.
Lemma split_once_app c l s : c ∉ l → split_once c (l ++ c :: s) = Some (l, s).
Proof.
  induction l as [|x l IH]; intros Hl; cbn [app split_once].
  - by rewrite N.eqb_refl.
  - apply not_elem_of_cons in Hl as [Hx Hl]. rewrite IH by done. by destruct (x =? c) eqn:E; [apply N.eqb_eq in E|].
Qed.
Lemma after_last_qualified mods n : ident alnum n → after_last 58 (qualified mods n) = n.
Proof.
  intros Hn. unfold after_last. destruct mods as [|m mods _] using rev_ind.
  - cbn. rewrite rsplit_none; [done|]. by apply (ident_not n), (bool_decide_unpack _).
  - unfold qualified. rewrite flat_map_app. cbn [flat_map]. rewrite app_nil_r.
    assert (E : (flat_map (λ m0, m0 ++ chars "::") mods ++ m ++ chars "::") ++ n =
      (flat_map (λ m0, m0 ++ chars "::") mods ++ m ++ [58]) ++ 58 :: n).
    { cbn. rewrite <-!app_assoc. do 2 f_equal. }
    rewrite E, rsplit_app; [done|]. by apply (ident_not n), (bool_decide_unpack _).
Qed.

(** *** Splitting *)
Lemma split_none c s : c ∉ s → split c s = [s].
Proof.
  induction s as [|x s IH]; [done|]. intros [Hx Hs]%not_elem_of_cons. cbn [split]. rewrite IH by done.
  by destruct (x =? c) eqn:E; [apply N.eqb_eq in E|].
Qed.
Lemma split_app c l s : c ∉ l → split c (l ++ c :: s) = l :: split c s.
Proof.
  induction l as [|x l IH]; intros Hl; cbn [app split].
  - by rewrite N.eqb_refl.
  - apply not_elem_of_cons in Hl as [Hx Hl]. rewrite IH by done. by destruct (x =? c) eqn:E; [apply N.eqb_eq in E|].
Qed.
Lemma split_more l x : 44 ∉ x → Forall (λ y, 44 ∉ y) l →
  split 44 (x ++ flat_map (λ y, chars ", " ++ y) l) = x :: map (cons 32) l.
Proof.
  intros Hx Hl. revert x Hx. induction Hl as [|y l Hy Hl IH]; intros x Hx; cbn [flat_map map].
  - by rewrite app_nil_r, split_none.
  - change (chars ", ") with [44; 32]. cbn [app]. rewrite split_app by done. f_equal.
    change (32 :: y ++ flat_map (λ y0, chars ", " ++ y0) l) with ((32 :: y) ++ flat_map (λ y0, chars ", " ++ y0) l).
    apply (IH (32 :: y)). by apply not_elem_of_cons.
Qed.
Lemma split_more_comma l x : 44 ∉ x → Forall (λ y, 44 ∉ y) l →
  split 44 ((x ++ flat_map (λ y, chars ", " ++ y) l) ++ [44]) = x :: map (cons 32) l ++ [[]].
Proof.
  intros Hx Hl. revert x Hx. induction Hl as [|y l Hy Hl IH]; intros x Hx; cbn [flat_map map].
  - rewrite app_nil_r. by rewrite (split_app 44 x []) by done.
  - change (chars ", ") with [44; 32]. cbn [app]. rewrite <-!app_assoc. cbn [app]. rewrite split_app by done. f_equal.
    specialize (IH (32 :: y) ltac:(by apply not_elem_of_cons)). 
    change (32 :: (y ++ flat_map (λ y, 44 :: 32 :: y) l) ++ [44])
      with (((32 :: y) ++ flat_map (λ y, chars ", " ++ y) l) ++ [44]). exact IH.
Qed.

Lemma seq_assoc a b c : seq (seq a b) c = seq a (seq b c).
Proof. destruct a, b, c; cbn; try done. by rewrite app_assoc. Qed.

(** The arguments, given the lemma for each. *)
Definition good (t : rty) : Prop :=
  ∀ fuel, (length (type_name t) + 1 < fuel)%nat →
    append alnum ws fuel (type_name t) = Name (nice alnum t) ∧
    append alnum ws fuel (32 :: type_name t) = Name (nice alnum t).
Lemma each_app f l k : each f (l ++ k) = seq (each f l) (each f k).
Proof.
  induction l as [|x l IH]; cbn [app each].
  - cbn. by destruct (each f k).
  - by rewrite IH, seq_assoc.
Qed.
Lemma each_spaced fuel l : Forall good l → (∀ x, x ∈ names l → (length x + 1 < fuel)%nat) →
  each (append alnum ws fuel) (map (cons 32) (names l)) = Name (nices l).
Proof.
  induction 1 as [|t l Ht _ IH]; intros Hf; [done|]. cbn [names map each nices].
  destruct (Ht fuel) as [_ ->]; [apply Hf; left|]. rewrite IH; [done|]. intros x Hx. apply Hf. by right.
Qed.
Lemma each_args fuel t l : good t → Forall good l → (∀ x, x ∈ names (t :: l) → (length x + 1 < fuel)%nat) →
  each (append alnum ws fuel) (type_name t :: map (cons 32) (names l)) = Name (nices (t :: l)).
Proof.
  intros Ht Hl Hf. cbn [each nices]. destruct (Ht fuel) as [-> _]; [apply Hf; left|].
  rewrite each_spaced; [done|done|]. intros x Hx. apply Hf. by right.
Qed.
Lemma tames_commas l : tames l → Forall (λ y, 44 ∉ y) (names l).
Proof. induction l as [|t l IH]; [by constructor|]. intros (_ & H & Hl). constructor; auto. Qed.
Lemma comma_sep_len l x : x ∈ l → (length x ≤ length (comma_sep l))%nat.
Proof.
  destruct l as [|y l]; [by intros ?%elem_of_nil|]. cbn [comma_sep]. intros [->|H]%elem_of_cons.
  - rewrite app_length. lia.
  - rewrite app_length. revert H. generalize (length y). induction l as [|z l IH]; intros k H; [by apply elem_of_nil in H|].
    cbn [flat_map]. rewrite !app_length. apply elem_of_cons in H as [->|H]; [lia|]. specialize (IH 0%nat H). lia.
Qed.
Lemma split_comma_sep t l : tames (t :: l) →
  split 44 (comma_sep (names (t :: l))) = type_name t :: map (cons 32) (names l).
Proof. intros (_ & H & Hl). cbn [names comma_sep]. apply split_more; [done|]. by apply tames_commas. Qed.

(** The part after the path. *)
Lemma generics_good fuel l : Forall good l → tames l →
  (length (angle (names l)) ≤ fuel)%nat →
  match (match l with [] => None | _ => Some (comma_sep (names l) ++ [62]) end) with
  | None => Name []
  | Some g => match strip_suffix 62 g with
      Some g => each (append alnum ws fuel) (split 44 g) | None => Panic end
  end = Name (nices l).
Proof.
  intros Hg Ht Hf. destruct l as [|t l]; [done|].
  destruct (strip_suffix 62 (comma_sep (names (t :: l)) ++ [62])) as [g|] eqn:E.
  2:{ pose proof (proj2 (strip_suffix_spec 62 _ (comma_sep (names (t :: l)))) eq_refl) as E'.
      rewrite E' in E. discriminate E. }
  apply strip_suffix_spec in E. apply app_inj_tail in E as [<- _].
  rewrite split_comma_sep by done. inversion_clear Hg. apply each_args; [done|done|].
  intros x Hx%comma_sep_len. unfold angle in Hf. cbn [names] in *.
  rewrite !app_length in Hf. change (length (chars "<")) with 1%nat in Hf.
  change (length (chars ">")) with 1%nat in Hf. lia.
Qed.

Lemma angle_split p l : 60 ∉ p →
  match split_once 60 (p ++ angle (names l)) with Some (l, r) => (l, Some r) | None => (p ++ angle (names l), None) end
  = (p, match l with [] => None | _ => Some (comma_sep (names l) ++ [62]) end).
Proof.
  intros Hp. destruct l as [|t l].
  - cbn [names angle]. rewrite app_nil_r. by rewrite split_once_none.
  - change (angle (names (t :: l))) with (60 :: comma_sep (names (t :: l)) ++ [62]). by rewrite split_once_app.
Qed.
Lemma angle_solid p l : solid p → solid (p ++ angle (names l)).
Proof.
  intros Hp. destruct l as [|t l]; [cbn; by rewrite app_nil_r|].
  apply solid_app; [done|]. exists 60, 62. change (angle (names (t :: l))) with ((60 :: comma_sep (names (t :: l))) ++ [62]).
  split; [done|]. split; [by rewrite last_snoc|]. destruct HT as [H _].
  destruct (H 60 ltac:(lia)) as [_ ->]. by destruct (H 62 ltac:(lia)) as [_ ->].
Qed.

Lemma strip_prefix_none c s x : head s = Some x → x ≠ c → strip_prefix c s = None.
Proof. destruct s as [|y s]; [done|]. cbn. intros [= ->] Hn. by destruct (x =? c) eqn:E; [apply N.eqb_eq in E|]. Qed.

(** One step on a path. *)
Lemma append_path fuel p l x dyn path name :
  solid p → 60 ∉ p → head p = Some x → x ≠ 40 → x ≠ 91 →
  match strip_prefix_str (chars "dyn ") p with Some p => (chars "dyn_", p) | None => ([], p) end = (dyn, path) →
  (if forallb (λ c, ident_char alnum c || (c =? 58)) path then trim ws (after_last 58 path)
   else map (λ c, if ident_char alnum c then c else 95) path) = name →
  Forall good l → tames l → (length (p ++ angle (names l)) + 1 < fuel)%nat →
  append alnum ws fuel (p ++ angle (names l)) = Name (95 :: dyn ++ name ++ nices l) ∧
  append alnum ws fuel (32 :: p ++ angle (names l)) = Name (95 :: dyn ++ name ++ nices l).
Proof.
  intros Hs H60 Hx H40 H91 Hd Hn Hg Ht Hf. destruct fuel as [|fuel]; [lia|].
  pose proof (angle_solid p l Hs) as Hs'. pose proof (angle_split p l H60) as Hsp.
  destruct (trim_solid _ Hs') as [T1 T2].
  assert (Hx' : head (p ++ angle (names l)) = Some x) by (by destruct p).
  assert (HG : match (match l with [] => None | _ => Some (comma_sep (names l) ++ [62]) end) with
    | None => Name []
    | Some g => match strip_suffix 62 g with
        Some g => each (append alnum ws fuel) (split 44 g) | None => Panic end
    end = Name (nices l)).
  { apply generics_good; [done|done|]. rewrite app_length in Hf. lia. }
  split; cbn [append]; [rewrite T1|rewrite T2].
  all: rewrite (strip_prefix_none 40 _ x Hx') by done; rewrite (strip_prefix_none 91 _ x Hx') by done.
  all: rewrite Hsp; cbv zeta; rewrite Hd, Hn, HG; cbn [seq]; rewrite <-!app_assoc; done.
Qed.

Lemma ident_head s : ident alnum s → ∃ x, head s = Some x ∧ ident_char alnum x = true.
Proof. intros [Hne Hs]. destruct s as [|x s]; [done|]. exists x. split; [done|]. by inversion Hs. Qed.
Lemma qualified_head mods n : Forall (ident alnum) mods → ident alnum n →
  ∃ x, head (qualified mods n) = Some x ∧ ident_char alnum x = true.
Proof.
  intros Hm Hn. destruct Hm as [|m mods Hm _]; [by apply ident_head|]. rewrite qualified_cons.
  apply ident_head in Hm as (x & Hx & Hc). exists x. split; [by destruct m|done].
Qed.
Lemma ic_ne x c : ident_char alnum x = true → c ∈ chars "(),:;<>[] *&" → x ≠ c.
Proof. intros Hx Hc%ic_not ->. congruence. Qed.
Ltac special := apply (bool_decide_unpack _); vm_compute; exact I.

Lemma qualified_not mods n c : Forall (ident alnum) mods → ident alnum n →
  c ∈ chars "(),;<>[] *&" → c ∉ qualified mods n.
Proof.
  intros Hm Hn Hc Hin. apply (qualified_in mods n c Hm Hn) in Hin as [H| ->].
  - assert (c ∈ chars "(),:;<>[] *&") as Hc'.
    { vm_compute in Hc. repeat (apply elem_of_cons in Hc as [->|Hc]; [special|]). by apply elem_of_nil in Hc. }
    apply ic_not in Hc'. congruence.
  - revert Hc. by apply (bool_decide_unpack _).
Qed.
Lemma qualified_valid mods n : Forall (ident alnum) mods → ident alnum n →
  forallb (λ c, ident_char alnum c || (c =? 58)) (qualified mods n) = true.
Proof.
  intros Hm Hn. apply forallb_forall. intros c Hc%elem_of_list_In.
  apply (qualified_in mods n c Hm Hn) in Hc as [->| ->]; [done|]. by rewrite orb_true_r.
Qed.
Lemma qualified_name mods n : Forall (ident alnum) mods → ident alnum n →
  (if forallb (λ c, ident_char alnum c || (c =? 58)) (qualified mods n) then trim ws (after_last 58 (qualified mods n))
   else map (λ c, if ident_char alnum c then c else 95) (qualified mods n)) = n.
Proof.
  intros Hm Hn. rewrite qualified_valid, after_last_qualified by done.
  apply ident_solid in Hn. by destruct (trim_solid _ Hn) as [-> _].
Qed.
Lemma strip_prefix_str_in p s r : strip_prefix_str p s = Some r → s = p ++ r.
Proof.
  revert s. induction p as [|x p IH]; intros s; [by intros [= ->]|]. destruct s as [|y s]; [done|].
  cbn [strip_prefix_str]. destruct (x =? y) eqn:E; [|done]. apply N.eqb_eq in E as ->. intros ->%IH. done.
Qed.
Lemma qualified_not_dyn mods n : Forall (ident alnum) mods → ident alnum n →
  strip_prefix_str (chars "dyn ") (qualified mods n) = None.
Proof.
  intros Hm Hn. destruct (strip_prefix_str _ _) eqn:E; [|done]. apply strip_prefix_str_in in E.
  exfalso. assert (32 ∉ qualified mods n) as H by (apply qualified_not; [done|done|special]).
  apply H. rewrite E. apply elem_of_app. left. special.
Qed.

Lemma pointer_props pre : pointer pre →
  60 ∉ pre ∧ ∃ x s, pre = x :: s ∧ (x = 38 ∨ x = 42).
Proof.
  assert (HO : ∀ p, p ∈ [chars "&"; chars "&mut "; chars "*const "; chars "*mut "] →
    60 ∉ p ∧ ∃ x s, p = x :: s ∧ (x = 38 ∨ x = 42)).
  { intros p Hp. repeat (apply elem_of_cons in Hp as [->|Hp];
      [split; [special|do 2 eexists; split; [reflexivity|]; auto]|]). by apply elem_of_nil in Hp. }
  induction 1 as [p Hp|p q Hp Hq IH]; [auto|]. apply HO in Hp as [H1 (x & s & -> & Hx)]. destruct IH as [H2 _].
  split; [|by exists x, (s ++ q)]. intros [H|H]%elem_of_app; done.
Qed.

Lemma tame_good t : tame alnum t → good t.
Proof.
  induction t as [mods n l IH|mods n l IH|pre mods n l IH|l IH|t IH|t n IH] using rty_ind'; cbn [tame]; intros Ht.
  - destruct Ht as (Hm & Hn & Hl). change (tames l) in Hl.
    assert (Hg : Forall good l).
    { clear -IH Hl. induction IH as [|t l Ht _ IHl]; [constructor|]. destruct Hl as (? & ? & ?). constructor; auto. }
    intros fuel Hf. change (type_name (RPath mods n l)) with (qualified mods n ++ angle (names l)) in *.
    change (nice alnum (RPath mods n l)) with (95 :: [] ++ n ++ nices l).
    destruct (qualified_head mods n Hm Hn) as (x & Hx & Hc).
    apply (append_path fuel (qualified mods n) l x [] (qualified mods n) n); try done.
    + by apply qualified_solid.
    + apply qualified_not; [done|done|special].
    + apply (ic_ne x); [done|special].
    + apply (ic_ne x); [done|special].
    + by rewrite qualified_not_dyn.
    + by apply qualified_name.
  - destruct Ht as (Hm & Hn & Hl). change (tames l) in Hl.
    assert (Hg : Forall good l).
    { clear -IH Hl. induction IH as [|t l Ht _ IHl]; [constructor|]. destruct Hl as (? & ? & ?). constructor; auto. }
    intros fuel Hf.
    assert (E : type_name (RDyn mods n l) = (chars "dyn " ++ qualified mods n) ++ angle (names l)).
    { rewrite <-app_assoc. reflexivity. }
    rewrite E in *. change (nice alnum (RDyn mods n l)) with (95 :: chars "dyn_" ++ n ++ nices l).
    destruct (qualified_solid mods n Hm Hn) as (u & v & Hu & Hv & Wu & Wv).
    apply (append_path fuel (chars "dyn " ++ qualified mods n) l 100 (chars "dyn_") (qualified mods n) n); try done.
    + exists 100, v. split; [done|]. split.
      * destruct (qualified mods n) as [|z t _] using rev_ind; [done|]. rewrite last_snoc in Hv. simplify_eq.
        by rewrite app_assoc, last_snoc.
      * split; [|done]. destruct HT as [H _]. by destruct (H 100 ltac:(lia)) as [_ ->].
    + intros [H|H]%elem_of_app; [revert H; special|]. revert H. apply qualified_not; [done|done|special].
    + by apply qualified_name.
  - destruct Ht as (Hp & Hm & Hn & Hl). change (tames l) in Hl.
    assert (Hg : Forall good l).
    { clear -IH Hl. induction IH as [|t l Ht _ IHl]; [constructor|]. destruct Hl as (? & ? & ?). constructor; auto. }
    intros fuel Hf.
    assert (E : type_name (RPtr pre mods n l) = (pre ++ qualified mods n) ++ angle (names l)).
    { rewrite <-app_assoc. reflexivity. }
    rewrite E in *.
    change (nice alnum (RPtr pre mods n l)) with (95 :: [] ++ flat alnum (pre ++ qualified mods n) ++ nices l).
    destruct (qualified_solid mods n Hm Hn) as (u & v & Hu & Hv & Wu & Wv).
    apply pointer_props in Hp as [H60 (x & s & -> & Hx)].
    apply (append_path fuel ((x :: s) ++ qualified mods n) l x [] ((x :: s) ++ qualified mods n)); try done.
    + exists x, v. split; [done|]. split.
      * destruct (qualified mods n) as [|z t _] using rev_ind; [done|]. rewrite last_snoc in Hv. simplify_eq.
        by rewrite app_assoc, last_snoc.
      * split; [|done]. destruct HT as [H _]. destruct Hx as [-> | ->];
          [by destruct (H 38 ltac:(lia)) as [_ ->]|by destruct (H 42 ltac:(lia)) as [_ ->]].
    + intros [H|H]%elem_of_app; [done|]. revert H. apply qualified_not; [done|done|special].
    + lia.
    + lia.
    + destruct Hx as [-> | ->]; reflexivity.
    + assert (ident_char alnum x = false) as Hic.
      { apply ic_not. destruct Hx as [-> | ->]; special. }
      cbn [app forallb]. rewrite Hic. assert (x =? 58 = false) as -> by lia. done.
  - change (tames l) in Ht.
    assert (Hg : Forall good l).
    { clear -IH Ht. induction IH as [|t l H _ IHl]; [constructor|]. destruct Ht as (? & ? & ?). constructor; auto. }
    intros fuel Hf.
    set (tail := match l with [_] => [44] | _ => [] end).
    assert (E : type_name (RTuple l) = 40 :: (comma_sep (names l) ++ tail) ++ [41]).
    { rewrite <-app_assoc. reflexivity. }
    rewrite E in *. destruct fuel as [|fuel]; [lia|].
    assert (Hs : solid (40 :: (comma_sep (names l) ++ tail) ++ [41])).
    { exists 40, 41. split; [done|]. split; [by rewrite app_comm_cons, last_snoc|].
      destruct HT as [H _]. destruct (H 40 ltac:(lia)) as [_ ->]. by destruct (H 41 ltac:(lia)) as [_ ->]. }
    destruct (trim_solid _ Hs) as [T1 T2].
    assert (HS : strip_suffix 41 ((comma_sep (names l) ++ tail) ++ [41]) = Some (comma_sep (names l) ++ tail))
      by (by apply strip_suffix_spec).
    assert (Hmain : each (append alnum ws fuel) (split 44 (comma_sep (names l) ++ tail)) = Name (nice alnum (RTuple l))).
    { cbn [length] in Hf. rewrite !app_length in Hf. cbn [length] in Hf.
      assert (Hfu : ∀ x, x ∈ names l → (length x + 1 < fuel)%nat) by (intros x Hx%comma_sep_len; lia).
      assert (HA : append alnum ws fuel [] = Name [95]).
      { destruct fuel; [lia|]. reflexivity. }
      destruct l as [|t [|t' l]].
      - cbn. by rewrite HA.
      - destruct Ht as (Ht & Hc & _). inversion_clear Hg as [|? ? Hgt _]. change (comma_sep (names [t]) ++ tail) with ((type_name t ++ flat_map (λ y, chars ", " ++ y) []) ++ [44]).
        rewrite (split_more_comma [] (type_name t)) by (done || constructor). cbn [map app each].
        destruct (Hgt fuel) as [-> _]; [apply Hfu; left|]. rewrite HA. done.
      - subst tail. rewrite app_nil_r. rewrite split_comma_sep by done.
        inversion_clear Hg. rewrite each_args by done. done. }
    split; cbn [append]; [rewrite T1|rewrite T2]; cbn [strip_prefix]; rewrite N.eqb_refl, HS; exact Hmain.
  - destruct Ht as [Ht H59]. specialize (IH Ht). intros fuel Hf.
    assert (E : type_name (RSlice t) = 91 :: type_name t ++ [93]) by reflexivity.
    rewrite E in *. destruct fuel as [|fuel]; [lia|].
    assert (Hs : solid (91 :: type_name t ++ [93])).
    { exists 91, 93. split; [done|]. split; [by rewrite app_comm_cons, last_snoc|].
      destruct HT as [H _]. destruct (H 91 ltac:(lia)) as [_ ->]. by destruct (H 93 ltac:(lia)) as [_ ->]. }
    destruct (trim_solid _ Hs) as [T1 T2].
    assert (HS : strip_suffix 93 (type_name t ++ [93]) = Some (type_name t)) by (by apply strip_suffix_spec).
    destruct (IH fuel) as [IH1 _]; [cbn in Hf; rewrite app_length in Hf; cbn in Hf; lia|].
    split; cbn [append]; [rewrite T1|rewrite T2]; cbn [strip_prefix];
      change (91 =? 40) with false; rewrite N.eqb_refl, HS, rsplit_none by done; exact IH1.
  - destruct Ht as [Ht Hn]. specialize (IH Ht). intros fuel Hf.
    assert (E : type_name (RArray t n) = 91 :: (type_name t ++ 59 :: 32 :: n) ++ [93]).
    { rewrite <-app_assoc. reflexivity. }
    rewrite E in *. destruct fuel as [|fuel]; [lia|].
    assert (Hs : solid (91 :: (type_name t ++ 59 :: 32 :: n) ++ [93])).
    { exists 91, 93. split; [done|]. split; [by rewrite app_comm_cons, last_snoc|].
      destruct HT as [H _]. destruct (H 91 ltac:(lia)) as [_ ->]. by destruct (H 93 ltac:(lia)) as [_ ->]. }
    destruct (trim_solid _ Hs) as [T1 T2].
    assert (HS : strip_suffix 93 ((type_name t ++ 59 :: 32 :: n) ++ [93]) = Some (type_name t ++ 59 :: 32 :: n))
      by (by apply strip_suffix_spec).
    assert (HR : rsplit_once 59 (type_name t ++ 59 :: 32 :: n) = Some (type_name t, 32 :: n)).
    { apply rsplit_app. apply not_elem_of_cons. split; [done|]. apply (ident_not n); [done|special]. }
    cbn in Hf. rewrite !app_length in Hf. cbn in Hf.
    destruct (IH fuel) as [IH1 _]; [lia|].
    destruct (append_path fuel n [] (default 0 (head n)) [] n n) as [_ IH2]; try done.
    + by apply ident_solid.
    + apply (ident_not n); [done|special].
    + apply ident_head in Hn as (x & -> & _). done.
    + apply ident_head in Hn as (x & -> & Hx). cbn. apply (ic_ne x); [done|special].
    + apply ident_head in Hn as (x & -> & Hx). cbn. apply (ic_ne x); [done|special].
    + pose proof (qualified_not_dyn [] n ltac:(constructor) Hn) as E'. cbn [qualified flat_map app] in E'. by rewrite E'.
    + exact (qualified_name [] n ltac:(constructor) Hn).
    + cbn. rewrite app_nil_r. lia.
    + cbn [names angle nices] in IH2. rewrite !app_nil_r in IH2.
      split; cbn [append]; [rewrite T1|rewrite T2]; cbn [strip_prefix];
        change (91 =? 40) with false; rewrite N.eqb_refl, HS, HR, IH1, IH2; reflexivity.
Qed.
End tame.
