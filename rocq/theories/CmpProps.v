(** C88: slices compare, hash and clone as their contents. *)

From Coq Require Import NArith List Bool Lia.
From stdpp Require Import base numbers list.
From Verif Require Import VecModel CmpModel CmpSpec.
Import stdpp.list.

Lemma full_same k z s h : full k z s h = as_slice z s h.
Proof. by destruct k. Qed.

Section T.
Context (eqt : N → N → bool) (pcmpt : N → N → option comparison) (cmpt : N → N → comparison) (hasht : N → list hcall).

Lemma std_eq_spec xs ys : std_eq eqt xs ys = true ↔ Forall2 (λ x y, eqt x y = true) xs ys.
Proof.
  unfold std_eq. revert ys. induction xs as [|x xs IH]; intros [|y ys]; cbn [length Nat.eqb combine forallb].
  - split; [constructor|done].
  - split; [done|]. by intros ?%Forall2_length.
  - split; [done|]. by intros ?%Forall2_length.
  - specialize (IH ys). rewrite Forall2_cons. destruct (length xs =? length ys)%nat.
    + cbn [fst snd]. rewrite andb_true_iff. by rewrite IH.
    + split; [done|]. by intros [_ ?%IH].
Qed.

Lemma begins_cons (R : N → N → Prop) x y xs ys : R x y → (begins R (x :: xs) (y :: ys) ↔ begins R xs ys).
Proof.
  intros HR. split.
  - intros (q & u & t & E & F). inversion F; subst. cbn in E. injection E as <- ->. by exists l', u, t.
  - intros (q & u & t & -> & F). exists (y :: q), u, t. split; [done|by constructor].
Qed.
Lemma begins_not (R : N → N → Prop) x y xs ys : ¬ R x y → ¬ begins R (x :: xs) (y :: ys).
Proof. intros HR (q & u & t & E & F). inversion F; subst. cbn in E. by injection E as <- ->. Qed.
Lemma begins_nil (R : N → N → Prop) y ys : begins R [] (y :: ys).
Proof. exists [], y, ys. split; [done|constructor]. Qed.
Lemma begins_nil_r (R : N → N → Prop) xs : ¬ begins R xs [].
Proof. intros (q & u & t & E & _). by destruct q. Qed.
Lemma decided_cons (R S : N → N → Prop) x y xs ys : R x y → ¬ S x y → (decided R S (x :: xs) (y :: ys) ↔ decided R S xs ys).
Proof.
  intros HR HS. split.
  - intros (p & q & a & b & t & u & E1 & E2 & F & Hs). inversion F; subst; cbn in E1, E2; [congruence|].
    injection E1 as <- ->. injection E2 as <- ->. by exists l, l', a, b, t, u.
  - intros (p & q & a & b & t & u & -> & -> & F & Hs). exists (x :: p), (y :: q), a, b, t, u. split_and!; try done. by constructor.
Qed.
Lemma decided_here (R S : N → N → Prop) x y xs ys : ¬ R x y → (decided R S (x :: xs) (y :: ys) ↔ S x y).
Proof.
  intros HR. split.
  - intros (p & q & a & b & t & u & E1 & E2 & F & Hs). inversion F; subst; cbn in E1, E2; [congruence|].
    injection E1 as <- ->. by injection E2 as <- ->.
  - intros Hs. exists [], [], x, y, xs, ys. by split_and!.
Qed.
Lemma decided_nil (R S : N → N → Prop) xs : ¬ decided R S [] xs ∧ ¬ decided R S xs [].
Proof. split; intros (p & q & a & b & t & u & E1 & E2 & _); [by destruct p|by destruct q]. Qed.

Lemma partial_spec xs ys : match std_partial_cmp pcmpt xs ys with
  | Some r => lexicographic (λ x y c, pcmpt x y = Some c) xs ys r
  | None => decided (λ x y, pcmpt x y = Some Datatypes.Eq) (λ x y, pcmpt x y = None) xs ys
  end.
Proof.
  revert ys. induction xs as [|x xs IH]; intros [|y ys]; cbn [std_partial_cmp length Nat.compare].
  - constructor.
  - left. apply begins_nil.
  - left. apply begins_nil.
  - specialize (IH ys). destruct (pcmpt x y) as [[]|] eqn:E.
    + destruct (std_partial_cmp pcmpt xs ys) as [[]|]; cbn [lexicographic] in *.
      * by constructor.
      * destruct IH as [IH|IH]; [left; by apply begins_cons|right; apply decided_cons; [done|congruence|done]].
      * destruct IH as [IH|IH]; [left; by apply begins_cons|right; apply decided_cons; [done|congruence|done]].
      * apply decided_cons; [done|congruence|done].
    + right. apply decided_here; [congruence|done].
    + right. apply decided_here; [congruence|done].
    + apply decided_here; [congruence|done].
Qed.
(** The relation determines its result. *)
Lemma lexicographic_one (c : N → N → option comparison) xs ys r r' :
  lexicographic (λ x y o, c x y = Some o) xs ys r → lexicographic (λ x y o, c x y = Some o) xs ys r' → r = r'.
Proof.
  revert ys. induction xs as [|x xs IH]; intros [|y ys].
  - destruct r, r'; cbn; try done; intros H1 H2;
      repeat match goal with
      | H : _ ∨ _ |- _ => destruct H
      | H : begins _ _ [] |- _ => by apply begins_nil_r in H
      | H : decided _ _ [] _ |- _ => by apply decided_nil in H
      end.
  - destruct r, r'; cbn; try done; intros H1 H2;
      repeat match goal with
      | H : _ ∨ _ |- _ => destruct H
      | H : Forall2 _ [] (_ :: _) |- _ => by inversion H
      | H : begins _ _ [] |- _ => by apply begins_nil_r in H
      | H : decided _ _ [] _ |- _ => by apply decided_nil in H
      end.
  - destruct r, r'; cbn; try done; intros H1 H2;
      repeat match goal with
      | H : _ ∨ _ |- _ => destruct H
      | H : Forall2 _ (_ :: _) [] |- _ => by inversion H
      | H : begins _ _ [] |- _ => by apply begins_nil_r in H
      | H : decided _ _ _ [] |- _ => by apply decided_nil in H
      end.
  - assert (HX : c x y = Some Datatypes.Eq ∨ c x y ≠ Some Datatypes.Eq) by (destruct (c x y) as [[]|]; auto; right; congruence).
    destruct HX as [E|E].
    + assert (HB : ∀ r, lexicographic (λ x y o, c x y = Some o) (x :: xs) (y :: ys) r → lexicographic (λ x y o, c x y = Some o) xs ys r).
      { intros [] H; cbn in *.
        - by inversion H.
        - destruct H as [H|H]; [left; by eapply begins_cons|right; apply decided_cons in H; [done|done|congruence]].
        - destruct H as [H|H]; [left; by eapply (begins_cons (λ a b, c b a = _))|right; apply decided_cons in H; [done|done|congruence]]. }
      intros H1%HB H2%HB. by eapply IH.
    + assert (HB : ∀ r, lexicographic (λ x y o, c x y = Some o) (x :: xs) (y :: ys) r → c x y = Some r).
      { intros [] H; cbn in *.
        - by inversion H.
        - destruct H as [H|H]; [by apply begins_not in H|by apply decided_here in H].
        - destruct H as [H|H]; [by apply (begins_not (λ a b, c b a = _)) in H|by apply decided_here in H]. }
      intros H1%HB H2%HB. congruence.
Qed.
Lemma undecided (c : N → N → option comparison) xs ys r :
  decided (λ x y, c x y = Some Datatypes.Eq) (λ x y, c x y = None) xs ys → ¬ lexicographic (λ x y o, c x y = Some o) xs ys r.
Proof.
  revert ys. induction xs as [|x xs IH]; intros [|y ys] D; try by apply decided_nil in D.
  assert (HX : c x y = Some Datatypes.Eq ∨ c x y ≠ Some Datatypes.Eq) by (destruct (c x y) as [[]|]; auto; right; congruence).
  destruct HX as [E|E].
  - apply decided_cons in D; [|done|congruence]. intros H. apply (IH ys D). destruct r; cbn in *.
    + by inversion H.
    + destruct H as [H|H]; [left; by eapply begins_cons|right; apply decided_cons in H; [done|done|congruence]].
    + destruct H as [H|H]; [left; by eapply (begins_cons (λ a b, c b a = _))|right; apply decided_cons in H; [done|done|congruence]].
  - apply decided_here in D; [|done]. intros H. destruct r; cbn in H.
    + inversion H; subst. congruence.
    + destruct H as [H|H]; [by apply begins_not in H|apply decided_here in H; [congruence|done]].
    + destruct H as [H|H]; [by apply (begins_not (λ a b, c b a = _)) in H|apply decided_here in H; [congruence|done]].
Qed.

(** Two slices of one kind with these contents, wherever they are. *)
Context (k : skind) (z : bool) (a b : slice) (h : heap) (xs ys : list N)
        (Ha : as_slice z a h = Ok xs) (Hb : as_slice z b h = Ok ys).

Theorem C88_eq : ∃ r, s_eq eqt k z a b h = Ok r ∧ (r = true ↔ Forall2 (λ x y, eqt x y = true) xs ys).
Proof. eexists. unfold s_eq. rewrite !full_same, Ha, Hb. split; [reflexivity|apply std_eq_spec]. Qed.

Theorem C88_partial_cmp : ∃ r, s_partial_cmp pcmpt k z a b h = Ok r ∧
  (∀ c, r = Some c ↔ lexicographic (λ x y o, pcmpt x y = Some o) xs ys c) ∧
  (r = None ↔ decided (λ x y, pcmpt x y = Some Datatypes.Eq) (λ x y, pcmpt x y = None) xs ys).
Proof.
  eexists. unfold s_partial_cmp. rewrite !full_same, Ha, Hb. split; [reflexivity|].
  pose proof (partial_spec xs ys) as H. destruct (std_partial_cmp pcmpt xs ys) as [r|].
  - split.
    + intros c. split; [by intros [= <-]|]. intros H'. f_equal. by eapply lexicographic_one.
    + split; [done|]. intros D. by destruct (undecided _ _ _ _ D H).
  - split; [|done]. intros c. split; [done|]. intros H'. by destruct (undecided _ _ _ _ H H').
Qed.

Lemma std_cmp_partial l l' : std_partial_cmp (λ x y, Some (cmpt x y)) l l' = Some (std_cmp cmpt l l').
Proof.
  revert l'. induction l as [|x l IH]; intros [|y l']; cbn [std_partial_cmp std_cmp]; try done.
  by destruct (cmpt x y).
Qed.
Theorem C88_cmp : ∃ r, s_cmp cmpt k z a b h = Ok r ∧ ∀ c, r = c ↔ lexicographic (λ x y o, cmpt x y = o) xs ys c.
Proof.
  eexists. unfold s_cmp. rewrite !full_same, Ha, Hb. split; [reflexivity|].
  assert (HL : ∀ c, lexicographic (λ x y o, cmpt x y = o) xs ys c ↔ lexicographic (λ x y o, Some (cmpt x y) = Some o) xs ys c).
  { assert (HF : ∀ (R S : N → N → Prop) l l', (∀ x y, R x y ↔ S x y) → Forall2 R l l' → Forall2 S l l').
    { intros R S l l' HRS F. eapply Forall2_impl; [exact F|]. intros; by apply HRS. }
    assert (HE : ∀ x y o, cmpt x y = o ↔ Some (cmpt x y) = Some o) by (intros; split; congruence).
    intros []; cbn; unfold begins, decided.
    - split; apply HF; intros; by rewrite HE.
    - split; (intros [(q & u & t & E & F)|(p & q & c & d & t & u & E1 & E2 & F & S)];
        [left; exists q, u, t; split; [done|]; eapply HF; [|exact F]; intros; cbn; by rewrite HE|
         right; exists p, q, c, d, t, u; split_and!; [done..| |congruence]; eapply HF; [|exact F]; intros; cbn; by rewrite HE]).
    - split; (intros [(q & u & t & E & F)|(p & q & c & d & t & u & E1 & E2 & F & S)];
        [left; exists q, u, t; split; [done|]; eapply HF; [|exact F]; intros; cbn; by rewrite HE|
         right; exists p, q, c, d, t, u; split_and!; [done..| |congruence]; eapply HF; [|exact F]; intros; cbn; by rewrite HE]). }
  pose proof (std_cmp_partial xs ys) as HS.
  assert (HP : lexicographic (λ x y o, Some (cmpt x y) = Some o) xs ys (std_cmp cmpt xs ys)).
  { clear HL. revert HS. clear. revert ys. induction xs as [|x l IH]; intros [|y l'] _; cbn [std_cmp length Nat.compare].
    - constructor.
    - left. apply begins_nil.
    - left. apply begins_nil.
    - specialize (IH l' (std_cmp_partial l l')). destruct (cmpt x y) eqn:E.
      + destruct (std_cmp cmpt l l'); cbn [lexicographic] in *.
        * constructor; [congruence|done].
        * destruct IH as [IH|IH]; [left; apply begins_cons; [congruence|done]|right; apply decided_cons; [congruence|congruence|done]].
        * destruct IH as [IH|IH]; [left; apply (begins_cons (λ a b, Some (cmpt b a) = _)); [congruence|done]|right; apply decided_cons; [congruence|congruence|done]].
      + right. apply decided_here; congruence.
      + right. apply decided_here; congruence. }
  intros c. rewrite HL. split; [by intros <-|]. intros H'. eapply (lexicographic_one (λ x y, Some (cmpt x y))); done.
Qed.

(** A hasher is told the length, then the elements in order; nothing else. *)
Theorem C88_hash : s_hash hasht k z a h = Ok (HLen (length xs) :: concat (map hasht xs)).
Proof. unfold s_hash. by rewrite full_same, Ha. Qed.
Theorem C88_hash_eq : (∀ x y, eqt x y = true → hasht x = hasht y) →
  s_eq eqt k z a b h = Ok true → s_hash hasht k z a h = s_hash hasht k z b h.
Proof.
  intros HH. destruct C88_eq as (r & -> & Hr). intros [= ->]. pose proof (proj1 Hr eq_refl) as F. clear Hr.
  unfold s_hash. rewrite !full_same, Ha, Hb. cbn. unfold std_hash. f_equal. f_equal; [f_equal; by eapply Forall2_length|].
  clear Ha Hb. induction F as [|x y l l' E F IH]; [done|]. cbn. by rewrite (HH x y E), IH.
Qed.
End T.

(** Nothing but the contents matters: not where they are nor whose they are. *)
Theorem C88_contents eqt pcmpt cmpt hasht k k' z a b a' b' h h' :
  as_slice z a h = as_slice z a' h' → as_slice z b h = as_slice z b' h' →
  s_eq eqt k z a b h = s_eq eqt k' z a' b' h' ∧ s_cmp cmpt k z a b h = s_cmp cmpt k' z a' b' h' ∧
  s_partial_cmp pcmpt k z a b h = s_partial_cmp pcmpt k' z a' b' h' ∧ s_hash hasht k z a h = s_hash hasht k' z a' h'.
Proof. intros E1 E2. unfold s_eq, s_cmp, s_partial_cmp, s_hash. by rewrite !full_same, E1, E2. Qed.

(** A total order of the elements makes one of the slices, that agrees with
    equality. *)
Lemma std_total eqt cmpt : lawful eqt cmpt →
  (∀ xs ys, std_cmp cmpt ys xs = CompOpp (std_cmp cmpt xs ys)) ∧
  (∀ xs ys zs, std_cmp cmpt xs ys ≠ Gt → std_cmp cmpt ys zs ≠ Gt → std_cmp cmpt xs zs ≠ Gt ∧
     (std_cmp cmpt xs ys = Lt ∨ std_cmp cmpt ys zs = Lt → std_cmp cmpt xs zs = Lt)) ∧
  (∀ xs ys, std_eq eqt xs ys = true ↔ std_cmp cmpt xs ys = Datatypes.Eq).
Proof.
  intros [Lo Lt1 Lt2 Lt3 Le]. split_and!.
  - induction xs as [|x xs IH]; intros [|y ys]; cbn [std_cmp length Nat.compare]; try done.
    rewrite (Lo x y). destruct (cmpt x y) eqn:E; cbn; try done.
  - induction xs as [|x xs IH]; intros [|y ys] [|u zs]; cbn [std_cmp length Nat.compare];
      try (intros H1 H2; first [done|split; [done|by intros [?|?]]]; fail).
    intros H1 H2. destruct (cmpt x y) eqn:E1, (cmpt y u) eqn:E2; try done.
    + pose proof (IH ys zs H1 H2) as IH'. assert (cmpt x u = Datatypes.Eq) as ->; [|done].
      assert (N1 : cmpt x u ≠ Gt) by (apply (Lt1 x y u); congruence).
      assert (N2 : cmpt u x ≠ Gt). { apply (Lt1 u y x); [rewrite (Lo y u), E2|rewrite (Lo x y), E1]; done. }
      rewrite (Lo x u) in N2. by destruct (cmpt x u).
    + assert (cmpt x u = Lt) as ->; [|done]. apply (Lt3 x y u); congruence.
    + assert (cmpt x u = Lt) as ->; [|done]. apply (Lt2 x y u); congruence.
    + assert (cmpt x u = Lt) as ->; [|done]. apply (Lt2 x y u); congruence.
  - intros xs ys. rewrite std_eq_spec. revert ys. induction xs as [|x xs IH]; intros [|y ys]; cbn [std_cmp length Nat.compare].
    + split; [done|constructor].
    + split; [by inversion 1|done].
    + split; [by inversion 1|done].
    + rewrite Forall2_cons, Le, IH. destruct (cmpt x y); naive_solver.
Qed.
Theorem C88_total eqt cmpt k z h a b c xs ys zs : lawful eqt cmpt →
  as_slice z a h = Ok xs → as_slice z b h = Ok ys → as_slice z c h = Ok zs →
  ∃ ab ba bc ac : comparison,
    s_cmp cmpt k z a b h = Ok ab ∧ s_cmp cmpt k z b a h = Ok ba ∧ s_cmp cmpt k z b c h = Ok bc ∧ s_cmp cmpt k z a c h = Ok ac ∧
    ba = CompOpp ab ∧
    (ab ≠ Gt → bc ≠ Gt → ac ≠ Gt ∧ (ab = Lt ∨ bc = Lt → ac = Lt)) ∧
    (s_eq eqt k z a b h = Ok true ↔ ab = Datatypes.Eq).
Proof.
  intros HL Ha Hb Hc. destruct (std_total _ _ HL) as (T1 & T2 & T3).
  exists (std_cmp cmpt xs ys), (std_cmp cmpt ys xs), (std_cmp cmpt ys zs), (std_cmp cmpt xs zs).
  unfold s_cmp, s_eq. rewrite !full_same, Ha, Hb, Hc. cbn. split_and!; try done.
  - by apply T2.
  - rewrite <-T3. split; [by intros [= ->]|by intros ->].
Qed.

(** The default is empty, and costs nothing. *)
Theorem C88_default k z h : ∃ s, s_default k z h = (h, s) ∧ full k z s h = Ok [] ∧
  (k = KBoxed → cbox_drop z (CBox (sptr s) (slen s)) h = Ok (note [] h)).
Proof.
  exists (Slice Dangling 0). destruct k; (split; [by destruct z|]).
  - cbn. split; [by destruct z|done].
  - cbn. split; [by destruct z|done].
  - cbn. split; [by destruct z|]. intros _. unfold cbox_drop, box_drop, box_from_raw, vec_from_raw_parts, dealloc. by destruct z.
Qed.

(** A clone has the same elements in memory of its own; dropping it leaves what
    was there before. *)
Lemma as_slice_grows z p l h bs es xs : as_slice z (Slice p l) h = Ok xs →
  as_slice z (Slice p l) (Heap (blocks h ++ bs) es) = Ok xs.
Proof.
  unfold as_slice, from_raw_parts. cbn [sptr slen blocks]. destruct p as [| |i o]; [done..|]. destruct z; [done|].
  destruct (blocks h !! i) as [bl|] eqn:E; [|done]. by rewrite (lookup_app_l_Some _ _ _ _ E).
Qed.
Lemma as_slice_length z s h xs : as_slice z s h = Ok xs → length xs = slen s ∧ (z = true → xs = repeat 0%N (slen s)).
Proof.
  unfold as_slice, from_raw_parts. destruct (sptr s) as [| |i o]; [done| |].
  - destruct z; [intros [= <-]; by rewrite repeat_length|]. destruct (slen s); [by intros [= <-]|done].
  - destruct z; [intros [= <-]; by rewrite repeat_length|]. destruct (blocks h !! i) as [[n ys []]|]; try done.
    destruct (Nat.leb_spec (o + slen s) (length ys)); [|done]. intros [= <-]. rewrite take_length, drop_length. split; [lia|done].
Qed.
Lemma allocated_grows h x es : ¬ freed x = false → ∀ i, allocated (Heap (blocks h ++ [x]) es) i ↔ allocated h i.
Proof.
  intros Hx i. unfold allocated. cbn [blocks]. split.
  - intros (n & xs & E). apply lookup_app_Some in E as [E|[_ E]]; [eauto|].
    apply list_lookup_singleton_Some in E as [_ E]. by subst.
  - intros (n & xs & E). exists n, xs. by apply lookup_app_l_Some.
Qed.

Theorem C88_clone z self h xs : as_slice z (cbox_as_ref self) h = Ok xs →
  ∃ h' b, cbox_clone z self None h = Ok (h', Some b) ∧ as_slice z (cbox_as_ref b) h' = Ok xs ∧
    as_slice z (cbox_as_ref self) h' = Ok xs ∧
    (∀ i o, cptr b = At i o → i = length (blocks h)) ∧
    ∃ h2, cbox_drop z b h' = Ok h2 ∧ as_slice z (cbox_as_ref self) h2 = Ok xs ∧
      (∀ i, i < length (blocks h) → blocks h2 !! i = blocks h !! i) ∧ (∀ i, allocated h2 i ↔ allocated h i) ∧
      events h2 = events h ++ (if z || (length xs =? 0) then [] else [EAlloc (length (blocks h)) (N.of_nat (length xs))])
                    ++ map EDrop xs
                    ++ (if z || (length xs =? 0) then [] else [EFree (length (blocks h)) (N.of_nat (length xs))]).
Proof.
  intros Hs. destruct (as_slice_length _ _ _ _ Hs) as [Hl Hz].
  assert (Hd : cbox_deref z self h = Ok xs) by done.
  destruct (z || (length xs =? 0))%bool eqn:Ez.
  - assert (HN : z || (N.of_nat (length xs) =? 0)%N = true).
    { destruct z; [done|]. cbn in *. apply Nat.eqb_eq in Ez. by rewrite Ez. }
    exists h, (CBox Dangling (length xs)).
    assert (HD : as_slice z (Slice Dangling (length xs)) h = Ok xs).
    { unfold as_slice, from_raw_parts. cbn [sptr slen]. destruct z; [rewrite Hl; f_equal; symmetry; by apply Hz|].
      cbn in Ez. apply Nat.eqb_eq in Ez. by destruct xs. }
    split_and!; [|done|done|done|].
    + unfold cbox_clone. rewrite Hd. cbn. unfold vec_new, alloc. rewrite N.max_id. destruct z; cbn; [done|].
      cbn in HN. rewrite HN. unfold vec_into_box, vec_realloc. cbn. by rewrite N.eqb_refl.
    + exists (note (map EDrop xs) h). split_and!; try done; [|by cbn; rewrite app_nil_r].
      unfold cbox_drop. cbn [cptr clen]. unfold as_slice in HD. cbn [sptr slen] in HD. rewrite HD. cbn [bind].
      unfold box_from_raw, vec_from_raw_parts. destruct z.
      * cbn in HD. injection HD as HD. cbn. unfold box_drop. cbn. by rewrite HD.
      * cbn in Ez. apply Nat.eqb_eq in Ez. by destruct xs.
  - apply orb_false_iff in Ez as [-> Ez]. apply Nat.eqb_neq in Ez.
    assert (HN : (N.of_nat (length xs) =? 0)%N = false) by (apply N.eqb_neq; lia).
    set (h' := Heap (blocks h ++ [Block (N.of_nat (length xs)) xs false]) (events h ++ [EAlloc (length (blocks h)) (N.of_nat (length xs))])).
    assert (HB : blocks h' !! length (blocks h) = Some (Block (N.of_nat (length xs)) xs false)).
    { cbn. by rewrite lookup_app_r, Nat.sub_diag by lia. }
    assert (HD : from_raw_parts false (At (length (blocks h)) 0) (length xs) h' = Ok xs).
    { unfold from_raw_parts. rewrite HB. cbn. by rewrite Nat.leb_refl, drop_0, firstn_all. }
    exists h', (CBox (At (length (blocks h)) 0) (length xs)). split_and!.
    + unfold cbox_clone. rewrite Hd. cbn [bind]. unfold vec_new, alloc. rewrite N.max_id. cbn [orb]. rewrite HN. fold h'.
      unfold vec_into_box, vec_realloc. cbn [rc rl rp orb]. by rewrite N.eqb_refl.
    + done.
    + by apply as_slice_grows.
    + intros i o. cbn [cptr]. by intros [= <-].
    + eexists. split_and!.
      * unfold cbox_drop. cbn [cptr clen]. rewrite HD. cbn [bind]. unfold box_from_raw, vec_from_raw_parts. rewrite HN, HB, N.eqb_refl, Nat.leb_refl. cbn [andb bind rp rl].
        unfold box_drop. cbn [bp bl]. rewrite HD. cbn [bind]. unfold dealloc, drop_elems, note. cbn [orb blocks]. rewrite HN, HB, N.eqb_refl. reflexivity.
      * unfold h' at 1. cbn [blocks]. rewrite insert_app_r_alt, Nat.sub_diag by lia. cbn [list_insert insert]. by apply as_slice_grows.
      * intros i Hi. cbn [blocks]. rewrite list_lookup_insert_ne by lia. cbn. by apply lookup_app_l.
      * unfold h' at 1. cbn [blocks]. rewrite insert_app_r_alt, Nat.sub_diag by lia. by apply allocated_grows.
      * cbn [events orb]. unfold h'. cbn [events]. by rewrite <-!app_assoc.
Qed.
(** If the clone of element [n] panics, those before it are dropped, and the
    memory is given back. *)
Theorem C88_clone_panic z self h xs n : as_slice z (cbox_as_ref self) h = Ok xs → n < length xs →
  ∃ h', cbox_clone z self (Some n) h = Ok (h', None) ∧
    (∀ i, i < length (blocks h) → blocks h' !! i = blocks h !! i) ∧ (∀ i, allocated h' i ↔ allocated h i) ∧
    events h' = events h ++ (if z then [] else [EAlloc (length (blocks h)) (N.of_nat (length xs))])
                  ++ map EDrop (take n xs)
                  ++ (if z then [] else [EFree (length (blocks h)) (N.of_nat (length xs))]).
Proof.
  intros Hs Hn. destruct (as_slice_length _ _ _ _ Hs) as [Hl Hz].
  assert (Hd : cbox_deref z self h = Ok xs) by done.
  unfold cbox_clone. rewrite Hd. cbn [bind]. rewrite (proj2 (Nat.ltb_lt _ _) Hn).
  assert (HT : length (take n xs) = n) by (rewrite take_length; lia).
  unfold vec_new. rewrite HT, N.max_l by lia. unfold alloc. destruct z.
  - cbn [orb]. eexists. split_and!.
    + unfold vec_drop, vec_read, from_raw_parts. cbn [rp rl bind]. unfold dealloc. cbn [orb is_null bind]. reflexivity.
    + done.
    + done.
    + cbn. assert (HR : ∀ i j, i ≤ j → take i (repeat 0%N j) = repeat 0%N i).
      { induction i as [|i IH]; intros [|j] Hij; cbn; [done..|lia|]. by rewrite IH by lia. }
      rewrite (Hz eq_refl), HR, app_nil_r by lia. done.
  - cbn [orb]. rewrite (proj2 (N.eqb_neq (N.of_nat (length xs)) 0)) by lia.
    set (h1 := Heap (blocks h ++ _) _).
    assert (HB : blocks h1 !! length (blocks h) = Some (Block (N.of_nat (length xs)) (take n xs) false)).
    { cbn. by rewrite lookup_app_r, Nat.sub_diag by lia. }
    eexists. split_and!.
    + unfold vec_drop, vec_read, from_raw_parts. cbn [rp rl]. rewrite HB. cbn [Nat.add]. rewrite HT, Nat.leb_refl. cbn [bind].
      rewrite drop_0, take_take, Nat.min_id. unfold dealloc, drop_elems, note. cbn [orb rc blocks].
      rewrite (proj2 (N.eqb_neq (N.of_nat (length xs)) 0)) by lia. rewrite HB, N.eqb_refl. cbn [bind]. reflexivity.
    + intros i Hi. cbn [blocks]. rewrite list_lookup_insert_ne by lia. cbn. by apply lookup_app_l.
    + unfold h1 at 1. cbn [blocks]. rewrite insert_app_r_alt, Nat.sub_diag by lia. by apply allocated_grows.
    + cbn [events]. unfold h1. cbn [events]. by rewrite <-!app_assoc.
Qed.

(** ** Examples *)
Definition hcmp1 : heap := Heap [Block 4 [1; 2; 3; 9] false; Block 3 [1; 2; 4] false]%N [].
Example C88_ex_order :
  as_slice false (Slice (At 0 0) 3) hcmp1 = Ok [1; 2; 3]%N ∧ as_slice false (Slice (At 1 0) 3) hcmp1 = Ok [1; 2; 4]%N ∧
  s_cmp N.compare KRef false (Slice (At 0 0) 3) (Slice (At 1 0) 3) hcmp1 = Ok Lt ∧
  s_cmp N.compare KBoxed false (Slice (At 0 0) 4) (Slice (At 1 0) 2) hcmp1 = Ok Gt ∧
  s_eq N.eqb KMut false (Slice (At 0 0) 2) (Slice (At 1 0) 2) hcmp1 = Ok true.
Proof. done. Qed.
(** Elements of which one (7, a NaN) is not comparable. *)
Definition nan_cmp (x y : N) : option comparison := if (x =? 7)%N || (y =? 7)%N then None else Some (N.compare x y).
Example C88_ex_partial :
  std_partial_cmp nan_cmp [1; 7]%N [1; 7]%N = None ∧ std_partial_cmp nan_cmp [1; 7]%N [2; 7]%N = Some Lt.
Proof. done. Qed.
Example C88_ex_lawful : lawful N.eqb N.compare.
Proof.
  split.
  - intros. apply N.compare_antisym.
  - intros x y z. rewrite !N.compare_gt_iff. lia.
  - intros x y z. rewrite !N.compare_gt_iff, !N.compare_lt_iff. lia.
  - intros x y z. rewrite !N.compare_gt_iff, !N.compare_lt_iff. lia.
  - intros x y. by rewrite N.eqb_eq, N.compare_eq_iff.
Qed.
Example C88_ex_clone : cbox_clone false (CBox (At 1 0) 3) (Some 2) hcmp1 =
  Ok (Heap (blocks hcmp1 ++ [Block 3 [] true]) [EAlloc 2 3; EDrop 1; EDrop 2; EFree 2 3], None)%N.
Proof. done. Qed.

Print Assumptions C88_eq.
Print Assumptions C88_partial_cmp.
Print Assumptions C88_cmp.
Print Assumptions C88_hash.
Print Assumptions C88_hash_eq.
Print Assumptions C88_contents.
Print Assumptions C88_total.
Print Assumptions C88_default.
Print Assumptions C88_clone.
Print Assumptions C88_clone_panic.
