From Coq Require Import ZifyBool ZifyNat ZifyN.
From stdpp Require Import base numbers list sets.
From Verif Require Import CStrModel CStrSpec.
Local Open Scope N_scope.

(** ** Lists and NULs *)

Lemma position0_none l : position0 l = None ↔ 0 ∉ l.
Proof.
  induction l as [|b l IH]; cbn; [set_solver|].
  destruct (N.eqb_spec b 0) as [->|Hb]; [set_solver|].
  rewrite fmap_None, IH. set_solver.
Qed.
Lemma position0_app s t : 0 ∉ s → position0 (s ++ 0 :: t) = Some (length s).
Proof.
  induction s as [|b s IH]; cbn; [done|]. intros Hn.
  destruct (N.eqb_spec b 0) as [->|Hb]; [set_solver|]. rewrite IH by set_solver. done.
Qed.
Lemma position0_some l n : position0 l = Some n → ∃ s t, l = s ++ 0 :: t ∧ length s = n ∧ 0 ∉ s.
Proof.
  revert n; induction l as [|b l IH]; cbn; intros n; [done|].
  destruct (N.eqb_spec b 0) as [->|Hb].
  - intros [= <-]. exists [], l. split_and!; [done..|set_solver].
  - destruct (position0 l) as [k|] eqn:E; [|done]. intros [= <-].
    destruct (IH _ eq_refl) as (s & t & -> & <- & Hs).
    exists (b :: s), t. split_and!; [done..|set_solver].
Qed.
Lemma contains0_spec l : contains0 l = true ↔ 0 ∈ l.
Proof.
  unfold contains0. rewrite existsb_exists. split.
  - intros (x & Hx & ->%N.eqb_eq). by apply elem_of_list_In.
  - intros H. exists 0. split; [by apply elem_of_list_In|done].
Qed.

Lemma removelast_take (l : list N) : removelast l = take (length l - 1) l.
Proof.
  induction l as [|x l IH]; [done|]. destruct l as [|y l]; [done|].
  change (removelast (x :: y :: l)) with (x :: removelast (y :: l)). rewrite IH.
  cbn. by rewrite Nat.sub_0_r.
Qed.
Lemma removelast_app1 (l : list N) x : removelast (l ++ [x]) = l.
Proof. rewrite removelast_app by done. cbn. apply app_nil_r. Qed.

(** A string is empty or has a last byte. *)
Lemma snoc_cases (l : list N) : l = [] ∨ ∃ l' x, l = l' ++ [x].
Proof. destruct l as [|x l'] using rev_ind; eauto. Qed.

(** Strings without inner NUL, by cases. *)
Lemma no_inner_nul_cases s : no_inner_nul s ↔ 0 ∉ s ∨ ∃ t, s = t ++ [0] ∧ 0 ∉ t.
Proof.
  unfold no_inner_nul. destruct (snoc_cases s) as [->|(t & x & ->)].
  - cbn. split; [left|]; set_solver.
  - rewrite removelast_app1. split.
    + intros Ht. destruct (decide (x = 0)) as [->|]; [right; eauto|left; set_solver].
    + intros [?|(t' & E & ?)]; [set_solver|]. apply app_inj_tail in E as [-> _]. done.
Qed.
Lemma strip_nonul s : 0 ∉ s → strip s = s.
Proof.
  intros H. unfold strip. rewrite decide_False; [done|].
  destruct (snoc_cases s) as [->|(t & x & ->)]; [done|]. rewrite last_snoc. intros [= ->]. set_solver.
Qed.
Lemma strip_snoc t : strip (t ++ [0]) = t.
Proof. unfold strip. rewrite decide_True by apply last_snoc. apply removelast_app1. Qed.
Lemma terminated_cases s : terminated s ↔ s = [] ∨ ∃ t, s = t ++ [0] ∧ 0 ∉ t.
Proof.
  unfold terminated. rewrite no_inner_nul_cases.
  destruct (snoc_cases s) as [->|(t & x & ->)]; [tauto|]. rewrite last_snoc. split.
  - intros [?|[[= ->] [?|(t' & E & ?)]]]; [destruct t; done|set_solver|right; eauto].
  - intros [?|(t' & [-> ->]%app_inj_tail & ?)]; [destruct t; done|right; eauto].
Qed.

(** ** UTF-8 *)

Lemma cont_0 : cont 0 = false.
Proof. done. Qed.

Lemma utf8_app_nul_aux n s t :
  (length s ≤ n)%nat → utf8 (s ++ 0 :: t) = utf8 s && utf8 t.
Proof.
  revert s; induction n as [|n IH]; intros s Hn.
  - destruct s; [done|cbn in Hn; lia].
  - destruct s as [|b0 s]; [done|]. cbn [app utf8].
    destruct (b0 <? 128) eqn:E0; [apply IH; cbn in Hn; lia|].
    destruct s as [|b1 s].
    { cbn [app]. rewrite cont_0. cbn [andb].
      destruct ((194 <=? b0) && (b0 <=? 223)); [done|].
      destruct t as [|b2 t]; [done|].
      destruct ((224 <=? b0) && (b0 <=? 239)).
      - destruct (b0 =? 224), (b0 =? 237); cbn; done.
      - destruct t; [done|]. destruct (b0 =? 240), (b0 =? 244); cbn; by rewrite ?andb_false_r. }
    cbn [app]. destruct ((194 <=? b0) && (b0 <=? 223)).
    { rewrite IH by (cbn in Hn; lia). by rewrite andb_assoc. }
    destruct s as [|b2 s].
    { cbn [app]. rewrite cont_0.
      destruct ((224 <=? b0) && (b0 <=? 239)); [by rewrite ?andb_false_r|]. destruct t; [done|].
      by rewrite ?andb_false_r. }
    cbn [app]. destruct ((224 <=? b0) && (b0 <=? 239)).
    { rewrite IH by (cbn in Hn; lia). by rewrite !andb_assoc. }
    destruct s as [|b3 s].
    { cbn [app]. rewrite cont_0. by rewrite !andb_false_r. }
    cbn [app]. rewrite IH by (cbn in Hn; lia). by rewrite !andb_assoc.
Qed.
(** A NUL byte always stands for itself, so cutting there cuts between characters. *)
Lemma utf8_app_nul s t : utf8 (s ++ 0 :: t) = utf8 s && utf8 t.
Proof. by apply (utf8_app_nul_aux (length s)). Qed.
Lemma utf8_snoc s : utf8 (s ++ [0]) = utf8 s.
Proof. rewrite utf8_app_nul. cbn. apply andb_true_r. Qed.

(** ** Borrowed strings *)

Lemma ref_to_bytes_ok s t : 0 ∉ s → ref_to_bytes (s ++ 0 :: t) = Some s.
Proof. intros H. unfold ref_to_bytes, ref_count. rewrite position0_app by done. cbn. by rewrite take_app. Qed.
Lemma ref_to_bytes_with_null_ok s t : 0 ∉ s → ref_to_bytes_with_null (s ++ 0 :: t) = Some (s ++ [0]).
Proof.
  intros H. unfold ref_to_bytes_with_null, ref_count. rewrite position0_app by done. cbn.
  rewrite decide_True by (rewrite app_length; cbn; lia).
  rewrite take_app_ge by lia. replace (length s + 1 - length s)%nat with 1%nat by lia. done.
Qed.
Lemma ref_to_str_ok s t : 0 ∉ s → utf8 s = true → ref_to_str (s ++ 0 :: t) = Some s.
Proof. intros H Hu. unfold ref_to_str. rewrite ref_to_bytes_ok by done. cbn. by rewrite Hu. Qed.
Lemma ref_to_str_with_null_ok s t :
  0 ∉ s → utf8 s = true → ref_to_str_with_null (s ++ 0 :: t) = Some (s ++ [0]).
Proof.
  intros H Hu. unfold ref_to_str_with_null. rewrite ref_to_bytes_with_null_ok by done. cbn.
  by rewrite utf8_snoc, Hu.
Qed.

Lemma ref_try_from_ok s post :
  (terminated s → ∃ t, ref_try_from s post = Some (strip s ++ 0 :: t) ∧ 0 ∉ strip s) ∧
  (¬ terminated s → ref_try_from s post = None).
Proof.
  rewrite terminated_cases. split.
  - intros [->|(t & -> & Ht)]; [exists []; split; [done|set_solver]|].
    rewrite strip_snoc. exists post. split; [|done]. unfold ref_try_from.
    rewrite app_length, Nat.add_comm. cbn [length Nat.add].
    rewrite decide_True by (by apply position0_app). by rewrite <-app_assoc.
  - intros Hn. unfold ref_try_from. destruct (length s) as [|n] eqn:El.
    { destruct s; [|done]. destruct Hn; by left. }
    rewrite decide_False; [done|]. intros (u & v & -> & Hu & Hn0)%position0_some.
    apply Hn. right. exists u. split; [|done]. f_equal. destruct v; [done|].
    rewrite app_length in El. cbn in El. lia.
Qed.

(** ** Ownership *)

Definition buf_rep (m : mem) (s : buf) (x : list N) : Prop :=
  match bf_blk s with
  | None => x = [] ∧ bf_len s = 0%nat
  | Some (b, cap) => ∃ d, m !! b = Some (Blk cap d true 1) ∧ (bf_len s ≤ length d)%nat ∧
      (length d ≤ cap)%nat ∧ x = take (bf_len s) d ∧ (0 < cap)%nat
  end.

(** A value stands for a byte string.  [own1]: the block has no other owner. *)
Definition rep (m : mem) (v : value) (a : aval) : Prop :=
  match v, a with
  | VString s, AString x => buf_rep m s x ∧ utf8 x = true
  | VVec s, AVec x => buf_rep m s x
  | VCString b len, ACString x =>
      m !! b = Some (Blk len (x ++ [0]) true 1) ∧ len = (length x + 1)%nat ∧ 0 ∉ x
  | VBoxed PSentinel, ABoxed x => x = []
  | VBoxed (PHeap b), ABoxed x =>
      m !! b = Some (Blk (length x + 1) (x ++ [0]) true 1) ∧ 0 ∉ x ∧ utf8 x = true
  | VArc b len, AArc x =>
      ∃ n, m !! b = Some (Blk len (x ++ [0]) true (S n)) ∧ len = (length x + 1)%nat ∧ 0 ∉ x
  | VShared b, AShared x =>
      ∃ n, m !! b = Some (Blk (length x + 1) (x ++ [0]) true (S n)) ∧ 0 ∉ x ∧ utf8 x = true
  | _, _ => False
  end.

Definition occ (b : nat) (l : list (value * aval)) : nat :=
  sum_list ((λ x : value * aval, if decide (own x.1 = Some b) then 1%nat else 0%nat) <$> l).

Record Inv (m : mem) (l : list (value * aval)) : Prop := {
  inv_rep : Forall (λ x, rep m x.1 x.2) l;
  inv_occ : ∀ b k, m !! b = Some k → b_rc k = occ b l;
  inv_live : ∀ b k, m !! b = Some k → b_live k = bool_decide (0 < b_rc k)%nat;
}.

Lemma occ_cons b x l :
  occ b (x :: l) = ((if decide (own x.1 = Some b) then 1 else 0) + occ b l)%nat.
Proof. done. Qed.
Lemma occ_perm b l l' : l ≡ₚ l' → occ b l = occ b l'.
Proof. intros H. unfold occ. induction H; cbn; lia. Qed.
Lemma Inv_perm m l l' : l ≡ₚ l' → Inv m l → Inv m l'.
Proof.
  intros H [H1 H2 H3]. split; [by rewrite <-H| |done].
  intros b k Hb. rewrite <-(occ_perm _ _ _ H). eauto.
Qed.
Lemma occ_pos b l x : x ∈ l → own x.1 = Some b → (1 ≤ occ b l)%nat.
Proof.
  intros Hx Ho. induction Hx as [x l|x y l Hx IH]; rewrite occ_cons.
  - rewrite decide_True by done. lia.
  - specialize (IH Ho). lia.
Qed.

Lemma rep_in m v a b : rep m v a → own v = Some b → ∃ k, m !! b = Some k ∧ b_live k = true.
Proof.
  destruct v as [s|s|?|[|?]|?|?], a; try (by intros []); cbn.
  - intros [Hs _]. unfold buf_rep in Hs. destruct (bf_blk s) as [[? ?]|]; [|done].
    intros [= <-]. destruct Hs as (d & ? & _). eauto.
  - intros Hs. unfold buf_rep in Hs. destruct (bf_blk s) as [[? ?]|]; [|done].
    intros [= <-]. destruct Hs as (d & ? & _). eauto.
  - intros (? & ? & ?) [= <-]. eauto.
  - intros (? & ?) [= <-]. eauto.
  - intros (? & ? & ?) [= <-]. eauto.
  - intros (? & ? & ?) [= <-]. eauto.
Qed.

Lemma rep_ext m m' v a :
  (∀ b, own v = Some b → m' !! b = m !! b) → rep m v a → rep m' v a.
Proof.
  intros H. destruct v as [s|s|?|[|?]|?|?], a; try (by intros []); cbn in *.
  - intros [Hs ?]. split; [|done]. unfold buf_rep in *. destruct (bf_blk s) as [[? ?]|]; [|done].
    by rewrite H.
  - intros Hs. unfold buf_rep in *. destruct (bf_blk s) as [[? ?]|]; [|done]. by rewrite H.
  - by rewrite H.
  - done.
  - by rewrite H.
  - by rewrite H.
  - by rewrite H.
Qed.

(** Values that may share their block. *)
Definition sharable (v : value) : bool :=
  match v with VArc _ _ | VShared _ => true | _ => false end.

Lemma rep_unique m v a b k :
  rep m v a → own v = Some b → sharable v = false → m !! b = Some k → b_rc k = 1%nat.
Proof.
  intros Hr Ho Hs Hk. destruct v as [s|s|b1 len|[|b1]|?|?], a; try (by destruct Hr); cbn in *; try done.
  - destruct Hr as [Hr _]. unfold buf_rep in Hr. destruct (bf_blk s) as [[? ?]|]; [|done].
    injection Ho as ->. destruct Hr as (d & Hd & _). by simplify_eq.
  - unfold buf_rep in Hr. destruct (bf_blk s) as [[? ?]|]; [|done].
    injection Ho as ->. destruct Hr as (d & Hd & _). by simplify_eq.
  - destruct Hr as (Hd & _). by simplify_eq.
  - destruct Hr as (Hd & _). by simplify_eq.
Qed.

(** Changing only the count does not matter to shared values. *)
Lemma rep_rc m v a b k n :
  m !! b = Some k → sharable v = true → b_live k = true → rep m v a →
  rep (<[b := Blk (b_size k) (b_data k) true (S n)]> m) v a.
Proof.
  intros Hk Hs Hl. destruct v as [s|s|?|[|?]|b' ?|b'], a; try done; cbn; intros (n' & Hb' & ?).
  - destruct (decide (b = b')) as [<-|].
    + rewrite Hk in Hb'. injection Hb' as ->. exists n.
      rewrite list_lookup_insert by (eapply lookup_lt_Some; eauto). done.
    + exists n'. rewrite list_lookup_insert_ne by done. done.
  - destruct (decide (b = b')) as [<-|].
    + rewrite Hk in Hb'. injection Hb' as ->. exists n.
      rewrite list_lookup_insert by (eapply lookup_lt_Some; eauto). done.
    + exists n'. rewrite list_lookup_insert_ne by done. done.
Qed.

(** ** How the invariant evolves *)

Lemma Inv_nil : Inv [] [].
Proof. split; [done| |]; intros b k H; done. Qed.

Lemma Inv_unowned m l v a : own v = None → rep m v a → Inv m l → Inv m ((v, a) :: l).
Proof.
  intros Ho Hr [H1 H2 H3]. split; [by constructor| |done].
  intros b k Hb. rewrite occ_cons. cbn [fst]. rewrite Ho, decide_False by done. eauto.
Qed.
Lemma Inv_drop_unowned m l v a : own v = None → Inv m ((v, a) :: l) → Inv m l.
Proof.
  intros Ho [H1 H2 H3]. split; [by inversion H1| |done].
  intros b k Hb. specialize (H2 b k Hb). rewrite occ_cons in H2. cbn [fst] in H2.
  rewrite Ho, decide_False in H2 by done. done.
Qed.

Lemma occ_fresh m l b : Inv m l → (length m ≤ b)%nat → occ b l = 0%nat.
Proof.
  intros [H1 _ _] Hb. induction l as [|[v a] l IH]; [done|]. rewrite occ_cons.
  inversion H1 as [|?? Hr H1']; subst. rewrite IH by done. cbn in *. rewrite decide_False; [done|].
  intros Ho. destruct (rep_in _ _ _ _ Hr Ho) as (k & Hk & _). apply lookup_lt_Some in Hk. lia.
Qed.

Lemma rep_grow m v a k : rep m v a → rep (m ++ [k]) v a.
Proof.
  intros Hr. eapply rep_ext; [|exact Hr]. intros b Hb.
  destruct (rep_in _ _ _ _ Hr Hb) as (k' & Hk & _). rewrite Hk. by apply lookup_app_l_Some.
Qed.

Lemma Inv_alloc m l v a size d :
  Inv m l → own v = Some (length m) → rep (m ++ [Blk size d true 1]) v a →
  Inv (m ++ [Blk size d true 1]) ((v, a) :: l).
Proof.
  intros HI Ho Hr. pose proof (occ_fresh m l (length m) HI (le_n _)) as Hf.
  destruct HI as [H1 H2 H3]. split.
  - constructor; [done|]. eapply Forall_impl; [exact H1|]. intros [v' a'] ?. by apply rep_grow.
  - intros b k Hb. rewrite occ_cons. cbn [fst]. rewrite Ho.
    apply lookup_app_Some in Hb as [Hb|[Hge Hb]].
    + rewrite decide_False; [eauto|]. intros [= <-]. apply lookup_lt_Some in Hb. lia.
    + apply list_lookup_singleton_Some in Hb as [Hb0 <-].
      assert (b = length m) as -> by lia. rewrite decide_True by done. cbn. by rewrite Hf.
  - intros b k Hb. apply lookup_app_Some in Hb as [Hb|[Hge Hb]]; [eauto|].
    apply list_lookup_singleton_Some in Hb as [Hb0 <-]. done.
Qed.

Lemma unique_other m l v a b k :
  Inv m ((v, a) :: l) → own v = Some b → m !! b = Some k → b_rc k = 1%nat →
  ∀ x, x ∈ l → own x.1 ≠ Some b.
Proof.
  intros [H1 H2 H3] Ho Hk Hrc x Hx Hox. specialize (H2 b k Hk). rewrite occ_cons in H2.
  cbn [fst] in H2. rewrite decide_True in H2 by done.
  pose proof (occ_pos _ _ _ Hx Hox). lia.
Qed.

Lemma occ_0 b l : (∀ x, x ∈ l → own x.1 ≠ Some b) → occ b l = 0%nat.
Proof.
  induction l as [|x l IH]; [done|]. intros H. rewrite occ_cons, IH by set_solver.
  rewrite decide_False; [done|]. apply H. set_solver.
Qed.

(** The single owner of a block may change its contents, and become another value. *)
Lemma Inv_update m l v a v' a' b k k' :
  Inv m ((v, a) :: l) → own v = Some b → m !! b = Some k → b_rc k = 1%nat →
  own v' = Some b → b_rc k' = 1%nat → b_live k' = true → rep (<[b := k']> m) v' a' →
  Inv (<[b := k']> m) ((v', a') :: l).
Proof.
  intros HI Ho Hk Hrc Ho' Hrc' Hl' Hr'.
  pose proof (unique_other _ _ _ _ _ _ HI Ho Hk Hrc) as Hne.
  pose proof (lookup_lt_Some _ _ _ Hk) as Hlt.
  destruct HI as [H1 H2 H3]. inversion H1 as [|?? Hr H1']; subst. split.
  - constructor; [done|]. rewrite Forall_forall in H1' |- *. intros x Hx.
    eapply rep_ext; [|by apply H1']. intros b' Hb'. apply list_lookup_insert_ne.
    intros <-. by apply (Hne x Hx).
  - intros b' k'' Hb'. rewrite occ_cons. cbn [fst]. rewrite Ho'.
    destruct (decide (b = b')) as [<-|Hbb].
    + rewrite list_lookup_insert in Hb' by done. injection Hb' as <-.
      rewrite decide_True by done. rewrite (occ_0 b l Hne). done.
    + rewrite list_lookup_insert_ne in Hb' by done. rewrite decide_False by congruence.
      specialize (H2 b' k'' Hb'). rewrite occ_cons in H2. cbn [fst] in H2.
      rewrite Ho, decide_False in H2 by congruence. done.
  - intros b' k'' Hb'. destruct (decide (b = b')) as [<-|Hbb].
    + rewrite list_lookup_insert in Hb' by done. injection Hb' as <-. by rewrite Hrc', Hl'.
    + rewrite list_lookup_insert_ne in Hb' by done. eauto.
Qed.
(** ... or just become another value. *)
Lemma Inv_become m l v a v' a' :
  Inv m ((v, a) :: l) → own v = own v' → rep m v' a' → Inv m ((v', a') :: l).
Proof.
  intros [H1 H2 H3] Ho Hr'. inversion H1; subst. split; [by constructor| |done].
  intros b k Hb. specialize (H2 b k Hb). rewrite occ_cons in *. cbn [fst] in *. by rewrite <-Ho.
Qed.

Lemma Inv_free m l v a b k :
  Inv m ((v, a) :: l) → own v = Some b → m !! b = Some k → b_rc k = 1%nat →
  Inv (<[b := Blk (b_size k) [] false 0]> m) l.
Proof.
  intros HI Ho Hk Hrc.
  pose proof (unique_other _ _ _ _ _ _ HI Ho Hk Hrc) as Hne.
  pose proof (lookup_lt_Some _ _ _ Hk) as Hlt.
  destruct HI as [H1 H2 H3]. inversion H1 as [|?? Hr H1']; subst. split.
  - rewrite Forall_forall in H1' |- *. intros x Hx.
    eapply rep_ext; [|by apply H1']. intros b' Hb'. apply list_lookup_insert_ne.
    intros <-. by apply (Hne x Hx).
  - intros b' k'' Hb'. destruct (decide (b = b')) as [<-|Hbb].
    + rewrite list_lookup_insert in Hb' by done. injection Hb' as <-.
      rewrite (occ_0 b l Hne). done.
    + rewrite list_lookup_insert_ne in Hb' by done.
      specialize (H2 b' k'' Hb'). rewrite occ_cons in H2. cbn [fst] in H2.
      rewrite Ho, decide_False in H2 by congruence. done.
  - intros b' k'' Hb'. destruct (decide (b = b')) as [<-|Hbb].
    + rewrite list_lookup_insert in Hb' by done. injection Hb' as <-. done.
    + rewrite list_lookup_insert_ne in Hb' by done. eauto.
Qed.

(** All the owners of a block that a sharable value owns are sharable. *)
Lemma sharers m l v a b k :
  Inv m ((v, a) :: l) → own v = Some b → sharable v = true → m !! b = Some k →
  ∀ x, x ∈ l → own x.1 = Some b → sharable x.1 = true.
Proof.
  intros HI Ho Hs Hk x Hx Hox. destruct (sharable x.1) eqn:E; [done|].
  destruct HI as [H1 H2 H3]. inversion H1 as [|?? Hr H1']; subst.
  rewrite Forall_forall in H1'. specialize (H1' x Hx).
  pose proof (rep_unique _ _ _ _ _ H1' Hox E Hk) as Hrc.
  specialize (H2 b k Hk). rewrite occ_cons in H2. cbn [fst] in H2. rewrite decide_True in H2 by done.
  pose proof (occ_pos _ _ _ Hx Hox). lia.
Qed.

Lemma Inv_inc m l v a b k :
  Inv m ((v, a) :: l) → own v = Some b → sharable v = true → m !! b = Some k →
  Inv (<[b := Blk (b_size k) (b_data k) true (S (b_rc k))]> m) ((v, a) :: (v, a) :: l).
Proof.
  intros HI Ho Hs Hk. pose proof (sharers _ _ _ _ _ _ HI Ho Hs Hk) as Hsh.
  pose proof (lookup_lt_Some _ _ _ Hk) as Hlt.
  destruct HI as [H1 H2 H3]. pose proof H1 as H1all. inversion H1 as [|?? Hr H1']; subst. cbn in Hr.
  destruct (rep_in _ _ _ _ Hr Ho) as (k0 & Hk0 & Hl). rewrite Hk in Hk0. injection Hk0 as <-.
  assert (Forall (λ x, rep (<[b:=Blk (b_size k) (b_data k) true (S (b_rc k))]> m) x.1 x.2) ((v,a)::l)) as HF.
  { rewrite Forall_forall in H1all |- *. intros x Hx. destruct (decide (own x.1 = Some b)) as [Hox|Hox].
    - apply rep_rc; [done| |done|by apply H1all].
      apply elem_of_cons in Hx as [->|Hx]; [done|]. by apply Hsh.
    - eapply rep_ext; [|by apply H1all]. intros b' Hb'. apply list_lookup_insert_ne. congruence. }
  split.
  - constructor; [by inversion HF|done].
  - intros b' k' Hb'. rewrite occ_cons. cbn [fst]. rewrite Ho. destruct (decide (b = b')) as [<-|Hbb].
    + rewrite list_lookup_insert in Hb' by done. injection Hb' as <-. cbn.
      rewrite decide_True by done. rewrite (H2 b k Hk). done.
    + rewrite list_lookup_insert_ne in Hb' by done. rewrite decide_False by congruence.
      by rewrite (H2 b' k' Hb').
  - intros b' k' Hb'. destruct (decide (b = b')) as [<-|Hbb].
    + rewrite list_lookup_insert in Hb' by done. injection Hb' as <-. done.
    + rewrite list_lookup_insert_ne in Hb' by done. eauto.
Qed.

Lemma Inv_dec m l v a b k n :
  Inv m ((v, a) :: l) → own v = Some b → sharable v = true → m !! b = Some k → b_rc k = S (S n) →
  Inv (<[b := Blk (b_size k) (b_data k) true (S n)]> m) l.
Proof.
  intros HI Ho Hs Hk Hrc. pose proof (sharers _ _ _ _ _ _ HI Ho Hs Hk) as Hsh.
  pose proof (lookup_lt_Some _ _ _ Hk) as Hlt.
  destruct HI as [H1 H2 H3]. inversion H1 as [|?? Hr H1']; subst. cbn in Hr.
  destruct (rep_in _ _ _ _ Hr Ho) as (k0 & Hk0 & Hl). rewrite Hk in Hk0. injection Hk0 as <-.
  split.
  - rewrite Forall_forall in H1' |- *. intros x Hx. destruct (decide (own x.1 = Some b)) as [Hox|Hox].
    + apply rep_rc; [done| |done|by apply H1']. by apply Hsh.
    + eapply rep_ext; [|by apply H1']. intros b' Hb'. apply list_lookup_insert_ne. congruence.
  - intros b' k' Hb'. destruct (decide (b = b')) as [<-|Hbb].
    + rewrite list_lookup_insert in Hb' by done. injection Hb' as <-. cbn.
      specialize (H2 b k Hk). rewrite occ_cons in H2. cbn [fst] in H2. rewrite decide_True in H2 by done. lia.
    + rewrite list_lookup_insert_ne in Hb' by done. specialize (H2 b' k' Hb').
      rewrite occ_cons in H2. cbn [fst] in H2. rewrite Ho, decide_False in H2 by congruence. done.
  - intros b' k' Hb'. destruct (decide (b = b')) as [<-|Hbb].
    + rewrite list_lookup_insert in Hb' by done. injection Hb' as <-. done.
    + rewrite list_lookup_insert_ne in Hb' by done. eauto.
Qed.
