From Coq Require Import ZifyBool ZifyNat ZifyN.
From stdpp Require Import base numbers list sets.
From Verif Require Import CStrModel CStrSpec CStrProofs.
Local Open Scope N_scope.

Lemma insert_at (m : mem) b k k' : m !! b = Some k → <[b := k']> m !! b = Some k'.
Proof. intros H. apply list_lookup_insert. by eapply lookup_lt_Some. Qed.

Lemma Inv_head m l v a : Inv m ((v, a) :: l) → rep m v a.
Proof. intros [H _ _]. by inversion H. Qed.

Lemma load_ok m b size d n : m !! b = Some (Blk size d true n) → load m b = Some d.
Proof. intros H. unfold load. by rewrite H. Qed.
Lemma dealloc_ok m b size d n :
  m !! b = Some (Blk size d true n) → dealloc m b size = Some (<[b := Blk size [] false 0]> m).
Proof. intros H. unfold dealloc. rewrite H. cbn. by rewrite bool_decide_true. Qed.

(** Freeing the block of a value that owns it alone. *)
Lemma free_ok m l v a b size d :
  Inv m ((v, a) :: l) → own v = Some b → m !! b = Some (Blk size d true 1) →
  ∃ m', dealloc m b size = Some m' ∧ Inv m' l.
Proof.
  intros HI Ho Hb. eexists. split; [by eapply dealloc_ok|].
  exact (Inv_free m l v a b _ HI Ho Hb eq_refl).
Qed.

(** ** Buffers *)

Lemma buf_bytes_ok m s x : buf_rep m s x → buf_bytes m s = Some x.
Proof.
  unfold buf_rep, buf_bytes. destruct (bf_blk s) as [[b cap]|]; [|by intros [-> _]].
  intros (d & Hd & ? & ? & -> & ?). rewrite (load_ok _ _ _ _ _ Hd). done.
Qed.

Lemma buf_drop_ok m l s x :
  Inv m ((VVec s, AVec x) :: l) → ∃ m', buf_drop m s = Some m' ∧ Inv m' l.
Proof.
  intros HI. pose proof (Inv_head _ _ _ _ HI) as Hr. cbn in Hr. unfold buf_rep in Hr. unfold buf_drop.
  destruct (bf_blk s) as [[b cap]|] eqn:E.
  - destruct Hr as (d & Hd & _). eapply free_ok; [exact HI|cbn; by rewrite E|done].
  - exists m. split; [done|]. eapply Inv_drop_unowned; [|exact HI]. cbn. by rewrite E.
Qed.

Lemma string_as_vec m l s x :
  Inv m ((VString s, AString x) :: l) → Inv m ((VVec s, AVec x) :: l).
Proof. intros HI. eapply Inv_become; [exact HI|done|]. by destruct (Inv_head _ _ _ _ HI). Qed.
Lemma vec_as_string m l s x :
  utf8 x = true → Inv m ((VVec s, AVec x) :: l) → Inv m ((VString s, AString x) :: l).
Proof. intros Hu HI. eapply Inv_become; [exact HI|done|]. split; [exact (Inv_head _ _ _ _ HI)|done]. Qed.

Lemma string_drop_ok m l s x :
  Inv m ((VString s, AString x) :: l) → ∃ m', buf_drop m s = Some m' ∧ Inv m' l.
Proof. intros HI. eapply buf_drop_ok, string_as_vec, HI. Qed.

Lemma buf_new_ok m l x e :
  Inv m l → ∃ m' s, buf_new m x e = (m', s) ∧ Inv m' ((VVec s, AVec x) :: l).
Proof.
  intros HI. unfold buf_new. destruct (length x + e)%nat as [|cap] eqn:E.
  - destruct x; [|done]. eexists _, _. split; [done|]. by apply Inv_unowned.
  - cbn. eexists _, _. split; [done|]. apply Inv_alloc; [done|done|]. cbn. exists x.
    rewrite lookup_app_r, Nat.sub_diag by lia. cbn. rewrite firstn_all. split_and!; [done|lia..|done|lia].
Qed.
Lemma string_new_ok m l x e :
  utf8 x = true → Inv m l → ∃ m' s, buf_new m x e = (m', s) ∧ Inv m' ((VString s, AString x) :: l).
Proof.
  intros Hu HI. destruct (buf_new_ok m l x e HI) as (m' & s & -> & HI').
  eexists _, _. split; [done|]. by apply vec_as_string.
Qed.

(** Making room for a byte and writing it. *)
Lemma buf_grow_ok m l s x :
  Inv m ((VVec s, AVec x) :: l) → x ≠ [] →
  ∃ m' b cap, ('(m, s) ← buf_reserve1 m s; buf_push m s 0)
              = Some (m', Buf (Some (b, cap)) (length x + 1)) ∧
    Inv m' ((VVec (Buf (Some (b, cap)) (length x + 1)), AVec (x ++ [0])) :: l).
Proof.
  intros HI Hx. pose proof (Inv_head _ _ _ _ HI) as Hr. cbn in Hr. unfold buf_rep in Hr.
  destruct s as [[[b cap]|] len]; cbn in Hr; [|by destruct Hr].
  destruct Hr as (d & Hd & Hlen & Hcap & Ex & Hpos).
  assert (length x = len) as Hlx by (rewrite Ex, take_length; lia).
  unfold buf_reserve1. cbn [bf_blk bf_len].
  destruct (decide (len < cap)%nat) as [Hlt|Hge].
  - cbn. unfold store_at. rewrite Hd. cbn. rewrite bool_decide_true by lia. cbn.
    eexists _, b, cap. split; [by rewrite Hlx|]. rewrite Hlx.
    eapply Inv_update; [exact HI|done|exact Hd|done|done|done|done|]. cbn.
    exists (take len d ++ [0]). rewrite (insert_at _ _ _ _ Hd). rewrite app_length, take_length. cbn.
    split_and!; [done|lia|lia| |lia]. rewrite Ex. symmetry. apply firstn_all2.
    rewrite app_length, take_length. cbn. lia.
  - assert (len = cap) as -> by lia. assert (length d = cap) by lia. cbn.
    unfold realloc. rewrite Hd. cbn. rewrite bool_decide_true by done. cbn. unfold store_at.
    rewrite (insert_at _ _ _ _ Hd). cbn.
    rewrite bool_decide_true by (rewrite take_length; lia). cbn.
    eexists _, b, (cap + 1)%nat. split; [by rewrite Hlx|]. rewrite Hlx. rewrite list_insert_insert.
    eapply Inv_update; [exact HI|done|exact Hd|done|done|done|done|]. cbn.
    assert (take cap (take (cap + 1) d) = x) as ->.
    { rewrite take_take. rewrite Ex. f_equal. lia. }
    exists (x ++ [0]). rewrite (insert_at _ _ _ _ Hd). rewrite app_length. cbn.
    split_and!; [done|lia|lia| |lia]. symmetry. apply firstn_all2.
    rewrite app_length. cbn. lia.
Qed.

Lemma buf_into_boxed_ok m l s x :
  Inv m ((VVec s, AVec (x ++ [0])) :: l) → 0 ∉ x → utf8 x = true →
  ∃ m' b, buf_into_boxed m s = Some (m', Some b) ∧ Inv m' ((VBoxed (PHeap b), ABoxed x) :: l).
Proof.
  intros HI Hx Hu. pose proof (Inv_head _ _ _ _ HI) as Hr. cbn in Hr. unfold buf_rep in Hr.
  destruct s as [[[b cap]|] len]; cbn in Hr; [|destruct Hr as [? _]; by destruct x].
  destruct Hr as (d & Hd & Hlen & Hcap & Ex & Hpos).
  assert (len = length x + 1)%nat as ->.
  { apply (f_equal length) in Ex. rewrite app_length, take_length in Ex. cbn in Ex. lia. }
  unfold buf_into_boxed. cbn. rewrite decide_False by lia.
  destruct (decide (length x + 1 < cap)%nat) as [Hlt|Hge].
  - unfold realloc. rewrite Hd. cbn. rewrite bool_decide_true by done. cbn.
    eexists _, b. split; [done|]. rewrite <-Ex.
    eapply Inv_update; [exact HI|done|exact Hd|done|done|done|done|]. cbn.
    rewrite (insert_at _ _ _ _ Hd). done.
  - assert (cap = length x + 1)%nat as -> by lia.
    rewrite firstn_all2 in Ex by lia. subst d.
    eexists _, b. split; [done|]. eapply Inv_become; [exact HI|done|]. done.
Qed.

(** ** [char_p_boxed] *)

Lemma boxed_try_from_ok m l s x :
  Inv m ((VString s, AString x) :: l) →
  (no_inner_nul x →
   ∃ m' p, boxed_try_from m s = Some (m', inl p) ∧ Inv m' ((VBoxed p, ABoxed (strip x)) :: l)) ∧
  (¬ no_inner_nul x → boxed_try_from m s = Some (m, inr s)).
Proof.
  intros HI. destruct (Inv_head _ _ _ _ HI) as [Hr Hu].
  unfold boxed_try_from. rewrite (buf_bytes_ok _ _ _ Hr). cbn [mbind option_bind].
  destruct (decide (x = [] ∨ x = [0])) as [He|He].
  - split.
    + intros _. destruct (string_drop_ok _ _ _ _ HI) as (m' & -> & HI'). cbn.
      eexists _, _. split; [done|]. apply Inv_unowned; [done| |done]. cbn. by destruct He as [-> | ->].
    + intros Hn. destruct Hn. destruct He as [-> | ->]; unfold no_inner_nul; cbn; set_solver.
  - rewrite <-removelast_take. split.
    + intros Hn. replace (contains0 (removelast x)) with false.
      2:{ symmetry. apply not_true_is_false. by rewrite contains0_spec. }
      destruct (snoc_cases x) as [->|(y & z & ->)]; [tauto|].
      unfold no_inner_nul in Hn. rewrite removelast_app1 in Hn.
      rewrite app_length. cbn [length]. replace (length y + 1 - 1)%nat with (length y) by lia.
      rewrite list_lookup_middle by done.
      destruct (decide (Some z = Some 0)) as [[= ->]|Hz].
      * rewrite utf8_snoc in Hu. cbn [mbind option_bind].
        destruct (buf_into_boxed_ok m l s y) as (m' & b & -> & HI'); [by apply string_as_vec|done..|].
        cbn. eexists _, _. split; [done|]. by rewrite strip_snoc.
      * assert (0 ∉ y ++ [z]) as Hyz by (intros Hin; set_solver).
        destruct (buf_grow_ok m l s (y ++ [z])) as (m' & b & cap & -> & HI');
          [by apply string_as_vec|by destruct y|].
        cbn [mbind option_bind].
        destruct (buf_into_boxed_ok m' l _ (y ++ [z]) HI' Hyz Hu) as (m'' & b' & -> & HI'').
        cbn. eexists _, _. split; [done|]. by rewrite strip_nonul.
    + intros Hn. replace (contains0 (removelast x)) with true; [done|].
      symmetry. apply contains0_spec. unfold no_inner_nul in Hn. by apply dec_stable.
Qed.

(** What can be read through a [char_p_boxed]. *)
Lemma as_ref_ok m p x :
  rep m (VBoxed p) (ABoxed x) → as_ref m p = Some (x ++ [0]) ∧ 0 ∉ x ∧ utf8 x = true.
Proof.
  destruct p as [|b]; cbn; [intros ->; split_and!; [done|set_solver|done]|].
  intros (Hb & ? & ?). by rewrite (load_ok _ _ _ _ _ Hb).
Qed.

Lemma boxed_drop_ok m l p x :
  Inv m ((VBoxed p, ABoxed x) :: l) → ∃ m', boxed_drop m p = Some m' ∧ Inv m' l.
Proof.
  intros HI. pose proof (Inv_head _ _ _ _ HI) as Hr. destruct p as [|b].
  - exists m. split; [done|]. by eapply Inv_drop_unowned; [|exact HI].
  - destruct (as_ref_ok _ _ _ Hr) as (E & Hx & _). unfold boxed_drop. rewrite E. cbn [mbind option_bind].
    rewrite ref_to_bytes_with_null_ok by done. cbn [mbind option_bind]. destruct Hr as (Hb & _).
    rewrite app_length. eapply free_ok; [exact HI|done|exact Hb].
Qed.

Lemma boxed_into_vec_ok m l p x :
  Inv m ((VBoxed p, ABoxed x) :: l) →
  ∃ s, boxed_into_vec m p = Some s ∧ Inv m ((VVec s, AVec x) :: l).
Proof.
  intros HI. pose proof (Inv_head _ _ _ _ HI) as Hr. destruct p as [|b].
  - exists (Buf None 0). split; [done|]. eapply Inv_become; [exact HI|done|]. done.
  - destruct (as_ref_ok _ _ _ Hr) as (E & Hx & _). unfold boxed_into_vec. rewrite E.
    cbn [mbind option_bind].
    rewrite ref_to_bytes_with_null_ok by done. cbn [mbind option_bind]. eexists. split; [done|].
    destruct Hr as (Hb & _). eapply Inv_become; [exact HI|done|]. cbn.
    exists (x ++ [0]). rewrite app_length. cbn. replace (length x + 1 - 1)%nat with (length x) by lia.
    rewrite take_app. split_and!; [done|lia..|done|lia].
Qed.

Lemma boxed_into_string_ok m l p x :
  Inv m ((VBoxed p, ABoxed x) :: l) →
  ∃ s, boxed_into_string m p = Some s ∧ Inv m ((VString s, AString x) :: l).
Proof.
  intros HI. destruct (as_ref_ok m p x (Inv_head _ _ _ _ HI)) as (_ & _ & Hu).
  unfold boxed_into_string. destruct (boxed_into_vec_ok _ _ _ _ HI) as (s & -> & HI').
  cbn [mbind option_bind]. rewrite (buf_bytes_ok m s x) by exact (Inv_head _ _ _ _ HI').
  cbn. rewrite Hu. eexists. split; [done|]. by apply vec_as_string.
Qed.

(** ** [CString] and [Arc] *)

Lemma cstr_bytes_ok m b len x n :
  m !! b = Some (Blk len (x ++ [0]) true n) → cstr_bytes m b (length x + 1) = Some x.
Proof.
  intros H. unfold cstr_bytes. rewrite (load_ok _ _ _ _ _ H). cbn.
  replace (length x + 1 - 1)%nat with (length x) by lia. by rewrite take_app.
Qed.

Lemma cstring_alloc_ok m l x :
  Inv m l → 0 ∉ x →
  Inv (m ++ [Blk (length x + 1) (x ++ [0]) true 1]) ((VCString (length m) (length x + 1), ACString x) :: l).
Proof.
  intros HI Hx. apply Inv_alloc; [done..|]. cbn.
  rewrite lookup_app_r, Nat.sub_diag by lia. done.
Qed.
Lemma arc_alloc_ok m l x :
  Inv m l → 0 ∉ x →
  Inv (m ++ [Blk (length x + 1) (x ++ [0]) true 1]) ((VArc (length m) (length x + 1), AArc x) :: l).
Proof.
  intros HI Hx. apply Inv_alloc; [done..|]. cbn.
  exists 0%nat. rewrite lookup_app_r, Nat.sub_diag by lia. done.
Qed.

Lemma arc_drop_ok m l b len x :
  Inv m ((VArc b len, AArc x) :: l) → ∃ m', arc_drop m b len = Some m' ∧ Inv m' l.
Proof.
  intros HI. pose proof (Inv_head _ _ _ _ HI) as (n & Hb & -> & Hx). unfold arc_drop. rewrite Hb. cbn.
  destruct n as [|n].
  - eapply free_ok; [exact HI|done|exact Hb].
  - eexists. split; [done|]. exact (Inv_dec m l _ _ b _ n HI eq_refl eq_refl Hb eq_refl).
Qed.
Lemma arc_clone_ok m l b len x :
  Inv m ((VArc b len, AArc x) :: l) →
  ∃ m', arc_clone m b = Some m' ∧ Inv m' ((VArc b len, AArc x) :: (VArc b len, AArc x) :: l).
Proof.
  intros HI. pose proof (Inv_head _ _ _ _ HI) as (n & Hb & -> & Hx). unfold arc_clone. rewrite Hb. cbn.
  eexists. split; [done|]. exact (Inv_inc m l _ _ b _ HI eq_refl eq_refl Hb).
Qed.
Lemma shared_as_arc m l b x :
  Inv m ((VShared b, AShared x) :: l) → Inv m ((VArc b (length x + 1), AArc x) :: l).
Proof.
  intros HI. pose proof (Inv_head _ _ _ _ HI) as (n & Hb & Hx & _). eapply Inv_become; [exact HI|done|].
  by exists n.
Qed.
Lemma arc_as_shared m l b len x :
  utf8 x = true → Inv m ((VArc b len, AArc x) :: l) → Inv m ((VShared b, AShared x) :: l).
Proof.
  intros Hu HI. pose proof (Inv_head _ _ _ _ HI) as (n & Hb & -> & Hx).
  eapply Inv_become; [exact HI|done|]. by exists n.
Qed.
Lemma shared_len_ok m b x : rep m (VShared b) (AShared x) → shared_len m b = Some (length x + 1)%nat.
Proof.
  intros (n & Hb & Hx & _). unfold shared_len. rewrite (load_ok _ _ _ _ _ Hb). cbn.
  by rewrite position0_app.
Qed.
Lemma shared_drop_ok m l b x :
  Inv m ((VShared b, AShared x) :: l) →
  ∃ m', (len ← shared_len m b; arc_drop m b len) = Some m' ∧ Inv m' l.
Proof.
  intros HI. rewrite (shared_len_ok m b x) by exact (Inv_head _ _ _ _ HI). cbn.
  eapply arc_drop_ok, shared_as_arc, HI.
Qed.
