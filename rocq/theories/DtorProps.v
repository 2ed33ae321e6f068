(** C91: what is dropped and freed when destructors panic. *)
From Coq Require Import NArith List Bool Lia ZifyBool ZifyNat ZifyN.
From stdpp Require Import base numbers list.
From Verif Require Import DtorModel DtorSpec.
Import stdpp.list.

Lemma panics_cons pan v vs : panics pan (v :: vs) = (if pan v then 1 else 0) + panics pan vs.
Proof.
  unfold panics. destruct (pan v) eqn:E.
  - by rewrite filter_cons_True.
  - rewrite filter_cons_False by congruence. done.
Qed.

(** Destructors in order, all of them unless two panic. *)
Lemma dtors_few pan vs (unw : bool) h :
  panics pan vs + (if unw then 1 else 0) ≤ 1 →
  dtors pan unw vs h =
  (if unw || (panics pan vs =? 1)%nat then Panic (Heap (blocks h) (trace h ++ map EDtor vs))
   else Ok (Heap (blocks h) (trace h ++ map EDtor vs)) tt).
Proof.
  revert unw h. induction vs as [|v vs IH]; intros unw h.
  - intros _. cbn. rewrite app_nil_r. destruct h, unw; done.
  - rewrite panics_cons. cbn [dtors map]. destruct (pan v) eqn:E; intros H.
    + destruct unw; [lia|]. rewrite IH by lia. cbn [orb log blocks trace].
      rewrite <- app_assoc. assert (panics pan vs = 0) as -> by lia. done.
    + rewrite IH by lia. cbn [log blocks trace]. rewrite <- app_assoc. done.
Qed.

Lemma dtors_many pan vs (unw : bool) h :
  2 ≤ panics pan vs + (if unw then 1 else 0) →
  ∃ dn v rest, vs = dn ++ v :: rest ∧ pan v = true ∧
    panics pan dn + (if unw then 1 else 0) = 1 ∧
    dtors pan unw vs h = Abort (Heap (blocks h) (trace h ++ map EDtor (dn ++ [v]))).
Proof.
  revert unw h. induction vs as [|v vs IH]; intros unw h.
  - cbn. destruct unw; lia.
  - rewrite panics_cons. cbn [dtors]. destruct (pan v) eqn:E; intros H.
    + destruct unw.
      * exists [], v, vs. done.
      * destruct (IH true (log (EDtor v) h)) as (dn & w & rest & -> & Hw & Hp & Hd); [lia|].
        exists (v :: dn), w, rest. rewrite panics_cons, E. split_and!; [done..|lia|].
        rewrite Hd. cbn. by rewrite <- app_assoc.
    + destruct (IH unw (log (EDtor v) h)) as (dn & w & rest & -> & Hw & Hp & Hd); [lia|].
      exists (v :: dn), w, rest. rewrite panics_cons, E. split_and!; [done..|lia|].
      rewrite Hd. cbn. by rewrite <- app_assoc.
Qed.

Section T.
Context (t : layout).

Lemma owns_read h p vs cap : owns t h p vs cap → read t p (length vs) h = Some vs.
Proof.
  intros [L O]. unfold read, zst. destruct (lsize t =? 0)%N eqn:Z; cbn [orb] in O.
  - destruct O as [_ ->]. by rewrite replicate_length.
  - destruct (length vs =? 0)%nat eqn:E.
    { destruct vs; [done|]. cbn in E. lia. }
    destruct (cap =? 0)%N eqn:C; [lia|]. destruct O as (b & -> & ->). cbn.
    rewrite (proj2 (Nat.leb_le _ _)) by lia. by rewrite firstn_all.
Qed.

Lemma owns_forget h p vs cap :
  owns t h p vs cap → forget p (length vs) h = Heap (leaked t p cap (blocks h)) (trace h).
Proof.
  intros [L O]. destruct (_ || _).
  - destruct O as [-> _]. by destruct h.
  - destruct O as (b & -> & E). cbn. rewrite E. unfold set_block. cbn. by rewrite skipn_all.
Qed.

Lemma owns_free h h' p vs cap :
  owns t h p vs cap → blocks h' = leaked t p cap (blocks h) →
  free_buf t p cap h' = Ok (Heap (freed t p cap (blocks h)) (trace h' ++ frees p)) tt.
Proof.
  intros [L O] B. unfold free_buf. cbn [array lsize].
  destruct (lsize t =? 0)%N eqn:Z; cbn [orb] in O.
  - rewrite (proj2 (N.eqb_eq _ _)) by lia. destruct O as [-> _]. cbn in *. rewrite app_nil_r, <- B. by destruct h'.
  - destruct (cap =? 0)%N eqn:C.
    + rewrite (proj2 (N.eqb_eq _ _)) by lia. destruct O as [-> _]. cbn in *. rewrite app_nil_r, <- B. by destruct h'.
    + rewrite (proj2 (N.eqb_neq _ _)) by nia. destruct O as (b & -> & E).
      unfold dealloc. rewrite B. cbn [leaked].
      rewrite list_lookup_insert by (by eapply lookup_lt_Some). cbn [live blay andb].
      rewrite bool_decide_eq_true_2 by done. unfold log, set_block. cbn.
      rewrite B. cbn. by rewrite list_insert_insert.
Qed.

(** The destructor of Rust's own owners. *)
Lemma rust_drop_few pan h p vs cap :
  owns t h p vs cap → panics pan vs ≤ 1 →
  let h' := Heap (freed t p cap (blocks h)) (trace h ++ map EDtor vs ++ frees p) in
  rust_drop t pan p (length vs) cap h = if (panics pan vs =? 1)%nat then Panic h' else Ok h' tt.
Proof.
  intros O P h'. unfold rust_drop. rewrite (owns_read _ _ _ _ O), (owns_forget _ _ _ _ O).
  rewrite dtors_few by lia. cbn [orb blocks trace].
  destruct (panics pan vs =? 1)%nat; rewrite (owns_free h (Heap (leaked t p cap (blocks h)) (trace h ++ map EDtor vs)) p vs cap O eq_refl);
    cbn [trace]; unfold h'; by rewrite <- app_assoc.
Qed.

Lemma rust_drop_many pan h p vs cap :
  owns t h p vs cap → 2 ≤ panics pan vs →
  ∃ dn v rest, vs = dn ++ v :: rest ∧ pan v = true ∧ panics pan dn = 1 ∧
  rust_drop t pan p (length vs) cap h =
  Abort (Heap (leaked t p cap (blocks h)) (trace h ++ map EDtor (dn ++ [v]))).
Proof.
  intros O P. unfold rust_drop. rewrite (owns_read _ _ _ _ O), (owns_forget _ _ _ _ O).
  destruct (dtors_many pan vs false (Heap (leaked t p cap (blocks h)) (trace h)))
    as (dn & v & rest & E & Hv & Hp & Hd); [lia|].
  exists dn, v, rest. split_and!; [done..|lia|]. by rewrite Hd.
Qed.
End T.

Lemma panics_one pan v : panics pan [v] = if pan v then 1 else 0.
Proof. rewrite panics_cons. cbn. by destruct (pan v). Qed.

(** ** C91 *)

(** Dropping a [Box_]: its value is dropped once and its memory is freed, also
    when the destructor panics; nothing else changes. *)
Theorem C91_box t pan h p v :
  owns t h p [v] 1 →
  let h' := Heap (freed t p 1 (blocks h)) (trace h ++ EDtor v :: frees p) in
  box_drop t pan p h = if pan v then Panic h' else Ok h' tt.
Proof.
  intros O h'. unfold box_drop. pose proof (rust_drop_few t pan h p [v] 1 O) as X.
  rewrite panics_one in X. change (length [v]) with 1 in X.
  rewrite X by (destruct (pan v); lia). by destruct (pan v).
Qed.

(** [drop_in_place_and_dealloc] does the same if the destructor returns; if it
    panics the memory leaks. *)
Theorem C91_raw t pan h p v :
  owns t h p [v] 1 →
  own_drop_and_dealloc t pan p h =
  if pan v then Panic (Heap (leaked t p 1 (blocks h)) (trace h ++ [EDtor v]))
  else box_drop t pan p h.
Proof.
  intros O. rewrite (C91_box t pan h p v O).
  unfold own_drop_and_dealloc, own_drop_in_place.
  pose proof (owns_read t h p [v] 1 O) as R. pose proof (owns_forget t h p [v] 1 O) as F.
  change (length [v]) with 1 in R, F. rewrite R, F. cbn [dtors].
  destruct (pan v) eqn:E; [done|].
  pose proof (owns_free t h (log (EDtor v) (Heap (leaked t p 1 (blocks h)) (trace h))) p [v] 1 O eq_refl) as X.
  unfold free_buf in X. unfold own_dealloc.
  assert (array t 1 = t) as A by (unfold array; rewrite N.mul_1_r; by destruct t).
  rewrite A in X. rewrite X. cbn. by rewrite <- app_assoc.
Qed.

(** [drop_in_place] and then [dealloc] by hand is the same. *)
Theorem C91_by_hand t pan h p v :
  owns t h p [v] 1 → pan v = false →
  ∃ h1, own_drop_in_place t pan p h = Ok h1 tt ∧ own_dealloc t p h1 = box_drop t pan p h.
Proof.
  intros O E. pose proof (C91_raw t pan h p v O) as X. rewrite E in X.
  unfold own_drop_and_dealloc in X.
  destruct (own_drop_in_place t pan p h) as [h1 []| | |] eqn:D.
  - eauto.
  - rewrite (C91_box t pan h p v O), E in X. done.
  - rewrite (C91_box t pan h p v O), E in X. done.
  - rewrite (C91_box t pan h p v O), E in X. done.
Qed.

(** [dealloc::<U>] is undefined exactly if [U] takes memory and the block is
    not allocated with the layout of [U]. *)
Theorem C91_dealloc u h p :
  own_dealloc u p h = Undef ↔
  lsize u ≠ 0%N ∧ ¬ ∃ b k, p = At b ∧ blocks h !! b = Some k ∧ live k = true ∧ blay k = u.
Proof.
  unfold own_dealloc. destruct (lsize u =? 0)%N eqn:Z.
  - split; [done|]. lia.
  - assert (lsize u ≠ 0%N) as NZ by lia. unfold dealloc. destruct p as [|b].
    + split; [|done]. intros _. split; [done|]. by intros (? & ? & ? & _).
    + destruct (blocks h !! b) as [k|] eqn:E.
      * destruct (live k) eqn:L; cbn [andb]; [case_bool_decide as D|].
        -- split; [done|]. intros [_ X]. exfalso. apply X. eauto 10.
        -- split; [|done]. intros _. split; [done|]. intros (b' & k' & [= <-] & ? & ? & ?). congruence.
        -- split; [|done]. intros _. split; [done|]. intros (b' & k' & [= <-] & ? & ? & ?). congruence.
      * split; [|done]. intros _. split; [done|]. intros (b' & k' & [= <-] & ? & _). congruence.
Qed.

(** A new box owns its value; going to Rust's [Box] and back changes nothing. *)
Theorem C91_new t v h :
  (lsize t = 0%N → v = 0%N) →
  ∃ h' p, box_new t v h = Ok h' p ∧ owns t h' p [v] 1 ∧
          (∀ b k, blocks h !! b = Some k → blocks h' !! b = Some k) ∧
          box_into p h' = Ok h' p ∧ box_from p h' = Ok h' p.
Proof.
  intros Z. unfold box_new, zst. destruct (lsize t =? 0)%N eqn:E.
  - exists h, Dangling. split_and!; try done. unfold owns. rewrite E. cbn.
    split; [lia|]. by rewrite Z by lia.
  - eexists _, _. split_and!; try done.
    + unfold owns. rewrite E. cbn. split; [lia|]. exists (length (blocks h)). split; [done|].
      rewrite list_lookup_middle by done. f_equal. unfold array. rewrite N.mul_1_r. by destruct t.
    + cbn. intros b k H. by apply lookup_app_l_Some.
Qed.

(** Assigning through a box drops the old value once and leaves the new one,
    even if that panics. *)
Theorem C91_put t pan h p v w :
  owns t h p [w] 1 → (lsize t = 0%N → v = 0%N) →
  ∃ h', box_put t pan p v h = (if pan w then Panic h' else Ok h' tt) ∧
        owns t h' p [v] 1 ∧ trace h' = trace h ++ [EDtor w] ∧
        ∀ b, p ≠ At b → blocks h' !! b = blocks h !! b.
Proof.
  intros O Z. unfold box_put. pose proof (owns_read t h p [w] 1 O) as R.
  change (length [w]) with 1 in R. rewrite R. cbn [dtors].
  exists (log (EDtor w) (write p v h)). split; [by destruct (pan w)|].
  destruct O as [L O]. unfold owns. destruct (lsize t =? 0)%N eqn:E; cbn [orb] in *.
  - destruct O as [-> _]. cbn. split_and!; try done. by rewrite Z by lia.
  - change (1 =? 0)%N with false in *. cbn iota in *. destruct O as (b & -> & B). cbn. rewrite B. cbn.
    split_and!; try done.
    + exists b. split; [done|]. apply list_lookup_insert. by eapply lookup_lt_Some.
    + intros b' N. apply list_lookup_insert_ne. congruence.
Qed.

(** A clone is a new box; if cloning the value panics nothing has changed. *)
Theorem C91_clone t clonet h p v :
  owns t h p [v] 1 →
  box_clone t clonet p h = match clonet v with Some w => box_new t w h | None => Panic h end.
Proof.
  intros O. unfold box_clone. pose proof (owns_read t h p [v] 1 O) as R.
  change (length [v]) with 1 in R. by rewrite R.
Qed.

(** Vectors: if at most one destructor panics, all values are dropped once, in
    order, and the memory is freed. *)
Theorem C91_vec t pan h p vs cap :
  owns t h p vs cap → panics pan vs ≤ 1 →
  let h' := Heap (freed t p cap (blocks h)) (trace h ++ map EDtor vs ++ frees p) in
  vec_drop t pan p (length vs) cap h = if (panics pan vs =? 1)%nat then Panic h' else Ok h' tt.
Proof. apply rust_drop_few. Qed.
Theorem C91_slice t pan h p vs :
  owns t h p vs (N.of_nat (length vs)) → panics pan vs ≤ 1 →
  let h' := Heap (freed t p (N.of_nat (length vs)) (blocks h)) (trace h ++ map EDtor vs ++ frees p) in
  slice_drop t pan p (length vs) h = if (panics pan vs =? 1)%nat then Panic h' else Ok h' tt.
Proof. apply rust_drop_few. Qed.
(** At the second panic the process aborts; until then no value was dropped
    twice. *)
Theorem C91_abort t pan h p vs cap :
  owns t h p vs cap → 2 ≤ panics pan vs →
  ∃ dn v rest, vs = dn ++ v :: rest ∧ pan v = true ∧ panics pan dn = 1 ∧
  vec_drop t pan p (length vs) cap h =
  Abort (Heap (leaked t p cap (blocks h)) (trace h ++ map EDtor (dn ++ [v]))).
Proof. apply rust_drop_many. Qed.

(** ** Examples *)
Definition word : layout := Layout 8 8.
Definition odd_panics (v : N) : bool := N.odd v.
Definition ex_h : heap := Heap [Block word [3%N] true; Block (array word 4) [2%N; 5%N; 6%N] true] [].

Example ex_owns : owns word ex_h (At 0) [3%N] 1 ∧ owns word ex_h (At 1) [2; 5; 6]%N 4 ∧
                  owns (Layout 0 1) ex_h Dangling [0; 0]%N 2.
Proof. split_and!; (split; [vm_compute; discriminate|]); cbn; eauto. Qed.

(** The block of a value whose destructor panics: freed by [Box_], leaked by
    [drop_in_place_and_dealloc]. *)
Theorem C91_raw_leaks_refuted :
  ∃ h p v, owns word h p [v] 1 ∧
    (∃ h1, box_drop word odd_panics p h = Panic h1 ∧ live <$> (blocks h1 !! 0) = Some false) ∧
    (∃ h2, own_drop_and_dealloc word odd_panics p h = Panic h2 ∧ live <$> (blocks h2 !! 0) = Some true).
Proof.
  exists ex_h, (At 0), 3%N. split; [apply ex_owns|].
  split; eexists; (split; [vm_compute; reflexivity|vm_compute; reflexivity]).
Qed.

Example ex_vec :
  vec_drop word odd_panics (At 1) 3 4 ex_h =
  Panic (Heap [Block word [3%N] true; Block (array word 4) [] false]
              [EDtor 2; EDtor 5; EDtor 6; EFree 1]%N).
Proof. vm_compute. reflexivity. Qed.
Example ex_twice :
  match box_drop word (λ _, false) (At 0) ex_h with
  | Ok h _ => box_drop word (λ _, false) (At 0) h | r => r end = Undef.
Proof. vm_compute. reflexivity. Qed.

Print Assumptions C91_box.
Print Assumptions C91_raw.
Print Assumptions C91_by_hand.
Print Assumptions C91_dealloc.
Print Assumptions C91_new.
Print Assumptions C91_put.
Print Assumptions C91_clone.
Print Assumptions C91_vec.
Print Assumptions C91_slice.
Print Assumptions C91_abort.
Print Assumptions C91_raw_leaks_refuted.
