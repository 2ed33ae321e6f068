(** Proofs about vectors, strings, boxes and slices: the model does what the
    specification says, and memory is in order. *)

From Coq Require Import Arith NArith List Bool Lia ZifyBool ZifyNat ZifyN Permutation.
From stdpp Require Import base numbers list.
From Verif Require Import CStrModel VecModel VecSpec.
Local Open Scope N_scope.

(** ** Live blocks *)

Notation cellt := (nat * (N * list N))%type.
Fixpoint live_from (i : nat) (bs : list block) : list cellt :=
  match bs with
  | [] => []
  | b :: bs => ((if freed b then [] else [(i, (size b, data b))]) ++ live_from (S i) bs)%list
  end.
Definition live (h : heap) : list cellt := live_from 0 (blocks h).
Definition hist_ok (h : heap) : Prop := ∀ b, history h b =
  match blocks h !! b with
  | None => []
  | Some (Block n _ false) => [EAlloc b n]
  | Some (Block n _ true) => [EAlloc b n; EFree b n]
  end.
(** The heap has just the live blocks [F], and was observed to do [o]. *)
Definition H (h : heap) (F : list cellt) (o : list event) : Prop := live h ≡ₚ F ∧ hist_ok h ∧ observed h = o.

Lemma H_perm h F F' o : F ≡ₚ F' → H h F o → H h F' o.
Proof. intros E (H1 & H2 & H3). split; [by rewrite H1|done]. Qed.
Lemma live_app i a b : live_from i (a ++ b) = (live_from i a ++ live_from (i + List.length a) b)%list.
Proof.
  revert i. induction a as [|x a IH]; intros i; cbn [app live_from List.length]; [by rewrite Nat.add_0_r|].
  rewrite IH, <-app_assoc. by replace (S i + List.length a)%nat with (i + S (List.length a))%nat by lia.
Qed.
Lemma live_bound i bs c : c ∈ live_from i bs → (i ≤ c.1 < i + List.length bs)%nat.
Proof.
  revert i. induction bs as [|b bs IH]; intros i; cbn [live_from List.length]; [by rewrite elem_of_nil|].
  rewrite elem_of_app. intros [Hc|Hc].
  - destruct (freed b); [by apply elem_of_nil in Hc|]. apply elem_of_list_singleton in Hc as ->. cbn. lia.
  - apply IH in Hc. lia.
Qed.
Lemma live_lookup h b n xs : (b, (n, xs)) ∈ live h → blocks h !! b = Some (Block n xs false).
Proof.
  unfold live. assert (G : ∀ bs i, (i + b, (n, xs))%nat ∈ live_from i bs → bs !! b = Some (Block n xs false)).
  { intros bs. generalize b. induction bs as [|[m ys f] bs IH]; intros j i; cbn [live_from]; [by rewrite elem_of_nil|].
    rewrite elem_of_app. cbn [freed size data]. intros [Hc|Hc].
    - destruct f; [by apply elem_of_nil in Hc|]. apply elem_of_list_singleton in Hc. injection Hc as Hj -> ->.
      assert (j = O) as -> by lia. done.
    - pose proof (live_bound _ _ _ Hc) as Hb. cbn in Hb. destruct j as [|j]; [lia|]. apply (IH j (S i)). by replace (S i + j)%nat with (i + S j)%nat by lia. }
  apply (G _ 0%nat).
Qed.
Lemma live_insert h b n xs x F es : live h ≡ₚ (b, (n, xs)) :: F →
  live (Heap (<[b := x]> (blocks h)) es) ≡ₚ ((if freed x then [] else [(b, (size x, data x))]) ++ F)%list.
Proof.
  intros HP. assert (Hb : blocks h !! b = Some (Block n xs false)) by (apply live_lookup; rewrite HP; constructor).
  pose proof (lookup_lt_Some _ _ _ Hb) as Hl. apply elem_of_list_split_length in Hb as (l1 & l2 & E & El).
  unfold live in *. cbn [blocks]. rewrite E in *. subst b. rewrite live_app in HP. cbn [live_from] in HP. cbn [freed size data] in HP.
  rewrite Nat.add_0_l in HP. rewrite insert_app_r_alt, Nat.sub_diag by lia. cbn [insert list_insert]. rewrite live_app. cbn [live_from]. rewrite Nat.add_0_l.
  assert (F ≡ₚ live_from 0 l1 ++ live_from (S (List.length l1)) l2) as ->.
  { symmetry. apply (Permutation_cons_inv (a := (List.length l1, (n, xs)))). rewrite <-HP. cbn [app]. by rewrite Permutation_middle. }
  rewrite !app_assoc. f_equiv. apply Permutation_app_comm.
Qed.

(** ** Memory operations *)

Definition zeros (z : bool) (xs : list N) : Prop := z = true → xs = repeat 0 (List.length xs).
(** A pointer to [cap] elements of memory, the first being [xs]; [fp] is the
    block it owns. *)
Definition brep (z : bool) (p : ptr) (cap : N) (xs : list N) (fp : list cellt) : Prop :=
  if z then p = Dangling ∧ xs = repeat 0 (List.length xs) ∧ fp = []
  else if cap =? 0 then p = Dangling ∧ xs = [] ∧ fp = []
  else ∃ b, p = At b 0 ∧ N.of_nat (List.length xs) ≤ cap ∧ fp = [(b, (cap, xs))].

Lemma brep_zeros z p cap xs fp : brep z p cap xs fp → zeros z xs.
Proof. intros B ->. apply B. Qed.
Lemma brep_len p cap xs fp : brep false p cap xs fp → N.of_nat (List.length xs) ≤ cap.
Proof. unfold brep. destruct (N.eqb_spec cap 0); [intros (_ & -> & _); cbn; lia|]. by intros (b & _ & ? & _). Qed.

Lemma H_note es h F o : Forall (λ e, public e = true) es → H h F o → H (note es h) F (o ++ es).
Proof.
  intros Hes (H1 & H2 & H3). split; [done|]. assert (Hp : List.filter public es = es).
  { clear H3. induction Hes as [|e es He Hes IH]; [done|]. cbn [List.filter]. by rewrite He, IH. }
  assert (Ha : ∀ b, List.filter (about b) es = []).
  { intros b. clear -Hes. induction Hes as [|e es He Hes IH]; [done|]. cbn [List.filter]. by destruct e. }
  split.
  - intros b. unfold history. cbn [events note blocks]. rewrite List.filter_app, Ha, app_nil_r. apply H2.
  - unfold observed. cbn [events note]. rewrite List.filter_app, Hp. by f_equal.
Qed.
Lemma H_drops xs h F o : H h F o → H (drop_elems xs h) F (o ++ map EDrop xs).
Proof. apply H_note. by induction xs; constructor. Qed.
Lemma H_alloc z n xs h F o : N.of_nat (List.length xs) ≤ n → zeros z xs → H h F o →
  ∃ h' p fp, alloc z n xs h = (h', p) ∧ brep z p n xs fp ∧ H h' (fp ++ F) o.
Proof.
  intros Hn Hz (H1 & H2 & H3). unfold alloc. destruct z; cbn [orb].
  - exists h, Dangling, []. split_and!; try done. cbn. split_and!; try done. by apply Hz.
  - destruct (N.eqb_spec n 0) as [->|Hn0].
    + exists h, Dangling, []. assert (xs = []) as -> by (destruct xs; [done|cbn in Hn; lia]). by split_and!.
    + eexists _, (At (List.length (blocks h)) 0), [(List.length (blocks h), (n, xs))]. split; [done|].
      split; [cbn; rewrite (proj2 (N.eqb_neq n 0)) by done; eexists; by split_and!|]. split; [|split].
      * unfold live. cbn [blocks]. rewrite live_app. cbn [live_from freed size data app]. rewrite Nat.add_0_l.
        fold (live h). rewrite H1. by rewrite Permutation_app_comm.
      * intros b. unfold history. cbn [events blocks]. rewrite List.filter_app. cbn [List.filter about].
        fold (history h b). rewrite (H2 b). destruct (Nat.eqb_spec (List.length (blocks h)) b) as [<-|Hne].
        -- rewrite lookup_ge_None_2 by lia. by rewrite lookup_app_r, Nat.sub_diag by lia.
        -- rewrite app_nil_r. destruct (decide (b < List.length (blocks h))%nat).
           ++ by rewrite lookup_app_l.
           ++ rewrite lookup_ge_None_2 by lia. rewrite lookup_ge_None_2; [done|]. rewrite app_length. cbn. lia.
      * unfold observed. cbn [events]. rewrite List.filter_app. cbn. by rewrite app_nil_r.
Qed.
Lemma H_dealloc z p n xs fp h F o : brep z p n xs fp → H h (fp ++ F) o → ∃ h', dealloc z p n h = Ok h' ∧ H h' F o.
Proof.
  intros B HH. unfold dealloc. destruct z; cbn [orb].
  - destruct B as (-> & _ & ->). exists h. done.
  - unfold brep in B. destruct (n =? 0) eqn:En; [destruct B as (-> & _ & ->); by exists h|]. destruct B as (b & -> & Hl & ->).
    destruct HH as (H1 & H2 & H3). cbn [app] in H1.
    assert (Hb : blocks h !! b = Some (Block n xs false)) by (apply live_lookup; rewrite H1; constructor).
    rewrite Hb, N.eqb_refl. eexists. split; [done|]. split; [|split].
    + rewrite live_insert by done. done.
    + intros c. unfold history. cbn [events blocks]. rewrite List.filter_app. cbn [List.filter about]. fold (history h c). rewrite (H2 c).
      destruct (Nat.eqb_spec b c) as [<-|Hne].
      * rewrite Hb, list_lookup_insert by by eapply lookup_lt_Some. done.
      * by rewrite app_nil_r, list_lookup_insert_ne.
    + unfold observed. cbn [events]. rewrite List.filter_app. cbn. by rewrite app_nil_r.
Qed.
Lemma take_repeat {A} (x : A) n m : firstn n (repeat x m) = repeat x (n `min` m).
Proof. revert m. induction n as [|n IH]; intros [|m]; cbn; [done..|]. by rewrite IH. Qed.
Lemma skip_repeat {A} (x : A) n m : skipn n (repeat x m) = repeat x (m - n).
Proof. revert m. induction n as [|n IH]; intros [|m]; cbn; try done. Qed.
Lemma H_sub z p n xs fp h F o a b : brep z p n xs fp → H h (fp ++ F) o → (a ≤ b)%nat → (b ≤ List.length xs)%nat →
  from_raw_parts z (if z then p else ptr_add p a) (b - a) h = Ok (firstn (b - a) (skipn a xs)).
Proof.
  intros B (H1 & _) Hab Hb. unfold from_raw_parts. destruct z.
  - destruct B as (-> & E & _). f_equal. rewrite E, skip_repeat, take_repeat. f_equal. lia.
  - unfold brep in B. destruct (n =? 0); [destruct B as (-> & -> & ->)|destruct B as (c & -> & Hl & ->)].
    + cbn in *. assert (a = O) as -> by lia. assert (b = O) as -> by lia. done.
    + cbn [ptr_add]. cbn [app] in H1. rewrite (live_lookup h c n xs) by (rewrite H1; constructor).
      cbn [Nat.add]. destruct (Nat.leb_spec (a + (b - a)) (List.length xs)); [done|lia].
Qed.
Lemma H_read z p n xs fp h F o : brep z p n xs fp → H h (fp ++ F) o → from_raw_parts z p (List.length xs) h = Ok xs.
Proof.
  intros B HH. pose proof (H_sub z p n xs fp h F o 0 (List.length xs) B HH ltac:(lia) ltac:(lia)) as E.
  rewrite Nat.sub_0_r, drop_0, firstn_all in E. rewrite <-E. by destruct z, p; cbn [ptr_add]; rewrite ?Nat.add_0_r.
Qed.
Lemma H_set z p n xs ys fp h F o : brep z p n xs fp → H h (fp ++ F) o → (z = false → N.of_nat (List.length ys) ≤ n) → zeros z ys →
  ∃ h' fp', set_data z p ys h = Ok h' ∧ brep z p n ys fp' ∧ H h' (fp' ++ F) o.
Proof.
  intros B HH Hn Hz. unfold set_data. destruct z.
  - destruct B as (-> & E & ->). exists h, []. split_and!; try done. cbn. split_and!; try done. by apply Hz.
  - specialize (Hn eq_refl). unfold brep in *. destruct (N.eqb_spec n 0) as [->|Hn0].
    + destruct B as (-> & -> & ->). destruct ys; [|cbn in Hn; lia]. exists h, []. by split_and!.
    + destruct B as (b & -> & Hl & ->). destruct HH as (H1 & H2 & H3). cbn [app] in H1.
      assert (Hb : blocks h !! b = Some (Block n xs false)) by (apply live_lookup; rewrite H1; constructor).
      rewrite Hb. destruct (N.leb_spec (N.of_nat (List.length ys)) n); [|lia]. eexists _, [(b, (n, ys))]. split; [done|].
      split; [eexists; by split_and!|]. split; [|split].
      * rewrite live_insert by done. done.
      * intros c. unfold history. cbn [events blocks]. fold (history h c). rewrite (H2 c). destruct (decide (b = c)) as [<-|Hne].
        -- by rewrite Hb, list_lookup_insert by by eapply lookup_lt_Some.
        -- by rewrite list_lookup_insert_ne.
      * done.
Qed.

(** ** Vectors and boxes *)

Definition vrep (z : bool) (v : rvec) (xs : list N) (fp : list cellt) : Prop :=
  rl v = List.length xs ∧ brep z (rp v) (rc v) xs fp ∧ (z = true → rc v = USIZE_MAX).
Definition xrep (z : bool) (b : rbox) (xs : list N) (fp : list cellt) : Prop :=
  bl b = List.length xs ∧ brep z (bp b) (N.of_nat (bl b)) xs fp.

Lemma vec_new_rep z xs g h F o : zeros z xs → H h F o →
  ∃ h' v fp, vec_new z xs g h = (h', v) ∧ vrep z v xs fp ∧ rc v = (if z then USIZE_MAX else N.max g (N.of_nat (List.length xs))) ∧ H h' (fp ++ F) o.
Proof.
  intros Hz HH. unfold vec_new. destruct z.
  - exists h, (RVec Dangling (List.length xs) USIZE_MAX), []. cbn [alloc orb]. split_and!; try done. split_and!; try done. cbn. split_and!; try done. by apply Hz.
  - destruct (H_alloc false (N.max g (N.of_nat (List.length xs))) xs h F o) as (h' & p & fp & E & B & HH'); [lia|done..|].
    rewrite E. eexists _, _, fp. split; [done|]. split; [|done]. by split_and!.
Qed.
Lemma vec_read_rep z v xs fp h F o : vrep z v xs fp → H h (fp ++ F) o → vec_read z v h = Ok xs.
Proof. intros (E & B & _) HH. unfold vec_read. rewrite E. by eapply H_read. Qed.
Lemma from_raw_rep z p cap xs fp h F o : brep z p cap xs fp → H h (fp ++ F) o →
  vec_from_raw_parts z p (List.length xs) cap h = Ok (RVec p (List.length xs) (if z then USIZE_MAX else cap)) ∧
  vrep z (RVec p (List.length xs) (if z then USIZE_MAX else cap)) xs fp.
Proof.
  intros B HH. unfold vec_from_raw_parts. destruct z.
  - destruct B as (-> & E & ->). split; [done|]. by split_and!.
  - split; [|by split_and!]. unfold brep in B. destruct (cap =? 0); [destruct B as (-> & -> & ->); done|].
    destruct B as (b & -> & Hl & ->). destruct HH as (H1 & _). cbn [app] in H1.
    rewrite (live_lookup h b cap xs) by (rewrite H1; constructor). rewrite N.eqb_refl. cbn [andb].
    by rewrite (proj2 (Nat.leb_le _ _)).
Qed.
Lemma vec_drop_rep z v xs fp h F o : vrep z v xs fp → H h (fp ++ F) o →
  ∃ h', vec_drop z v h = Ok h' ∧ H h' F (o ++ map EDrop xs).
Proof.
  intros V HH. unfold vec_drop. rewrite (vec_read_rep _ _ _ _ _ _ _ V HH). cbn [bind].
  destruct V as (_ & B & _). eapply H_dealloc; [done|]. by apply H_drops.
Qed.
Lemma vec_realloc_rep z v xs fp n h F o : vrep z v xs fp → N.of_nat (List.length xs) ≤ n → H h (fp ++ F) o →
  ∃ h' v' fp', vec_realloc z v n h = Ok (h', v') ∧ vrep z v' xs fp' ∧ rc v' = (if z then rc v else n) ∧ H h' (fp' ++ F) o.
Proof.
  intros V Hn HH. unfold vec_realloc. destruct z; cbn [orb].
  - by exists h, v, fp.
  - destruct (N.eqb_spec n (rc v)) as [->|Hne]; [by exists h, v, fp|].
    rewrite (vec_read_rep _ _ _ _ _ _ _ V HH). cbn [bind].
    destruct (H_alloc false n xs h (fp ++ F) o) as (h1 & p & fp' & -> & B & H1); [done..|].
    destruct V as (El & Bv & _).
    destruct (H_dealloc false (rp v) (rc v) xs fp h1 (fp' ++ F) o Bv) as (h2 & -> & H2).
    { eapply H_perm, H1. rewrite !app_assoc. f_equiv. apply Permutation_app_comm. }
    cbn [bind]. eexists _, _, fp'. split; [done|]. split; [|done]. by split_and!.
Qed.
Lemma into_box_rep z v xs fp h F o : vrep z v xs fp → H h (fp ++ F) o →
  ∃ h' b fp', vec_into_box z v h = Ok (h', b) ∧ xrep z b xs fp' ∧ H h' (fp' ++ F) o.
Proof.
  intros V HH. unfold vec_into_box.
  destruct (vec_realloc_rep z v xs fp (N.of_nat (rl v)) h F o V) as (h' & v' & fp' & -> & V' & Ec & H'); [destruct V as [-> _]; lia|done|].
  cbn [bind fst snd]. eexists _, _, fp'. split; [done|]. split; [|done]. destruct V as (El & _), V' as (El' & B & Hz). split; [done|]. cbn [bp bl].
  destruct z; [done|]. by rewrite El', <-El, <-Ec.
Qed.
Lemma box_vec_rep z b xs fp : xrep z b xs fp → vrep z (box_into_vec z b) xs fp.
Proof. intros (El & B). split_and!; [done| |by intros ->]. cbn [box_into_vec rp rc]. by destruct z. Qed.
Lemma box_raw_rep z p xs fp h F o : brep z p (N.of_nat (List.length xs)) xs fp → H h (fp ++ F) o →
  box_from_raw z p (List.length xs) h = Ok (RBox p (List.length xs)).
Proof. intros B HH. unfold box_from_raw. by destruct (from_raw_rep _ _ _ _ _ _ _ _ B HH) as [-> _]. Qed.
Lemma box_drop_rep z b xs fp h F o : xrep z b xs fp → H h (fp ++ F) o →
  ∃ h', box_drop z b h = Ok h' ∧ H h' F (o ++ map EDrop xs).
Proof.
  intros [El B] HH. unfold box_drop. rewrite El in *. rewrite (H_read _ _ _ _ _ _ _ _ B HH). cbn [bind].
  eapply H_dealloc; [done|]. by apply H_drops.
Qed.
Lemma reserve_rep z v xs fp n g h F o : vrep z v xs fp → H h (fp ++ F) o →
  ∃ h' v' fp' bad, vec_reserve z v n g h = Ok (h', v', bad) ∧ vrep z v' xs fp' ∧ H h' (fp' ++ F) o ∧
    areserve z (List.length xs) (rc v) n g = (if bad : bool then None else Some (rc v')) ∧
    (if bad : bool then v' = v else N.of_nat (List.length xs) + n ≤ rc v').
Proof.
  intros V HH. unfold vec_reserve, areserve. pose proof V as (El & _ & Hz). rewrite El.
  destruct (N.leb_spec (N.of_nat (List.length xs) + n) (rc v)).
  - by exists h, v, fp, false.
  - destruct g as [g|]; [|by exists h, v, fp, true]. destruct z; [by exists h, v, fp, true|].
    destruct (vec_realloc_rep false v xs fp (N.max g (N.of_nat (List.length xs) + n)) h F o V) as (h' & v' & fp' & -> & V' & Ec & H'); [lia|done|].
    cbn [bind]. exists h', v', fp', false. rewrite Ec. split_and!; try done. lia.
Qed.
Lemma zeros_app z xs ys : zeros z xs → zeros z (map (elem_of z) ys) → zeros z (xs ++ map (elem_of z) ys).
Proof. intros Hx Hy ->. rewrite app_length, repeat_app. by rewrite <-(Hx eq_refl), <-(Hy eq_refl). Qed.
Lemma zeros_map z ys : zeros z (map (elem_of z) ys).
Proof. intros ->. induction ys as [|y ys IH]; [done|]. cbn. by rewrite IH at 1. Qed.
Lemma zeros_firstn z n xs : zeros z xs → zeros z (firstn n xs).
Proof. intros Hx Ez. rewrite (Hx Ez), take_repeat. by rewrite repeat_length. Qed.
Lemma map_elem_false ys : map (elem_of false) ys = ys.
Proof. induction ys as [|y ys IH]; [done|]. cbn. by rewrite IH. Qed.
Lemma set_any p ys h : set_data true p ys h = set_data true p [] h.
Proof. done. Qed.

Lemma grow_rep z v xs fp ys h F o : vrep z v xs fp → H h (fp ++ F) o → N.of_nat (List.length xs) + N.of_nat (List.length ys) ≤ rc v →
  ∃ h' fp', set_data z (rp v) (xs ++ ys)%list h = Ok h' ∧
    vrep z (RVec (rp v) (rl v + List.length ys) (rc v)) (xs ++ map (elem_of z) ys)%list fp' ∧ H h' (fp' ++ F) o.
Proof.
  intros (El & B & Hz) HH Hn.
  destruct (H_set z (rp v) (rc v) xs (xs ++ map (elem_of z) ys) fp h F o B HH) as (h' & fp' & E & B' & H').
  - intros _. rewrite app_length, map_length. lia.
  - apply zeros_app; [by eapply brep_zeros|apply zeros_map].
  - exists h', fp'. split; [|split; [|done]].
    + destruct z; [by rewrite set_any in E |by rewrite map_elem_false in E].
    + split_and!; [|done|done]. cbn [rl]. rewrite app_length, map_length. lia.
Qed.
Lemma cut_rep z v xs fp n h F o : vrep z v xs fp → H h (fp ++ F) o → (n ≤ List.length xs)%nat →
  ∃ h' fp', set_data z (rp v) (firstn n xs) h = Ok h' ∧ vrep z (RVec (rp v) n (rc v)) (firstn n xs) fp' ∧ H h' (fp' ++ F) o.
Proof.
  intros (El & B & Hz) HH Hn.
  destruct (H_set z (rp v) (rc v) xs (firstn n xs) fp h F o B HH) as (h' & fp' & E & B' & H').
  - intros ->. apply brep_len in B. rewrite take_length. lia.
  - apply zeros_firstn. by eapply brep_zeros.
  - exists h', fp'. split_and!; try done. split_and!; try done. cbn [rl]. rewrite take_length. lia.
Qed.
Lemma vec_op_rep z op v xs fp h F o : vrep z v xs fp → H h (fp ++ F) o →
  ∃ h' v' fp' xs' dropped bad, vec_op z op v h = Ok (h', v', bad) ∧ avop z op xs (rc v) = (xs', rc v', dropped, bad) ∧
    vrep z v' xs' fp' ∧ H h' (fp' ++ F) (o ++ map EDrop dropped).
Proof.
  intros V HH. destruct op as [x g|ys g| |n|n g|]; cbn [vec_op avop].
  - destruct (reserve_rep z v xs fp 1 g h F o V HH) as (h1 & v1 & fp1 & bad & -> & V1 & H1 & -> & Hb). cbn [bind].
    destruct bad.
    + subst v1. eexists _, v, fp1, xs, [elem_of z x], true. split_and!; try done. by apply H_drops.
    + rewrite (vec_read_rep _ _ _ _ _ _ _ V1 H1). cbn [bind].
      destruct (grow_rep z v1 xs fp1 [x] h1 F o V1 H1 ltac:(cbn; lia)) as (h2 & fp2 & -> & V2 & H2). cbn [bind].
      eexists _, _, fp2, _, [], false. split; [done|]. split; [done|]. cbn [map List.length] in *. rewrite Nat.add_1_r in V2. split; [done|]. by rewrite app_nil_r.
  - destruct (reserve_rep z v xs fp (N.of_nat (List.length ys)) g h F o V HH) as (h1 & v1 & fp1 & bad & -> & V1 & H1 & -> & Hb). cbn [bind].
    destruct bad.
    + subst v1. eexists _, v, fp1, xs, [], true. split_and!; try done. by rewrite app_nil_r.
    + rewrite (vec_read_rep _ _ _ _ _ _ _ V1 H1). cbn [bind].
      destruct (grow_rep z v1 xs fp1 ys h1 F o V1 H1 Hb) as (h2 & fp2 & -> & V2 & H2). cbn [bind].
      eexists _, _, fp2, _, [], false. split; [done|]. split; [done|]. split; [done|]. by rewrite app_nil_r.
  - pose proof V as (El & _). rewrite El. destruct (List.length xs) as [|n] eqn:En.
    + assert (xs = []) as -> by by destruct xs. cbn. eexists _, v, fp, [], [], false. split_and!; try done. by rewrite app_nil_r.
    + rewrite (vec_read_rep _ _ _ _ _ _ _ V HH). cbn [bind].
      destruct (cut_rep z v _ fp n h F o V HH ltac:(lia)) as (h2 & fp2 & -> & V2 & H2). cbn [bind].
      replace (S n - 1)%nat with n by lia.
      eexists _, _, fp2, _, _, false. split; [done|]. split; [done|]. split; [done|]. by apply H_drops.
  - pose proof V as (El & _). rewrite El. destruct (Nat.leb_spec (List.length xs) n) as [Hn|Hn].
    + eexists _, v, fp, xs, [], false. rewrite firstn_all2, skipn_all2 by done. split_and!; try done. by rewrite app_nil_r.
    + rewrite (vec_read_rep _ _ _ _ _ _ _ V HH). cbn [bind].
      destruct (cut_rep z v _ fp n h F o V HH ltac:(lia)) as (h2 & fp2 & -> & V2 & H2). cbn [bind].
      eexists _, _, fp2, _, _, false. split; [done|]. split; [done|]. split; [done|]. by apply H_drops.
  - destruct (reserve_rep z v xs fp n g h F o V HH) as (h1 & v1 & fp1 & bad & -> & V1 & H1 & -> & Hb).
    exists h1, v1, fp1, xs, [], bad. rewrite app_nil_r. destruct bad; [subst v1|]; by split_and!.
  - destruct (vec_realloc_rep z v xs fp (N.of_nat (rl v)) h F o V) as (h' & v' & fp' & -> & V' & Ec & H'); [destruct V as [-> _]; lia|done|].
    cbn [bind]. exists h', v', fp', xs, [], false. rewrite app_nil_r, Ec. split_and!; try done. destruct V as [-> _]. done.
Qed.
