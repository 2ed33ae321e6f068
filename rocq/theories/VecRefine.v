(** Programs on vectors, strings and boxes behave as their specification. *)

From Coq Require Import Arith NArith List Bool Lia ZifyBool ZifyNat ZifyN Permutation.
From stdpp Require Import base numbers list.
From Verif Require Import CStrModel VecModel VecSpec VecProofs.
Local Open Scope N_scope.

(** ** Handles *)

Definition hrep (k : handle) (v : value) (fp : list cellt) : Prop :=
  match k with
  | HVec z x => vform v = FVec ∧ zst v = z ∧ vcap v = rc x ∧ vrep z x (elems v) fp
  | HCVec z x => vform v = FCVec ∧ zst v = z ∧ vcap v = cap_ x ∧ len_ x = List.length (elems v) ∧ brep z (ptr_ x) (cap_ x) (elems v) fp
  | HBox z b => vform v = FBox ∧ zst v = z ∧ vcap v = 0 ∧ xrep z b (elems v) fp
  | HCBox z b => vform v = FCBox ∧ zst v = z ∧ vcap v = 0 ∧ clen b = List.length (elems v) ∧ brep z (cptr b) (N.of_nat (clen b)) (elems v) fp
  | HString x => vform v = FString ∧ zst v = false ∧ vcap v = rc x ∧ vrep false x (elems v) fp ∧ utf8 (elems v) = true
  | HCString x => vform v = FCString ∧ zst v = false ∧ vcap v = cap_ x ∧ len_ x = List.length (elems v) ∧
      brep false (ptr_ x) (cap_ x) (elems v) fp ∧ utf8 (elems v) = true
  | HStr b => vform v = FStr ∧ zst v = false ∧ vcap v = 0 ∧ xrep false b (elems v) fp ∧ utf8 (elems v) = true
  | HCStr b => vform v = FCStr ∧ zst v = false ∧ vcap v = 0 ∧ clen b = List.length (elems v) ∧
      brep false (cptr b) (N.of_nat (clen b)) (elems v) fp ∧ utf8 (elems v) = true
  | HOne z p => vform v = FOne ∧ zst v = z ∧ vcap v = 0 ∧ List.length (elems v) = 1%nat ∧ brep z p 1 (elems v) fp
  | HCOne z p => vform v = FCOne ∧ zst v = z ∧ vcap v = 0 ∧ List.length (elems v) = 1%nat ∧ brep z p 1 (elems v) fp
  end.

Lemma new_rep f z xs g h F o : H h F o →
  match new f z xs g h, anew f z xs g with
  | None, None => True
  | Some (h', k), Some v => ∃ fp, hrep k v fp ∧ H h' (fp ++ F) o
  | _, _ => False
  end.
Proof.
  intros HH. unfold new, anew. pose proof (zeros_map z xs) as Hz. set (ys := map (elem_of z) xs) in *. clearbody ys.
  destruct f; try done.
  - destruct (vec_new_rep z ys g h F o Hz HH) as (h' & v & fp & -> & V & Ec & H'). exists fp. split; [|done]. split_and!; try done; by destruct V.
  - destruct (H_alloc z (N.of_nat (List.length ys)) ys h F o) as (h' & p & fp & -> & B & H'); [lia|done..|]. exists fp. split; [|done]. by split_and!.
  - destruct (utf8 ys) eqn:Eu; [|done]. destruct z; [done|]. cbn [andb negb].
    destruct (vec_new_rep false ys g h F o Hz HH) as (h' & v & fp & -> & V & Ec & H'). exists fp. split; [|done]. by split_and!; try apply V.
  - destruct (utf8 ys) eqn:Eu; [|done]. destruct z; [done|]. cbn [andb negb].
    destruct (H_alloc false (N.of_nat (List.length ys)) ys h F o) as (h' & p & fp & -> & B & H'); [lia|done..|]. exists fp. split; [|done]. by split_and!.
  - destruct ys as [|y [|]]; try done.
    destruct (H_alloc z 1 [y] h F o) as (h' & p & fp & -> & B & H'); [cbn; lia|done..|]. exists fp. split; [|done]. by split_and!.
Qed.
Lemma empty_rep f z :
  match empty f z, aempty f z with
  | None, None => True
  | Some k, Some v => hrep k v []
  | _, _ => False
  end.
Proof. by destruct f, z. Qed.

Lemma utf8_ok xs : utf8 xs = true → from_utf8_unchecked xs = Ok xs.
Proof. unfold from_utf8_unchecked. by intros ->. Qed.
Lemma conv_rep f k v fp h F o : hrep k v fp → H h (fp ++ F) o →
  match conv f k h, aconv f v with
  | None, None => True
  | Some r, Some v' => ∃ h' k' fp', r = Ok (h', k') ∧ hrep k' v' fp' ∧ H h' (fp' ++ F) o
  | _, _ => False
  end.
Proof.
  intros Hr HH. unfold aconv. destruct v as [vf vz xs vc]. cbn [vform zst elems vcap].
  destruct k as [z x|z x|z b|z b|x|x|b|b|z p|z p]; cbn [hrep vform zst elems vcap] in Hr.
  - destruct Hr as (-> & -> & -> & V). destruct f; try done; cbn [conv converts is_vec].
    + eexists _, _, fp. split; [done|]. split; [|done]. destruct V as (El & B & Hz). split_and!; try done. destruct z; [symmetry; by apply Hz|done].
    + destruct (into_box_rep z x xs fp h F o V HH) as (h' & b & fp' & -> & X & H'). cbn [bind]. eexists _, _, fp'. split; [done|]. split; [|done]. by split_and!; try apply X.
  - destruct Hr as (-> & -> & -> & El & B). destruct f; try done; cbn [conv converts is_vec].
    unfold cvec_into. rewrite El. destruct (from_raw_rep z _ _ xs fp h F o B HH) as [-> V]. cbn [bind]. eexists _, _, fp. split; [done|]. split; [|done].
    by split_and!; try apply V.
  - destruct Hr as (-> & -> & -> & X). destruct f; try done; cbn [conv converts is_vec].
    + eexists _, _, fp. split; [done|]. split; [|done]. pose proof (box_vec_rep _ _ _ _ X) as V. destruct X as [El _].
      split_and!; try done; try apply V. cbn [vcap box_into_vec rc]. by rewrite El.
    + eexists _, _, fp. split; [done|]. split; [|done]. destruct X as (El & B). by split_and!.
  - destruct Hr as (-> & -> & -> & El & B). destruct f; try done; cbn [conv converts is_vec].
    unfold cbox_into. rewrite El in *. rewrite (H_read _ _ _ _ _ _ _ _ B HH). cbn [bind]. rewrite (box_raw_rep _ _ _ _ _ _ _ B HH). cbn [bind].
    eexists _, _, fp. split; [done|]. split; [|done]. by split_and!.
  - destruct Hr as (-> & -> & -> & V & Hu). destruct f; try done; cbn [conv converts is_vec].
    + eexists _, _, fp. split; [done|]. split; [|done]. by split_and!; try apply V.
    + eexists _, _, fp. split; [done|]. split; [|done]. destruct V as (El & B & Hz). by split_and!.
    + destruct (into_box_rep false x xs fp h F o V HH) as (h' & b & fp' & -> & X & H'). cbn [bind]. eexists _, _, fp'. split; [done|]. split; [|done]. by split_and!; try apply X.
    + unfold cstr_from_string. destruct (into_box_rep false x xs fp h F o V HH) as (h' & b & fp' & -> & X & H'). cbn [bind]. eexists _, _, fp'. split; [done|]. split; [|done].
      destruct X as (El & B). by split_and!.
  - destruct Hr as (-> & -> & -> & El & B & Hu). destruct f; try done; cbn [conv converts is_vec].
    unfold cstring_into, cvec_into. rewrite El. destruct (from_raw_rep false _ _ xs fp h F o B HH) as [-> V]. cbn [bind].
    rewrite (vec_read_rep _ _ _ _ _ _ _ V HH). cbn [bind]. rewrite utf8_ok by done. cbn [bind].
    eexists _, _, fp. split; [done|]. split; [|done]. by split_and!; try apply V.
  - destruct Hr as (-> & -> & -> & X & Hu). destruct f; try done; cbn [conv converts is_vec].
    + eexists _, _, fp. split; [done|]. split; [|done]. pose proof (box_vec_rep _ _ _ _ X) as V. destruct X as [El _].
      split_and!; try done; try apply V. cbn [vcap box_into_vec rc]. by rewrite El.
    + eexists _, _, fp. split; [done|]. split; [|done]. destruct X as (El & B). by split_and!.
  - destruct Hr as (-> & -> & -> & El & B & Hu).
    assert (E : cstr_into b h = Ok (RBox (cptr b) (List.length xs))).
    { unfold cstr_into, cbox_into. rewrite El in *. rewrite (H_read _ _ _ _ _ _ _ _ B HH). cbn [bind]. rewrite (box_raw_rep _ _ _ _ _ _ _ B HH). cbn [bind bp bl].
      rewrite (H_read _ _ _ _ _ _ _ _ B HH). cbn [bind]. by rewrite utf8_ok. }
    rewrite El in *. assert (X : xrep false (RBox (cptr b) (List.length xs)) xs fp) by done.
    destruct f; try done; cbn [conv converts is_vec].
    + unfold cstr_into_string. rewrite E. cbn [bind]. eexists _, _, fp. split; [done|]. split; [|done].
      pose proof (box_vec_rep _ _ _ _ X) as V. by split_and!; try apply V.
    + rewrite E. cbn [bind]. eexists _, _, fp. split; [done|]. split; [|done]. by split_and!.
  - destruct Hr as (-> & -> & -> & El & B). destruct f; try done; cbn [conv converts is_vec].
    eexists _, _, fp. split; [done|]. split; [|done]. by split_and!.
  - destruct Hr as (-> & -> & -> & El & B). destruct f; try done; cbn [conv converts is_vec].
    unfold box1_into. assert (brep z p (N.of_nat (List.length xs)) xs fp) as B' by by rewrite El.
    pose proof (box_raw_rep _ _ _ _ _ _ _ B' HH) as E. rewrite El in E. rewrite E. cbn [bind bp].
    eexists _, _, fp. split; [done|]. split; [|done]. by split_and!.
Qed.
Lemma drop_rep k v fp h F o : hrep k v fp → H h (fp ++ F) o →
  ∃ h', drop_handle k h = Ok h' ∧ H h' F (o ++ map EDrop (elems v)).
Proof.
  intros Hr HH. destruct v as [vf vz xs vc]. destruct k as [z x|z x|z b|z b|x|x|b|b|z p|z p]; cbn [hrep vform zst elems vcap drop_handle] in *.
  - destruct Hr as (_ & _ & _ & V). by eapply vec_drop_rep.
  - destruct Hr as (_ & _ & _ & El & B). unfold cvec_drop, cvec_into. rewrite El. destruct (from_raw_rep z _ _ xs fp h F o B HH) as [-> V]. cbn [bind]. by eapply vec_drop_rep.
  - destruct Hr as (_ & _ & _ & X). by eapply box_drop_rep.
  - destruct Hr as (_ & _ & _ & El & B). unfold cbox_drop. rewrite El in *. rewrite (H_read _ _ _ _ _ _ _ _ B HH). cbn [bind]. rewrite (box_raw_rep _ _ _ _ _ _ _ B HH). cbn [bind].
    by eapply box_drop_rep.
  - destruct Hr as (_ & _ & _ & V & _). by eapply vec_drop_rep.
  - destruct Hr as (_ & _ & _ & El & B & _). unfold cvec_drop, cvec_into. rewrite El. destruct (from_raw_rep false _ _ xs fp h F o B HH) as [-> V]. cbn [bind]. by eapply vec_drop_rep.
  - destruct Hr as (_ & _ & _ & X & _). by eapply box_drop_rep.
  - destruct Hr as (_ & _ & _ & El & B & _). unfold cbox_drop. rewrite El in *. rewrite (H_read _ _ _ _ _ _ _ _ B HH). cbn [bind]. rewrite (box_raw_rep _ _ _ _ _ _ _ B HH). cbn [bind].
    by eapply box_drop_rep.
  - destruct Hr as (_ & _ & _ & El & B). eapply box_drop_rep; [|done]. split; [done|]. done.
  - destruct Hr as (_ & _ & _ & El & B). unfold box1_drop. assert (brep z p (N.of_nat (List.length xs)) xs fp) as B' by by rewrite El.
    pose proof (box_raw_rep _ _ _ _ _ _ _ B' HH) as E. rewrite El in E. rewrite E. cbn [bind]. by eapply box_drop_rep.
Qed.
(** The memory of the elements of a handle. *)
Lemma whole_rep k v fp : hrep k v fp → ∃ z p cap, whole k = Some (z, p, List.length (elems v)) ∧ z = zst v ∧ brep z p cap (elems v) fp ∧
  match k with HVec z' _ | HCVec z' _ | HBox z' _ | HCBox z' _ | HOne z' _ | HCOne z' _ => z' = z | _ => z = false end.
Proof.
  intros Hr. destruct v as [vf vz xs vc]. destruct k as [z x|z x|z b|z b|x|x|b|b|z p|z p]; cbn [hrep vform zst elems vcap whole] in *.
  - destruct Hr as (_ & -> & _ & El & B & _). rewrite El. by eexists _, _, _.
  - destruct Hr as (_ & -> & _ & El & B). rewrite El. by eexists _, _, _.
  - destruct Hr as (_ & -> & _ & El & B). rewrite El in *. by eexists _, _, _.
  - destruct Hr as (_ & -> & _ & El & B). rewrite El in *. by eexists _, _, _.
  - destruct Hr as (_ & -> & _ & (El & B & _) & _). rewrite El. by eexists _, _, _.
  - destruct Hr as (_ & -> & _ & El & B & _). rewrite El. by eexists _, _, _.
  - destruct Hr as (_ & -> & _ & (El & B) & _). rewrite El in *. by eexists _, _, _.
  - destruct Hr as (_ & -> & _ & El & B & _). rewrite El in *. by eexists _, _, _.
  - destruct Hr as (_ & -> & _ & El & B). rewrite El in *. by eexists _, _, _.
  - destruct Hr as (_ & -> & _ & El & B). rewrite El in *. by eexists _, _, _.
Qed.
Lemma read_rep k v fp h F o w : hrep k v fp → H h (fp ++ F) o →
  match read k w h, aread v w with
  | None, None => True
  | Some r, Some xs => r = Ok xs
  | _, _ => False
  end.
Proof.
  intros Hr HH. destruct (whole_rep k v fp Hr) as (z & p & cap & Ew & Ez & B & Em).
  pose proof (H_read _ _ _ _ _ _ _ _ B HH) as E.
  destruct w as [| | |a b].
  - cbn [read]. assert (aread v Deref = Some (elems v)) as -> by by destruct v as [[]].
    destruct k as [z' x|z' x|z' b|z' b|x|x|b|b|z' q|z' q]; injection Ew as Ez' Ep El; cbn [deref];
      unfold vec_read, cvec_deref, cbox_deref, cstring_deref, cstr_deref, as_str, cbox_as_ref, slice_from, box1_deref; cbn [sptr slen]; try (by subst; rewrite ?El).
    + unfold cvec_deref. rewrite Ep, El. subst z. rewrite E. cbn [bind]. apply utf8_ok. cbn [hrep] in Hr. tauto.
    + rewrite Ep, El. subst z. rewrite E. cbn [bind]. apply utf8_ok. cbn [hrep] in Hr. tauto.
  - cbn [read]. destruct k as [z' x|z' x|z' b|z' b|x|x|b|b|z' q|z' q]; injection Ew as Ez' Ep El; cbn [as_ref]; destruct v as [vf vz xs vc]; cbn [hrep vform elems] in *;
      destruct Hr as (-> & Hr); cbn [aread vform elems]; try done; unfold as_slice, as_str, cvec_as_ref, cbox_as_ref, slice_from; cbn [sptr slen]; subst; rewrite El, E; [done..|].
    cbn [bind]. apply utf8_ok. tauto.
  - cbn [read]. destruct k as [z' x|z' x|z' b|z' b|x|x|b|b|z' q|z' q]; injection Ew as Ez' Ep El; cbn [as_mut]; destruct v as [vf vz xs vc]; cbn [hrep vform elems] in *;
      destruct Hr as (-> & Hr); cbn [aread vform elems]; try done; unfold as_slice, mut_as_ref, cvec_as_ref, cbox_as_ref, slice_from; cbn [sptr slen]; subst; by rewrite El, E.
  - cbn [read]. rewrite Ew. assert (aread v (Sub a b) = if (a <=? b)%nat && (b <=? List.length (elems v))%nat then Some (firstn (b - a) (skipn a (elems v))) else None) as -> by by destruct v as [[]].
    destruct (Nat.leb_spec a b), (Nat.leb_spec b (List.length (elems v))); cbn [andb]; try done. unfold as_slice, raw_as_ref, raw_from, slice_from. cbn [sptr slen fst snd].
    by eapply H_sub.
Qed.
Lemma capacity_rep k v fp : hrep k v fp → capacity k = acap v.
Proof. intros Hr. unfold acap. destruct k; cbn [hrep] in Hr; destruct Hr as (-> & _ & -> & _); done. Qed.
Lemma same_elems k v ys p cap z fp fp' : whole k = Some (z, p, List.length (elems v)) → hrep k v fp →
  brep z p cap (elems v) fp → List.length ys = List.length (elems v) → (is_str (vform v) = true → utf8 ys = true) →
  (∀ cap, brep z p cap (elems v) fp → brep z p cap ys fp') →
  hrep k (Value (vform v) (zst v) ys (vcap v)) fp'.
Proof.
  intros Ew Hr _ El Hu HB. destruct v as [vf vz xs vc]. destruct k as [z' x|z' x|z' b|z' b|x|x|b|b|z' q|z' q];
    cbn [hrep vform zst elems vcap whole] in *; injection Ew as Ez Ep Ew; subst z p; unfold vrep, xrep in *.
  - destruct Hr as (-> & -> & -> & V1 & V2 & V3). split_and!; try done; try congruence; by apply HB.
  - destruct Hr as (-> & -> & -> & V1 & V2). split_and!; try done; try congruence; by apply HB.
  - destruct Hr as (-> & -> & -> & V1 & V2). split_and!; try done; try congruence; by apply HB.
  - destruct Hr as (-> & -> & -> & V1 & V2). split_and!; try done; try congruence; by apply HB.
  - destruct Hr as (-> & -> & -> & (V1 & V2 & V3) & V4). split_and!; try done; try congruence; first [by apply HB|by apply Hu].
  - destruct Hr as (-> & -> & -> & V1 & V2 & V3). split_and!; try done; try congruence; first [by apply HB|by apply Hu].
  - destruct Hr as (-> & -> & -> & (V1 & V2) & V4). split_and!; try done; try congruence; first [by apply HB|by apply Hu].
  - destruct Hr as (-> & -> & -> & V1 & V2 & V3). split_and!; try done; try congruence; first [by apply HB|by apply Hu].
  - destruct Hr as (-> & -> & -> & V1 & V2). split_and!; try done; try congruence; by apply HB.
  - destruct Hr as (-> & -> & -> & V1 & V2). split_and!; try done; try congruence; by apply HB.
Qed.
Lemma zeros_insert z xs k x : zeros z xs → zeros z (<[k := elem_of z x]> xs).
Proof.
  intros Hx ->. rewrite insert_length. specialize (Hx eq_refl). cbn [elem_of]. revert k Hx. induction xs as [|y xs IH]; intros k; [done|].
  cbn. intros [= -> Hx]. destruct k; cbn; [by rewrite <-Hx|]. f_equal. by apply IH.
Qed.
Lemma brep_other z p cap xs ys fp fp' cap' : brep z p cap xs fp → brep z p cap ys fp' → List.length ys = List.length xs →
  brep z p cap' xs fp → brep z p cap' ys fp'.
Proof.
  unfold brep. destruct z; [done|]. intros B B' El.
  destruct (cap =? 0), (cap' =? 0).
  - destruct B' as (-> & -> & ->). by intros (_ & _ & _).
  - destruct B as (-> & _). by intros (b & ? & _).
  - destruct B as (b & -> & _). by intros (? & _).
  - destruct B as (b & -> & Hl & ->), B' as (b' & [= <-] & Hl' & ->). intros (b' & [= <-] & Hl2 & [= ->]). eexists. split_and!; try done.
Qed.
Lemma write_rep hd v fp h F o k x : hrep hd v fp → H h (fp ++ F) o → is_str (vform v) = false →
  match elems v !! k with
  | Some y => ∃ h' fp', write hd k (elem_of (zst v) x) h = Some (Ok (Some h')) ∧
      hrep hd (Value (vform v) (zst v) (<[k := elem_of (zst v) x]> (elems v)) (vcap v)) fp' ∧ H h' (fp' ++ F) (o ++ [EDrop y])
  | None => write hd k (elem_of (zst v) x) h = Some (Ok None)
  end.
Proof.
  intros Hr HH Hs. destruct (whole_rep hd v fp Hr) as (z & p & cap & Ew & Ez & B & _).
  assert (E : write hd k (elem_of (zst v) x) h = Some
            (bind (from_raw_parts z p (List.length (elems v)) h) (λ xs, match xs !! k with
             | Some y => bind (set_data z p (<[k := elem_of (zst v) x]> xs) h) (λ h, Ok (Some (drop_elems [y] h)))
             | None => Ok None
             end))).
  { unfold write. rewrite Ew. destruct hd; try done; cbn [hrep] in Hr; destruct Hr as (Ef & _); by rewrite Ef in Hs. }
  rewrite E, (H_read _ _ _ _ _ _ _ _ B HH). cbn [bind]. destruct (elems v !! k) as [y|] eqn:Ek; [|done].
  destruct (H_set z p cap (elems v) (<[k := elem_of (zst v) x]> (elems v)) fp h F o B HH) as (h' & fp' & E' & B' & H').
  { intros ->. apply brep_len in B. by rewrite insert_length. }
  { rewrite <-Ez. apply zeros_insert. by eapply brep_zeros. }
  rewrite E'. cbn [bind]. eexists _, fp'. split; [done|]. split; [|by apply (H_drops [y])].
  eapply same_elems; [done..|by rewrite insert_length|by rewrite Hs|].
  intros cap'. eapply brep_other; [done..|]. by rewrite insert_length.
Qed.
Lemma clone_rep z x xs fp g panic h F o : len_ x = List.length xs → brep z (ptr_ x) (cap_ x) xs fp → H h (fp ++ F) o →
  match match panic with Some k => if (k <? List.length xs)%nat then Some k else None | None => None end with
  | Some k => ∃ h', cvec_clone z x g panic h = Ok (h', None) ∧ H h' (fp ++ F) (o ++ map EDrop (firstn k xs))
  | None => ∃ h' y fp', cvec_clone z x g panic h = Ok (h', Some y) ∧ len_ y = List.length xs ∧
      cap_ y = (if z then USIZE_MAX else N.max g (N.of_nat (List.length xs))) ∧ brep z (ptr_ y) (cap_ y) xs fp' ∧ H h' (fp' ++ fp ++ F) o
  end.
Proof.
  intros El B HH. unfold cvec_clone, cvec_deref. rewrite El, (H_read _ _ _ _ _ _ _ _ B HH). cbn [bind].
  assert (G : ∃ h' y fp', (let '(h, v) := vec_new z xs g h in Ok (h, Some (cvec_from v))) = Ok (h', Some y) ∧ len_ y = List.length xs ∧
      cap_ y = (if z then USIZE_MAX else N.max g (N.of_nat (List.length xs))) ∧ brep z (ptr_ y) (cap_ y) xs fp' ∧ H h' (fp' ++ fp ++ F) o).
  { destruct (vec_new_rep z xs g h (fp ++ F) o (brep_zeros _ _ _ _ _ B) HH) as (h' & v & fp' & -> & V & Ec & H'). eexists _, _, fp'. split; [done|].
    destruct V as (Elv & Bv & _). by split_and!. }
  destruct panic as [k|]; [|done]. destruct (Nat.ltb_spec k (List.length xs)) as [Hk|Hk]; [|done].
  destruct (vec_new_rep z (firstn k xs) (N.max g (N.of_nat (List.length xs))) h (fp ++ F) o) as (h' & v & fp' & -> & V & Ec & H');
    [by eapply zeros_firstn, brep_zeros|done|].
  destruct (vec_drop_rep z v _ _ h' (fp ++ F) o V H') as (h2 & -> & H2). cbn [bind]. by exists h2.
Qed.

(** ** Programs *)

Definition srep (k : slot) (a : aslot) (fp : list cellt) : Prop :=
  match k, a with
  | Own k, AOwn v | Local k, ALocal v => hrep k v fp
  | Gone, AGone | Lent _, ALent => fp = []
  | _, _ => False
  end.
Inductive all3 : list slot → list aslot → list (list cellt) → Prop :=
| all3_nil : all3 [] [] []
| all3_cons k a fp ks as_ fps : srep k a fp → all3 ks as_ fps → all3 (k :: ks) (a :: as_) (fp :: fps).
Definition R (s : state) (a : astate) : Prop := ∃ fps, all3 (slots s) (vars a) fps ∧ H (mem s) (concat fps) (told a).

Lemma all3_lookup ks as_ fps i k : all3 ks as_ fps → ks !! i = Some k → ∃ a fp, as_ !! i = Some a ∧ fps !! i = Some fp ∧ srep k a fp.
Proof.
  intros A. revert i. induction A as [|k' a fp ks as_ fps Hr A IH]; intros i; [done|]. destruct i as [|i]; cbn; [|apply IH].
  intros [= <-]. by exists a, fp.
Qed.
Lemma all3_none ks as_ fps i : all3 ks as_ fps → ks !! i = None → as_ !! i = None.
Proof. intros A. revert i. induction A as [|k' a fp ks as_ fps Hr A IH]; intros i; [done|]. destruct i as [|i]; cbn; [done|apply IH]. Qed.
Lemma all3_insert ks as_ fps i k a fp : all3 ks as_ fps → srep k a fp → all3 (<[i := k]> ks) (<[i := a]> as_) (<[i := fp]> fps).
Proof. intros A Hr. revert i. induction A as [|k' a' fp' ks as_ fps Hr' A IH]; intros i; [constructor|]. destruct i as [|i]; cbn; constructor; auto. Qed.
Lemma all3_app ks as_ fps k a fp : all3 ks as_ fps → srep k a fp → all3 (ks ++ [k]) (as_ ++ [a]) (fps ++ [fp]).
Proof. intros A Hr. induction A; cbn; constructor; auto. constructor. Qed.
Lemma all3_length ks as_ fps : all3 ks as_ fps → List.length ks = List.length as_.
Proof. induction 1; cbn; congruence. Qed.
Lemma concat_focus (fps : list (list cellt)) i fp : fps !! i = Some fp → ∃ F, concat fps ≡ₚ fp ++ F ∧ ∀ fp', concat (<[i := fp']> fps) ≡ₚ fp' ++ F.
Proof.
  intros E. pose proof (lookup_lt_Some _ _ _ E) as Hl. apply elem_of_list_split_length in E as (l1 & l2 & -> & ->).
  exists (concat l1 ++ concat l2)%list. split.
  - rewrite concat_app. cbn [concat]. rewrite !app_assoc. f_equiv. apply Permutation_app_comm.
  - intros fp'. rewrite insert_app_r_alt, Nat.sub_diag by lia. cbn [insert list_insert]. rewrite concat_app. cbn [concat]. rewrite !app_assoc. f_equiv. apply Permutation_app_comm.
Qed.
Lemma R_focus s a i k : R s a → slots s !! i = Some k → ∃ ak fp F, vars a !! i = Some ak ∧ srep k ak fp ∧ H (mem s) (fp ++ F) (told a) ∧
  ∀ k' ak' fp' h' o', srep k' ak' fp' → H h' (fp' ++ F) o' → R (State h' (<[i := k']> (slots s))) (AState (<[i := ak']> (vars a)) o').
Proof.
  intros (fps & A & HH) E. destruct (all3_lookup _ _ _ _ _ A E) as (ak & fp & E1 & E2 & Hr).
  destruct (concat_focus fps i fp E2) as (F & P1 & P2). exists ak, fp, F. split_and!; try done.
  - by eapply H_perm.
  - intros k' ak' fp' h' o' Hr' H'. exists (<[i := fp']> fps). split; [by apply all3_insert|]. cbn [mem told]. eapply H_perm, H'. symmetry. apply P2.
Qed.
Lemma R_same s a i k : R s a → slots s !! i = Some k → ∃ ak fp F, vars a !! i = Some ak ∧ srep k ak fp ∧ H (mem s) (fp ++ F) (told a) ∧
  ∀ h' o', H h' (fp ++ F) o' → R (with_mem h' s) (AState (vars a) o').
Proof.
  intros HR E. destruct (R_focus s a i k HR E) as (ak & fp & F & E1 & Hr & HH & Hc). exists ak, fp, F. split_and!; try done.
  intros h' o' H'. pose proof (Hc _ _ _ _ _ Hr H') as HR'. by rewrite !list_insert_id in HR' by done.
Qed.
Lemma R_add s a h fp k v : srep k v fp → ∀ F o, (∃ fps, all3 (slots s) (vars a) fps ∧ concat fps ≡ₚ F) → H h (fp ++ F) o →
  R (State h (slots s ++ [k])) (AState (vars a ++ [v]) o).
Proof.
  intros Hr F o (fps & A & P) HH. exists (fps ++ [fp])%list. split; [by apply all3_app|]. cbn [mem told]. eapply H_perm, HH.
  rewrite concat_app. cbn [concat]. rewrite app_nil_r, P. apply Permutation_app_comm.
Qed.
Lemma R_none s a i : R s a → slots s !! i = None → vars a !! i = None.
Proof. intros (fps & A & _). by eapply all3_none. Qed.

Definition RO (r : out) (q : aout) : Prop :=
  match r, q with
  | Done s, ADone a | Panicked s, APanicked a => R s a
  | Stuck, AStuck => True
  | _, _ => False
  end.
Lemma vop_rep z x v fp op s a i F (ctor : rvec → handle) (cs : handle → slot) (ca : value → aslot) check :
  vrep z x (elems v) fp → vcap v = rc x → zst v = z →
  H (mem s) (fp ++ F) (told a) →
  (∀ k w fp', hrep k w fp' → srep (cs k) (ca w) fp') →
  (∀ x' xs' fp', vrep z x' xs' fp' → check xs' = true → hrep (ctor x') (Value (vform v) z xs' (rc x')) fp') →
  (∀ k' ak' fp' h' o', srep k' ak' fp' → H h' (fp' ++ F) o' → R (State h' (<[i := k']> (slots s))) (AState (<[i := ak']> (vars a)) o')) →
  (∀ xs, check xs = negb (is_str (vform v)) || utf8 xs) →
  RO (lift (vec_op z op x (mem s)) (λ '(h, v, bad),
          lift (vec_read z v h) (λ xs,
            if check xs : bool then
              let s := set_slot i (cs (ctor v)) (with_mem h s) in if bad : bool then Panicked s else Done s
            else Stuck)))
    (let '(xs, c, dropped, bad) := avop (zst v) op (elems v) (vcap v) in
            if negb (is_str (vform v)) || utf8 xs then
              let a := tell (map EDrop dropped) (aset i (ca (Value (vform v) (zst v) xs c)) a) in
              if bad : bool then APanicked a else ADone a
            else AStuck).
Proof.
  intros V Ec Ez HH Hcs Hct Hcl Hck. destruct (vec_op_rep z op x (elems v) fp (mem s) F (told a) V HH) as (h' & x' & fp' & xs' & dropped & bad & -> & E & V' & H').
  rewrite Ec, Ez, E. cbn [lift]. rewrite (vec_read_rep _ _ _ _ _ _ _ V' H'). cbn [lift]. rewrite <-Hck. destruct (check xs') eqn:Eck; [|done].
  assert (HR : R (set_slot i (cs (ctor x')) (with_mem h' s)) (tell (map EDrop dropped) (aset i (ca (Value (vform v) z xs' (rc x'))) a))).
  { eapply Hcl, H'. apply Hcs. by apply Hct. }
  by destruct bad.
Qed.
Lemma write_slot hd v fp s a i F k x (cs : handle → slot) (ca : value → aslot) :
  hrep hd v fp → H (mem s) (fp ++ F) (told a) → slots s !! i = Some (cs hd) → vars a !! i = Some (ca v) →
  (∀ k w fp', hrep k w fp' → srep (cs k) (ca w) fp') →
  (∀ k' ak' fp' h' o', srep k' ak' fp' → H h' (fp' ++ F) o' → R (State h' (<[i := k']> (slots s))) (AState (<[i := ak']> (vars a)) o')) →
  RO match write hd k (elem_of match hd with HVec z _ | HCVec z _ | HBox z _ | HCBox z _ | HOne z _ | HCOne z _ => z | _ => false end x) (mem s) with
     | Some r => lift r (λ o, match o with Some h => Done (with_mem h s) | None => Panicked s end)
     | None => Stuck
     end
     (if is_str (vform v) then AStuck
      else
        match elems v !! k with
        | Some y => ADone (tell [EDrop y] (aset i (ca (Value (vform v) (zst v) (<[k := elem_of (zst v) x]> (elems v)) (vcap v))) a))
        | None => APanicked a
        end).
Proof.
  intros Hr HH Es Ea Hcs Hcl. assert (HR : R s a).
  { pose proof (Hcl _ _ _ _ _ (Hcs _ _ _ Hr) HH) as HR. rewrite !list_insert_id in HR by done. by destruct s, a. }
  destruct (is_str (vform v)) eqn:Ef.
  - destruct hd; cbn [hrep] in Hr; destruct Hr as (Ef' & _); rewrite Ef' in Ef; done.
  - assert (match hd with HVec z _ | HCVec z _ | HBox z _ | HCBox z _ | HOne z _ | HCOne z _ => z | _ => false end = zst v) as ->.
    { destruct hd; cbn [hrep] in Hr; destruct Hr as (_ & <- & _); done. }
    pose proof (write_rep hd v fp (mem s) F (told a) k x Hr HH Ef) as Hw. destruct (elems v !! k) as [y|].
    + destruct Hw as (h' & fp' & -> & Hr' & H'). cbn [lift RO].
      pose proof (Hcl _ _ _ _ _ (Hcs _ _ _ Hr') H') as HR'. by rewrite (list_insert_id (slots s)) in HR' by done.
    + rewrite Hw. done.
Qed.

Lemma read_slot hd v fp s a w F : hrep hd v fp → H (mem s) (fp ++ F) (told a) →
  (∀ h' o', H h' (fp ++ F) o' → R (with_mem h' s) (AState (vars a) o')) →
  RO match read hd w (mem s) with
     | Some r => lift r (λ xs, Done (with_mem (note [ERead xs (capacity hd)] (mem s)) s))
     | None => Stuck
     end
     match aread v w with Some xs => ADone (tell [ERead xs (acap v)] a) | None => AStuck end.
Proof.
  intros Hr HH Hc. pose proof (read_rep hd v fp (mem s) F (told a) w Hr HH) as Hw. destruct (read hd w (mem s)), (aread v w); try done.
  subst. cbn [lift RO]. rewrite (capacity_rep _ _ _ Hr). apply Hc. by apply H_note; [constructor|].
Qed.

Definition ctor (k : slot) : option (handle * (handle → slot)) :=
  match k with Own k => Some (k, Own) | Local k => Some (k, Local) | _ => None end.
Definition actor (k : aslot) : option (value * (value → aslot)) :=
  match k with AOwn v => Some (v, AOwn) | ALocal v => Some (v, ALocal) | _ => None end.
Lemma R_swap s a i j k l ck cl v w cv cw : R s a → i ≠ j →
  slots s !! i = Some (ck k) → slots s !! j = Some (cl l) → vars a !! i = Some (cv v) → vars a !! j = Some (cw w) →
  (∀ fp k v, srep (ck k) (cv v) fp ↔ hrep k v fp) → (∀ fp k v, srep (cl k) (cw v) fp ↔ hrep k v fp) →
  R (set_slot j (cl k) (set_slot i (ck l) s)) (aset j (cw v) (aset i (cv w) a)).
Proof.
  intros (fps & A & HH) Hij E1 E2 E3 E4 C1 C2.
  destruct (all3_lookup _ _ _ _ _ A E1) as (x & fp1 & Ex & F1 & R1). rewrite E3 in Ex. injection Ex as <-. apply C1 in R1.
  destruct (all3_lookup _ _ _ _ _ A E2) as (x & fp2 & Ex & F2 & R2). rewrite E4 in Ex. injection Ex as <-. apply C2 in R2.
  exists (<[j := fp1]> (<[i := fp2]> fps)). split.
  - cbn [set_slot slots aset vars]. apply all3_insert; [apply all3_insert; [done|]|]; [by apply C1|by apply C2].
  - cbn [set_slot mem aset told]. eapply H_perm, HH.
    destruct (concat_focus fps i fp1 F1) as (Q & P1 & P2). specialize (P2 fp2).
    destruct (concat_focus (<[i := fp2]> fps) j fp2) as (Q' & P3 & P4); [by rewrite list_lookup_insert_ne|]. specialize (P4 fp1).
    rewrite P4, P1. f_equiv. apply (Permutation_app_inv_l fp2). by rewrite <-P3, <-P2.
Qed.
Lemma swap_rep i j s a : R s a → RO (prim (Swap i j) s) (aprim (Swap i j) a).
Proof.
  intros HR. cbn [prim aprim].
  assert (G : ∀ i, match slots s !! i ≫= ctor, vars a !! i ≫= actor with
    | None, None => True
    | Some (k, ck), Some (v, cv) => slots s !! i = Some (ck k) ∧ vars a !! i = Some (cv v) ∧ (∃ fp, hrep k v fp) ∧ ∀ fp k v, srep (ck k) (cv v) fp ↔ hrep k v fp
    | _, _ => False
    end).
  { intros n. destruct (slots s !! n) as [k|] eqn:E; [|by rewrite (R_none s a n)].
    destruct (R_focus s a n k HR E) as (ak & fp & F & -> & Hr & _). cbn. destruct k as [|k|k|k], ak; try done; cbn [srep] in *; split_and!; try done; by exists fp. }
  pose proof (G i) as Gi. pose proof (G j) as Gj. fold ctor actor. unfold ctor, actor in *.
  destruct (slots s !! i ≫= _) as [[k ck]|] eqn:Si, (vars a !! i ≫= _) as [[v cv]|] eqn:Vi; try done.
  destruct (slots s !! j ≫= _) as [[l cl]|] eqn:Sj, (vars a !! j ≫= _) as [[w cw]|] eqn:Vj; try done; [|by destruct k].
  destruct Gi as (E1 & E3 & [fp1 R1] & C1), Gj as (E2 & E4 & [fp2 R2] & C2).
  destruct (Nat.eqb_spec i j) as [->|Hij]; cbn [orb]; [by destruct k, l|].
  assert (Ek : match k with HVec z _ => vform v = FVec ∧ zst v = z | HString _ => vform v = FString ∧ zst v = false | _ => vform v ≠ FVec ∧ vform v ≠ FString end).
  { destruct k; cbn [hrep] in R1; destruct R1 as (-> & R1); split; try done; tauto. }
  assert (El : match l with HVec z _ => vform w = FVec ∧ zst w = z | HString _ => vform w = FString ∧ zst w = false | _ => vform w ≠ FVec ∧ vform w ≠ FString end).
  { destruct l; cbn [hrep] in R2; destruct R2 as (-> & R2); split; try done; tauto. }
  pose proof (R_swap s a i j k l ck cl v w cv cw HR Hij E1 E2 E3 E4 C1 C2) as HS.
  destruct k, l; destruct Ek as [Ek1 Ek2], El as [El1 El2]; try (by destruct (negb _), (vform v), (vform w)).
  - rewrite Ek1, El1, Ek2, El2. by destruct (Bool.eqb _ _).
  - rewrite Ek1, El1, Ek2, El2. done.
Qed.

Lemma prim_rep op s a : R s a → RO (prim op s) (aprim op a).
Proof.
  intros HR. destruct op as [f z xs g|f z|i f|i o|i j|i w|i k x|i g panic|i]; cbn [prim aprim].
  - pose proof HR as (fps & A & HH). pose proof (new_rep f z xs g (mem s) _ _ HH) as Hn.
    destruct (new f z xs g (mem s)) as [[h k]|], (anew f z xs g) as [v|]; try done. destruct Hn as (fp & Hr & H').
    cbn [RO]. by eapply (R_add s a); [|by exists fps|].
  - pose proof HR as (fps & A & HH). pose proof (empty_rep f z) as Hn.
    destruct (empty f z) as [k|], (aempty f z) as [v|]; try done. cbn [RO]. eapply (R_add s a); [|by exists fps|]; [exact Hn|done].
  - destruct (slots s !! i) as [k|] eqn:E; [|by rewrite (R_none s a i)].
    destruct (R_focus s a i k HR E) as (ak & fp & F & -> & Hr & HH & Hc). destruct k, ak; try done.
    pose proof (conv_rep f _ _ fp (mem s) F (told a) Hr HH) as Hn. destruct (conv f k (mem s)), (aconv f v) as [v'|]; try done.
    destruct Hn as (h' & k' & fp' & -> & Hr' & H'). cbn [lift RO]. by eapply Hc.
  - destruct (slots s !! i) as [k|] eqn:E; [|by rewrite (R_none s a i)].
    destruct (R_focus s a i k HR E) as (ak & fp & F & -> & Hr & HH & Hc). destruct k as [|k|k|k], ak; try done.
    + destruct k; cbn [srep hrep] in Hr; pose proof Hr as (Ef & Hr'); rewrite Ef; try done.
      * rewrite <-Ef. eapply (vop_rep z v0 v fp o s a i F (HVec z) Own AOwn (λ _, true)); try done; try tauto; try (by rewrite Ef); intros x' xs' fp' V Hu; rewrite Ef; by split_and!; try apply V.
      * rewrite <-Ef. eapply (vop_rep false v0 v fp o s a i F HString Own AOwn utf8); try done; try tauto; try (by rewrite Ef); intros x' xs' fp' V Hu; rewrite Ef; by split_and!; try apply V.
    + destruct k; cbn [srep hrep] in Hr; pose proof Hr as (Ef & Hr'); rewrite Ef; try done.
      * rewrite <-Ef. eapply (vop_rep z v0 v fp o s a i F (HVec z) Local ALocal (λ _, true)); try done; try tauto; try (by rewrite Ef); intros x' xs' fp' V Hu; rewrite Ef; by split_and!; try apply V.
      * rewrite <-Ef. eapply (vop_rep false v0 v fp o s a i F HString Local ALocal utf8); try done; try tauto; try (by rewrite Ef); intros x' xs' fp' V Hu; rewrite Ef; by split_and!; try apply V.
  - by apply swap_rep.
  - destruct (slots s !! i) as [k|] eqn:E; [|by rewrite (R_none s a i)].
    destruct (R_same s a i k HR E) as (ak & fp & F & -> & Hr & HH & Hc). destruct k as [|k|k|k], ak; try done; by eapply read_slot.
  - destruct (slots s !! i) as [hd|] eqn:E; [|by rewrite (R_none s a i)].
    destruct (R_focus s a i hd HR E) as (ak & fp & F & Ea & Hr & HH & Hc). rewrite Ea. destruct hd as [|hd|hd|hd], ak; try done; by eapply write_slot.
  - destruct (slots s !! i) as [k|] eqn:E; [|by rewrite (R_none s a i)].
    destruct (R_same s a i k HR E) as (ak & fp & F & Ea & Hr & HH & Hc). rewrite Ea. destruct k as [|k|k|k], ak; try done.
    pose proof HR as (fps & A & HA).
    assert (P : concat fps ≡ₚ fp ++ F) by (destruct HH as (P1 & _), HA as (P2 & _); by rewrite <-P1, P2).
    destruct k; cbn [srep hrep] in Hr; pose proof Hr as (Ef & Hr'); rewrite Ef; try done.
    + destruct Hr' as (Ez & Ecap & El & B). pose proof (clone_rep z v0 (elems v) fp g panic (mem s) F (told a) El B HH) as Hcl. rewrite Ez.
      destruct (match panic with Some k => if (k <? List.length (elems v))%nat then Some k else None | None => None end) as [k|].
      * destruct Hcl as (h' & -> & H'). cbn [lift RO]. by apply Hc.
      * destruct Hcl as (h' & y & fp' & -> & Ely & Ecy & By & H'). cbn [lift RO]. eapply (R_add s a); [|by exists fps|]; [|done]. by split_and!.
    + destruct Hr' as (Ez & Ecap & El & B & Hu). pose proof (clone_rep false v0 (elems v) fp g None (mem s) F (told a) El B HH) as Hcl. rewrite Ez.
      destruct Hcl as (h' & y & fp' & -> & Ely & Ecy & By & H'). cbn [lift].
      assert (R (add_slot (Own (HCString y)) (with_mem h' s)) (aadd (AOwn (Value FCString false (elems v) (N.max g (N.of_nat (List.length (elems v)))))) a)).
      { eapply (R_add s a); [|by exists fps|]; [|done]. by split_and!. }
      by destruct panic as [k|]; [destruct (k <? List.length (elems v))%nat|].
    + destruct Hr' as (Ez & Ecap & El & B). unfold box1_clone, box1_deref. pose proof (H_read _ _ _ _ _ _ _ _ B HH) as Ed. rewrite El in *. rewrite Ed. cbn [bind].
      destruct panic as [[|k]|]; [done|destruct (Nat.ltb_spec (S k) 1); [lia|]|]; cbn beta iota match;
        (destruct (H_alloc z 1 (elems v) (mem s) (fp ++ F) (told a)) as (h' & q & fp' & -> & Bq & H'); [lia|by eapply brep_zeros|done|]);
        cbn [lift RO]; (eapply (R_add s a); [|by exists fps|]; [|done]); by split_and!.
  - destruct (slots s !! i) as [k|] eqn:E; [|by rewrite (R_none s a i)].
    destruct (R_focus s a i k HR E) as (ak & fp & F & -> & Hr & HH & Hc). destruct k, ak; try done.
    destruct (drop_rep _ _ fp (mem s) F (told a) Hr HH) as (h' & -> & H'). cbn [lift RO]. by eapply (Hc Gone AGone []).
Qed.

Lemma begin_rep i s a : R s a → RO (begin_with i s) (abegin i a).
Proof.
  intros HR. unfold begin_with, abegin. destruct (slots s !! i) as [k|] eqn:E; [|by rewrite (R_none s a i)].
  destruct (R_focus s a i k HR E) as (ak & fp & F & Ea & Hr & HH & Hc). rewrite Ea. pose proof HR as (fps & A & HA).
  destruct (all3_lookup _ _ _ _ _ A E) as (x & fp0 & Ex & F0 & R0).
  destruct k as [|k|k|k], ak as [|v| |v]; try done.
  assert (G : ∀ k' v' w, hrep k' v' fp0 → R (add_slot (Local k') (set_slot i (Lent w) s)) (aadd (ALocal v') (aset i ALent a))).
  { intros k' v' w Hk. destruct (concat_focus fps i fp0 F0) as (Q & P1 & P2).
    exists (<[i := []]> fps ++ [fp0])%list. split; [apply all3_app; [by apply all3_insert|done]|]. cbn [add_slot set_slot mem aadd aset told].
    eapply H_perm, HA. rewrite concat_app, P2, P1. cbn [concat app]. rewrite app_nil_r. apply Permutation_app_comm. }
  rewrite Ea in Ex. injection Ex as <-. cbn [srep] in R0, Hr.
  assert (H0 : ∃ F0, H (mem s) (fp0 ++ F0) (told a)).
  { destruct (concat_focus fps i fp0 F0) as (Q & P1 & P2). exists Q. by eapply H_perm. }
  destruct H0 as [Q H0].
  destruct k as [z x|z x|z b|z b|x|x|b|b|z p|z p]; cbn [hrep] in R0; pose proof R0 as (Ef & R1); rewrite Ef; try done.
  - destruct R1 as (Ez & Ec & El & B). unfold cvec_into. rewrite El. destruct (from_raw_rep z _ _ _ fp0 _ Q (told a) B H0) as [-> V]. cbn [lift RO].
    apply G. rewrite Ez, Ec. split_and!; try done; try apply V.
  - destruct R1 as (Ez & Ec & El & B & Hu). unfold cvec_into. rewrite El. destruct (from_raw_rep false _ _ _ fp0 _ Q (told a) B H0) as [-> V]. cbn [lift].
    rewrite (vec_read_rep _ _ _ _ _ _ _ V H0). cbn [lift]. rewrite utf8_ok by done. cbn [lift RO].
    apply G. rewrite Ez, Ec. split_and!; try done; try apply V.
Qed.
Lemma finally_rep i j s a : R s a → RO (finally i j s) (afinally i j a).
Proof.
  intros HR. unfold finally, afinally. destruct (slots s !! i) as [k|] eqn:Ei; [|by rewrite (R_none s a i)].
  pose proof HR as (fps & A & HA). destruct (all3_lookup _ _ _ _ _ A Ei) as (ai & fi & Eai & Fi & Ri). rewrite Eai.
  destruct (slots s !! j) as [l|] eqn:Ej; [|rewrite (R_none s a j) by done; by destruct k, ai].
  destruct (all3_lookup _ _ _ _ _ A Ej) as (aj & fj & Eaj & Fj & Rj). rewrite Eaj.
  destruct k as [|k|k|k], ai as [|vi| |vi]; try done. cbn [srep] in Ri. subst fi.
  destruct l as [|l|l|l], aj as [|v| |v]; try done. cbn [srep] in Rj.
  assert (Hij : i ≠ j) by congruence.
  assert (G : ∀ k' v', hrep k' v' fj → R (set_slot j Gone (set_slot i (Own k') s)) (aset j AGone (aset i (AOwn v') a))).
  { intros k' v' Hk. exists (<[j := []]> (<[i := fj]> fps)). split; [by apply all3_insert; [apply all3_insert|]|]. cbn [set_slot mem aset told].
    eapply H_perm, HA. destruct (concat_focus fps i [] Fi) as (Q & P1 & P2). specialize (P2 fj).
    destruct (concat_focus (<[i := fj]> fps) j fj) as (Q' & P3 & P4); [by rewrite list_lookup_insert_ne|]. specialize (P4 []).
    rewrite P4, P1. f_equiv. apply (Permutation_app_inv_l fj). by rewrite <-P3, <-P2. }
  destruct l as [z x|z x|z b|z b|x|x|b|b|z p|z p]; cbn [hrep] in Rj; pose proof Rj as (Ef & R1); rewrite Ef; try done; cbn [RO]; apply G.
  - destruct R1 as (Ez & Ec & El & B & _). rewrite Ec, Ez. by split_and!.
  - destruct R1 as (Ez & Ec & (El & B & _) & Hu). rewrite Ec, Ez. by split_and!.
Qed.
Lemma exec_rep c s a : R s a → RO (exec c s) (aexec c a).
Proof.
  revert s a. induction c as [|o|c IHc d IHd| |c IHc|i c IHc]; intros s a HR; cbn [exec aexec]; [done|by apply prim_rep| |done| |].
  - specialize (IHc s a HR). destruct (exec c s), (aexec c a); try done. by apply IHd.
  - specialize (IHc s a HR). by destruct (exec c s), (aexec c a).
  - pose proof (begin_rep i s a HR) as HB. destruct (begin_with i s) as [s1|s1| |] eqn:Eb, (abegin i a) as [a1|a1|] eqn:Ea; try done.
    specialize (IHc s1 a1 HB). pose proof HR as (fps & A & _). rewrite <-(all3_length _ _ _ A).
    destruct (exec c s1) as [s2|s2| |], (aexec c a1) as [a2|a2|]; try done.
    + by apply finally_rep.
    + pose proof (finally_rep i (List.length (slots s)) s2 a2 IHc) as HF.
      destruct (finally i (List.length (slots s)) s2) eqn:E1, (afinally i (List.length (slots s)) a2); try done.
      all: unfold finally in E1; destruct (slots s2 !! i) as [[]|], (slots s2 !! List.length (slots s)) as [[|?|?|[]]|]; done.
Qed.
Lemma R_init : R init ainit.
Proof. exists []. split; [constructor|]. split; [done|]. split; [|done]. intros b. done. Qed.

(** ** What the closures of [with_rust_mut] cannot change *)

Definition keeps (a a' : astate) : Prop :=
  (List.length (vars a) ≤ List.length (vars a'))%nat ∧
  ∀ i, match vars a !! i with
       | Some ALent => vars a' !! i = Some ALent
       | Some (ALocal v) => ∃ v', vars a' !! i = Some (ALocal v') ∧ vform v' = vform v ∧ zst v' = zst v
       | _ => True
       end.
Lemma keeps_refl a : keeps a a.
Proof. split; [done|]. intros i. destruct (vars a !! i) as [[]|] eqn:E; try done. by eexists. Qed.
Lemma keeps_trans a b c : keeps a b → keeps b c → keeps a c.
Proof.
  intros [L1 H1] [L2 H2]. split; [lia|]. intros i. specialize (H1 i). specialize (H2 i). destruct (vars a !! i) as [[]|]; try done.
  - by rewrite H1 in H2.
  - destruct H1 as (v' & E & E1 & E2). rewrite E in H2. destruct H2 as (v'' & -> & E3 & E4). exists v''. split_and!; congruence.
Qed.
Lemma keeps_tell es a : keeps a (tell es a).
Proof. split; [done|]. intros i. cbn [tell vars]. apply (proj2 (keeps_refl a)). Qed.
Lemma keeps_add k a : keeps a (aadd k a).
Proof.
  split; cbn [aadd vars]; [rewrite app_length; lia|]. intros i. destruct (vars a !! i) as [x|] eqn:E; [|done].
  rewrite (lookup_app_l_Some _ _ _ _ E). destruct x; try done. by eexists.
Qed.
Lemma keeps_set i k a : (∀ x, vars a !! i = Some x →
    match x with ALent => k = ALent | ALocal v => ∃ v', k = ALocal v' ∧ vform v' = vform v ∧ zst v' = zst v | _ => True end) → keeps a (aset i k a).
Proof.
  intros Hk. split; cbn [aset vars]; [by rewrite insert_length|]. intros j. destruct (decide (i = j)) as [<-|Hn].
  - destruct (vars a !! i) as [x|] eqn:E; [|done]. specialize (Hk x eq_refl). rewrite list_lookup_insert by by eapply lookup_lt_Some.
    destruct x; try done; [by rewrite Hk|]. destruct Hk as (v' & -> & Hk). by eexists.
  - rewrite list_lookup_insert_ne by done. destruct (vars a !! j) as [[]|]; try done. by eexists.
Qed.
Definition akeeps (a : astate) (r : aout) : Prop := match r with ADone a' | APanicked a' => keeps a a' | AStuck => True end.
Lemma prim_keeps o a : akeeps a (aprim o a).
Proof.
  destruct o as [f z xs g|f z|i f|i o|i j|i w|i k x|i g panic|i]; cbn [aprim].
  - destruct (anew f z xs g); [apply keeps_add|done].
  - destruct (aempty f z); [apply keeps_add|done].
  - destruct (vars a !! i) as [[]|] eqn:E; try done. destruct (aconv f v); [|done]. apply keeps_set. rewrite E. by intros x [= <-].
  - destruct (vars a !! i) as [[]|] eqn:E; try done.
    + destruct (vform v); try done; destruct (avop _ _ _ _) as [[[xs c] dropped] bad]; destruct (negb _ || _); try done;
        destruct bad; (eapply keeps_trans; [|apply keeps_tell]); apply keeps_set; rewrite E; by intros x [= <-].
    + destruct (vform v) eqn:Ef; try done; destruct (avop _ _ _ _) as [[[xs c] dropped] bad]; destruct (negb _ || _); try done;
        destruct bad; (eapply keeps_trans; [|apply keeps_tell]); apply keeps_set; rewrite E; intros x [= <-]; by eexists.
  - destruct (vars a !! i) as [vi|] eqn:Ei; [|done]. destruct (vars a !! j) as [vj|] eqn:Ej; [|by destruct vi].
    destruct vi as [|v| |v], vj as [|w| |w]; try done; cbn;
      destruct (Nat.eqb_spec i j); try done; destruct (Bool.eqb (zst v) (zst w)) eqn:Ez; try done; apply Bool.eqb_prop in Ez;
      destruct (vform v) eqn:Ev, (vform w) eqn:Ew; try done; cbn; (eapply keeps_trans; apply keeps_set);
      cbn [aset vars]; rewrite ?list_lookup_insert_ne by done; rewrite ?Ei, ?Ej; intros x [= <-]; try done; eexists; split_and!; try done; congruence.
  - destruct (vars a !! i) as [[]|] eqn:E; try done; destruct (aread v w); try done; apply keeps_tell.
  - destruct (vars a !! i) as [[]|] eqn:E; try done.
    + destruct (is_str _); [done|]. destruct (elems v !! k); [|apply keeps_refl]. eapply keeps_trans; [|apply keeps_tell]. apply keeps_set. rewrite E. by intros y [= <-].
    + destruct (is_str _); [done|]. destruct (elems v !! k); [|apply keeps_refl]. eapply keeps_trans; [|apply keeps_tell]. apply keeps_set. rewrite E. intros y [= <-]. by eexists.
  - destruct (vars a !! i) as [[]|] eqn:E; try done.
    destruct (vform v), (match panic with Some k => if (k <? List.length (elems v))%nat then Some k else None | None => None end);
      try done; try apply keeps_add; try apply keeps_tell; apply keeps_refl.
  - destruct (vars a !! i) as [[]|] eqn:E; try done. eapply keeps_trans; [|apply keeps_tell]. apply keeps_set. rewrite E. by intros x [= <-].
Qed.
Lemma begin_keeps i a a' : abegin i a = ADone a' → (∃ v, vars a !! i = Some (AOwn v)) ∧ keeps a a' ∧
  List.length (vars a') = S (List.length (vars a)) ∧ vars a' !! i = Some ALent ∧
  ∃ v, vars a' !! List.length (vars a) = Some (ALocal v) ∧ (vform v = FVec ∨ vform v = FString).
Proof.
  unfold abegin. intros HB. destruct (vars a !! i) as [[]|] eqn:E; try done. split; [by eexists|].
  assert (G : ∀ w, vform w = FVec ∨ vform w = FString → a' = aadd (ALocal w) (aset i ALent a) → keeps a a' ∧ List.length (vars a') = S (List.length (vars a)) ∧ vars a' !! i = Some ALent ∧
    ∃ v, vars a' !! List.length (vars a) = Some (ALocal v) ∧ (vform v = FVec ∨ vform v = FString)).
  { intros w Hw ->. split_and!.
    - eapply keeps_trans; [|apply keeps_add]. apply keeps_set. rewrite E. by intros x [= <-].
    - cbn [aadd aset vars]. rewrite app_length, insert_length. cbn. lia.
    - cbn [aadd aset vars]. apply lookup_app_l_Some. apply list_lookup_insert. by eapply lookup_lt_Some.
    - exists w. split; [|done]. cbn [aadd aset vars]. rewrite lookup_app_r, insert_length, Nat.sub_diag; [done|by rewrite insert_length]. }
  destruct (vform v); try done; injection HB as <-; (eapply G; [|done]); [by left|by right].
Qed.
Lemma finally_done i j a v : vars a !! i = Some ALent → vars a !! j = Some (ALocal v) → (vform v = FVec ∨ vform v = FString) →
  ∃ w, afinally i j a = ADone (aset j AGone (aset i (AOwn w) a)) ∧ zst w = zst v ∧ elems w = elems v ∧ vcap w = vcap v ∧
    vform w = match vform v with FVec => FCVec | _ => FCString end.
Proof. intros E1 E2 Hf. unfold afinally. rewrite E1, E2. destruct Hf as [-> | ->]; by eexists. Qed.
Lemma exec_keeps c a : akeeps a (aexec c a).
Proof.
  revert a. induction c as [|o|c IHc d IHd| |c IHc|i c IHc]; intros a; cbn [aexec]; [apply keeps_refl|apply prim_keeps| |apply keeps_refl| |].
  - specialize (IHc a). destruct (aexec c a) as [a1|a1|]; try done. specialize (IHd a1). cbn [akeeps] in IHc.
    destruct (aexec d a1); cbn [akeeps] in *; try done; by eapply keeps_trans.
  - specialize (IHc a). by destruct (aexec c a).
  - destruct (abegin i a) as [a1|a1|] eqn:Eb; [|unfold abegin in Eb; by destruct (vars a !! i) as [[]|]; try done; destruct (vform v)|done].
    destruct (begin_keeps i a a1 Eb) as ((v & Ev) & K1 & L1 & E1 & w & Ew & Hw). specialize (IHc a1).
    assert (G : ∀ a2, keeps a1 a2 → akeeps a (afinally i (List.length (vars a)) a2) ∧
      akeeps a match afinally i (List.length (vars a)) a2 with ADone a => APanicked a | r => r end).
    { intros a2 K2. pose proof (proj2 K2 i) as Ki. rewrite E1 in Ki. pose proof (proj2 K2 (List.length (vars a))) as Kj. rewrite Ew in Kj. destruct Kj as (w' & Ew' & Ef & _).
      destruct (finally_done i (List.length (vars a)) a2 w' Ki Ew') as (u & -> & _); [by rewrite Ef|]. cbn [akeeps].
      assert (keeps a (aset (List.length (vars a)) AGone (aset i (AOwn u) a2))); [|done].
      pose proof (keeps_trans _ _ _ K1 K2) as [L K]. split; cbn [aset vars]; [by rewrite !insert_length|].
      intros k. specialize (K k). destruct (vars a !! k) as [x|] eqn:Ek; [|done]. pose proof (lookup_lt_Some _ _ _ Ek).
      rewrite list_lookup_insert_ne by lia. destruct x; try done; rewrite list_lookup_insert_ne by congruence; done. }
    destruct (aexec c a1) as [a2|a2|]; try done; by apply G.
Qed.
