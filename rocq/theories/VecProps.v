(** Properties C48, C49 and C50: vectors, strings, boxes and slices that go to
    C and back. *)

From Coq Require Import Arith NArith List Bool Lia ZifyBool ZifyNat ZifyN Permutation.
From stdpp Require Import base numbers list.
From Verif Require Import CStrModel VecModel VecSpec VecProofs VecRefine.
Local Open Scope N_scope.

(** States that programs get into, the insides of [with_rust_mut] included. *)
Inductive reach : state → Prop :=
| reach_init : reach init
| reach_done s c s' : reach s → exec c s = Done s' → reach s'
| reach_panicked s c s' : reach s → exec c s = Panicked s' → reach s'
| reach_inside s i s' : reach s → begin_with i s = Done s' → reach s'.

Lemma reach_R s : reach s → ∃ a, R s a.
Proof.
  induction 1 as [|s c s' _ [a HR] E|s c s' _ [a HR] E|s i s' _ [a HR] E]; [exists ainit; apply R_init|..].
  - pose proof (exec_rep c s a HR) as G. rewrite E in G. destruct (aexec c a); try done. by eexists.
  - pose proof (exec_rep c s a HR) as G. rewrite E in G. destruct (aexec c a); try done. by eexists.
  - pose proof (begin_rep i s a HR) as G. rewrite E in G. destruct (abegin i a); try done. by eexists.
Qed.

(** A variable that may be used. *)
Definition holds (s : state) (i : nat) (k : handle) : Prop := slots s !! i = Some (Own k) ∨ slots s !! i = Some (Local k).

Lemma R_holds s a i k : R s a → holds s i k → ∃ v fp F, (vars a !! i = Some (AOwn v) ∨ vars a !! i = Some (ALocal v)) ∧ hrep k v fp ∧ H (mem s) (fp ++ F) (told a).
Proof.
  intros HR [E|E]; destruct (R_focus s a i _ HR E) as (ak & fp & F & Ea & Hr & HH & _); destruct ak; try done; cbn [srep] in Hr; exists v, fp, F; split_and!; auto.
Qed.
Lemma deref_rep k v fp h F o : hrep k v fp → H h (fp ++ F) o → deref k h = Ok (elems v).
Proof.
  intros Hr HH. pose proof (read_rep k v fp h F o Deref Hr HH) as E. cbn [read] in E.
  assert (aread v Deref = Some (elems v)) as Ea by by destruct v as [[]]. rewrite Ea in E. done.
Qed.

(** ** C48 *)

(** What a variable holds, against what the specification says it does. *)
Definition agrees (s : state) (a : astate) : Prop :=
  ∀ i, match slots s !! i, vars a !! i with
       | Some (Own k), Some (AOwn v) | Some (Local k), Some (ALocal v) => deref k (mem s) = Ok (elems v) ∧ capacity k = acap v
       | Some Gone, Some AGone | Some (Lent _), Some ALent | None, None => True
       | _, _ => False
       end.
Lemma R_agrees s a : R s a → agrees s a.
Proof.
  intros HR i. destruct (slots s !! i) as [k|] eqn:E; [|by rewrite (R_none s a i HR E)].
  destruct (R_focus s a i k HR E) as (ak & fp & F & Ea & Hr & HH & _). rewrite Ea.
  destruct k, ak; try done; cbn [srep] in Hr; (split; [by eapply deref_rep|by eapply capacity_rep]).
Qed.

(** Programs do what they would with plain lists: no undefined behaviour, the
    same panics, the same elements, capacities, reads and drops. *)
Theorem C48_refines c :
  match exec c init, aexec c ainit with
  | Done s, ADone a | Panicked s, APanicked a => observed (mem s) = told a ∧ agrees s a
  | Stuck, AStuck => True
  | _, _ => False
  end.
Proof.
  pose proof (exec_rep c init ainit R_init) as G. destruct (exec c init), (aexec c ainit); try done; cbn [RO] in G;
    (split; [|by apply R_agrees]); destruct G as (fps & _ & HH); apply HH.
Qed.
Theorem C48_safe s c : reach s → exec c s ≠ UB.
Proof. intros [a HR]%reach_R E. pose proof (exec_rep c s a HR) as G. by rewrite E in G. Qed.

(** Whose block it is. *)
Definition owner (s : state) (b : nat) (i : nat) : Prop := ∃ k z off len, holds s i k ∧ whole k = Some (z, At b off, len).

Lemma live_nodup i bs : NoDup (map fst (live_from i bs)).
Proof.
  revert i. induction bs as [|b bs IH]; intros i; cbn [live_from]; [constructor|]. destruct (freed b); [apply IH|]. cbn.
  constructor; [|apply IH]. rewrite elem_of_list_fmap. intros (c & Ec & Hc). apply live_bound in Hc. lia.
Qed.
Lemma lookup_live h b n xs : blocks h !! b = Some (Block n xs false) → (b, (n, xs)) ∈ live h.
Proof.
  unfold live. assert (G : ∀ bs i b, bs !! b = Some (Block n xs false) → ((i + b)%nat, (n, xs)) ∈ live_from i bs).
  { intros bs. induction bs as [|[m ys f] bs IH]; intros i j; [done|]. cbn [live_from]. rewrite elem_of_app. destruct j as [|j]; cbn.
    - intros [= -> -> ->]. left. cbn. rewrite Nat.add_0_r. constructor.
    - intros E. right. replace (i + S j)%nat with (S i + j)%nat by lia. by apply IH. }
  apply (G _ 0%nat).
Qed.
Lemma all3_back ks as_ fps i fp : all3 ks as_ fps → fps !! i = Some fp → ∃ k a, ks !! i = Some k ∧ as_ !! i = Some a ∧ srep k a fp.
Proof.
  intros A. revert i. induction A as [|k a f ks as_ fps Hr A IH]; intros i; [done|]. destruct i as [|i]; cbn; [|apply IH]. intros [= <-]. by exists k, a.
Qed.
Lemma owner_fp s a i fps fp b : all3 (slots s) (vars a) fps → fps !! i = Some fp →
  (∃ k z off len, holds s i k ∧ whole k = Some (z, At b off, len)) ↔ ∃ c, (b, c) ∈ fp.
Proof.
  intros A E. destruct (all3_back _ _ _ _ _ A E) as (k & ak & E1 & E2 & Hr).
  assert (G : ∀ k v, hrep k v fp → (∃ z off len, whole k = Some (z, At b off, len)) ↔ ∃ c, (b, c) ∈ fp).
  { intros k0 v Hk. destruct (whole_rep k0 v fp Hk) as (z & p & cap & Ew & _ & B & _). rewrite Ew. unfold brep in B.
    destruct z; [|destruct (cap =? 0)].
    - destruct B as (-> & _ & ->). split; [by intros (?&?&?&?)|]. intros [c Hc]. by apply elem_of_nil in Hc.
    - destruct B as (-> & _ & ->). split; [by intros (?&?&?&?)|]. intros [c Hc]. by apply elem_of_nil in Hc.
    - destruct B as (b' & -> & _ & ->). split.
      + intros (?&?&?&[= _ <- _ _]). eexists. by constructor.
      + intros [c Hc]. apply elem_of_list_singleton in Hc as [= -> _]. by eexists _, _, _. }
  unfold holds. rewrite E1. destruct k as [|k|k|k], ak; try done; cbn [srep] in Hr.
  - subst fp. split; [by intros (?&?&?&?&[?|?]&?)|]. intros [c Hc]. by apply elem_of_nil in Hc.
  - rewrite <-(G k v Hr). split.
    + intros (k0&z&off&len&[[= <-]|?]&?); [|done]. by eexists _, _, _.
    + intros (z&off&len&?). exists k, z, off, len. split; [by left|done].
  - subst fp. split; [by intros (?&?&?&?&[?|?]&?)|]. intros [c Hc]. by apply elem_of_nil in Hc.
  - rewrite <-(G k v Hr). split.
    + intros (k0&z&off&len&[?|[= <-]]&?); [done|]. by eexists _, _, _.
    + intros (z&off&len&?). exists k, z, off, len. split; [by right|done].
Qed.
Lemma nodup_two {A B} (ls : list (list (A * B))) i j x y a b c : NoDup (map fst (concat ls)) → ls !! i = Some x → ls !! j = Some y →
  (a, b) ∈ x → (a, c) ∈ y → i = j.
Proof.
  revert i j. induction ls as [|l ls IH]; intros i j; [done|]. cbn [concat]. rewrite map_app, NoDup_app. intros (N1 & N2 & N3).
  assert (G : ∀ i x b, ls !! i = Some x → (a, b) ∈ x → a ∈ map fst (concat ls)).
  { intros i' x' b' E Hx. apply elem_of_list_fmap. exists (a, b'). split; [done|]. apply elem_of_list_In, in_concat. exists x'.
    split; apply elem_of_list_In; [by eapply elem_of_list_lookup_2|done]. }
  destruct i as [|i], j as [|j]; cbn; [done|..].
  - intros [= <-] E Hx Hy. exfalso. apply (N2 a); [apply elem_of_list_fmap; by exists (a, b)|by eapply G].
  - intros E [= <-] Hx Hy. exfalso. apply (N2 a); [apply elem_of_list_fmap; by exists (a, c)|by eapply G].
  - intros E1 E2 Hx Hy. f_equal. by eapply IH.
Qed.

(** Every block is allocated once, and freed at most once, with the size it
    was allocated with; it is not freed just when it belongs to a variable,
    and then to one only. *)
Theorem C48_memory s b : reach s →
  match blocks (mem s) !! b with
  | None => history (mem s) b = [] ∧ ∀ i, ¬ owner s b i
  | Some (Block n _ true) => history (mem s) b = [EAlloc b n; EFree b n] ∧ ∀ i, ¬ owner s b i
  | Some (Block n _ false) => history (mem s) b = [EAlloc b n] ∧ ∃ i, owner s b i ∧ ∀ j, owner s b j → j = i
  end.
Proof.
  intros [a (fps & A & P & Hh & _)]%reach_R. specialize (Hh b).
  assert (L : ∀ i, owner s b i ↔ ∃ fp c, fps !! i = Some fp ∧ (b, c) ∈ fp).
  { intros i. split.
    - intros HO. destruct (fps !! i) as [fp|] eqn:E.
      + destruct (proj1 (owner_fp s a i fps fp b A E) HO) as [c Hc]. by exists fp, c.
      + destruct HO as (k & _ & _ & _ & [E1|E1] & _); by destruct (all3_lookup _ _ _ _ _ A E1) as (? & ? & _ & E2 & _); rewrite E in E2.
    - intros (fp & c & E & Hc). apply (owner_fp s a i fps fp b A E). by exists c. }
  assert (M : ∀ i, owner s b i → ∃ n xs, blocks (mem s) !! b = Some (Block n xs false)).
  { intros i (fp & [n xs] & E & Hc)%L. exists n, xs. apply live_lookup. rewrite P. apply elem_of_list_In, in_concat. exists fp.
    split; apply elem_of_list_In; [by eapply elem_of_list_lookup_2|done]. }
  destruct (blocks (mem s) !! b) as [[n xs []]|] eqn:E.
  - split; [done|]. intros i (? & ? & ?)%M. done.
  - split; [done|]. apply lookup_live in E. rewrite P in E. apply elem_of_list_In, in_concat in E as (fp & E1 & E2).
    apply elem_of_list_In in E1, E2. apply elem_of_list_lookup_1 in E1 as [i E1]. exists i. split; [apply L; by exists fp, (n, xs)|].
    intros j (fp' & c & E3 & E4)%L. eapply (nodup_two fps); [|done..]. rewrite <-P. apply live_nodup.
  - split; [done|]. intros i (? & ? & ?)%M. done.
Qed.
(** No leaks: when nothing is left, all blocks are freed. *)
Theorem C48_no_leak s b n xs f : reach s → (∀ i k, ¬ holds s i k) → blocks (mem s) !! b = Some (Block n xs f) → history (mem s) b = [EAlloc b n; EFree b n].
Proof.
  intros Hr Hn E. pose proof (C48_memory s b Hr) as G. rewrite E in G. destruct f; [apply G|].
  destruct G as (_ & i & (k & _ & _ & _ & Hk & _) & _). by apply Hn in Hk.
Qed.

Definition form_of (k : handle) : form :=
  match k with
  | HVec _ _ => FVec | HCVec _ _ => FCVec | HBox _ _ => FBox | HCBox _ _ => FCBox | HString _ => FString | HCString _ => FCString
  | HStr _ => FStr | HCStr _ => FCStr | HOne _ _ => FOne | HCOne _ _ => FCOne
  end.
Definition zst_of (k : handle) : bool :=
  match k with HVec z _ | HCVec z _ | HBox z _ | HCBox z _ | HOne z _ | HCOne z _ => z | _ => false end.
(** The conversions between a Rust type and its C form. *)
Definition c_form (f g : form) : bool :=
  match f, g with FVec, FCVec | FBox, FCBox | FString, FCString | FStr, FCStr | FOne, FCOne => true | _, _ => false end.

(** A conversion succeeds, keeps the elements, and the capacity when both
    types have one; nothing else changes. *)
Theorem C48_convert s i k f : reach s → slots s !! i = Some (Own k) → converts (form_of k) f = true →
  ∃ s' k', exec (Prim (Conv i f)) s = Done s' ∧ slots s' = <[i := Own k']> (slots s) ∧ form_of k' = f ∧ zst_of k' = zst_of k ∧
    deref k' (mem s') = deref k (mem s) ∧
    (is_vec (form_of k) = true → is_vec f = true → zst_of k = false → capacity k' = capacity k) ∧
    (zst_of k = true → is_vec f = true → capacity k' = Some USIZE_MAX) ∧
    observed (mem s') = observed (mem s) ∧
    (c_form (form_of k) f || c_form f (form_of k) = true → mem s' = mem s).
Proof.
  intros [a HR]%reach_R E Hc. destruct (R_focus s a i _ HR E) as (ak & fp & F & Ea & Hr & HH & _). destruct ak as [|v| |]; try done. cbn [srep] in Hr.
  pose proof (conv_rep f k v fp (mem s) F (told a) Hr HH) as G.
  assert (Ef : vform v = form_of k) by (destruct k; cbn [hrep] in Hr; apply Hr).
  assert (Ez : zst v = zst_of k) by (destruct k; cbn [hrep] in Hr; apply Hr).
  assert (EG : ∃ r, conv f k (mem s) = Some r ∧ ∀ h' k', r = Ok (h', k') → form_of k' = f ∧ zst_of k' = zst_of k ∧ (c_form (form_of k) f || c_form f (form_of k) = true → h' = mem s)).
  { unfold aconv in G. rewrite Ef, Hc in G. destruct (conv f k (mem s)) as [r|] eqn:Ec; [|done]. exists r. split; [done|]. intros h' k' ->.
    destruct k, f; try done; cbn [conv] in Ec; apply (inj Some) in Ec; try (injection Ec as <- <-; done);
      match type of Ec with bind ?x _ = _ => destruct x as [[]|]; try done end; cbn [bind] in Ec; try (injection Ec as <- <-; done); done. }
  destruct EG as (r & Er & Hk). rewrite Er in G. unfold aconv in G. rewrite Ef, Hc in G. destruct G as (h' & k' & fp' & -> & Hr' & HH').
  destruct (Hk h' k' eq_refl) as (K1 & K2 & K3). cbn [exec prim]. rewrite E, Er. cbn [lift].
  exists (set_slot i (Own k') (with_mem h' s)), k'. cbn [set_slot with_mem mem slots]. split_and!; try done.
  - rewrite (deref_rep _ _ _ _ _ _ Hr' HH'), (deref_rep _ _ _ _ _ _ Hr HH). done.
  - intros I1 I2 Iz. rewrite (capacity_rep _ _ _ Hr'), (capacity_rep _ _ _ Hr). unfold acap. cbn [vform vcap]. rewrite Ef, Ez, I1, I2, Iz. done.
  - intros Iz I2. rewrite (capacity_rep _ _ _ Hr'). unfold acap. cbn [vform vcap]. by rewrite I2, Ez, Iz.
  - destruct HH as (_ & _ & ->), HH' as (_ & _ & ->). done.
Qed.

(** From Rust to C and back: nothing at all has changed. *)
Theorem C48_round_trip s i k f : reach s → slots s !! i = Some (Own k) → c_form (form_of k) f = true →
  exec (Seq (Prim (Conv i f)) (Prim (Conv i (form_of k)))) s = Done s.
Proof.
  intros [a HR]%reach_R E Hc. destruct (R_focus s a i _ HR E) as (ak & fp & F & Ea & Hr & HH & _). destruct ak as [|v| |]; try done. cbn [srep] in Hr.
  assert (I : ∀ k', conv f k (mem s) = Some (Ok (mem s, k')) → conv (form_of k) k' (mem s) = Some (Ok (mem s, k)) →
    exec (Seq (Prim (Conv i f)) (Prim (Conv i (form_of k)))) s = Done s).
  { intros k' E1 E2. cbn [exec prim]. rewrite E, E1. cbn [lift set_slot with_mem slots mem]. rewrite list_lookup_insert by by eapply lookup_lt_Some.
    rewrite E2. cbn [lift]. unfold set_slot, with_mem. cbn [slots mem]. rewrite list_insert_insert, list_insert_id by done. by destruct s. }
  destruct k as [z x|z x|z b|z b|x|x|b|b|z p|z p], f; try done; cbn [hrep] in Hr; cbn [form_of] in *.
  - eapply I; [done|]. destruct Hr as (_ & _ & _ & El & B & Hz). cbn [conv]. unfold cvec_into, cvec_from. cbn [ptr_ len_ cap_]. rewrite El.
    destruct (from_raw_rep z _ _ _ fp _ F (told a) B HH) as [-> _]. cbn [bind]. do 4 f_equal. destruct x as [q l c]. cbn [rl rp rc] in *. rewrite El. f_equal.
    destruct z; [symmetry; by apply Hz|done].
  - eapply I; [done|]. destruct Hr as (_ & _ & _ & El & B). cbn [conv]. unfold cbox_into, cbox_from. cbn [cptr clen]. rewrite El in *.
    rewrite (H_read _ _ _ _ _ _ _ _ B HH). cbn [bind]. rewrite (box_raw_rep _ _ _ _ _ _ _ B HH). cbn [bind]. destruct b as [q l]. cbn [bl bp] in *. by rewrite El.
  - eapply I; [done|]. destruct Hr as (_ & _ & _ & (El & B & Hz) & Hu). cbn [conv]. unfold cstring_into, cvec_into, cstring_from, cvec_from. cbn [ptr_ len_ cap_]. rewrite El.
    destruct (from_raw_rep false _ _ _ fp _ F (told a) B HH) as [-> V]. cbn [bind]. rewrite (vec_read_rep _ _ _ _ _ _ _ V HH). cbn [bind]. rewrite utf8_ok by done. cbn [bind].
    do 4 f_equal. destruct x as [q l c]. cbn [rl rp rc] in *. by rewrite El.
  - eapply I; [done|]. destruct Hr as (_ & _ & _ & (El & B) & Hu). cbn [conv]. unfold cstr_into, cbox_into, cstr_from, cbox_from. cbn [cptr clen]. rewrite El in *.
    rewrite (H_read _ _ _ _ _ _ _ _ B HH). cbn [bind]. rewrite (box_raw_rep _ _ _ _ _ _ _ B HH). cbn [bind bp bl]. rewrite (H_read _ _ _ _ _ _ _ _ B HH). cbn [bind]. rewrite utf8_ok by done. cbn [bind].
    destruct b as [q l]. cbn [bl bp] in *. by rewrite El.
  - eapply I; [done|]. destruct Hr as (_ & _ & _ & El & B). cbn [conv box1_from]. unfold box1_into.
    assert (brep z p (N.of_nat (List.length (elems v))) (elems v) fp) as B' by by rewrite El.
    pose proof (box_raw_rep _ _ _ _ _ _ _ B' HH) as Eb. rewrite El in Eb. unfold box1_from. rewrite Eb. done.
Qed.

(** ** C49 *)

(** The C form of what the closure leaves. *)
Definition back (k : handle) : option handle :=
  match k with
  | HVec z (RVec p l c) => Some (HCVec z (CVec p l c))
  | HString (RVec p l c) => Some (HCString (CVec p l c))
  | _ => None
  end.

Lemma with_ends s i c s1 s2 : reach s → begin_with i s = Done s1 → exec c s1 = Done s2 ∨ exec c s1 = Panicked s2 →
  ∃ l k w, slots s2 !! i = Some (Lent l) ∧ slots s2 !! List.length (slots s) = Some (Local k) ∧ back k = Some w ∧ i ≠ List.length (slots s) ∧
    finally i (List.length (slots s)) s2 = Done (State (mem s2) (<[List.length (slots s) := Gone]> (<[i := Own w]> (slots s2)))) ∧
    deref w (mem s2) = deref k (mem s2) ∧ capacity w = capacity k.
Proof.
  intros [a HR]%reach_R Eb Ec. pose proof (begin_rep i s a HR) as HB. rewrite Eb in HB. destruct (abegin i a) as [a1| |] eqn:Ea; try done. cbn [RO] in HB.
  destruct (begin_keeps i a a1 Ea) as ((v & Ev) & K1 & L1 & E1 & w & Ew & Hw).
  pose proof HR as (fps & A & _). pose proof (all3_length _ _ _ A) as EL. rewrite <-EL in *.
  assert (HE : ∃ a2, R s2 a2 ∧ keeps a1 a2).
  { pose proof (exec_rep c s1 a1 HB) as G. pose proof (exec_keeps c a1) as K. destruct Ec as [Ec|Ec]; rewrite Ec in G; destruct (aexec c a1) as [a2|a2|]; try done; by exists a2. }
  destruct HE as (a2 & R2 & K2). pose proof (proj2 K2 i) as Ki. rewrite E1 in Ki. pose proof (proj2 K2 (List.length (slots s))) as Kj. rewrite Ew in Kj. destruct Kj as (w' & Ew' & Ef & _).
  destruct (slots s2 !! i) as [ki|] eqn:Esi; [|by rewrite (R_none s2 a2 i R2 Esi) in Ki].
  destruct (R_focus s2 a2 i ki R2 Esi) as (ai & fi & Fi & Eai & Ri & _). rewrite Ki in Eai. injection Eai as <-. destruct ki as [| |l|]; try done.
  destruct (slots s2 !! List.length (slots s)) as [kj|] eqn:Esj; [|by rewrite (R_none s2 a2 _ R2 Esj) in Ew'].
  destruct (R_focus s2 a2 _ kj R2 Esj) as (aj & fj & Fj & Eaj & Rj & HHj & _). rewrite Ew' in Eaj. injection Eaj as <-. destruct kj as [| | |k]; try done. cbn [srep] in Rj.
  assert (Hij : i ≠ List.length (slots s)) by congruence.
  assert (B : ∃ u, back k = Some u ∧ ∃ v', hrep u v' fj ∧ elems v' = elems w' ∧ acap v' = acap w').
  { destruct k as [z x|z x|z b|z b|x|x|b|b|z p|z p]; cbn [hrep] in Rj; destruct Rj as (Ef' & Rj); try (exfalso; rewrite Ef' in Ef; rewrite <-Ef in Hw; by destruct Hw).
    - destruct Rj as (Ez & Ecap & El & Bj & Hz). destruct x as [q n cc]. eexists. split; [done|]. exists (Value FCVec z (elems w') cc). split; [by split_and!|]. split; [done|].
      unfold acap. rewrite Ef'. by cbn [is_vec vform vcap]; rewrite Ecap.
    - destruct Rj as (Ez & Ecap & (El & Bj & Hz) & Hu). destruct x as [q n cc]. eexists. split; [done|]. exists (Value FCString false (elems w') cc). split; [by split_and!|]. split; [done|].
      unfold acap. rewrite Ef'. by cbn [is_vec vform vcap]; rewrite Ecap. }
  destruct B as (u & Eu & v' & Hv' & Eel & Ecap). exists l, k, u. split_and!; try done.
  - unfold finally. rewrite Esi, Esj. by destruct k as [z [q n cc]|z x|z b|z b|[q n cc]|x|b|b|z p|z p]; try done; injection Eu as <-.
  - rewrite (deref_rep _ _ _ _ _ _ Hv' HHj), (deref_rep _ _ _ _ _ _ Rj HHj). by rewrite Eel.
  - by rewrite (capacity_rep _ _ _ Hv'), (capacity_rep _ _ _ Rj).
Qed.

(** The end of the closure, as a function of its outcome. *)
Definition ended (r : out) (s : state) : Prop := r = Done s ∨ r = Panicked s.
Definition same_end (r r' : out) : Prop :=
  match r, r' with Done _, Done _ | Panicked _, Panicked _ => True | _, _ => False end.

(** [with_rust_mut] ends as its closure does, and then the C vector is what
    the closure left in the Rust vector: same pointer, length and capacity,
    same elements; memory is as the closure left it. *)
Theorem C49_written_back s i c s1 s2 : reach s → begin_with i s = Done s1 → ended (exec c s1) s2 →
  ∃ k w s3, slots s2 !! List.length (slots s) = Some (Local k) ∧ back k = Some w ∧
    ended (exec (With i c) s) s3 ∧ same_end (exec (With i c) s) (exec c s1) ∧
    slots s3 !! i = Some (Own w) ∧ slots s3 !! List.length (slots s) = Some Gone ∧
    (∀ j, j ≠ i → j ≠ List.length (slots s) → slots s3 !! j = slots s2 !! j) ∧
    mem s3 = mem s2 ∧ deref w (mem s3) = deref k (mem s2) ∧ capacity w = capacity k.
Proof.
  intros Hr Eb He. destruct (with_ends s i c s1 s2 Hr Eb He) as (l & k & w & E1 & E2 & Ew & Hij & Ef & Ed & Ec).
  pose proof (lookup_lt_Some _ _ _ E1). pose proof (lookup_lt_Some _ _ _ E2).
  exists k, w, (State (mem s2) (<[List.length (slots s) := Gone]> (<[i := Own w]> (slots s2)))). cbn [exec mem slots]. rewrite Eb.
  split_and!; try done.
  - destruct He as [-> | ->]; rewrite Ef; [by left|by right].
  - destruct He as [-> | ->]; by rewrite Ef.
  - rewrite list_lookup_insert_ne by done. by apply list_lookup_insert.
  - apply list_lookup_insert. by rewrite insert_length.
  - intros j J1 J2. by rewrite !list_lookup_insert_ne by done.
Qed.
(** The closure starts with the elements of the C vector, and while it runs
    the C vector cannot be used. *)
Theorem C49_given s i k : reach s → slots s !! i = Some (Own k) → form_of k = FCVec ∨ form_of k = FCString →
  ∃ s1 k1, begin_with i s = Done s1 ∧ slots s1 = (<[i := Lent k]> (slots s) ++ [Local k1])%list ∧ mem s1 = mem s ∧ deref k1 (mem s1) = deref k (mem s) ∧
    (zst_of k = false → back k1 = Some k).
Proof.
  intros Hreach E Hf. pose proof (reach_R s Hreach) as [a HR]. 
  destruct (R_focus s a i _ HR E) as (ak & fp & F & Ea & Hr & HH & _). destruct ak as [|v| |]; try done. cbn [srep] in Hr.
  unfold begin_with. rewrite E.
  destruct k as [z x|z x|z b|z b|x|x|b|b|z p|z p]; try (by destruct Hf); cbn [hrep] in Hr.
  - destruct Hr as (_ & _ & _ & El & B). unfold cvec_into in *. rewrite El in *. destruct (from_raw_rep z _ _ _ fp _ F (told a) B HH) as [Er V]. rewrite Er in *. cbn [lift] in *.
    eexists _, _. split; [done|]. cbn [add_slot set_slot slots mem]. split_and!; try done.
    + cbn [deref]. rewrite (vec_read_rep _ _ _ _ _ _ _ V HH). unfold cvec_deref. rewrite El. by rewrite (H_read _ _ _ _ _ _ _ _ B HH).
    + cbn [zst_of]. intros ->. cbn [back]. destruct x as [q n cc]. cbn [ptr_ len_ cap_] in *. by rewrite El.
  - destruct Hr as (_ & _ & _ & El & B & Hu). unfold cvec_into in *. rewrite El in *. destruct (from_raw_rep false _ _ _ fp _ F (told a) B HH) as [Er V]. rewrite Er in *. cbn [lift] in *.
    rewrite (vec_read_rep _ _ _ _ _ _ _ V HH) in *. cbn [lift] in *. rewrite utf8_ok in * by done. cbn [lift] in *.
    eexists _, _. split; [done|]. cbn [add_slot set_slot slots mem]. split_and!; try done.
    + cbn [deref]. rewrite (vec_read_rep _ _ _ _ _ _ _ V HH). unfold cstring_deref, cvec_deref. rewrite El. rewrite (H_read _ _ _ _ _ _ _ _ B HH). cbn [bind]. by rewrite utf8_ok.
    + intros _. cbn [back]. destruct x as [q n cc]. cbn [ptr_ len_ cap_] in *. by rewrite El.
Qed.

(** ** C50 *)

(** The part from [a] to [b] of anything that a variable holds, as a slice
    sent to C and back, has the elements of that part, for empty parts too;
    and its pointer is not null, so that C does not take it for [None]. *)
Theorem C50_slices s i k xs a b : reach s → holds s i k → deref k (mem s) = Ok xs → (a ≤ b ≤ List.length xs)%nat →
  ∃ z p, whole k = Some (z, p, List.length xs) ∧
    let sl := raw_as_ref (raw_from (slice_from (if z then p else ptr_add p a) (b - a))) in
    sptr sl ≠ Null ∧ slen sl = (b - a)%nat ∧ as_slice z sl (mem s) = Ok (firstn (b - a) (skipn a xs)).
Proof.
  intros [q HR]%reach_R Hk Hd [Hab Hb]. destruct (R_holds s q i k HR Hk) as (v & fp & F & _ & Hr & HH).
  rewrite (deref_rep _ _ _ _ _ _ Hr HH) in Hd. injection Hd as <-. destruct (whole_rep k v fp Hr) as (z & p & cap & Ew & _ & B & _).
  exists z, p. split; [done|]. cbn zeta. unfold as_slice, raw_as_ref, raw_from, slice_from. cbn [sptr slen]. split_and!; [|done|by eapply H_sub].
  unfold brep in B. destruct z; [by destruct B as (-> & _)|]. destruct (cap =? 0); [by destruct B as (-> & _)|]. by destruct B as (b' & -> & _).
Qed.
(** Likewise for the slices the C types give. *)
Theorem C50_views s i k xs w : reach s → holds s i k → deref k (mem s) = Ok xs → w = AsRef ∨ w = AsMut →
  read k w (mem s) = Some (Ok xs) ∨ read k w (mem s) = None.
Proof.
  intros [q HR]%reach_R Hk Hd Hw. destruct (R_holds s q i k HR Hk) as (v & fp & F & _ & Hr & HH).
  rewrite (deref_rep _ _ _ _ _ _ Hr HH) in Hd. injection Hd as <-. pose proof (read_rep k v fp _ F _ w Hr HH) as G.
  destruct (read k w (mem s)) as [r|]; [|by right]. left. destruct (aread v w) as [ys|] eqn:Ea; [|done]. subst r.
  destruct Hw as [-> | ->]; destruct v as [[] z ys' c]; try done; injection Ea as ->; done.
Qed.

(** ** Examples *)

(** A vector with spare capacity goes to C; a closure pushes beyond the
    capacity, replaces an element and panics; then on to a boxed slice and
    back, and away. *)
Definition tour : cmd :=
  Seq (Prim (New FVec false [1; 2; 3] 4)) (
  Seq (Prim (Conv 0 FCVec)) (
  Seq (Catch (With 0 (Seq (Prim (VOp 1 (VPush 4 None))) (Seq (Prim (VOp 1 (VPush 5 (Some 10)))) (Seq (Prim (Write 1 0 9)) Panic))))) (
  Seq (Prim (Read 0 Deref)) (
  Seq (Prim (Read 0 (Sub 1 3))) (
  Seq (Prim (Read 0 (Sub 5 5))) (
  Seq (Prim (Conv 0 FVec)) (
  Seq (Prim (Conv 0 FBox)) (
  Seq (Prim (Conv 0 FCBox)) (
  Seq (Prim (Read 0 AsMut)) (
  Prim (Drop 0))))))))))).
Example tour_runs : match exec tour init with
  | Done s =>
      events (mem s) = [EAlloc 0 4; EAlloc 1 10; EFree 0 4; EDrop 1; ERead [9; 2; 3; 4; 5] (Some 10); ERead [2; 3] (Some 10); ERead [] (Some 10);
                        EAlloc 2 5; EFree 1 10; ERead [9; 2; 3; 4; 5] None; EDrop 9; EDrop 2; EDrop 3; EDrop 4; EDrop 5; EFree 2 5] ∧
      slots s = [Gone; Gone]
  | _ => False
  end.
Proof. by vm_compute. Qed.
Example tour_reach : ∃ s, reach s ∧ (∀ i k, ¬ holds s i k) ∧ blocks (mem s) !! 2%nat = Some (Block 5 [] true).
Proof.
  destruct (exec tour init) as [s| | |] eqn:E; try (by vm_compute in E). exists s. split; [by eapply reach_done; [apply reach_init|]|].
  vm_compute in E. injection E as <-. split; [|done]. intros [|[|]] k [?|?]; done.
Qed.
(** Strings, the empty vector of C, zero-sized elements, clones. *)
Definition tour2 : cmd :=
  Seq (Prim (New FString false [195; 169] 0)) (
  Seq (Prim (Conv 0 FCString)) (
  Seq (Prim (Clone 0 16 None)) (
  Seq (With 1 (Prim (VOp 2 (VExtend [33] None)))) (
  Seq (Prim (Conv 0 FString)) (
  Seq (Prim (Conv 0 FCStr)) (
  Seq (Prim (Empty FCVec true)) (
  Seq (With 3 (Prim (VOp 4 (VPush 7 None)))) (
  Seq (Prim (Read 3 Deref)) (
  Seq (Prim (Clone 3 0 (Some 0%nat))) (
  Prim (Drop 0))))))))))).
Example tour2_runs : match exec tour2 init with
  | Panicked s =>
      events (mem s) = [EAlloc 0 2; EAlloc 1 16; ERead [0] (Some USIZE_MAX)] ∧
      slots s = [Own (HCStr (CBox (At 0 0) 2)); Own (HCString (CVec (At 1 0) 3 16)); Gone; Own (HCVec true (CVec Dangling 1 USIZE_MAX)); Gone]
  | _ => False
  end.
Proof. by vm_compute. Qed.
(** The theorems' hypotheses: a state with a C vector, and one inside a closure. *)
Definition two : cmd := Seq (Prim (New FVec false [1; 2; 3] 4)) (Prim (Conv 0 FCVec)).
Example two_reach : ∃ s s1, exec two init = Done s ∧ slots s !! 0%nat = Some (Own (HCVec false (CVec (At 0 0) 3 4))) ∧ begin_with 0 s = Done s1 ∧
  reach s1 ∧ holds s1 1 (HVec false (RVec (At 0 0) 3 4)) ∧ ended (exec (Seq (Prim (VOp 1 VPop)) Panic) s1) (State (Heap [Block 4 [1; 2] false] [EAlloc 0 4; EDrop 3])
    [Lent (HCVec false (CVec (At 0 0) 3 4)); Local (HVec false (RVec (At 0 0) 2 4))]).
Proof.
  destruct (exec two init) as [s| | |] eqn:E; try (by vm_compute in E). assert (Hs : reach s) by (by eapply reach_done; [apply reach_init|]).
  exists s, (State (mem s) (<[0%nat := Lent (HCVec false (CVec (At 0 0) 3 4))]> (slots s) ++ [Local (HVec false (RVec (At 0 0) 3 4))])).
  assert (begin_with 0 s = Done (State (mem s) (<[0%nat := Lent (HCVec false (CVec (At 0 0) 3 4))]> (slots s) ++ [Local (HVec false (RVec (At 0 0) 3 4))]))) as Eb
    by (vm_compute in E; injection E as <-; done).
  split_and!; [done| |done|by eapply reach_inside| |]; vm_compute in E; injection E as <-; [done|by right|by right].
Qed.
Example two_given : converts (form_of (HCVec false (CVec (At 0 0) 3 4))) FVec = true ∧ c_form FVec FCVec = true.
Proof. done. Qed.

Print Assumptions C48_refines.
Print Assumptions C48_safe.
Print Assumptions C48_memory.
Print Assumptions C48_no_leak.
Print Assumptions C48_convert.
Print Assumptions C48_round_trip.
Print Assumptions C49_written_back.
Print Assumptions C49_given.
Print Assumptions C50_slices.
Print Assumptions C50_views.
