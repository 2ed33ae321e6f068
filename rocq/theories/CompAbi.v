(** Proofs for C84, continued: what is passed. *)

From Coq Require Import NArith ZArith List Bool String Ascii Lia ZifyBool ZifyNat ZifyN.
From stdpp Require Import base numbers list strings pretty option.
From Verif Require Import LayoutModel NameModel HeaderModel HeaderSpec HeaderProofs CsModel
  TextModel TextSpec CompSpec CompRun.
From Verif Require CsSpec CsProofs.
Import stdpp.list CompSpec.

Lemma view_not_arr t n τ : view t ≠ RArr n τ.
Proof.
  revert n τ. induction t as [i| | | | | | |t len _|r args _ _|m gs fs _ _|m [i|]|m t IH|m] using cty_ind'; intros n τ; cbn [view]; try done;
    by destruct i.
Qed.
Lemma int_abi P sg i : i ≠ Isize → base_abi P sg (match int_view i with RBase s => s | _ => "" end) = CsSpec.rust_int P i.
Proof. by destruct i. Qed.
Lemma c_abi_int P sg i : i ≠ Isize → c_abi P sg (int_view i) = CsSpec.rust_int P i.
Proof. by destruct i. Qed.
Lemma void_abi P sg t : CsSpec.is_void t = true → c_abi P sg (view t) = CsSpec.AVoid.
Proof. induction t; try done. Qed.

Lemma one_each P (l : list (string * cty)) o :
  concat (zip_with (λ o ks, map (λ k : nat * CsSpec.abi, (o + k.1, k.2)) ks) (offsets o (map (λ f, lay P f.2) l))
    (map (λ f, [(0, CsSpec.abi_of P f.2)]) l)) = zip (offsets o (map (λ f, lay P f.2) l)) (map (λ f, CsSpec.abi_of P f.2) l).
Proof.
  revert o. induction l as [|f l IH]; intros o; [done|]. cbn [map offsets]. destruct (lay P f.2) as [z a].
  cbn [offsets zip zip_with concat map app fst snd]. rewrite Nat.add_0_r. f_equal. apply IH.
Qed.

Lemma view_abi P sg t : CsSpec.sane P → CsSpec.value true t → c_exact sg t → (CsSpec.value false t ∨ CsSpec.is_void t = true) →
  c_abi P sg (view t) = CsSpec.abi_of P t.
Proof.
  intros HP. induction t as [i|d| | | | |c t IH|t n IH|r args IHr IHa|m gs fs _ IHf|m i|m t IH|m] using cty_ind'; intros Hv He Hw.
  - by apply c_abi_int.
  - by destruct d.
  - done.
  - done.
  - done.
  - cbn in He. by subst sg.
  - cbn [view c_abi CsSpec.abi_of].
    assert (HF : ∀ r ps, view t ≠ RFun r ps).
    { clear. induction t as [i| | | | | | | | | |m [i|]|m t IH|m] using cty_ind'; intros r ps; cbn [view]; try done; by destruct i. }
    destruct (view t); try done. by edestruct HF.
  - destruct Hw as [[Hn Hw]|?]; [|done]. cbn [c_exact] in He. specialize (IH ltac:(by apply CsProofs.value_weaken) He ltac:(by left)).
    cbn [view c_abi map snd]. rewrite IH, CsProofs.abi_lay_of. cbn [CsSpec.abi_lay CsSpec.abi_of].
    destruct (CsProofs.lay_aligned P t HP) as [Ha [q Hq]]. destruct (lay P t) as [z a]. cbn [fst snd] in *.
    unfold LayoutModel.seal. cbn [ending max_align offsets zip zip_with concat fst snd].
    assert (round_up 0 a = 0) as -> by (by apply CsProofs.round_up_0).
    assert (a `max` 1 = a) as -> by lia. rewrite Nat.add_0_l.
    assert (round_up (N.to_nat n * z) a = N.to_nat n * z) as -> by (rewrite Hq, Nat.mul_assoc; by apply CsProofs.round_up_mul).
    f_equal. rewrite app_nil_r, map_map. apply map_ext. intros j. done.
  - cbn [view c_abi CsSpec.abi_of]. destruct He as [He1 He2]. destruct Hw as [[Hw1 Hw2]|?]; [|done].
    rewrite CsProofs.Forall'_spec in He2, Hw2.
    rewrite IHr; [|destruct Hw1 as [H|H]; [|by apply CsProofs.value_weaken]|done|tauto].
    + f_equal. rewrite map_map. clear -IHa He2 Hw2. induction IHa as [|a args Ia _ IH]; [done|].
      apply Forall_cons in He2 as [E1 E2], Hw2 as [V1 V2]. cbn [map]. rewrite Ia, IH; try done; [by apply CsProofs.value_weaken|by left].
    + clear -H. induction r; try done. by apply IHr.
  - destruct Hw as [Hw|?]; [|done]. cbn [CsSpec.value] in Hw. rewrite CsProofs.Forall'_spec in Hw. cbn [c_exact] in He.
    rewrite CsProofs.Forall'_spec in He. rewrite CsProofs.abi_of_struct by done. rewrite view_struct. cbn [c_abi].
    assert (EL : map (λ f : string * rty, CsSpec.abi_lay P (c_abi P sg f.2)) (map (λ f, (f.1, view f.2)) (filter (λ f, zst f.2 = false) fs))
      = map (λ f, lay P f.2) (CsProofs.nz fs)).
    { rewrite map_map. cbn [snd]. apply map_ext_in. intros f Hf%elem_of_list_In. unfold CsProofs.nz in Hf. apply elem_of_list_filter in Hf as [Hz Hf].
      rewrite Forall_forall in Hw, He, IHf. specialize (Hw f Hf). rewrite Hz in Hw.
      rewrite IHf; [apply CsProofs.abi_lay_of|done|by apply CsProofs.value_weaken|by apply He|by left]. }
    rewrite EL. f_equal.
    assert (EK : map (λ f : string * rty, match f.2, c_abi P sg f.2 with RArr _ _, CsSpec.AStruct _ _ ks => ks | _, k => [(0, k)] end)
        (map (λ f, (f.1, view f.2)) (filter (λ f, zst f.2 = false) fs)) = map (λ f, [(0, CsSpec.abi_of P f.2)]) (CsProofs.nz fs)).
    { rewrite map_map. cbn [snd]. apply map_ext_in. intros f Hf%elem_of_list_In. unfold CsProofs.nz in Hf. apply elem_of_list_filter in Hf as [Hz Hf].
      rewrite Forall_forall in Hw, He, IHf. specialize (Hw f Hf). rewrite Hz in Hw.
      rewrite <-IHf; [|done|by apply CsProofs.value_weaken|by apply He|by left].
      pose proof (view_not_arr f.2). destruct (view f.2); try done. by edestruct H. }
    rewrite EK. apply one_each.
  - destruct i as [i|]; [|done]. cbn [view CsSpec.abi_of]. apply c_abi_int. cbn in He. congruence.
  - cbn [view CsSpec.abi_of]. apply IH; done.
  - by destruct Hw.
Qed.
