(** Lemmas about C# declarations. *)
From Coq Require Import NArith Arith List Bool Lia String.
From stdpp Require Import base numbers list list_numbers strings pretty.
From Verif Require Import LayoutModel HeaderModel HeaderSpec HeaderProofs HeaderNames HeaderRead CsModel CsSpec.

Lemma Forall'_spec {A} (P : A → Prop) l : Forall' P l ↔ Forall P l.
Proof.
  induction l as [|x l IH]; cbn; [split; [constructor|done]|].
  rewrite IH. split; [intros [H1 H2]; by constructor|by intros [H1 H2]%Forall_cons].
Qed.

(** ** Layouts *)

Lemma round_up_1 n : round_up n 1 = n.
Proof. unfold round_up. rewrite Nat.div_1_r. lia. Qed.
Lemma round_up_0 a : a ≠ 0 → round_up 0 a = 0.
Proof. intros H. unfold round_up. rewrite Nat.div_small by lia. lia. Qed.
Lemma round_up_mul n a : a ≠ 0 → round_up (n * a) a = n * a.
Proof.
  intros H. unfold round_up. replace (n * a + a - 1) with (a - 1 + n * a) by lia.
  rewrite Nat.div_add by done. rewrite Nat.div_small by lia. lia.
Qed.
Lemma max_align_pos ls : 1 ≤ max_align ls.
Proof. induction ls as [|[s a] ls IH]; cbn; lia. Qed.
Lemma offsets_length o ls : length (offsets o ls) = length ls.
Proof. revert o. induction ls as [|[s a] ls IH]; intros o; cbn; [done|]. by rewrite IH. Qed.

Lemma zst_layouts ls : Forall (λ l, l = (0, 1)) ls → (∀ o, ending o ls = o) ∧ max_align ls = 1.
Proof.
  induction 1 as [|l ls -> H [IH1 IH2]]; [done|]. split.
  - intros o. cbn [ending]. by rewrite IH1, round_up_1, Nat.add_0_r.
  - cbn. by rewrite IH2.
Qed.
Lemma lay_zst P t : nonempty t → zst t = true → lay P t = (0, 1).
Proof.
  induction t as [i|d| | | | |c t IH|t n IH|r args IHr IHa|n gs fs _ IHf|n i|n t IH|n] using cty_ind'; try done.
  - cbn. intros [Hn Ht] Hz. apply orb_true_iff in Hz as [Hz|Hz]; [|by apply N.eqb_eq in Hz].
    rewrite (IH Ht Hz). unfold arr_lay. cbn. f_equal. lia.
  - cbn [nonempty zst lay]. rewrite Forall'_spec. intros Hn Hz.
    assert (H : Forall (λ l, l = (0, 1)) (map (λ f : string * cty, lay P f.2) fs)).
    { apply Forall_fmap. induction fs as [|[f t] fs IH]; [constructor|].
      apply Forall_cons in IHf as [IH1 IH2]. apply Forall_cons in Hn as [Hn1 Hn2].
      apply andb_true_iff in Hz as [Hz1 Hz2]. constructor; [by apply IH1|by apply IH]. }
    apply zst_layouts in H as [H1 H2]. unfold seal. by rewrite H1, H2, round_up_1.
Qed.

Lemma round_up_ge n a : a ≠ 0 → n ≤ round_up n a.
Proof.
  intros H. unfold round_up. pose proof (Nat.div_mod (n + a - 1) a H) as E.
  pose proof (Nat.mod_upper_bound (n + a - 1) a H). lia.
Qed.
Lemma ending_ge o ls : Forall (λ l, l.2 ≠ 0) ls → Forall (λ l, l.1 ≤ ending o ls) ls ∧ o ≤ ending o ls.
Proof.
  revert o. induction ls as [|[n a] ls IH]; intros o H; [by split; [constructor|]|].
  apply Forall_cons in H as [Ha H]. cbn [ending]. destruct (IH (round_up o a + n) H) as [H1 H2].
  pose proof (round_up_ge o a Ha). split; [constructor; [cbn; lia|done]|lia].
Qed.
Lemma num_align P n : sane P → n ≠ 0 → (num P n).2 ≠ 0.
Proof. intros [_ [H|H]] Hn; unfold num, align_n; cbn [snd]; rewrite ?H; destruct (n =? 8)%nat; lia. Qed.
Lemma lay_align P t : sane P → (lay P t).2 ≠ 0.
Proof.
  intros S. pose proof S as [Sp _].
  induction t as [i|d| | | | |c t IH|t n IH|r args IHr IHa|n gs fs _ IHf|n i|n t IH|n] using cty_ind';
    cbn [lay]; try (apply num_align; [done|]; repeat match goal with x : bool |- _ => destruct x | x : option intk |- _ => destruct x | x : intk |- _ => destruct x end; cbn; lia); try done.
  unfold seal. cbn [snd]. pose proof (max_align_pos (map (λ f : string * cty, lay P f.2) fs)). lia.
Qed.
Lemma lay_not_zst P t : sane P → nonempty t → zst t = false → (lay P t).1 ≠ 0.
Proof.
  intros S. pose proof S as [Sp _].
  induction t as [i|d| | | | |c t IH|t n IH|r args IHr IHa|n gs fs _ IHf|n i|n t IH|n] using cty_ind'; try done.
  - intros _ _. cbn. destruct i; cbn; lia.
  - intros _ _. destruct d; cbn; lia.
  - intros _ _. cbn. lia.
  - cbn [nonempty zst lay]. intros [Hn Ht] [Hz _]%orb_false_iff. specialize (IH Ht Hz).
    unfold arr_lay. cbn [fst]. nia.
  - intros _ _. cbn. lia.
  - cbn [nonempty zst lay]. rewrite Forall'_spec. intros Hn Hz.
    assert (H : Exists (λ l, l.1 ≠ 0) (map (λ f : string * cty, lay P f.2) fs)).
    { apply Exists_fmap. induction fs as [|[f t] fs IH]; [done|].
      apply Forall_cons in IHf as [IH1 IH2]. apply Forall_cons in Hn as [Hn1 Hn2].
      apply andb_false_iff in Hz as [Hz|Hz]; [left; by apply IH1|right; by apply IH]. }
    assert (Ha : Forall (λ l, l.2 ≠ 0) (map (λ f : string * cty, lay P f.2) fs)).
    { apply Forall_fmap. apply Forall_true. intros f. by apply lay_align. }
    unfold seal. cbn [fst]. apply Exists_exists in H as (l & Hl & Hn0).
    destruct (ending_ge 0 _ Ha) as [He _]. rewrite Forall_forall in He. specialize (He l Hl).
    pose proof (max_align_pos (map (λ f : string * cty, lay P f.2) fs)).
    pose proof (round_up_ge (ending 0 (map (λ f : string * cty, lay P f.2) fs)) (max_align (map (λ f : string * cty, lay P f.2) fs)) ltac:(lia)). lia.
  - intros _ _. cbn. destruct i as [i|]; [destruct i|]; cbn; lia.
Qed.

Definition nz (fs : list (string * cty)) : list (string * cty) := filter (λ f, zst f.2 = false) fs.
Lemma abi_lay_of P t : abi_lay P (abi_of P t) = lay P t.
Proof.
  induction t as [i|d| | | | |c t IH|t n IH|r args IHr IHa|n gs fs _ IHf|n i|n t IH|n] using cty_ind';
    cbn [abi_of abi_lay lay]; try done. by destruct i.
Qed.

Definition struct_abis (P : platform) : list nat → list (string * cty) → list (nat * abi) :=
  fix go (os : list nat) (fs : list (string * cty)) {struct fs} : list (nat * abi) :=
    match fs, os with
    | (_, t) :: fs, o :: os => if zst t then go os fs else (o, abi_of P t) :: go os fs
    | _, _ => []
    end.
(** Zero-sized fields matter to nothing. *)
Lemma skip_zst P fs : Forall (λ f, if zst f.2 then nonempty f.2 else value false f.2) fs →
  (∀ o, ending o (map (λ f, lay P f.2) fs) = ending o (map (λ f, lay P f.2) (nz fs))) ∧
  max_align (map (λ f, lay P f.2) fs) = max_align (map (λ f, lay P f.2) (nz fs)) ∧
  (∀ o, struct_abis P (offsets o (map (λ f, lay P f.2) fs)) fs =
        zip (offsets o (map (λ f, lay P f.2) (nz fs))) (map (λ f, abi_of P f.2) (nz fs))).
Proof.
  induction 1 as [|[f t] fs Ht H (IH1 & IH2 & IH3)]; [done|]. cbn in Ht. unfold nz in *.
  destruct (zst t) eqn:E.
  - rewrite filter_cons_False by (cbn; by rewrite E). cbn [map snd ending max_align offsets struct_abis]. rewrite (lay_zst P t Ht E), E. split_and!.
    + intros o. by rewrite round_up_1, Nat.add_0_r, IH1.
    + rewrite IH2. pose proof (max_align_pos (map (λ f, lay P f.2) (filter (λ f : string * cty, zst f.2 = false) fs))). lia.
    + intros o. rewrite round_up_1, Nat.add_0_r. apply IH3.
  - rewrite filter_cons_True by done. cbn [map snd ending max_align offsets struct_abis]. rewrite E. destruct (lay P t) as [s a]. split_and!.
    + intros o. apply IH1.
    + by rewrite IH2.
    + intros o. cbn [offsets zip zip_with]. f_equal. apply IH3.
Qed.
Lemma abi_of_struct P n gs fs : Forall (λ f, if zst f.2 then nonempty f.2 else value false f.2) fs →
  let ls := map (λ f, lay P f.2) (nz fs) in
  abi_of P (TStruct n gs fs) = AStruct (seal ls).1 (seal ls).2 (zip (offsets 0 ls) (map (λ f, abi_of P f.2) (nz fs))).
Proof.
  intros H. apply (skip_zst P) in H as (H1 & H2 & H3). cbn zeta.
  change (abi_of P (TStruct n gs fs)) with
    (AStruct (seal (map (λ f, lay P f.2) fs)).1 (seal (map (λ f, lay P f.2) fs)).2
       (struct_abis P (offsets 0 (map (λ f, lay P f.2) fs)) fs)).
  rewrite H3. unfold seal. by rewrite H1, H2.
Qed.

(** Sizes are multiples of alignments. *)
Lemma num_aligned P n : sane P → (n = 1 ∨ n = 2 ∨ n = 4 ∨ n = 8) → (num P n).2 ≠ 0 ∧ ∃ q, (num P n).1 = q * (num P n).2.
Proof.
  intros [Hp H8] Hn. unfold num, align_n. cbn [fst snd].
  destruct Hn as [->|[->|[->| ->]]]; cbn [Nat.eqb].
  1-3: split; [done|]; by exists 1.
  destruct H8 as [->| ->]; (split; [done|]); [by exists 2|by exists 1].
Qed.
Lemma int_bytes_cases P i : sane P → let n := int_bytes P i in n = 1 ∨ n = 2 ∨ n = 4 ∨ n = 8.
Proof. intros [Hp _]. destruct i; cbn; tauto. Qed.
Lemma ptr_cases P : sane P → p_ptr P = 1 ∨ p_ptr P = 2 ∨ p_ptr P = 4 ∨ p_ptr P = 8.
Proof. intros [Hp _]. tauto. Qed.
Lemma lay_aligned P t : sane P → (lay P t).2 ≠ 0 ∧ ∃ q, (lay P t).1 = q * (lay P t).2.
Proof.
  intros HP. pose proof (ptr_cases P HP) as Hptr.
  induction t as [i|d| | | | |c t IH|t n IH|r args IHr IHa|n gs fs _ IHf|n i|n t IH|n] using cty_ind'; cbn [lay].
  - apply num_aligned; [done|]. by apply int_bytes_cases.
  - apply num_aligned; [done|]. destruct d; tauto.
  - split; [done|]. by exists 0.
  - apply num_aligned; tauto.
  - apply num_aligned; tauto.
  - apply num_aligned; tauto.
  - apply num_aligned; tauto.
  - destruct IH as [H1 [q H2]]. unfold arr_lay. cbn. split; [done|]. exists (N.to_nat n * q). rewrite H2. lia.
  - apply num_aligned; tauto.
  - unfold seal. cbn. pose proof (max_align_pos (map (λ f : string * cty, lay P f.2) fs)). split; [lia|].
    unfold round_up. eauto.
  - apply num_aligned; [done|]. destruct i as [i|]; [by apply int_bytes_cases|tauto].
  - done.
  - split; [done|]. by exists 0.
Qed.

(** Arrays of C# structs. *)
Lemma offsets_replicate s a o n : a ≠ 0 → (∃ q, s = q * a) → (∃ q, o = q * a) →
  offsets o (replicate n (s, a)) = map (λ i, o + i * s) (seq 0 n).
Proof.
  intros Ha [q ->]. revert o. induction n as [|n IH]; intros o [p ->]; [done|].
  cbn [replicate offsets seq map]. rewrite round_up_mul by done. f_equal; [lia|].
  rewrite IH by (exists (p + q); lia). rewrite <-seq_shift, map_map. apply map_ext. intros i. lia.
Qed.
Lemma ending_replicate s a o n : a ≠ 0 → (∃ q, s = q * a) → (∃ q, o = q * a) →
  ending o (replicate n (s, a)) = o + n * s.
Proof.
  intros Ha [q ->]. revert o. induction n as [|n IH]; intros o [p ->]; [cbn; lia|].
  cbn [replicate ending]. rewrite round_up_mul by done. rewrite IH by (exists (p + q); lia). lia.
Qed.
Lemma max_align_replicate s a n : a ≠ 0 → n ≠ 0 → max_align (replicate n (s, a)) = a.
Proof.
  intros Ha. induction n as [|n IH]; [done|]. intros _. cbn [replicate max_align].
  destruct n as [|n]; [cbn; lia|]. rewrite IH by done. lia.
Qed.
Lemma zip_map_seq {B} (g : nat → nat) (k : B) n m : zip (map g (seq m n)) (replicate n k) = map (λ i, (g i, k)) (seq m n).
Proof. revert m. induction n as [|n IH]; intros m; [done|]. cbn. f_equal. apply IH. Qed.
Lemma sequential_array P t n : sane P → n ≠ 0%N →
  sequential P (N.to_nat n * (lay P t).1) (replicate (N.to_nat n) (abi_of P t)) = abi_of P (TArr t n).
Proof.
  intros HP Hn. destruct (lay_aligned P t HP) as [Ha [q Hq]].
  unfold sequential. change (map (abi_lay P) (replicate (N.to_nat n) (abi_of P t))) with (abi_lay P <$> replicate (N.to_nat n) (abi_of P t)).
  rewrite fmap_replicate, abi_lay_of. cbn [abi_of].
  destruct (lay P t) as [s a]. cbn [fst snd] in *. unfold seal.
  rewrite max_align_replicate by (done || lia). cbn [fst snd].
  rewrite ending_replicate by (done || eauto || (by exists 0)). cbn [Nat.add].
  rewrite Hq, Nat.mul_assoc, round_up_mul by done. rewrite Nat.max_id. f_equal.
  rewrite <-Hq, offsets_replicate by (done || eauto || (by exists 0)). cbn [Nat.add].
  apply zip_map_seq.
Qed.
Lemma sequential_struct P n gs fs : Forall (λ f, if zst f.2 then nonempty f.2 else value false f.2) fs →
  sequential P (seal (map (λ f, lay P f.2) (nz fs))).1 (map (λ f, abi_of P f.2) (nz fs)) = abi_of P (TStruct n gs fs).
Proof.
  intros H. rewrite (abi_of_struct P n gs fs H). unfold sequential.
  assert (E : map (abi_lay P) (map (λ f : string * cty, abi_of P f.2) (nz fs)) = map (λ f, lay P f.2) (nz fs)).
  { rewrite map_map. apply map_ext. intros f. apply abi_lay_of. }
  rewrite E, Nat.max_id. done.
Qed.
Lemma sequential_inj P size size' ks ks' : sequential P size ks = sequential P size' ks' → ks = ks'.
Proof.
  unfold sequential. intros [= _ _ E]. apply (f_equal (map snd)) in E.
  assert (H : ∀ ks, map snd (zip (offsets 0 (map (abi_lay P) ks)) ks) = ks).
  { intros l. apply snd_zip. rewrite offsets_length, map_length. done. }
  by rewrite !H in E.
Qed.

(** ** Names *)

Lemma us_suffixed s : has_underscore (suffixed s) = true.
Proof. unfold suffixed. rewrite us_app. apply orb_true_r. Qed.
Lemma us_fn r args : has_underscore (short (TFn r args)) = true.
Proof. cbn [short]. rewrite !us_app. cbn. by rewrite !orb_true_r. Qed.
Lemma assoc_us {A} x (l : list (string * A)) : has_underscore x = true →
  Forall (λ y, has_underscore y.1 = false) l → assoc x l = None.
Proof.
  intros Hx. induction 1 as [|[y a] l Hy H IH]; [done|]. cbn in *. rewrite bool_decide_false; [done|]. intros ->. congruence.
Qed.
Lemma scalar_us P x : has_underscore x = true → scalar P x = None.
Proof. intros H. apply assoc_us; [done|]. repeat constructor. Qed.
Lemma scalar_bool P : scalar P "bool" = None.
Proof. done. Qed.
Lemma scalar_void P : scalar P "void" = None.
Proof. done. Qed.
Lemma scalar_int P i : scalar P (csharp_int i) = Some (rust_int P i).
Proof. by destruct i. Qed.

Definition named (Γ : list csdecl) : Prop := ∀ x d, find Γ x = Some d → has_underscore x = true.
Lemma find_name Γ x d : find Γ x = Some d → name_of d = x ∧ is_type_decl d = true.
Proof.
  induction Γ as [|c Γ IH]; [done|]. cbn. destruct (bool_decide _ && _) eqn:E; [|done].
  intros [= ->]. apply andb_true_iff in E as [E1 E2]. by apply bool_decide_eq_true in E1.
Qed.

(** ** Which types are declared *)
Fixpoint defined (P : platform) (Γ : list csdecl) (t : cty) : Prop :=
  match t with
  | TPtr _ t | TAlias _ t => defined P Γ t
  | TArr u n =>
      find Γ (suffixed (short t)) =
        Some (SStruct (suffixed (short t)) (arr_lay (lay P u) (N.to_nat n)).1 (arr_fields u (N.to_nat n))) ∧ defined P Γ u
  | TFn r args =>
      find Γ (short t) = Some (SDelegate (short t) (var r) (map var args)) ∧ defined P Γ r ∧ Forall' (defined P Γ) args
  | TStruct _ _ fs =>
      find Γ (suffixed (short t)) =
        Some (SStruct (suffixed (short t)) (seal (map (λ f, lay P f.2) (nz fs))).1 (map (λ f, FVar (var f.2) f.1) (nz fs))) ∧
      Forall' (λ f, zst f.2 = false → defined P Γ f.2) fs
  | TEnum n i => find Γ (suffixed n) = Some (SEnum (suffixed n) (option_map (λ i, csharp_ty (TInt i)) i))
  | TOpaque n => find Γ (suffixed n) = Some (SOpaque (suffixed n))
  | _ => True
  end.

(** ** Reading *)
Lemma snoc_star (x : string) ts : [TkId x] ≠ ts ++ [TkStar].
Proof. intros E. apply (f_equal last) in E. by rewrite last_snoc in E. Qed.
Lemma means_nonempty P Γ m a ts k : means P Γ m a ts k → ts ≠ [].
Proof. destruct 1; try done. by destruct ts. Qed.
Lemma inv_ptr P Γ m a ts k : means P Γ m a (ts ++ [TkStar]) k →
  (m = false ∨ a = None) ∧ k = APtr ∧ (ts = [TkId "void"] ∨ ∃ k', means P Γ false None ts k').
Proof.
  intros H. remember (ts ++ [TkStar]) as us eqn:E. destruct H; try (by apply snoc_star in E).
  - apply app_inj_tail in E as [-> _]. eauto.
  - change [TkId "void"; TkStar] with ([TkId "void"] ++ [TkStar]) in E. apply app_inj_tail in E as [<- _]. eauto.
Qed.
Lemma inv_id P Γ m a x k : means P Γ m a [TkId x] k →
  ((m = false ∨ a = None) ∧ scalar P x = Some k) ∨
  (x = "bool" ∧ m = true ∧ a = None ∧ k = ABool 4) ∨
  (x = "bool" ∧ (m = false ∨ a = Some "UnmanagedType.U1") ∧ k = ABool 1) ∨
  (∃ d, find Γ x = Some d ∧
     match d with
     | SStruct _ size fs => (m = false ∨ a = None) ∧ ∃ ks, fields P Γ m fs ks ∧ k = sequential P size ks
     | SEnum _ b => (m = false ∨ a = None) ∧ enum_base P b = Some k
     | SOpaque _ => (m = false ∨ a = None) ∧ k = AStruct 1 1 [(0, AInt false 1)]
     | SDelegate _ r args => m = true ∧ (a = None ∨ a = Some "UnmanagedType.FunctionPtr") ∧
         ∃ kr ks, result P Γ r kr ∧ params P Γ args ks ∧ k = AFun (winapi P) kr ks
     | SFn _ _ _ => False
     end).
Proof.
  intros H. remember [TkId x] as us eqn:E. destruct H; simplify_eq.
  - by left.
  - right; left. done.
  - right; right; left. done.
  - symmetry in E. by apply snoc_star in E.
  - right; right; right. eexists. split; [eassumption|]. cbn. done.
  - right; right; right. eexists. split; [eassumption|]. cbn. done.
  - right; right; right. eexists. split; [eassumption|]. cbn. split; [done|]. eexists. split; [eassumption|done].
  - right; right; right. eexists. split; [eassumption|]. cbn. split; [done|]. split; [done|]. eexists _, _. split; [eassumption|]. split; [eassumption|done].
Qed.
Lemma inv_void P Γ m a k : named Γ → ¬ means P Γ m a [TkId "void"] k.
Proof. intros HΓ [[_ H]|[[H _]|[[H _]|(d & H & _)]]]%inv_id; try done. by apply HΓ in H. Qed.
Lemma inv_scalar P Γ m a x k s : named Γ → scalar P x = Some s → means P Γ m a [TkId x] k → (m = false ∨ a = None) ∧ k = s.
Proof.
  intros HΓ Hx [[H1 H]|[[-> _]|[[-> _]|(d & H & _)]]]%inv_id; try done.
  - split; [done|congruence].
  - apply HΓ, (scalar_us P) in H. congruence.
Qed.
Lemma inv_bool P Γ m a k : named Γ → means P Γ m a [TkId "bool"] k →
  (m = true ∧ a = None ∧ k = ABool 4) ∨ (m = false ∨ a = Some "UnmanagedType.U1") ∧ k = ABool 1.
Proof. intros HΓ [[_ H]|[[_ H]|[[_ H]|(d & H & _)]]]%inv_id; [done|by left|by right|]. by apply HΓ in H. Qed.
Lemma inv_named P Γ m a x k d : has_underscore x = true → find Γ x = Some d → means P Γ m a [TkId x] k →
  match d with
  | SStruct _ size fs => (m = false ∨ a = None) ∧ ∃ ks, fields P Γ m fs ks ∧ k = sequential P size ks
  | SEnum _ b => (m = false ∨ a = None) ∧ enum_base P b = Some k
  | SOpaque _ => (m = false ∨ a = None) ∧ k = AStruct 1 1 [(0, AInt false 1)]
  | SDelegate _ r args => m = true ∧ (a = None ∨ a = Some "UnmanagedType.FunctionPtr") ∧
      ∃ kr ks, result P Γ r kr ∧ params P Γ args ks ∧ k = AFun (winapi P) kr ks
  | SFn _ _ _ => False
  end.
Proof.
  intros Hu Hd [[_ H]|[[-> _]|[[-> _]|(d' & H & H')]]]%inv_id; try done.
  - by rewrite (scalar_us P x Hu) in H.
  - rewrite Hd in H. by simplify_eq.
Qed.

Lemma fields_vars P Γ m fs ks :
  fields P Γ m (map (λ f : string * cty, FVar (var f.2) f.1) fs) ks ↔
  Forall2 (λ f k, means P Γ m (marshaler f.2) (csharp_ty f.2) k) fs ks.
Proof.
  revert ks. induction fs as [|f fs IH]; intros ks; cbn [map].
  - split; [by inversion 1|]. intros H%Forall2_nil_inv_l. subst. constructor.
  - split.
    + inversion 1; subst. constructor; [done|]. by apply IH.
    + intros (k & ks' & H1 & H2 & ->)%Forall2_cons_inv_l. constructor; [done|]. by apply IH.
Qed.
Lemma params_vars P Γ ts ks :
  params P Γ (map var ts) ks ↔ Forall2 (λ t k, means P Γ true (marshaler t) (csharp_ty t) k) ts ks.
Proof.
  revert ks. induction ts as [|t ts IH]; intros ks; cbn [map].
  - split; [by inversion 1|]. intros H%Forall2_nil_inv_l. subst. constructor.
  - split.
    + inversion 1; subst. constructor; [done|]. by apply IH.
    + intros (k & ks' & H1 & H2 & ->)%Forall2_cons_inv_l. constructor; [done|]. by apply IH.
Qed.
Lemma fields_array P Γ m t n ks : is_fixed t = false →
  fields P Γ m (arr_fields t n) ks ↔ length ks = n ∧ Forall (means P Γ m (marshaler t) (csharp_ty t)) ks.
Proof.
  unfold arr_fields. intros ->. assert (H : ∀ o, fields P Γ m (map (λ i, FVar (var t) ("_" +:+ pretty i)) (seq o n)) ks ↔
    length ks = n ∧ Forall (means P Γ m (marshaler t) (csharp_ty t)) ks); [|apply H].
  revert ks. induction n as [|n IH]; intros ks o; cbn [seq map].
  - split; [inversion 1; by subst|]. intros [H _]. apply nil_length_inv in H as ->. constructor.
  - split.
    + inversion 1; subst. cbn. split; [f_equal|constructor; [done|]]; by eapply (IH _ (S o)).
    + intros [H1 H2]. destruct ks as [|k ks]; [done|]. apply Forall_cons in H2 as [H2 H3].
      constructor; [done|]. apply IH. cbn in H1. split; [lia|done].
Qed.
Lemma fields_fixed P Γ m t n ks : is_fixed t = true →
  fields P Γ m (arr_fields t n) ks ↔ ¬ word t ∧ ks = replicate n (abi_of P t).
Proof.
  unfold arr_fields. intros E. rewrite E.
  assert (HB : (word t ∧ buffer P (csharp_ty t) = None) ∨ (¬ word t ∧ buffer P (csharp_ty t) = Some (abi_of P t))).
  { destruct t as [i|[]| | | | | | | | | | |]; try done.
    destruct i; first [left; split; [by (left + right)|reflexivity] | right; split; [by intros [?|?]|reflexivity]]. }
  split.
  - inversion 1 as [|? ? ? ? ? ? ? HH|? ? ? ? ? k ks' Hb Hf]; subst. inversion Hf; subst. rewrite app_nil_r.
    destruct HB as [[_ HB]|[Hw HB]]; rewrite HB in Hb; simplify_eq. done.
  - intros [Hw ->]. destruct HB as [[HB _]|[_ HB]]; [done|].
    rewrite <-(app_nil_r (replicate _ _)). econstructor; [done|constructor].
Qed.

Lemma csharp_void t : csharp_ty t = [TkId "void"] → is_void t = true.
Proof.
  assert (HU : ∀ x, has_underscore x = true → [TkId x] = [TkId "void"] → False) by (intros x Hx [= ->]; done).
  induction t as [i|[]| | | | |c t IH|t n IH|r args IHr IHa|n gs fs _ IHf|n i|n t IH|n] using cty_ind'; cbn [csharp_ty is_void]; try done.
  - by destruct i.
  - intros E. symmetry in E. by apply snoc_star in E.
  - intros E. by apply HU in E; [|apply us_suffixed].
  - intros E. by apply HU in E; [|apply us_fn].
  - intros E. by apply HU in E; [|apply us_suffixed].
  - intros E. by apply HU in E; [|apply us_suffixed].
  - intros E. by apply HU in E; [|apply us_suffixed].
Qed.
Lemma void_csharp t : is_void t = true → csharp_ty t = [TkId "void"] ∧ marshaler t = None ∧ memory_ok t ∧ ∀ P, abi_of P t = AVoid.
Proof.
  induction t as [i|[]| | | | |c t IH|t n IH|r args IHr IHa|n gs fs _ IHf|n i|n t IH|n] using cty_ind'; cbn; try done.
  intros (? & ? & ? & ?)%IH. done.
Qed.
Lemma value_not_void t : value false t → is_void t = false.
Proof.
  induction t as [i|[]| | | | |c t IH|t n IH|r args IHr IHa|n gs fs _ IHf|n i|n t IH|n] using cty_ind'; cbn; try done.
Qed.
Lemma value_weaken t : value false t → value true t.
Proof.
  induction t as [i|[]| | | | |c t IH|t n IH|r args IHr IHa|n gs fs _ IHf|n i|n t IH|n] using cty_ind'; cbn; try done.
Qed.
Lemma fixed_cases t : is_fixed t = true → ∀ P b, passing_ok P b t ∧ memory_ok t ∧ marshaler t = None ∧ ∃ x, csharp_ty t = [TkId x] ∧ scalar P x = Some (abi_of P t).
Proof.
  destruct t as [i|[]| | | | | | | | | | |]; try done; intros _ P b.
  - split; [done|]. split; [done|]. split; [done|]. exists (csharp_int i). split; [done|]. apply scalar_int.
Qed.

Lemma Forall2_replicate {A} (Q : A → Prop) (x : A) l : Forall (λ y, Q y ∧ y = x) l → l = replicate (length l) x.
Proof. induction 1 as [|y l [_ ->] H IH]; [done|]. cbn. by f_equal. Qed.
Lemma Forall_nz (Q : string * cty → Prop) fs : Forall (λ f, zst f.2 = false → Q f) fs ↔ Forall Q (nz fs).
Proof.
  unfold nz. induction fs as [|f fs IH]; [split; constructor|]. rewrite filter_cons. rewrite Forall_cons, IH. destruct (decide _) as [E|E].
  - rewrite Forall_cons. naive_solver.
  - split; [by intros [_ H]|]. done.
Qed.

Lemma mem_fwd P Γ : sane P → named Γ → ∀ t, value true t → is_void t = false → defined P Γ t →
  ∀ a k, means P Γ false a (csharp_ty t) k → memory_ok t ∧ (value false t → k = abi_of P t).
Proof.
  intros HP HΓ. induction t as [i|d| | | | |c t IH|t n IH|r args IHr IHa|n gs fs _ IHf|n i|n t IH|n] using cty_ind';
    intros Hv Hn Hd a k Hm; cbn [csharp_ty] in Hm; try done.
  - apply (inv_scalar _ _ _ _ _ _ _ HΓ (scalar_int P i)) in Hm as [_ ->]. done.
  - destruct d; (eapply inv_scalar in Hm as [_ ->]; [done|exact HΓ|reflexivity]).
  - apply (inv_bool _ _ _ _ _ HΓ) in Hm as [[? _]|[_ ->]]; done.
  - eapply inv_scalar in Hm as [_ ->]; [done|exact HΓ|reflexivity].
  - eapply inv_scalar in Hm as [_ ->]; [done|exact HΓ|reflexivity].
  - apply inv_ptr in Hm as (_ & -> & Hm). split; [|done]. cbn [memory_ok]. destruct (is_void t) eqn:E; [by apply void_csharp in E as (_ & _ & ? & _)|].
    destruct Hm as [Hm|[k' Hm]]; [apply csharp_void in Hm; congruence|]. by eapply IH.
  - destruct Hv as [Hn0 Hv]. destruct Hd as [Hf Hd]. apply (inv_named _ _ _ _ _ _ _ (us_suffixed _) Hf) in Hm as (_ & ks & Hm & ->).
    cbn [memory_ok]. destruct (is_fixed t) eqn:E.
    + apply (fields_fixed _ _ _ _ _ _ E) in Hm as [Hw ->]. split; [split; [done|]; by apply (fixed_cases t E P true)|]. intros _. by apply sequential_array.
    + apply (fields_array _ _ _ _ _ _ E) in Hm as [Hl Hm].
      assert (HI : Forall (λ y, memory_ok t ∧ y = abi_of P t) ks).
      { eapply Forall_impl; [exact Hm|]. intros y Hy. apply IH in Hy as [H1 H2]; [|by apply value_weaken|by apply value_not_void|done]. auto. }
      assert (Hks : ks = replicate (N.to_nat n) (abi_of P t)).
      { rewrite <-Hl. apply (Forall2_replicate (λ _, memory_ok t)). exact HI. }
      split.
      * split. { intros [->| ->]; vm_compute in E; discriminate E. }
        destruct ks; [cbn in Hl; lia|]. by apply Forall_cons in HI as [[? _] _].
      * intros _. rewrite Hks. by apply sequential_array.
  - destruct Hd as (Hf & _). apply (inv_named _ _ _ _ _ _ _ (us_fn _ _) Hf) in Hm as (? & _). done.
  - cbn [value] in Hv. rewrite Forall'_spec in Hv. destruct Hd as [Hf Hd]. rewrite Forall'_spec in Hd.
    apply (inv_named _ _ _ _ _ _ _ (us_suffixed _) Hf) in Hm as (_ & ks & Hm & ->). apply fields_vars in Hm.
    assert (HI : Forall (λ f, ∀ k, means P Γ false (marshaler f.2) (csharp_ty f.2) k → memory_ok f.2 ∧ k = abi_of P f.2) (nz fs)).
    { apply Forall_nz. rewrite Forall_forall in IHf, Hd, Hv |- *. intros f Hin Hz k Hk. specialize (Hv f Hin). cbn in Hv. rewrite Hz in Hv.
      apply (IHf f Hin) in Hk as [H1 H2]; [auto|by apply value_weaken|by apply value_not_void|by apply Hd]. }
    split.
    + cbn [memory_ok]. apply Forall'_spec, Forall_nz. clear -HI Hm. induction Hm; [constructor|]. apply Forall_cons in HI as [HI1 HI2].
      constructor; [|auto]. by eapply HI1.
    + intros _. rewrite <-sequential_struct by done. f_equal. clear -HI Hm. induction Hm; [done|]. apply Forall_cons in HI as [HI1 HI2].
      cbn. f_equal; [|auto]. by eapply HI1.
  - apply (inv_named _ _ _ _ _ _ _ (us_suffixed _) Hd) in Hm as (_ & Hm). cbn [memory_ok abi_of].
    destruct i as [i|]; [|cbn in Hm; by simplify_eq].
    destruct i; vm_compute in Hm; try discriminate; injection Hm as <-; done.
  - apply IH in Hm; [done..].
Qed.

Lemma mem_bwd P Γ : sane P → named Γ → ∀ t, value true t → is_void t = false → defined P Γ t → memory_ok t →
  ∀ a, ∃ k, means P Γ false a (csharp_ty t) k.
Proof.
  intros HP HΓ. induction t as [i|d| | | | |c t IH|t n IH|r args IHr IHa|n gs fs _ IHf|n i|n t IH|n] using cty_ind';
    intros Hv Hn Hd Hm a; cbn [csharp_ty]; try done.
  - eexists. apply M_scalar; [by left|apply scalar_int].
  - exists (AFloat (if d then 8 else 4)). apply M_scalar; [by left|by destruct d].
  - eexists. apply M_bool1. by left.
  - eexists. apply M_scalar; [by left|done].
  - eexists. apply M_scalar; [by left|done].
  - exists APtr. destruct (is_void t) eqn:E.
    + apply void_csharp in E as (-> & _). apply (M_void P Γ false a). by left.
    + destruct (IH Hv eq_refl Hd Hm None) as [k Hk]. eapply M_ptr; [by left|exact Hk].
  - destruct Hv as [Hn0 Hv]. destruct Hd as [Hf Hd]. destruct Hm as [Hw Hm]. eexists. eapply M_struct; [by left|exact Hf|].
    destruct (is_fixed t) eqn:E; [by apply (fields_fixed _ _ _ _ _ _ E)|].
    destruct (IH (value_weaken _ Hv) (value_not_void _ Hv) Hd Hm (marshaler t)) as [k Hk].
    assert (k = abi_of P t) as ->.
    { apply (mem_fwd P Γ HP HΓ) in Hk as [_ Hk]; [auto|by apply value_weaken|by apply value_not_void|done]. }
    apply (fields_array _ _ _ _ _ _ E). split; [apply replicate_length|]. by apply Forall_replicate.
  - cbn [value] in Hv. rewrite Forall'_spec in Hv. destruct Hd as [Hf Hd]. rewrite Forall'_spec in Hd.
    cbn [memory_ok] in Hm. rewrite Forall'_spec in Hm.
    assert (HI : Forall (λ f, ∃ k, means P Γ false (marshaler f.2) (csharp_ty f.2) k) (nz fs)).
    { apply Forall_nz. rewrite Forall_forall in IHf, Hd, Hv, Hm |- *. intros f Hin Hz. specialize (Hv f Hin). cbn in Hv. rewrite Hz in Hv.
      apply (IHf f Hin); [by apply value_weaken|by apply value_not_void|by apply Hd|by apply Hm]. }
    assert (∃ ks, fields P Γ false (map (λ f : string * cty, FVar (var f.2) f.1) (nz fs)) ks) as [ks Hks].
    { clear -HI. induction HI as [|f l [k Hk] H [ks IH]]; [exists []; constructor|]. exists (k :: ks). by constructor. }
    eexists. eapply M_struct; [by left|exact Hf|exact Hks].
  - exists (abi_of P (TEnum n i)). cbn [csharp_ty]. eapply M_enum; [by left|exact Hd|]. destruct Hm as [H1 H2]. cbn [abi_of].
    destruct i as [i|]; [|done]. destruct i; done.
  - by apply IH.
  - eexists. eapply M_opaque; [by left|exact Hd].
Qed.

Lemma result_iff P Γ r k : named Γ →
  result P Γ (var r) k ↔ (is_void r = true ∧ k = AVoid) ∨ (is_void r = false ∧ means P Γ true (marshaler r) (csharp_ty r) k).
Proof.
  intros HΓ. split.
  - intros H. remember (var r) as v eqn:E. destruct H as [|v k Hk].
    + left. unfold var in E. injection E as _ E. symmetry in E. by apply csharp_void in E.
    + subst v. cbn in Hk. destruct (is_void r) eqn:E; [|by right]. apply void_csharp in E as (E & _). rewrite E in Hk. by apply inv_void in Hk.
  - intros [[H ->]|[H Hk]]; [|by constructor]. apply void_csharp in H as (E1 & E2 & _). unfold var. rewrite E1, E2. constructor.
Qed.
Lemma Forall2_map_self {A B} (R : A → B → Prop) (f : A → B) (l : list A) : Forall2 R l (map f l) ↔ Forall (λ x, R x (f x)) l.
Proof.
  induction l as [|x l IH]; cbn [map]; [split; constructor|]. rewrite Forall2_cons, Forall_cons. by rewrite IH.
Qed.
Lemma winapi_cdecl P : winapi P = Cdecl ↔ p_stdcall P = false.
Proof. unfold winapi. by destruct (p_stdcall P). Qed.
Lemma Forall_iff' {A} (Q R : A → Prop) l : Forall (λ x, Q x ↔ R x) l → Forall Q l ↔ Forall R l.
Proof. induction 1 as [|x l H1 H2 IH]; [split; constructor|]. rewrite !Forall_cons. by rewrite IH, H1. Qed.

Lemma pass_iff P Γ : sane P → named Γ → ∀ t, value false t → defined P Γ t →
  ∀ b : bool, means P Γ true (if b then marshaler t else None) (csharp_ty t) (abi_of P t) ↔ passing_ok P b t.
Proof.
  intros HP HΓ. induction t as [i|d| | | | |c t IH|t n IH|r args IHr IHa|n gs fs _ IHf|n i|n t IH|n] using cty_ind';
    intros Hv Hd b; cbn [csharp_ty passing_ok marshaler].
  - split; [done|]. intros _. apply M_scalar; [by destruct b; right|apply scalar_int].
  - split; [done|]. intros _. apply M_scalar; [by destruct b; right|by destruct d].
  - done.
  - destruct b.
    + split; [done|]. intros _. apply M_bool1. by right.
    + split; [|done]. intros H. apply (inv_bool _ _ _ _ _ HΓ) in H as [(_ & _ & ?)|[[?|?] _]]; done.
  - destruct b.
    + split; [|done]. intros H. eapply inv_scalar in H as [[?|?] _]; [done..|exact HΓ|reflexivity].
    + split; [done|]. intros _. apply M_scalar; [by right|done].
  - split; [done|]. intros _. apply M_scalar; [by destruct b; right|done].
  - cbn [abi_of]. assert (Ha : (if b then None else None) = @None string) by (by destruct b). rewrite Ha. destruct (is_void t) eqn:E.
    + apply void_csharp in E as (E & _ & Hm & _). rewrite E. split; [done|]. intros _. apply (M_void P Γ true None). by right.
    + split.
      * intros H. apply inv_ptr in H as (_ & _ & [H|[k H]]); [apply csharp_void in H; congruence|].
        by apply (mem_fwd P Γ HP HΓ t Hv E Hd) in H as [? _].
      * intros H. destruct (mem_bwd P Γ HP HΓ t Hv E Hd H None) as [k Hk]. eapply M_ptr; [by right|exact Hk].
  - destruct Hv as [Hn0 Hv]. destruct Hd as [Hf Hd]. assert (Ha : (if b then None else None) = @None string) by (by destruct b). rewrite Ha.
    rewrite <-sequential_array by done. specialize (IH Hv Hd true). cbn in IH. split.
    + intros H. apply (inv_named _ _ _ _ _ _ _ (us_suffixed _) Hf) in H as (_ & ks & Hm & E). apply sequential_inj in E. subst ks.
      destruct (is_fixed t) eqn:E.
      * apply (fields_fixed _ _ _ _ _ _ E) in Hm as [Hw _]. split; [done|]. by apply fixed_cases.
      * apply (fields_array _ _ _ _ _ _ E) in Hm as [_ Hm]. split. { intros [->| ->]; vm_compute in E; discriminate E. }
        apply IH. destruct (N.to_nat n) eqn:EN; [lia|]. by apply Forall_cons in Hm as [? _].
    + intros [Hw Hm]. eapply M_struct; [by right|exact Hf|]. destruct (is_fixed t) eqn:E; [by apply (fields_fixed _ _ _ _ _ _ E)|].
      apply (fields_array _ _ _ _ _ _ E). split; [apply replicate_length|]. apply Forall_replicate. by apply IH.
  - destruct Hv as [Hvr Hva]. destruct Hd as (Hf & Hdr & Hda). rewrite Forall'_spec in *. cbn [abi_of].
    assert (HR : result P Γ (var r) (abi_of P r) ↔ is_void r = true ∨ passing_ok P true r).
    { rewrite (result_iff _ _ _ _ HΓ). destruct Hvr as [Hvr|Hvr].
      - pose proof (void_csharp _ Hvr) as (_ & _ & _ & E). rewrite (E P), Hvr. naive_solver.
      - pose proof (IHr Hvr Hdr true) as I. cbn in I. rewrite I, (value_not_void _ Hvr). naive_solver. }
    assert (HA : params P Γ (map var args) (map (abi_of P) args) ↔ Forall (passing_ok P true) args).
    { rewrite params_vars, Forall2_map_self. apply Forall_iff'. rewrite Forall_forall in IHa, Hva, Hda |- *. intros t Ht.
      apply (IHa t Ht (Hva t Ht) (Hda t Ht) true). }
    rewrite <-HA, <-HR. split.
    + intros H. apply (inv_named _ _ _ _ _ _ _ (us_fn _ _) Hf) in H as (_ & _ & kr & ks & H1 & H2 & H3).
      injection H3 as E1 E2 E3. subst kr ks. split; [|done]. by apply winapi_cdecl.
    + intros (H1 & H2 & H3). apply winapi_cdecl in H1. rewrite <-H1. eapply M_delegate; [|exact Hf|exact H2|exact H3].
      destruct b; [by right|by left].
  - assert (Ha : (if b then None else None) = @None string) by (by destruct b). rewrite Ha.
    cbn [value] in Hv. rewrite Forall'_spec in Hv. destruct Hd as [Hf Hd]. rewrite Forall'_spec in Hd |- *.
    rewrite <-sequential_struct by done.
    assert (HI : fields P Γ true (map (λ f : string * cty, FVar (var f.2) f.1) (nz fs)) (map (λ f, abi_of P f.2) (nz fs)) ↔
      Forall (λ f, zst f.2 = false → passing_ok P true f.2) fs).
    { rewrite fields_vars, Forall2_map_self, <-Forall_nz. apply Forall_iff'. rewrite Forall_forall in IHf, Hv, Hd |- *.
      intros f Hin. specialize (IHf f Hin). specialize (Hv f Hin). specialize (Hd f Hin). cbn in Hv, Hd.
      destruct (zst f.2); [done|]. specialize (IHf Hv (Hd eq_refl) true). cbn in IHf. by rewrite IHf. }
    rewrite <-HI. split.
    + intros H. apply (inv_named _ _ _ _ _ _ _ (us_suffixed _) Hf) in H as (_ & ks & Hm & E). apply sequential_inj in E. by subst ks.
    + intros H. eapply M_struct; [by right|exact Hf|exact H].
  - assert (Ha : (if b then None else None) = @None string) by (by destruct b). rewrite Ha. split.
    + intros H. apply (inv_named _ _ _ _ _ _ _ (us_suffixed _) Hd) in H as (_ & H).
      destruct i as [i|]; [|done]. destruct i; vm_compute in H; try discriminate; done.
    + intros [H1 H2]. eapply M_enum; [by right|exact Hd|]. cbn [abi_of]. destruct i as [i|]; [|done]. destruct i; done.
  - cbn [abi_of]. assert (Ha : (if b then None else None) = @None string) by (by destruct b). rewrite Ha. apply (IH Hv Hd false).
  - done.
Qed.

(** ** Blittable *)
Lemma blit_id Γ x : blittable Γ [TkId x] → (∃ P k, scalar P x = Some k) ∨
  ∃ d, find Γ x = Some d ∧ match d with SStruct _ _ fs => blittables Γ fs | SDelegate _ _ _ | SFn _ _ _ => False | _ => True end.
Proof.
  intros H. remember [TkId x] as us eqn:E. destruct H; simplify_eq.
  - left. eauto.
  - symmetry in E. by apply snoc_star in E.
  - right. eexists. split; [eassumption|done].
  - right. eexists. split; [eassumption|done].
  - right. eexists. split; [eassumption|done].
Qed.
Lemma blit_vars Γ fs : blittables Γ (map (λ f : string * cty, FVar (var f.2) f.1) fs) ↔ Forall (λ f, blittable Γ (csharp_ty f.2)) fs.
Proof.
  induction fs as [|f fs IH]; cbn [map]; [split; constructor|]. rewrite Forall_cons, <-IH. split; [by inversion 1|]. intros [H1 H2]. by constructor.
Qed.
Lemma blit_arr Γ t n : n ≠ 0 → is_fixed t = false → blittables Γ (arr_fields t n) ↔ blittable Γ (csharp_ty t).
Proof.
  unfold arr_fields. intros Hn ->. destruct n as [|n]; [done|]. assert (H : ∀ n o, blittable Γ (csharp_ty t) → blittables Γ (map (λ i, FVar (var t) ("_" +:+ pretty i)) (seq o n))).
  { intros m. induction m as [|m IH]; intros o Ho; cbn [seq map]; constructor; auto. }
  split; [|apply H]. cbn [seq map]. by inversion 1.
Qed.
Lemma blit_named Γ x d : has_underscore x = true → find Γ x = Some d → blittable Γ [TkId x] →
  match d with SStruct _ _ fs => blittables Γ fs | SDelegate _ _ _ | SFn _ _ _ => False | _ => True end.
Proof.
  intros Hu Hd [(P & k & H)|(d' & H & H')]%blit_id; [by rewrite (scalar_us P x Hu) in H|]. rewrite Hd in H. by simplify_eq.
Qed.
Lemma blit_iff P Γ : named Γ → ∀ t, value false t → defined P Γ t → blittable Γ (csharp_ty t) ↔ plain t.
Proof.
  intros HΓ. induction t as [i|d| | | | |c t IH|t n IH|r args IHr IHa|n gs fs _ IHf|n i|n t IH|n] using cty_ind';
    intros Hv Hd; cbn [csharp_ty plain].
  - split; [done|]. intros _. apply (B_scalar _ P _ _ (scalar_int P i)).
  - split; [done|]. intros _. apply (B_scalar _ P _ (AFloat (if d then 8 else 4))). by destruct d.
  - done.
  - split; [|done]. intros [(Q & k & H)|(d & H & _)]%blit_id; [done|]. by apply HΓ in H.
  - split; [done|]. intros _. by apply (B_scalar _ P _ (AInt true 4)).
  - split; [done|]. intros _. by apply (B_scalar _ P _ (AInt false 1)).
  - split; [done|]. intros _. apply B_ptr.
  - destruct Hv as [Hn0 Hv]. destruct Hd as [Hf Hd]. rewrite <-(IH Hv Hd).
    assert (HB : blittables Γ (arr_fields t (N.to_nat n)) ↔ blittable Γ (csharp_ty t)).
    { destruct (is_fixed t) eqn:E; [|apply blit_arr; [lia|done]]. unfold arr_fields. rewrite E. split; [|repeat constructor].
      intros _. destruct (fixed_cases t E P true) as (_ & _ & _ & x & -> & Hx). by eapply B_scalar. }
    rewrite <-HB. split.
    + intros H. by apply (blit_named _ _ _ (us_suffixed _) Hf) in H.
    + intros H. by eapply B_struct.
  - destruct Hd as (Hf & _). split; [|done]. intros H. by apply (blit_named _ _ _ (us_fn _ _) Hf) in H.
  - cbn [value] in Hv. rewrite Forall'_spec in Hv. destruct Hd as [Hf Hd]. rewrite Forall'_spec in Hd |- *.
    assert (HB : blittables Γ (map (λ f : string * cty, FVar (var f.2) f.1) (nz fs)) ↔ Forall (λ f, zst f.2 = false → plain f.2) fs).
    { rewrite blit_vars, <-Forall_nz. apply Forall_iff'. rewrite Forall_forall in IHf, Hv, Hd |- *.
      intros f Hin. specialize (IHf f Hin). specialize (Hv f Hin). specialize (Hd f Hin). cbn in Hv, Hd.
      destruct (zst f.2); [done|]. by rewrite (IHf Hv (Hd eq_refl)). }
    rewrite <-HB. split.
    + intros H. by apply (blit_named _ _ _ (us_suffixed _) Hf) in H.
    + intros H. by eapply B_struct.
  - split; [done|]. intros _. by eapply B_enum.
  - by apply IH.
  - done.
Qed.
Lemma return_iff P Γ t : named Γ → is_void t = true ∨ value false t → defined P Γ t →
  returnable Γ (csharp_ty t) ↔ (compound t = true → plain t).
Proof.
  intros HΓ [Hv|Hv] Hd.
  { assert (Hc : compound t = false) by (clear -Hv; induction t; cbn in *; auto; done). rewrite Hc. split; [done|]. intros _ x size fs E Hf.
    apply void_csharp in Hv as (Hv & _). rewrite Hv in E. simplify_eq. by apply HΓ in Hf. }
  destruct (compound t) eqn:Hc.
  - rewrite <-(blit_iff P Γ HΓ t Hv Hd). split; [|by intros H x size fs _ _; apply H].
    intros H _. assert (∃ x size fs, csharp_ty t = [TkId x] ∧ find Γ x = Some (SStruct x size fs)) as (x & size & fs & H1 & H2); [|by eapply H].
    clear H Hv. induction t as [i|d| | | | |c t IH|t n IH|r args IHr IHa|n gs fs _ IHf|n i|n t IH|n] using cty_ind'; try done.
    + destruct Hd as [Hf _]. eauto.
    + destruct Hd as [Hf _]. eauto.
    + by apply IH.
  - split; [done|]. intros _ x size fs E Hf. exfalso. revert Hv Hd Hc E.
    induction t as [i|d| | | | |c t IH|t n IH|r args IHr IHa|n gs fs' _ IHf|n i|n t IH|n] using cty_ind'; intros Hv Hd Hc E; cbn [csharp_ty] in E; try done.
    + injection E as <-. apply HΓ in Hf. by destruct i.
    + injection E as <-. apply HΓ in Hf. by destruct d.
    + injection E as <-. by apply HΓ in Hf.
    + injection E as <-. by apply HΓ in Hf.
    + injection E as <-. by apply HΓ in Hf.
    + symmetry in E. by apply snoc_star in E.
    + injection E as <-. destruct Hd as [Hd _]. discriminate (eq_trans (eq_sym Hf) Hd).
    + injection E as <-. discriminate (eq_trans (eq_sym Hf) Hd).
    + by apply IH.
Qed.

(** ** A function *)
Lemma fn_iff P Γ n args r : sane P → named Γ →
  (∀ d, SFn n d.1 d.2 ∈ Γ ↔ d = (var r, map (λ a : string * cty, var a.2) args)) →
  is_void r = true ∨ value false r → Forall (λ a, value false a.2) args →
  defined P Γ r → Forall (λ a, defined P Γ a.2) args →
  fn_means P Γ n (AFun Cdecl (abi_of P r) (map (λ a, abi_of P a.2) args)) ↔
  p_stdcall P = false ∧ Forall (λ a, passing_ok P true a.2) args ∧ return_ok P r.
Proof.
  intros HP HΓ Hfn Hvr Hva Hdr Hda.
  assert (HR : result P Γ (var r) (abi_of P r) ↔ is_void r = true ∨ passing_ok P true r).
  { rewrite (result_iff _ _ _ _ HΓ). destruct Hvr as [Hvr|Hvr].
    - pose proof (void_csharp _ Hvr) as (_ & _ & _ & E). rewrite (E P), Hvr. naive_solver.
    - pose proof (pass_iff P Γ HP HΓ r Hvr Hdr true) as I. cbn in I. rewrite I, (value_not_void _ Hvr). naive_solver. }
  assert (HA : params P Γ (map (λ a : string * cty, var a.2) args) (map (λ a, abi_of P a.2) args) ↔ Forall (λ a, passing_ok P true a.2) args).
  { assert (EA : map (λ a : string * cty, var a.2) args = map var (map snd args)) by (by rewrite map_map).
    assert (EB : map (λ a : string * cty, abi_of P a.2) args = map (abi_of P) (map snd args)) by (by rewrite map_map).
    rewrite EA, EB. rewrite params_vars, Forall2_map_self.
    change (Forall (λ x, means P Γ true (marshaler x) (csharp_ty x) (abi_of P x)) (snd <$> args) ↔ Forall (λ a, passing_ok P true a.2) args).
    rewrite Forall_fmap. apply Forall_iff'. rewrite Forall_forall in Hva, Hda |- *. intros a Ha.
    apply (pass_iff P Γ HP HΓ a.2 (Hva a Ha) (Hda a Ha) true). }
  assert (HC : return_ok P r ↔ result P Γ (var r) (abi_of P r) ∧ returnable Γ (csharp_ty r)).
  { rewrite HR, (return_iff P Γ r HΓ Hvr Hdr). unfold return_ok. split.
    - intros [H|[H1 H2]]; [|auto]. split; [auto|]. intros Hc. exfalso. clear -H Hc. induction r; cbn in *; auto; done.
    - intros [[H|H] H']; auto. }
  rewrite HC, <-HA, <-winapi_cdecl. split.
  - intros (r' & args' & kr & ks & Hin & H1 & H2 & H3 & H4). injection H4 as E1 E2 E3. subst kr ks.
    apply (Hfn (r', args')) in Hin. simplify_eq. cbn in H2. done.
  - intros (H1 & H2 & H3 & H4). exists (var r), (map (λ a : string * cty, var a.2) args), (abi_of P r), (map (λ a, abi_of P a.2) args). split; [by apply (Hfn (var r, map (λ a : string * cty, var a.2) args))|].
    split; [exact H3|]. split; [exact H4|]. split; [exact H2|]. by rewrite H1.
Qed.

(** ** Whole headers *)
Definition no_ints (s s' : st) : Prop := ∀ d, d ∈ out s' → d ∈ out s ∨ (d ≠ DInts ∧ d ≠ DBool).
Lemma ni_refl s : no_ints s s.
Proof. intros d Hd. by left. Qed.
Lemma ni_trans s1 s2 s3 : no_ints s1 s2 → no_ints s2 s3 → no_ints s1 s3.
Proof. intros H1 H2 d Hd. destruct (H2 d Hd) as [H|H]; [by apply H1|by right]. Qed.
Lemma ni_emit d s s' : d ≠ DInts → d ≠ DBool → emit d s = Ok s' → no_ints s s'.
Proof. intros H1 H2 [= <-] e He. cbn in He. apply elem_of_app in He as [He| ->%elem_of_list_singleton]; [by left|by right]. Qed.
Lemma ni_once k body s s' : (∀ s1 s2, body s1 = Ok s2 → no_ints s1 s2) → define_once k body s = Ok s' → no_ints s s'.
Proof. unfold define_once. intros HB H. case_bool_decide; [simplify_eq; apply ni_refl|]. by apply HB in H. Qed.
Lemma ni_all ts : Forall (λ t, ∀ s s', define LCSharp t s = Ok s' → no_ints s s') ts →
  ∀ s s', define_all LCSharp ts s = Ok s' → no_ints s s'.
Proof.
  induction 1 as [|t ts Ht H IH]; intros s s' E; cbn in E; [simplify_eq; apply ni_refl|].
  apply bind_ok in E as (s1 & E1 & E). eapply ni_trans; [by eapply Ht|by eapply IH].
Qed.
Lemma define_ni t : ∀ s s', define LCSharp t s = Ok s' → no_ints s s'.
Proof.
  induction t as [i|d| | | | |c t IH|t n IH|r args IHr IHa|n gs fs _ IHf|n i|n t IH|n] using cty_ind'; intros s s' H;
    try (cbn in H; simplify_eq; apply ni_refl).
  - by apply IH in H.
  - cbn [define] in H. apply bind_ok in H as (s1 & H1 & H). eapply ni_trans; [by eapply IH|]. eapply ni_once; [|exact H].
    intros s2 s3 E. by eapply ni_emit in E.
  - rewrite define_fn in H. apply bind_ok in H as (s1 & H1 & H). apply bind_ok in H as (s2 & H2 & H).
    eapply ni_trans; [by eapply IHr|]. eapply ni_trans; [by eapply ni_all|]. eapply ni_once; [|exact H].
    intros s3 s4 E. by eapply ni_emit in E.
  - rewrite define_struct in H. eapply ni_once; [|exact H]. intros s1 s3 E. apply bind_ok in E as (s2 & H1 & H2).
    destruct (zst _); [done|]. eapply ni_trans; [eapply ni_all; [|exact H1]; by apply Forall_map|]. by eapply ni_emit in H2.
  - cbn [define] in H. eapply ni_once; [|exact H]. intros s1 s3 E. apply bind_ok in E as (s2 & H1 & H2).
    cbn in H1. simplify_eq. by eapply ni_emit in H2.
  - cbn [define] in H. eapply ni_once; [|exact H]. intros s1 s3 E. apply bind_ok in E as (s2 & H1 & H2).
    simplify_eq. by eapply IH.
  - cbn [define] in H. eapply ni_once; [|exact H]. intros s1 s3 E. by eapply ni_emit in E.
Qed.
Lemma gen_def_ni i s s' : gen_def LCSharp i s = Ok s' → no_ints s s'.
Proof.
  destruct i as [n args r|n t u|n t]; cbn [gen_def]; intros H.
  - case_bool_decide; [done|]. apply bind_ok in H as (s1 & H1 & H). apply bind_ok in H as (s2 & H2 & H).
    apply ni_all in H1; [|apply Forall_forall; intros t _; apply define_ni]. apply define_ni in H2. apply ni_emit in H; [|done..].
    eapply ni_trans; [|exact H]. eapply ni_trans; [|exact H2]. exact H1.
  - apply bind_ok in H as (s1 & H1 & H). apply define_ni in H1. eapply ni_trans; [exact H1|]. destruct u; [simplify_eq; apply ni_refl|].
    by eapply ni_emit in H.
  - by apply define_ni in H.
Qed.
Lemma write_body_ni stable is s d : write_body LCSharp stable is = Ok s → d ∈ out s → d ≠ DInts ∧ d ≠ DBool.
Proof.
  unfold write_body. generalize (if stable then btree is else rev is) as js. intros js H Hd.
  assert (HG : ∀ s0, gen_all LCSharp js s0 = Ok s → no_ints s0 s).
  { clear. induction js as [|i js IH]; intros s0 H; cbn in H; [simplify_eq; apply ni_refl|].
    apply bind_ok in H as (s1 & H1 & H). eapply ni_trans; [by eapply gen_def_ni|by eapply IH]. }
  destruct (HG _ H d Hd) as [Hn|?]; [by apply elem_of_nil in Hn|done].
Qed.

(** The declaration of a type. *)
Definition ty_decl (t : cty) : option decl :=
  match t with
  | TFn r args => Some (DDelegate (short t) r args)
  | _ => own_decl (IType "" t)
  end.
Lemma type_decl_from is d k : d ≠ DInts → d ≠ DBool → from_items is d → k ∈ type_names d →
  ∃ t, occurs t is ∧ ty_decl t = Some d ∧ type_key LCSharp t = Some k ∧ has_underscore k = true.
Proof.
  intros H1 H2 [->|[->|[(i & Hi & Hd)|[(t & Ht & Hd)|(r & args & Ht & ->)]]]] Hk; try done.
  - destruct i as [n args r|n t u|n t]; cbn [own_decl] in Hd; try (injection Hd as <-; by apply elem_of_nil in Hk).
    exists t. split; [exists (IType n t), t; split; [done|]; split; [left|constructor]|].
    destruct t; try done; injection Hd as <-; apply elem_of_list_singleton in Hk as ->; (split; [done|]; split; [done|apply us_suffixed]).
  - exists t. split; [done|].
    destruct t; try done; injection Hd as <-; apply elem_of_list_singleton in Hk as ->; (split; [done|]; split; [done|apply us_suffixed]).
  - exists (TFn r args). split; [done|]. apply elem_of_list_singleton in Hk as ->. split; [done|]. split; [done|apply us_fn].
Qed.
Lemma cs_decl_type P d c : c ∈ cs_decl P d → is_type_decl c = true → name_of c ∈ type_names d ∧ cs_decl P d = [c].
Proof.
  destruct d; cbn; intros Hc Ht; try (by apply elem_of_nil in Hc); apply elem_of_list_singleton in Hc as ->; try done;
    (split; [left|done]).
Qed.
Lemma find_iff Γ x c : is_type_decl c = true → name_of c = x → c ∈ Γ →
  (∀ c', c' ∈ Γ → is_type_decl c' = true → name_of c' = x → c' = c) → find Γ x = Some c.
Proof.
  intros Ht Hn. induction Γ as [|e Γ IH]; intros Hc Hu; [by apply elem_of_nil in Hc|]. cbn.
  destruct (bool_decide _ && _) eqn:E.
  - apply andb_true_iff in E as [E1%bool_decide_eq_true E2]. f_equal. apply Hu; [left|done..].
  - apply IH; [|intros c' Hc'; apply Hu; by right]. apply elem_of_cons in Hc as [<-|Hc]; [|done].
    rewrite Ht, andb_true_r, bool_decide_false_iff in E || (rewrite Ht, andb_true_r in E; apply bool_decide_eq_false in E). done.
Qed.
Lemma find_in Γ x c : find Γ x = Some c → c ∈ Γ.
Proof. induction Γ as [|e Γ IH]; cbn; [done|]. destruct (_ && _); [intros [= ->]; left|right; by apply IH]. Qed.
Lemma known_us x : x ∈ known LCSharp → has_underscore x = false.
Proof. intros H. repeat (apply elem_of_cons in H as [->|H]; [done|]). by apply elem_of_nil in H. Qed.

Lemma cs_elem P ds c : c ∈ cs_file P ds ↔ ∃ d, d ∈ ds ∧ c ∈ cs_decl P d.
Proof. unfold cs_file. rewrite elem_of_list_In, in_flat_map. by setoid_rewrite elem_of_list_In. Qed.
Lemma declares_once ds d d' n : NoDup (flat_map declares ds) → d ∈ ds → d' ∈ ds → n ∈ declares d → n ∈ declares d' → d = d'.
Proof.
  assert (HF : ∀ (ds : list decl) d, d ∈ ds → n ∈ declares d → n ∈ flat_map declares ds).
  { intros es e He Hn. apply elem_of_list_In, in_flat_map. exists e. by rewrite <-!elem_of_list_In. }
  induction ds as [|e ds IH]; intros Hnd Hd Hd' Hn Hn'; [by apply elem_of_nil in Hd|].
  cbn in Hnd. apply NoDup_app in Hnd as (_ & Hx & Hnd).
  apply elem_of_cons in Hd as [->|Hd]; apply elem_of_cons in Hd' as [->|Hd']; [done|..|by apply IH].
  - destruct (Hx n Hn). by eapply HF.
  - destruct (Hx n Hn'). by eapply HF.
Qed.

Lemma whole P stable is s : no_clash LCSharp is → write_body LCSharp stable is = Ok s →
  named (cs_file P (out s)) ∧
  ∀ d t, d ∈ out s → occurs t is → (∀ m, m ∈ mentioned LCSharp t → m ∈ mentions LCSharp d) → defined P (cs_file P (out s)) t.
Proof.
  intros Hno HW. set (Γ := cs_file P (out s)).
  assert (HT : ∀ d k, d ∈ out s → k ∈ type_names d →
    ∃ t, occurs t is ∧ ty_decl t = Some d ∧ type_key LCSharp t = Some k ∧ has_underscore k = true).
  { intros d k Hd Hk. destruct (write_body_ni _ _ _ _ HW Hd). by eapply type_decl_from; [..|eapply write_body_from|]. }
  assert (HF : ∀ t d k, occurs t is → ty_decl t = Some d → type_key LCSharp t = Some k → ∀ e, e ∈ out s → k ∈ type_names e → e = d).
  { intros t d k Ht Hd Hk e He Hke. destruct (HT e k He Hke) as (u & Hu & Hue & Huk & _).
    assert (t = u) as ->; [|congruence]. by eapply (proj1 Hno). }
  assert (HR : ∀ t k c d, occurs t is → type_key LCSharp t = Some k → ty_decl t = Some d →
    cs_decl P d = [c] → is_type_decl c = true → name_of c = k → (∃ e, e ∈ out s ∧ k ∈ type_names e) →
    d ∈ out s ∧ find Γ k = Some c).
  { intros t k c d Ht Hk Hd Hc Hty Hn (e & He & Hke). pose proof (HF t d k Ht Hd Hk e He Hke) as ->. split; [done|].
    apply find_iff; [done|done|apply cs_elem; exists d; split; [done|]; rewrite Hc; left|].
    intros c' Hc' Hty' Hn'. apply cs_elem in Hc' as (e & He' & Hce). destruct (cs_decl_type _ _ _ Hce Hty') as [Hnm Hcc].
    rewrite Hn' in Hnm. pose proof (HF t d k Ht Hd Hk e He' Hnm) as ->. congruence. }
  split.
  - intros x c Hc. pose proof (find_name _ _ _ Hc) as [Hn Hty]. apply find_in, cs_elem in Hc as (d & Hd & Hcd).
    destruct (cs_decl_type _ _ _ Hcd Hty) as [Hk _]. rewrite Hn in Hk. by destruct (HT d x Hd Hk) as (_ & _ & _ & _ & ?).
  - assert (HO : in_order (known LCSharp) LCSharp (out s)).
    { eapply write_body_good in HW as [HO _]; [exact HO|done|done|done|by left]. }
    assert (HM : ∀ d m, d ∈ out s → m ∈ mentions LCSharp d → has_underscore m = true → ∃ e, e ∈ out s ∧ m ∈ type_names e).
    { intros d m Hd Hm Hu. apply elem_of_list_lookup in Hd as [i Hi]. destruct (HO i d m Hi Hm) as [Hk|(j & e & _ & He & Hme)].
      - apply known_us in Hk. congruence.
      - exists e. split; [by eapply elem_of_list_lookup_2|done]. }
    assert (HI : ∀ t u, within u t → occurs t is → occurs u is).
    { intros t u Hu (i & v & Hi & Hv & Hw). exists i, v. split; [done|]. split; [done|]. by eapply within_trans. }
    intros d t. revert d. induction t as [i|dd| | | | |c t IH|t n IH|r args IHr IHa|n gs fs _ IHf|n i|n t IH|n] using cty_ind';
      intros d Hd Ht Hm; cbn [defined]; try done.
    + apply (IH d Hd); [eapply HI; [|exact Ht]; do 2 constructor|]. intros m Hmm. apply Hm. unfold mentioned. cbn.
      change (m ∈ idents (csharp_ty t)) in Hmm. rewrite idents_app, elem_of_app. by left.
    + destruct (HR (TArr t n) _ _ _ Ht eq_refl eq_refl eq_refl eq_refl eq_refl) as [Hin Hf].
      { eapply HM; [exact Hd| |apply us_suffixed]. apply Hm. left. }
      split; [exact Hf|]. apply (IH _ Hin); [eapply HI; [|exact Ht]; do 2 constructor|]. done.
    + destruct (HR (TFn r args) _ _ _ Ht eq_refl eq_refl eq_refl eq_refl eq_refl) as [Hin Hf].
      { eapply HM; [exact Hd| |apply us_fn]. apply Hm. left. }
      split; [exact Hf|]. split.
      * apply (IHr _ Hin); [eapply HI; [|exact Ht]; apply W_ret; constructor|]. intros m Hmm. cbn. apply elem_of_app. by left.
      * apply Forall'_spec. rewrite Forall_forall in IHa |- *. intros a Ha. apply (IHa a Ha _ Hin); [eapply HI; [|exact Ht]; eapply W_arg; [exact Ha|constructor]|].
        intros m Hmm. cbn. apply elem_of_app. right. apply elem_of_list_In, in_flat_map. exists a. by rewrite <-!elem_of_list_In.
    + destruct (HR (TStruct n gs fs) _ _ _ Ht eq_refl eq_refl eq_refl eq_refl eq_refl) as [Hin Hf].
      { eapply HM; [exact Hd| |apply us_suffixed]. apply Hm. left. }
      split; [exact Hf|]. apply Forall'_spec. rewrite Forall_forall in IHf |- *. intros [x a] Ha Hz.
      apply (IHf (x, a) Ha _ Hin); [eapply HI; [|exact Ht]; eapply W_field; [exact Ha|constructor]|].
      intros m Hmm. cbn [mentions]. apply elem_of_list_In, in_flat_map. exists (x, a). rewrite <-!elem_of_list_In. split; [|done].
      by apply elem_of_list_filter.
    + destruct (HR (TEnum n i) _ _ _ Ht eq_refl eq_refl eq_refl eq_refl eq_refl) as [Hin Hf]; [|exact Hf].
      eapply HM; [exact Hd| |apply us_suffixed]. apply Hm. left.
    + apply (IH d Hd); [eapply HI; [|exact Ht]; do 2 constructor|]. exact Hm.
    + destruct (HR (TOpaque n) _ _ _ Ht eq_refl eq_refl eq_refl eq_refl eq_refl) as [Hin Hf]; [|exact Hf].
      eapply HM; [exact Hd| |apply us_suffixed]. apply Hm. left.
Qed.

Lemma header_fn P stable is s n args r : no_clash LCSharp is → write_body LCSharp stable is = Ok s → DFn n args r ∈ out s →
  let Γ := cs_file P (out s) in
  named Γ ∧ (∀ d, SFn n d.1 d.2 ∈ Γ ↔ d = (var r, map (λ a : string * cty, var a.2) args)) ∧
  defined P Γ r ∧ Forall (λ a, defined P Γ a.2) args.
Proof.
  intros Hno HW Hd Γ. destruct (whole P stable is s Hno HW) as [HΓ HD]. split; [exact HΓ|]. split.
  - intros [rr aa]. cbn [fst snd]. unfold Γ. rewrite cs_elem. split.
    + intros (d & Hd' & Hc). assert (HE : ∃ args' r', d = DFn n args' r' ∧ rr = var r' ∧ aa = map (λ a : string * cty, var a.2) args').
      { destruct d; cbn in Hc; try (by apply elem_of_nil in Hc); apply elem_of_list_singleton in Hc; try done. simplify_eq. eauto. }
      destruct HE as (args' & r' & -> & -> & ->). assert (DFn n args' r' = DFn n args r) as [= -> ->]; [|done].
      eapply declares_once; [by eapply write_body_once|done|done|left|left].
    + intros [= -> ->]. exists (DFn n args r). split; [done|]. left.
  - assert (HI : IFn n args r ∈ is).
    { pose proof (write_body_from _ _ _ _ _ HW Hd) as [?|[?|[(i & Hi & E)|[(t & Ht & E)|(? & ? & _ & E)]]]]; try done; try (by destruct t).
      destruct i as [| |? []]; cbn in E; simplify_eq. done. }
    split.
    + apply (HD _ _ Hd); [exists (IFn n args r), r; split; [done|]; split; [apply elem_of_app; right; left|constructor]|].
      intros m Hm. cbn. apply elem_of_app. by right.
    + apply Forall_forall. intros a Ha.
      apply (HD _ _ Hd); [exists (IFn n args r), a.2; split; [done|]; split; [apply elem_of_app; left; apply elem_of_list_fmap; eauto|constructor]|].
      intros m Hm. cbn. apply elem_of_app. left. apply elem_of_list_In, in_flat_map. exists a. by rewrite <-!elem_of_list_In.
Qed.

(** ** At most one meaning *)
Scheme means_mut := Induction for means Sort Prop
with fields_mut := Induction for fields Sort Prop
with params_mut := Induction for params Sort Prop
with result_mut := Induction for result Sort Prop.
Combined Scheme cs_mut from means_mut, fields_mut, params_mut, result_mut.

Lemma meaning_unique P Γ : named Γ →
  (∀ m a ts k, means P Γ m a ts k → ∀ k', means P Γ m a ts k' → k' = k) ∧
  (∀ m fs ks, fields P Γ m fs ks → ∀ ks', fields P Γ m fs ks' → ks' = ks) ∧
  (∀ vs ks, params P Γ vs ks → ∀ ks', params P Γ vs ks' → ks' = ks) ∧
  (∀ v k, result P Γ v k → ∀ k', result P Γ v k' → k' = k).
Proof.
  intros HΓ. apply cs_mut.
  - intros m a x k _ Hx k' H. by apply (inv_scalar _ _ _ _ _ _ _ HΓ Hx) in H as [_ ->].
  - intros k' H. by apply (inv_bool _ _ _ _ _ HΓ) in H as [(_ & _ & ->)|[[?|?] _]].
  - intros m a Ha k' H. apply (inv_bool _ _ _ _ _ HΓ) in H as [(-> & -> & _)|[_ ->]]; [|done]. by destruct Ha.
  - intros m a ts k _ _ _ k' H. by apply inv_ptr in H as (_ & -> & _).
  - intros m a _ k' H. by apply (inv_ptr _ _ _ _ [TkId "void"]) in H as (_ & -> & _).
  - intros m a x b k _ Hf Hb k' H. apply (inv_named _ _ _ _ _ _ _ (HΓ _ _ Hf) Hf) in H as [_ H]. congruence.
  - intros m a x _ Hf k' H. by apply (inv_named _ _ _ _ _ _ _ (HΓ _ _ Hf) Hf) in H as [_ ->].
  - intros m a x size fs ks _ Hf _ IH k' H. apply (inv_named _ _ _ _ _ _ _ (HΓ _ _ Hf) Hf) in H as (_ & ks' & H & ->).
    by rewrite (IH _ H).
  - intros a x r args k ks _ Hf _ IHr _ IHa k' H.
    apply (inv_named _ _ _ _ _ _ _ (HΓ _ _ Hf) Hf) in H as (_ & _ & kr & ks' & H1 & H2 & ->). by rewrite (IHr _ H1), (IHa _ H2).
  - intros m ks' H. by inversion H.
  - intros m v n fs k ks _ IH1 _ IH2 ks' H. inversion H; subst. f_equal; auto.
  - intros m ts n len fs k ks Hb _ IH ks' H. inversion H as [| |? ? ? ? ? k2 ks2 Hb2 Hf2]; subst. rewrite Hb in Hb2. simplify_eq. f_equal. auto.
  - intros ks' H. by inversion H.
  - intros v vs k ks _ IH1 _ IH2 ks' H. inversion H; subst. f_equal; auto.
  - intros k' H. remember (Var None [TkId "void"]) as v eqn:E. destruct H as [|v k' H]; [done|]. subst. by apply inv_void in H.
  - intros v k Hk IH k' H. destruct H as [|v k' H]; [by apply inv_void in Hk|auto].
Qed.
Lemma fn_unique P stable is s n args r k k' : no_clash LCSharp is → write_body LCSharp stable is = Ok s → DFn n args r ∈ out s →
  fn_means P (cs_file P (out s)) n k → fn_means P (cs_file P (out s)) n k' → k' = k.
Proof.
  intros Hno HW Hd. destruct (header_fn P stable is s n args r Hno HW Hd) as (HΓ & Hfn & _).
  destruct (meaning_unique P _ HΓ) as (_ & _ & HP & HR).
  intros (r1 & a1 & kr & ks & H1 & H2 & _ & H3 & ->) (r2 & a2 & kr' & ks' & H1' & H2' & _ & H3' & ->).
  apply (Hfn (r1, a1)) in H1. apply (Hfn (r2, a2)) in H1'. simplify_eq. f_equal; eauto.
Qed.
