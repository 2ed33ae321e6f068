(** Properties C42, C43, C47 and C57: numbers between Rust and JavaScript. *)

From Coq Require Import ZArith Bool List Lia ZifyBool.
From stdpp Require Import base numbers list.
From Verif Require Import JsNumModel JsNumSpec JsNumProofs.
Local Open Scope Z_scope.

(** ** C42: 8, 16 and 32 bits *)

Lemma get32_range p signed x : in_range signed 32 (get32 p signed x).
Proof.
  assert (H0 : in_range signed 32 0) by (destruct signed; vm_compute; by split).
  destruct p as [b ptr|], x as [|neg|neg m e]; cbn [get32 saturate]; [done|done|by apply wrap_range; lia|done| |].
  - destruct signed, neg; vm_compute; by split.
  - apply fits_spec. unfold fits. assert (lo signed 32 ≤ hi signed 32) by (destruct signed; vm_compute; done). lia.
Qed.
Lemma small_eq p signed bits x : 0 < bits ≤ 32 →
  from_small p signed bits x = if fits signed bits (get32 p signed x) then Ok (get32 p signed x) else Err.
Proof.
  intros Hb. unfold from_small. pose proof (get32_range p signed x) as Hr. set (n := get32 p signed x) in *.
  pose proof (wrap_range signed bits n ltac:(lia)) as Hw.
  rewrite (wrap_id signed 32 (wrap signed bits n)) by (lia || by eapply range_mono; [| |exact Hw]; lia).
  destruct (fits signed bits n) eqn:E.
  - apply fits_spec in E. rewrite wrap_id by (lia || done). by rewrite Z.eqb_refl.
  - destruct (Z.eqb_spec (wrap signed bits n) n) as [E'|]; [|done]. rewrite E' in Hw. apply fits_spec in Hw. congruence.
Qed.
Lemma get32_int p signed x z : match x with Fin _ m _ => 0 ≤ m | _ => True end → is_int x z → in_range signed 32 z → get32 p signed x = z.
Proof.
  destruct x as [| |neg m e]; [done..|]. intros Hm Hi Hr. pose proof (is_int_trunc _ _ _ _ Hm Hi) as Et.
  destruct p; cbn [get32 saturate]; rewrite Et.
  - by apply wrap_id.
  - apply fits_spec in Hr. unfold fits in Hr. lia.
Qed.
Lemma double_pos x : double x → match x with Fin _ m _ => 0 ≤ m | _ => True end.
Proof. destruct x; [done..|]. intros [? _]. lia. Qed.

(** Every integer is converted to the number that it is, and back. *)
Theorem C42_roundtrip p signed bits z : 0 < bits ≤ 32 → in_range signed bits z →
  ∃ x, to_small signed bits z = Ok x ∧ double x ∧ is_int x z ∧ from_small p signed bits x = Ok z.
Proof.
  intros Hb Hz. assert (H32 : in_range signed 32 z) by (by eapply range_mono; [| |exact Hz]; lia).
  exists (of_Z z). destruct (of_Z_spec z (safe32 _ _ H32)) as (Hd & Hi & _). unfold to_small.
  rewrite (proj2 (fits_spec _ _ _) H32). split_and!; [done..|]. rewrite small_eq by done.
  rewrite (get32_int p signed (of_Z z) z) by (done || by apply double_pos). by rewrite (proj2 (fits_spec _ _ _) Hz).
Qed.
(** Among the integers in the range of 32 bits those in range are accepted. *)
Theorem C42_exact_partial p signed bits x z z' : 0 < bits ≤ 32 → double x → is_int x z → in_range signed 32 z →
  from_small p signed bits x = Ok z' ↔ z' = z ∧ in_range signed bits z.
Proof.
  intros Hb Hx Hi Hr. rewrite small_eq by done. rewrite (get32_int p signed x z) by (done || by apply double_pos).
  rewrite <-fits_spec. destruct (fits signed bits z); split; try done; [by intros [= ->]|by intros [-> _]|by intros [_ ?]].
Qed.
(** Nothing else than errors: what is out of range, of 32 bits or less, is not
    accepted as something out of range. *)
Theorem C42_sound p signed bits x z : 0 < bits ≤ 32 → from_small p signed bits x = Ok z → in_range signed bits z.
Proof.
  intros Hb. rewrite small_eq by done. destruct (fits _ _ _) eqn:E; [|done]. intros [= <-]. by apply fits_spec.
Qed.
(** What is accepted, exactly, on Node.js: integer parts are taken modulo 2^32. *)
Theorem C42_node beyond ptr signed bits x z : 0 < bits ≤ 32 → double x →
  from_small (Node beyond ptr) signed bits x = Ok z ↔
  in_range signed bits z ∧
  match x with Fin _ _ _ => ∃ i, int_part x i ∧ i mod 2 ^ 32 = z mod 2 ^ 32 | _ => z = 0 end.
Proof.
  intros Hb Hx. rewrite small_eq by done. split.
  - intros H. destruct (fits _ _ _) eqn:E; [|done]. injection H as <-. apply fits_spec in E. split; [done|].
    destruct x as [| |neg m e]; [done..|]. exists (trunc neg m e). split; [apply trunc_spec; destruct Hx; lia|].
    cbn [get32]. by rewrite wrap_cong.
  - intros [Hr H]. assert (Eg : get32 (Node beyond ptr) signed x = z).
    { destruct x as [| |neg m e]; cbn [get32]; [done..|]. destruct H as (i & Hi & Ei).
      assert (Em : 0 ≤ m) by (destruct Hx; lia).
      rewrite (int_part_unique (Fin neg m e) (trunc neg m e) i Em (trunc_spec _ _ _ Em) Hi).
      unfold wrap. rewrite Ei. apply (wrap_id signed 32); [lia|]. by eapply range_mono; [| |exact Hr]; lia. }
    rewrite Eg. by rewrite (proj2 (fits_spec _ _ _) Hr).
Qed.
(** And on wasm: integer parts are moved into the range of 32 bits. *)
Definition clamp32 (signed : bool) (z : Z) : Z :=
  if signed then Z.max (- 2 ^ 31) (Z.min z (2 ^ 31 - 1)) else Z.max 0 (Z.min z (2 ^ 32 - 1)).
Theorem C42_wasm str signed bits x z : 0 < bits ≤ 32 → double x →
  from_small (Wasm str) signed bits x = Ok z ↔
  in_range signed bits z ∧
  match x with
  | NaN => z = 0
  | Inf neg => z = clamp32 signed (if neg then - 2 ^ 32 else 2 ^ 32)
  | Fin _ _ _ => ∃ i, int_part x i ∧ z = clamp32 signed i
  end.
Proof.
  intros Hb Hx. rewrite small_eq by done. rewrite <-fits_spec.
  assert (Eg : ∀ w, get32 (Wasm str) signed x = w ↔ match x with
    | NaN => w = 0 | Inf neg => w = clamp32 signed (if neg then - 2 ^ 32 else 2 ^ 32)
    | Fin _ _ _ => ∃ i, int_part x i ∧ w = clamp32 signed i end).
  { intros w. destruct x as [|neg|neg m e]; cbn [get32 saturate].
    - lia.
    - destruct neg, signed; vm_compute; split; congruence.
    - assert (Em : 0 ≤ m) by (destruct Hx; lia). split.
      + intros <-. exists (trunc neg m e). split; [by apply trunc_spec|]. by destruct signed.
      + intros (i & Hi & ->). rewrite (int_part_unique (Fin neg m e) i (trunc neg m e) Em Hi (trunc_spec _ _ _ Em)). by destruct signed. }
  rewrite <-Eg. split.
  - destruct (fits _ _ _) eqn:E; [|done]. intros [= <-]. done.
  - intros [Hr ->]. by rewrite Hr.
Qed.
(** So the claim is false: fractions are accepted, by all platforms, *)
Theorem C42_fraction_refuted : ∃ x, double x ∧ (∀ z, ¬ is_int x z) ∧ ∀ p, from_small p false 8 x = Ok 1.
Proof.
  exists (Fin false (3 * 2 ^ 51) (-52)). split; [|split].
  - vm_compute. split_and!; done.
  - intros z. cbn [is_int]. change (0 <=? -52) with false. cbn beta iota. change (2 ^ (- -52)) with (2 * 2 ^ 51). intros H. nia.
  - intros [b ptr|]; vm_compute; reflexivity.
Qed.
(** as are integers out of range on Node.js and on wasm, and NaN. *)
Theorem C42_range_refuted :
  (∃ x z, double x ∧ is_int x z ∧ ¬ in_range false 8 z ∧ ∀ b ptr, from_small (Node b ptr) false 8 x = Ok 5) ∧
  (∃ x z, double x ∧ is_int x z ∧ ¬ in_range false 32 z ∧ ∀ b ptr, from_small (Node b ptr) false 32 x = Ok 4294967295) ∧
  (∃ x z, double x ∧ is_int x z ∧ ¬ in_range false 8 z ∧ ∀ str, from_small (Wasm str) false 8 x = Ok 0) ∧
  (∀ p signed, from_small p signed 8 NaN = Ok 0).
Proof.
  split_and!.
  - exists (of_Z (2 ^ 32 + 5)), (2 ^ 32 + 5). destruct (of_Z_spec (2 ^ 32 + 5)) as (? & ? & _); [by vm_compute|].
    split_and!; [done..|vm_compute; intros [? ?]; done|]. intros b ptr. vm_compute. reflexivity.
  - exists (of_Z (-1)), (-1). destruct (of_Z_spec (-1)) as (? & ? & _); [by vm_compute|].
    split_and!; [done..|vm_compute; intros [? ?]; done|]. intros b ptr. vm_compute. reflexivity.
  - exists (of_Z (-1)), (-1). destruct (of_Z_spec (-1)) as (? & ? & _); [by vm_compute|].
    split_and!; [done..|vm_compute; intros [? ?]; done|]. vm_compute. reflexivity.
  - intros [b ptr|] [|]; vm_compute; reflexivity.
Qed.
Example C42_example :
  in_range true 8 (-128) ∧ to_small true 8 (-128) = Ok (Fin true (2 ^ 52) (-45)) ∧
  (∀ p, from_small p true 8 (Fin true (2 ^ 52) (-45)) = Ok (-128)) ∧
  is_int (of_Z 300) 300 ∧ in_range true 32 300 ∧ (∀ p, from_small p false 8 (of_Z 300) = Err).
Proof. split_and!; try (intros [|]); vm_compute; try reflexivity; split; done. Qed.

(** ** C43: 64 bits *)

Lemma get_i64_int p x z : match x with Fin _ m _ => 0 ≤ m | _ => True end → is_int x z → in_range true 64 z → get_i64 p x = z.
Proof.
  destruct x as [| |neg m e]; [done..|]. intros Hm Hi Hr. pose proof (is_int_trunc _ _ _ _ Hm Hi) as Et.
  apply fits_spec in Hr. destruct p; cbn [get_i64 saturate]; rewrite Et; [by rewrite Hr|]. unfold fits in Hr. lia.
Qed.
(** A number that is an integer is accepted exactly when in range. *)
Theorem C43_number p signed x z : double x → is_int x z → in_range true 64 z →
  from_64 p signed (Number x) = if decide (in_range signed 64 z) then Ok z else Err.
Proof.
  intros Hx Hi Hr. cbn [from_64]. rewrite (get_i64_int p x z) by (done || by apply double_pos).
  destruct (decide _) as [Hd|Hd]; rewrite <-fits_spec in Hd; [by rewrite Hd|]. by destruct (fits _ _ _).
Qed.
(** A BigInt is accepted exactly when in range, *)
Theorem C43_bigint_partial p signed z : ((∃ str, p = Wasm str) → signed = false → ¬ - 2 ^ 53 < z < 0) →
  from_64 p signed (BigInt z) = if decide (in_range signed 64 z) then Ok z else Err.
Proof.
  intros Hp. cbn [from_64]. destruct p as [b ptr|]; cbn [get_big].
  - destruct (decide _) as [Hd|Hd].
    + rewrite (proj2 (fits_spec _ _ _) Hd). by rewrite wrap_id.
    + rewrite <-fits_spec in Hd. by destruct (fits _ _ _).
  - change (- MAX_SAFE_INTEGER) with MIN_SAFE_INTEGER. destruct (_ && _) eqn:E.
    + apply safe_range in E. destruct (of_Z_trunc z E) as (m & e & Ez & Et). rewrite Ez. cbn [saturate]. rewrite Et.
      pose proof (safe64 z E) as H64. destruct (decide _) as [Hd|Hd].
      * apply fits_spec in Hd. unfold fits in Hd. f_equal. lia.
      * exfalso. destruct signed; [done|]. unfold safe in *. specialize (Hp (ex_intro _ _ eq_refl) eq_refl). apply Hd. unfold in_range in *.
        change (2 ^ (64 - 1)) with 9223372036854775808 in H64. change (2 ^ 64) with 18446744073709551616. lia.
    + destruct (decide _) as [Hd|Hd].
      * by rewrite (proj2 (fits_spec _ _ _) Hd).
      * rewrite <-fits_spec in Hd. by destruct (fits _ _ _).
Qed.
(** but for small negative ones on wasm, which are read as the u64 0. *)
Theorem C43_bigint_wasm str z : - 2 ^ 53 < z < 0 → from_64 (Wasm str) false (BigInt z) = Ok 0.
Proof.
  intros Hz. cbn [from_64 get_big]. change (- MAX_SAFE_INTEGER) with MIN_SAFE_INTEGER. destruct (_ && _) eqn:E.
  - apply safe_range in E. destruct (of_Z_trunc z E) as (m & e & Ez & Et). rewrite Ez. cbn [saturate]. rewrite Et.
    unfold lo, hi. f_equal. change (2 ^ 64) with 18446744073709551616. lia.
  - assert (safe z) as Hs%safe_range by (unfold safe; lia). congruence.
Qed.
Theorem C43_bigint_refuted : ∃ z, ¬ in_range false 64 z ∧ ∀ str, from_64 (Wasm str) false (BigInt z) = Ok 0.
Proof. exists (-1). split; [intros [? ?]; done|]. intros str. vm_compute. reflexivity. Qed.
(** Every integer survives the round trip; the safe ones as numbers, the others
    as BigInts. *)
Lemma to_64_spec p z : in_range true 64 z ∨ in_range false 64 z →
  to_64 p z = Ok (if decide (safe z) then Number (of_Z z) else BigInt z).
Proof.
  intros Hz. unfold to_64. destruct (decide _) as [Hd|Hd]; rewrite <-safe_range in Hd.
  - rewrite Hd. apply safe_range, safe64, fits_spec in Hd. by rewrite Hd.
  - destruct (_ && _); [done|]. destruct p; [|done]. f_equal. f_equal. unfold from_words. cbn [fold_right].
    assert (Hu : 0 ≤ (if z <? 0 then - z else z) < 2 ^ 64).
    { unfold in_range in Hz. change (2 ^ (64 - 1)) with 9223372036854775808 in Hz. change (2 ^ 64) with 18446744073709551616 in *.
      destruct (Z.ltb_spec z 0); lia. }
    rewrite (wrap_id false 64) by (lia || done). rewrite Z.div_small by done. change (wrap false 64 0) with 0.
    destruct (z <? 0); lia.
Qed.
Theorem C43_roundtrip p signed z : in_range signed 64 z →
  ∃ v, to_64 p z = Ok v ∧ from_64 p signed v = Ok z ∧
    (safe z → ∃ x, v = Number x ∧ double x ∧ is_int x z) ∧ (¬ safe z → v = BigInt z).
Proof.
  intros Hz. eexists. split; [apply to_64_spec; destruct signed; auto|]. destruct (decide (safe z)) as [Hs|Hs].
  - destruct (of_Z_spec z Hs) as (Hd & Hi & _). split; [|split; [intros _; by exists (of_Z z)|done]].
    rewrite (C43_number p signed _ z Hd Hi (safe64 _ Hs)). by rewrite decide_True.
  - split; [|done]. rewrite C43_bigint_partial; [by rewrite decide_True|]. intros _ _. unfold safe in Hs. lia.
Qed.
(** Numbers that are no integers, or too large, are accepted as well. *)
Theorem C43_number_refuted :
  (∃ x, double x ∧ (∀ z, ¬ is_int x z) ∧ ∀ p signed, from_64 p signed (Number x) = Ok 1) ∧
  (∃ x z, double x ∧ is_int x z ∧ ¬ in_range false 64 z ∧ ∀ str, from_64 (Wasm str) false (Number x) = Ok (2 ^ 63 - 1)) ∧
  (∀ p signed, from_64 p signed (Number NaN) = Ok 0).
Proof.
  split_and!.
  - exists (Fin false (3 * 2 ^ 51) (-52)). split_and!.
    + vm_compute. split_and!; done.
    + intros z. cbn [is_int]. change (0 <=? -52) with false. cbn beta iota. change (2 ^ (- -52)) with (2 * 2 ^ 51). intros H. nia.
    + intros [b ptr|] [|]; vm_compute; reflexivity.
  - exists (Fin false (2 ^ 52) 12), (2 ^ 64). split_and!.
    + vm_compute. split_and!; done.
    + vm_compute. reflexivity.
    + intros [? ?]. done.
    + vm_compute. reflexivity.
  - intros [b ptr|] [|]; vm_compute; reflexivity.
Qed.
(** usize and isize. *)
Theorem C43_size p signed z : 0 < size_bits p ≤ 64 → in_range signed (size_bits p) z →
  ∃ v, to_size p signed z = Ok v ∧ from_size p signed v = Ok z.
Proof.
  intros Hb Hz. destruct p as [b ptr|str]; cbn [to_size from_size size_bits] in *.
  - destruct (C43_roundtrip (Node b ptr) signed z) as (v & -> & Ev & _); [by eapply range_mono; [| |exact Hz]; lia|].
    exists v. split; [done|]. rewrite Ev. by rewrite (proj2 (fits_spec _ _ _) Hz).
  - destruct (C42_roundtrip (Wasm str) signed 32 z) as (x & -> & _ & _ & Ex); [lia|done|]. by exists (Number x).
Qed.
Theorem C43_size_sound p signed v z : 0 < size_bits p ≤ 64 → from_size p signed v = Ok z → in_range signed (size_bits p) z.
Proof.
  intros Hb. destruct p as [b ptr|]; cbn [from_size size_bits] in *.
  - destruct (from_64 _ _ _) as [z'| |]; try done. destruct (fits _ _ _) eqn:E; [|done]. intros [= <-]. by apply fits_spec.
  - destruct v; try done. by apply C42_sound.
Qed.
Example C43_example : let p := Node (λ _, 0) 64 in let w := Wasm (λ _, NaN) in
  to_64 p (2 ^ 64 - 1) = Ok (BigInt (2 ^ 64 - 1)) ∧ from_64 p false (BigInt (2 ^ 64)) = Err ∧
  to_64 p (- 2 ^ 63) = Ok (BigInt (- 2 ^ 63)) ∧ to_64 w (2 ^ 53 - 1) = Ok (Number (Fin false (2 ^ 53 - 1) 0)) ∧
  to_64 w (2 ^ 53) = Ok (BigInt (2 ^ 53)) ∧ from_64 p false (Number (of_Z (-1))) = Err.
Proof. vm_compute. split_and!; reflexivity. Qed.

(** ** C47: floating point *)

(** An f64 is the JS number; all are accepted but NaN. *)
Theorem C47_f64 x : double x → to_float f64 x = Ok x ∧ from_float f64 x = if decide (x = NaN) then Err else Ok x.
Proof.
  intros Hx. unfold to_float, from_float. rewrite !(round_id f64 x ok64 Hx). split; [done|].
  destruct (decide _) as [->|Hn]; [done|]. by rewrite (proj2 (num_eqb_refl x) Hn).
Qed.
(** An f32 that is no NaN is converted to the number of the same value and
    back. *)
Theorem C47_f32_partial x : single x → x ≠ NaN →
  ∃ y, to_float f32 x = Ok y ∧ double y ∧ same x y ∧ from_float f32 y = Ok x.
Proof.
  intros Hx Hn. destruct (widen_exact x Hx) as [Hs Hd]. exists (round f64 x). split_and!; [done..|].
  unfold from_float. rewrite (narrow x _ Hx Hd Hs). rewrite (proj2 (num_eqb_refl _)); [done|].
  by destruct x, (round f64 _).
Qed.
(** A number is accepted as an f32 exactly when it is one. *)
Theorem C47_f32_exact x y : double y → from_float f32 y = Ok x ↔ single x ∧ x ≠ NaN ∧ same x y.
Proof.
  intros Hy. split.
  - unfold from_float. destruct (num_eqb _ _) eqn:E; [|done]. intros [= <-].
    assert (Hsx : single (round f32 y)) by (apply round_canon; [apply ok32|by apply double_pos]).
    destruct (widen_exact _ Hsx) as [Hs Hd]. split; [done|].
    apply num_eqb_spec in E as [Hn [E|(a & b & e & Ea & Eb)]].
    + split; [by intros En; rewrite En in Hn|]. by rewrite <-E at 2.
    + split; [by intros En; rewrite En in Hn|]. subst y. rewrite round_zero in *. cbn [same].
      split; [done|lia].
  - intros (Hx & Hn & Hs). unfold from_float. rewrite (narrow x y Hx Hy Hs).
    assert (Er : round f64 x = y).
    { destruct x as [|a|a m e], y as [|b|b m' e']; try done; cbn [same] in Hs; [by subst|]. destruct Hs as [-> Hs].
      assert (He : eqv m e m' e') by (by apply (eqv_same b)). destruct (Z.eqb_spec m' 0) as [->|Hm].
      - rewrite (same_zero _ _ _ _ (eqv_sym _ _ _ _ He) eq_refl). destruct Hy as (_ & _ & ->). done.
      - apply round_exact; [apply ok64|done|done|destruct Hx; lia|destruct Hy; lia]. }
    rewrite Er. rewrite (proj2 (num_eqb_refl y)); [done|]. by destruct x, y.
Qed.
(** NaN does not survive. *)
Theorem C47_nan_refuted : ∃ x, double x ∧ single x ∧
  (∀ y, to_float f64 x = Ok y → from_float f64 y = Err) ∧ (∀ y, to_float f32 x = Ok y → from_float f32 y = Err).
Proof. exists NaN. split_and!; [done..| |]; intros y [= <-]; reflexivity. Qed.
(** A third, and the smallest f32 and f64: *)
Example C47_example : let third := Fin false 6004799503160661 (-54) in let third32 := Fin false 11184811 (-25) in
  double third ∧ single third32 ∧ round f32 third = third32 ∧ from_float f32 third = Err ∧
  from_float f64 third = Ok third ∧
  to_float f32 third32 = Ok (Fin false (11184811 * 2 ^ 29) (-54)) ∧
  from_float f32 (Fin false (11184811 * 2 ^ 29) (-54)) = Ok third32 ∧
  to_float f32 (Fin true 1 (-149)) = Ok (Fin true (2 ^ 52) (-201)) ∧
  from_float f32 (Fin true (2 ^ 52) (-201)) = Ok (Fin true 1 (-149)) ∧
  from_float f32 (Fin true 1 (-1074)) = Err ∧ from_float f32 (Inf true) = Ok (Inf true) ∧
  round f32 (Fin false (2 ^ 53 - 1) 971) = Inf false.
Proof. vm_compute. split_and!; try reflexivity; try done. Qed.

(** ** C57: withOutU64 *)

(** What is written is what is returned, if below 2^63. *)
Theorem C57_partial p z : 0 ≤ z < 2 ^ 63 → ∃ v, with_out_u64 p z = Ok v ∧ to_64 p z = Ok v ∧ from_64 p false v = Ok z.
Proof.
  intros Hz. unfold with_out_u64. rewrite (wrap_id true 64) by (lia || (unfold in_range; change (2 ^ (64 - 1)) with (2 ^ 63); lia)).
  destruct (C43_roundtrip p false z) as (v & E & Ev & _).
  { unfold in_range. change (2 ^ 64) with 18446744073709551616. change (2 ^ 63) with 9223372036854775808 in Hz. lia. }
  by exists v.
Qed.
(** Otherwise 2^64 less. *)
Theorem C57_high p z : 2 ^ 63 ≤ z < 2 ^ 64 → with_out_u64 p z = to_64 p (z - 2 ^ 64).
Proof.
  intros Hz. unfold with_out_u64, wrap. rewrite Z.mod_small by lia. change (2 ^ (64 - 1)) with (2 ^ 63).
  by destruct (Z.leb_spec (2 ^ 63) z); [|lia].
Qed.
Theorem C57_refuted : ∃ z, in_range false 64 z ∧ ∀ p, with_out_u64 p z = Ok (Number (of_Z (-1))).
Proof. exists (2 ^ 64 - 1). split; [by vm_compute|]. intros [|]; vm_compute; reflexivity. Qed.

Print Assumptions C42_roundtrip.
Print Assumptions C42_exact_partial.
Print Assumptions C42_sound.
Print Assumptions C42_node.
Print Assumptions C42_wasm.
Print Assumptions C42_fraction_refuted.
Print Assumptions C42_range_refuted.
Print Assumptions C43_roundtrip.
Print Assumptions C43_number.
Print Assumptions C43_bigint_partial.
Print Assumptions C43_bigint_wasm.
Print Assumptions C43_bigint_refuted.
Print Assumptions C43_number_refuted.
Print Assumptions C43_size.
Print Assumptions C43_size_sound.
Print Assumptions C47_f64.
Print Assumptions C47_f32_partial.
Print Assumptions C47_f32_exact.
Print Assumptions C47_nan_refuted.
Print Assumptions C57_partial.
Print Assumptions C57_high.
Print Assumptions C57_refuted.
