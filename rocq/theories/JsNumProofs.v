(** Facts about floating point formats and integers. *)

From Coq Require Import ZArith Bool List Lia ZifyBool.
From stdpp Require Import base numbers list.
From Verif Require Import JsNumModel JsNumSpec.
Local Open Scope Z_scope.

Lemma pow_pos k : 0 < 2 ^ k ∨ k < 0.
Proof. destruct (Z_lt_le_dec k 0); [by right|left; by apply Z.pow_pos_nonneg]. Qed.
Lemma pow2 k : 0 ≤ k → 0 < 2 ^ k.
Proof. intros. by apply Z.pow_pos_nonneg. Qed.
Lemma pow_split a b : 0 ≤ a → 0 ≤ b → 2 ^ (a + b) = 2 ^ a * 2 ^ b.
Proof. intros. by apply Z.pow_add_r. Qed.

Lemma digits_spec m : 0 < m → 0 < digits m ∧ 2 ^ (digits m - 1) ≤ m < 2 ^ digits m.
Proof.
  intros H. unfold digits. destruct (Z.eqb_spec m 0); [lia|]. pose proof (Z.log2_nonneg m).
  pose proof (Z.log2_spec m H) as [? ?]. replace (Z.log2 m + 1 - 1) with (Z.log2 m) by lia.
  rewrite <-Z.add_1_r in *. lia.
Qed.
Lemma digits_pow m k : 0 < m → 0 ≤ k → digits (m * 2 ^ k) = digits m + k.
Proof.
  intros H Hk. unfold digits. pose proof (pow2 k Hk). destruct (Z.eqb_spec m 0), (Z.eqb_spec (m * 2 ^ k) 0); try lia.
  rewrite Z.log2_mul_pow2 by lia. lia.
Qed.
Lemma digits_le m k : 0 ≤ m < 2 ^ k → 0 ≤ k → digits m ≤ k.
Proof.
  intros H Hk. destruct (decide (m = 0)) as [->|]; [done|]. destruct (digits_spec m) as (? & ? & ?); [lia|].
  destruct (Z_lt_le_dec k (digits m)); [|done]. pose proof (Z.pow_le_mono_r 2 k (digits m - 1)). lia.
Qed.
Lemma digits_ge m k : 2 ^ k ≤ m → 0 ≤ k → k < digits m.
Proof.
  intros H Hk. pose proof (pow2 k Hk). destruct (digits_spec m) as (? & ? & ?); [lia|].
  destruct (Z_lt_le_dec k (digits m)); [done|]. pose proof (Z.pow_le_mono_r 2 (digits m) k). lia.
Qed.

Definition fmt_ok (f : fmt) : Prop := 0 < prec f ∧ emin f + prec f ≤ emax f.
Lemma ok64 : fmt_ok f64. Proof. by vm_compute. Qed.
Lemma ok32 : fmt_ok f32. Proof. by vm_compute. Qed.

(** Equality of values, with the exponents compared. *)
Definition eqv (m e m' e' : Z) : Prop :=
  (e' ≤ e ∧ m' = m * 2 ^ (e - e')) ∨ (e ≤ e' ∧ m = m' * 2 ^ (e' - e)).
Lemma eqv_same neg m e m' e' : same (Fin neg m e) (Fin neg m' e') ↔ eqv m e m' e'.
Proof.
  unfold same, eqv. destruct (Z_le_gt_dec e e').
  - rewrite Z.min_l by lia. rewrite Z.sub_diag, Z.mul_1_r. split; [intros [_ H]; right; split; [lia|done]|].
    intros [[? ->]|[_ ->]]; [|done]. replace e' with e by lia. by rewrite !Z.sub_diag, !Z.mul_1_r.
  - rewrite Z.min_r by lia. rewrite Z.sub_diag, Z.mul_1_r. split; [intros [_ H]; left; split; [lia|done]|].
    intros [[_ ->]|[? ->]]; [done|lia].
Qed.
Lemma eqv_sym m e m' e' : eqv m e m' e' → eqv m' e' m e.
Proof. unfold eqv. tauto. Qed.
Lemma eqv_digits m e m' e' : eqv m e m' e' → 0 < m → 0 < m' → digits m + e = digits m' + e'.
Proof. intros [[? ->]|[? ->]] ? ?; rewrite digits_pow by lia; lia. Qed.
Lemma eqv_pos m e m' e' : eqv m e m' e' → (0 < m ↔ 0 < m').
Proof.
  intros [[? ->]|[? ->]].
  - assert (0 < 2 ^ (e - e')) by (apply pow2; lia). nia.
  - assert (0 < 2 ^ (e' - e)) by (apply pow2; lia). nia.
Qed.

Lemma shift_exact m e m' e' : eqv m e m' e' → shift m e e' = m'.
Proof.
  intros H. unfold shift. destruct (Z.leb_spec e' e) as [Hle|Hgt].
  - destruct H as [[_ ->]|[? ->]]; [done|]. replace e' with e by lia. rewrite !Z.sub_diag. lia.
  - destruct H as [[? _]|[_ ->]]; [lia|]. assert (0 < 2 ^ (e' - e)) by (apply pow2; lia).
    rewrite Z.div_mul by lia. rewrite Z.mod_mul by lia. cbn zeta.
    destruct (2 * 0 >? 2 ^ (e' - e)) eqn:E; [lia|]. destruct (2 * 0 =? 2 ^ (e' - e)) eqn:E'; [lia|]. done.
Qed.
(** Rounding does not change what can be represented. *)
Lemma round_exact f neg m e m' e' : fmt_ok f → canon f (Fin neg m' e') → eqv m e m' e' → 0 ≤ m → 0 < m' →
  round f (Fin neg m e) = Fin neg m' e'.
Proof.
  intros [Hp _] (Hm & He & Hc) H Hm0 Hpos. assert (0 < m) as Hm1 by (by eapply eqv_pos).
  cbn [round]. destruct (Z.eqb_spec m 0); [lia|]. destruct (Z.eqb_spec m' 0) as [|_]; [lia|].
  rewrite (eqv_digits _ _ _ _ H Hm1 Hpos), <-Hc, (shift_exact _ _ _ _ H).
  destruct (Z.eqb_spec m' (2 ^ prec f)); [lia|]. destruct (Z.ltb_spec (emax f) (e' + prec f)); [lia|].
  destruct (Z.eqb_spec m' 0); [lia|done].
Qed.
Lemma round_zero f neg e : round f (Fin neg 0 e) = Fin neg 0 (emin f).
Proof. done. Qed.
Lemma round_id f x : fmt_ok f → canon f x → round f x = x.
Proof.
  intros Hf H. destruct x as [| |neg m e]; [done..|]. destruct (Z.eqb_spec m 0) as [->|Hm].
  - destruct H as (_ & _ & ->). done.
  - assert (0 ≤ m) by (destruct H; lia). apply round_exact; [done..| |lia|lia].
    left. split; [lia|]. rewrite Z.sub_diag. lia.
Qed.
Lemma shift_bounds f m e : fmt_ok f → 0 < m → let e' := fexp f (digits m + e) in
  0 ≤ shift m e e' ≤ 2 ^ prec f ∧ (emin f < e' → 2 ^ (prec f - 1) ≤ shift m e e').
Proof.
  intros [Hp _] Hm e'. pose proof (digits_spec m Hm) as (Hd & Hl & Hu).
  assert (He' : digits m + e - prec f ≤ e') by (unfold e', fexp; lia).
  assert (He2 : emin f < e' → e' = digits m + e - prec f) by (unfold e', fexp; lia).
  clearbody e'. unfold shift. destruct (Z.leb_spec e' e) as [Hle|Hgt].
  - pose proof (pow2 (e - e')). split; [split; [nia|]|].
    + replace (prec f) with ((prec f - (e - e')) + (e - e')) by lia. rewrite pow_split by lia.
      pose proof (Z.pow_le_mono_r 2 (digits m) (prec f - (e - e'))). apply Z.mul_le_mono_nonneg_r; lia.
    + intros Hmin. specialize (He2 Hmin). replace (prec f - 1) with ((digits m - 1) + (e - e')) by lia.
      rewrite pow_split by lia. apply Z.mul_le_mono_nonneg_r; lia.
  - pose proof (pow2 (e' - e)). set (d := 2 ^ (e' - e)) in *. cbn zeta.
    assert (Hq : 0 ≤ m / d < 2 ^ prec f).
    { split; [apply Z.div_pos; lia|]. apply Z.div_lt_upper_bound; [lia|]. unfold d. rewrite <-pow_split by lia.
      pose proof (Z.pow_le_mono_r 2 (digits m) (e' - e + prec f)). lia. }
    assert (Hq2 : emin f < e' → 2 ^ (prec f - 1) ≤ m / d).
    { intros Hmin. specialize (He2 Hmin). apply Z.div_le_lower_bound; [lia|]. unfold d.
      rewrite <-pow_split by lia. replace (e' - e + (prec f - 1)) with (digits m - 1) by lia. lia. }
    destruct (_ || _); split; try lia; intros Hmin; specialize (Hq2 Hmin); lia.
Qed.
(** The result of rounding is in the format. *)
Lemma round_canon f x : fmt_ok f → (match x with Fin _ m _ => 0 ≤ m | _ => True end) → canon f (round f x).
Proof.
  intros Hf Hx. destruct x as [| |neg m e]; [done..|]. pose proof Hf as [Hp Hr].
  cbn [round]. destruct (Z.eqb_spec m 0).
  - cbn. split; [|lia]. pose proof (pow2 (prec f)). lia.
  - destruct (shift_bounds f m e Hf) as [[Hs Hu] Hl]; [lia|]. set (e' := fexp _ _) in *. set (m' := shift _ _ _) in *.
    assert (He : emin f ≤ e') by (unfold e', fexp; lia).
    destruct (Z.eqb_spec m' (2 ^ prec f)) as [Em|Em].
    + destruct (Z.ltb_spec (emax f) (e' + 1 + prec f)); [done|]. pose proof (pow2 (prec f - 1)).
      destruct (Z.eqb_spec (2 ^ (prec f - 1)) 0); [lia|]. cbn [canon]. destruct (Z.eqb_spec (2 ^ (prec f - 1)) 0); [lia|].
      assert (2 ^ prec f = 2 * 2 ^ (prec f - 1)) by (rewrite <-Z.pow_succ_r by lia; f_equal; lia).
      split; [lia|]. split; [done|]. unfold fexp. replace (digits (2 ^ (prec f - 1))) with (prec f); [lia|].
      rewrite <-(Z.mul_1_l (2 ^ _)). rewrite digits_pow by lia. change (digits 1) with 1. lia.
    + destruct (Z.ltb_spec (emax f) (e' + prec f)); [done|]. destruct (Z.eqb_spec m' 0).
      * cbn. pose proof (pow2 (prec f)). lia.
      * cbn [canon]. destruct (Z.eqb_spec m' 0); [lia|]. split; [lia|]. split; [done|].
        pose proof (digits_le m' (prec f)). unfold fexp. destruct (decide (e' = emin f)); [lia|].
        pose proof (digits_ge m' (prec f - 1)). lia.
Qed.

(** f32 is part of f64. *)
Lemma widen_exact x : single x → same x (round f64 x) ∧ double (round f64 x).
Proof.
  intros H. split; [|apply round_canon; [apply ok64|]; destruct x; [done..|]; destruct H; lia].
  destruct x as [| |neg m e]; [done..|]. destruct (Z.eqb_spec m 0) as [->|Hm].
  - rewrite round_zero. apply eqv_same. unfold eqv. destruct (Z_le_gt_dec e (emin f64)); [right|left]; split; lia.
  - destruct H as (Hb & Ht & He). destruct (Z.eqb_spec m 0); [lia|].
    assert (Hd : digits m ≤ 24). { apply digits_le; [|lia]. exact Hb. }
    destruct (shift_bounds f64 m e ok64) as [[Hs Hu] Hl]; [lia|].
    cbn [round]. destruct (Z.eqb_spec m 0); [lia|]. pose proof (digits_spec m ltac:(lia)) as (Hd0 & Hdl & Hdu).
    set (e' := fexp f64 _) in *. assert (Hee : e' ≤ e) by (unfold e', fexp in *; cbn [emin prec f64 f32] in *; lia).
    assert (Em : shift m e e' = m * 2 ^ (e - e')). { unfold shift. destruct (Z.leb_spec e' e); [done|lia]. }
    rewrite Em in *. pose proof (pow2 (e - e')).
    assert (m * 2 ^ (e - e') < 2 ^ prec f64).
    { assert (digits m + (e - e') ≤ 53) by (unfold e', fexp; cbn [emin prec f64]; lia).
      pose proof (Z.pow_le_mono_r 2 (digits m + (e - e')) 53). rewrite pow_split in * by lia. cbn [prec f64]. nia. }
    destruct (Z.eqb_spec (m * 2 ^ (e - e')) (2 ^ prec f64)); [lia|].
    destruct (Z.ltb_spec (emax f64) (e' + prec f64)).
    + exfalso. cbn [emax prec f64 f32] in *. lia.
    + destruct (Z.eqb_spec (m * 2 ^ (e - e')) 0); [nia|]. apply eqv_same. left. done.
Qed.
Lemma same_zero m e m' e' : eqv m e m' e' → m = 0 → m' = 0.
Proof.
  intros [[? ->]|[? H]] ->; [lia|]. assert (0 < 2 ^ (e' - e)) by (apply pow2; lia). nia.
Qed.
Lemma narrow x y : single x → double y → same x y → round f32 y = x.
Proof.
  intros Hx Hy Hs. destruct x as [| |a m e], y as [| |b m' e']; try done; cbn [same] in Hs; [by subst|].
  destruct Hs as [-> Hs]. assert (He : eqv m e m' e') by (by apply (eqv_same b)).
  destruct (Z.eqb_spec m 0) as [->|Hm].
  - pose proof (same_zero _ _ _ _ He eq_refl) as ->. destruct Hx as (_ & _ & ->). done.
  - apply round_exact; [apply ok32|done|by apply eqv_sym|destruct Hy; lia|destruct Hx; lia].
Qed.
Lemma num_eqb_spec x y : num_eqb x y = true ↔ x ≠ NaN ∧
  (x = y ∨ ∃ a b e, x = Fin a 0 e ∧ y = Fin b 0 e).
Proof.
  destruct x as [|a|a m e], y as [|b|b m' e']; cbn; try (split; [done|intros [? [?|(? & ? & ? & ? & ?)]]; done]).
  - split; [intros ->%eqb_prop; auto|]. intros [_ [[= ->]|(? & ? & ? & ? & ?)]]; [apply eqb_reflx|done].
  - split.
    + intros H. split; [done|]. assert (m = m' ∧ e = e' ∧ (m = 0 ∨ a = b)) as (-> & -> & [->| ->]); [|by right; eauto|by left].
      destruct (eqb a b) eqn:E; [apply eqb_prop in E|]; split_and!; lia || (left; lia) || (right; done).
    + intros [_ [[= -> -> ->]|(a' & b' & e0 & [= -> -> ->] & [= -> -> ->])]].
      * rewrite !Z.eqb_refl, eqb_reflx, orb_true_r. done.
      * by rewrite !Z.eqb_refl.
Qed.
Lemma num_eqb_refl x : num_eqb x x = true ↔ x ≠ NaN.
Proof. rewrite num_eqb_spec. intuition. Qed.
Lemma round_sign f neg m e : match round f (Fin neg m e) with Inf b | Fin b _ _ => b = neg | NaN => False end.
Proof.
  cbn [round]. destruct (m =? 0); [done|]. destruct (_ =? 2 ^ prec f); destruct (_ <? _); try done; destruct (_ =? 0); done.
Qed.

(** ** Integers *)

Lemma fits_spec signed bits z : fits signed bits z = true ↔ in_range signed bits z.
Proof. unfold fits, in_range, lo, hi. destruct signed; lia. Qed.
Lemma wrap_id signed bits z : 0 < bits → in_range signed bits z → wrap signed bits z = z.
Proof.
  intros Hb H. assert (E : 2 ^ bits = 2 * 2 ^ (bits - 1)) by (rewrite <-Z.pow_succ_r by lia; f_equal; lia).
  pose proof (pow2 (bits - 1)). unfold wrap, in_range in *. destruct signed; cbn [andb].
  - destruct (Z_lt_le_dec z 0).
    + replace (z mod 2 ^ bits) with (z + 2 ^ bits); [destruct (Z.leb_spec (2 ^ (bits - 1)) (z + 2 ^ bits)); lia|].
      rewrite <-(Z.mod_add z 1) by lia. rewrite Z.mod_small by lia. lia.
    + rewrite Z.mod_small by lia. destruct (Z.leb_spec (2 ^ (bits - 1)) z); lia.
  - by rewrite Z.mod_small by lia.
Qed.
Lemma wrap_range signed bits z : 0 < bits → in_range signed bits (wrap signed bits z).
Proof.
  intros Hb. assert (E : 2 ^ bits = 2 * 2 ^ (bits - 1)) by (rewrite <-Z.pow_succ_r by lia; f_equal; lia).
  pose proof (pow2 (bits - 1)). pose proof (Z.mod_pos_bound z (2 ^ bits)). unfold wrap, in_range.
  destruct signed; cbn [andb]; [destruct (Z.leb_spec (2 ^ (bits - 1)) (z mod 2 ^ bits))|]; lia.
Qed.
Lemma wrap_cong signed bits z : 0 < bits → (wrap signed bits z) mod 2 ^ bits = z mod 2 ^ bits.
Proof.
  intros Hb. pose proof (pow2 bits). unfold wrap. destruct (signed && _).
  - rewrite <-(Z.mod_add (z mod 2 ^ bits - 2 ^ bits) 1) by lia.
    replace (z mod 2 ^ bits - 2 ^ bits + 1 * 2 ^ bits) with (z mod 2 ^ bits) by lia. by apply Z.mod_mod; lia.
  - apply Z.mod_mod. lia.
Qed.
Lemma range_mono signed b b' z : 0 < b → b ≤ b' → in_range signed b z → in_range signed b' z.
Proof.
  intros. pose proof (Z.pow_le_mono_r 2 b b'). pose proof (Z.pow_le_mono_r 2 (b - 1) (b' - 1)).
  unfold in_range in *. destruct signed; lia.
Qed.

(** Truncation. *)
Lemma trunc_spec neg m e : 0 ≤ m → int_part (Fin neg m e) (trunc neg m e).
Proof.
  intros Hm. cbn [int_part]. intros _. unfold trunc. destruct (Z.leb_spec 0 e).
  - pose proof (pow2 e). destruct neg; split; nia.
  - pose proof (pow2 (- e)). assert (0 ≤ m / 2 ^ (- e)) by (apply Z.div_pos; lia).
    pose proof (Z.mul_div_le m (2 ^ (- e))). pose proof (Z.mul_succ_div_gt m (2 ^ (- e))).
    destruct neg; (split; [lia|]); rewrite ?Z.abs_opp, Z.abs_eq by lia; nia.
Qed.
Lemma int_part_unique x z z' : match x with Fin _ m _ => 0 ≤ m | _ => True end → int_part x z → int_part x z' → z = z'.
Proof.
  destruct x as [| |neg m e]; [done..|]. cbn [int_part]. intros Hm H H'. specialize (H Hm) as [Hs H]. specialize (H' Hm) as [Hs' H'].
  assert (Z.abs z = Z.abs z'); [|destruct neg; lia]. destruct (0 <=? e) eqn:E; [lia|]. pose proof (pow2 (- e)). nia.
Qed.
Lemma is_int_part x z : is_int x z → match x with Fin _ m _ => 0 ≤ m | _ => True end → int_part x z.
Proof.
  destruct x as [| |neg m e]; [done..|]. cbn [is_int int_part]. intros H Hm _. destruct (Z.leb_spec 0 e).
  - pose proof (pow2 e). destruct neg; subst; split; nia.
  - pose proof (pow2 (- e)). destruct neg; split; nia.
Qed.
Lemma is_int_trunc neg m e z : 0 ≤ m → is_int (Fin neg m e) z → trunc neg m e = z.
Proof.
  intros Hm H. eapply (int_part_unique (Fin neg m e)); [done|by apply trunc_spec|by apply is_int_part].
Qed.

(** Safe integers are numbers. *)
Lemma of_Z_spec z : safe z → double (of_Z z) ∧ is_int (of_Z z) z ∧ ∃ m e, of_Z z = Fin (z <? 0) m e ∧ 0 ≤ m.
Proof.
  intros Hz. unfold safe in Hz. split; [apply round_canon; [apply ok64|lia]|].
  destruct (Z.eqb_spec z 0) as [->|Hn]; [split; [done|]; by exists 0, (-1074)|].
  pose proof (digits_spec (Z.abs z)) as (Hd & Hl & Hu); [lia|]. assert (digits (Z.abs z) ≤ 53) as Hd2 by (apply digits_le; lia).
  set (d := digits (Z.abs z)) in *.
  assert (E : of_Z z = Fin (z <? 0) (Z.abs z * 2 ^ (53 - d)) (d - 53)).
  { unfold of_Z. pose proof (pow2 (53 - d)). apply round_exact; [apply ok64| |left; split; [lia|f_equal; f_equal; lia]|lia|nia].
    cbn [canon]. destruct (Z.eqb_spec (Z.abs z * 2 ^ (53 - d)) 0); [nia|]. rewrite digits_pow by lia. fold d.
    split; [|unfold fexp; cbn [prec emin emax f64]; lia].
    cbn [prec f64]. assert (E53 : 2 ^ 53 = 2 ^ d * 2 ^ (53 - d)) by (rewrite <-pow_split by lia; f_equal; lia). nia. }
  rewrite E. split; [|exists (Z.abs z * 2 ^ (53 - d)), (d - 53); split; [done|]; pose proof (pow2 (53 - d)); nia].
  cbn [is_int]. destruct (Z.leb_spec 0 (d - 53)).
  - replace (53 - d) with 0 by lia. replace (d - 53) with 0 by lia. destruct (Z.ltb_spec z 0); lia.
  - replace (- (d - 53)) with (53 - d) by lia. destruct (Z.ltb_spec z 0); nia.
Qed.
Lemma of_Z_trunc z : safe z → ∃ m e, of_Z z = Fin (z <? 0) m e ∧ trunc (z <? 0) m e = z.
Proof.
  intros H. destruct (of_Z_spec z H) as (_ & Hi & m & e & E & Hm). exists m, e. split; [done|]. rewrite E in Hi. by apply is_int_trunc.
Qed.
Lemma safe32 signed z : in_range signed 32 z → safe z.
Proof.
  unfold in_range, safe. change (2 ^ (32 - 1)) with 2147483648. change (2 ^ 32) with 4294967296. change (2 ^ 53) with 9007199254740992.
  destruct signed; lia.
Qed.
Lemma safe_range z : (MIN_SAFE_INTEGER <=? z) && (z <=? MAX_SAFE_INTEGER) = true ↔ safe z.
Proof. unfold MIN_SAFE_INTEGER, MAX_SAFE_INTEGER, safe. change (2 ^ 53) with 9007199254740992. lia. Qed.
Lemma safe64 z : safe z → in_range true 64 z.
Proof.
  unfold safe, in_range. change (2 ^ (64 - 1)) with 9223372036854775808. change (2 ^ 53) with 9007199254740992. lia.
Qed.
