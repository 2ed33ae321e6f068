(** Proofs about the constants in the headers. *)

From Coq Require Import ZArith NArith QArith Qreduction Qpower List Bool Lia String Ascii.
From Coq Require Import ZifyBool ZifyNat ZifyN.
From Coq.Floats Require Import SpecFloat.
From stdpp Require Import base numbers list strings.
From Verif Require Import HeaderModel ConstModel ConstSpec.
Local Open Scope Z_scope.

(** ** Digits *)

Lemma digits_fuel_value fuel : forall n acc, (n < 2 ^ N.of_nat fuel)%N ->
  fold_left (fun a d => (10 * a + d)%N) (digits_fuel fuel n acc) 0%N
  = fold_left (fun a d => (10 * a + d)%N) acc n.
Proof.
  induction fuel as [|fuel IH]; intros n acc Hn.
  - cbn [digits_fuel fold_left]; f_equal; lia.
  - cbn [digits_fuel]. destruct (N.ltb_spec n 10) as [Hlt|Hge].
    + cbn [fold_left]; f_equal; lia.
    + rewrite IH.
      * cbn [fold_left]. f_equal. pose proof (N.div_mod n 10 ltac:(lia)). lia.
      * rewrite Nat2N.inj_succ, N.pow_succ_r' in Hn.
        apply N.div_lt_upper_bound; lia.
Qed.

Lemma digits_fuel_small fuel : forall n acc, (n < 2 ^ N.of_nat fuel)%N ->
  Forall (fun d => (d < 10)%N) acc -> Forall (fun d => (d < 10)%N) (digits_fuel fuel n acc).
Proof.
  induction fuel as [|fuel IH]; intros n acc Hn Ha.
  - cbn [digits_fuel]. constructor; [|done]. cbn in Hn. lia.
  - cbn [digits_fuel]. destruct (N.ltb_spec n 10) as [Hlt|Hge]; [by constructor|].
    apply IH.
    + rewrite Nat2N.inj_succ, N.pow_succ_r' in Hn. apply N.div_lt_upper_bound; lia.
    + constructor; [|done]. apply N.mod_lt. lia.
Qed.

(** Either one digit, or a first digit that is not zero. *)
Lemma digits_fuel_head fuel : forall n acc, (n < 2 ^ N.of_nat fuel)%N -> n <> 0%N ->
  exists d l, digits_fuel fuel n acc = d :: l /\ d <> 0%N.
Proof.
  induction fuel as [|fuel IH]; intros n acc Hn H0.
  - cbn in Hn. lia.
  - cbn [digits_fuel]. destruct (N.ltb_spec n 10) as [Hlt|Hge]; [eauto|].
    apply IH.
    + rewrite Nat2N.inj_succ, N.pow_succ_r' in Hn. apply N.div_lt_upper_bound; lia.
    + pose proof (N.div_le_lower_bound n 10 1 ltac:(lia) ltac:(lia)). lia.
Qed.

Lemma size_bound n : (n < 2 ^ N.of_nat (N.to_nat (N.size n)))%N.
Proof. rewrite N2Nat.id. apply N.size_gt. Qed.

Lemma digits_value n : in_base 10 (digits n) = n.
Proof.
  unfold in_base, digits. rewrite digits_fuel_value by apply size_bound. done.
Qed.
Lemma digits_small n : Forall (fun d => (d < 10)%N) (digits n).
Proof. apply digits_fuel_small; [apply size_bound|constructor]. Qed.
Lemma digits_head n : n <> 0%N -> exists d l, digits n = d :: l /\ d <> 0%N.
Proof. intros H. apply digits_fuel_head; [apply size_bound|done]. Qed.
Lemma digits_0 : digits 0 = [0%N].
Proof. done. Qed.
Lemma digits_cons n : exists d l, digits n = d :: l.
Proof.
  destruct (decide (n = 0%N)) as [->|H]; [by eexists _, _|].
  destruct (digits_head n H) as (d & l & E & _). eauto.
Qed.

(** ** Characters *)

Ltac ten d :=
  let H := fresh in
  assert (H : (d = 0 \/ d = 1 \/ d = 2 \/ d = 3 \/ d = 4 \/ d = 5 \/ d = 6 \/ d = 7 \/ d = 8 \/ d = 9)%N) by lia;
  destruct H as [->|[->|[->|[->|[->|[->|[->|[->|[->| ->]]]]]]]]].

Lemma dchar_digit d : (d < 10)%N -> is_digit (dchar d) = true.
Proof. intros H. ten d; reflexivity. Qed.
Lemma dchar_idchar d : (d < 10)%N -> is_idchar (dchar d) = true.
Proof. intros H. ten d; reflexivity. Qed.
Lemma dchar_alpha d : (d < 10)%N -> is_alpha (dchar d) = false.
Proof. intros H. ten d; reflexivity. Qed.
Lemma dchar_blank d : (d < 10)%N -> is_blank (dchar d) = false.
Proof. intros H. ten d; reflexivity. Qed.
Lemma dchar_value d : (d < 10)%N -> dvalue (dchar d) = d.
Proof. intros H. ten d; reflexivity. Qed.
Lemma dchar_x d : (d < 10)%N -> Ascii.eqb (dchar d) "x"%char = false.
Proof. intros H. ten d; reflexivity. Qed.
Lemma dchar_minus d : (d < 10)%N -> Ascii.eqb (dchar d) "-"%char = false.
Proof. intros H. ten d; reflexivity. Qed.
Lemma dchar_plus d : (d < 10)%N -> Ascii.eqb (dchar d) "+"%char = false.
Proof. intros H. ten d; reflexivity. Qed.

Lemma alpha_idchar c : is_alpha c = true -> is_idchar c = true.
Proof. unfold is_idchar. intros ->. done. Qed.
Lemma alpha_blank c : is_alpha c = true -> is_blank c = false.
Proof.
  unfold is_blank. intros H. destruct (Ascii.eqb_spec c " "%char) as [->|]; [discriminate H|done].
Qed.

(** ** The lexer *)

(** The characters that end any token. *)
Definition stop (c : ascii) : Prop :=
  is_idchar c = false /\ Ascii.eqb c "."%char = false /\ Ascii.eqb c "-"%char = false
  /\ Ascii.eqb c "+"%char = false.
Definition stops (t : text) : Prop := match t with [] => True | c :: _ => stop c end.

Definition lexes (t : text) (T : list ctok) : Prop :=
  forall rest, stops rest -> lex L0 (t ++ rest) = T ++ lex L0 rest.

Lemma lexes_tokens t T : lexes t T -> tokens t = T.
Proof.
  intros H. specialize (H [] I). rewrite app_nil_r in H. unfold tokens. rewrite H.
  cbn [lex flush]. apply app_nil_r.
Qed.

(** What comes next when a token is over. *)
Lemma lex_break m c t : goes_on m c = None -> lex m (c :: t) = flush m ++ lex L0 (c :: t).
Proof. intros H. cbn [lex]. rewrite H. done. Qed.

Lemma lex_id_go a x rest : forallb is_idchar x = true ->
  lex (LId a) (x ++ rest) = lex (LId (a ++ x)) rest.
Proof.
  revert a. induction x as [|c x IH]; intros a H.
  - rewrite app_nil_r. done.
  - cbn [forallb] in H. apply andb_true_iff in H as [Hc Hx].
    cbn [app lex goes_on]. rewrite Hc. rewrite IH by done. rewrite <-app_assoc. done.
Qed.

Lemma lexes_ident x : ident x -> lexes x [KId x].
Proof.
  unfold ident, identb. intros H rest Hr. destruct x as [|c x]; [done|].
  apply andb_true_iff in H as [Ha Hx]. cbn [forallb] in Hx. apply andb_true_iff in Hx as [Hc Hx].
  cbn [app lex goes_on flush]. rewrite (alpha_blank _ Ha), Ha, lex_id_go by done.
  destruct rest as [|d rest]; [done|].
  rewrite lex_break; [done|]. cbn [goes_on]. destruct Hr as (Hd & _). by rewrite Hd.
Qed.

Definition numchar (c : ascii) : bool := is_idchar c || Ascii.eqb c "."%char.

Lemma lex_num_go a x rest : forallb numchar x = true ->
  lex (LNum a) (x ++ rest) = lex (LNum (a ++ x)) rest.
Proof.
  revert a. induction x as [|c x IH]; intros a H.
  - rewrite app_nil_r. done.
  - cbn [forallb] in H. apply andb_true_iff in H as [Hc Hx].
    cbn [app lex goes_on]. unfold numchar in Hc. rewrite Hc. cbn [orb].
    rewrite IH by done. rewrite <-app_assoc. done.
Qed.

Lemma lex_num_stop x rest : stops rest -> lex (LNum x) rest = KNum x :: lex L0 rest.
Proof.
  destruct rest as [|c rest]; [done|]. intros (H1 & H2 & H3 & H4).
  rewrite lex_break; [done|]. cbn [goes_on]. by rewrite H1, H2, H3, H4.
Qed.

Lemma numchar_dtext ds : Forall (fun d => (d < 10)%N) ds -> forallb numchar (dtext ds) = true.
Proof.
  induction 1 as [|d ds Hd _ IH]; [done|]. cbn [dtext map forallb]. unfold numchar at 1.
  rewrite dchar_idchar by done. exact IH.
Qed.

(** A number whose text has no sign after the first digit. *)
Lemma lexes_num d x : (d < 10)%N -> forallb numchar x = true -> lexes (dchar d :: x) [KNum (dchar d :: x)].
Proof.
  intros Hd Hx rest Hr. cbn [app lex goes_on flush].
  rewrite dchar_blank, dchar_alpha, dchar_digit by done.
  rewrite lex_num_go by done. rewrite lex_num_stop by done. done.
Qed.

Lemma lexes_digits n : lexes (dtext (digits n)) [KNum (dtext (digits n))].
Proof.
  pose proof (digits_small n) as Hs. destruct (digits_cons n) as (d & l & E). rewrite E in *.
  inversion Hs; subst. cbn [dtext map]. apply lexes_num; [done|]. by apply numchar_dtext.
Qed.

(** … and one with an exponent. *)
Lemma lexes_num_exp d x y : (d < 10)%N -> forallb numchar x = true ->
  Forall (fun d => (d < 10)%N) y ->
  lexes (dchar d :: x ++ "e"%char :: "-"%char :: dtext y) [KNum (dchar d :: x ++ "e"%char :: "-"%char :: dtext y)].
Proof.
  intros Hd Hx Hy rest Hr. cbn [app lex goes_on flush].
  rewrite dchar_blank, dchar_alpha, dchar_digit by done.
  rewrite <-app_assoc, lex_num_go by done. cbn [app].
  replace (lex (LNum (dchar d :: x)) ("e"%char :: "-"%char :: dtext y ++ rest))
    with (lex (LNum (((dchar d :: x) ++ ["e"%char]) ++ ["-"%char])) (dtext y ++ rest)).
  - rewrite lex_num_go by by apply numchar_dtext. rewrite lex_num_stop by done.
    rewrite <-!app_assoc. done.
  - cbn [lex goes_on]. change (is_idchar "e"%char || Ascii.eqb "e"%char "."%char
         || ((Ascii.eqb "e"%char "-"%char || Ascii.eqb "e"%char "+"%char) &&
            match last (dchar d :: x) with Some d => is_e d | None => false end)) with true.
    cbn match. cbn [lex goes_on]. rewrite last_snoc. done.
Qed.

Lemma lexes_minus t T : lexes t T -> lexes ("-"%char :: t) (KP "-"%char :: T).
Proof. intros H rest Hr. cbn [app lex goes_on]. cbn. f_equal. by apply H. Qed.

(** ** Numbers *)

Definition no_digit (t : text) : Prop := match t with [] => True | c :: _ => is_digit c = false end.

Lemma span_digits ds rest : Forall (fun d => (d < 10)%N) ds -> no_digit rest ->
  span (dtext ds ++ rest) = (ds, rest).
Proof.
  intros H Hr. induction H as [|d ds Hd _ IH].
  - cbn [dtext map app]. destruct rest as [|c rest]; [done|]. cbn [span]. cbn in Hr. by rewrite Hr.
  - cbn [dtext map app span]. rewrite dchar_digit by done.
    unfold dtext in IH. rewrite IH, dchar_value by done. done.
Qed.

Lemma in_base_app a b : in_base 10 (a ++ b) = (in_base 10 a * 10 ^ N.of_nat (length b) + in_base 10 b)%N.
Proof.
  unfold in_base. rewrite fold_left_app.
  generalize (fold_left (fun a d => (10 * a + d)%N) a 0%N). intros x.
  assert (H : forall l x y, fold_left (fun a d => (10 * a + d)%N) l (x + y)%N
     = (x * 10 ^ N.of_nat (length l) + fold_left (fun a d => (10 * a + d)%N) l y)%N).
  { induction l as [|d l IH]; intros u v.
    - cbn [fold_left length]. rewrite N.pow_0_r. lia.
    - cbn [fold_left length]. replace (10 * (u + v) + d)%N with (10 * u + (10 * v + d))%N by lia.
      rewrite IH, Nat2N.inj_succ, N.pow_succ_r'. lia. }
  specialize (H b x 0%N). rewrite N.add_0_r in H. exact H.
Qed.
Lemma in_base_zeros n : in_base 10 (zeros n) = 0%N.
Proof. unfold in_base, zeros. induction n as [|n IH]; [done|]. exact IH. Qed.
Lemma zeros_small n : Forall (fun d => (d < 10)%N) (zeros n).
Proof. unfold zeros. induction n; constructor; [lia|done]. Qed.
Lemma zeros_length n : length (zeros n) = n.
Proof. apply repeat_length. Qed.

Lemma q10_scale m j e : (q10 (m * 10 ^ j) (e - Z.of_N j) == q10 m e)%Q.
Proof.
  unfold q10. rewrite N2Z.inj_mul, N2Z.inj_pow.
  assert (Hp : ~ (10 # 1 == 0)%Q) by done.
  replace e with ((e - Z.of_N j) + Z.of_N j) at 2 by lia.
  rewrite Qpower_plus by done.
  assert (E : (inject_Z (Z.of_N 10 ^ Z.of_N j) == Qpower (10 # 1) (Z.of_N j))%Q).
  { change (10 # 1)%Q with (inject_Z 10). rewrite <-Zpower_Qpower by lia. done. }
  rewrite inject_Z_mult, E. ring.
Qed.

Lemma round_q_eq d p q : (p == q)%Q -> round_q d p = round_q d q.
Proof. intros E. unfold round_q. by rewrite (Qred_complete _ _ E). Qed.

(** The value of the text of an integer. *)
Lemma after_0x_digits ds rest :
  Forall (fun d => (d < 10)%N) ds -> ds <> [] ->
  match rest with [] => True | c :: _ => Ascii.eqb c "x"%char = false end ->
  after_0x (dtext ds ++ rest) = None.
Proof.
  intros H Hn Hr. destruct ds as [|a [|b ds]]; [done| |].
  - cbn [dtext map app after_0x]. destruct rest as [|c rest]; [done|]. rewrite Hr, andb_false_r. done.
  - inversion H as [|? ? ? H2]; subst. inversion H2; subst.
    cbn [dtext map app after_0x]. rewrite dchar_x, andb_false_r by done. done.
Qed.

Lemma read_integer_digits octal n : read_integer octal (digits n) = Some (NInt n).
Proof.
  destruct (decide (n = 0%N)) as [->|Hn]; [done|].
  pose proof (digits_value n) as Hv.
  destruct (digits_head n Hn) as (d & l & E & Hd). rewrite E in *.
  unfold read_integer. destruct d as [|p]; [done|]. by rewrite Hv.
Qed.

Lemma read_number_digits octal n : read_number octal (dtext (digits n)) = Some (NInt n).
Proof.
  unfold read_number.
  pose proof (digits_small n) as Hs. destruct (digits_cons n) as (d & l & E).
  assert (H0 : after_0x (dtext (digits n)) = None).
  { pose proof (after_0x_digits (digits n) [] Hs) as H. rewrite app_nil_r in H. apply H; [|done]. by rewrite E. }
  rewrite H0. unfold read_decimal.
  pose proof (span_digits (digits n) [] Hs I) as Hsp. rewrite app_nil_r in Hsp. rewrite Hsp.
  cbn [read_fraction exponent]. apply read_integer_digits.
Qed.

(** The exponent that [debug_int] prints. *)
Lemma exponent_debug z : exponent ("e"%char :: debug_int z) = Some (Some z).
Proof.
  unfold exponent. change (is_e "e"%char) with true. cbn match.
  assert (H : forall n, exists d l, digits n = d :: l /\ (d < 10)%N).
  { intros n. destruct (digits_cons n) as (d & l & E). exists d, l. split; [done|].
    pose proof (digits_small n) as Hs. rewrite E in Hs. by inversion Hs. }
  destruct z as [|p|p].
  - done.
  - cbn [debug_int]. destruct (H (Z.to_N (Zpos p))) as (d & l & E & Hd).
    pose proof (digits_value (Z.to_N (Zpos p))) as Hv.
    pose proof (span_digits _ [] (digits_small (Z.to_N (Zpos p))) I) as Hsp. rewrite app_nil_r in Hsp.
    rewrite E in *. cbn [dtext map] in *. rewrite dchar_minus, dchar_plus by done.
    rewrite Hsp, Hv; do 2 f_equal; lia.
  - cbn [debug_int]. destruct (H (Z.abs_N (Zneg p))) as (d & l & E & Hd).
    pose proof (digits_value (Z.abs_N (Zneg p))) as Hv.
    pose proof (span_digits _ [] (digits_small (Z.abs_N (Zneg p))) I) as Hsp. rewrite app_nil_r in Hsp.
    rewrite E in *. change (Ascii.eqb "-"%char "-"%char) with true. cbn match.
    rewrite Hsp, Hv; do 2 f_equal; lia.
Qed.

(** ** Integers as expressions *)

Definition int_toks (z : Z) : list ctok :=
  match z with
  | Zneg _ => [KP "-"%char; KNum (dtext (digits (Z.abs_N z)))]
  | _ => [KNum (dtext (digits (Z.to_N z)))]
  end.

Lemma lexes_int z : lexes (debug_int z) (int_toks z).
Proof.
  destruct z; cbn [debug_int int_toks]; [apply lexes_digits..|]. apply lexes_minus, lexes_digits.
Qed.

Lemma c_unary_int env z :
  c_unary env (int_toks z) = if (- 2 ^ 63 <? z) && (z <? 2 ^ 63) then Some (LInt z) else None.
Proof.
  destruct z as [|p|p]; unfold int_toks; cbn [c_unary c_literal]; rewrite ?read_number_digits.
  - done.
  - rewrite Z2N.id by lia. unfold with_type.
    destruct (Z.ltb_spec (Zpos p) (2 ^ 63)); rewrite ?andb_false_r, ?andb_true_r; [|done].
    replace (- 2 ^ 63 <=? Zpos p) with true by lia. by replace (- 2 ^ 63 <? Zpos p) with true by lia.
  - change (Ascii.eqb "-"%char "-"%char) with true. cbn match.
    unfold with_type. rewrite N2Z.inj_abs_N.
    replace (Z.abs (Zneg p)) with (- Zneg p) by lia.
    assert (Hneg : Zneg p < 0) by lia. revert Hneg. generalize (Zneg p) as z. intros z Hneg.
    replace (- 2 ^ 63 <=? - z) with true by lia. cbn [andb].
    replace (- z <? 2 ^ 63) with (- 2 ^ 63 <? z) by lia.
    destruct (Z.ltb_spec (- 2 ^ 63) (z)); cbn [andb]; [|done].
    rewrite Z.opp_involutive.
    replace (- 2 ^ 63 <=? z) with true by lia. by replace (z <? 2 ^ 63) with true by lia.
Qed.

(** The type that C# gives it. *)
Definition cs_type (z : Z) : option slit :=
  if (- 2 ^ 31 <=? z) && (z <? 2 ^ 31) then Some (SZ SInt z)
  else if (2 ^ 31 <=? z) && (z <? 2 ^ 32) then Some (SZ SUint z)
  else if (- 2 ^ 63 <=? z) && (z <? 2 ^ 63) then Some (SZ SLong z)
  else if (2 ^ 63 <=? z) && (z <? 2 ^ 64) then Some (SZ SUlong z)
  else None.

Lemma cs_unary_int z : cs_unary (int_toks z) = cs_type z.
Proof.
  assert (Hpos : forall n, cs_integer n = cs_type (Z.of_N n)).
  { intros n. unfold cs_integer, cs_type.
    replace (- 2 ^ 31 <=? Z.of_N n) with true by lia.
    replace (- 2 ^ 63 <=? Z.of_N n) with true by lia. cbn [andb].
    destruct (Z.ltb_spec (Z.of_N n) (2 ^ 31)); [done|].
    replace (2 ^ 31 <=? Z.of_N n) with true by lia. cbn [andb].
    destruct (Z.ltb_spec (Z.of_N n) (2 ^ 32)); [done|].
    destruct (Z.ltb_spec (Z.of_N n) (2 ^ 63)); [done|].
    replace (2 ^ 63 <=? Z.of_N n) with true by lia. done. }
  destruct z as [|p|p]; unfold int_toks; cbn [cs_unary cs_literal]; rewrite ?read_number_digits.
  - done.
  - rewrite Hpos. by rewrite Z2N.id by lia.
  - change (Ascii.eqb "-"%char "-"%char) with true. cbn match.
    rewrite Hpos, N2Z.inj_abs_N. replace (Z.abs (Zneg p)) with (- Zneg p) by lia.
    assert (Hneg : Zneg p < 0) by lia. revert Hneg. generalize (Zneg p) as z. intros z Hneg.
    unfold cs_type.
    replace (- 2 ^ 31 <=? - z) with true by lia.
    replace (- 2 ^ 63 <=? - z) with true by lia.
    replace (z <? 2 ^ 31) with true by lia.
    replace (z <? 2 ^ 63) with true by lia.
    replace (2 ^ 31 <=? z) with false by lia.
    replace (2 ^ 63 <=? z) with false by lia.
    cbn [andb]. rewrite !andb_true_r.
    destruct (Z.ltb_spec (- z) (2 ^ 31)).
    { replace (- 2 ^ 31 <=? z) with true by lia. by rewrite Z.opp_involutive. }
    replace (2 ^ 31 <=? - z) with true by lia. cbn [andb].
    destruct (Z.ltb_spec (- z) (2 ^ 32)).
    { rewrite Z.opp_involutive.
      destruct (Z.eqb_spec (- z) (2 ^ 31)).
      - by replace (- 2 ^ 31 <=? z) with true by lia.
      - replace (- 2 ^ 31 <=? z) with false by lia.
        by replace (- 2 ^ 63 <=? z) with true by lia. }
    replace (- 2 ^ 31 <=? z) with false by lia.
    destruct (Z.ltb_spec (- z) (2 ^ 63)).
    { rewrite Z.opp_involutive. by replace (- 2 ^ 63 <=? z) with true by lia. }
    replace (2 ^ 63 <=? - z) with true by lia. cbn [andb].
    destruct (Z.ltb_spec (- z) (2 ^ 64)).
    { destruct (Z.eqb_spec (- z) (2 ^ 63)).
      - rewrite Z.opp_involutive. by replace (- 2 ^ 63 <=? z) with true by lia.
      - by replace (- 2 ^ 63 <=? z) with false by lia. }
    by replace (- 2 ^ 63 <=? z) with false by lia.
Qed.

(** ** Decimals *)

Lemma read_point octal i f tail x :
  Forall (fun d => (d < 10)%N) i -> Forall (fun d => (d < 10)%N) f -> i <> [] ->
  no_digit tail -> exponent tail = Some x ->
  read_number octal (dtext i ++ "."%char :: dtext f ++ tail)
  = Some (NDec (q10 (in_base 10 (i ++ f)) (default 0 x - Z.of_nat (length f)))).
Proof.
  intros Hi Hf Hn Ht Hx. unfold read_number. rewrite after_0x_digits by done.
  unfold read_decimal. rewrite span_digits by done. cbn [read_fraction].
  change (Ascii.eqb "."%char "."%char) with true. cbn match. rewrite span_digits by done.
  rewrite Hx. destruct i as [|d i]; [done|]. done.
Qed.

Lemma read_exp octal i z :
  Forall (fun d => (d < 10)%N) i -> i <> [] ->
  read_number octal (dtext i ++ "e"%char :: debug_int z) = Some (NDec (q10 (in_base 10 i) z)).
Proof.
  intros Hi Hn. unfold read_number. rewrite after_0x_digits by done.
  unfold read_decimal. rewrite span_digits by done.
  change (read_fraction ("e"%char :: debug_int z)) with (@nil N, "e"%char :: debug_int z, false).
  cbn match. rewrite exponent_debug. destruct i as [|d i]; [done|].
  cbn [app]. rewrite app_nil_r. cbn [length default]. do 2 f_equal. unfold q10. do 2 f_equal. cbn. lia.
Qed.

Definition dec_value (ds : list N) (k : Z) : Q := q10 (in_base 10 ds) (k - Z.of_nat (length ds)).

Definition wf_digits (ds : list N) : Prop :=
  ds <> [] /\ Forall (fun d => (d < 10)%N) ds.

Lemma dtext_app a b : dtext (a ++ b) = dtext a ++ dtext b.
Proof. apply map_app. Qed.

Lemma dec_text_reads octal ds k : wf_digits ds ->
  exists q, read_number octal (dec_text ds k) = Some (NDec q) /\ (q == dec_value ds k)%Q.
Proof.
  intros [Hn Hs]. unfold dec_text, dec_value.
  destruct (Z.leb_spec k 0) as [Hk|Hk]; [|destruct (Z.ltb_spec k (Z.of_nat (length ds))) as [Hl|Hl]].
  - pose proof (read_point octal [0%N] (zeros (Z.to_nat (- k)) ++ ds) [] None) as H.
    rewrite app_nil_r, (dtext_app (zeros _)) in H.
    eexists. split.
    + apply H; try done; [by repeat constructor|]. apply Forall_app. split; [apply zeros_small|done].
    + cbn [default]. rewrite (in_base_app [0%N]), in_base_app, in_base_zeros, app_length, zeros_length.
      change (in_base 10 [0%N]) with 0%N. rewrite !N.mul_0_l, !N.add_0_l.
      replace (0 - Z.of_nat (Z.to_nat (- k) + length ds)) with (k - Z.of_nat (length ds)) by lia. done.
  - pose proof (read_point octal (take (Z.to_nat k) ds) (drop (Z.to_nat k) ds) [] None) as H.
    rewrite app_nil_r in H. eexists. split.
    + apply H; try done; [by apply Forall_take|by apply Forall_drop|].
      destruct ds as [|d ds]; [done|]. destruct (Z.to_nat k) eqn:E; [lia|done].
    + rewrite take_drop. cbn [default]. rewrite drop_length.
      replace (0 - Z.of_nat (length ds - Z.to_nat k)) with (k - Z.of_nat (length ds)) by lia. done.
  - set (j := (Z.to_nat k - length ds)%nat).
    pose proof (read_point octal (ds ++ zeros j) [0%N] [] None) as H.
    rewrite app_nil_r, dtext_app in H. eexists. split.
    + rewrite app_assoc. apply H; try done; [|by repeat constructor|].
      * apply Forall_app. split; [done|apply zeros_small].
      * destruct ds; done.
    + cbn [default length]. rewrite <-app_assoc, in_base_app.
      assert (E0 : in_base 10 (zeros j ++ [0%N]) = 0%N) by by rewrite in_base_app, in_base_zeros.
      rewrite E0, N.add_0_r, app_length, zeros_length. cbn [length].
      rewrite <-(q10_scale _ (N.of_nat (j + 1)) (k - Z.of_nat (length ds))).
      replace (k - Z.of_nat (length ds) - Z.of_N (N.of_nat (j + 1))) with (0 - Z.of_nat 1)
        by (subst j; lia). done.
Qed.

Lemma exp_text_reads octal ds k : wf_digits ds ->
  exists q, read_number octal (exp_text ds k) = Some (NDec q) /\ (q == dec_value ds k)%Q.
Proof.
  intros [Hn Hs]. unfold dec_value. destruct ds as [|d [|d' ds]]; [done| |].
  - pose proof (read_exp octal [d] (k - 1) Hs ltac:(done)) as H. eexists. split; [exact H|].
    cbn [length]. done.
  - inversion Hs as [|? ? Hd Hs']; subst.
    pose proof (read_point octal [d] (d' :: ds) ("e"%char :: debug_int (k - 1)) (Some (k - 1))) as H.
    eexists. split.
    + apply H; try done; [by repeat constructor|]. apply exponent_debug.
    + cbn [default app]. cbn [length].
      unfold id. replace (k - 1 - Z.of_nat (S (length ds))) with (k - Z.of_nat (S (S (length ds)))) by lia. done.
Qed.

Lemma forallb_app_t {A} (f : A -> bool) a b : forallb f a = true -> forallb f b = true -> forallb f (a ++ b) = true.
Proof. intros Ha Hb. rewrite forallb_app, Ha, Hb. done. Qed.

Lemma lexes_starting t : (exists d x, t = dchar d :: x /\ (d < 10)%N /\ forallb numchar x = true) -> lexes t [KNum t].
Proof. intros (d & x & -> & Hd & Hx). by apply lexes_num. Qed.

Lemma dec_text_lexes ds k : wf_digits ds -> lexes (dec_text ds k) [KNum (dec_text ds k)].
Proof.
  intros [Hn Hs]. apply lexes_starting. unfold dec_text.
  destruct (Z.leb_spec k 0) as [Hk|Hk]; [|destruct (Z.ltb_spec k (Z.of_nat (length ds))) as [Hl|Hl]].
  - exists 0%N. eexists. split; [reflexivity|]. split; [lia|].
    cbn [forallb]. apply forallb_app_t; apply numchar_dtext; [apply zeros_small|done].
  - destruct ds as [|d ds]; [done|]. inversion Hs; subst.
    destruct (Z.to_nat k) as [|j] eqn:E; [lia|]. cbn [take drop dtext map app].
    exists d. eexists. split; [reflexivity|]. split; [done|].
    apply forallb_app_t; [apply numchar_dtext; by apply Forall_take|].
    cbn [forallb]. apply numchar_dtext. by apply Forall_drop.
  - destruct ds as [|d ds]; [done|]. inversion Hs; subst. cbn [dtext map app].
    exists d. eexists. split; [reflexivity|]. split; [done|].
    apply forallb_app_t; [by apply numchar_dtext|]. apply forallb_app_t; [|done].
    apply numchar_dtext, zeros_small.
Qed.

Lemma exp_text_lexes ds k : wf_digits ds -> lexes (exp_text ds k) [KNum (exp_text ds k)].
Proof.
  intros [Hn Hs].
  assert (H : forall d x, (d < 10)%N -> forallb numchar x = true ->
    lexes (dchar d :: x ++ "e"%char :: debug_int (k - 1)) [KNum (dchar d :: x ++ "e"%char :: debug_int (k - 1))]).
  { intros d x Hd Hx. destruct (k - 1) as [|p|p]; cbn [debug_int].
    - apply lexes_num; [done|]. apply forallb_app_t; done.
    - apply lexes_num; [done|]. apply forallb_app_t; [done|]. cbn [forallb].
      apply numchar_dtext, digits_small.
    - apply lexes_num_exp; [done..|]. apply digits_small. }
  destruct ds as [|d [|d' ds]]; [done| |]; inversion Hs; subst.
  - apply (H d []); done.
  - cbn [exp_text app]. specialize (H d ("."%char :: dtext (d' :: ds))).
    apply H; [done|]. cbn [forallb]. by apply numchar_dtext.
Qed.

Definition num_text (e : bool) (ds : list N) (k : Z) : text := if e then exp_text ds k else dec_text ds k.

Lemma num_text_reads octal e ds k : wf_digits ds ->
  exists q, read_number octal (num_text e ds k) = Some (NDec q) /\ (q == dec_value ds k)%Q.
Proof. destruct e; [apply exp_text_reads|apply dec_text_reads]. Qed.
Lemma num_text_lexes e ds k : wf_digits ds -> lexes (num_text e ds k) [KNum (num_text e ds k)].
Proof. destruct e; [apply exp_text_lexes|apply dec_text_lexes]. Qed.

Lemma lexes_signed s t T : lexes t T -> lexes (sign_text s ++ t) ((if s then [KP "-"%char] else []) ++ T).
Proof. destruct s; [apply lexes_minus|done]. Qed.

Definition float_toks (form : fform) : list ctok :=
  match form with
  | FNan => [KId (tx "NaN")]
  | FInf s => (if s then [KP "-"%char] else []) ++ [KId (tx "inf")]
  | FZero s => (if s then [KP "-"%char] else []) ++ [KNum (tx "0.0")]
  | FDec s e ds k => (if s then [KP "-"%char] else []) ++ [KNum (num_text e ds k)]
  end.

Lemma lexes_float d f form : wf_float d f form -> lexes (debug_float form) (float_toks form).
Proof.
  destruct form as [|s|s|s e ds k]; cbn [debug_float float_toks wf_float]; intros H.
  - by apply lexes_ident.
  - by apply lexes_signed, lexes_ident.
  - apply lexes_signed. by apply (lexes_num 0 (tx ".0")).
  - destruct H as (Hd & Hs & _). apply lexes_signed, num_text_lexes. split; [|done]. by destruct ds.
Qed.

(** What a finite float reads as, in C and in C#: a double. *)
Definition as_double (form : fform) : option spec_float :=
  match form with
  | FNan | FInf _ => None
  | FZero s => Some (S754_zero s)
  | FDec s _ ds k => Some (signed s (round_q true (dec_value ds k)))
  end.

Lemma c_unary_float env d f form : wf_float d f form ->
  match as_double form with
  | Some x => c_unary env (float_toks form) = Some (LDouble x)
  | None => forall x, c_unary env (float_toks form) <> Some (LDouble x)
  end.
Proof.
  destruct form as [|s|s|s e ds k]; cbn [as_double float_toks wf_float]; intros H.
  - intros x. cbn [c_unary c_literal]. rewrite !bool_decide_eq_false_2 by done.
    destruct (env _); [|done]. unfold with_type. by case_match.
  - intros x. destruct s; cbn [app c_unary c_literal]; rewrite !bool_decide_eq_false_2 by done;
      (destruct (env _); [|done]); unfold with_type.
    + change (Ascii.eqb "-"%char "-"%char) with true. cbn match. repeat (case_match; simplify_eq); done.
    + by repeat (case_match; simplify_eq).
  - destruct s; done.
  - destruct H as (Hd & Hs & _). assert (Hw : wf_digits ds) by (split; [by destruct ds|done]).
    destruct (num_text_reads true e ds k Hw) as (q & Hq & Eq).
    destruct s; cbn [app c_unary c_literal signed]; rewrite Hq, (round_q_eq _ _ _ Eq); done.
Qed.

Lemma cs_unary_float d f form : wf_float d f form ->
  cs_unary (float_toks form) = match as_double form with Some x => Some (SD x) | None => None end.
Proof.
  destruct form as [|s|s|s e ds k]; cbn [as_double float_toks wf_float]; intros H.
  - done.
  - destruct s; done.
  - destruct s; done.
  - destruct H as (Hd & Hs & _). assert (Hw : wf_digits ds) by (split; [by destruct ds|done]).
    destruct (num_text_reads false e ds k Hw) as (q & Hq & Eq).
    destruct s; cbn [app cs_unary cs_literal signed]; rewrite Hq, (round_q_eq _ _ _ Eq); done.
Qed.

(** ** Types *)

Definition tk (t : tok) : option ctok :=
  match t with
  | TkId s => if identb (tx s) then Some (KId (tx s)) else None
  | TkStar => Some (KP "*"%char)
  | _ => None
  end.
Definition plain (l : list tok) (T : list ctok) : Prop := Forall2 (fun t k => tk t = Some k) l T.

Lemma lexes_app a A b B : lexes a A -> lexes b B -> (forall rest, stops rest -> stops (b ++ rest)) -> lexes (a ++ b) (A ++ B).
Proof.
  intros Ha Hb Hs rest Hr. rewrite <-app_assoc, Ha by by apply Hs. rewrite Hb by done. by rewrite app_assoc.
Qed.

Lemma stop_blank : stop sp.
Proof. done. Qed.

Lemma lexes_blank b B : lexes b B -> lexes (sp :: b) (KBlank :: B).
Proof. intros H rest Hr. cbn [app lex goes_on]. change (is_blank sp) with true. cbn match. cbn [flush app]. by rewrite H. Qed.

Lemma tk_lexes t k : tk t = Some k -> lexes (tok_text t) [k].
Proof.
  destruct t; cbn [tk tok_text]; try done.
  - destruct (identb (tx s)) eqn:E; [|done]. intros [= <-]. by apply lexes_ident.
  - intros [= <-] rest Hr. done.
Qed.

Lemma tk_not_blank t k : tk t = Some k -> not_blank k = true.
Proof. destruct t; cbn [tk]; try done; [case_match|]; by intros [= <-]. Qed.
Lemma tk_no_close t k c : tk t = Some k -> Ascii.eqb c "*"%char = false -> k <> KP c.
Proof.
  destruct t; cbn [tk]; try done; [case_match; [|done]|]; intros [= <-]; [done|].
  intros Hc [= <-]. done.
Qed.

Lemma toks_lexes l T : plain l T ->
  exists T', lexes (toks_text l) T' /\ List.filter not_blank T' = T
    /\ Forall (fun k => k = KBlank \/ k ∈ T) T'.
Proof.
  induction 1 as [|t k l T Ht Hl IH].
  - exists []. split; [intros rest _; done|]. done.
  - destruct IH as (T' & L & F & A). inversion Hl as [|t2 k2 l2 T2 Ht2 Hl2]; subst.
    + exists [k]. split; [by apply tk_lexes|]. cbn [List.filter].
      rewrite (tk_not_blank _ _ Ht). split.
      * done.
      * constructor; [right; by left|constructor].
    + exists ([k] ++ KBlank :: T'). split; [|split].
      * change (toks_text (t :: t2 :: l2)) with (tok_text t ++ sp :: toks_text (t2 :: l2)).
        apply lexes_app; [by apply tk_lexes|by apply lexes_blank|done].
      * cbn [app List.filter]. rewrite (tk_not_blank _ _ Ht). cbn [not_blank]. by f_equal.
      * cbn [app]. constructor; [right; by left|]. constructor; [by left|].
        eapply Forall_impl; [exact A|]. intros x [->|Hx]; [by left|]. right. rewrite H0. by apply elem_of_list_further.
Qed.

Lemma suffixed_ident n : ident (tx n) -> ident (tx (suffixed n)).
Proof.
  unfold suffixed, ident, tx. intros H.
  assert (E : list_ascii_of_string (n +:+ "_t") = list_ascii_of_string n ++ tx "_t").
  { clear. induction n as [|c n IH]; [done|]. change (c :: list_ascii_of_string (n +:+ "_t") = c :: (list_ascii_of_string n ++ tx "_t")). by rewrite IH. }
  rewrite E. revert H. destruct (list_ascii_of_string n) as [|c x]; [done|].
  cbn [identb app]. intros H. apply andb_true_iff in H as [Ha Hx]. rewrite Ha. cbn [andb].
  change (c :: x ++ tx "_t") with ((c :: x) ++ tx "_t"). rewrite forallb_app, Hx. done.
Qed.

Lemma append_empty n : n +:+ "" = n.
Proof. induction n as [|c n IH]; [done|]. change (String c (n +:+ "") = String c n). by rewrite IH. Qed.

Lemma plain_app a A b B : plain a A -> plain b B -> plain (a ++ b) (A ++ B).
Proof. apply Forall2_app. Qed.
Lemma plain_id s : ident (tx s) -> plain [TkId s] [KId (tx s)].
Proof. intros H. repeat constructor. cbn [tk]. unfold ident in H. by rewrite H. Qed.

Lemma c_var_nil t v : simple t -> c_var t v = c_var t [] ++ v.
Proof.
  destruct t as [| | | | | |[] t| | |? [|] ?| | |]; cbn [simple]; try done; intros _; cbn [c_var];
    by rewrite <-app_assoc.
Qed.

Lemma c_var_plain t : simple t -> exists x T, plain (c_var t []) (KId x :: T)
  /\ Forall (fun k => is_KId k || is_star k = true) (KId x :: T).
Proof.
  induction t as [i|d| | | | |c t IH| | |n gs fs|n int| |n]; cbn [simple]; try done; intros H.
  - exists (tx (suffixed (int_name i))), []. cbn [c_var]. split; [apply plain_id; by destruct i|]. by repeat constructor.
  - eexists _, []. cbn [c_var]. split; [apply plain_id; by destruct d|]. by repeat constructor.
  - eexists _, []. cbn [c_var]. split; [by apply plain_id|]. by repeat constructor.
  - eexists _, []. cbn [c_var]. split; [by apply plain_id|]. by repeat constructor.
  - eexists _, []. cbn [c_var]. split; [by apply plain_id|]. by repeat constructor.
  - eexists _, []. cbn [c_var]. split; [by apply plain_id|]. by repeat constructor.
  - destruct (IH H) as (x & T & Hp & Hf). destruct c; cbn [c_var].
    + exists x, (T ++ [KId (tx "const"); KP "*"%char]). split.
      * change (KId x :: T ++ [KId (tx "const"); KP "*"%char]) with ((KId x :: T) ++ [KId (tx "const"); KP "*"%char]).
        apply plain_app; [done|]. repeat constructor.
      * change (KId x :: T ++ [KId (tx "const"); KP "*"%char]) with ((KId x :: T) ++ [KId (tx "const"); KP "*"%char]).
        apply Forall_app. split; [done|]. by repeat constructor.
    + exists x, (T ++ [KP "*"%char]). split.
      * change (KId x :: T ++ [KP "*"%char]) with ((KId x :: T) ++ [KP "*"%char]).
        apply plain_app; [done|]. repeat constructor.
      * change (KId x :: T ++ [KP "*"%char]) with ((KId x :: T) ++ [KP "*"%char]).
        apply Forall_app. split; [done|]. by repeat constructor.
  - destruct gs; [|done]. eexists _, []. cbn [c_var short]. split.
    + apply plain_id, suffixed_ident. by rewrite append_empty.
    + by repeat constructor.
  - eexists _, []. cbn [c_var short]. split; [by apply plain_id, suffixed_ident|]. by repeat constructor.
  - eexists _, []. cbn [c_var short]. split; [by apply plain_id, suffixed_ident|]. by repeat constructor.
Qed.

(** ** Whole lines *)

Lemma filter_plain (D : list ctok) : Forall (fun k => not_blank k = true) D -> List.filter not_blank D = D.
Proof. induction 1 as [|k D Hk _ IH]; [done|]. cbn [List.filter]. by rewrite Hk, IH. Qed.

Lemma split_at_app c A B : Forall (fun k => k <> KP c) A -> split_at c (A ++ KP c :: B) = Some (A, B).
Proof.
  induction 1 as [|k A Hk _ IH]; cbn [app split_at].
  - by rewrite bool_decide_eq_true_2.
  - rewrite bool_decide_eq_false_2 by done. by rewrite IH.
Qed.
Lemma unsnoc_app A k : unsnoc (A ++ [k]) = Some (A, k).
Proof.
  induction A as [|a A IH]; [done|]. cbn [app].
  destruct (A ++ [k]) as [|b l] eqn:E; [by destruct A|]. cbn [unsnoc] in *. by rewrite IH.
Qed.

Lemma tx_app a b : tx (a +:+ b) = tx a ++ tx b.
Proof.
  unfold tx. induction a as [|c a IH]; [done|].
  change (c :: list_ascii_of_string (a +:+ b) = c :: (list_ascii_of_string a ++ list_ascii_of_string b)).
  by rewrite IH.
Qed.

Lemma plain_no_close l T c : plain l T -> Ascii.eqb c "*"%char = false -> Forall (fun k => k <> KP c) T.
Proof. intros H Hc. induction H as [|t k l T Ht _ IH]; constructor; [|done]. eapply tk_no_close; eauto. Qed.

(** The tokens at the start of a macro. *)
Lemma lex_define name rest : ident name ->
  lex L0 (tx "#define " ++ name ++ sp :: rest)
  = KP "#"%char :: KId (tx "define") :: KBlank :: KId name :: KBlank :: lex L0 rest.
Proof.
  intros Hn.
  assert (E : lex L0 (tx "#define " ++ name ++ sp :: rest)
    = KP "#"%char :: KId (tx "define") :: KBlank :: lex L0 (name ++ sp :: rest)) by done.
  rewrite E, (lexes_ident name Hn (sp :: rest)) by done. done.
Qed.

Lemma read_typed env w name v T D :
  ident name -> plain (c_var (type_of v) []) T -> lexes (debug_text v) D ->
  Forall (fun k => not_blank k = true) D ->
  read_c env w (emit_c name false v)
  = match read_type T, c_unary env D with
    | Some t, Some x => match c_cast w t x with Some c => Some (name, c) | None => None end
    | _, _ => None
    end.
Proof.
  intros Hn Ht Hd Hb. destruct (toks_lexes _ _ Ht) as (T' & L & F & A).
  unfold read_c, tokens, emit_c.
  change (tx " ((" ++ ?l) with (sp :: "("%char :: "("%char :: l).
  rewrite lex_define by done.
  assert (E : lex L0 ("("%char :: "("%char :: c_name (type_of v) ++ tx ") " ++ debug_text v ++ tx ")")
    = KP "("%char :: KP "("%char :: T' ++ KP ")"%char :: KBlank :: D ++ [KP ")"%char]).
  { change (lex L0 ("("%char :: "("%char :: ?l)) with (KP "("%char :: KP "("%char :: lex L0 l).
    do 2 f_equal. unfold c_name. rewrite L by done. f_equal.
    change (lex L0 (tx ") " ++ ?l)) with (KP ")"%char :: KBlank :: lex L0 l). do 2 f_equal.
    rewrite Hd by done. done. }
  rewrite E. rewrite bool_decide_eq_true_2 by done.
  cbn [List.filter not_blank]. rewrite List.filter_app, F. cbn [List.filter not_blank].
  rewrite List.filter_app, (filter_plain D) by done. cbn [List.filter not_blank c_body].
  rewrite split_at_app by (eapply plain_no_close; [exact Ht|done]).
  rewrite unsnoc_app. destruct (read_type T); [|done]. destruct (c_unary env D); [|done].
  by destruct (c_cast w _ _).
Qed.

(** Without a type. *)
Definition no_paren (D : list ctok) : Prop :=
  match D with KP c :: _ => c = "-"%char | _ => True end.

Lemma read_untyped env w name v D :
  ident name -> lexes (debug_text v) D -> Forall (fun k => not_blank k = true) D -> no_paren D ->
  read_c env w (emit_c name true v)
  = match c_unary env D with
    | Some (LInt z) => Some (name, CI (if fits 32 true z then RCInt else RLong) z)
    | Some (LDouble f) => Some (name, CF true f)
    | None => None
    end.
Proof.
  intros Hn Hd Hb Hp. unfold read_c, tokens, emit_c. rewrite lex_define by done.
  specialize (Hd [] I). rewrite app_nil_r in Hd. rewrite Hd. cbn [lex flush]. rewrite app_nil_r.
  rewrite bool_decide_eq_true_2 by done. rewrite filter_plain by done.
  assert (E : c_body env w D = match c_unary env D with
      | Some (LInt z) => Some (CI (if fits 32 true z then RCInt else RLong) z)
      | Some (LDouble f) => Some (CF true f)
      | None => None
      end).
  { destruct D as [|[| | |c] D]; try done. cbn in Hp. subst c. done. }
  rewrite E. destruct (c_unary env D) as [[]|]; done.
Qed.

Lemma read_csharp native name v T D :
  ident name -> plain (csharp_ty (type_of v)) T -> lexes (debug_text v) D ->
  Forall (fun k => not_blank k = true) D ->
  exists line, emit_cs name false v = Some line /\
  read_cs native line
  = match cs_read_type T, cs_unary D with
    | Some t, Some x => match cs_implicit native t x with Some c => Some (name, c) | None => None end
    | _, _ => None
    end.
Proof.
  intros Hn Ht Hd Hb. destruct (toks_lexes _ _ Ht) as (T' & L & F & A).
  eexists. split; [reflexivity|]. unfold read_cs, tokens.
  set (rest := cs_name (type_of v) ++ sp :: name ++ tx " = " ++ debug_text v ++ tx ";").
  assert (E : lex L0 (tx "public const " ++ rest)
     = KId (tx "public") :: KBlank :: KId (tx "const") :: KBlank :: lex L0 rest) by done.
  rewrite E.
  assert (E2 : lex L0 rest = T' ++ KBlank :: KId name :: KBlank :: KP "="%char :: KBlank :: D ++ [KP ";"%char]).
  { unfold rest, cs_name. rewrite L by done. f_equal.
    change (lex L0 (sp :: ?l)) with (KBlank :: lex L0 l). f_equal.
    rewrite (lexes_ident name Hn) by done. cbn [app]. f_equal.
    change (lex L0 (tx " = " ++ ?l)) with (KBlank :: KP "="%char :: KBlank :: lex L0 l). do 3 f_equal.
    rewrite Hd by done. done. }
  rewrite E2. cbn [List.filter not_blank]. rewrite List.filter_app, F.
  cbn [List.filter not_blank]. rewrite List.filter_app, (filter_plain D) by done. cbn [List.filter not_blank].
  rewrite bool_decide_eq_true_2 by done.
  change (T ++ KId name :: KP "="%char :: D ++ [KP ";"%char]) with (T ++ [KId name] ++ KP "="%char :: D ++ [KP ";"%char]).
  rewrite app_assoc, split_at_app.
  - rewrite !unsnoc_app. done.
  - apply Forall_app. split; [eapply plain_no_close; [exact Ht|done]|]. by repeat constructor.
Qed.

(** ** Which constants are right *)

Lemma int_toks_plain z : Forall (fun k => not_blank k = true) (int_toks z).
Proof. destruct z; by repeat constructor. Qed.
Lemma float_toks_plain f : Forall (fun k => not_blank k = true) (float_toks f).
Proof. destruct f as [|[]|[]|[]]; by repeat constructor. Qed.
Lemma int_toks_paren z : no_paren (int_toks z).
Proof. by destruct z. Qed.
Lemma float_toks_paren f : no_paren (float_toks f).
Proof. by destruct f as [|[]|[]|[]]. Qed.

Lemma bool_lexes (b : bool) : lexes (tx (if b then "true" else "false")) [KId (tx (if b then "true" else "false"))].
Proof. apply lexes_ident. by destruct b. Qed.

Lemma char_lexes n : lexes (tx "c_char(" ++ dtext (digits n) ++ tx ")")
  [KId (tx "c_char"); KP "("%char; KNum (dtext (digits n)); KP ")"%char].
Proof.
  intros rest Hr.
  change ((tx "c_char(" ++ dtext (digits n) ++ tx ")") ++ rest)
    with (tx "c_char(" ++ (dtext (digits n) ++ tx ")") ++ rest).
  change (lex L0 (tx "c_char(" ++ ?l)) with (KId (tx "c_char") :: KP "("%char :: lex L0 l).
  rewrite <-app_assoc, lexes_digits by done. done.
Qed.

Lemma null_lexes : lexes (tx "0x0") [KNum (tx "0x0")].
Proof. by apply (lexes_num 0 (tx "x0")). Qed.

Lemma in_range_mod w i z : in_range w i z = true -> is_signed i = false -> z mod 2 ^ bits w i = z.
Proof. unfold in_range, fits. intros H E. rewrite E in H. apply Z.mod_small. lia. Qed.

Lemma plain_1 s : ident (tx s) -> plain [TkId s] [KId (tx s)].
Proof. apply plain_id. Qed.

Lemma read_type_ptr x T k : Forall (fun k => is_KId k || is_star k = true) (KId x :: T) -> is_star k = true ->
  read_type ((KId x :: T) ++ [k]) = Some RPtr.
Proof.
  intros H Hk. assert (E : exists b l, (KId x :: T) ++ [k] = KId x :: b :: l).
  { destruct T; cbn [app]; eauto. }
  destruct E as (b & l & E). rewrite E. cbn [read_type]. rewrite <-E.
  rewrite last_snoc, Hk, andb_true_r.
  replace (forallb _ _) with true; [done|]. symmetry. apply forallb_forall.
  intros y Hy. apply in_app_iff in Hy as [Hy|[<-|[]]].
  - rewrite Forall_forall in H. apply H. by apply elem_of_list_In.
  - by rewrite Hk, orb_true_r.
Qed.

Lemma ptr_type c t : simple t -> exists T, plain (c_var (TPtr c t) []) T /\ read_type T = Some RPtr.
Proof.
  intros H. destruct (c_var_plain t H) as (x & T & Hp & Hf). destruct c; cbn [c_var].
  - exists ((KId x :: T ++ [KId (tx "const")]) ++ [KP "*"%char]). split.
    + change (c_var t [] ++ [TkId "const"; TkStar]) with (c_var t [] ++ [TkId "const"] ++ [TkStar]).
      rewrite app_assoc. apply plain_app; [|repeat constructor].
      change (KId x :: T ++ [KId (tx "const")]) with ((KId x :: T) ++ [KId (tx "const")]).
      apply plain_app; [done|]. by apply plain_id.
    + apply read_type_ptr; [|done].
      change (KId x :: T ++ [KId (tx "const")]) with ((KId x :: T) ++ [KId (tx "const")]).
      apply Forall_app. split; [done|]. by repeat constructor.
  - exists ((KId x :: T) ++ [KP "*"%char]). split.
    + apply plain_app; [done|]. repeat constructor.
    + by apply read_type_ptr.
Qed.

Theorem c_declares_iff env w name v : ident name -> wf w v ->
  c_declares env w (emit_c name false v) name v <-> c_right env v.
Proof.
  intros Hn Hw. unfold c_declares.
  destruct v as [i z|b|d f form|z|n|c t|v|t|t vs|n fs|n int c z]; cbn [wf means c_right] in *.
  - rewrite (read_typed env w name _ [KId (tx (suffixed (int_name i)))] (int_toks z));
      [|done|by (destruct i; apply plain_1)|apply lexes_int|apply int_toks_plain].
    rewrite c_unary_int.
    assert (Et : read_type [KId (tx (suffixed (int_name i)))] = Some (ROf i)) by by destruct i.
    rewrite Et. split.
    + intros (c & Hr & _). destruct (Z.ltb_spec (- 2 ^ 63) z), (Z.ltb_spec z (2 ^ 63)); cbn [andb] in Hr; done.
    + intros Hz. replace ((- 2 ^ 63 <? z) && (z <? 2 ^ 63)) with true by lia.
      cbn [c_cast]. rewrite Hw. destruct (is_signed i) eqn:Es; [eauto|].
      rewrite in_range_mod by done. eauto.
  - rewrite (read_typed env w name _ [KId (tx "bool")] [KId (tx (if b then "true" else "false"))]);
      [|done|by apply plain_1|apply bool_lexes|by repeat constructor].
    split; [done|]. intros _. destruct b; eauto.
  - rewrite (read_typed env w name _ [KId (tx (if d then "double" else "float"))] (float_toks form));
      [|done|by (destruct d; apply plain_1)|by eapply lexes_float|apply float_toks_plain].
    assert (Et : read_type [KId (tx (if d then "double" else "float"))] = Some (RFloat d)) by by destruct d.
    rewrite Et. pose proof (c_unary_float env d f form Hw) as Hf.
    destruct form as [|s|s|s e ds k]; cbn [as_double wf_float] in *.
    + split; [|done]. intros (c & Hr & _). destruct (c_unary env _) as [[z|x]|]; [done| |done].
      by destruct (Hf x).
    + split; [|done]. intros (c & Hr & _). destruct (c_unary env _) as [[z|x]|]; [done| |done].
      by destruct (Hf x).
    + rewrite Hf. cbn [c_cast]. split; [done|]. intros _. subst f. destruct d; eauto.
    + rewrite Hf. cbn [c_cast]. destruct Hw as (_ & _ & ->). unfold dec_value. split.
      * intros (c & [= <-] & [= E]). destruct d; [by left|by right].
      * intros [->|E]; [eauto|]. destruct d; [eauto|]. rewrite E. eauto.
  - rewrite (read_typed env w name _ [KId (tx "int")] (int_toks z));
      [|done|by apply plain_1|apply lexes_int|apply int_toks_plain].
    rewrite c_unary_int. split; [done|]. intros _.
    assert (Hz : - 2 ^ 31 <= z < 2 ^ 31) by (unfold fits in Hw; lia).
    replace ((- 2 ^ 63 <? z) && (z <? 2 ^ 63)) with true by lia.
    change (read_type [KId (tx "int")]) with (Some RCInt). cbn [c_cast]. rewrite Hw. eauto.
  - rewrite (read_typed env w name _ [KId (tx "char")]
      [KId (tx "c_char"); KP "("%char; KNum (dtext (digits n)); KP ")"%char]);
      [|done|by apply plain_1|apply char_lexes|by repeat constructor].
    split; [|done]. by intros (c & Hr & _).
  - destruct (ptr_type c t Hw) as (T & Hp & Ht).
    rewrite (read_typed env w name _ T [KNum (tx "0x0")]);
      [|done|done|apply null_lexes|by repeat constructor].
    rewrite Ht. split; [done|]. intros _. eauto.
  - split; [|done]. by intros (? & _ & ?).
  - destruct (ptr_type true t Hw) as (T & Hp & Ht).
    rewrite (read_typed env w name _ T [KId (tx "None")]);
      [|done|done|by apply lexes_ident|by repeat constructor].
    rewrite Ht. cbn [c_unary c_literal]. rewrite !bool_decide_eq_false_2 by done. split.
    + intros (c & Hr & ->). destruct (env _) as [z|]; [|done]. unfold with_type in Hr.
      destruct ((_ <=? z) && _); [|done]. cbn [c_cast] in Hr. congruence.
    + intros ->. eauto.
  - split; [|done]. by intros (? & _ & ?).
  - split; [|done]. by intros (? & _ & ?).
  - destruct Hw as (Hi & Hc & Hz & Hl & _ & Hnt & Hnf).
    rewrite (read_typed env w name _ [KId (tx (suffixed n))] [KId (tx c)]);
      [|done|by apply plain_1, suffixed_ident|by apply lexes_ident|by repeat constructor].
    cbn [read_type]. rewrite Hl. cbn [c_unary c_literal]. rewrite !bool_decide_eq_false_2 by done. split.
    + intros (c' & Hr & ->). destruct (env (tx c)) as [z'|]; [|done]. unfold with_type in Hr.
      destruct ((_ <=? z') && _); [|done]. cbn [c_cast] in Hr. congruence.
    + intros ->. rewrite Hz. cbn [c_cast]. eauto.
Qed.

Theorem c_declares_number_iff env w name v : ident name -> wf w v ->
  c_declares_number env w (emit_c name true v) name v <-> c_number_right env v.
Proof.
  intros Hn Hw. unfold c_declares_number.
  destruct v as [i z|b|d f form|z|n|c t|v|t|t vs|n fs|n int c z]; cbn [wf means_number c_number_right] in *.
  - rewrite (read_untyped env w name _ (int_toks z));
      [|done|apply lexes_int|apply int_toks_plain|apply int_toks_paren].
    rewrite c_unary_int. split.
    + intros (c & Hr & _). destruct (Z.ltb_spec (- 2 ^ 63) z), (Z.ltb_spec z (2 ^ 63)); cbn [andb] in Hr; done.
    + intros Hz. replace ((- 2 ^ 63 <? z) && (z <? 2 ^ 63)) with true by lia. eauto.
  - rewrite (read_untyped env w name _ [KId (tx (if b then "true" else "false"))]);
      [|done|apply bool_lexes|by repeat constructor|done].
    split; [done|]. intros _. destruct b; eexists; (split; [reflexivity|]); eauto.
  - rewrite (read_untyped env w name _ (float_toks form));
      [|done|by eapply lexes_float|apply float_toks_plain|apply float_toks_paren].
    pose proof (c_unary_float env d f form Hw) as Hf.
    destruct form as [|s|s|s e ds k]; cbn [as_double wf_float] in *.
    + split; [|done]. intros (c & Hr & ->). destruct (c_unary env _) as [[z|x]|]; [done| |done].
      by destruct (Hf x).
    + split; [|done]. intros (c & Hr & ->). destruct (c_unary env _) as [[z|x]|]; [done| |done].
      by destruct (Hf x).
    + rewrite Hf. split; [done|]. intros _. subst f. eexists. split; [reflexivity|]. done.
    + rewrite Hf. unfold dec_value. split.
      * intros (c & [= <-] & [= E]). done.
      * intros E. rewrite E. eauto.
  - rewrite (read_untyped env w name _ (int_toks z));
      [|done|apply lexes_int|apply int_toks_plain|apply int_toks_paren].
    rewrite c_unary_int. split; [done|]. intros _.
    assert (Hz : - 2 ^ 31 <= z < 2 ^ 31) by (unfold fits in Hw; lia).
    replace ((- 2 ^ 63 <? z) && (z <? 2 ^ 63)) with true by lia. eauto.
  - rewrite (read_untyped env w name _
      [KId (tx "c_char"); KP "("%char; KNum (dtext (digits n)); KP ")"%char]);
      [|done|apply char_lexes|by repeat constructor|done].
    split; [|done]. by intros (c & Hr & _).
  - rewrite (read_untyped env w name _ [KNum (tx "0x0")]);
      [|done|apply null_lexes|by repeat constructor|done].
    split; [done|]. intros _. eexists. split; [reflexivity|]. eauto.
  - split; [|done]. by intros (? & _ & ?).
  - rewrite (read_untyped env w name _ [KId (tx "None")]);
      [|done|by apply lexes_ident|by repeat constructor|done].
    cbn [c_unary c_literal]. rewrite !bool_decide_eq_false_2 by done. split.
    + intros (c & Hr & t' & ->). destruct (env _) as [z|]; [|done]. unfold with_type in Hr.
      destruct ((_ <=? z) && _); [|done]. congruence.
    + intros ->. eexists. split; [reflexivity|]. eauto.
  - split; [|done]. by intros (? & _ & ?).
  - split; [|done]. by intros (? & _ & ?).
  - destruct Hw as (Hi & Hc & Hz & Hl & _ & Hnt & Hnf).
    rewrite (read_untyped env w name _ [KId (tx c)]);
      [|done|by apply lexes_ident|by repeat constructor|done].
    cbn [c_unary c_literal]. rewrite !bool_decide_eq_false_2 by done. split.
    + intros (c' & Hr & t' & ->). destruct (env (tx c)) as [z'|]; [|done]. unfold with_type in Hr.
      destruct ((_ <=? z') && _); [|done]. congruence.
    + intros ->. rewrite Hz. eauto.
Qed.

Lemma cs_ptr_type t : simple t -> exists T, plain (csharp_ty (TPtr true t)) T /\ cs_read_type T = Some RPtr.
Proof.
  assert (H : simple t -> exists x T, plain (csharp_ty t) (KId x :: T) /\ forallb is_star T = true).
  { induction t as [i|d| | | | |c t IH| | |n gs fs|n int| |n]; cbn [simple]; try done; intros H.
    - exists (tx (csharp_int i)), []. split; [apply plain_id; by destruct i|]. done.
    - eexists _, []. split; [apply plain_id; by destruct d|]. done.
    - eexists _, []. split; [by apply plain_id|]. done.
    - eexists _, []. split; [by apply plain_id|]. done.
    - eexists _, []. split; [by apply plain_id|]. done.
    - eexists _, []. split; [by apply plain_id|]. done.
    - destruct (IH H) as (x & T & Hp & Hf). exists x, (T ++ [KP "*"%char]). split.
      + apply (plain_app _ (KId x :: T)); [done|]. repeat constructor.
      + by rewrite forallb_app, Hf.
    - destruct gs; [|done]. eexists _, []. cbn [csharp_ty short]. split; [|done].
      apply plain_id, suffixed_ident. by rewrite append_empty.
    - eexists _, []. cbn [csharp_ty short]. split; [by apply plain_id, suffixed_ident|]. done.
    - eexists _, []. cbn [csharp_ty short]. split; [by apply plain_id, suffixed_ident|]. done. }
  intros Hs. destruct (H Hs) as (x & T & Hp & Hf). exists (KId x :: T ++ [KP "*"%char]). split.
  - apply (plain_app _ (KId x :: T)); [done|]. repeat constructor.
  - unfold cs_read_type. assert (Ha : forallb is_star (T ++ [KP "*"%char]) = true) by by rewrite forallb_app, Hf.
    rewrite Ha. destruct (T ++ [KP "*"%char]) eqn:E; [by destruct T|done].
Qed.

Theorem cs_declares_iff native name v : ident name -> wf 64 v ->
  (exists line, emit_cs name false v = Some line /\ cs_declares native line name v) <-> cs_right native v.
Proof.
  intros Hn Hw. unfold cs_declares.
  destruct v as [i z|b|d f form|z|n|c t|v|t|t vs|n fs|n int c z]; cbn [wf cs_means means cs_right] in *.
  - destruct (read_csharp native name (VInt i z) [KId (tx (csharp_int i))] (int_toks z)) as (line & El & E);
      [done|by (destruct i; apply plain_1)|apply lexes_int|apply int_toks_plain|].
    rewrite cs_unary_int in E.
    assert (Et : cs_read_type [KId (tx (csharp_int i))] = Some (ROf i)) by by destruct i.
    rewrite Et in E. clear Et. rewrite El.
    assert (Hr : (exists c, read_cs native line = Some (name, c) /\ c = CI (ROf i) z)
       <-> match cs_type z with
           | Some x => match cs_implicit native (ROf i) x with Some c => c = CI (ROf i) z | None => False end
           | None => False
           end).
    { rewrite E. destruct (cs_type z) as [x|].
      - destruct (cs_implicit native (ROf i) x).
        + split; [by intros (? & [= <-] & ?)|]. intros ->. eauto.
        + split; [by intros (? & ? & ?)|done].
      - split; [by intros (? & ? & ?)|done]. }
    assert (Hl : (exists line0, Some line = Some line0 /\
        (exists c, read_cs native line0 = Some (name, c) /\ c = CI (ROf i) z))
       <-> (exists c, read_cs native line = Some (name, c) /\ c = CI (ROf i) z)).
    { split; [by intros (? & [= <-] & ?)|eauto]. }
    rewrite Hl, Hr. clear Hl Hr E El line. pose proof Hw as Hw'. unfold in_range in Hw. unfold cs_type.
    destruct (Z.leb_spec (- 2 ^ 31) z), (Z.ltb_spec z (2 ^ 31)), (Z.leb_spec (2 ^ 31) z),
      (Z.ltb_spec z (2 ^ 32)), (Z.leb_spec (- 2 ^ 63) z), (Z.ltb_spec z (2 ^ 63)), (Z.leb_spec (2 ^ 63) z),
      (Z.ltb_spec z (2 ^ 64)); try lia; cbn [andb];
    destruct i; unfold fits in Hw; cbn [bits is_signed] in Hw; try lia;
    cbn [cs_implicit]; rewrite ?Hw';
    try (split; done);
    try (replace (0 <=? z) with true by lia; split; done);
    try (destruct native; cbn [andb]; split; intros; try done; try lia;
         replace (0 <=? z) with true in * by lia; try done; lia).
  - destruct (read_csharp native name (VBool b) [KId (tx "bool")] [KId (tx (if b then "true" else "false"))])
      as (line & El & E); [done|by apply plain_1|apply bool_lexes|by repeat constructor|].
    rewrite El. split; [done|]. intros _. eexists. split; [reflexivity|]. rewrite E. destruct b; eauto.
  - destruct (read_csharp native name (VFloat d f form) [KId (tx (if d then "double" else "float"))] (float_toks form))
      as (line & El & E);
      [done|by (destruct d; apply plain_1)|by eapply lexes_float|apply float_toks_plain|].
    rewrite (cs_unary_float d f form Hw) in E.
    assert (Et : cs_read_type [KId (tx (if d then "double" else "float"))] = Some (RFloat d)) by by destruct d.
    rewrite Et in E. rewrite El. split.
    + intros (? & [= <-] & c & Hr & ->). rewrite E in Hr.
      destruct form as [|s|s|s e ds k]; cbn [as_double cs_implicit] in Hr; destruct d; done.
    + intros [-> Hf]. eexists. split; [reflexivity|]. rewrite E.
      destruct form as [|s|s|s e ds k]; cbn [as_double cs_implicit wf_float] in *; try done.
      * subst. eauto.
      * destruct Hw as (_ & _ & ->). eauto.
  - destruct (read_csharp native name (VCInt z) [KId (tx "int")] (int_toks z)) as (line & El & E);
      [done|by apply plain_1|apply lexes_int|apply int_toks_plain|].
    rewrite El. split; [done|]. intros _. eexists. split; [reflexivity|]. rewrite E, cs_unary_int.
    unfold cs_type. unfold fits in Hw.
    replace ((- 2 ^ 31 <=? z) && (z <? 2 ^ 31)) with true by lia.
    change (cs_read_type [KId (tx "int")]) with (Some (ROf I32)). cbn [cs_implicit in_range].
    unfold in_range, fits. cbn [is_signed bits].
    replace ((- 2 ^ (32 - 1) <=? z) && (z <? 2 ^ (32 - 1))) with true by lia. eauto.
  - destruct (read_csharp native name (VCChar n) [KId (tx "byte")]
      [KId (tx "c_char"); KP "("%char; KNum (dtext (digits n)); KP ")"%char]) as (line & El & E);
      [done|by apply plain_1|apply char_lexes|by repeat constructor|].
    rewrite El. split; [|done]. intros (? & [= <-] & c & Hr & _). by rewrite E in Hr.
  - destruct (cs_ptr_type t Hw) as (T & Hp & Ht).
    destruct (read_csharp native name (VNull c t) T [KNum (tx "0x0")]) as (line & El & E);
      [done|done|apply null_lexes|by repeat constructor|].
    rewrite El. split; [|done]. intros (? & [= <-] & c' & Hr & _). rewrite E, Ht in Hr. done.
  - split; [|done]. by intros (? & _ & ? & _ & ?).
  - destruct (cs_ptr_type t Hw) as (T & Hp & Ht).
    destruct (read_csharp native name (VNone t) T [KId (tx "None")]) as (line & El & E);
      [done|done|by apply lexes_ident|by repeat constructor|].
    rewrite El. split; [|done]. intros (? & [= <-] & c' & Hr & _). rewrite E, Ht in Hr. done.
  - split; [|done]. by intros (? & _ & ? & _ & ?).
  - split; [|done]. by intros (? & _ & ? & _ & ?).
  - destruct Hw as (Hi & Hc & Hz & _ & Hl & Hnt & Hnf).
    destruct (read_csharp native name (VEnum n int c z) [KId (tx (suffixed n))] [KId (tx c)]) as (line & El & E);
      [done|by apply plain_1, suffixed_ident|by apply lexes_ident|by repeat constructor|].
    rewrite El. split; [|done]. intros (? & [= <-] & c' & Hr & _). rewrite E in Hr.
    cbn [cs_unary cs_literal] in Hr. rewrite !bool_decide_eq_false_2 in Hr by done.
    by destruct (cs_read_type _).
Qed.
