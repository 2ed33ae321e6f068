(** Lemmas about the enum model. *)

From Coq Require Import ZArith NArith List Bool Lia String Ascii ZifyBool ZifyN.
From stdpp Require Import base numbers list list_numbers.
From Verif Require Import EnumModel EnumSpec.

Lemma number_sound t next vs ds :
  number t next vs = Some ds →
  length ds = length vs ∧
  ∀ i n e, vs !! i = Some (n, e) →
    match e with
    | Some e => ∃ v, eval t e = Some v ∧ ds !! i = Some v
    | None => ∃ v, ds !! i = Some v ∧
        match i with O => v = next | S j => ∃ p, ds !! j = Some p ∧ v = (p + 1)%Z end
    end.
Proof.
  revert next ds. induction vs as [|[n e] vs IH]; intros next ds H; cbn in H.
  { injection H as <-. split; [done|]. intros i n e Hi. by rewrite lookup_nil in Hi. }
  destruct (match e with Some e0 => eval t e0 | None => check t next end) as [v|] eqn:Ev; [|done].
  destruct (number t (v + 1) vs) as [l|] eqn:El; [|done]. injection H as <-.
  destruct (IH _ _ El) as [Hl HI]. split; [cbn; lia|].
  intros [|i] n' e' Hi; cbn in Hi.
  - injection Hi as <- <-. destruct e as [e|].
    + exists v. done.
    + exists v. split; [done|]. unfold check in Ev. by destruct (fits t next); simplify_eq.
  - specialize (HI i n' e' Hi). destruct e' as [e'|]; [exact HI|].
    destruct HI as (v' & H1 & H2). exists v'. split; [done|].
    destruct i as [|i]; [exists v; by subst|exact H2].
Qed.

Lemma discriminants_sound d ds :
  discriminants d = Some ds → rust_numbering (source_int d) (e_variants d) ds.
Proof. intros H. apply number_sound in H. exact H. Qed.

Lemma eval_fits t e v : (0 < bits t)%Z → eval t e = Some v → fits t v = true.
Proof.
  intros Hb. unfold fits, lo, hi.
  assert (HP : (0 < 2 ^ (bits t - 1))%Z) by (apply Z.pow_pos_nonneg; lia).
  assert (H2 : (2 ^ bits t = 2 * 2 ^ (bits t - 1))%Z).
  { rewrite <-Z.pow_succ_r by lia. f_equal. lia. }
  assert (HC : ∀ z v, check t z = Some v → fits t v = true).
  { intros z v' H. unfold check in H. destruct (fits t z) eqn:E; [by simplify_eq|done]. }
  assert (HW : ∀ z, fits t (wrap t z) = true).
  { intros z. unfold wrap, fits, lo, hi.
    pose proof (Z.mod_pos_bound z (2 ^ bits t) ltac:(lia)) as Hm.
    destruct (signed t); cbn; [|lia].
    destruct (2 ^ (bits t - 1) <=? z mod 2 ^ bits t)%Z eqn:E; lia. }
  change (eval t e = Some v → fits t v = true).
  revert v. induction e as [n|e IH|e IH|e IH k|a IHa b IHb|c]; intros v H; cbn [eval] in H.
  - destruct (0 <=? n)%Z; [by eapply HC|done].
  - destruct (signed t); [|done].
    destruct e; repeat case_match; try done; by eapply HC.
  - destruct (eval t e) as [x|] eqn:E; [|done]. specialize (IH x eq_refl).
    unfold fits, lo, hi in *. injection H as <-. destruct (signed t); lia.
  - destruct (eval t e); [|done]. case_match; [|done]. injection H as <-. apply HW.
  - destruct (eval t a), (eval t b); try done. by eapply HC.
  - by eapply HC.
Qed.

Lemma wrap_id t z : (0 < bits t)%Z → fits t z = true → wrap t z = z.
Proof.
  intros Hb Hf. unfold fits, lo, hi, wrap in *.
  assert (HP : (0 < 2 ^ (bits t - 1))%Z) by (apply Z.pow_pos_nonneg; lia).
  assert (H2 : (2 ^ bits t = 2 * 2 ^ (bits t - 1))%Z).
  { rewrite <-Z.pow_succ_r by lia. f_equal. lia. }
  destruct (signed t); cbn.
  - destruct (Z_lt_le_dec z 0) as [Hz|Hz].
    + replace (z mod 2 ^ bits t)%Z with (z + 2 ^ bits t)%Z; [|apply Z.mod_unique with (-1)%Z; lia].
      destruct (2 ^ (bits t - 1) <=? z + 2 ^ bits t)%Z eqn:E; lia.
    + rewrite Z.mod_small by lia.
      destruct (2 ^ (bits t - 1) <=? z)%Z eqn:E; lia.
  - rewrite Z.mod_small; lia.
Qed.

Lemma wrap_mod t z z' : (0 < bits t)%Z → wrap t z = wrap t z' → (z mod 2 ^ bits t = z' mod 2 ^ bits t)%Z.
Proof.
  intros Hb. unfold wrap.
  assert (HP : (0 < 2 ^ (bits t - 1))%Z) by (apply Z.pow_pos_nonneg; lia).
  assert (H2 : (2 ^ bits t = 2 * 2 ^ (bits t - 1))%Z).
  { rewrite <-Z.pow_succ_r by lia. f_equal. lia. }
  pose proof (Z.mod_pos_bound z (2 ^ bits t) ltac:(lia)).
  pose proof (Z.mod_pos_bound z' (2 ^ bits t) ltac:(lia)).
  destruct (signed t); cbn; [|done].
  destruct (2 ^ (bits t - 1) <=? z mod 2 ^ bits t)%Z eqn:E,
    (2 ^ (bits t - 1) <=? z' mod 2 ^ bits t)%Z eqn:E'; lia.
Qed.

Lemma number_fits t next vs ds v :
  (0 < bits t)%Z → number t next vs = Some ds → v ∈ ds → fits t v = true.
Proof.
  intros Hb. revert next ds. induction vs as [|[n e] vs IH]; intros next ds H; cbn in H.
  { injection H as <-. by intros ?%elem_of_nil. }
  destruct (match e with Some e0 => eval t e0 | None => check t next end) as [w|] eqn:Ev; [|done].
  destruct (number t (w + 1) vs) as [l|] eqn:El; [|done]. injection H as <-.
  intros [->|Hin]%elem_of_cons; [|by eapply IH].
  destruct e as [e|]; [by eapply eval_fits|].
  unfold check in Ev. destruct (fits t next) eqn:E; [by simplify_eq|done].
Qed.

Lemma first_int_in ws t : first_int ws = Some t → WInt t ∈ ws.
Proof.
  induction ws as [|[|t'] ws IH]; cbn; [done|..].
  - intros H. right. by apply IH.
  - intros [=->]. left.
Qed.

Lemma derive_int_pos d ds int : valid_enum d ds → derive_int d = Some int → (0 < bits int)%Z.
Proof.
  intros (_ & _ & _ & Hb) Hi. unfold derive_int, parse_discriminant_type in Hi.
  destruct (e_variants d); [done|]. destruct (e_reprs d) as [|ws rs] eqn:E; [done|].
  destruct ws as [|w ws]; [done|].
  destruct (first_int (w :: ws)) as [t|] eqn:Ef; injection Hi as <-.
  - apply Hb. cbn [concat]. apply elem_of_app. left. by apply first_int_in.
  - done.
Qed.


(** ** Headers *)

Lemma eval_agree t t' e v v' :
  portable (signed t && signed t') e = true → eval t e = Some v → eval t' e = Some v' → v = v'.
Proof.
  unfold check.
  revert v v'. induction e as [n|e IH|e IH|e IH k|a IHa b IHb|c]; intros v v' Hp H H';
    cbn [eval portable] in *; unfold check in *.
  - repeat case_match; by simplify_eq.
  - destruct (signed t), (signed t'); try done.
    assert (HX : match eval t e with Some v => if fits t (- v) then Some (- v)%Z else None | None => None end = Some v →
      match eval t' e with Some v => if fits t' (- v) then Some (- v)%Z else None | None => None end = Some v' → v = v').
    { intros Ha Hb. destruct (eval t e) as [w|] eqn:Ew; [|done]. destruct (eval t' e) as [w'|] eqn:Ew'; [|done].
      rewrite (IH w w' Hp eq_refl eq_refl) in *. repeat case_match; by simplify_eq. }
    destruct e; try (by apply HX). repeat case_match; by simplify_eq.
  - apply andb_prop in Hp as [Hs Hp]. apply andb_prop in Hs as [Hs Hs']. rewrite Hs, Hs' in *.
    destruct (eval t e) as [w|] eqn:Ew; [|done]. destruct (eval t' e) as [w'|] eqn:Ew'; [|done].
    rewrite (IH w w' Hp eq_refl eq_refl) in *. by simplify_eq.
  - done.
  - apply andb_prop in Hp as [Hp1 Hp2].
    destruct (eval t a) as [w|] eqn:Ew; [|done]. destruct (eval t' a) as [w'|] eqn:Ew'; [|done].
    destruct (eval t b) as [u|] eqn:Eu; [|done]. destruct (eval t' b) as [u'|] eqn:Eu'; [|done].
    rewrite (IHa w w' Hp1 eq_refl eq_refl), (IHb u u' Hp2 eq_refl eq_refl) in *.
    repeat case_match; by simplify_eq.
  - repeat case_match; by simplify_eq.
Qed.

Lemma printed_values l d vs ps next ds :
  l ≠ Python →
  (∀ n e, (n, Some e) ∈ vs → typed e = true ∨ portable (signed (source_int d)) e = true) →
  printed l d vs = Some ps → number (source_int d) next vs = Some ds →
  enumerators next ps = ds.
Proof.
  intros Hl. revert ps next ds. induction vs as [|[n e] vs IH]; intros ps next ds Hp H H'; cbn in *.
  { by simplify_eq. }
  destruct (match e with Some e0 => eval (source_int d) e0 | None => check (source_int d) next end)
    as [v|] eqn:Ev; [|done].
  destruct (number (source_int d) (v + 1) vs) as [l'|] eqn:El; [|done]. injection H' as <-.
  assert (Hq : ∃ p ps', ps = p :: ps' ∧ printed l d vs = Some ps' ∧ default next p = v).
  { destruct e as [e|].
    - destruct (shown d e) as [w|] eqn:Es.
      + destruct l; [..|done]; destruct (printed _ d vs) as [ps'|]; cbn in H; try done; simplify_eq;
        exists (Some w), ps'; (split; [done|]); (split; [done|]); cbn;
        (destruct (Hp n e ltac:(left)) as [Ht|Ht]; unfold shown in Es;
         [rewrite Ht in Es; by simplify_eq|]);
        (destruct (typed e); [by simplify_eq|]);
        (eapply (eval_agree i32 (source_int d)); [|done..]); by cbn.
      + by destruct l.
    - unfold check in Ev. case_match; [|done]. simplify_eq.
      destruct l; [..|done]; destruct (printed _ d vs) as [ps'|]; cbn in H; try done; simplify_eq;
      by exists None, ps'. }
  destruct Hq as (p & ps' & -> & Hps & Hd). cbn. rewrite Hd. f_equal.
  eapply IH; [|done..]. intros. eapply Hp. by right.
Qed.

Lemma printed_python d vs : printed Python d vs = Some (replicate (length vs) None).
Proof. induction vs as [|[n e] vs IH]; cbn; [done|]. by rewrite IH. Qed.
Lemma enumerators_none next n : enumerators next (replicate n None) = seqZ next (Z.of_nat n).
Proof.
  revert next. induction n as [|n IH]; intros next; [done|].
  rewrite (seqZ_cons next) by lia. cbn [replicate enumerators default]. rewrite IH.
  f_equal. f_equal; unfold id; lia.
Qed.

(** ** Names *)

Definition enc (c : N) : list N := (if is_upper c then [underscore] else []) ++ [to_upper c].
Definition encs (s : list N) : list N := concat (map enc s).

Lemma encs_cons c s : encs (c :: s) = enc c ++ encs s.
Proof. done. Qed.
Lemma encs_app s t : encs (s ++ t) = encs s ++ encs t.
Proof. unfold encs. by rewrite map_app, concat_app. Qed.

Lemma enc_cases c :
  ((65 ≤ c ≤ 90)%N ∧ enc c = [95%N; c]) ∨ ((97 ≤ c ≤ 122)%N ∧ enc c = [(c - 32)%N]) ∨
  (¬ (65 ≤ c ≤ 90)%N ∧ ¬ (97 ≤ c ≤ 122)%N ∧ enc c = [c]).
Proof.
  unfold enc, to_upper, is_upper, is_lower, underscore.
  destruct ((65 <=? c)%N && (c <=? 90)%N) eqn:E1; destruct ((97 <=? c)%N && (c <=? 122)%N) eqn:E2.
  - lia.
  - left. split; [lia|done].
  - right; left. split; [lia|done].
  - right; right. split; [lia|]. split; [lia|done].
Qed.

Lemma strong_ind (P : list N → Prop) :
  (∀ s, (∀ s', length s' < length s → P s') → P s) → ∀ s, P s.
Proof.
  intros H s. remember (length s) as n eqn:E. revert s E.
  induction n as [n IH] using lt_wf_ind. intros s ->. apply H. intros s' Hl. by eapply IH.
Qed.

Lemma camel_cons c x r :
  camel (c :: x :: r) =
  if decide (c = 95%N ∧ (97 ≤ x ≤ 122)%N) then (x - 32)%N :: camel r else c :: camel (x :: r).
Proof. reflexivity. Qed.

Lemma encs_camel s : encs (camel s) = encs s.
Proof.
  induction s as [s IH] using strong_ind. destruct s as [|c [|x r]]; [done..|].
  rewrite camel_cons. destruct (decide _) as [[-> Hx]|Hn].
  - rewrite encs_cons, IH by (cbn; lia). rewrite !encs_cons.
    destruct (enc_cases (x - 32)) as [[H ->]|[[H _]|(H & _)]]; [|lia..].
    destruct (enc_cases x) as [[H' ->]|[[H' ->]|(_ & H' & _)]]; [lia| |lia]. done.
  - rewrite encs_cons, IH by (cbn; lia). done.
Qed.

Lemma camel_head c s : ∃ r, camel (c :: s) = c :: r ∨ (∃ y, (65 ≤ y ≤ 90)%N ∧ camel (c :: s) = y :: r ∧ c = 95%N).
Proof.
  destruct s as [|x r]; [by eexists; left|]. rewrite camel_cons.
  destruct (decide _) as [[-> Hx]|Hn]; eexists; [right|by left].
  eexists. split; [|done]. lia.
Qed.

Lemma camel_no_snake s : no_snake (camel s).
Proof.
  induction s as [s IH] using strong_ind. destruct s as [|c [|x r]].
  { intros [|i] c H; done. }
  { intros [|[|i]] y H H'; done. }
  rewrite camel_cons. destruct (decide _) as [[-> Hx]|Hn].
  - intros [|i] y H H'.
    + cbn in H. injection H as H. lia.
    + eapply (IH r); [cbn; lia|exact H|exact H'].
  - intros [|i] y H H'.
    + injection H as ->. intros Hy. apply Hn. split; [done|].
      destruct (camel_head x r) as (r' & [E|(z & Hz & E & _)]); cbn [lookup list_lookup] in H';
        rewrite E in H'; cbn in H'; injection H' as ->; [done|lia].
    + eapply (IH (x :: r)); [cbn; lia|exact H|exact H'].
Qed.

Lemma no_snake_tail c s : no_snake (c :: s) → no_snake s.
Proof. intros H i y. exact (H (S i) y). Qed.

Lemma encs_inj s s' : no_snake s → no_snake s' → encs s = encs s' → s = s'.
Proof.
  revert s'. induction s as [|c s IH]; intros [|c' s'] Hs Hs' H.
  - done.
  - rewrite encs_cons in H. by destruct (enc_cases c') as [[_ E]|[[_ E]|(_ & _ & E)]]; rewrite E in H.
  - rewrite encs_cons in H. by destruct (enc_cases c) as [[_ E]|[[_ E]|(_ & _ & E)]]; rewrite E in H.
  - assert (HT : ∀ c, c = 95%N → ∀ s x r, no_snake (c :: s) → encs s = x :: r → (65 ≤ x ≤ 90)%N → False).
    { clear. intros c -> s x r Hs H Hx. destruct s as [|y s]; [done|]. rewrite encs_cons in H.
      destruct (enc_cases y) as [[Hy E]|[[Hy E]|(Hy & _ & E)]]; rewrite E in H; cbn in H; injection H as <- _.
      - lia.
      - by apply (Hs 0 y).
      - done. }
    rewrite !encs_cons in H.
    destruct (enc_cases c) as [[Hc E]|[[Hc E]|(Hc & Hc2 & E)]];
    destruct (enc_cases c') as [[Hc' E']|[[Hc' E']|(Hc' & Hc2' & E')]]; rewrite E, E' in H; cbn in H;
      injection H as H1 H2; try lia.
    + f_equal; [lia|]. apply IH; [by eapply no_snake_tail..|done].
    + exfalso. eapply (HT c'); [done|exact Hs'|symmetry; exact H2|done].
    + f_equal; [lia|]. apply IH; [by eapply no_snake_tail..|done].
    + exfalso. eapply (HT c); [done|exact Hs|exact H2|done].
    + f_equal; [lia|]. apply IH; [by eapply no_snake_tail..|done].
Qed.

Lemma encs_same s s' : encs s = encs s' ↔ camel s = camel s'.
Proof.
  split; intros H.
  - apply encs_inj; [apply camel_no_snake..|]. by rewrite !encs_camel.
  - by rewrite <-(encs_camel s), H, encs_camel.
Qed.

Lemma camel_id s : no_snake s → camel s = s.
Proof.
  intros H. apply encs_inj; [apply camel_no_snake|done|apply encs_camel].
Qed.

Lemma to_upper_same a b : to_upper a = to_upper b ↔ same_letter a b.
Proof. unfold to_upper, is_lower, same_letter. repeat case_match; lia. Qed.
