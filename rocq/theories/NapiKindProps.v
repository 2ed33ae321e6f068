(** Values of another kind than expected (C67). *)

From Coq Require Import ZArith NArith Bool List String Lia.
From stdpp Require Import base numbers list.
From Coq Require Import ZifyBool ZifyN.
From Verif Require Import CStrModel JsNumModel JsNumSpec JsNumProofs JsNumProps NapiModel NapiSpec NapiProofs NapiProps.
Local Open Scope Z_scope.

Lemma shaped_struct u8 fs j : shaped (TStruct u8 fs) j ↔
  (u8 = true ∧ (j = JNull ∨ ∃ a s, j = JBuf a s)) ∨
  ∃ l, (j = JObj l ∨ (u8 = false ∧ l = [] ∧ ∃ a s, j = JBuf a s)) ∧ Forall (λ f, shaped f.2 (get l f.1)) fs.
Proof.
  assert (E : ∀ l, (fix go fs := match fs with [] => True | f :: fs => shaped f.2 (get l f.1) ∧ go fs end) fs ↔ Forall (λ f, shaped f.2 (get l f.1)) fs).
  { intros l. induction fs as [|f fs IH]; [split; [constructor|done]|]. by rewrite Forall_cons, IH. }
  cbn [shaped]. split; (intros [H|(l & H & Hf)]; [by left|right; exists l; split; [done|by apply E]]).
Qed.
Lemma from_fields_each chk p l fs vs : from_fields chk p l fs = Ok vs → Forall (λ f, ∃ v, from_napi chk p f.2 (get l f.1) = Ok v) fs.
Proof.
  revert vs. induction fs as [|[n t] fs IH]; intros vs; cbn [from_fields]; [constructor|].
  destruct (from_napi chk p t (get l n)) as [v| |] eqn:E; [|done..]. destruct (from_fields chk p l fs) as [ws| |]; [|done..].
  intros _. constructor; [by exists v|]. by apply (IH ws).
Qed.
Lemma num_shape j z p s : from_64 p s (nval_of j) = Ok z → (∃ x, j = JNum x) ∨ ∃ z, j = JBig z.
Proof. destruct j; try done; intros _; eauto. Qed.
Lemma size_shape b ptr j z s : from_size (Node b ptr) s (nval_of j) = Ok z → (∃ x, j = JNum x) ∨ ∃ z, j = JBig z.
Proof. cbn [from_size]. destruct (from_64 _ _ _) eqn:E; [|done..]. intros _. by apply num_shape in E. Qed.

(** On Node.js whatever is accepted is of the kinds expected, at any depth. *)
Theorem C67_node_partial chk b ptr t j v : from_napi chk (Node b ptr) t j = Ok v → shaped t j.
Proof.
  revert j v. induction t as [s n|s|s|s| | |n|c t|vs|u8 fs IH] using cty_ind'; intros j v.
  1, 4-7, 9: cbn [from_napi]; rewrite extract_node; cbn [kind_of size_kind shaped]; destruct j; cbn [has_kind]; try done; eauto.
  - cbn [from_napi kind_of]. rewrite extract_id by done. destruct (from_64 _ _ _) eqn:E; [|done..]. intros _. by apply num_shape in E.
  - cbn [from_napi kind_of size_kind]. rewrite extract_id by done. destruct (from_size _ _ _) eqn:E; [|done..]. intros _. by apply size_shape in E.
  - cbn [from_napi kind_of]. rewrite extract_id by done. destruct (from_ptr _ _ _ _ _) as [a| |] eqn:E; [|done..]. intros _.
    cbn [shaped]. unfold from_ptr in E. destruct j as [| | | | | |a' s|fs|]; try done; [by left| |].
    + right; left. destruct c; [|done]. cbn [andb] in E. destruct (bool_decide_reflect (pname t = chars "char")); [|done]. eauto.
    + right; right. exists fs. split; [done|]. destruct (get fs (chars "type")); try done. split; [eauto|].
      destruct (bool_decide _); [|done]. cbn [size_kind] in E. rewrite extract_id in E by done. by apply size_shape in E.
  - rewrite shaped_struct. assert (Hfs : ∀ l v, mapr VStruct (from_fields chk (Node b ptr) l fs) = Ok v → Forall (λ f, shaped f.2 (get l f.1)) fs).
    { intros l v' H. destruct (from_fields _ _ l fs) as [ws| |] eqn:E; [|done..]. apply from_fields_each in E. clear H.
      rewrite Forall_forall in *. intros f Hf. destruct (E f Hf) as [w Hw]. exact (IH f Hf _ _ Hw). }
    destruct j as [| | | | | |a s|l|].
    9: by rewrite from_struct_fun.
    8: { rewrite from_struct. intros H%Hfs. right. exists l. by split; [left|]. }
    7: { destruct u8; [intros _; left; eauto|]. rewrite from_struct_buf. intros H%Hfs. right. exists []. split; [right; eauto|done]. }
    all: cbn [from_napi kind_of]; rewrite extract_id by done; destruct u8; try done. intros _. left. auto.
Qed.
(** On wasm where a number is expected, anything is the number that it is for
    JavaScript; BigInts are none. *)
Theorem C67_number_wasm chk str t j v : kind_of (Wasm str) t = KNumber →
  from_napi chk (Wasm str) t j = Ok v ↔ ∃ x, read_number str j x ∧ from_napi chk (Wasm str) t (JNum x) = Ok v.
Proof.
  intros Hk. split.
  - intros H. assert (∃ x, to_number str j = Some x) as [x Hx].
    { destruct t; try done; cbn [from_napi kind_of size_kind extract] in H; destruct (to_number str j); try done; by eexists. }
    exists x. split; [by apply to_number_spec|]. destruct t; try done; cbn [from_napi kind_of size_kind extract] in *; by rewrite Hx in H.
  - intros (x & Hx%to_number_spec & H). destruct t; try done; cbn [from_napi kind_of size_kind extract] in *; by rewrite Hx.
Qed.
(** Where undefined is, anything is taken for it. *)
Theorem C67_void_wasm chk str j : from_napi chk (Wasm str) TVoid j = Ok VUnit.
Proof. done. Qed.
(** 64-bit integers and enums are checked on both. *)
Theorem C67_checked chk p t j v : match t with T64 _ | TEnum _ => True | _ => False end →
  from_napi chk p t j = Ok v → shaped t j.
Proof.
  destruct t as [|s| | | | |n| |vs|]; try done; intros _; cbn [from_napi kind_of shaped].
  - rewrite extract_id by done. destruct (from_64 _ _ _) eqn:E; [|done..]. intros _. by apply num_shape in E.
  - destruct (extract _ _ j) as [i|] eqn:X; [|done]. apply extract_same in X as ->; [|auto]. destruct j; try done. eauto.
Qed.
(** Where an array of bytes is expected, anything is the bytes that it is for
    JavaScript. *)
Lemma str_bytes_units t s : str_bytes t s → s = flat_map units t.
Proof.
  induction 1 as [|b t s Hb _ ->|b c t s Hb Hc _ ->|b c d t s Hb Hc Hd _ ->|b c d e t s Hb Hc Hd He _ ->]; [done|..]; cbn [flat_map]; unfold units.
  - by rewrite (proj2 (N.ltb_lt b 128)) by lia.
  - rewrite (proj2 (N.ltb_ge b 128)), (proj2 (N.ltb_ge b 192)), (proj2 (N.ltb_lt b 240)) by lia.
    by rewrite (proj2 (N.ltb_ge c 128)), (proj2 (N.ltb_lt c 192)) by lia.
  - rewrite (proj2 (N.ltb_ge b 128)), (proj2 (N.ltb_ge b 192)), (proj2 (N.ltb_lt b 240)) by lia.
    rewrite (proj2 (N.ltb_ge c 128)), (proj2 (N.ltb_lt c 192)) by lia.
    by rewrite (proj2 (N.ltb_ge d 128)), (proj2 (N.ltb_lt d 192)) by lia.
  - rewrite (proj2 (N.ltb_ge b 128)), (proj2 (N.ltb_ge b 192)), (proj2 (N.ltb_ge b 240)) by lia.
    rewrite (proj2 (N.ltb_ge c 128)), (proj2 (N.ltb_lt c 192)) by lia.
    rewrite (proj2 (N.ltb_ge d 128)), (proj2 (N.ltb_lt d 192)) by lia.
    by rewrite (proj2 (N.ltb_ge e 128)), (proj2 (N.ltb_lt e 192)) by lia.
Qed.
Lemma utf8_str_bytes t : utf8 t = true → ∃ s, str_bytes t s.
Proof.
  remember (List.length t) as n eqn:Hn. assert (List.length t ≤ n)%nat as Hl by lia. clear Hn. revert t Hl.
  induction n as [|n IH]; intros [|b0 t] Hl; cbn [List.length] in Hl; try lia; try (exists []; constructor).
  cbn [utf8]. unfold cont. destruct (N.ltb_spec b0 128) as [H0|H0].
  { intros H. destruct (IH t) as [s Hs]; [lia|done|]. eexists. by apply SBAscii. }
  destruct t as [|b1 t]; [done|]. cbn [List.length] in Hl.
  destruct ((194 <=? b0)%N && (b0 <=? 223)%N) eqn:H1.
  { intros H. apply andb_true_iff in H as [Hc H]. destruct (IH t) as [s Hs]; [lia|done|]. exists (0%N :: s).
    apply SBTwo; [lia|lia|done]. }
  destruct t as [|b2 t]; [done|]. cbn [List.length] in Hl.
  destruct ((224 <=? b0)%N && (b0 <=? 239)%N) eqn:H2.
  { intros H. apply andb_true_iff in H as [Hc H]. destruct (IH t) as [s Hs]; [lia|done|]. exists (0%N :: s).
    apply andb_true_iff in Hc as [Hc Hd]. apply SBThree; [lia| |lia|done]. destruct (b0 =? 224)%N, (b0 =? 237)%N; lia. }
  destruct t as [|b3 t]; [done|]. cbn [List.length] in Hl.
  intros H. apply andb_true_iff in H as [Hc H]. destruct (IH t) as [s Hs]; [lia|done|]. exists (0%N :: 0%N :: s).
  apply andb_true_iff in Hc as [Hc H3]. apply andb_true_iff in Hc as [Hc H4]. apply andb_true_iff in Hc as [Hc H5].
  apply SBFour; [lia| |lia|lia|done]. destruct (b0 =? 240)%N, (b0 =? 244)%N; lia.
Qed.
Lemma to_u8_whole x : Z.of_N (to_u8 x) = whole x mod 256.
Proof.
  destruct x as [| |neg m e]; [done..|]. cbn [to_u8 whole]. unfold wrap. cbn [andb]. change (2 ^ 8) with 256.
  rewrite Z2N.id; [done|]. apply Z.mod_pos_bound. lia.
Qed.
Lemma elements_spec str fs i n s : elements str fs i n = Some s ↔
  List.length s = n ∧ ∀ k b, s !! k = Some b → ∃ y, read_number str (get fs (decimal (i + N.of_nat k))) y ∧ Z.of_N b = whole y mod 256.
Proof.
  revert i s. induction n as [|n IH]; intros i s; cbn [elements].
  - split; [by intros [= <-]|]. intros [H _]. by destruct s.
  - split.
    + destruct (to_number str _) as [x|] eqn:E; [|done]. destruct (elements _ _ _ _) as [s'|] eqn:F; [|done]. cbn [option_map]. intros [= <-].
      apply IH in F as [Hl F]. split; [cbn [List.length]; lia|]. intros [|k] b Hk; cbn in Hk.
      * injection Hk as <-. exists x. rewrite N.add_0_r. split; [by apply to_number_spec|]. apply to_u8_whole.
      * destruct (F k b Hk) as (y & Hy & Hb). exists y. replace (i + N.of_nat (S k))%N with (i + 1 + N.of_nat k)%N by lia. done.
    + intros [Hl H]. destruct s as [|b s]; [done|]. destruct (H O b eq_refl) as (y & Hy & Hb). rewrite N.add_0_r in Hy.
      apply to_number_spec in Hy. rewrite Hy. rewrite (proj2 (IH (i + 1)%N s)).
      * cbn [option_map]. do 2 f_equal. rewrite <- to_u8_whole in Hb. lia.
      * split; [cbn [List.length] in Hl; lia|]. intros k c Hk. destruct (H (S k) c Hk) as (y' & Hy' & Hc). exists y'.
        replace (i + 1 + N.of_nat k)%N with (i + N.of_nat (S k))%N by lia. done.
Qed.
Lemma to_bytes_spec str j s : match j with JStr t => utf8 t = true | _ => True end → to_bytes str j = Some s ↔ read_bytes str j s.
Proof.
  intros Hj. split.
  - destruct j as [x|z|bl| | |t|a t|fs|]; cbn [to_bytes]; try done; try (intros [= <-]; constructor).
    + destruct (utf8_str_bytes t Hj) as [s' Hs]. by rewrite <- (str_bytes_units _ _ Hs).
    + destruct (to_number str _) as [[| |neg m e]|] eqn:E; try done; apply to_number_spec in E.
      * intros [= <-]. eapply RBObj; [exact E|done|done|done|done].
      * destruct (Z.leb_spec 0 (trunc neg m e)), (Z.ltb_spec (trunc neg m e) (2 ^ 32)); cbn [andb]; try done.
        intros [Hl He]%elements_spec. eapply RBObj; [exact E|done| |done|].
        -- cbn [whole]. lia.
        -- intros i b Hi. exact (He i b Hi).
  - destruct 1 as [a s|t s Hs|fs x s Hx Hinf Hl Hlt H| | | |]; cbn [to_bytes]; try done.
    + by rewrite <- (str_bytes_units _ _ Hs).
    + apply to_number_spec in Hx. rewrite Hx. destruct x as [|neg|neg m e]; [|by destruct (Hinf neg)|]; cbn [whole] in *.
      * by destruct s.
      * rewrite (proj2 (Z.leb_le 0 _)), (proj2 (Z.ltb_lt _ _)) by lia. cbn [andb]. apply elements_spec. split; [lia|].
        intros k b Hk. exact (H k b Hk).
Qed.
Theorem C67_bytes_wasm chk str n j v : match j with JStr t => utf8 t = true | _ => True end →
  from_napi chk (Wasm str) (TBytes n) j = Ok v ↔ ∃ s, read_bytes str j s ∧ List.length s = n ∧ v = VBytes s.
Proof.
  intros Hj. assert (E : from_napi chk (Wasm str) (TBytes n) j =
    match to_bytes str j with Some s => if (List.length s =? n)%nat then Ok (VBytes s) else Err | None => Err end).
  { cbn [from_napi kind_of extract]. destruct j; try done; by destruct (to_bytes str _). }
  rewrite E. split.
  - destruct (to_bytes str j) as [s|] eqn:F; [|done]. destruct (Nat.eqb_spec (List.length s) n); [|done]. intros [= <-].
    exists s. split; [by apply to_bytes_spec|done].
  - intros (s & Hs & <- & ->). apply to_bytes_spec in Hs; [|done]. by rewrite Hs, Nat.eqb_refl.
Qed.
(** So a string of digits is taken for bytes, and so is an object. *)
Theorem C67_bytes_refuted : ∃ n j j' v, ¬ shaped (TBytes n) j ∧ ¬ shaped (TBytes n) j' ∧
  ∀ chk str, from_napi chk (Wasm str) (TBytes n) j = Ok v ∧ from_napi chk (Wasm str) (TBytes n) j' = Ok v.
Proof.
  exists 3%nat, (JStr (chars "407")), (JObj [(chars "0", JNum (of_Z 260)); (chars "length", JNum (of_Z 3)); (chars "2", JNum (of_Z 7))]), (VBytes [4%N; 0%N; 7%N]).
  split; [by intros (a & s & H)|]. split; [by intros (a & s & H)|]. intros chk str. by vm_compute.
Qed.
(** On wasm an integer that is missing is zero, and so is the address of a
    pointer; a floating point number that is missing is refused. *)
Lemma small_zero p signed bits : 0 < bits ≤ 32 → from_small p signed bits NaN = Ok 0.
Proof.
  intros Hb. assert (H0 : ∀ b, 0 < b → in_range signed b 0).
  { intros b H. unfold in_range. pose proof (pow2 (b - 1)). pose proof (pow2 b). destruct signed; lia. }
  unfold from_small. assert (get32 p signed NaN = 0) as -> by by destruct p. rewrite (wrap_id signed bits 0) by (lia || (apply H0; lia)).
  by rewrite (wrap_id signed 32 0) by (lia || (apply H0; lia)).
Qed.
Theorem C67_missing_wasm chk str :
  (∀ signed bits, 0 < bits ≤ 32 → from_napi chk (Wasm str) (TSmall signed bits) JUndefined = Ok (VInt 0)) ∧
  (∀ signed, from_napi chk (Wasm str) (TSize signed) JUndefined = Ok (VInt 0)) ∧
  (∀ single, from_napi chk (Wasm str) (TFloat single) JUndefined = Err) ∧
  (∀ t fs, get fs (chars "addr") = JUndefined → get fs (chars "type") = JStr (pname (PPtr false t)) →
    from_ptr chk (Wasm str) false t (JObj fs) = Ok 0).
Proof.
  split_and!.
  - intros signed bits Hb. cbn [from_napi kind_of extract to_number option_map]. by rewrite small_zero.
  - intros signed. cbn [from_napi kind_of size_kind extract to_number option_map nval_of from_size]. by rewrite small_zero.
  - intros [|]; reflexivity.
  - intros t fs Ha Ht. unfold from_ptr. rewrite Ht, Ha. rewrite bool_decide_eq_true_2 by done.
    cbn [size_kind extract to_number option_map nval_of from_size]. by rewrite small_zero.
Qed.
(** So values of other kinds are accepted there, such as an object without any
    of the fields, which Node.js refuses. *)
Theorem C67_wasm_refuted : ∃ t j v, well_formed t ∧ (∀ str, js_ok (Wasm str) j) ∧ ¬ shaped t j ∧
  (∀ chk str, from_napi chk (Wasm str) t j = Ok v) ∧ ∀ chk b ptr, from_napi chk (Node b ptr) t j = Err.
Proof.
  exists (TStruct false [(chars "x", TSmall true 32); (chars "len", TSize false)]), (JObj []), (VStruct [VInt 0; VInt 0]).
  split_and!; [| done | | intros chk str; vm_compute; reflexivity | done].
  - apply wf_struct. split_and!; [done|apply (bool_decide_unpack _); vm_compute; exact I|]. repeat constructor; done.
  - rewrite shaped_struct. intros [[Hu _]|(l & [Hj|(_ & _ & ? & ? & Hl)] & Hf)]; [done| |done]. injection Hj as <-.
    apply Forall_cons in Hf as [[x Hx] _]. done.
Qed.
Theorem C67_pointer_refuted : ∃ j, ¬ shaped (TPtr false (PBase (chars "int32_t"))) j ∧ j ≠ JNull ∧
  ∀ chk str, from_napi chk (Wasm str) (TPtr false (PBase (chars "int32_t"))) j = Ok (VPtr 0).
Proof.
  exists (JObj [(chars "type", JStr (chars "int32_t *"))]). split_and!; [|done|].
  - intros [Hn|[(Hc & _)|(fs & Hj & _ & H)]]; [done..|]. injection Hj as <-. vm_compute in H. by destruct H as [[? ?]|[? ?]].
  - intros chk str. vm_compute. reflexivity.
Qed.
Example C67_example : let n := Node (λ _, 0) 64 in let w := Wasm (λ s, match s with [55%N] => of_Z 7 | _ => NaN end) in
  from_napi true n (TSmall false 8) (JStr [55%N]) = Err ∧ from_napi true w (TSmall false 8) (JStr [55%N]) = Ok (VInt 7) ∧
  from_napi true w (TSmall false 8) (JBool true) = Ok (VInt 1) ∧ from_napi true w (TSmall false 8) (JBuf 512 [9%N]) = Ok (VInt 9) ∧
  from_napi true w (TSmall false 8) (JBig 7) = Err ∧ from_napi true w (TSize false) (JBig 7) = Err ∧
  from_napi true n TBool (JNum (of_Z 2)) = Err ∧ from_napi true w TBool (JNum (of_Z 2)) = Ok (VInt 1) ∧
  from_napi true w TBool (JNum (of_Z (2 ^ 32))) = Ok (VInt 0) ∧ from_napi true w TBool (JStr [55%N]) = Ok (VInt 1) ∧
  from_napi true w TBool JUndefined = Err ∧ from_napi true w (TEnum [(chars "A", 0)]) JUndefined = Err ∧
  from_napi true n TVoid JNull = Err ∧ from_napi true w TVoid JNull = Ok VUnit ∧
  shaped (TSmall false 8) (JNum (of_Z 7)) ∧ from_napi true n (TSmall false 8) (JNum (of_Z 7)) = Ok (VInt 7).
Proof.
  intros n w. split_and!; try (vm_compute; reflexivity). by eexists.
Qed.

Print Assumptions C67_node_partial.
Print Assumptions C67_number_wasm.
Print Assumptions C67_void_wasm.
Print Assumptions C67_checked.
Print Assumptions C67_bytes_wasm.
Print Assumptions C67_bytes_refuted.
Print Assumptions C67_missing_wasm.
Print Assumptions C67_wasm_refuted.
Print Assumptions C67_pointer_refuted.
