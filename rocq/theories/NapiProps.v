(** Pointers, compound types and strings in JavaScript (C44, C56, C58). *)

From Coq Require Import ZArith NArith Bool List String Lia ZifyBool ZifyNat ZifyN.
From stdpp Require Import base numbers list.
From Verif Require Import CStrModel JsNumModel JsNumSpec JsNumProofs JsNumProps NapiModel NapiSpec NapiProofs.
Local Open Scope Z_scope.

(** A platform for examples. *)
Definition wasm : plat := Wasm (λ _, NaN).

(** ** C44: typed pointers *)

Lemma plain_int : plain (chars "int32_t").
Proof.
  split; [apply (bool_decide_unpack _); vm_compute; exact I|].
  intros [y H]. apply (f_equal (@rev N)) in H. rewrite rev_app_distr in H. vm_compute in H. discriminate H.
Qed.
(** Null pointers are null, of whatever type. *)
Theorem C44_null p c t : to_ptr p c t 0 = Ok JNull ∧ ∀ chk, from_ptr chk p c t JNull = Ok 0.
Proof. done. Qed.
Theorem C44_null_only p c t a j : plat_ok p → addr_ok p a → to_ptr p c t a = Ok j → j = JNull ↔ a = 0.
Proof.
  intros Hp Ha H. split; [|intros ->; by injection H]. intros ->. destruct (decide (a = 0)) as [|Hn]; [done|].
  destruct (to_ptr_obj p c t a Hp Ha Hn) as (j & E & _). by rewrite E in H.
Qed.
(** Mutable pointers of any type, with any name, survive the round trip. *)
Theorem C44_mut_roundtrip chk p t a : plat_ok p → addr_ok p a →
  ∃ j, to_ptr p false t a = Ok j ∧ from_ptr chk p false t j = Ok a.
Proof.
  intros Hp Ha. destruct (decide (a = 0)) as [->|Hn]; [by exists JNull|].
  destruct (to_ptr_obj p false t a Hp Ha Hn) as (j & E & E'). eexists. split; [exact E|]. rewrite from_obj. by rewrite decide_True.
Qed.
(** Constant pointers do exactly when all the pointers pointed to are constant. *)
Theorem C44_const_roundtrip_partial chk p t a : plat_ok p → addr_ok p a → a ≠ 0 → named t →
  ∃ j, to_ptr p true t a = Ok j ∧ (from_ptr chk p true t j = Ok a ↔ all_const t).
Proof.
  intros Hp Ha Hn Ht. destruct (to_ptr_obj p true t a Hp Ha Hn) as (j & E & E'). eexists. split; [exact E|]. rewrite from_obj.
  destruct (decide _) as [Hw|Hw]; (rewrite weaken_pname in Hw; [|done]); cbn [all_const] in Hw.
  - destruct Hw as [[_ Hc] _]. done.
  - split; [done|]. intros Hc. destruct Hw. split; [done|]. exists (PPtr true t). split; [apply weaker_refl|done].
Qed.
(** [*const *mut T] does not. *)
Theorem C44_roundtrip_refuted : ∃ p t a, plat_ok p ∧ addr_ok p a ∧ named t ∧
  ∃ j, to_ptr p true t a = Ok j ∧ ∀ chk, from_ptr chk p true t j = Err.
Proof.
  exists wasm, (PPtr false (PBase (chars "int32_t"))), 4096. split; [by vm_compute|]. split; [by vm_compute|]. split.
  - exact plain_int.
  - eexists. split; [vm_compute; reflexivity|]. intros chk. vm_compute. reflexivity.
Qed.
(** Exactly which pointers are accepted for which, and to which address. *)
Theorem C44_exact chk p c t d u a j a' : plat_ok p → addr_ok p a → a ≠ 0 → named t → named u → to_ptr p d u a = Ok j →
  from_ptr chk p c t j = Ok a' ↔
  a' = a ∧ if c then all_const t ∧ weaker t u else d = false ∧ t = u.
Proof.
  intros Hp Ha Hn Ht Hu Hj. destruct (to_ptr_obj p d u a Hp Ha Hn) as (i & E & E'). rewrite E in Hj. injection Hj as <-. rewrite from_obj.
  destruct (decide _) as [Hw|Hw]; destruct c.
  - rewrite weaken_pname in Hw by done. destruct Hw as ((_ & Hc) & u' & Hu' & Ep).
    assert (PPtr d u = u') as <-.
    { apply pname_inj; [done| |done]. apply named_root. apply weaker_shape in Hu' as [Er _]. rewrite <-Er. by apply named_root. }
    destruct Hu' as [_ Hu']. rewrite E'. split; [by intros [= ->]|by intros [-> _]].
  - change (pname (PPtr d u) = pname (PPtr false t)) in Hw. apply pname_inj in Hw; [|done..]. injection Hw as -> ->. rewrite E'. split; [by intros [= ->]|by intros [-> _]].
  - split; [done|]. intros (_ & Hc & Hwk). destruct Hw. apply weaken_pname; [done|]. split; [done|].
    exists (PPtr d u). split; [|done]. split; done.
  - split; [done|]. intros (_ & -> & ->). by destruct Hw.
Qed.
(** In particular only [const] is ever added, and nothing else. *)
Theorem C44_only_weakening chk p c t d u a j a' : plat_ok p → addr_ok p a → a ≠ 0 → named t → named u → to_ptr p d u a = Ok j →
  from_ptr chk p c t j = Ok a' → a' = a ∧ weaker (PPtr c t) (PPtr d u).
Proof.
  intros Hp Ha Hn Ht Hu Hj H. apply (C44_exact chk p c t d u a j a') in H as [-> H]; [|done..]. split; [done|].
  destruct c; [by destruct H|]. destruct H as [-> ->]. apply weaker_refl.
Qed.
(** For a pointer to a type that is no pointer: mutable for constant, and not
    the converse. *)
Theorem C44_mut_to_const chk p n a d j : plat_ok p → addr_ok p a → a ≠ 0 → plain n → to_ptr p d (PBase n) a = Ok j →
  from_ptr chk p true (PBase n) j = Ok a.
Proof. intros Hp Ha Hn Ht Hj. by apply (C44_exact chk p true (PBase n) d (PBase n) a j a). Qed.
Theorem C44_const_to_mut chk p n t a a' j : plat_ok p → addr_ok p a → a ≠ 0 → plain n → named t →
  to_ptr p true t a = Ok j → from_ptr chk p false (PBase n) j ≠ Ok a'.
Proof. intros Hp Ha Hn Ht Ht' Hj H. by apply (C44_exact chk p false (PBase n) true t a j a') in H as (_ & ? & _). Qed.
(** Objects made in JavaScript are held to the same. *)
Theorem C44_object chk p c t fs a : named t → from_ptr chk p c t (JObj fs) = Ok a ↔
  from_napi chk p (TSize false) (get fs (chars "addr")) = Ok (VInt a) ∧
  ∃ u, get fs (chars "type") = JStr (pname u) ∧ if c then all_const t ∧ weaker (PPtr true t) u else u = PPtr false t.
Proof.
  intros Ht. rewrite <-from_addr_spec. unfold from_ptr. destruct (get fs (chars "type")) as [| | | | |s| | |];
    try (split; [done|by intros (_ & u & H & _)]).
  change (match extract p (size_kind p) (get fs (chars "addr")) with Some addr => from_size p false (nval_of addr) | None => Err end)
    with (from_addr p (get fs (chars "addr"))).
  destruct (bool_decide_reflect ((if c then weaken s else s) = pname (PPtr c t))) as [Hw|Hw]; destruct c.
  - rewrite weaken_pname in Hw by done. destruct Hw as ((_ & Hc) & u & Hu & ->). split; [|tauto]. intros H. split; [done|]. by exists u.
  - subst s. split; [|tauto]. intros H. split; [done|]. by exists (PPtr false t).
  - split; [done|]. intros (_ & u & [= ->] & Hc & Hu). destruct Hw. apply weaken_pname; [done|]. split; [done|]. by exists u.
  - split; [done|]. by intros (_ & u & [= ->] & ->).
Qed.
(** And nothing but null, objects, and buffers for C strings is accepted. *)
Theorem C44_rejected chk p c t j : (∀ fs, j ≠ JObj fs) → j ≠ JNull → (∀ b s, j = JBuf b s → c = false ∨ pname t ≠ chars "char") →
  from_ptr chk p c t j = Err.
Proof.
  intros Ho Hn Hb. destruct j as [| | | | | |b s|fs|]; try done; [|by destruct (Ho fs)]. cbn [from_ptr].
  destruct (Hb b s eq_refl) as [->|Hc]; [done|]. by rewrite bool_decide_eq_false_2, andb_false_r.
Qed.
(** What is accepted is an address. *)
Theorem C44_range chk p c t j a : plat_ok p → js_ok p j → from_ptr chk p c t j = Ok a → addr_ok p a.
Proof.
  intros Hp Hj H. unfold plat_ok in Hp. destruct j as [| | | | | |b s|fs|]; try done; cbn [from_ptr] in H.
  - injection H as <-. unfold addr_ok, in_range. split; [lia|]. apply Z.pow_pos_nonneg; lia.
  - destruct (_ && _); [|done]. unfold from_buf in H. destruct (utf8 s); [|done]. destruct s; [by destruct chk|].
    destruct (bool_decide _); [|done]. injection H as <-. apply Hj.
  - destruct (get fs (chars "type")); try done. destruct (bool_decide _); [|done].
    destruct (extract _ _ _); [|done]. eapply C43_size_sound; [|exact H]. lia.
Qed.
(** A name that ends in const prevents mutable pointers from being accepted. *)
Theorem C44_name_refuted : ∃ p n a, plat_ok p ∧ addr_ok p a ∧ 42%N ∉ n ∧
  ∃ j, to_ptr p false (PBase n) a = Ok j ∧ ∀ chk, from_ptr chk p true (PBase n) j = Err.
Proof.
  exists wasm, (chars "myconst"), 4096. split_and!; [by vm_compute..|apply (bool_decide_unpack _); vm_compute; exact I|].
  eexists. split; [vm_compute; reflexivity|]. intros chk. vm_compute. reflexivity.
Qed.
Example C44_example : let p := Node (λ _, 0) 64 in let int := PBase (chars "int32_t") in
  plat_ok p ∧ addr_ok p 4096 ∧ named (PPtr true int) ∧
  from_ptr true p true int (JObj [(chars "addr", JNum (of_Z 4096)); (chars "type", JStr (chars "int32_t *"))]) = Ok 4096 ∧
  from_ptr true p true int (JObj [(chars "addr", JNum (of_Z 4096)); (chars "type", JStr (chars "int32_t const *"))]) = Ok 4096 ∧
  from_ptr true p false int (JObj [(chars "addr", JNum (of_Z 4096)); (chars "type", JStr (chars "int32_t const *"))]) = Err ∧
  from_ptr true p true int (JObj [(chars "addr", JNum (of_Z 4096)); (chars "type", JStr (chars "uint32_t *"))]) = Err ∧
  from_ptr true p true (PPtr true int) (JObj [(chars "addr", JNum (of_Z 4096)); (chars "type", JStr (chars "int32_t * const *"))]) = Ok 4096.
Proof.
  intros p int. split; [by vm_compute|]. split; [by vm_compute|]. split; [exact plain_int|].
  split; [vm_compute; reflexivity|]. split; [vm_compute; reflexivity|]. split; [vm_compute; reflexivity|].
  split; [vm_compute; reflexivity|]. vm_compute. reflexivity.
Qed.

(** ** C56: compound types *)

(** Every value of every type is converted: neither errors nor panics. *)
Theorem C56_total p fresh t v : plat_ok p → well_formed t → has_type p t v → ∃ j, to_napi p fresh t v = Ok j.
Proof.
  intros Hp. revert v. induction t as [s b|s|s|s| | |n|c t|vs|u8 fs IH] using cty_ind'; intros v Hw Hv;
    destruct v as [z|x| |bs|a|ws]; try done; cbn [to_napi mapr].
  - destruct (C42_roundtrip p s b z) as (x & -> & _); [done..|]. by eexists.
  - destruct (C43_roundtrip p s z) as (x & -> & _); [done..|]. by eexists.
  - destruct (size_ok p s z) as (x & ->); [done..|]. by eexists.
  - by eexists.
  - destruct Hv as [->| ->]; by eexists.
  - by eexists.
  - by eexists.
  - destruct (decide (a = 0)) as [->|Hn]; [by eexists|]. destruct (to_ptr_obj p c t a Hp Hv Hn) as (j & -> & _). by eexists.
  - destruct (find_enum vs z Hv) as (n & -> & _). by eexists.
  - change (match u8 with _ => _ end) with (to_napi p fresh (TStruct u8 fs) (VStruct ws)) || idtac.
    rewrite type_struct in Hv. apply wf_struct in Hw as (_ & _ & Hw).
    enough (∃ l, to_fields p fresh fs ws = Ok l) as [l E] by (exists (JObj l); pose proof (to_struct p fresh u8 fs ws) as T; rewrite E in T; exact T).
    revert ws Hv. induction fs as [|[n t] fs IHf]; intros [|w ws] Hv; cbn [fields_type to_fields] in *; try done; [by eexists|].
    apply Forall_cons in IH as [IH1 IH], Hw as [Hw1 Hw]. destruct Hv as [Hv1 Hv]. destruct (IH1 w Hw1 Hv1) as [j Ej]. cbn [snd] in Ej. rewrite Ej.
    destruct (IHf IH Hw ws Hv) as [l ->]. by eexists.
Qed.
(** The round trip, but for NaN and for constant pointers to mutable ones. *)
Theorem C56_roundtrip_partial chk p fresh t v : plat_ok p → well_formed t → deep_const t → has_type p t v → nan_free v →
  ∃ j, to_napi p fresh t v = Ok j ∧ from_napi chk p t j = Ok v.
Proof.
  intros Hp. revert v. induction t as [s b|s|s|s| | |n|c t|vs|u8 fs IH] using cty_ind'; intros v Hw Hc Hv Hf;
    destruct v as [z|x| |bs|a|ws]; try done.
  - destruct (C42_roundtrip p s b z) as (x & E & _ & _ & E'); [done..|]. exists (JNum x). cbn [to_napi from_napi kind_of]. rewrite extract_id by done. by rewrite E, E'.
  - destruct (C43_roundtrip p s z) as (x & E & E' & _); [done..|]. exists (js_of x). cbn [to_napi from_napi kind_of]. rewrite extract_id by done. rewrite E.
    split; [done|]. replace (nval_of (js_of x)) with x by by destruct x. by rewrite E'.
  - unfold plat_ok in Hp. destruct (C43_size p s z) as (x & E & E'); [lia|done..|]. exists (js_of x). cbn [to_napi]. rewrite E. split; [done|].
    assert (Hk : has_kind (kind_of p (TSize s)) (js_of x) = true) by (destruct p; [done|]; cbn [from_size] in E'; by destruct x).
    cbn [from_napi]. rewrite extract_id by done. replace (nval_of (js_of x)) with x by by destruct x. by rewrite E'.
  - cbn [has_type nan_free] in *. destruct s.
    + destruct (C47_f32_partial x Hv Hf) as (y & E & _ & _ & E'). exists (JNum y). cbn [to_napi from_napi kind_of]. rewrite extract_id by done. by rewrite E, E'.
    + destruct (C47_f64 x Hv) as (E & E'). rewrite decide_False in E' by done. exists (JNum x). cbn [to_napi from_napi kind_of]. rewrite extract_id by done. by rewrite E, E'.
  - destruct Hv as [->| ->]; eexists; (split; [reflexivity|]); cbn [from_napi kind_of]; by rewrite extract_id.
  - exists JUndefined. split; [done|]. cbn [from_napi kind_of]. by rewrite extract_id.
  - exists (JBuf fresh bs). split; [done|]. cbn [from_napi kind_of]. rewrite extract_id by done. cbn [has_type] in Hv. rewrite Hv, Nat.eqb_refl. done.
  - cbn [has_type] in Hv. destruct c.
    + destruct (decide (a = 0)) as [->|Hn]; [exists JNull; split; [done|]; cbn [from_napi kind_of]; by rewrite extract_id|]. destruct Hc as [Ht Hc].
      destruct (C44_const_roundtrip_partial chk p t a Hp Hv Hn Ht) as (j & E & E'). exists j. split; [exact E|].
      cbn [from_napi kind_of]. rewrite extract_id by done. rewrite (proj2 E' Hc). done.
    + destruct (C44_mut_roundtrip chk p t a Hp Hv) as (j & E & E'). exists j. split; [exact E|].
      cbn [from_napi kind_of]. rewrite extract_id by done. by rewrite E'.
  - cbn [has_type] in Hv. destruct (find_enum vs z Hv) as (n & E & Hin). exists (JStr n). cbn [to_napi from_napi kind_of]. rewrite extract_id by done. rewrite E.
    destruct Hw as [Hw _]. by rewrite (proj2 (find_name vs n z Hw) Hin).
  - rewrite type_struct in Hv. apply wf_struct in Hw as (_ & Hd & Hw). rewrite dc_struct in Hc. rewrite nf_struct in Hf.
    assert (∃ l, to_fields p fresh fs ws = Ok l ∧ l.*1 = fs.*1 ∧
      ∀ l', (∀ n j, (n, j) ∈ l → get l' n = j) → from_fields chk p l' fs = Ok ws) as (l & E & En & Ef).
    { clear Hd. revert ws Hv Hf. induction fs as [|[n t] fs IHf]; intros [|w ws] Hv Hf; cbn [fields_type to_fields from_fields] in *; try done; [by exists []|].
      apply Forall_cons in IH as [IH1 IH], Hw as [Hw1 Hw], Hc as [Hc1 Hc], Hf as [Hf1 Hf]. destruct Hv as [Hv1 Hv].
      destruct (IH1 w Hw1 Hc1 Hv1 Hf1) as (j & Ej & Ej'). cbn [snd] in Ej, Ej'. destruct (IHf IH Hw Hc ws Hv Hf) as (l & El & En & Ef).
      exists ((n, j) :: l). rewrite Ej, El. split_and!; [done|by cbn; rewrite En|]. intros l' Hl'.
      rewrite (Hl' n j) by constructor. rewrite Ej'. rewrite Ef; [done|]. intros m i Hm. apply Hl'. by constructor. }
    exists (JObj l). rewrite to_struct, from_struct, E. split; [done|]. rewrite Ef; [done|]. intros n j Hn. apply get_at; [by rewrite En|done].
Qed.
(** Whatever is accepted is a value of the type. *)
Theorem C56_sound chk p t j v : plat_ok p → well_formed t → js_ok p j → from_napi chk p t j = Ok v → has_type p t v.
Proof.
  intros Hp. revert j v. induction t as [s b|s|s|s| | |n|c t|vs|u8 fs IH] using cty_ind'; intros j v Hw Hj H.
  - cbn [from_napi kind_of] in H. destruct (extract p _ j) as [i|] eqn:X; [|done]. apply extract_ok in X as Hi; [|done..]. destruct i; try done. destruct (from_small _ _ _ _) eqn:E; try done. injection H as <-.
    eapply C42_sound; [exact Hw|exact E].
  - cbn [from_napi kind_of] in H. rewrite extract_id in H by done. destruct (from_64 _ _ _) eqn:E; try done. injection H as <-.
    unfold from_64 in E. destruct (nval_of j); try done.
    + destruct (fits _ _ _) eqn:F; [|done]. injection E as <-. by apply fits_spec.
    + destruct (get_big p s z) as [[z' [|]]| |] eqn:G; try done. injection E as <-. unfold get_big in G. destruct p.
      * injection G as <- F. apply fits_spec in F as F'. by rewrite wrap_id by (done || lia).
      * destruct (_ && _) eqn:S.
        -- injection G as <-. change (- MAX_SAFE_INTEGER) with MIN_SAFE_INTEGER in S. apply safe_range in S.
           destruct (of_Z_trunc z S) as (m & e & Ez & Et). rewrite Ez. cbn [saturate]. apply fits_spec. unfold fits, lo, hi.
           destruct s; [change (2 ^ (64 - 1)) with 9223372036854775808|change (2 ^ 64) with 18446744073709551616]; lia.
        -- destruct (fits _ _ _) eqn:F; [|done]. injection G as <-. by apply fits_spec.
  - cbn [from_napi] in H. destruct (extract _ _ _); [|done]. destruct (from_size _ _ _) eqn:E; try done. injection H as <-.
    unfold plat_ok in Hp. eapply C43_size_sound; [|exact E]. lia.
  - cbn [from_napi kind_of] in H. destruct (extract p _ j) as [i|] eqn:X; [|done]. apply extract_ok in X as Hi; [|done..]. destruct i; try done. destruct (from_float _ _) eqn:E; try done. injection H as <-.
    cbn [js_ok has_type] in *. destruct s.
    + by apply C47_f32_exact in E as (? & _ & _).
    + destruct (C47_f64 x Hi) as [_ E']. rewrite E' in E. destruct (decide _); [done|]. by injection E as <-.
  - cbn [from_napi kind_of] in H. destruct (extract p _ j) as [i|] eqn:X; [|done]. apply extract_ok in X as Hi; [|done..]. destruct i; try done. injection H as <-. cbn [has_type]. destruct b; auto.
  - cbn [from_napi kind_of] in H. destruct (extract p _ j) as [i|] eqn:X; [|done]. by injection H as <-.
  - cbn [from_napi kind_of] in H. destruct (extract p _ j) as [i|] eqn:X; [|done]. destruct i; try done. destruct (Nat.eqb_spec (List.length bytes) n); [|done]. by injection H as <-.
  - cbn [from_napi kind_of] in H. rewrite extract_id in H by done. destruct (from_ptr _ _ _ _ _) eqn:E; try done. injection H as <-. by eapply C44_range.
  - cbn [from_napi kind_of] in H. destruct (extract p _ j) as [i|] eqn:X; [|done]. apply extract_ok in X as Hi; [|done..]. destruct i; try done. destruct (List.find _ vs) as [[m z]|] eqn:E; try done. injection H as <-.
    apply find_some in E as [E _]. cbn [has_type snd]. apply elem_of_list_fmap. exists (m, z). split; [done|]. by apply elem_of_list_In.
  - assert (Hfs : ∀ l v, Forall (λ f, js_ok p f.2) l → mapr VStruct (from_fields chk p l fs) = Ok v → has_type p (TStruct u8 fs) v).
    { intros l v' Hl E. destruct (from_fields chk p l fs) as [ws| |] eqn:F; try done. injection E as <-. rewrite type_struct.
      apply wf_struct in Hw as (_ & _ & Hw). clear H Hj. revert ws F. induction fs as [|[n t] fs IHf]; intros ws F; cbn [from_fields fields_type] in *; [by injection F as <-|].
      apply Forall_cons in IH as [IH1 IH], Hw as [Hw1 Hw]. destruct (from_napi chk p t (get l n)) as [w| |] eqn:G; try done.
      destruct (from_fields chk p l fs) as [ws'| |] eqn:F'; try done. injection F as <-. split; [|by apply IHf].
      eapply IH1; [done| |exact G]. by apply get_ok. }
    assert (Hz : ∀ z, 0 ≤ z < 2 ^ 32 → addr_ok p z).
    { intros z Hz. unfold plat_ok in Hp. unfold addr_ok, in_range. split; [lia|]. eapply Z.lt_le_trans; [apply Hz|]. apply Z.pow_le_mono_r; lia. }
    destruct j as [| | | | | |a s|l|].
    8: { rewrite from_struct in H. apply ok_obj in Hj. by eapply Hfs. }
    7: { destruct u8; [|rewrite from_struct_buf in H; by eapply (Hfs [])]. cbn [from_napi kind_of] in H. rewrite extract_id in H by done.
         apply wf_struct in Hw as (Hw & _ & _). destruct (Hw eq_refl) as (n & m & k & ->). injection H as <-.
         rewrite type_struct. cbn [fields_type has_type]. destruct Hj. split_and!; done. }
    7: { rewrite from_struct_fun in H. destruct p; [done|]. by eapply (Hfs []). }
    all: try by (cbn [from_napi kind_of] in H; rewrite extract_id in H by done; destruct u8).
    cbn [from_napi kind_of] in H. rewrite extract_id in H by done. destruct u8; [|done]. apply wf_struct in Hw as (Hw & _ & _). destruct (Hw eq_refl) as (n & m & k & ->). injection H as <-.
    rewrite type_struct. cbn [fields_type has_type]. split_and!; [apply Hz; lia|apply (Hz 12242944); by vm_compute|done|done].
Qed.
(** Without checks for overflow no conversion panics. *)
Theorem C56_no_panic p t j : from_napi false p t j ≠ Panic.
Proof.
  revert j. induction t as [s b|s|s|s| | |n|c t|vs|u8 fs IH] using cty_ind'; intros j.
  - cbn [from_napi kind_of]. destruct (extract p _ j) as [i|]; [|done]. destruct i; try done. unfold from_small. destruct (_ =? _); done.
  - cbn [from_napi kind_of]. rewrite extract_id by done. destruct (from_64 _ _ _) eqn:E; try done. exfalso. unfold from_64 in E. destruct (nval_of j); try done.
    + destruct (fits _ _ _); done.
    + unfold get_big in E. destruct p; [destruct (fits _ _ _); done|]. destruct (_ && _); [done|]. destruct (fits _ _ _); done.
  - cbn [from_napi]. destruct (extract _ _ _) as [i|]; [|done]. destruct (from_size _ _ _) eqn:E; try done. exfalso. unfold from_size in E. destruct p.
    + destruct (from_64 _ _ _) eqn:E'; try done; [by destruct (fits _ _ _)|]. unfold from_64 in E'. destruct (nval_of i); try done.
      * destruct (fits _ _ _); done.
      * unfold get_big in E'. destruct (fits _ _ _); done.
    + destruct (nval_of i); try done. unfold from_small in E. destruct (_ =? _); done.
  - cbn [from_napi kind_of]. destruct (extract p _ j) as [i|]; [|done]. destruct i; try done. unfold from_float. destruct (num_eqb _ _); done.
  - cbn [from_napi kind_of]. destruct (extract p _ j) as [i|]; [|done]. destruct i; done.
  - cbn [from_napi kind_of]. destruct (extract p _ j) as [i|]; [|done]. destruct i; done.
  - cbn [from_napi kind_of]. destruct (extract p _ j) as [i|]; [|done]. destruct i; try done. destruct (_ =? _)%nat; done.
  - cbn [from_napi kind_of]. rewrite extract_id by done. destruct (from_ptr _ _ _ _ _) eqn:E; try done. exfalso. unfold from_ptr in E. destruct j as [| | | | | |a s|fs|]; try done.
    + destruct (_ && _); [|done]. unfold from_buf in E. destruct (utf8 s); [|done]. destruct s; [done|]. destruct (bool_decide _); done.
    + destruct (get fs (chars "type")); try done. destruct (bool_decide _); [|done]. destruct (extract _ _ _); [|done]. unfold from_size in E. destruct p.
      * destruct (from_64 _ _ _) eqn:E'; try done; [by destruct (fits _ _ _)|]. unfold from_64 in E'. destruct (nval_of _); try done.
        -- destruct (fits _ _ _); done.
        -- unfold get_big in E'. destruct (fits _ _ _); done.
      * destruct (nval_of _); try done. unfold from_small in E. destruct (_ =? _); done.
  - cbn [from_napi kind_of]. destruct (extract p _ j) as [i|]; [|done]. destruct i; try done. destruct (List.find _ _); done.
  - assert (Hfs : ∀ l, mapr VStruct (from_fields false p l fs) ≠ Panic).
    { intros l. enough (from_fields false p l fs ≠ Panic) by by destruct (from_fields false p l fs).
      induction fs as [|[n t] fs IHf]; [done|]. apply Forall_cons in IH as [IH1 IH]. cbn [from_fields snd] in *.
      specialize (IH1 (get l n)). specialize (IHf IH). destruct (from_napi false p t (get l n)); try done. by destruct (from_fields false p l fs). }
    destruct j as [| | | | | |a s|l|].
    8: { rewrite from_struct. apply Hfs. }
    8: { rewrite from_struct_fun. destruct p; [done|]. apply Hfs. }
    7: { destruct u8; [|rewrite from_struct_buf; apply Hfs]. cbn [from_napi kind_of]. by rewrite extract_id. }
    all: cbn [from_napi kind_of]; rewrite extract_id by done; by destruct u8.
Qed.
(** Enums are their variants' names, and no other strings. *)
Theorem C56_enum chk p vs j v : NoDup vs.*1 → from_napi chk p (TEnum vs) j = Ok v ↔ ∃ n z, j = JStr n ∧ (n, z) ∈ vs ∧ v = VInt z.
Proof.
  intros Hd. cbn [from_napi kind_of]. split.
  - destruct (extract p _ j) as [i|] eqn:X; [|done]. apply extract_same in X as ->; [|by left]. destruct j; try done.
    destruct (List.find _ vs) as [[m z]|] eqn:E; [|done]. intros [= <-].
    pose proof E as E0. apply find_some in E0 as [_ Em]. apply bool_decide_eq_true in Em. cbn [fst] in Em. subst m.
    exists s, z. split_and!; [done| |done]. by apply find_name in E.
  - intros (n & z & -> & Hin & ->). rewrite extract_id by done. by rewrite (proj2 (find_name vs n z Hd) Hin).
Qed.
Theorem C56_enum_to p fresh vs n z : NoDup vs.*2 → (n, z) ∈ vs → to_napi p fresh (TEnum vs) (VInt z) = Ok (JStr n).
Proof.
  intros Hd Hin. cbn [to_napi]. assert (Hz : z ∈ vs.*2) by (apply elem_of_list_fmap; by exists (n, z)).
  destruct (find_enum vs z Hz) as (m & -> & Hm). cbn [fst]. do 2 f_equal.
  clear Hz. induction vs as [|[k w] vs IH]; [by apply elem_of_nil in Hm|]. cbn [fmap list_fmap snd] in Hd. apply NoDup_cons in Hd as [Hw Hd].
  apply elem_of_cons in Hin as [Ei|Hin]; apply elem_of_cons in Hm as [Em|Hm].
  - congruence.
  - injection Ei as <- <-. destruct Hw. apply elem_of_list_fmap. by exists (m, z).
  - injection Em as <- <-. destruct Hw. apply elem_of_list_fmap. by exists (n, z).
  - by apply IH.
Qed.
(** A discriminant that is none panics, as does a Bool that is none. *)
Theorem C56_invalid p fresh vs z : z ∉ vs.*2 → to_napi p fresh (TEnum vs) (VInt z) = Panic.
Proof.
  intros Hz. cbn [to_napi]. destruct (List.find _ vs) as [[m w]|] eqn:E; [|done]. apply find_some in E as [E Ew]. destruct Hz.
  cbn [snd] in Ew. apply Z.eqb_eq in Ew as ->. apply elem_of_list_fmap. exists (m, z). split; [done|by apply elem_of_list_In].
Qed.
Theorem C56_bool chk p fresh j v z : (from_napi chk p TBool j = Ok v ↔ ∃ b : bool, read_bool p j b ∧ v = VInt (if b then 1 else 0)) ∧
  (to_napi p fresh TBool (VInt z) = if decide (z = 0) then Ok (JBool false) else if decide (z = 1) then Ok (JBool true) else Panic).
Proof.
  split.
  - cbn [from_napi kind_of]. split.
    + destruct (extract p _ j) as [i|] eqn:X; [|done]. apply extract_kind in X as Hi. destruct i; try done. intros [= <-].
      exists b. split; [|done]. by apply extract_bool.
    + intros (b & Hb & ->). apply extract_bool in Hb. by rewrite Hb.
  - cbn [to_napi]. destruct (Z.eqb_spec z 0), (Z.eqb_spec z 1), (decide (z = 0)), (decide (z = 1)); done.
Qed.
(** Arrays of bytes are buffers of their length, on Node.js nothing else (see
    C67 for wasm). *)
Theorem C56_bytes chk n :
  (∀ b ptr j v, from_napi chk (Node b ptr) (TBytes n) j = Ok v ↔ ∃ a s, j = JBuf a s ∧ List.length s = n ∧ v = VBytes s) ∧
  (∀ p a s, from_napi chk p (TBytes n) (JBuf a s) = if decide (List.length s = n) then Ok (VBytes s) else Err).
Proof.
  assert (H : ∀ p a s, from_napi chk p (TBytes n) (JBuf a s) = if decide (List.length s = n) then Ok (VBytes s) else Err).
  { intros p a s. cbn [from_napi kind_of]. rewrite extract_id by done. destruct (Nat.eqb_spec (List.length s) n), (decide (List.length s = n)); done. }
  split; [|done]. intros b ptr j v. split.
  - destruct j; try done. rewrite H. destruct (decide _); [|done]. intros [= <-]. by eexists _, _.
  - intros (a & s & -> & Hs & ->). rewrite H. by rewrite decide_True.
Qed.
(** Structs are their fields, each converted as its own type. *)
Theorem C56_struct chk p u8 fs l vs : from_napi chk p (TStruct u8 fs) (JObj l) = Ok (VStruct vs) ↔
  Forall2 (λ f v, from_napi chk p f.2 (get l f.1) = Ok v) fs vs.
Proof.
  rewrite from_struct. transitivity (from_fields chk p l fs = Ok vs).
  { destruct (from_fields chk p l fs); cbn [mapr]; split; try done; by intros [= ->]. }
  revert vs. induction fs as [|[n t] fs IH]; intros vs; cbn [from_fields].
  - split; [by intros [= <-]|]. by intros ->%Forall2_nil_inv_l.
  - split.
    + destruct (from_napi _ _ _ _) as [v| |] eqn:E; try done. destruct (from_fields _ _ _ _) as [ws| |] eqn:F; try done. intros [= <-].
      constructor; [done|]. by apply IH.
    + intros H. apply Forall2_cons_inv_l in H as (v & ws & Hv & Hws & ->). cbn [fst snd] in Hv. rewrite Hv. apply IH in Hws. by rewrite Hws.
Qed.
(** NaN, and constant pointers to mutable ones, do not survive. *)
Theorem C56_roundtrip_refuted :
  (∃ t v, well_formed t ∧ ∀ p, has_type p t v ∧ ∀ fresh, ∃ j, to_napi p fresh t v = Ok j ∧ ∀ chk, from_napi chk p t j = Err) ∧
  (∃ t v, well_formed t ∧ nan_free v ∧ has_type wasm t v ∧ ∀ fresh, ∃ j, to_napi wasm fresh t v = Ok j ∧ ∀ chk, from_napi chk wasm t j = Err).
Proof.
  split.
  - exists (TFloat false), (VFloat NaN). split; [done|]. intros p. split; [done|]. intros fresh. eexists. split; [reflexivity|]. intros chk. by destruct p.
  - exists (TPtr true (PPtr false (PBase (chars "int32_t")))), (VPtr 4096). split_and!; [done..|by vm_compute|].
    intros fresh. eexists. split; [vm_compute; reflexivity|]. intros chk. vm_compute. reflexivity.
Qed.
Definition example_struct : cty :=
  TStruct false
    [(chars "id", T64 false); (chars "kind", TEnum [(chars "A", 0); (chars "B", 7)]); (chars "ok", TBool);
     (chars "key", TBytes 2); (chars "next", TPtr true (PBase (chars "Node_t")));
     (chars "at", TStruct false [(chars "x", TFloat true); (chars "n", TSmall true 8)])].
Definition example_val : val :=
  VStruct [VInt (2 ^ 64 - 1); VInt 7; VInt 1; VBytes [1%N; 2%N]; VPtr 4096; VStruct [VFloat (Fin true 1 (-149)); VInt (-128)]].
Example C56_example : let p := Node (λ _, 0) 64 in
  plat_ok p ∧ has_type p example_struct example_val ∧ nan_free example_val ∧
  match to_napi p 512 example_struct example_val with
  | Ok j => from_napi true p example_struct j = Ok example_val ∧
            match j with
            | JObj l => get l (chars "kind") = JStr (chars "B") ∧ get l (chars "id") = JBig (2 ^ 64 - 1) ∧
                        from_napi true p example_struct (JObj (tail l)) = Err
            | _ => False
            end
  | _ => False
  end.
Proof.
  intros p. split; [by vm_compute|]. split; [|split; [by vm_compute|vm_compute; repeat split; reflexivity]].
  unfold example_struct, example_val. rewrite type_struct. cbn [fields_type].
  split; [by vm_compute|]. split; [cbn [has_type]; apply (bool_decide_unpack _); vm_compute; exact I|]. split; [by right|]. split; [done|].
  split; [by vm_compute|]. split; [|done]. rewrite type_struct. cbn [fields_type]. split; [by vm_compute|]. by vm_compute.
Qed.
Example C56_well_formed : well_formed example_struct ∧ deep_const example_struct.
Proof.
  split; unfold example_struct.
  - rewrite wf_struct. split; [done|]. split; [apply (bool_decide_unpack _); vm_compute; exact I|].
    repeat apply Forall_cons_2; try apply Forall_nil_2; try done; cbn [snd].
    + split; apply (bool_decide_unpack _); vm_compute; exact I.
    + rewrite wf_struct. split; [done|]. split; [apply (bool_decide_unpack _); vm_compute; exact I|].
      repeat apply Forall_cons_2; try apply Forall_nil_2; done.
  - rewrite dc_struct. repeat apply Forall_cons_2; try apply Forall_nil_2; try done; cbn [snd].
    split; [|done]. split; [apply (bool_decide_unpack _); vm_compute; exact I|].
    intros [y H]. apply (f_equal (@rev N)) in H. rewrite rev_app_distr in H. vm_compute in H. discriminate H.
Qed.

(** ** C58: strings and buffers for C *)

Lemma nul_pos_spec s n : nul_pos s = Some n ↔ ∃ a b, s = (a ++ 0%N :: b)%list ∧ 0%N ∉ a ∧ List.length a = n.
Proof.
  revert n. induction s as [|c s IH]; intros n; cbn [nul_pos].
  - split; [done|]. by intros ([|??] & b & ? & _).
  - destruct (N.eqb_spec c 0) as [->|Hc].
    + split.
      * intros [= <-]. exists [], s. split_and!; [done|apply not_elem_of_nil|done].
      * intros ([|a0 a] & b & E & Ha & <-); [done|]. injection E as <- _. destruct Ha. constructor.
    + split.
      * destruct (nul_pos s) as [k|]; [|done]. intros [= <-]. destruct (proj1 (IH k) eq_refl) as (a & b & -> & Ha & <-).
        exists (c :: a), b. split_and!; [done| |done]. apply not_elem_of_cons. split; [by intros <-|done].
      * intros ([|a0 a] & b & E & Ha & <-); [by injection E|]. injection E as <- ->. apply not_elem_of_cons in Ha as [_ Ha].
        rewrite (proj2 (IH (List.length a))); [done|]. by exists a, b.
Qed.
Lemma nul_pos_none s : nul_pos s = None ↔ 0%N ∉ s.
Proof.
  induction s as [|c s IH]; cbn [nul_pos]; [split; [intros _; apply not_elem_of_nil|done]|].
  rewrite not_elem_of_cons, <-IH. destruct (N.eqb_spec c 0) as [->|Hc]; [split; [done|tauto]|].
  destruct (nul_pos s); cbn [option_map]; split.
  - done.
  - by intros [_ ?].
  - intros _. split; [by intros <-|done].
  - done.
Qed.
(** A buffer is accepted as a C string exactly when it is UTF-8 with one NUL,
    at its end; the empty one panics if overflow is checked. *)
Theorem C58_buffer_partial chk p a buf a' : buf ≠ [] →
  from_ptr chk p true (PBase (chars "char")) (JBuf a buf) = Ok a' ↔
  a' = a ∧ utf8 buf = true ∧ ∃ s, buf = (s ++ [0%N])%list ∧ 0%N ∉ s.
Proof.
  intros Hn. cbn [from_ptr]. rewrite bool_decide_eq_true_2 by done. cbn [andb]. unfold from_buf.
  destruct (utf8 buf); [|split; [done|by intros (_ & ? & _)]].
  assert (E : nul_pos buf = Some (List.length buf - 1)%nat ↔ ∃ s, buf = (s ++ [0%N])%list ∧ 0%N ∉ s).
  { rewrite nul_pos_spec. split.
    - intros (x & y & Ex & Hx & El). exists x. split; [|done]. rewrite Ex, app_length in El. cbn [List.length] in El. destruct y; [done|cbn [List.length] in El; lia].
    - intros (s & -> & Hs). exists s, []. split_and!; [done..|]. rewrite app_length. cbn [List.length]. lia. }
  rewrite <-E. destruct buf as [|b buf]; [done|]. destruct (bool_decide_reflect (nul_pos (b :: buf) = Some (List.length (b :: buf) - 1)%nat)) as [Hp|Hp].
  - split; [by intros [= ->]|by intros [-> _]].
  - split; [done|by intros (_ & _ & ?)].
Qed.
Theorem C58_empty p a : from_ptr true p true (PBase (chars "char")) (JBuf a []) = Panic ∧
  from_ptr false p true (PBase (chars "char")) (JBuf a []) = Err.
Proof. done. Qed.
Theorem C58_buffer_refuted : ∃ p j, js_ok p j ∧ from_ptr true p true (PBase (chars "char")) j = Panic.
Proof. exists wasm, (JBuf 4096 []). split; [|done]. by vm_compute. Qed.
(** A JS string is given as the C string of its contents, but for a last NUL,
    and refused if it contains another. *)
Theorem C58_string s mem : with_c_string (JStr s) = Ok (Some mem) ↔
  (0%N ∉ s ∧ mem = (s ++ [0%N])%list) ∨ (∃ s', s = (s' ++ [0%N])%list ∧ 0%N ∉ s' ∧ mem = s).
Proof.
  cbn [with_c_string]. destruct (nul_pos s) as [n|] eqn:E.
  - apply nul_pos_spec in E as (a & b & -> & Ha & <-). rewrite app_length. cbn [List.length].
    assert (Hin : 0%N ∈ (a ++ 0%N :: b)%list) by (apply elem_of_app; right; constructor).
    destruct (Nat.eqb_spec (List.length a) (List.length a + S (List.length b) - 1)) as [Hl|Hl].
    + destruct b; [|cbn [List.length] in Hl; lia]. split.
      * intros [= <-]. right. by exists a.
      * intros [[? _]|(s' & H & _ & ->)]; done.
    + split; [done|]. intros [[? _]|(s' & H & Hs' & ->)]; [done|].
      apply (f_equal (@List.length N)) in H as El. rewrite !app_length in El. cbn [List.length] in El. exfalso. apply Hl.
      enough (List.length b = 0)%nat by lia. destruct b as [|c b] using rev_ind; [done|].
      replace (a ++ 0%N :: b ++ [c])%list with ((a ++ 0%N :: b) ++ [c])%list in H by by rewrite <-app_assoc.
      apply app_inj_tail in H as [H _]. destruct Hs'. rewrite <-H. apply elem_of_app. right. constructor.
  - apply nul_pos_none in E. split; [intros [= <-]; by left|]. intros [[_ ->]|(s' & -> & _ & _)]; [done|].
    destruct E. apply elem_of_app. right. constructor.
Qed.
(** It is read in C as these contents, and back in JavaScript. *)
Theorem C58_read s mem : with_c_string (JStr s) = Ok (Some mem) →
  ∃ s', is_c_string mem s' ∧ (s = s' ∨ s = (s' ++ [0%N])%list) ∧ c_string_to_js (Some mem) = Some (JStr s').
Proof.
  assert (Hr : ∀ s', 0%N ∉ s' → c_string (s' ++ [0%N]) = Some s').
  { induction s' as [|c s' IH]; intros H; [done|]. apply not_elem_of_cons in H as [Hc H]. cbn [app c_string].
    rewrite IH by done. by destruct (N.eqb_spec c 0) as [->|]. }
  rewrite C58_string. intros [[Hs ->]|(s' & -> & Hs' & ->)].
  - exists s. split_and!; [by exists []|by left|]. cbn [c_string_to_js]. by rewrite Hr.
  - exists s'. split_and!; [by exists []|by right|]. cbn [c_string_to_js]. by rewrite Hr.
Qed.
Theorem C58_null : with_c_string JNull = Ok None ∧ c_string_to_js None = Some JNull ∧ ∀ p, ∃ j, to_ptr p true (PBase (chars "char")) 0 = Ok j ∧ j = JNull.
Proof. split_and!; [done..|]. intros p. by exists JNull. Qed.
Theorem C58_other j : (∀ s, j ≠ JStr s) → j ≠ JNull → with_c_string j = Err.
Proof. intros Hs Hn. destruct j; try done. by destruct (Hs s). Qed.
(** Buffers are given as slices: of bytes, by withCBytes and as arguments
    alike; null is a null pointer with a length. *)
Theorem C58_bytes chk p fs a s :
  with_c_bytes (JBuf a s) = Ok (a, Z.of_nat (List.length s)) ∧
  from_napi chk p (TStruct true fs) (JBuf a s) = Ok (VStruct [VPtr a; VInt (Z.of_nat (List.length s)); VUnit]) ∧
  (∀ j q n, with_c_bytes j = Ok (q, n) → from_napi chk p (TStruct true fs) j = Ok (VStruct [VPtr q; VInt n; VUnit])).
Proof.
  split_and!; [done|cbn [from_napi kind_of]; by rewrite extract_id|].
  intros j q n H. cbn [from_napi kind_of]. rewrite extract_id by done. destruct j; try done; by injection H as <- <-.
Qed.
Theorem C58_null_bytes : ∃ n, n ≠ 0 ∧ with_c_bytes JNull = Ok (0, n).
Proof. exists 12242944. done. Qed.
Example C58_example :
  from_ptr true wasm true (PBase (chars "char")) (JBuf 4096 [104; 105; 0]%N) = Ok 4096 ∧
  from_ptr true wasm true (PBase (chars "char")) (JBuf 4096 [104; 105]%N) = Err ∧
  from_ptr true wasm true (PBase (chars "char")) (JBuf 4096 [104; 0; 105; 0]%N) = Err ∧
  from_ptr true wasm true (PBase (chars "char")) (JBuf 4096 [255; 0]%N) = Err ∧
  from_ptr true wasm false (PBase (chars "char")) (JBuf 4096 [104; 0]%N) = Err ∧
  from_ptr true wasm true (PBase (chars "uint8_t")) (JBuf 4096 [104; 0]%N) = Err ∧
  with_c_string (JStr [104; 105]%N) = Ok (Some [104; 105; 0]%N) ∧ with_c_string (JStr [104; 105; 0]%N) = Ok (Some [104; 105; 0]%N) ∧
  with_c_string (JStr [104; 0; 105]%N) = Err ∧ with_c_string (JStr []) = Ok (Some [0]%N).
Proof. vm_compute. split_and!; reflexivity. Qed.

Print Assumptions C44_null.
Print Assumptions C44_null_only.
Print Assumptions C44_mut_roundtrip.
Print Assumptions C44_const_roundtrip_partial.
Print Assumptions C44_roundtrip_refuted.
Print Assumptions C44_exact.
Print Assumptions C44_only_weakening.
Print Assumptions C44_mut_to_const.
Print Assumptions C44_const_to_mut.
Print Assumptions C44_object.
Print Assumptions C44_rejected.
Print Assumptions C44_range.
Print Assumptions C44_name_refuted.
Print Assumptions C56_total.
Print Assumptions C56_roundtrip_partial.
Print Assumptions C56_sound.
Print Assumptions C56_no_panic.
Print Assumptions C56_enum.
Print Assumptions C56_enum_to.
Print Assumptions C56_invalid.
Print Assumptions C56_bool.
Print Assumptions C56_bytes.
Print Assumptions C56_struct.
Print Assumptions C56_roundtrip_refuted.
Print Assumptions C58_buffer_partial.
Print Assumptions C58_empty.
Print Assumptions C58_buffer_refuted.
Print Assumptions C58_string.
Print Assumptions C58_read.
Print Assumptions C58_null.
Print Assumptions C58_other.
Print Assumptions C58_bytes.
Print Assumptions C58_null_bytes.
