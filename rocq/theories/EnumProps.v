(** Theorems about field-less enums: C21, C26, C27, C52. *)

From Coq Require Import ZArith NArith List Bool Lia String Ascii ZifyBool ZifyN.
From stdpp Require Import base numbers list list_numbers.
From Verif Require Import EnumModel EnumSpec EnumProofs.

(** ** C21 *)

(** The discriminants of the model are Rust's. *)
Theorem C21_numbering d ds :
  discriminants d = Some ds → rust_numbering (source_int d) (e_variants d) ds.
Proof. apply discriminants_sound. Qed.

(** An enum accepts an integer from C exactly when its bits are those of a
    variant's discriminant, and then of one variant only; everything else is
    rejected.
    Missing: the enums of the refutations. *)
Theorem C21_variants_partial d ds int x :
  valid_enum d ds → derive_int d = Some int → bits int = bits (stored_int d) →
  codes "discriminant" ∉ names d → fits int x = true →
  (∀ v, v ∈ ds → fits (stored_int d) v = true) →
  (from_raw d x = Accepted ↔
     ∃ i v, ds !! i = Some v ∧ same_bits (bits int) v x ∧
       ∀ j v', ds !! j = Some v' → same_bits (bits int) v' x → j = i) ∧
  (from_raw d x ≠ Accepted → from_raw d x = Rejected).
Proof.
  intros Hv Hi Hb Hn Hx Hst. pose proof (derive_int_pos _ _ _ Hv Hi) as Hpos.
  destruct Hv as (Hd & Hnd & _ & _). unfold from_raw. rewrite Hi, Hd, <-Hb, Z.eqb_refl.
  assert (HS : ∀ cs, scrutinee d cs x = x).
  { intros cs. unfold scrutinee.
    destruct (list_find _ _) as [[i [n c]]|] eqn:E; [|done].
    apply list_find_Some in E as (E & Hc & _). cbn in Hc. subst n.
    destruct Hn. apply elem_of_list_lookup_2 in E. by apply elem_of_zip_l in E. }
  unfold is_valid. rewrite HS.
  assert (HX : existsb (Z.eqb x) (consts int ds) = true ↔ ∃ v, v ∈ ds ∧ same_bits (bits int) v x).
  { rewrite existsb_exists. unfold consts. split.
    - intros (c & Hc & E). apply Z.eqb_eq in E. subst c.
      apply in_map_iff in Hc as (v & Hw & Hin). exists v. split; [by apply elem_of_list_In|].
      unfold same_bits. apply wrap_mod; [done|]. rewrite Hw. symmetry. by apply wrap_id.
    - intros (v & Hin & Hs). exists (wrap int v). split; [apply in_map; by apply elem_of_list_In|].
      apply Z.eqb_eq. rewrite <-(wrap_id int x) at 1 by done. unfold wrap. by rewrite Hs. }
  assert (HU : ∀ v v', v ∈ ds → v' ∈ ds → same_bits (bits int) v v' → v = v').
  { intros v v' H1 H2 Hs. apply Hst in H1, H2.
    rewrite Hb in *. rewrite <-(wrap_id _ _ Hpos H1), <-(wrap_id _ _ Hpos H2).
    unfold wrap. by rewrite Hs. }
  destruct (existsb _ _) eqn:E.
  - split; [|done]. split; [|done]. intros _.
    destruct (proj1 HX eq_refl) as (v & Hin & Hs).
    apply elem_of_list_lookup in Hin as [i Hi']. exists i, v. split; [done|]. split; [done|].
    intros j v' Hj Hs'. eapply NoDup_lookup; [done..|]. rewrite Hi'. f_equal. symmetry.
    apply HU; [by eapply elem_of_list_lookup_2..|]. unfold same_bits in *. congruence.
  - split; [|done]. split; [done|]. intros (i & v & Hi' & Hs & _).
    assert (false = true); [|done]. apply HX. exists v. split; [|done]. by eapply elem_of_list_lookup_2.
Qed.

(** With an integer in the only [repr] attribute, all that is asked for above
    is automatic, and discriminants are compared as they are. *)
Theorem C21_integer_repr_partial d ds t ws x :
  valid_enum d ds → e_variants d ≠ [] → e_reprs d = [ws] → first_int ws = Some t →
  codes "discriminant" ∉ names d → fits t x = true →
  (from_raw d x = Accepted ↔ x ∈ ds) ∧ (x ∉ ds → from_raw d x = Rejected).
Proof.
  intros Hv Hne Hr Hf Hn Hx.
  assert (HC : concat (e_reprs d) = ws) by (rewrite Hr; apply app_nil_r).
  assert (Hs : source_int d = t) by (unfold source_int; by rewrite HC, Hf).
  assert (Hst : stored_int d = t) by (unfold stored_int; by rewrite HC, Hf).
  assert (Hint : derive_int d = Some t).
  { unfold derive_int, parse_discriminant_type. destruct (e_variants d); [done|]. rewrite Hr.
    destruct ws; [done|]. by rewrite Hf. }
  pose proof (derive_int_pos _ _ _ Hv Hint) as Hpos.
  assert (Hall : ∀ v, v ∈ ds → fits t v = true).
  { intros v. apply (number_fits t 0 (e_variants d)); [done|]. rewrite <-Hs. apply Hv. }
  assert (HE : ∀ v, v ∈ ds → same_bits (bits t) v x → v = x).
  { intros v Hin E. rewrite <-(wrap_id t v), <-(wrap_id t x) by auto. unfold wrap. by rewrite E. }
  destruct (C21_variants_partial d ds t x) as [HA HR]; try done.
  { by rewrite Hst. }
  { rewrite Hst. done. }
  assert (HI : from_raw d x = Accepted ↔ x ∈ ds).
  { rewrite HA. split.
    - intros (i & v & Hi & Hsb & _). rewrite <-(HE v); [|by eapply elem_of_list_lookup_2|done].
      by eapply elem_of_list_lookup_2.
    - intros Hin. apply elem_of_list_lookup in Hin as [i Hi]. exists i, x.
      split; [done|]. split; [done|]. intros j v' Hj Hsb.
      apply HE in Hsb; [|by eapply elem_of_list_lookup_2]. subst v'.
      destruct Hv as (_ & Hnd & _). eapply NoDup_lookup; [done..|]. congruence. }
  split; [done|]. intros Hni. apply HR. by rewrite HI.
Qed.

(** [#[repr(u8)] enum E { A, B = 7, Z }]. *)
Definition ex_abz : edef :=
  Enum (codes "E") [[WInt u8]] [(codes "A", None); (codes "B", Some (ELit 7)); (codes "Z", None)].
Example C21_example :
  valid_enum ex_abz [0; 7; 8]%Z ∧ codes "discriminant" ∉ names ex_abz ∧
  from_raw ex_abz 8 = Accepted ∧ from_raw ex_abz 9 = Rejected.
Proof.
  split.
  { split; [by vm_compute|]. split; [|split].
    - by eapply (bool_decide_unpack _); vm_compute.
    - by eapply (bool_decide_unpack _); vm_compute.
    - intros t Ht. cbn in Ht. apply elem_of_list_singleton in Ht as [=->]. done. }
  split; [by eapply (bool_decide_unpack _); vm_compute|]. by vm_compute.
Qed.

(** What rustc says of some expressions. *)
Example C21_eval_example :
  eval u8 (EShl (ELit 3) 0) = Some 3%Z ∧ eval u8 (EShl (ELit 3) 7) = Some 128%Z ∧ eval u8 (EShl (ELit 3) 8) = None ∧
  eval (Int 8 true) (EShl (ELit 1) 7) = Some (-128)%Z ∧ eval u8 (EShl (ELit 1) (-1)) = None ∧
  eval u8 (ENot (ELit 1)) = Some 254%Z ∧ eval (Int 8 true) (ENot (ELit 1)) = Some (-2)%Z ∧
  eval (Int 8 true) (ENeg (ELit 128)) = Some (-128)%Z ∧ eval (Int 8 true) (ELit 128) = None ∧ eval u8 (ENeg (ELit 1)) = None ∧
  eval u8 (ENeg (ELit 0)) = None ∧ eval (Int 8 true) (ENeg (ENeg (ELit 128))) = None ∧
  eval u8 (EAdd (ELit 255) (ELit 1)) = None ∧ eval u8 (EAdd (ELit 0) (EConst 255)) = Some 255%Z ∧ eval u8 (EConst 256) = None.
Proof. vm_compute. split_and!; reflexivity. Qed.

(** A variant called [discriminant] makes every integer acceptable. *)
Theorem C21_shadowing_refuted :
  ∃ d ds x, valid_enum d ds ∧ e_reprs d = [[WInt u8]] ∧ fits u8 x = true ∧ x ∉ ds ∧
    from_raw d x = Accepted.
Proof.
  exists (Enum (codes "E") [[WInt u8]] [(codes "a", None); (codes "discriminant", None)]),
    [0; 1]%Z, 200%Z.
  split.
  { split; [by vm_compute|]. split; [|split].
    - by eapply (bool_decide_unpack _); vm_compute.
    - by eapply (bool_decide_unpack _); vm_compute.
    - intros t Ht. cbn in Ht. apply elem_of_list_singleton in Ht as [=->]. done. }
  split; [done|]. split; [done|]. split; [by eapply (bool_decide_unpack _); vm_compute|].
  by vm_compute.
Qed.

(** A [repr(C)] enum that needs more than 32 bits: the variants themselves
    cannot be received. *)
Theorem C21_wide_refuted :
  ∃ d ds x, valid_enum d ds ∧ e_reprs d = [[WC]] ∧ fits c_int x = true ∧ x ∈ ds ∧
    from_raw d x = Panic.
Proof.
  exists (Enum (codes "E") [[WC]] [(codes "A", None); (codes "B", Some (ELit 4294967296))]),
    [0; 4294967296]%Z, 0%Z.
  split.
  { split; [by vm_compute|]. split; [|split].
    - by eapply (bool_decide_unpack _); vm_compute.
    - by eapply (bool_decide_unpack _); vm_compute.
    - intros t Ht. cbn in Ht. by apply elem_of_list_singleton in Ht. }
  split; [done|]. split; [done|]. split; [left|]. by vm_compute.
Qed.

(** [#[repr(C)] #[repr(u8)]]: only the first attribute is looked at. *)
Theorem C21_two_attributes_refuted :
  ∃ d ds x, valid_enum d ds ∧ e_reprs d = [[WC]; [WInt u8]] ∧ x ∈ ds ∧ from_raw d x = Panic.
Proof.
  exists (Enum (codes "E") [[WC]; [WInt u8]] [(codes "A", None)]), [0]%Z, 0%Z.
  split.
  { split; [by vm_compute|]. split; [|split].
    - by eapply (bool_decide_unpack _); vm_compute.
    - by eapply (bool_decide_unpack _); vm_compute.
    - intros t Ht. cbn in Ht. rewrite elem_of_cons, elem_of_list_singleton in Ht.
      by destruct Ht as [[=]|[=->]]. }
  split; [done|]. split; [left|]. by vm_compute.
Qed.

(** ** C26 *)

(** C and C#: if header generation compiles, the constants have the Rust
    values.
    Missing: untyped expressions with shifts, or with [!] at unsigned types. *)
Theorem C26_values_partial l d ds hs :
  l ≠ Python →
  (∀ n e, (n, Some e) ∈ e_variants d → typed e = true ∨ portable (signed (source_int d)) e = true) →
  discriminants d = Some ds → header_values l d = Some hs → hs = ds.
Proof.
  intros Hl Hp Hd Hh. unfold header_values in Hh.
  destruct (printed l d (e_variants d)) as [ps|] eqn:E; [|done]. injection Hh as <-.
  by eapply printed_values.
Qed.

(** Python: the constants are 0, 1, ...; so they have the Rust values exactly
    when the Rust values are those. *)
Theorem C26_python_partial d :
  header_values Python d = Some (seqZ 0 (Z.of_nat (length (e_variants d)))) ∧
  ((∀ n e, (n, e) ∈ e_variants d → e = None) →
   ∀ ds, discriminants d = Some ds → header_values Python d = Some ds).
Proof.
  assert (HV : header_values Python d = Some (seqZ 0 (Z.of_nat (length (e_variants d))))).
  { unfold header_values. rewrite printed_python. cbn. by rewrite enumerators_none. }
  split; [done|]. intros Hn ds Hd. rewrite HV. f_equal.
  assert (HG : ∀ vs next ds, (∀ n e, (n, e) ∈ vs → e = None) → number (source_int d) next vs = Some ds →
    seqZ next (Z.of_nat (length vs)) = ds).
  { clear. induction vs as [|[n e] vs IH]; intros next ds Hn Hd; [by cbn in Hd; simplify_eq|].
    cbn [number] in Hd. rewrite (Hn n e) in Hd by left. unfold check in Hd.
    destruct (fits _ next); [|done]. destruct (number _ (next + 1) vs) eqn:E; [|done]. injection Hd as <-.
    rewrite seqZ_cons by (cbn; lia). f_equal.
    replace (Z.pred (Z.of_nat (length ((n, e) :: vs)))) with (Z.of_nat (length vs)) by (cbn [length]; lia).
    replace (Z.succ next) with (next + 1)%Z by lia.
    apply IH; [|done]. intros. eapply Hn. right. done. }
  by apply HG.
Qed.

(** [#[repr(i8)] enum E { A = -5, B, D = !3 + 1 }]. *)
Definition ex_signed : edef :=
  Enum (codes "E") [[WInt (Int 8 true)]]
    [(codes "A", Some (ENeg (ELit 5))); (codes "B", None);
     (codes "D", Some (EAdd (ENot (ELit 3)) (ELit 1)))].
Example C26_example :
  (∀ n e, (n, Some e) ∈ e_variants ex_signed → typed e = true ∨ portable (signed (source_int ex_signed)) e = true) ∧
  discriminants ex_signed = Some [-5; -4; -3]%Z ∧ header_values C ex_signed = Some [-5; -4; -3]%Z ∧
  header_values CSharp ex_signed = Some [-5; -4; -3]%Z.
Proof.
  split; [|by vm_compute]. intros n e. unfold ex_signed; cbn.
  rewrite !elem_of_cons, elem_of_nil. intros [[= -> ->]|[[=]|[[= -> ->]|[]]]]; by right.
Qed.

(** [#[repr(u8)] enum E { A = !0 }] is 255 in Rust; the header says -1. *)
Theorem C26_not_refuted :
  ∃ d ds hs l, l ≠ Python ∧ discriminants d = Some ds ∧ header_values l d = Some hs ∧ hs ≠ ds.
Proof.
  exists (Enum (codes "E") [[WInt u8]] [(codes "A", Some (ENot (ELit 0)))]), [255]%Z, [-1]%Z, C.
  by vm_compute.
Qed.

(** [#[repr(u64)] enum E { A = 1 << 31 }] is 2147483648 in Rust; the header
    says -2147483648. *)
Theorem C26_shift_refuted :
  ∃ d ds hs l, l ≠ Python ∧ discriminants d = Some ds ∧ header_values l d = Some hs ∧
    ds = [2147483648]%Z ∧ hs = [-2147483648]%Z.
Proof.
  exists (Enum (codes "E") [[WInt u64]] [(codes "A", Some (EShl (ELit 1) 31))]),
    [2147483648]%Z, [-2147483648]%Z, C.
  by vm_compute.
Qed.

(** The Python header drops explicit discriminants. *)
Theorem C26_python_refuted :
  ∃ d ds hs, discriminants d = Some ds ∧ header_values Python d = Some hs ∧ hs ≠ ds.
Proof. exists ex_abz, [0; 7; 8]%Z, [0; 1; 2]%Z. by vm_compute. Qed.

(** ** C27 *)

(** When two enums (possibly one) with names [c a] and [c' a'] print the same
    constant for variants [v] and [v']. *)
Theorem C27_collisions c a v c' a' v' :
  screaming_case (c :: a) v = screaming_case (c' :: a') v' ↔
  same_letter c c' ∧ camel (a ++ v) = camel (a' ++ v').
Proof.
  rewrite <-to_upper_same, <-encs_same. unfold screaming_case. cbn.
  change (concat (map _ (a ++ v))) with (encs (a ++ v)).
  change (concat (map _ (a' ++ v'))) with (encs (a' ++ v')).
  split; [by intros [= -> ->]|by intros [-> ->]].
Qed.

(** Two variants of one enum. *)
Theorem C27_within c a v v' :
  screaming_case (c :: a) v = screaming_case (c :: a) v' ↔ camel v = camel v'.
Proof.
  rewrite C27_collisions, <-!encs_same, !encs_app. split.
  - intros [_ H]. by apply app_inv_head in H.
  - intros H. split; [by left|]. by f_equal.
Qed.

(** All constants of an enum are distinct if no name has [_] before a lower
    case letter.
    Missing: such names, and constants of different enums. *)
Theorem C27_distinct_partial c a (vs : list (list N)) :
  NoDup vs → (∀ v, v ∈ vs → no_snake v) → NoDup (map (screaming_case (c :: a)) vs).
Proof.
  intros Hd Hs. apply NoDup_fmap_2_strong; [|done].
  intros v v' Hv Hv' H. apply C27_within in H. by rewrite !camel_id in H by auto.
Qed.

Example C27_example :
  map (screaming_case (codes "PollResult")) [codes "Ok"; codes "NotReady"; codes "X_1"] =
  [codes "POLL_RESULT_OK"; codes "POLL_RESULT_NOT_READY"; codes "POLL_RESULT_X_1"] ∧
  camel (codes "Foo_bar") = codes "FooBar".
Proof. by vm_compute. Qed.

(** One enum, two variants, one constant. *)
Theorem C27_within_refuted :
  ∃ e v v', v ≠ v' ∧ screaming_case e v = screaming_case e v'.
Proof. exists (codes "E"), (codes "aB"), (codes "a_b"). by vm_compute. Qed.

(** Two enums, one constant; the C enumerators live in one scope. *)
Theorem C27_across_refuted :
  ∃ e v e' v', e ≠ e' ∧ v ≠ v' ∧ screaming_case e v = screaming_case e' v'.
Proof. exists (codes "Foo"), (codes "BarBaz"), (codes "FooBar"), (codes "Baz"). by vm_compute. Qed.

(** ** C52 *)

(** The JS form of an enum: variant [i] becomes the string naming it, that
    string becomes variant [i] again, and no other string is accepted. *)
Theorem C52_js d ds t ws :
  valid_enum d ds → e_reprs d = [ws] → first_int ws = Some t →
  (∀ i n v, names d !! i = Some n → ds !! i = Some v →
     to_js (names d) (consts t ds) v = Some n ∧ from_js (names d) (consts t ds) n = Some v) ∧
  (∀ s, from_js (names d) (consts t ds) s = None ↔ s ∉ names d) ∧
  (∀ s v, from_js (names d) (consts t ds) s = Some v → v ∈ ds) ∧
  (∀ v, to_js (names d) (consts t ds) v = None ↔ v ∉ ds).
Proof.
  intros Hv Hr Hf.
  assert (HC : concat (e_reprs d) = ws) by (rewrite Hr; apply app_nil_r).
  assert (Hs : source_int d = t) by (unfold source_int; by rewrite HC, Hf).
  destruct Hv as (Hd & Hnd & Hnn & Hb).
  assert (Hpos : (0 < bits t)%Z) by (apply Hb; rewrite HC; by apply first_int_in).
  unfold discriminants in Hd. rewrite Hs in Hd.
  assert (Hcs : consts t ds = ds).
  { unfold consts. rewrite <-(map_id ds) at 2. apply map_ext_in. intros v Hin%elem_of_list_In.
    apply wrap_id; [done|]. by eapply number_fits. }
  rewrite Hcs. apply number_sound in Hd as [Hlen _].
  assert (Hlen' : length ds = length (names d)) by (unfold names; by rewrite map_length).
  clear Hlen Hcs Hb HC Hr Hs. revert Hnd Hnn Hlen'. generalize (names d) as ns. clear d.
  revert ds. induction ds as [|c ds IH]; intros [|n ns] Hnd Hnn Hlen; try done.
  { split; [done|]. split; [split; [intros _; apply not_elem_of_nil|done]|].
    split; [done|]. split; [intros _; apply not_elem_of_nil|done]. }
  apply NoDup_cons in Hnd as [Hc Hnd]. apply NoDup_cons in Hnn as [Hn Hnn].
  injection Hlen as Hlen. destruct (IH ns Hnd Hnn Hlen) as (H1 & H2 & H3 & H4).
  cbn [to_js from_js]. unfold name_eqb. split; [|split; [|split]].
  - intros [|i] m v Hm Hv.
    + injection Hm as <-. injection Hv as <-. rewrite Z.eqb_refl, bool_decide_true by done. done.
    + destruct (H1 i m v Hm Hv) as [HA HB]. split.
      * destruct (c =? v)%Z eqn:E; [|done]. apply Z.eqb_eq in E. subst v. destruct Hc.
        by eapply elem_of_list_lookup_2.
      * rewrite bool_decide_false; [done|]. intros ->. destruct Hn. by eapply elem_of_list_lookup_2.
  - intros s. rewrite not_elem_of_cons. case_bool_decide as E.
    + split; [done|]. intros [? _]. congruence.
    + rewrite H2. split; [by split|by intros [_ ?]].
  - intros s v. rewrite elem_of_cons. case_bool_decide as E; [intros [=->]; by left|].
    intros H. right. by eapply H3.
  - intros v. rewrite not_elem_of_cons. destruct (c =? v)%Z eqn:E.
    + apply Z.eqb_eq in E. split; [done|]. intros [? _]. congruence.
    + apply Z.eqb_neq in E. rewrite H4. split; [intros; by split|by intros [_ ?]].
Qed.

Example C52_example :
  to_js (names ex_abz) (consts u8 [0; 7; 8]%Z) 7 = Some (codes "B") ∧
  from_js (names ex_abz) (consts u8 [0; 7; 8]%Z) (codes "Z") = Some 8%Z ∧
  from_js (names ex_abz) (consts u8 [0; 7; 8]%Z) (codes "b") = None.
Proof. by vm_compute. Qed.

(** The integer the header is told to print the enum with is the one its C
    layout is made of; it is told none exactly when the first [repr] names no
    integer, and the layout is then that of [c_int]. *)
Theorem C26_backing d b int :
  parse_discriminant_type d = Some (b, int) →
  ∃ ws rest, e_reprs d = ws :: rest ∧ b = first_int ws ∧ int = default c_int b.
Proof.
  unfold parse_discriminant_type. destruct (e_reprs d) as [|ws rest]; [done|].
  intros H. exists ws, rest. destruct ws as [|w ws]; [done|].
  destruct (first_int (w :: ws)); by simplify_eq.
Qed.
Example C26_backing_example :
  parse_discriminant_type ex_abz = Some (Some u8, u8).
Proof. by vm_compute. Qed.

Print Assumptions C21_numbering.
Print Assumptions C21_variants_partial.
Print Assumptions C21_integer_repr_partial.
Print Assumptions C21_shadowing_refuted.
Print Assumptions C21_wide_refuted.
Print Assumptions C21_two_attributes_refuted.
Print Assumptions C26_values_partial.
Print Assumptions C26_python_partial.
Print Assumptions C26_not_refuted.
Print Assumptions C26_shift_refuted.
Print Assumptions C26_python_refuted.
Print Assumptions C26_backing.
Print Assumptions C27_collisions.
Print Assumptions C27_within.
Print Assumptions C27_distinct_partial.
Print Assumptions C27_within_refuted.
Print Assumptions C27_across_refuted.
Print Assumptions C52_js.
