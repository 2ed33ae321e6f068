(** Theorems about the names derived for opaque types: C28. *)

From Coq Require Import NArith List Bool Lia String Ascii.
From stdpp Require Import base numbers list strings.
From Verif Require Import NameModel NameSpec NameProofs.
Local Open Scope N_scope.

(** The name has identifier characters only, whatever the type name. *)
Theorem C28_chars alnum ws s o :
  tables alnum ws → append_unqualified_name alnum ws s = Name o → Forall (λ c, ident_char alnum c = true) o.
Proof.
  intros HT H. pose proof (append_oks alnum ws (S (length s)) s HT) as Ho.
  unfold append_unqualified_name in H. by rewrite H in Ho.
Qed.
(** The derivation ends, whatever the type name. *)
Theorem C28_ends alnum ws s :
  (∃ o, append_unqualified_name alnum ws s = Name o) ∨ append_unqualified_name alnum ws s = Panic.
Proof.
  pose proof (append_fuel alnum ws (S (length s)) s ltac:(lia)) as H. unfold append_unqualified_name.
  destruct (append alnum ws (S (length s)) s); eauto. done.
Qed.
(** It succeeds, with the name expected, for types where no argument of a
    generic type or member of a tuple has a comma in its name and no item of a
    slice has a semicolon.  Missing: the others, see the refutations. *)
Theorem C28_name_partial alnum ws t :
  tables alnum ws → tame alnum t → append_unqualified_name alnum ws (type_name t) = Name (nice alnum t).
Proof.
  intros HT Ht. destruct (tame_good alnum ws HT t Ht (S (S (length (type_name t)))) ltac:(lia)) as [H _].
  unfold append_unqualified_name. rewrite <-H. symmetry. apply append_mono; [lia|]. apply append_fuel. lia.
Qed.
(** So opaque types that are generic over such types have an identifier. *)
Theorem C28_opaque_partial alnum ws base ts :
  tables alnum ws → ident alnum base → Forall (tame alnum) ts →
  ∃ o, opaque_name alnum ws base (map type_name ts) = Name o ∧ ident alnum o ∧
    o = base ++ flat_map (nice alnum) ts.
Proof.
  intros HT [Hne Hb] Hts. exists (base ++ flat_map (nice alnum) ts).
  assert (HE : each (append_unqualified_name alnum ws) (map type_name ts) = Name (flat_map (nice alnum) ts) ∧
    Forall (λ c, ident_char alnum c = true) (flat_map (nice alnum) ts)).
  { induction Hts as [|t ts Ht _ [IH1 IH2]]; [split; [done|constructor]|]. cbn [map each flat_map].
    pose proof (C28_name_partial alnum ws t HT Ht) as E. rewrite E, IH1. split; [done|].
    apply Forall_app. split; [|done]. by apply C28_chars in E. }
  destruct HE as [HE HF]. split; [|split; [|done]].
  - unfold opaque_name. by rewrite HE.
  - split; [by destruct base|]. by apply Forall_app.
Qed.

(** And [OpaqueLayout] of one is [Opaque] and its name. *)
Theorem C28_layout_partial alnum ws t : tables alnum ws → (∀ c, c ∈ chars "Opaque" → alnum c = true) → tame alnum t →
  ∃ o, opaque_layout_name alnum ws (type_name t) = Name o ∧ ident alnum o ∧ o = chars "Opaque" ++ nice alnum t.
Proof.
  intros HT HO Ht. destruct (C28_opaque_partial alnum ws (chars "Opaque") [t] HT) as (o & H1 & H2 & H3).
  - split; [done|]. apply Forall_forall. intros c Hc. unfold ident_char. by rewrite HO.
  - by repeat constructor.
  - exists o. cbn [map flat_map] in *. rewrite app_nil_r in H3. done.
Qed.

(** An example: [Map<[&str::Str; N], dyn core::fmt::Debug, ()>]. *)
Definition sample : rty :=
  RPath [chars "std"; chars "map"] (chars "Map")
    [RArray (RPtr (chars "&mut ") [chars "core"] (chars "Str") []) (chars "16");
     RDyn [chars "core"; chars "fmt"] (chars "Debug") []; RTuple [];
     RPath [] (chars "Vec") [RSlice (RPath [] (chars "u8") [])]].
Lemma ascii_tables : tables ascii_alnum ascii_ws.
Proof. split; [done|]. intros c. unfold ascii_alnum, ascii_ws. destruct (c <=? 57) eqn:E.
  - intros H. assert (48 <= c ∧ c <= 57) by lia. lia.
  - intros H. lia.
Qed.
Lemma sample_tame : tame ascii_alnum sample.
Proof.
  assert (HI : ∀ s, s ≠ [] → forallb (ident_char ascii_alnum) s = true → ident ascii_alnum s).
  { intros s Hn H. split; [done|]. apply Forall_forall. intros c Hc%elem_of_list_In. by apply (forallb_forall (ident_char ascii_alnum) s). }
  unfold sample. cbn [tame].
  repeat match goal with
  | |- _ ∧ _ => split
  | |- True => exact I
  | |- ident _ _ => apply HI; [discriminate|vm_compute; reflexivity]
  | |- Forall _ _ => repeat apply List.Forall_cons; try apply List.Forall_nil
  | |- pointer _ => apply P_one, (bool_decide_unpack _); vm_compute; exact I
  | |- _ ∉ _ => apply (bool_decide_unpack _); vm_compute; exact I
  end.
Qed.
Example C28_layout_example : opaque_layout_name ascii_alnum ascii_ws (type_name (RPath [chars "a"] (chars "Foo") [RPath [] (chars "u8") []])) =
    Name (chars "Opaque_Foo_u8") ∧ ∀ c, c ∈ chars "Opaque" → ascii_alnum c = true.
Proof. split; [by vm_compute|]. apply Forall_forall. repeat constructor. Qed.
Example C28_example :
  append_unqualified_name ascii_alnum ascii_ws
    (chars "std::map::Map<[&mut core::Str; 16], dyn core::fmt::Debug, (), Vec<[u8]>>") =
    Name (chars "_Map__mut_core__Str_16_dyn_Debug__Vec_u8") ∧
  type_name sample = chars "std::map::Map<[&mut core::Str; 16], dyn core::fmt::Debug, (), Vec<[u8]>>" ∧
  tame ascii_alnum sample ∧ tables ascii_alnum ascii_ws.
Proof.
  split; [vm_compute; reflexivity|]. split; [vm_compute; reflexivity|].
  split; [apply sample_tame|apply ascii_tables].
Qed.

(** A tuple as type argument. *)
Theorem C28_tuple_refuted : ∃ alnum ws t, tables alnum ws ∧ type_name t = chars "alloc::vec::Vec<(u8, u8)>" ∧
  append_unqualified_name alnum ws (type_name t) = Panic.
Proof.
  exists ascii_alnum, ascii_ws,
    (RPath [chars "alloc"; chars "vec"] (chars "Vec")
       [RTuple [RPath [] (chars "u8") []; RPath [] (chars "u8") []]]).
  split; [apply ascii_tables|]. split; vm_compute; reflexivity.
Qed.
(** A type with two arguments as type argument. *)
Theorem C28_generic_refuted : ∃ alnum ws t, tables alnum ws ∧
  type_name t = chars "core::option::Option<core::result::Result<u8, u8>>" ∧
  append_unqualified_name alnum ws (type_name t) = Panic.
Proof.
  exists ascii_alnum, ascii_ws,
    (RPath [chars "core"; chars "option"] (chars "Option")
       [RPath [chars "core"; chars "result"] (chars "Result") [RPath [] (chars "u8") []; RPath [] (chars "u8") []]]).
  split; [apply ascii_tables|]. split; vm_compute; reflexivity.
Qed.
(** A slice of arrays. *)
Theorem C28_slice_refuted : ∃ alnum ws t, tables alnum ws ∧ type_name t = chars "[[u8; 4]]" ∧
  append_unqualified_name alnum ws (type_name t) = Panic.
Proof.
  exists ascii_alnum, ascii_ws, (RSlice (RArray (RPath [] (chars "u8") []) (chars "4"))).
  split; [apply ascii_tables|]. split; vm_compute; reflexivity.
Qed.
(** A function pointer with a generic parameter. *)
Theorem C28_fn_refuted : ∃ alnum ws, tables alnum ws ∧
  append_unqualified_name alnum ws (chars "fn(alloc::vec::Vec<u8>) -> u8") = Panic.
Proof. exists ascii_alnum, ascii_ws. split; [apply ascii_tables|]. vm_compute. reflexivity. Qed.

Print Assumptions C28_chars.
Print Assumptions C28_ends.
Print Assumptions C28_name_partial.
Print Assumptions C28_opaque_partial.
Print Assumptions C28_layout_partial.
Print Assumptions C28_tuple_refuted.
Print Assumptions C28_generic_refuted.
Print Assumptions C28_slice_refuted.
Print Assumptions C28_fn_refuted.
