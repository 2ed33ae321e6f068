(** Theorems about generated headers: C22, C23, C24, C25, C53, C54. *)

From Coq Require Import NArith List Bool Lia String Ascii Sorting.Permutation.
From stdpp Require Import base numbers list strings pretty sets.
From Verif Require Import HeaderModel HeaderSpec HeaderProofs HeaderRead HeaderNames.

(** ** An example *)

Definition kind : cty := TEnum "Kind" (Some U8).
Definition vec (t : cty) : cty := TStruct "Vec" [t] [("ptr", TPtr false t); ("len", TInt Usize)].
Definition foo : cty :=
  TStruct "Foo" []
    [("kind", kind); ("data", vec (TInt I32)); ("cb", TFn TVoid [TPtr false TVoid; TBool]);
     ("sum", TArr (TInt U64) 4); ("nothing", TVoid)].
Definition sample : list item :=
  [IFn "foo_new" [("kind", kind); ("flag", TBool)] foo;
   IFn "foo_drop" [("it", TPtr false foo)] TVoid;
   IConst "MAX" (TInt U32) false;
   IType "Foo" foo;
   IType "Id" (TAlias "Id" (TInt U64));
   IFn "handle" [] (TPtr true (TOpaque "Handle"))].
Definition sample_program : program := λ n,
  if String.eqb n "Kind" then Some (EEnum (Some U8))
  else if String.eqb n "Vec" then
    Some (EStruct 1 (λ gs, match gs with [t] => [("ptr", TPtr false t); ("len", TInt Usize)] | _ => [] end))
  else if String.eqb n "Foo" then
    Some (EStruct 0 (λ _, [("kind", kind); ("data", vec (TInt I32));
      ("cb", TFn TVoid [TPtr false TVoid; TBool]); ("sum", TArr (TInt U64) 4); ("nothing", TVoid)]))
  else if String.eqb n "Id" then Some (EAlias (TInt U64))
  else if String.eqb n "Handle" then Some EOpaque
  else None.

Ltac plain_name := split; [reflexivity|split; apply (bool_decide_unpack _); vm_compute; exact I].

Lemma sample_simple t k : occurs t sample → type_key LC t = Some k → simple sample_program t.
Proof.
  intros Ht%occurs_all. revert t k Ht.
  assert (HK : nominal sample_program kind) by (apply N_enum; [reflexivity|plain_name]).
  assert (HV : nominal sample_program (vec (TInt I32))).
  { apply (N_struct _ "Vec" 1 (λ gs, match gs with [t] => [("ptr", TPtr false t); ("len", TInt Usize)] | _ => [] end)
      [TInt I32]); [reflexivity|plain_name|reflexivity|repeat constructor]. }
  assert (HF : nominal sample_program foo).
  { apply (N_struct _ "Foo" 0 (λ _, [("kind", kind); ("data", vec (TInt I32));
      ("cb", TFn TVoid [TPtr false TVoid; TBool]); ("sum", TArr (TInt U64) 4); ("nothing", TVoid)]) []);
      [reflexivity|plain_name|reflexivity|constructor]. }
  assert (HI : nominal sample_program (TAlias "Id" (TInt U64))) by (apply N_alias; [reflexivity|plain_name]).
  assert (HH : nominal sample_program (TOpaque "Handle")) by (apply N_opaque; [reflexivity|plain_name]).
  assert (HA : Forall (λ t, ∀ k, type_key LC t = Some k → simple sample_program t) (all_types sample)).
  { unfold all_types, sample. cbn [flat_map item_types map snd app subs kind foo vec].
    repeat (apply Forall_cons; split);
      try (intros k Hk; discriminate Hk); try (intros k _; apply S_nominal; assumption);
      try (intros k _; apply S_arr, S_nominal, N_int); constructor. }
  rewrite Forall_forall in HA. intros t k Ht. by apply HA.
Qed.
Lemma sample_no_clash : no_clash LC sample.
Proof.
  apply (no_clash_simple sample_program); [apply sample_simple|].
  intros n args r Hi.
  assert (Hn : n ∈ ["foo_new"; "foo_drop"; "handle"]).
  { repeat (apply elem_of_cons in Hi as [Hi|Hi]); simplify_eq; try (apply (bool_decide_unpack _); vm_compute; exact I).
    by apply elem_of_nil in Hi. }
  repeat (apply elem_of_cons in Hn as [->|Hn]); [..|by apply elem_of_nil in Hn];
    (split; [done|]); (split; [done|]); intros m E; apply (f_equal last2) in E; by rewrite last2_suffixed in E.
Qed.

(** ** C22 *)

(** No name is declared twice. *)
Theorem C22_once l stable is s :
  write_body l stable is = Ok s → NoDup (flat_map declares (out s)).
Proof. apply write_body_once. Qed.

(** Types are defined before they are mentioned.
    Missing: different types with one name, functions called like a type, and
    [isize]: see the refutations. *)
Theorem C22_order_partial stable is s :
  no_clash LC is → (∀ t, occurs t is → t ≠ TInt Isize ∧ ∀ n, t ≠ TEnum n (Some Isize)) →
  write_body LC stable is = Ok s → in_order (known LC) LC (out s).
Proof. intros Hc Hs H. eapply write_body_good in H as [H _]; [exact H|done|done|done|by do 2 right]. Qed.
(** [isize] included, when [ssize_t] is known. *)
Theorem C22_ssize_partial stable is s :
  no_clash LC is → write_body LC stable is = Ok s → in_order ("ssize_t" :: known LC) LC (out s).
Proof. intros Hc H. eapply write_body_good in H as [H _]; [exact H|done|done|set_solver|right; left; left]. Qed.

Example C22_example : ∃ s,
  write_body LC true sample = Ok s ∧ length (out s) = 12 ∧ in_order (known LC) LC (out s) ∧
  NoDup (flat_map declares (out s)).
Proof.
  destruct (write_body LC true sample) as [s| |] eqn:E; [|by vm_compute in E..].
  exists s. split; [done|]. split; [|split].
  - vm_compute in E. injection E as <-. reflexivity.
  - eapply C22_order_partial; [apply sample_no_clash| |exact E]. intros t Ht%occurs_all.
    assert (HA : forallb (λ t, match t with TInt Isize | TEnum _ (Some Isize) => false | _ => true end)
      (all_types sample) = true) by (vm_compute; reflexivity).
    rewrite forallb_forall in HA. apply elem_of_list_In, HA in Ht. split; [by intros ->|by intros n ->].
  - by eapply C22_once.
Qed.

(** [isize] is printed as [ssize_t], which the included headers do not have. *)
Theorem C22_isize_refuted : ∃ is s,
  no_clash LC is ∧ NoDup (map item_name is) ∧ write_body LC true is = Ok s ∧ ¬ in_order (known LC) LC (out s).
Proof.
  exists [IFn "f" [("x", TInt Isize)] TVoid]. eexists. split; [|split; [|split; [reflexivity|]]].
  - apply (no_clash_simple (λ _, None)).
    + intros t k Ht%occurs_all. unfold all_types in Ht. cbn in Ht.
      repeat (apply elem_of_cons in Ht as [->|Ht]); try done; by apply elem_of_nil in Ht.
    + intros n args r Hi%elem_of_list_singleton. simplify_eq. split; [done|]. split; [done|].
      intros m E. apply (f_equal last2) in E. by rewrite last2_suffixed in E.
  - apply NoDup_singleton.
  - intros H. destruct (H 1 (DFn "f" [("x", TInt Isize)] TVoid) "ssize_t") as [Hk|(j & d & Hj & Hd & Hm)].
    + reflexivity.
    + left.
    + revert Hk. by apply (bool_decide_unpack _).
    + assert (j = 0) as -> by lia. cbn in Hd. injection Hd as <-. revert Hm. by apply (bool_decide_unpack _).
Qed.

(** A function called [Foo_t] hides the type [Foo]. *)
Theorem C22_function_refuted : ∃ is s,
  NoDup (map item_name is) ∧ write_body LC true is = Ok s ∧ ¬ in_order (known LC) LC (out s).
Proof.
  exists [IFn "Foo_t" [("x", TStruct "Foo" [] [("a", TCInt)])] TVoid]. eexists.
  split; [apply NoDup_singleton|]. split; [vm_compute; reflexivity|]. intros H.
  destruct (H 0 (DFn "Foo_t" [("x", TStruct "Foo" [] [("a", TCInt)])] TVoid) "Foo_t") as [Hk|(j & _ & Hj & _)].
  - reflexivity.
  - apply (bool_decide_unpack _). vm_compute. exact I.
  - revert Hk. by apply (bool_decide_unpack _).
  - lia.
Qed.

(** A struct with a field of another type of the same name (in another
    module) is printed as containing itself. *)
Theorem C22_modules_refuted : ∃ is s,
  NoDup (map item_name is) ∧ write_body LC true is = Ok s ∧ ¬ in_order (known LC) LC (out s).
Proof.
  set (inner := TStruct "Foo" [] [("a", TCInt)]).
  exists [IFn "f" [("x", TStruct "Foo" [] [("b", inner)])] TVoid]. eexists.
  split; [apply NoDup_singleton|]. split; [vm_compute; reflexivity|]. intros H.
  destruct (H 0 (DStruct "Foo_t" [("b", inner)]) "Foo_t") as [Hk|(j & _ & Hj & _)].
  - reflexivity.
  - apply (bool_decide_unpack _). vm_compute. exact I.
  - revert Hk. by apply (bool_decide_unpack _).
  - lia.
Qed.

(** ** C23 *)

(** Items with different names: registration order does not matter.
    Missing: items of the same name, see the refutation. *)
Theorem C23_stable_partial l is js :
  NoDup (map item_name is) → Permutation is js → write_body l true is = write_body l true js.
Proof. intros Hnd HP. unfold write_body. by rewrite (btree_perm_eq is js). Qed.
Example C23_example :
  NoDup (map item_name sample) ∧ Permutation sample (rev sample) ∧ rev sample ≠ sample ∧
  write_body LC true (rev sample) = write_body LC true sample.
Proof.
  assert (NoDup (map item_name sample)) by (apply (bool_decide_unpack _); vm_compute; exact I).
  split; [done|]. split; [apply Permutation_rev|]. split; [done|].
  symmetry. apply C23_stable_partial; [done|apply Permutation_rev].
Qed.
(** Of two items with one name the last registered is printed. *)
Theorem C23_same_name_refuted : ∃ is js s s',
  Permutation is js ∧ write_body LC true is = Ok s ∧ write_body LC true js = Ok s' ∧ out s ≠ out s'.
Proof.
  exists [IFn "f" [] TVoid; IFn "f" [] TCInt], [IFn "f" [] TCInt; IFn "f" [] TVoid]. do 2 eexists.
  split; [apply perm_swap|]. split; [vm_compute; reflexivity|]. split; [vm_compute; reflexivity|]. done.
Qed.
(** Without the option the order matters. *)
Theorem C23_unstable_refuted : ∃ is js s s',
  NoDup (map item_name is) ∧ Permutation is js ∧
  write_body LC false is = Ok s ∧ write_body LC false js = Ok s' ∧ out s ≠ out s'.
Proof.
  exists [IFn "f" [] TVoid; IFn "g" [] TCInt], [IFn "g" [] TCInt; IFn "f" [] TVoid]. do 2 eexists.
  split; [apply (bool_decide_unpack _); vm_compute; exact I|].
  split; [apply perm_swap|]. split; [vm_compute; reflexivity|]. split; [vm_compute; reflexivity|]. done.
Qed.

(** ** C24 *)

(** Every item with a declaration of its own is printed, once.
    Missing: items of the same name, clashing names, and in C# untyped
    constants and aliases: see the refutations. *)
Theorem C24_printed_partial l stable is s i d :
  l ≠ LPython → no_clash l is → NoDup (map item_name is) → write_body l stable is = Ok s →
  i ∈ is → exempt l i = false → own_decl i = Some d →
  ∃ k, out s !! k = Some d ∧ ∀ j, out s !! j = Some d → j = k.
Proof. apply write_body_item. Qed.
(** Nothing else is printed than items, types that occur in them, and
    [#include]s. *)
Theorem C24_nothing_else l stable is s d :
  write_body l stable is = Ok s → d ∈ out s →
  d = DInts ∨ d = DBool ∨ (∃ i, i ∈ is ∧ own_decl i = Some d) ∨
  (∃ t, occurs t is ∧ own_decl (IType "" t) = Some d) ∨
  ∃ r args, occurs (TFn r args) is ∧ d = DDelegate (short (TFn r args)) r args.
Proof. apply write_body_from. Qed.
Example C24_example s : write_body LC false sample = Ok s →
  ∃ k, out s !! k = Some (DFn "foo_drop" [("it", TPtr false foo)] TVoid) ∧
    ∀ j, out s !! j = Some (DFn "foo_drop" [("it", TPtr false foo)] TVoid) → j = k.
Proof.
  intros H. eapply (C24_printed_partial LC false sample s (IFn "foo_drop" [("it", TPtr false foo)] TVoid));
    [done|apply sample_no_clash| |exact H| |done|done].
  - apply (bool_decide_unpack _). vm_compute. exact I.
  - right. left.
Qed.
Example C24_example_runs : ∃ s, write_body LC false sample = Ok s.
Proof. eexists. vm_compute. reflexivity. Qed.
(** Two functions of the same name: one is left out, without an error. *)
Theorem C24_same_name_refuted : ∃ is s i d,
  write_body LC true is = Ok s ∧ i ∈ is ∧ own_decl i = Some d ∧ d ∉ out s.
Proof.
  exists [IFn "f" [] TVoid; IFn "f" [] TCInt]. eexists. exists (IFn "f" [] TVoid), (DFn "f" [] TVoid).
  split; [vm_compute; reflexivity|]. split; [left|]. split; [done|]. cbn.
  intros H. apply elem_of_list_In in H. cbn in H. by destruct H as [H|[]].
Qed.
(** Without the stable option it is an error. *)
Theorem C24_same_function l is s : write_body l false is = Ok s → NoDup (fn_names is).
Proof.
  intros H. apply gen_all_fns in H as [H _]. eapply NoDup_Permutation_proper; [|exact H].
  unfold fn_names. rewrite !flat_map_concat_map. rewrite <-Permutation_rev. done.
Qed.
Example C24_same_function_example : write_body LC false [IFn "f" [] TVoid; IFn "f" [] TCInt] = Err.
Proof. by vm_compute. Qed.
(** C# headers lack the constants marked [untyped]. *)
Theorem C24_csharp_refuted : ∃ is s i d,
  NoDup (map item_name is) ∧ no_clash LCSharp is ∧
  write_body LCSharp true is = Ok s ∧ i ∈ is ∧ own_decl i = Some d ∧ d ∉ out s.
Proof.
  exists [IConst "MAX" TCInt true]. eexists. exists (IConst "MAX" TCInt true), (DConst "MAX" TCInt).
  split; [apply NoDup_singleton|]. split; [|split; [vm_compute; reflexivity|]].
  - apply (no_clash_simple (λ _, None)).
    + intros t k Ht%occurs_all. cbn in Ht. by apply elem_of_list_singleton in Ht as ->.
    + intros n args r Hi. by apply elem_of_list_singleton in Hi.
  - split; [left|]. split; [done|]. cbn. intros H. by apply elem_of_nil in H.
Qed.

(** ** C25 *)

(** Types with plain names (no underscore), generic over types with plain
    names, and pointers to them and arrays of them: different types have
    different names.
    Missing: pointers, arrays and functions as type arguments, function
    pointers, other names: see the refutations. *)
Theorem C25_distinct_partial p l t u k :
  simple p t → simple p u → type_key l t = Some k → type_key l u = Some k → t = u.
Proof. apply key_inj. Qed.
Theorem C25_short_partial p t u : simple p t → simple p u → short t = short u → t = u.
Proof. apply short_inj. Qed.
(** So for such types the hypothesis of C22 and C24 holds. *)
Theorem C25_no_clash_partial p l is :
  (∀ t k, occurs t is → type_key l t = Some k → simple p t) →
  (∀ n args r, IFn n args r ∈ is → n ≠ "bool" ∧ n ≠ "__int_headers__" ∧ ∀ m, n ≠ suffixed m) →
  no_clash l is.
Proof. apply no_clash_simple. Qed.
Example C25_example :
  simple sample_program (TArr (TPtr true (vec (TInt I32))) 3) ∧
  type_key LC (TArr (TPtr true (vec (TInt I32))) 3) = Some "Vec_int32_const_ptr_3_array_t" ∧
  no_clash LC sample.
Proof.
  split; [|split; [reflexivity|apply sample_no_clash]]. do 3 constructor.
  apply (N_struct _ "Vec" 1 (λ gs, match gs with [t] => [("ptr", TPtr false t); ("len", TInt Usize)] | _ => [] end)
    [TInt I32]); [reflexivity|plain_name|reflexivity|repeat constructor].
Qed.
(** [Vec<*mut Vec<i32>>] and [Vec<Vec<*mut i32>>] have one name, and only one of
    them is defined. *)
Theorem C25_generic_refuted :
  let t := vec (TPtr false (vec (TInt I32))) in
  let u := vec (vec (TPtr false (TInt I32))) in
  t ≠ u ∧ type_key LC t = type_key LC u ∧
  ∃ s, write_body LC true [IFn "f" [("x", t)] TVoid; IFn "g" [("y", u)] TVoid] = Ok s ∧
    ∃ d, own_decl (IType "" u) = Some d ∧ d ∉ out s.
Proof.
  cbn zeta. split; [done|]. split; [vm_compute; reflexivity|]. eexists. split; [vm_compute; reflexivity|].
  eexists. split; [vm_compute; reflexivity|]. intros H. apply elem_of_list_In in H. cbn in H.
  repeat destruct H as [H|H]; try discriminate H. done.
Qed.
(** Function pointers: [fn(c) -> fn(b) -> a] and [fn(fn() -> b, c) -> a]; in C#
    one delegate serves both. *)
Theorem C25_fn_refuted :
  let a := TInt U8 in let b := TInt U16 in let c := TInt U32 in
  let t := TFn (TFn a [b]) [c] in let u := TFn a [TFn b []; c] in
  t ≠ u ∧ type_key LCSharp t = type_key LCSharp u ∧ type_key LC (TArr t 2) = type_key LC (TArr u 2).
Proof. cbn zeta. split; [done|]. split; by vm_compute. Qed.
(** Names with underscores. *)
Theorem C25_underscore_refuted :
  let t := TStruct "Pair_int32" [] [("a", TCInt)] in
  let u := TStruct "Pair" [TInt I32] [("b", TInt I32)] in
  t ≠ u ∧ type_key LC t = type_key LC u.
Proof. split; [done|]. by vm_compute. Qed.
(** Const parameters are not in the name (c_type/struct_.rs 77-108 goes over the type parameters), so
    all the instances of [struct Buf<const N : usize> { data : [u8; N] }] share one: the prototype of
    the second function names a struct of the size of the first. *)
Definition buf (n : N) : cty := TStruct "Buf" [] [("data", TArr (TInt U8) n)].
Theorem C25_const_refuted :
  (∀ l m n, type_key l (buf m) = type_key l (buf n)) ∧ buf 2 ≠ buf 4 ∧
  ∃ s, write_body LC true [IFn "f" [("x", buf 2)] TVoid; IFn "g" [("y", buf 4)] TVoid] = Ok s ∧
    out s = [DInts; DArr "uint8_2_array_t" (TInt U8) 2; DStruct "Buf_t" [("data", TArr (TInt U8) 2)];
             DFn "f" [("x", buf 2)] TVoid; DFn "g" [("y", buf 4)] TVoid] ∧
    texts (DFn "g" [("y", buf 4)] TVoid) = texts (DFn "g" [("y", buf 2)] TVoid).
Proof.
  split; [done|]. split; [done|]. eexists. split; [vm_compute; reflexivity|]. split; [reflexivity|]. vm_compute. reflexivity.
Qed.

(** ** C53 *)

(** Every declarator in a C header reads as the Rust type it was made from.
    Missing: declarations that are not [good_decl], see the refutations. *)
Theorem C53_reads_partial stable is s d :
  (∀ i d, i ∈ is → own_decl i = Some d → good_decl d) →
  (∀ t d, occurs t is → own_decl (IType "" t) = Some d → good_decl d) →
  write_body LC stable is = Ok s → d ∈ out s →
  Forall2 (λ ts m, reads ts m.1 m.2) (texts d) (meanings d).
Proof.
  intros Hi Ht H Hd. apply (write_body_from _ _ _ _ _ H) in Hd.
  assert (HA : ∀ i d, own_decl i = Some d → alias_name_ok d).
  { intros [| |? t] e E; cbn in E; simplify_eq; try done. destruct t; simplify_eq; try done; apply suffixed_name. }
  destruct Hd as [->|[->|[(i & Hin & E)|[(t & Hoc & E)|(r & args & _ & ->)]]]]; try (by constructor).
  - apply decl_reads; eauto.
  - apply decl_reads; eauto.
Qed.

Lemma sample_good :
  (∀ i d, i ∈ sample → own_decl i = Some d → good_decl d) ∧
  (∀ t d, occurs t sample → own_decl (IType "" t) = Some d → good_decl d).
Proof.
  assert (HF : good_decl (DStruct "Foo_t" (filter (λ f, zst f.2 = false)
    [("kind", kind); ("data", vec (TInt I32)); ("cb", TFn TVoid [TPtr false TVoid; TBool]);
     ("sum", TArr (TInt U64) 4); ("nothing", TVoid)]))).
  { intros f Hf. apply elem_of_list_filter in Hf as [_ Hf].
    repeat (apply elem_of_cons in Hf as [->|Hf]; [by vm_compute|]). by apply elem_of_nil in Hf. }
  split.
  - intros i d Hi. repeat (apply elem_of_cons in Hi as [->|Hi]); [..|by apply elem_of_nil in Hi];
      intros [= <-]; try done;
      (split; [done|]); (split; [done|]); intros f Hf;
      repeat (apply elem_of_cons in Hf as [->|Hf]; [by vm_compute|]); by apply elem_of_nil in Hf.
  - intros t d Ht%occurs_all. revert d.
    assert (HA : Forall (λ t, ∀ d, own_decl (IType "" t) = Some d → good_decl d) (all_types sample)).
    { unfold all_types, sample. cbn [flat_map item_types map snd app subs kind foo vec].
      repeat (apply List.Forall_cons; [intros d Hd; try discriminate Hd; injection Hd as <-; try exact HF; try exact I;
        try reflexivity; intros f Hf; apply elem_of_list_filter in Hf as [_ Hf];
        repeat (apply elem_of_cons in Hf as [->|Hf]; [by vm_compute|]); by apply elem_of_nil in Hf|]).
      apply List.Forall_nil. }
    rewrite Forall_forall in HA. by apply HA.
Qed.
Example C53_example s d : write_body LC true sample = Ok s → d ∈ out s →
  Forall2 (λ ts m, reads ts m.1 m.2) (texts d) (meanings d).
Proof. destruct sample_good. by apply C53_reads_partial. Qed.
Example C53_example_runs :
  reads (fn_text "f" [("cb", TFn (TInt I32) [TPtr true TChar; TBool]); ("q", TPtr true (TPtr false TVoid))]
           (TFn TVoid []))
    (CFun (CPtr false (CFun (CBase "void") []))
       [(CPtr false (CFun (CBase "int32_t") [(CPtr true (CBase "char"), None); (CBase "bool", None)]), Some "cb");
        (CPtr true (CPtr false (CBase "void")), Some "q")])
    (Some "f").
Proof. apply fn_reads; [done|done|]. intros a Ha. repeat (apply elem_of_cons in Ha as [->|Ha]; [done|]). by apply elem_of_nil in Ha. Qed.

Ltac unreadable := let n := fresh in let H := fresh in
  intros [n H]; specialize (H (n + 40) ltac:(lia)); rewrite Nat.add_comm in H; vm_compute in H; discriminate H.

(** A pointer to a function pointer. *)
Theorem C53_fn_ptr_refuted :
  let t := TPtr false (TFn TVoid []) in ∀ m x, ¬ reads (field_text t "f") m x.
Proof. cbn zeta. intros m x. unreadable. Qed.
(** A function pointer returning a function pointer. *)
Theorem C53_fn_fn_refuted :
  let t := TFn (TFn TVoid []) [] in ∀ m x, ¬ reads (field_text t "f") m x.
Proof. cbn zeta. intros m x. unreadable. Qed.
(** An alias ([rename] on a transparent struct) of a function pointer. *)
Theorem C53_alias_refuted :
  let t := TAlias "Cb" (TFn TVoid [TBool]) in
  ∃ s d ts, write_body LC true [IFn "f" [("cb", t)] TVoid] = Ok s ∧ d ∈ out s ∧ ts ∈ texts d ∧
    ∀ m x, ¬ reads ts m x.
Proof.
  cbn zeta. eexists. exists (DAlias "Cb_t" (TFn TVoid [TBool])). eexists.
  split; [vm_compute; reflexivity|]. split; [right; left|]. split; [left|]. intros m x. unreadable.
Qed.
(** A function pointer with a parameter of type [()] reads as one without
    parameters. *)
Theorem C53_unit_refuted :
  let t := TFn TVoid [TVoid] in
  ∃ m, m ≠ sem t ∧ reads (field_text t "f") m (Some "f").
Proof.
  cbn zeta. exists (sem (TFn TVoid [])). split; [done|]. by apply (field_reads "f" (TFn TVoid [])).
Qed.
(** A field, or a parameter, called like a keyword of C. *)
Theorem C53_keyword_refuted : ∀ m x, ¬ reads (field_text (TInt I32) "int") m x.
Proof. intros m x. unreadable. Qed.

(** ** C54 *)

(** C# headers define every type they mention beforehand.
    Missing: clashing names, as in C25_fn_refuted. *)
Theorem C54_csharp_partial stable is s :
  no_clash LCSharp is → write_body LCSharp stable is = Ok s → in_order (known LCSharp) LCSharp (out s).
Proof.
  intros Hc H. eapply write_body_good in H as [H _]; [exact H|done|done|done|by left].
Qed.
Definition sharp : list item :=
  [IFn "f" [("cb", TFn (TInt Isize) [TBool; TPtr true TChar]); ("x", TArr foo 2)] TVoid;
   IType "Id" (TAlias "Id" (TInt U64))].
Example C54_example : ∃ s, write_body LCSharp true sharp = Ok s ∧
  flat_map declares (out s) =
    ["ssize_bool_char_const_ptr_fptr"; "Kind_t"; "Vec_int32_t"; "void_void_ptr_bool_fptr"; "uint64_4_array_t";
     "Foo_t"; "Foo_2_array_t"; "f"] ∧
  in_order (known LCSharp) LCSharp (out s).
Proof.
  destruct (write_body LCSharp true sharp) as [s| |] eqn:E; [|by vm_compute in E..].
  exists s. split; [done|]. split.
  - vm_compute in E. injection E as <-. reflexivity.
  - eapply C54_csharp_partial; [|exact E]. split.
    + intros t u k Ht%occurs_all Hu%occurs_all.
      set (L := [TFn (TInt Isize) [TBool; TPtr true TChar]; TInt Isize; TBool; TPtr true TChar; TChar; TArr foo 2;
        foo; kind; vec (TInt I32); TPtr false (TInt I32); TInt I32; TInt Usize;
        TFn TVoid [TPtr false TVoid; TBool]; TVoid; TPtr false TVoid; TArr (TInt U64) 4; TInt U64;
        TAlias "Id" (TInt U64)]).
      assert (HL : ∀ t, t ∈ all_types sharp → t ∈ L).
      { apply Forall_forall. unfold L, all_types, sharp. cbn [flat_map item_types map snd app subs kind foo vec].
        repeat (apply List.Forall_cons;
          [repeat (first [apply elem_of_list_here|apply elem_of_list_further])|]). apply List.Forall_nil. }
      apply (omap_inj (type_key LCSharp) L); [|by apply HL..].
      apply (bool_decide_unpack _). vm_compute. exact I.
    + intros n args r Hi. apply elem_of_cons in Hi as [Hi|Hi]; [|by apply elem_of_list_singleton in Hi].
      simplify_eq. split; [done|]. split; [done|]. intros t _ Hk. by apply type_key_last in Hk as [?|?].
Qed.
(** Python headers: a type whose alias was met by value and then behind a
    pointer is never defined. *)
Theorem C54_python_refuted : ∃ is s,
  NoDup (map item_name is) ∧ no_clash LPython is ∧ write_body LPython true is = Ok s ∧
  ¬ in_order (known LPython) LPython (out s).
Proof.
  exists [IFn "f" [("x", TAlias "Id" TCInt); ("y", TPtr false (TAlias "Id" TCInt))] TVoid]. eexists.
  split; [apply NoDup_singleton|]. split; [|split; [vm_compute; reflexivity|]].
  - apply (no_clash_simple (λ _, Some (EAlias TCInt))).
    + intros t k Ht%occurs_all Hk. cbn in Ht.
      repeat (apply elem_of_cons in Ht as [->|Ht]); try done; try (by apply elem_of_nil in Ht);
        apply S_nominal, N_alias; try done; plain_name.
    + intros n args r Hi%elem_of_list_singleton. simplify_eq. split; [done|]. split; [done|].
      intros m E. apply (f_equal last2) in E. by rewrite last2_suffixed in E.
  - intros H.
    destruct (H 0 (DFn "f" [("x", TAlias "Id" TCInt); ("y", TPtr false (TAlias "Id" TCInt))] TVoid) "Id_t")
      as [Hk|(j & _ & Hj & _)].
    + reflexivity.
    + apply (bool_decide_unpack _). vm_compute. exact I.
    + revert Hk. by apply (bool_decide_unpack _).
    + lia.
Qed.

(** An enum is declared with as many bytes as it has. *)
Theorem C54_enum_bytes_partial l i : l ≠ LPython → enum_bytes (enum_int l i) = enum_bytes i.
Proof. by destruct l. Qed.
(** Not so in Python headers. *)
Theorem C54_enum_bytes_refuted : enum_bytes (enum_int LPython (Some U8)) ≠ enum_bytes (Some U8).
Proof. done. Qed.

Print Assumptions C22_once.
Print Assumptions C22_order_partial.
Print Assumptions C22_ssize_partial.
Print Assumptions C22_isize_refuted.
Print Assumptions C22_function_refuted.
Print Assumptions C22_modules_refuted.
Print Assumptions C23_stable_partial.
Print Assumptions C23_same_name_refuted.
Print Assumptions C23_unstable_refuted.
Print Assumptions C24_printed_partial.
Print Assumptions C24_nothing_else.
Print Assumptions C24_same_name_refuted.
Print Assumptions C24_same_function.
Print Assumptions C24_csharp_refuted.
Print Assumptions C25_distinct_partial.
Print Assumptions C25_short_partial.
Print Assumptions C25_no_clash_partial.
Print Assumptions C25_generic_refuted.
Print Assumptions C25_fn_refuted.
Print Assumptions C25_underscore_refuted.
Print Assumptions C25_const_refuted.
Print Assumptions C53_reads_partial.
Print Assumptions C53_fn_ptr_refuted.
Print Assumptions C53_fn_fn_refuted.
Print Assumptions C53_alias_refuted.
Print Assumptions C53_unit_refuted.
Print Assumptions C53_keyword_refuted.
Print Assumptions C54_csharp_partial.
Print Assumptions C54_python_refuted.
Print Assumptions C54_enum_bytes_partial.
Print Assumptions C54_enum_bytes_refuted.
