(** C74: functions in a C# header are called as Rust defines them. *)
From Coq Require Import NArith List Bool Lia String.
From stdpp Require Import base numbers list strings pretty.
From Verif Require Import LayoutModel HeaderModel HeaderSpec HeaderProofs HeaderNames HeaderProps CsModel CsSpec CsProofs.
Local Open Scope string_scope.

(** A function of the header is called with the ABI of the Rust function exactly if the system's calling
    convention is that of C, no type is one C# gets wrong, and it does not return a struct with a [bool]
    or a callback.
    Missing: clashing names (C25), types that are not values (by-value opaque types, empty arrays). *)
Theorem C74_functions_partial P stable is s n args r :
  sane P → no_clash LCSharp is → write_body LCSharp stable is = Ok s → DFn n args r ∈ out s →
  is_void r = true ∨ value false r → Forall (λ a, value false a.2) args →
  fn_means P (cs_file P (out s)) n (AFun Cdecl (abi_of P r) (map (λ a, abi_of P a.2) args)) ↔
  p_stdcall P = false ∧ Forall (λ a, passing_ok P true a.2) args ∧ return_ok P r.
Proof.
  intros HP Hno HW Hd Hvr Hva. destruct (header_fn P stable is s n args r Hno HW Hd) as (HΓ & Hfn & Hdr & Hda).
  by apply fn_iff.
Qed.

(** There is at most one way in which C# calls it. *)
Theorem C74_one_way P stable is s n args r k k' :
  no_clash LCSharp is → write_body LCSharp stable is = Ok s → DFn n args r ∈ out s →
  fn_means P (cs_file P (out s)) n k → fn_means P (cs_file P (out s)) n k' → k = k'.
Proof. intros. by eapply fn_unique. Qed.

(** What a parameter points at is read as Rust lays it out, also a renamed [bool] or a [c_int]; or C#
    refuses the declaration. *)
Theorem C74_memory_partial P stable is s n args r x c t :
  sane P → no_clash LCSharp is → write_body LCSharp stable is = Ok s → DFn n args r ∈ out s →
  (x, TPtr c t) ∈ args → value false t →
  ∀ k, means P (cs_file P (out s)) false None (csharp_ty t) k ↔ memory_ok t ∧ k = abi_of P t.
Proof.
  intros HP Hno HW Hd Hx Hv k. destruct (header_fn P stable is s n args r Hno HW Hd) as (HΓ & _ & _ & Hda).
  rewrite Forall_forall in Hda. specialize (Hda _ Hx). cbn in Hda. pose proof (value_not_void _ Hv) as Hnv. split.
  - intros H. apply (mem_fwd P _ HP HΓ t (value_weaken _ Hv) Hnv Hda) in H as [? H]. auto.
  - intros [Hm ->]. destruct (mem_bwd P _ HP HΓ t (value_weaken _ Hv) Hnv Hda Hm None) as [k Hk].
    pose proof (mem_fwd P _ HP HΓ t (value_weaken _ Hv) Hnv Hda _ _ Hk) as [_ E]. by rewrite <-(E Hv).
Qed.

(** ** Examples *)

Definition linux64 := Platform 8 8 false.
Definition win32 := Platform 4 8 true.
Definition linux32 := Platform 4 4 false.
Lemma linux64_sane : sane linux64. Proof. split; by right. Qed.
Lemma win32_sane : sane win32. Proof. split; [by left|by right]. Qed.

(** Names of the types of a header, checked by computation. *)
Lemma no_clash_listed is L : (∀ t, t ∈ all_types is → t ∈ L) →
  NoDup (omap (type_key LCSharp) L) →
  (∀ n args r, IFn n args r ∈ is → n ≠ "bool" ∧ n ≠ "__int_headers__" ∧ n ∉ omap (type_key LCSharp) L) →
  no_clash LCSharp is.
Proof.
  intros HL HN HF. split.
  - intros t u k Ht%occurs_all Hu%occurs_all. apply (omap_inj (type_key LCSharp) L); [done|by apply HL..].
  - intros n args r Hi. destruct (HF n args r Hi) as (H1 & H2 & H3). split; [done|]. split; [done|].
    intros t Ht%occurs_all Hk. apply H3. apply elem_of_list_omap. exists t. split; [by apply HL|done].
Qed.
Ltac listed := let H := fresh in intros ? H; revert H; match goal with |- ?x ∈ ?L → ?x ∈ ?M => revert x; change (∀ x, x ∈ L → x ∈ M) end;
  apply Forall_forall; unfold all_types; cbn [flat_map item_types map snd app subs];
  repeat (apply List.Forall_cons; [repeat (first [apply elem_of_list_here|apply elem_of_list_further])|]); apply List.Forall_nil.
Ltac not_in := match goal with |- ¬ _ => apply (bool_decide_unpack _); vm_compute; exact I end.

(** [struct Pair { flag: bool, len: usize, cb: Option<extern "C" fn(ptr, bool) -> u32>, key: [u16; 3],
    next: const ptr to Pair2 }] and a function of it. *)
Definition pair2 := TStruct "Pair2" [] [("a", TInt U8); ("b", TFloat true)].
Definition pair := TStruct "Pair" []
  [("flag", TBool); ("nothing", TVoid); ("len", TInt Usize); ("cb", TFn (TInt U32) [TPtr false TVoid; TBool]);
   ("key", TArr (TInt U16) 3); ("next", TPtr true pair2)].
Definition lib : list item := [IFn "run" [("p", pair); ("q", TPtr false pair2); ("k", TEnum "Kind" (Some U8))] pair2].
Lemma lib_no_clash : no_clash LCSharp lib.
Proof.
  apply (no_clash_listed lib [pair; TBool; TVoid; TInt Usize; TFn (TInt U32) [TPtr false TVoid; TBool]; TInt U32;
    TPtr false TVoid; TArr (TInt U16) 3; TInt U16; TPtr true pair2; pair2; TInt U8; TFloat true; TPtr false pair2; TEnum "Kind" (Some U8)]).
  - unfold lib, pair, pair2. listed.
  - apply (bool_decide_unpack _). vm_compute. exact I.
  - intros n args r Hi%elem_of_list_singleton. injection Hi as -> -> ->. split; [done|]. split; [done|].
    apply (bool_decide_unpack _). vm_compute. exact I.
Qed.
Example C74_example : ∃ s, write_body LCSharp true lib = Ok s ∧
  cs_file linux64 (out s) =
    [SDelegate "uint32_void_ptr_bool_fptr" (Var None [TkId "UInt32"])
       [Var None [TkId "void"; TkStar]; Var (Some "UnmanagedType.U1") [TkId "bool"]];
     SStruct "uint16_3_array_t" 6 [FFixed [TkId "UInt16"] "arr" 3];
     SStruct "Pair2_t" 16 [FVar (Var None [TkId "byte"]) "a"; FVar (Var None [TkId "double"]) "b"];
     SStruct "Pair_t" 40
       [FVar (Var (Some "UnmanagedType.U1") [TkId "bool"]) "flag"; FVar (Var None [TkId "UIntPtr"]) "len";
        FVar (Var (Some "UnmanagedType.FunctionPtr") [TkId "uint32_void_ptr_bool_fptr"]) "cb";
        FVar (Var None [TkId "uint16_3_array_t"]) "key"; FVar (Var None [TkId "Pair2_t"; TkStar]) "next"];
     SEnum "Kind_t" (Some [TkId "byte"]);
     SFn "run" (Var None [TkId "Pair2_t"])
       [Var None [TkId "Pair_t"]; Var None [TkId "Pair2_t"; TkStar]; Var None [TkId "Kind_t"]]] ∧
  fn_means linux64 (cs_file linux64 (out s)) "run"
    (AFun Cdecl (AStruct 16 8 [(0, AInt false 1); (8, AFloat 8)])
       [AStruct 40 8 [(0, ABool 1); (8, AInt false 8); (16, AFun Cdecl (AInt false 4) [APtr; ABool 1]);
                      (24, AStruct 6 2 [(0, AInt false 2); (2, AInt false 2); (4, AInt false 2)]); (32, APtr)];
        APtr; AInt false 1]) ∧
  ∀ k, ¬ fn_means win32 (cs_file win32 (out s)) "run" (AFun Cdecl (abi_of win32 pair2) k).
Proof.
  destruct (write_body LCSharp true lib) as [s| |] eqn:E; [|by vm_compute in E..].
  exists s. split; [done|]. split; [|split].
  - vm_compute in E. injection E as <-. vm_compute. reflexivity.
  - eapply (C74_functions_partial linux64 true lib s "run"
      [("p", pair); ("q", TPtr false pair2); ("k", TEnum "Kind" (Some U8))] pair2 linux64_sane lib_no_clash E).
    + vm_compute in E. injection E as <-. repeat (first [apply elem_of_list_here|apply elem_of_list_further]).
    + right. by cbn.
    + apply Forall'_spec. cbn. intuition discriminate.
    + split; [done|]. split; [apply Forall'_spec; cbn; unfold word; intuition discriminate|]. unfold return_ok. cbn. tauto.
  - intros k (r & args & kr & ks & _ & _ & _ & _ & H). discriminate H.
Qed.

(** ** Types C# gets wrong *)
Ltac one_fn := apply no_clash_listed; [listed|apply (bool_decide_unpack _); vm_compute; exact I|
  intros ? ? ? Hi%elem_of_list_singleton; injection Hi as -> -> ->; split; [done|]; split; [done|];
  apply (bool_decide_unpack _); vm_compute; exact I].

(** The claim for all headers. *)
Definition as_defined (P : platform) : Prop := ∀ is s n args r,
  no_clash LCSharp is → write_body LCSharp true is = Ok s → DFn n args r ∈ out s →
  is_void r = true ∨ value false r → Forall (λ a, value false a.2) args →
  fn_means P (cs_file P (out s)) n (AFun Cdecl (abi_of P r) (map (λ a, abi_of P a.2) args)).
Definition wrong (P : platform) (args : list (string * cty)) (r : cty) : Prop := ∃ s,
  no_clash LCSharp [IFn "f" args r] ∧ write_body LCSharp true [IFn "f" args r] = Ok s ∧ DFn "f" args r ∈ out s ∧
  (is_void r = true ∨ value false r) ∧ Forall (λ a, value false a.2) args ∧
  ¬ fn_means P (cs_file P (out s)) "f" (AFun Cdecl (abi_of P r) (map (λ a, abi_of P a.2) args)).
Lemma wrong_refutes P args r : wrong P args r → ¬ as_defined P.
Proof. intros (s & H1 & H2 & H3 & H4 & H5 & H6) HA. apply H6. by eapply HA. Qed.
Lemma wrong_intro P args r L : sane P →
  (∀ t, t ∈ all_types [IFn "f" args r] → t ∈ L) → NoDup (omap (type_key LCSharp) L) → "f" ∉ omap (type_key LCSharp) L →
  (∃ s, write_body LCSharp true [IFn "f" args r] = Ok s) →
  is_void r = true ∨ value false r → Forall (λ a, value false a.2) args →
  (p_stdcall P = false → Forall (λ a, passing_ok P true a.2) args → return_ok P r → False) → wrong P args r.
Proof.
  intros HP HL HN Hf [s Hs] Hvr Hva HX.
  assert (Hno : no_clash LCSharp [IFn "f" args r]).
  { apply (no_clash_listed _ L HL HN). intros n a' r' Hi%elem_of_list_singleton. injection Hi as -> -> ->. done. }
  assert (Hin : DFn "f" args r ∈ out s).
  { destruct (write_body_good LCSharp true [IFn "f" args r] (known LCSharp) s) as [_ HO]; [done|done|done|by left|done|].
    apply (HO (IFn "f" args r)); [|done|done]. left. }
  exists s. split; [done|]. split; [done|]. split; [done|]. split; [done|]. split; [done|].
  intros H. apply (C74_functions_partial P true [IFn "f" args r] s "f" args r HP Hno Hs Hin Hvr Hva) in H as (? & ? & ?). auto.
Qed.
Ltac refute L := apply (wrong_intro _ _ _ L); [apply linux64_sane|listed|apply (bool_decide_unpack _); vm_compute; exact I|
  apply (bool_decide_unpack _); vm_compute; exact I|eexists; vm_compute; reflexivity|..].

(** [#[derive_ReprC(rename = "Flag")] #[repr(transparent)] struct Flag(bool)]: the alias has no marshaler. *)
Theorem C74_renamed_bool_refuted : wrong linux64 [("x", TAlias "Flag" TBool)] TVoid.
Proof.
  refute [TAlias "Flag" TBool; TBool; TVoid]; [by left|by repeat constructor|].
  intros _ H%Forall'_spec _. cbn in H. destruct H as [H _]. discriminate H.
Qed.
(** In a struct the fields after it are elsewhere. *)
Theorem C74_renamed_bool_field_refuted :
  wrong linux64 [("x", TStruct "S" [] [("a", TAlias "Flag" TBool); ("b", TInt U8)])] TVoid ∧
  ∃ s, write_body LCSharp true [IFn "f" [("x", TStruct "S" [] [("a", TAlias "Flag" TBool); ("b", TInt U8)])] TVoid] = Ok s ∧
    means linux64 (cs_file linux64 (out s)) true None [TkId "S_t"] (AStruct 8 4 [(0, ABool 4); (4, AInt false 1)]) ∧
    abi_of linux64 (TStruct "S" [] [("a", TAlias "Flag" TBool); ("b", TInt U8)]) = AStruct 2 1 [(0, ABool 1); (1, AInt false 1)].
Proof.
  split.
  - refute [TStruct "S" [] [("a", TAlias "Flag" TBool); ("b", TInt U8)]; TAlias "Flag" TBool; TBool; TInt U8; TVoid]; [by left|by repeat constructor|].
    intros _ H%Forall'_spec _. cbn in H. destruct H as [H _]. destruct H as [H _]. discriminate (H eq_refl).
  - eexists. split; [vm_compute; reflexivity|]. split; [|reflexivity].
    apply (M_struct _ _ true None "S_t" 2 [FVar (Var None [TkId "bool"]) "a"; FVar (Var None [TkId "byte"]) "b"] [ABool 4; AInt false 1]);
      [by right|reflexivity|].
    apply F_var; [apply M_bool4|]. apply F_var; [apply M_scalar; [by right|reflexivity]|]. apply F_nil.
Qed.
(** [c_int]: [UnmanagedType.SysInt] is the size of a pointer. *)
Theorem C74_c_int_refuted : wrong linux64 [("x", TCInt)] TVoid.
Proof.
  refute [TCInt; TVoid]; [by left|by repeat constructor|]. intros _ H%Forall'_spec _. cbn in H. destruct H as [H _]. discriminate H.
Qed.
(** Arrays of [usize]: [fixed UIntPtr], CS1663. *)
Theorem C74_words_refuted : wrong linux64 [("x", TPtr true (TArr (TInt Usize) 2))] TVoid.
Proof.
  refute [TPtr true (TArr (TInt Usize) 2); TArr (TInt Usize) 2; TInt Usize; TVoid]; [by left|by repeat constructor|].
  intros _ H%Forall'_spec _. cbn in H. destruct H as [H _]. destruct H as [H _]. apply H. by left.
Qed.
(** [repr(isize)] enums: CS1008. *)
Theorem C74_enum_refuted : wrong linux64 [("x", TEnum "E" (Some Isize))] TVoid.
Proof.
  refute [TEnum "E" (Some Isize); TVoid]; [by left|by repeat constructor|]. intros _ H%Forall'_spec _. cbn in H. destruct H as [H _]. by destruct H.
Qed.
(** A pointer to a struct with a callback: CS0208. *)
Theorem C74_callback_refuted : wrong linux64 [("x", TPtr false (TStruct "S" [] [("cb", TFn TVoid [])]))] TVoid.
Proof.
  refute [TPtr false (TStruct "S" [] [("cb", TFn TVoid [])]); TStruct "S" [] [("cb", TFn TVoid [])]; TFn TVoid []; TVoid]; [by left|..].
  - constructor; [|constructor]. cbn. split; [|done]. split; [by left|done].
  - intros _ H%Forall'_spec _. cbn in H. destruct H as [H _]. destruct H as [H _]. exact (H eq_refl).
Qed.
(** A struct with a [bool] is not returned. *)
Theorem C74_return_refuted : wrong linux64 [] (TStruct "S" [] [("ok", TBool); ("v", TInt U32)]).
Proof.
  refute [TStruct "S" [] [("ok", TBool); ("v", TInt U32)]; TBool; TInt U32]; [right; by cbn|constructor|].
  intros _ _ [H|[_ H]]; [discriminate H|]. destruct (H eq_refl) as [H' _]. exact (H' eq_refl).
Qed.
(** On 32-bit Windows nothing is called as defined. *)
Theorem C74_win32_refuted : wrong win32 [] TVoid.
Proof.
  apply (wrong_intro _ _ _ [TVoid]); [apply win32_sane|listed|apply (bool_decide_unpack _); vm_compute; exact I|
    apply (bool_decide_unpack _); vm_compute; exact I|eexists; vm_compute; reflexivity|by left|constructor|].
  intros H. discriminate H.
Qed.
Theorem C74_refuted : ¬ as_defined linux64.
Proof. eapply wrong_refutes, C74_c_int_refuted. Qed.

(** The fields left out of structs are those without a byte. *)
Theorem C74_left_out P t : sane P → nonempty t → zst t = true ↔ (lay P t).1 = 0.
Proof.
  intros S N. destruct (zst t) eqn:E.
  - by rewrite (lay_zst P t N E).
  - pose proof (lay_not_zst P t S N E). split; [done|]. intros H'. lia.
Qed.
Example C74_left_out_ex :
  let t := TStruct "S" [] [("a", TAlias "Unit" TVoid); ("b", TArr (TAlias "Id" (TInt U8)) 3)] in
  sane linux64 ∧ nonempty t ∧ zst (TAlias "Unit" TVoid) = true ∧ zst t = false ∧ lay linux64 t = (3, 1).
Proof. cbn zeta. split; [split; right; reflexivity|]. cbn. repeat split; done. Qed.

Print Assumptions C74_left_out.
Print Assumptions C74_functions_partial.
Print Assumptions C74_one_way.
Print Assumptions C74_memory_partial.
Print Assumptions C74_example.
Print Assumptions C74_renamed_bool_refuted.
Print Assumptions C74_renamed_bool_field_refuted.
Print Assumptions C74_c_int_refuted.
Print Assumptions C74_words_refuted.
Print Assumptions C74_enum_refuted.
Print Assumptions C74_callback_refuted.
Print Assumptions C74_return_refuted.
Print Assumptions C74_win32_refuted.
Print Assumptions C74_refuted.
