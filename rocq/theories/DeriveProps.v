(** C71: what [#[derive_ReprC(..)]] does with an item. *)
From Coq Require Import String.
From stdpp Require Import base numbers list.
From Verif Require Import DeriveModel DeriveSpec DeriveProofs.

Local Open Scope string_scope.

(** ** Examples *)
Definition plain_field : field := Field Priv None.
Definition c_fn : fnptr := FnPtr (Some (Some "C"%string)) false.
Definition repr (ss : list string) : attr := ARepr (Some (WId <$> ss)).
(** [#[repr(ss)] pub struct S { a, b }] *)
Definition pair_of (ss : list string) : item := Item [ADoc; repr ss] Pub 0 0 0 false (DStruct Braces [plain_field; plain_field]).
(** [#[repr(ss)] v struct S(a);] *)
Definition newtype (ss : list string) (v : vis) : item := Item [repr ss] v 0 0 0 false (DStruct Parens [plain_field]).
(** [#[repr(transparent)] pub struct F<'a> { pub f : extern "C" fn(..) }] *)
Definition fn_of (sh : shape) (lts : nat) : item :=
  Item [repr ["transparent"%string]] Pub lts 0 0 false (DStruct sh [Field Pub (Some c_fn)]).
(** [#[repr(ss)] enum E { A, B }] *)
Definition enum_of (ss : list string) : item := Item [repr ss] Priv 0 0 0 false (DEnum [false; false]).
Definition js_on : features := Features true true true.
Definition js_off : features := Features false true true.

(** ** What an item becomes *)

(** An item with one [repr] attribute of identifiers (of which [js], if the feature [js] is off) is
    taken exactly if its arguments are [rename = ..] and [js], each at most once, if its [repr] asks
    for something, and if it has the shape for it; it becomes what the [repr] asks for. *)
Theorem C71_kind (f : features) (ts : list tok) (i : item) (ss : list string) (k : kind) :
  i_data i ≠ DTrait → reprs i = [Some (WId <$> ss)] → coherent ss →
  checks f = false ∨ ¬ many_fields i →
  feat_js f = false ∨ "js"%string ∉ ss →
  feat_js f = false ∨ i_consts i = O ∨ existsb is_js ts = false →
  (∃ x, derive_ReprC f ts i = Expand x ∧ x_kind x = k) ↔
  good_args ts ∧ wanted ss i = Some k ∧ allowed ss i.
Proof.
  intros Ht Hr Hc Hck Hf Hco. rewrite <-(derive_kind (unchecked f) ts i ss k eq_refl Hr Hc Hf). split.
  - intros (x & Hx & <-). apply derive_expand in Hx as [Hx _]. apply derive_check_expand in Hx as [-> _]. done.
  - intros [H _].
    assert (E : derive_with false f ts i = derive_with false (unchecked f) ts i).
    { rewrite derive_check. unfold check. destruct Hck as [->|Hm]; [done|]. rewrite <-many_spec in Hm.
      destruct (many i); [done|]. by rewrite andb_false_r. }
    setoid_rewrite derive_expand. rewrite E.
    destruct (derive_with false (unchecked f) ts i) as [x| |] eqn:Ex; cbn in H; [|done..]. injection H as H.
    exists x. split; [|done]. split; [done|]. intros Hfj Hcs.
    destruct Hf as [Hf|Hf]; [congruence|]. destruct Hco as [Hco|[Hco|Hco]]; [congruence|done|].
    assert (Hn : ¬ asks_js i).
    { intros (ss' & Hs & Hj). rewrite Hr in Hs. assert (ss = ss') as -> by (apply WId_inj; cbn in Hs; congruence). done. }
    split; [by intros [? _]|]. intros [Hk Hxj].
    destruct (derive_repr_c (unchecked f) ts i x eq_refl Ex Ht (or_intror Hn)) as (i' & Hi' & _).
    apply repr_c_names in Hi' as [_ Hi']; [|congruence]. rewrite Hi' in Hxj by (by left). congruence.
Qed.
Example C71_kind_ex :
  derive_ReprC js_off [TRename; TComma] (pair_of ["C"; "js"]) = Expand (Expansion KStruct true false) ∧
  derive_ReprC js_off [] (pair_of ["js"; "opaque"]) = Expand (Expansion KOpaque false false) ∧
  derive_ReprC js_on [TJs] (enum_of ["C"; "u8"]) = Expand (Expansion (KEnum "u8") false true) ∧
  derive_ReprC js_on [] (newtype ["transparent"] Pub) = Expand (Expansion KTransparent false false) ∧
  derive_ReprC js_on [] (fn_of Parens 1) = Expand (Expansion KFptr false false) ∧
  derive_ReprC js_on [] (pair_of ["u8"]) = Reject ∧
  derive_ReprC js_on [TJs; TJs] (pair_of ["C"]) = Reject.
Proof. vm_compute. split_and!; reflexivity. Qed.

(** No [repr] attribute at all: not taken; nor is a union, nor a trait without the feature for it. *)
Theorem C71_rejected (f : features) (ts : list tok) (i : item) (x : expansion) :
  derive_ReprC f ts i = Expand x →
  i_data i ≠ DUnion ∧ (i_data i ≠ DTrait → reprs i ≠ []) ∧ (i_data i = DTrait → feat_dyn f = true).
Proof.
  intros H. apply derive_expand in H as [H _]. apply derive_check_expand in H as [H _]. split_and!.
  - intros Hd. rewrite derive_non_trait in H by (by rewrite ?Hd).
    assert (Hu : ∀ ts' l, repr_c false false ts' (with_attrs i l) = Reject).
    { intros ts' l. unfold repr_c, try_fptr. cbn [with_attrs i_data]. rewrite Hd. by destruct (repr_args ts'). }
    assert (Hi : i = with_attrs i (i_attrs i)) by (by destruct i).
    assert (Hl : legacy false false i = Reject) by (unfold legacy, try_fptr; by rewrite Hd).
    assert (Hu' : ∀ ts', repr_c false false ts' i = Reject) by (intros ts'; rewrite Hi; apply Hu).
    rewrite Hl, Hu' in H. repeat case_match; try done. by rewrite Hu in H.
  - intros Ht Hr. rewrite derive_non_trait, first_repr_reprs, Hr in H by done. cbn in H.
    assert (Hfr : first_repr (i_attrs i) = None) by (by rewrite first_repr_reprs, Hr).
    assert (Hfi : first_ident (i_attrs i) = None).
    { rewrite first_ident_reprs. unfold reprs in Hr. by rewrite Hr. }
    unfold repr_c, try_fptr, derive_struct, derive_enum, discriminant_type in H. rewrite Hfr, Hfi in H.
    destruct (repr_args ts) as [a|]; [|done].
    destruct (i_data i) as [[] [|? [|? ?]]|vs| |]; try done. cbn -[existsb] in H.
    destruct (existsb id vs); [done|]. destruct (i_lifetimes i + i_params i + i_consts i)%nat; [|done]. destruct (i_where i); [done|].
    by destruct (is_nil vs).
  - intros Ht. unfold derive_with in H. rewrite Ht in H. cbn [unchecked feat_dyn] in H. destruct (feat_dyn f); [done|].
    repeat case_match; done.
Qed.
Example C71_rejected_ex :
  derive_ReprC js_on [] (Item [ADoc] Pub 0 0 0 false (DStruct Braces [plain_field])) = Reject ∧
  derive_ReprC js_on [] (Item [repr ["C"%string]] Pub 0 0 0 false DUnion) = Reject ∧
  derive_ReprC (Features true false true) [TDyn] (Item [] Pub 0 0 0 false DTrait) = Reject ∧
  derive_ReprC js_on [TDyn; TComma; TClone] (Item [] Pub 0 0 0 false DTrait) = Expand (Expansion (KTrait true) false false).
Proof. vm_compute. split_and!; reflexivity. Qed.

(** ** Panics *)

(** Exactly when the macro panics, rather than report an error: at a first [repr] attribute that is
    not a list of identifiers, at a newtype of a C function between braces with lifetimes, if it
    was compiled with overflow checks, at a [#[repr(C)]] struct of 256 fields that it otherwise takes,
    and, with the feature [js], at a struct with const parameters that says [js] in its [repr], or in
    the arguments if it otherwise takes it as a [#[repr(C)]] struct. *)
Theorem C71_panics (f : features) (ts : list tok) (i : item) :
  derive_ReprC f ts i = Panic ↔
  (i_data i ≠ DTrait ∨ feat_dyn f = false) ∧ (∃ ows, head (reprs i) = Some ows ∧ ¬ plain ows) ∨
  good_args ts ∧ fn_newtype Braces i ∧ (0 < i_lifetimes i)%nat ∧
  (head (reprs i) = Some (Some [WId "transparent"]) ∨
   head (reprs i) = Some (Some [WId "transparent"; WId "js"]) ∧ (feat_js f = true → old_style i) ∨
   head (reprs i) = Some (Some [WId "js"; WId "transparent"]) ∧ feat_js f = false) ∨
  checks f = true ∧ many_fields i ∧ (∃ x, derive_ReprC (unchecked f) ts (without_consts i) = Expand x ∧ x_kind x = KStruct) ∨
  feat_js f = true ∧ i_consts i ≠ O ∧ struct_item i ∧ good_args ts ∧
  (asks_js i ∨
   ∃ x, derive_ReprC (unchecked f) ts (without_consts i) = Expand x ∧ x_kind x = KStruct ∧ x_js x = true).
Proof.
  rewrite derive_panics, derive_check_panic, (derive_panic (unchecked f)), many_spec by done.
  cbn [unchecked feat_js feat_dyn].
  assert (E : struct_item i → derive_ReprC (unchecked f) ts (without_consts i) = derive_with false (unchecked f) ts i).
  { intros Hs. destruct (derive_without_consts (unchecked f) ts i Hs) as (H1 & H2 & _). rewrite <-H2. apply derive_splits. by right. }
  assert (M : many_fields i → struct_item i) by (intros (sh & fs & ? & _); by eexists _, _).
  assert (A1 : (checks f = true ∧ many_fields i ∧ (∃ x, derive_with false (unchecked f) ts i = Expand x ∧ x_kind x = KStruct)) ↔
    (checks f = true ∧ many_fields i ∧ (∃ x, derive_ReprC (unchecked f) ts (without_consts i) = Expand x ∧ x_kind x = KStruct))).
  { split; intros (H1 & H2 & H3); (split; [done|]; split; [done|]); rewrite E in *; auto. }
  rewrite A1.
  destruct (asks_dec i) as [Ha|Ha]; [tauto|].
  assert (A2 : struct_item i → (∃ x, derive_with false f ts i = Expand x ∧ x_kind x = KStruct ∧ x_js x = true) →
    ∃ x, derive_ReprC (unchecked f) ts (without_consts i) = Expand x ∧ x_kind x = KStruct ∧ x_js x = true).
  { intros Hs (x & Hx & Hk). apply derive_check_expand in Hx as [Hx _]. exists x. by rewrite E. }
  assert (A3 : struct_item i → (∃ x, derive_ReprC (unchecked f) ts (without_consts i) = Expand x ∧ x_kind x = KStruct ∧ x_js x = true) →
    (∃ x, derive_with false f ts i = Expand x ∧ x_kind x = KStruct ∧ x_js x = true) ∨
    checks f = true ∧ many_fields i ∧ (∃ x, derive_ReprC (unchecked f) ts (without_consts i) = Expand x ∧ x_kind x = KStruct)).
  { intros Hs (x & Hx & Hk & Hj). destruct (checks f && many i) eqn:Ec.
    - apply andb_true_iff in Ec as [-> Em]. apply many_spec in Em. right. eauto.
    - left. exists x. split; [|done]. apply derive_check_expand. rewrite E in Hx by done. split; [done|].
      intros Hck _. rewrite Hck in Ec. done. }
  tauto.
Qed.
(** [#[repr(C, align(8))]], which rustc takes. *)
Theorem C71_never_panics_refuted : ∃ f ts i, derive_ReprC f ts i = Panic.
Proof.
  exists js_off, [], (Item [ARepr (Some [WId "C"; WGroup])] Pub 0 0 0 false (DStruct Braces [plain_field])).
  vm_compute. reflexivity.
Qed.
Example C71_panics_ex :
  derive_ReprC js_off [] (fn_of Braces 1) = Panic ∧
  derive_ReprC js_off [] (fn_of Parens 1) = Expand (Expansion KFptr false false) ∧
  derive_ReprC js_off [] (Item [ARepr None] Pub 0 0 0 false (DEnum [false])) = Panic ∧
  derive_ReprC js_off [] (Item [repr ["C"%string]; ARepr (Some [WGroup])] Pub 0 0 0 false (DStruct Braces [plain_field]))
    = Expand (Expansion KStruct false false) ∧
  (let big := Item [repr ["C"]] Pub 0 0 0 false (DStruct Braces (repeat plain_field 256)) in
   derive_ReprC js_off [] big = Panic ∧
   derive_ReprC (unchecked js_off) [] big = Expand (Expansion KStruct false false)) ∧
  (let array := Item [repr ["C"]] Pub 0 0 1 false (DStruct Braces [plain_field]) in
   derive_ReprC js_on [] array = Expand (Expansion KStruct false false) ∧
   derive_ReprC js_on [TJs] array = Panic ∧
   derive_ReprC js_off [TJs] array = Expand (Expansion KStruct false true)).
Proof. vm_compute. split_and!; reflexivity. Qed.

(** ** The feature [js] *)

(** Without [js] in the [repr], the feature makes no difference (but to structs with const parameters
    that say [js] in the arguments). *)
Theorem C71_js_not_asked (f f' : features) (ts : list tok) (i : item) :
  checks f = checks f' → feat_dyn f = feat_dyn f' → ¬ asks_js i → i_consts i = O ∨ existsb is_js ts = false →
  derive_ReprC f ts i = derive_ReprC f' ts i.
Proof.
  intros Hck Hd Ha Hc.
  assert (E : ∀ g, derive_ReprC g ts i = derive_with false g ts i).
  { intros g. destruct (feat_js g) eqn:Hg; [|apply derive_splits; by left].
    destruct Hc as [Hc|Hc]; [apply derive_splits; right; by apply splits_spec|].
    rewrite derive_unasked by done. unfold spc. destruct (splits i) eqn:Hs; [done|]. cbn [negb andb].
    destruct (js_struct (derive_with false g ts i)) eqn:Ej; [|done]. exfalso.
    destruct (derive_with false g ts i) as [x| |] eqn:Ex; [|done..].
    apply derive_check_expand in Ex as [Ex _]. destruct x as [k r j]. destruct k, j; try done.
    assert (Ht : i_data i ≠ DTrait).
    { apply derive_struct_item in Ex as (? & ? & ->); done. }
    destruct (derive_repr_c (unchecked g) ts i _ eq_refl Ex Ht (or_intror Ha)) as (i' & Hi' & _).
    apply repr_c_names in Hi' as [_ Hi']; [|done]. cbn [x_kind x_js] in Hi'. rewrite Hc in Hi'. by specialize (Hi' (or_introl eq_refl)). }
  rewrite !E. by apply derive_js_free.
Qed.
(** With it, what is taken with the feature is what is taken without, is old-style and has no const
    parameters: the same kind.  Missing: that whatever is taken without the feature is taken with it. *)
Theorem C71_js_partial (f f' : features) (ts : list tok) (i : item) (k : kind) :
  i_data i ≠ DTrait → asks_js i → checks f = checks f' → feat_js f = true → feat_js f' = false →
  (∃ x, derive_ReprC f ts i = Expand x ∧ x_kind x = k) ↔
  old_style i ∧ i_consts i = O ∧ ∃ x, derive_ReprC f' ts i = Expand x ∧ x_kind x = k.
Proof.
  intros Ht Hj Hck Hf Hf'.
  assert (E : ∀ g, (∃ x, derive_with false g ts i = Expand x ∧ x_kind x = k) ↔
     kind_of (derive_with false (unchecked g) ts i) = Some k ∧ (checks g = true → k = KStruct → many i = false)).
  { intros g. setoid_rewrite derive_check_expand. split; [by intros (x & [-> H] & <-)|].
    intros [H Hm]. destruct (derive_with false (unchecked g) ts i) as [x| |]; cbn in H; [|done..]. injection H as <-. eauto. }
  assert (D : (∃ x, derive_with false f ts i = Expand x ∧ x_kind x = k) ↔ old_style i ∧ ∃ x, derive_with false f' ts i = Expand x ∧ x_kind x = k).
  { rewrite !E, <-Hck. rewrite (derive_js (unchecked f) (unchecked f') ts i k) by done. tauto. }
  rewrite (derive_splits f' ts i) by (by left).
  destruct (splits i) eqn:Hs.
  - rewrite (derive_splits f ts i), D by (by right). apply splits_spec in Hs. tauto.
  - apply splits_false in Hs. split; [|naive_solver]. intros (x & Hx & Hk).
    apply derive_expand in Hx as [Hx Hn]. destruct (proj1 D) as [Ho _]; [eauto|].
    destruct (Hn Hf Hs) as [[] _]. split; [done|]. destruct Ho as [[fs Hd] _]. by eexists _, _.
Qed.
(** Cargo features are meant to add: turning [js] on breaks an enum that says [js], a tuple struct, a
    struct that says [js] first, and one with another attribute before; and the macro panics at a struct
    with a const parameter that says [js]. *)
Theorem C71_js_adds_refuted :
  ∃ is : list item, List.length is = 4%nat ∧
    Forall (λ i, derive_ReprC js_on [] i = Reject ∧ ∃ x, derive_ReprC js_off [] i = Expand x) is ∧
  ∃ i x, derive_ReprC js_on [TJs] i = Panic ∧ derive_ReprC js_off [TJs] i = Expand x.
Proof.
  exists [enum_of ["u8"; "js"]; newtype ["transparent"; "js"] Pub; pair_of ["js"; "C"];
     Item [AOther; repr ["C"%string; "js"%string]] Pub 0 0 0 false (DStruct Braces [plain_field])].
  split; [reflexivity|]. split; [repeat constructor; eexists; vm_compute; reflexivity|].
  exists (Item [repr ["C"]] Pub 0 0 1 false (DStruct Braces [plain_field])), (Expansion KStruct false true).
  vm_compute. split; reflexivity.
Qed.
Example C71_js_ex :
  derive_ReprC js_on [] (pair_of ["C"; "js"]) = Expand (Expansion KStruct false true) ∧
  derive_ReprC js_off [] (pair_of ["C"; "js"]) = Expand (Expansion KStruct false false) ∧
  derive_ReprC js_on [] (pair_of ["C"]) = Expand (Expansion KStruct false false).
Proof. vm_compute. split_and!; reflexivity. Qed.

(** ** [rename] and [js] as arguments *)

(** They are honoured except by newtypes of functions, and with [js] in the [repr] and as feature. *)
Theorem C71_names (f : features) (ts : list tok) (i : item) (x : expansion) :
  derive_ReprC f ts i = Expand x → i_data i ≠ DTrait → x_kind x ≠ KFptr → feat_js f = false ∨ ¬ asks_js i →
  x_rename x = existsb is_rename ts ∧
  (x_kind x = KStruct ∨ (∃ s, x_kind x = KEnum s) → x_js x = existsb is_js ts).
Proof.
  intros H Ht Hk Hf. apply derive_expand in H as [H _]. apply derive_check_expand in H as [H _].
  destruct (derive_repr_c (unchecked f) ts i x eq_refl H Ht Hf) as (i' & Hi' & _). by eapply repr_c_names.
Qed.
(** A function pointer has no name of its own, and no JavaScript, whatever was asked for. *)
Theorem C71_fptr (f : features) (ts : list tok) (i : item) (x : expansion) :
  derive_ReprC f ts i = Expand x → x_kind x = KFptr → x = Expansion KFptr false false.
Proof.
  unfold derive_ReprC, derive_with, repr_c, legacy. intros H Hk.
  assert (Ht : ∀ i', try_fptr i' = Some (Expand x) → x = Expansion KFptr false false).
  { intros i' Hi'. unfold try_fptr in Hi'. repeat case_match; simplify_eq; done. }
  assert (Hs : ∀ a i' fs ck sp, derive_struct ck sp a i' fs ≠ Expand x).
  { intros a i' fs ck sp Hd. unfold derive_struct in Hd. repeat case_match; simplify_eq; done. }
  assert (He : ∀ a i' vs, derive_enum a i' vs ≠ Expand x).
  { intros a i' vs Hd. unfold derive_enum in Hd. repeat case_match; simplify_eq; done. }
  repeat case_match; simplify_eq; try done; try (by eapply Ht); try (by destruct (Hs _ _ _ _ _ H)); try (by destruct (He _ _ _ H)).
  all: unfold repr_c in H; repeat case_match; simplify_eq; try done; try (by eapply Ht); try (by destruct (Hs _ _ _ _ _ H)); try (by destruct (He _ _ _ H)).
Qed.
Example C71_fptr_ex :
  derive_ReprC js_on [TRename; TComma; TJs] (Item [repr ["transparent"%string]] Pub 0 0 0 false (DStruct Braces [Field Pub (Some (FnPtr (Some None) false))])) =
    Expand (Expansion KFptr false false).
Proof. vm_compute. reflexivity. Qed.
(** Else [rename] is taken and ignored: the C name changes with the feature [js]. *)
Theorem C71_rename_refuted : ∃ ts i x y,
  derive_ReprC js_off ts i = Expand x ∧ derive_ReprC js_on ts i = Expand y ∧
  x_kind x = x_kind y ∧ x_rename x ≠ x_rename y.
Proof.
  exists [TRename], (pair_of ["C"; "js"]), (Expansion KStruct true false), (Expansion KStruct false true).
  vm_compute. split_and!; done.
Qed.
Example C71_names_ex :
  derive_ReprC js_on [TRename; TComma; TJs] (enum_of ["i32"]) = Expand (Expansion (KEnum "i32") true true) ∧
  derive_ReprC js_on [TRename] (fn_of Parens 0) = Expand (Expansion KFptr false false).
Proof. vm_compute. split_and!; reflexivity. Qed.

(** The arguments for a trait: [dyn], then [Clone]s, separated by optional commas. *)
Theorem C71_trait (f : features) (ts : list tok) (i : item) (x : expansion) :
  i_data i = DTrait → derive_ReprC f ts i = Expand x ↔
  feat_dyn f = true ∧ ∃ r c, (ts = TDyn :: r ∨ ts = TDyn :: TComma :: r) ∧ separated is_clone r ∧
    c = existsb is_clone r ∧ x = Expansion (KTrait c) false false.
Proof.
  intros Ht. unfold derive_ReprC, derive_with. rewrite Ht. destruct (feat_dyn f).
  - assert (E : ∀ c, dyn_args ts = Some c ↔ ∃ r, (ts = TDyn :: r ∨ ts = TDyn :: TComma :: r) ∧ separated is_clone r ∧ c = existsb is_clone r).
    { intros c. split.
      - intros H. destruct ts as [|[] ts]; try done. cbn [dyn_args] in H.
        apply parse_clone_spec in H as [[Hs|(_ & ts' & -> & Hs)] Hc]; [exists ts|exists ts']; eauto.
      - intros (r & [-> | ->] & Hs & ->); cbn [dyn_args]; apply parse_clone_spec; (split; [|reflexivity]).
        + by left.
        + right. split; [reflexivity|]. exists r. done. }
    destruct (dyn_args ts) as [c|].
    + split.
      * intros [= <-]. split; [done|]. destruct (proj1 (E c) eq_refl) as (r & ? & ? & ?). eauto 10.
      * intros (_ & r & c' & Hts & Hs & Hc & ->). assert (Some c = Some c') as [= ->] by (apply E; eauto). done.
    + split; [done|]. intros (_ & r & c' & Hts & Hs & Hc & ->). assert (None = Some c') by (apply E; eauto). done.
  - split; [|by intros [? _]]. repeat case_match; done.
Qed.
(** So [Clone] twice is taken, unlike [js] twice. *)
Theorem C71_once_refuted : ∃ ts i x, (2 ≤ times is_clone ts)%nat ∧ derive_ReprC js_on ts i = Expand x.
Proof.
  exists [TDyn; TComma; TClone; TComma; TClone], (Item [] Pub 0 0 0 false DTrait), (Expansion (KTrait true) false false).
  vm_compute. split; [lia|reflexivity].
Qed.
Example C71_trait_ex :
  derive_ReprC js_on [TDyn; TClone] (Item [] Pub 0 0 0 false DTrait) = Expand (Expansion (KTrait true) false false) ∧
  derive_ReprC js_on [TClone; TComma; TDyn] (Item [] Pub 0 0 0 false DTrait) = Reject.
Proof. vm_compute. split_and!; reflexivity. Qed.

(** ** Visibility *)

(** It matters only for structs with one field. *)
Theorem C71_visibility (f : features) (ts : list tok) (i : item) (v : vis) :
  (∀ sh fd, i_data i ≠ DStruct sh [fd]) → derive_ReprC f ts (with_vis i v) = derive_ReprC f ts i.
Proof.
  intros H.
  assert (E : derive_with false f ts (with_vis i v) = derive_with false f ts i).
  { rewrite (derive_check f ts i), (derive_check f ts (with_vis i v)), vis_derive by done. done. }
  destruct (feat_js f) eqn:Hf; [|rewrite !derive_splits by (by left); done].
  destruct (splits i) eqn:Hs; [rewrite !derive_splits by (by right); done|].
  destruct (asks_dec i) as [Ha|Ha]; [|rewrite !derive_unasked, E by done; done].
  destruct (struct_dec i) as [Hst|Hst]; [rewrite !derive_asked by done; done|].
  rewrite !derive_asked_other by done. done.
Qed.
(** But not only for newtypes of functions, which is what it is asked for: a private transparent
    newtype is rejected whatever is in it. *)
Theorem C71_visibility_refuted : ∃ i v sh, i_data i = DStruct sh [plain_field] ∧
  derive_ReprC js_on [] (with_vis i v) = Reject ∧ ∃ x, derive_ReprC js_on [] i = Expand x.
Proof.
  exists (newtype ["transparent"%string] Pub), Priv, Parens. split; [reflexivity|].
  split; [vm_compute; reflexivity|]. eexists. vm_compute. reflexivity.
Qed.
Example C71_visibility_ex :
  derive_ReprC js_on [] (with_vis (pair_of ["C"]) Priv) = Expand (Expansion KStruct false false) ∧
  derive_ReprC js_on [] (newtype ["C"] Priv) = Expand (Expansion KStruct false false).
Proof. vm_compute. split_and!; reflexivity. Qed.

(** ** What is taken compiles? *)

(** Between braces, and for other than functions, the shape is no obstacle.  Missing: structs
    between parentheses, newtypes of functions between braces. *)
Theorem C71_compiles_partial (f : features) (ts : list tok) (i : item) (x : expansion) :
  derive_ReprC f ts i = Expand x →
  (x_kind x = KStruct → ∃ fs, i_data i = DStruct Braces fs) →
  (x_kind x = KFptr → ∃ fs, i_data i = DStruct Parens fs) → compiles i x = true.
Proof.
  intros _ Hs Hf. unfold compiles. destruct (x_kind x); try done.
  - by destruct (Hf eq_refl) as [fs ->].
  - by destruct (Hs eq_refl) as [fs ->].
Qed.
Theorem C71_compiles_refuted : ∃ i j x y,
  derive_ReprC js_on [] i = Expand x ∧ x_kind x = KStruct ∧ compiles i x = false ∧
  derive_ReprC js_on [] j = Expand y ∧ x_kind y = KFptr ∧ compiles j y = false.
Proof.
  exists (newtype ["C"%string] Pub), (fn_of Braces 0), (Expansion KStruct false false), (Expansion KFptr false false).
  vm_compute. split_and!; reflexivity.
Qed.

Print Assumptions C71_kind.
Print Assumptions C71_rejected.
Print Assumptions C71_panics.
Print Assumptions C71_never_panics_refuted.
Print Assumptions C71_js_not_asked.
Print Assumptions C71_js_partial.
Print Assumptions C71_js_adds_refuted.
Print Assumptions C71_names.
Print Assumptions C71_fptr.
Print Assumptions C71_rename_refuted.
Print Assumptions C71_trait.
Print Assumptions C71_once_refuted.
Print Assumptions C71_visibility.
Print Assumptions C71_visibility_refuted.
Print Assumptions C71_compiles_partial.
Print Assumptions C71_compiles_refuted.
