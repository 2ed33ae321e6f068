(** Proofs for C84, continued: declarations one after the other. *)

From Coq Require Import NArith ZArith List Bool String Ascii Lia ZifyBool ZifyNat ZifyN.
From stdpp Require Import base numbers list strings pretty option.
From Verif Require Import LayoutModel NameModel HeaderModel HeaderSpec HeaderProofs HeaderRead HeaderNames CsModel
  TextModel TextSpec TextProofs CompSpec CompProofs.
From Verif Require ConstModel ConstSpec ConstProofs CsSpec CsProofs.
Import stdpp.list CompSpec.

(** ** Names *)

Lemma in_strings_spec x l : in_strings x l = true ↔ x ∈ l.
Proof.
  unfold in_strings. rewrite existsb_exists. split.
  - intros (y & Hy & ->%String.eqb_eq). by apply elem_of_list_In.
  - intros H. exists x. split; [by apply elem_of_list_In|apply String.eqb_refl].
Qed.
Lemma in_strings_not x l : x ∉ l → in_strings x l = false.
Proof. intros H. destruct (in_strings x l) eqn:E; [|done]. by apply in_strings_spec in E. Qed.
Lemma find_fst {A} x (l : list (string * A)) : x ∈ map fst l → ∃ a, find x l = Some a ∧ (x, a) ∈ l.
Proof.
  induction l as [|[y a] l IH]; intros H; [by apply elem_of_nil in H|]. cbn [find].
  destruct (String.eqb x y) eqn:E.
  - apply String.eqb_eq in E as ->. exists a. split; [done|left].
  - apply elem_of_cons in H as [H|H]; [apply String.eqb_neq in E; done|].
    destruct (IH H) as (b & ? & ?). exists b. split; [done|by right].
Qed.
Lemma find_app {A} x (l k : list (string * A)) a : find x l = Some a → find x (l ++ k) = Some a.
Proof. induction l as [|[y b] l IH]; [done|]. cbn [find app]. destruct (String.eqb x y); [done|]. apply IH. Qed.
Lemma find_app_r {A} x (l k : list (string * A)) : x ∉ map fst l → find x (l ++ k) = find x k.
Proof.
  induction l as [|[y b] l IH]; [done|]. cbn [find app map]. intros [H1 H2]%not_elem_of_cons.
  destruct (String.eqb x y) eqn:E; [apply String.eqb_eq in E; done|]. by apply IH.
Qed.
Lemma find_in {A} x a (l : list (string * A)) : NoDup (map fst l) → (x, a) ∈ l → find x l = Some a.
Proof.
  induction l as [|[y b] l IH]; intros HN H; [by apply elem_of_nil in H|]. cbn [map find] in *.
  apply NoDup_cons in HN as [HN1 HN2]. apply elem_of_cons in H as [[= <- <-]|H]; [by rewrite String.eqb_refl|].
  destruct (String.eqb x y) eqn:E; [|by apply IH]. apply String.eqb_eq in E as ->. destruct HN1.
  change (y ∈ fst <$> l). apply elem_of_list_fmap. by exists (y, a).
Qed.

Lemma commas_idents m l x : x ∈ l → m ∈ idents x → m ∈ idents (commas l).
Proof.
  induction l as [|y [|z l] IH]; intros Hx Hm; [by apply elem_of_nil in Hx|..]; cbn [commas].
  - by apply elem_of_list_singleton in Hx as ->.
  - rewrite idents_app, elem_of_app. apply elem_of_cons in Hx as [->|Hx]; [by left|]. right.
    change (m ∈ idents (commas (z :: l))). by apply IH.
Qed.
Lemma idents_commas m l : m ∈ idents (commas l) → ∃ x, x ∈ l ∧ m ∈ idents x.
Proof.
  induction l as [|x [|y l] IH]; cbn [commas].
  - intros H. by apply elem_of_nil in H.
  - intros H. exists x. split; [left|done].
  - rewrite idents_app, elem_of_app. intros [H|H]; [exists x; split; [left|done]|].
    cbn in H. destruct (IH H) as (z & Hz & ?). exists z. split; [by right|done].
Qed.
Lemma c_var_args l : (fix go (l : list cty) : list (list tok) :=
  match l with [] => [] | a :: l => c_var a [] :: go l end) l = map (λ a, c_var a []) l.
Proof. induction l; [done|]. by f_equal. Qed.
Lemma mentioned_sub c t m : m ∈ mentioned LC t → m ∈ mentioned LC (TPtr c t).
Proof. unfold mentioned. cbn [name_toks c_var]. destruct c; rewrite idents_app, elem_of_app; by left. Qed.
Lemma mentioned_ret r args m : m ∈ mentioned LC r → m ∈ mentioned LC (TFn r args).
Proof. unfold mentioned. cbn [name_toks c_var]. rewrite idents_app, elem_of_app. by left. Qed.
Lemma mentioned_arg r args a m : a ∈ args → m ∈ mentioned LC a → m ∈ mentioned LC (TFn r args).
Proof.
  intros Ha Hm. unfold mentioned in *. cbn [name_toks c_var] in *. rewrite idents_app, elem_of_app. right.
  destruct args as [|b args]; [by apply elem_of_nil in Ha|]. rewrite c_var_args. cbn [app idents flat_map].
  change (m ∈ idents (commas (map (λ a, c_var a []) (b :: args)) ++ [TkRp])). rewrite idents_app, elem_of_app. left.
  apply (commas_idents _ _ (c_var a [])); [|done].
  change (c_var a [] ∈ (λ a, c_var a []) <$> (b :: args)). apply elem_of_list_fmap. by exists a.
Qed.
Lemma idents_c_var t v m : m ∈ idents (c_var t v) → m ∈ mentioned LC t ∨ m ∈ idents v.
Proof.
  assert (HC : ∀ x, m ∈ idents (TkId x :: v) → m ∈ [x] ∨ m ∈ idents v).
  { intros x H. by apply elem_of_cons in H as [->|H]; [left; left|right]. }
  unfold mentioned. destruct t as [i|d| | | | |c t|t n|r args|n gs fs|n i|n t|n]; cbn [c_var name_toks]; try apply HC.
  - destruct c; rewrite !idents_app, !elem_of_app; (intros [H|H]; [left; by left|]).
    + apply elem_of_cons in H as [->|H]; [left; right; left|]. by right.
    + by right.
  - rewrite !idents_app, !elem_of_app. intros [H|H]; [left; by left|].
    change (m ∈ idents (v ++ TkRp :: TkLp ::
      match args with [] => [TkId "void"] | _ => commas ((fix go (l : list cty) : list (list tok) :=
        match l with [] => [] | a :: l => c_var a [] :: go l end) args) end ++ [TkRp])) in H.
    rewrite idents_app, elem_of_app in H. destruct H as [H|H]; [by right|]. left. right. done.
Qed.

(** ** Types *)

Lemma view_struct n gs fs : view (TStruct n gs fs) =
  RStruct (Some (short (TStruct n gs fs))) (map (λ f, (f.1, view f.2)) (filter (λ f, zst f.2 = false) fs)).
Proof.
  cbn [view]. f_equal. induction fs as [|[f u] fs IH]; [done|]. rewrite filter_cons. cbn [snd]. rewrite IH.
  destruct (zst u) eqn:E; [by rewrite decide_False|]. by rewrite decide_True.
Qed.
Lemma void_view t : CsSpec.is_void t = false → not_void (view t) = true.
Proof.
  induction t as [i|d| | | | |c t IH|t n IH|r args IHr IHa|n gs fs IHg IHf|n i|n t IH|n] using cty_ind'; try done.
  - by destruct i.
  - by destruct d.
  - destruct i as [i|]; [by destruct i|done].
Qed.
Lemma zst_complete t : zst t = false → complete (view t) = true.
Proof.
  induction t as [i|d| | | | |c t IH|t n IH|r args IHr IHa|n gs fs IHg IHf|n i|n t IH|n] using cty_ind'; try done.
  - by destruct i.
  - by destruct d.
  - destruct i as [i|]; [by destruct i|done].
Qed.
Lemma zst_members n gs fs : zst (TStruct n gs fs) = false → filter (λ f, zst f.2 = false) fs ≠ [].
Proof.
  cbn [zst]. induction fs as [|[f u] fs IH]; [done|]. rewrite filter_cons. cbn [snd].
  destruct (zst u) eqn:E; [|by rewrite decide_True]. rewrite decide_False by done. apply IH.
Qed.

Lemma suffixed_not_base s : in_strings (suffixed s) base_types = false.
Proof.
  apply in_strings_not. intros H. pose proof (suffixed_name s) as HN.
  unfold base_types in H. repeat (apply elem_of_cons in H as [H|H]; [rewrite H in HN; discriminate HN|]). by apply elem_of_nil in H.
Qed.
Lemma suffixed_not_known s : suffixed s ∉ known LC.
Proof.
  intros H. pose proof (suffixed_name s) as HN.
  unfold known in H. repeat (apply elem_of_cons in H as [H|H]; [rewrite H in HN; discriminate HN|]). by apply elem_of_nil in H.
Qed.

Lemma resolve_params T ps : (fix go (l : list (ctype * option string)) : option (list rty) :=
   match l with
   | [] => Some []
   | (t, _) :: l =>
       match resolve T t, go l with
       | Some t, Some l => if not_void t then Some (t :: l) else None
       | _, _ => None
       end
   end) ps =
  foldr (λ p o, match resolve T p.1, o with Some t, Some l => if not_void t then Some (t :: l) else None | _, _ => None end)
    (Some []) ps.
Proof. induction ps as [|[t x] ps IH]; [done|]. cbn [foldr fst]. by rewrite <-IH. Qed.
Lemma resolve_fun T r ps r' ts : resolve T r = Some r' →
  Forall2 (λ p t, resolve T p.1 = Some t ∧ not_void t = true) ps ts → resolve T (CFun r ps) = Some (RFun r' ts).
Proof.
  intros Hr HF. cbn [resolve]. rewrite Hr, resolve_params.
  assert (foldr (λ p o, match resolve T p.1, o with Some t, Some l => if not_void t then Some (t :: l) else None | _, _ => None end)
    (Some []) ps = Some ts) as ->; [|done].
  induction HF as [|p t ps ts [H1 H2] _ IH]; [done|]. cbn [foldr]. by rewrite H1, IH, H2.
Qed.

Section Source.
Context (is : list item) (Hs : source_ok is).

(** What the table of types says is right. *)
Definition right (m : string) (τ : rty) : Prop :=
  (m ∈ std_names ∧ τ = RBase m) ∨ ∃ t, occurs t is ∧ type_key LC t = Some m ∧ τ = view t.
Lemma occurs_within t u : occurs t is → within u t → occurs u is.
Proof. intros (i & v & Hi & Hv & Hw) Hu. exists i, v. split; [done|]. split; [done|]. by eapply within_trans. Qed.

Lemma resolve_view T t : (∀ m τ, (m, τ) ∈ T → right m τ) → occurs t is →
  (∀ m, m ∈ mentioned LC t → m ∈ known LC ∨ m ∈ map fst T) → resolve T (sem t) = Some (view t).
Proof.
  intros HT. induction t as [i|d| | | | |c t IH|t n IH|r args IHr IHa|n gs fs IHg IHf|n i|n t IH|n] using cty_ind'; intros Ho Hm.
  - assert (HS : ∀ s, s ∈ std_names → s ∈ mentioned LC (TInt i) → s ∉ known LC → in_strings s base_types = false →
      resolve T (CBase s) = Some (RBase s)).
    { intros s H1 H2 H3 H4. cbn [resolve]. rewrite H4. destruct (Hm s H2) as [?|H5]; [done|].
      destruct (find_fst _ _ H5) as (τ & -> & Hin). destruct (HT _ _ Hin) as [[_ ->]|(u & Hu & Hk & _)]; [done|].
      by destruct (so_keys _ Hs _ _ Hu Hk) as [_ []]. }
    pose proof (so_type _ Hs _ Ho) as Hi. cbn in Hi.
    destruct i; try done; (apply HS; [| | |reflexivity]; apply (bool_decide_unpack _); vm_compute; exact I).
  - by destruct d.
  - done.
  - cbn [sem view resolve]. change (in_strings "bool" base_types) with false. cbn beta iota.
    destruct (Hm "bool") as [H|H]; [left|exfalso; revert H; by apply (bool_decide_unpack _)|].
    destruct (find_fst _ _ H) as (τ & -> & Hin). destruct (HT _ _ Hin) as [[_ ->]|(u & Hu & Hk & _)]; [done|].
    destruct (so_keys _ Hs _ _ Hu Hk) as [_ HB]. destruct HB. by apply (bool_decide_unpack _).
  - done.
  - done.
  - cbn [sem view resolve]. rewrite IH; [done|..].
    + eapply occurs_within; [exact Ho|do 2 constructor].
    + intros m H. by apply Hm, mentioned_sub.
  - cbn [sem view resolve]. rewrite suffixed_not_base.
    destruct (Hm (suffixed (short (TArr t n)))) as [H|H]; [left|by apply suffixed_not_known in H|].
    destruct (find_fst _ _ H) as (τ & -> & Hin). destruct (HT _ _ Hin) as [[H1 _]|(u & Hu & Hk & ->)].
    + by destruct (so_keys _ Hs _ _ Ho eq_refl) as [_ []].
    + by rewrite (proj1 (so_clash _ Hs) u (TArr t n) _ Hu Ho Hk eq_refl).
  - cbn [sem view]. change (resolve T (CPtr false (CFun (sem r) (map (λ a, (sem a, None)) args))))
      with (RPtr false <$> resolve T (CFun (sem r) (map (λ a, (sem a, None)) args))).
    rewrite (resolve_fun _ _ _ (view r) (map view args)); [done|..].
    + apply IHr; [eapply occurs_within; [exact Ho|do 2 constructor]|]. intros m H. by apply Hm, mentioned_ret.
    + apply Forall2_fmap, Forall_Forall2_diag, Forall_forall. intros a Ha. cbn [fst]. split.
      * rewrite Forall_forall in IHa. apply IHa; [done|..].
        -- eapply occurs_within; [exact Ho|]. eapply W_arg; [done|constructor].
        -- intros m H. by eapply Hm, mentioned_arg.
      * apply void_view. pose proof (so_type _ Hs _ Ho) as Hi. by apply Hi.
  - cbn [sem]. cbn [resolve]. rewrite suffixed_not_base.
    destruct (Hm (suffixed (short (TStruct n gs fs)))) as [H|H]; [left|by apply suffixed_not_known in H|].
    destruct (find_fst _ _ H) as (τ & -> & Hin). destruct (HT _ _ Hin) as [[H1 _]|(u & Hu & Hk & ->)].
    + by destruct (so_keys _ Hs _ _ Ho eq_refl) as [_ []].
    + by rewrite (proj1 (so_clash _ Hs) u (TStruct n gs fs) _ Hu Ho Hk eq_refl).
  - cbn [sem]. cbn [resolve]. rewrite suffixed_not_base.
    destruct (Hm (suffixed (short (TEnum n i)))) as [H|H]; [left|by apply suffixed_not_known in H|].
    destruct (find_fst _ _ H) as (τ & -> & Hin). destruct (HT _ _ Hin) as [[H1 _]|(u & Hu & Hk & ->)].
    + by destruct (so_keys _ Hs _ _ Ho eq_refl) as [_ []].
    + by rewrite (proj1 (so_clash _ Hs) u (TEnum n i) _ Hu Ho Hk eq_refl).
  - cbn [sem]. cbn [resolve]. rewrite suffixed_not_base.
    destruct (Hm (suffixed (short (TAlias n t)))) as [H|H]; [left|by apply suffixed_not_known in H|].
    destruct (find_fst _ _ H) as (τ & -> & Hin). destruct (HT _ _ Hin) as [[H1 _]|(u & Hu & Hk & ->)].
    + by destruct (so_keys _ Hs _ _ Ho eq_refl) as [_ []].
    + by rewrite (proj1 (so_clash _ Hs) u (TAlias n t) _ Hu Ho Hk eq_refl).
  - cbn [sem]. cbn [resolve]. rewrite suffixed_not_base.
    destruct (Hm (suffixed (short (TOpaque n)))) as [H|H]; [left|by apply suffixed_not_known in H|].
    destruct (find_fst _ _ H) as (τ & -> & Hin). destruct (HT _ _ Hin) as [[H1 _]|(u & Hu & Hk & ->)].
    + by destruct (so_keys _ Hs _ _ Ho eq_refl) as [_ []].
    + by rewrite (proj1 (so_clash _ Hs) u (TOpaque n) _ Hu Ho Hk eq_refl).
Qed.

(** ** Where declarations come from *)

Definition origin (y : xdecl) : Prop :=
  match y with
  | YStruct _ n fs => ∃ nm gs fs0, occurs (TStruct nm gs fs0) is ∧ n = short (TStruct nm gs fs0) ∧
      map (λ f : field, (f.1.2, erase f.2)) fs = filter (λ f, zst f.2 = false) fs0
  | YArr n t len => occurs (TArr (erase t) len) is ∧ n = suffixed (short (TArr (erase t) len))
  | YEnum _ n i _ => occurs (TEnum n i) is
  | YAlias _ n t => ∃ m, n = suffixed m ∧ occurs (TAlias m (erase t)) is
  | YOpaque _ n => occurs (TOpaque n) is
  | YFn _ n args r => IFn n (map (λ a, (a.1, erase a.2)) args) (erase r) ∈ is
  | _ => True
  end.
Lemma origin_from y : from_items is (erase_decl y) → (∀ n r args, y ≠ YDelegate n r args) →
  origin y ∧ good_decl (erase_decl y) ∧ alias_name_ok (erase_decl y).
Proof.
  intros HF HD.
  assert (HT : ∀ t, occurs t is → own_decl (IType "" t) = Some (erase_decl y) →
    origin y ∧ good_decl (erase_decl y) ∧ alias_name_ok (erase_decl y)).
  { intros t Ho E. split; [|split].
    - destruct t as [i|d| | | | |c t|t n|r args|n gs fs|n i|n t|n]; cbn [own_decl] in E; try discriminate E;
        destruct y; cbn [erase_decl origin] in *; injection E; clear E; intros; simplify_eq.
      + done.
      + match goal with H : _ = suffixed _ |- _ => apply suffixed_inj in H end. eauto 8.
      + match goal with H : _ = suffixed _ |- _ => apply suffixed_inj in H as <- end. done.
      + eauto.
      + match goal with H : _ = suffixed _ |- _ => apply suffixed_inj in H as <- end. done.
    - by eapply so_types.
    - destruct t; cbn [own_decl] in E; try discriminate E; injection E as E; rewrite <-E; try done; apply suffixed_name. }
  destruct HF as [E|[E|[(i & Hi & E)|[(t & Ho & E)|(r & args & _ & E)]]]].
  - destruct y; try discriminate E. repeat split.
  - destruct y; try discriminate E. repeat split.
  - destruct i as [n args r|n t u|n t].
    + split; [|split; [by eapply so_items|]]; cbn [own_decl] in E; destruct y; try discriminate E; [|done].
      cbn [erase_decl] in E. cbn [origin]. injection E as -> -> ->. done.
    + split; [|split; [by eapply so_items|]]; cbn [own_decl] in E; by destruct y; try discriminate E.
    + apply (HT t); [|done]. exists (IType n t), t. split; [done|]. split; [left|constructor].
  - by apply (HT t).
  - destruct y; try discriminate E. by edestruct HD.
Qed.
End Source.
