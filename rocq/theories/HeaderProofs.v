(** Lemmas about header generation. *)

From Coq Require Import NArith List Bool Lia String Ascii Sorting.Sorted Sorting.Permutation.
From stdpp Require Import base numbers list strings pretty sets.
From Verif Require Import HeaderModel HeaderSpec.

(** ** Induction on types *)

Section ind.
  Context (P : cty → Prop).
  Context (HInt : ∀ i, P (TInt i)) (HFloat : ∀ d, P (TFloat d)) (HVoid : P TVoid) (HBool : P TBool)
    (HCInt : P TCInt) (HChar : P TChar)
    (HPtr : ∀ c t, P t → P (TPtr c t)) (HArr : ∀ t n, P t → P (TArr t n))
    (HFn : ∀ r args, P r → Forall P args → P (TFn r args))
    (HStruct : ∀ n gs fs, Forall P gs → Forall (λ f, P f.2) fs → P (TStruct n gs fs))
    (HEnum : ∀ n i, P (TEnum n i)) (HAlias : ∀ n t, P t → P (TAlias n t)) (HOpaque : ∀ n, P (TOpaque n)).
  Fixpoint cty_ind' (t : cty) : P t :=
    match t with
    | TInt i => HInt i | TFloat d => HFloat d | TVoid => HVoid | TBool => HBool | TCInt => HCInt
    | TChar => HChar
    | TPtr c t => HPtr c t (cty_ind' t)
    | TArr t n => HArr t n (cty_ind' t)
    | TFn r args =>
        HFn r args (cty_ind' r)
          ((fix go (l : list cty) : Forall P l :=
              match l with
              | [] => List.Forall_nil P
              | t :: l => @List.Forall_cons _ P t l (cty_ind' t) (go l)
              end) args)
    | TStruct n gs fs =>
        HStruct n gs fs
          ((fix go (l : list cty) : Forall P l :=
              match l with
              | [] => List.Forall_nil P
              | t :: l => @List.Forall_cons _ P t l (cty_ind' t) (go l)
              end) gs)
          ((fix go (l : list (string * cty)) : Forall (λ f, P f.2) l :=
              match l with
              | [] => List.Forall_nil (λ f, P f.2)
              | f :: l => @List.Forall_cons _ (λ f, P f.2) f l (cty_ind' f.2) (go l)
              end) fs)
    | TEnum n i => HEnum n i
    | TAlias n t => HAlias n t (cty_ind' t)
    | TOpaque n => HOpaque n
    end.
End ind.

(** ** Unfolding *)

Lemma define_fn l r args s :
  define l (TFn r args) s =
  bind (define (legacy l) r s) (λ s, bind (define_all (legacy l) args s)
    (match l with
     | LCSharp => define_once (short (TFn r args)) (emit (DDelegate (short (TFn r args)) r args))
     | _ => Ok
     end)).
Proof.
  cbn [define].
  assert (H : ∀ args s, (fix go (ts : list cty) (s : st) : res :=
     match ts with [] => Ok s | t :: ts => bind (define (legacy l) t s) (go ts) end) args s =
     define_all (legacy l) args s).
  { clear. induction args as [|a args IH]; intros s; [done|]. cbn.
    destruct (define (legacy l) a s); cbn; [apply IH|done..]. }
  destruct (define (legacy l) r s); cbn; [|done..]. by rewrite H.
Qed.

Lemma define_struct l n gs fs s :
  let t := TStruct n gs fs in
  define l t s =
  define_once (suffixed (short t)) (λ s, bind (define_all l (map snd fs) s) (λ s,
    if zst t then Panic
    else emit (DStruct (suffixed (short t)) (filter (λ f, zst f.2 = false) fs)) s)) s.
Proof.
  cbn [define]. unfold define_once.
  assert (H : ∀ fs s, (fix go (ts : list (string * cty)) (s : st) : res :=
     match ts with [] => Ok s | (_, t) :: ts => bind (define l t s) (go ts) end) fs s =
     define_all l (map snd fs) s).
  { clear. induction fs as [|[f a] fs IH]; intros s; [done|]. cbn.
    destruct (define l a s); cbn; [apply IH|done..]. }
  case_bool_decide; [done|]. by rewrite H.
Qed.

(** ** What a traversal adds *)

(** [grows s s']: declarations were added, with names that were not taken. *)
Definition grows (s s' : st) : Prop :=
  ∃ new, out s' = out s ++ new ∧ seen s ⊆ seen s' ∧ NoDup (flat_map declares new) ∧
    ∀ n, n ∈ flat_map declares new → n ∈ seen s' ∧ n ∉ seen s.

Lemma grows_refl s : grows s s.
Proof.
  exists []. rewrite app_nil_r. split; [done|]. split; [done|]. split; [constructor|].
  intros n Hn. by apply elem_of_nil in Hn.
Qed.
Lemma grows_trans s1 s2 s3 : grows s1 s2 → grows s2 s3 → grows s1 s3.
Proof.
  intros (n1 & E1 & S1 & D1 & F1) (n2 & E2 & S2 & D2 & F2). exists (n1 ++ n2).
  rewrite E2, E1, app_assoc. split; [done|]. split; [set_solver|].
  rewrite flat_map_app. split.
  - apply NoDup_app. split; [done|]. split; [|done].
    intros n H1 H2. apply F1 in H1 as [H1 _]. apply F2 in H2 as [_ H2]. done.
  - intros n. rewrite elem_of_app. intros [H|H].
    + apply F1 in H as [? ?]. split; [set_solver|done].
    + apply F2 in H as [? ?]. split; [done|set_solver].
Qed.
Lemma bind_ok r f s' : bind r f = Ok s' → ∃ s, r = Ok s ∧ f s = Ok s'.
Proof. destruct r; cbn; [eauto|done..]. Qed.

Lemma grows_plain d s s' : declares d = [] → emit d s = Ok s' → grows s s'.
Proof.
  intros Hd [= <-]. exists [d]. cbn. rewrite Hd. split; [done|]. split; [done|]. split; [constructor|].
  intros n Hn. by apply elem_of_nil in Hn.
Qed.

Lemma grows_once k body s s' :
  (∀ s1, body (St (k :: seen s) (out s)) = Ok s1 → k ∉ seen s →
     grows (St (k :: seen s) (out s)) s1 ∨
     ∃ s2 d, grows (St (k :: seen s) (out s)) s2 ∧ emit d s2 = Ok s1 ∧ declares d = [k]) →
  define_once k body s = Ok s' → grows s s'.
Proof.
  intros HB H. unfold define_once in H. case_bool_decide as Hk; [simplify_eq; apply grows_refl|].
  destruct (HB s' H Hk) as [(new & E & S & D & F)|(s2 & d & (new & E & S & D & F) & Hd & Hn)]; cbn in *.
  - exists new. split; [done|]. split; [set_solver|]. split; [done|].
    intros n Hn. apply F in Hn as [? ?]. split; [done|set_solver].
  - injection Hd as <-. cbn. exists (new ++ [d]). rewrite E, app_assoc. split; [done|]. split; [set_solver|].
    rewrite flat_map_app. cbn. rewrite Hn. cbn. split.
    + apply NoDup_app. split; [done|]. split; [|apply NoDup_singleton].
      intros n H1 H2%elem_of_list_singleton. subst n. apply F in H1 as [_ H1]. set_solver.
    + intros n. rewrite elem_of_app, elem_of_list_singleton. intros [H1| ->].
      * apply F in H1 as [? ?]. split; [done|set_solver].
      * split; [set_solver|done].
Qed.

Lemma define_all_grows l ts :
  Forall (λ t, ∀ l s s', define l t s = Ok s' → grows s s') ts →
  ∀ s s', define_all l ts s = Ok s' → grows s s'.
Proof.
  induction 1 as [|t ts Ht _ IH]; intros s s' H; cbn in H; [simplify_eq; apply grows_refl|].
  apply bind_ok in H as (s1 & H1 & H2). eapply grows_trans; eauto.
Qed.

Lemma define_int_grows l s s' : define_int l s = Ok s' → grows s s'.
Proof.
  unfold define_int. intros H.
  destruct l; [|simplify_eq; apply grows_refl|];
    (eapply grows_once; [|exact H]; intros s1 H1 _; left; (eapply grows_plain; [|eassumption]; done)).
Qed.

Lemma define_grows t : ∀ l s s', define l t s = Ok s' → grows s s'.
Proof.
  induction t as [i|d| | | | |c t IH|t n IH|r args IHr IHa|n gs fs _ IHf|n i|n t IH|n] using cty_ind';
    intros l s s' H.
  - by eapply define_int_grows.
  - simplify_eq/=. apply grows_refl.
  - simplify_eq/=. apply grows_refl.
  - cbn in H. destruct l; [|simplify_eq; apply grows_refl|];
      (eapply grows_once; [|exact H]; intros s1 H1 _; left; (eapply grows_plain; [|eassumption]; done)).
  - simplify_eq/=. apply grows_refl.
  - simplify_eq/=. apply grows_refl.
  - cbn in H. by eapply IH.
  - cbn [define] in H. destruct l.
    + eapply grows_once; [|exact H]. intros s1 H1 _. right. apply bind_ok in H1 as (s2 & H1 & H2).
      exists s2, (DArr (suffixed (short (TArr t n))) t n). split; [by eapply IH|]. done.
    + apply bind_ok in H as (s2 & H1 & H2). eapply grows_trans; [by eapply IH|].
      eapply grows_once; [|exact H2]. intros s1 H3 _. right.
      exists (St (suffixed (short (TArr t n)) :: seen s2) (out s2)), (DArr (suffixed (short (TArr t n))) t n).
      split; [apply grows_refl|]. done.
    + eapply grows_once; [|exact H]. intros s1 H1 _. right. apply bind_ok in H1 as (s2 & H1 & H2).
      exists s2, (DArr (suffixed (short (TArr t n))) t n). split; [by eapply IH|]. done.
  - rewrite define_fn in H. apply bind_ok in H as (s1 & H1 & H). apply bind_ok in H as (s2 & H2 & H).
    eapply grows_trans; [by eapply IHr|]. eapply grows_trans; [by eapply define_all_grows|].
    destruct l; [simplify_eq; apply grows_refl| |simplify_eq; apply grows_refl].
    eapply grows_once; [|exact H]. intros s3 H3 _. right.
    eexists _, _. split; [apply grows_refl|]. split; [exact H3|done].
  - rewrite define_struct in H.
    eapply grows_once; [|exact H]. intros s1 H1 _. right. apply bind_ok in H1 as (s2 & H1 & H2).
    destruct (zst _); [done|]. eexists s2, _. split; [|split; [exact H2|done]].
    eapply define_all_grows; [|exact H1]. by apply Forall_map.
  - cbn [define] in H.
    eapply grows_once; [|exact H]. intros s1 H1 _. right. apply bind_ok in H1 as (s2 & H1 & H2).
    eexists s2, _. split; [by eapply define_int_grows|]. split; [exact H2|done].
  - cbn [define] in H.
    eapply grows_once; [|exact H]. intros s1 H1 _. apply bind_ok in H1 as (s2 & H1 & H2).
    destruct l.
    + right. eexists s2, _. split; [by eapply IH|]. split; [exact H2|done].
    + left. simplify_eq. by eapply IH.
    + left. simplify_eq. by eapply IH.
  - cbn [define] in H.
    eapply grows_once; [|exact H]. intros s1 H1 _. right.
    eexists _, _. split; [apply grows_refl|]. split; [exact H1|done].
Qed.

Lemma gen_def_grows l i s s' : gen_def l i s = Ok s' → grows s s'.
Proof.
  destruct i as [n args r|n t u|n t]; cbn [gen_def]; intros H.
  - case_bool_decide as Hn; [done|]. apply bind_ok in H as (s1 & H1 & H). apply bind_ok in H as (s2 & H2 & H).
    apply (grows_once n (λ s, bind (define_all l (map snd args) s) (λ s, bind (define l r s) (emit (DFn n args r)))) s s').
    + intros s3 H3 _. right. apply bind_ok in H3 as (s4 & H4 & H3). apply bind_ok in H3 as (s5 & H5 & H3).
      exists s5, (DFn n args r). split; [|done]. eapply grows_trans; [|by eapply define_grows].
      eapply define_all_grows; [|exact H4]. apply Forall_forall. intros. by eapply define_grows.
    + unfold define_once. rewrite bool_decide_false by done. rewrite H1. cbn. by rewrite H2.
  - apply bind_ok in H as (s1 & H1 & H). eapply grows_trans; [by eapply define_grows|].
    destruct l, u; try ((eapply grows_plain; [|eassumption]; done)); simplify_eq; apply grows_refl.
  - by eapply define_grows.
Qed.

Lemma gen_all_grows l is s s' : gen_all l is s = Ok s' → grows s s'.
Proof.
  revert s. induction is as [|i is IH]; intros s H; cbn in H; [simplify_eq; apply grows_refl|].
  apply bind_ok in H as (s1 & H1 & H). eapply grows_trans; [by eapply gen_def_grows|by eapply IH].
Qed.

(** ** Order *)

Fixpoint last_char (s : string) : option ascii :=
  match s with
  | EmptyString => None
  | String c EmptyString => Some c
  | String _ s => last_char s
  end.
Lemma last_char_app s c s' : last_char (s +:+ String c s') = last_char (String c s').
Proof.
  induction s as [|d s IH]; [done|]. cbn [String.append]. rewrite <-IH. cbn.
  by destruct s.
Qed.

Lemma suffixed_last s : last_char (suffixed s) = Some "t"%char.
Proof. unfold suffixed. by rewrite last_char_app. Qed.
Lemma append_assoc (a b c : string) : (a +:+ b) +:+ c = a +:+ (b +:+ c).
Proof.
  induction a as [|x a IH]; [done|].
  change (String x ((a +:+ b) +:+ c) = String x (a +:+ (b +:+ c))). by rewrite IH.
Qed.

Lemma type_key_last l t k : type_key l t = Some k → last_char k = Some "t"%char ∨ last_char k = Some "r"%char.
Proof.
  destruct t as [| | | | | |c t|t n|r args| | | |]; cbn [type_key]; intros H; try done;
    try (injection H as <-; left; by rewrite suffixed_last).
  destruct l; try done. injection H as <-. right. cbn [short]. rewrite <-append_assoc. by rewrite last_char_app.
Qed.
Lemma type_key_other l t k : type_key l t = Some k → k ≠ "bool" ∧ k ≠ int_headers.
Proof. intros H%type_key_last. split; intros ->; cbn in H; naive_solver. Qed.

Fixpoint size (t : cty) : nat :=
  match t with
  | TPtr _ t | TArr t _ | TAlias _ t => S (size t)
  | TFn r args =>
      S (size r + (fix go (l : list cty) : nat := match l with [] => 0 | t :: l => size t + go l end) args)
  | TStruct _ _ fs =>
      S ((fix go (l : list (string * cty)) : nat := match l with [] => 0 | (_, t) :: l => size t + go l end) fs)
  | _ => 1
  end.

Lemma within_size t u : within t u → size t ≤ size u.
Proof.
  induction 1 as [|c u _ IH|u n _ IH|r args _ IH|r args u Hu _ IH|n gs fs f u Hu _ IH|n u _ IH]; cbn; try lia.
  - etrans; [exact IH|]. clear IH. induction args as [|a args IHa]; [by apply elem_of_nil in Hu|].
    apply elem_of_cons in Hu as [->|Hu]; [cbn; lia|]. specialize (IHa Hu). cbn. lia.
  - etrans; [exact IH|]. clear IH. induction fs as [|[g a] fs IHa]; [by apply elem_of_nil in Hu|].
    apply elem_of_cons in Hu as [[= -> ->]|Hu]; [cbn; lia|]. specialize (IHa Hu). cbn. lia.
Qed.
Lemma size_arg a args r : a ∈ args → size a < size (TFn r args).
Proof.
  intros Ha. cbn. apply Nat.lt_succ_r. etrans; [|apply Nat.le_add_l].
  induction args as [|b args IH]; [by apply elem_of_nil in Ha|].
  apply elem_of_cons in Ha as [->|Ha]; cbn; [lia|]. specialize (IH Ha). cbn in IH. lia.
Qed.
Lemma size_field f a fs n gs : (f, a) ∈ fs → size a < size (TStruct n gs fs).
Proof.
  intros Ha. cbn. apply Nat.lt_succ_r.
  induction fs as [|[g b] fs IH]; [by apply elem_of_nil in Ha|].
  apply elem_of_cons in Ha as [[= -> ->]|Ha]; cbn; [lia|]. specialize (IH Ha). cbn in IH. lia.
Qed.

Lemma within_trans t u v : within t u → within u v → within t v.
Proof. intros H. induction 1; eauto using within. Qed.

Lemma idents_app a b : idents (a ++ b) = idents a ++ idents b.
Proof. apply flat_map_app. Qed.

Definition provided (ds : list decl) : list string := flat_map type_names ds.
Definition own (l : lang) (t : cty) : option decl :=
  match l, t with LCSharp, TAlias _ _ => None | _, _ => own_decl (IType "" t) end.
(** Mentioning [t] after [ds] is fine, and its own definition is there. *)
Definition ready (K : list string) (l : lang) (t : cty) (ds : list decl) : Prop :=
  (∀ m, m ∈ mentioned l t → m ∈ K ∨ m ∈ provided ds) ∧ (∀ d, own l t = Some d → d ∈ ds).

Lemma ready_mono K l t ds ds' : ready K l t ds → ready K l t (ds ++ ds').
Proof.
  intros [H H']. split.
  - intros m Hm. apply H in Hm as [?|?]; [by left|]. right. unfold provided.
    rewrite flat_map_app. apply elem_of_app. by left.
  - intros d Hd. apply elem_of_app. left. by apply H'.
Qed.
Lemma ready_grows K l t s s' : grows s s' → ready K l t (out s) → ready K l t (out s').
Proof. intros (new & -> & _) H. by apply ready_mono. Qed.

Lemma provided_lookup m ds : m ∈ provided ds → ∃ j d, ds !! j = Some d ∧ m ∈ type_names d.
Proof.
  unfold provided. rewrite elem_of_list_In, in_flat_map.
  intros (d & Hd%elem_of_list_In & Hm%elem_of_list_In). apply elem_of_list_lookup in Hd as [j Hj]. eauto.
Qed.

Lemma in_order_snoc K l ds d :
  in_order K l ds → (∀ m, m ∈ mentions l d → m ∈ K ∨ m ∈ provided ds) → in_order K l (ds ++ [d]).
Proof.
  intros H Hd i d' m Hi Hm. apply lookup_app_Some in Hi as [Hi|[Hl Hi]].
  - destruct (H i d' m Hi Hm) as [?|(j & d2 & Hj & Hd2 & ?)]; [by left|]. right.
    exists j, d2. split; [done|]. split; [by apply lookup_app_l_Some|done].
  - apply list_lookup_singleton_Some in Hi as [Hz <-].
    destruct (Hd m Hm) as [?|Hp]; [by left|]. right. apply provided_lookup in Hp as (j & d2 & Hj & ?).
    exists j, d2. split; [|split; [by apply lookup_app_l_Some|done]].
    apply lookup_lt_Some in Hj. lia.
Qed.

Lemma mentioned_ptr l c t m : l ≠ LPython → m ∈ mentioned l (TPtr c t) → m ∈ mentioned l t ∨ m ∈ known l.
Proof.
  intros Hl. unfold mentioned. destruct l; [| |done].
  - cbn [name_toks c_var]. destruct c; rewrite idents_app, elem_of_app; cbn; [|set_solver].
    rewrite elem_of_list_singleton. intros [?| ->]; [by left|]. right. set_solver.
  - cbn [name_toks csharp_ty]. rewrite idents_app, elem_of_app. cbn. set_solver.
Qed.

Lemma mentioned_fn r args m :
  m ∈ mentioned LC (TFn r args) →
  m ∈ mentioned LC r ∨ (∃ a, a ∈ args ∧ m ∈ mentioned LC a) ∨ m ∈ known LC.
Proof.
  unfold mentioned. cbn [name_toks c_var]. rewrite idents_app, elem_of_app.
  intros [?|H]; [by left|]. right. cbn in H. rewrite idents_app, elem_of_app in H.
  destruct H as [H|H]; [|by apply elem_of_nil in H].
  destruct args as [|a args].
  { cbn in H. apply elem_of_list_singleton in H as ->. right. set_solver. }
  left.
  assert (HG : ∀ l, (fix go (l : list cty) : list (list tok) :=
       match l with [] => [] | a :: l => c_var a [] :: go l end) l = map (λ a, c_var a []) l).
  { induction l; [done|]. by f_equal. }
  rewrite HG in H. change (m ∈ idents (commas ((λ a, c_var a []) <$> (a :: args)))) in H.
  revert H. generalize (a :: args) as l. clear HG.
  assert (HC : ∀ l, m ∈ idents (commas l) → ∃ x, x ∈ l ∧ m ∈ idents x).
  { induction l as [|x [|y l] IH]; cbn [commas].
    - intros H. by apply elem_of_nil in H.
    - intros H. exists x. split; [left|done].
    - rewrite idents_app, elem_of_app. intros [H|H]; [exists x; split; [left|done]|].
      cbn in H. destruct (IH H) as (z & Hz & ?). exists z. split; [by right|done]. }
  intros l H. apply HC in H as (x & Hx & Hm). apply elem_of_list_fmap in Hx as (b & -> & Hb). eauto.
Qed.

Lemma own_none l t : type_key l t = None → own l t = None.
Proof. destruct t; try done; by destruct l. Qed.

Section order.
  Context (l : lang) (is : list item) (Hl : l ≠ LPython) (Hno : no_clash l is).
  Context (K : list string) (HK : known l ⊆ K).
  Context (Hss : l = LCSharp ∨ "ssize_t" ∈ K ∨ ∀ t, occurs t is → t ≠ TInt Isize ∧ ∀ n, t ≠ TEnum n (Some Isize)).

  Lemma legacy_id : legacy l = l.
  Proof. by destruct l. Qed.

  Lemma occurs_within t u : within t u → occurs u is → occurs t is.
  Proof. intros H (i & v & Hi & Hv & Hw). exists i, v. split; [done|]. split; [done|]. by eapply within_trans. Qed.

  (** Every name taken is that of a type whose mention is fine, except the
      names of the definitions in progress. *)
  Definition inv (P : list string) (s : st) : Prop :=
    (int_headers ∈ seen s → DInts ∈ out s) ∧ ("bool" ∈ seen s → DBool ∈ out s) ∧
    ∀ t k, occurs t is → type_key l t = Some k → k ∈ seen s → k ∈ P ∨ ready K l t (out s).

  Definition free (P : list string) (t : cty) : Prop :=
    ∀ u k, within u t → type_key l u = Some k → k ∉ P.

  Lemma key_ne t u k : occurs t is → within u t → size u < size t →
    type_key l t = Some k → type_key l u ≠ Some k.
  Proof.
    intros Ht Hw Hs Hk Hk'. assert (u = t); [|subst; lia].
    destruct Hno as [HI _]. eapply HI; try done. by eapply occurs_within.
  Qed.

  Lemma inv_emit P s d : inv P s → inv P (St (seen s) (out s ++ [d])).
  Proof.
    intros (H1 & H2 & H3). split; [|split]; cbn.
    - intros ?%H1. apply elem_of_app. by left.
    - intros ?%H2. apply elem_of_app. by left.
    - intros t k Ht Hk Hin. destruct (H3 t k Ht Hk Hin) as [?|?]; [by left|]. right. by apply ready_mono.
  Qed.

  Definition good (t : cty) : Prop :=
    ∀ P s s', occurs t is → free P t → inv P s → in_order K l (out s) → define l t s = Ok s' →
      inv P s' ∧ in_order K l (out s') ∧ ready K l t (out s').

  Lemma good_all ts : Forall good ts →
    ∀ P s s', (∀ t, t ∈ ts → occurs t is ∧ free P t) → inv P s → in_order K l (out s) →
      define_all l ts s = Ok s' →
      inv P s' ∧ in_order K l (out s') ∧ ∀ t, t ∈ ts → ready K l t (out s').
  Proof.
    induction 1 as [|t ts Ht _ IH]; intros P s s' Hts HI HO H; cbn in H.
    { simplify_eq. split; [done|]. split; [done|]. intros t Ht. by apply elem_of_nil in Ht. }
    apply bind_ok in H as (s1 & H1 & H2).
    destruct (Hts t ltac:(left)) as [Hoc Hfr].
    destruct (Ht P s s1) as (HI1 & HO1 & HR1); try done.
    destruct (IH P s1 s') as (HI2 & HO2 & HR2); try done.
    { intros u Hu. apply Hts. by right. }
    split; [done|]. split; [done|]. intros u [->|Hu]%elem_of_cons; [|by apply HR2].
    eapply ready_grows; [|exact HR1]. eapply define_all_grows; [|exact H2].
    apply Forall_forall. intros. by eapply define_grows.
  Qed.

  (** Entering and leaving the body of [define_once]. *)
  Lemma inv_enter P s k : k ≠ "bool" → k ≠ int_headers → inv P s → inv (k :: P) (St (k :: seen s) (out s)).
  Proof.
    intros Hb Hi (H1 & H2 & H3). split; [|split]; cbn.
    - intros [?|?]%elem_of_cons; [congruence|auto].
    - intros [?|?]%elem_of_cons; [congruence|auto].
    - intros t k' Ht Hk [->|Hin]%elem_of_cons; [left; left|].
      destruct (H3 t k' Ht Hk Hin) as [?|?]; [left; by right|by right].
  Qed.
  Lemma inv_leave P s k t : inv (k :: P) s → occurs t is → type_key l t = Some k →
    ready K l t (out s) → inv P s.
  Proof.
    intros (H1 & H2 & H3) Ht Hk HR. split; [done|]. split; [done|].
    intros u k' Hu Hk' Hin. destruct (H3 u k' Hu Hk' Hin) as [[->|?]%elem_of_cons|?]; [|by left|by right].
    right. destruct Hno as [HI _]. by rewrite (HI u t k).
  Qed.

  Lemma ready_known t ds : own l t = None → (∀ m, m ∈ mentioned l t → m ∈ known l) → ready K l t ds.
  Proof. intros Ho H. split; [|by rewrite Ho]. intros m Hm. left. by apply HK, H. Qed.

  Lemma provided_in d ds m : d ∈ ds → m ∈ type_names d → m ∈ provided ds.
  Proof.
    intros Hd Hm. unfold provided. apply elem_of_list_In, in_flat_map. exists d.
    split; by apply elem_of_list_In.
  Qed.

  (** [#include]s. *)
  Lemma good_include P s s' k d :
    declares d = [] → mentions l d = [] →
    (k = int_headers ∧ d = DInts ∨ k = "bool" ∧ d = DBool) →
    inv P s → in_order K l (out s) → define_once k (emit d) s = Ok s' →
    inv P s' ∧ in_order K l (out s') ∧ d ∈ out s'.
  Proof.
    intros Hd Hm Hkd HI HO H. unfold define_once in H. case_bool_decide as Hin.
    - simplify_eq. split; [done|]. split; [done|]. destruct HI as (H1 & H2 & _).
      destruct Hkd as [[-> ->]|[-> ->]]; auto.
    - injection H as <-. cbn. split; [|split].
      + destruct HI as (H1 & H2 & H3). split; [|split]; cbn.
        * intros [Hk|?%H1]%elem_of_cons; apply elem_of_app; [|by left].
          right. apply elem_of_list_singleton. destruct Hkd as [[-> ->]|[-> ->]]; done.
        * intros [Hk|?%H2]%elem_of_cons; apply elem_of_app; [|by left].
          right. apply elem_of_list_singleton. destruct Hkd as [[-> ->]|[-> ->]]; done.
        * intros t k' Ht Hk' [->|Hin']%elem_of_cons.
          { apply type_key_other in Hk' as [? ?]. naive_solver. }
          destruct (H3 t k' Ht Hk' Hin') as [?|?]; [by left|]. right. by apply ready_mono.
      + apply in_order_snoc; [done|]. rewrite Hm. intros m Hm'. by apply elem_of_nil in Hm'.
      + apply elem_of_app. right. set_solver.
  Qed.

  Lemma good_ints P s s' : inv P s → in_order K l (out s) → define_int l s = Ok s' →
    inv P s' ∧ in_order K l (out s') ∧ ∀ i, l = LCSharp ∨ "ssize_t" ∈ K ∨ i ≠ Isize → ready K l (TInt i) (out s').
  Proof.
    intros HI HO H. destruct l eqn:El; [| |done]; rewrite <-El in *.
    - rewrite El in H. cbn in H. apply (good_include P) in H as (J1 & J2 & J3); [|by rewrite ?El|by rewrite ?El|by left|done..].
      split; [done|]. split; [done|].
      intros i Hi. split; [|by rewrite own_none]. intros m Hm. rewrite El in Hm.
      apply elem_of_list_singleton in Hm as ->.
      destruct i; try (right; eapply provided_in; [done|]; cbn; set_solver). left. rewrite El in Hi. by destruct Hi as [|[]].
    - rewrite El in H. cbn in H. simplify_eq. split; [done|]. split; [done|].
      intros i _. apply ready_known; [by apply own_none|]. rewrite El. cbn. intros m ->%elem_of_list_singleton. destruct i; set_solver.
  Qed.

  Lemma good_bool : good TBool.
  Proof.
    intros P s s' Hoc Hf HI HO H. destruct l eqn:El; [| |done]; rewrite <-El in *.
    - rewrite El in H. cbn in H. apply (good_include P) in H as (J1 & J2 & J3); [|by rewrite ?El|by rewrite ?El|by right|done..].
      split; [done|]. split; [done|].
      split; [|by rewrite own_none]. intros m Hm. right. eapply provided_in; [done|]. rewrite El in Hm.
      apply elem_of_list_singleton in Hm as ->. cbn. set_solver.
    - rewrite El in H. cbn in H. simplify_eq. split; [done|]. split; [done|].
      apply ready_known; [by apply own_none|]. rewrite El. cbn. intros m ->%elem_of_list_singleton. set_solver.
  Qed.

  (** A type that is defined by a declaration carrying its name. *)
  Lemma good_named P s s' k t body :
    type_key l t = Some k → occurs t is → free P t → inv P s → in_order K l (out s) →
    (∀ s1, k ∉ seen s → inv (k :: P) (St (k :: seen s) (out s)) → body (St (k :: seen s) (out s)) = Ok s1 →
       inv (k :: P) s1 ∧ in_order K l (out s1) ∧ ready K l t (out s1)) →
    define_once k body s = Ok s' →
    inv P s' ∧ in_order K l (out s') ∧ ready K l t (out s').
  Proof.
    intros Hk Hoc Hf HI HO HB H.
    unfold define_once in H. case_bool_decide as Hin.
    - simplify_eq. split; [done|]. split; [done|]. destruct HI as (_ & _ & HI).
      destruct (HI t k Hoc Hk Hin) as [Hc|?]; [|done]. destruct (Hf t k); [constructor|done..].
    - pose proof (type_key_other _ _ _ Hk) as [? ?].
      destruct (HB s' Hin) as (K1 & K2 & K3); [by apply inv_enter|done|]. split; [|done]. by eapply inv_leave.
  Qed.

  Lemma emit_named P s s' k t d :
    emit d s = Ok s' → inv P s → in_order K l (out s) →
    (∀ m, m ∈ mentions l d → m ∈ K ∨ m ∈ provided (out s)) →
    type_names d = [k] → mentioned l t = [k] → (∀ d', own l t = Some d' → d' = d) →
    inv P s' ∧ in_order K l (out s') ∧ ready K l t (out s').
  Proof.
    intros [= <-] HI HO Hm Ht Hk Hd. cbn. split; [|split; [|split]].
    - by apply inv_emit.
    - by apply in_order_snoc.
    - intros m. rewrite Hk, elem_of_list_singleton. intros ->. right.
      eapply (provided_in d); [|by rewrite Ht; left]. apply elem_of_app. right. left.
    - intros d' ->%Hd. apply elem_of_app. right. left.
  Qed.

  Lemma free_sub P t u : within u t → free P t → free P u.
  Proof. intros H Hf v k Hv. apply Hf. by eapply within_trans. Qed.
  Lemma free_enter P t u k : occurs t is → within u t → size u < size t → type_key l t = Some k →
    free P t → free (k :: P) u.
  Proof.
    intros Hoc Hw Hs Hk Hf v k' Hv Hk' [->|Hin]%elem_of_cons.
    - eapply (key_ne t v); try done.
      + by eapply within_trans.
      + pose proof (within_size _ _ Hv). lia.
    - eapply Hf; [|exact Hk'|exact Hin]. by eapply within_trans.
  Qed.

  Lemma define_good t : good t.
  Proof.
    induction t as [i|d| | | | |c t IH|t n IH|r args IHr IHa|n gs fs _ IHf|n i|n t IH|n] using cty_ind'.
    - intros P s s' Hoc Hf HI HO H. destruct (good_ints P s s' HI HO H) as (J1 & J2 & J3).
      split; [done|]. split; [done|]. apply J3. destruct Hss as [?|[?|Hn]]; [by left|by right; left|]. do 2 right. intros ->. by destruct (Hn _ Hoc).
    - intros P s s' _ _ HI HO [= <-]. split; [done|]. split; [done|]. apply ready_known; [by apply own_none|].
      destruct l; [| |done]; destruct d; cbn; intros m ->%elem_of_list_singleton; set_solver.
    - intros P s s' _ _ HI HO [= <-]. split; [done|]. split; [done|]. apply ready_known; [by apply own_none|].
      destruct l; [| |done]; cbn; intros m ->%elem_of_list_singleton; set_solver.
    - apply good_bool.
    - intros P s s' _ _ HI HO [= <-]. split; [done|]. split; [done|]. apply ready_known; [by apply own_none|].
      destruct l; [| |done]; cbn; intros m ->%elem_of_list_singleton; set_solver.
    - intros P s s' _ _ HI HO [= <-]. split; [done|]. split; [done|]. apply ready_known; [by apply own_none|].
      destruct l; [| |done]; cbn; intros m ->%elem_of_list_singleton; set_solver.
    - (* pointers *)
      intros P s s' Hoc Hf HI HO H. cbn [define] in H. rewrite legacy_id in H.
      assert (Hw : within t (TPtr c t)) by (do 2 constructor).
      destruct (IH P s s') as (H1 & H2 & H3); try done.
      { by eapply occurs_within. } { by eapply free_sub. }
      split; [done|]. split; [done|]. split; [|by rewrite own_none]. intros m Hm.
      apply mentioned_ptr in Hm as [?|?]; [by apply H3|by left; apply HK|done].
    - (* arrays *)
      intros P s s' Hoc Hf HI HO H.
      assert (Hw : within t (TArr t n)) by (do 2 constructor).
      assert (Hk : type_key l (TArr t n) = Some (suffixed (short (TArr t n)))) by done.
      assert (Hme : mentioned l (TArr t n) = [suffixed (short (TArr t n))]) by (by destruct l).
      cbn [define] in H. destruct l eqn:El; [| |done]; rewrite <-El in *.
      + eapply good_named; [exact Hk|done..| |exact H]. intros s1 Hn He H1.
        apply bind_ok in H1 as (s2 & H1 & H2).
        destruct (IH (suffixed (short (TArr t n)) :: P) _ _ ltac:(by eapply occurs_within)
          ltac:(eapply free_enter; [done|done|cbn; lia|done|done]) He HO H1) as (I1 & I2 & I3).
        eapply emit_named; [exact H2|done|done|by apply I3|done|exact Hme|rewrite El; intros ? [= <-]; done].
      + apply bind_ok in H as (s1 & H1 & H2).
        destruct (IH P _ _ ltac:(by eapply occurs_within) ltac:(by eapply free_sub) HI HO H1) as (I1 & I2 & I3).
        eapply good_named; [exact Hk|done..| |exact H2]. intros s2 Hn He H3.
        eapply emit_named; [exact H3|done|done|by apply I1 || apply I3|done|exact Hme|rewrite El; intros ? [= <-]; done].
    - (* function pointers *)
      intros P s s' Hoc Hf HI HO H. rewrite define_fn, legacy_id in H.
      apply bind_ok in H as (s1 & H1 & H). apply bind_ok in H as (s2 & H2 & H).
      assert (Hwr : within r (TFn r args)) by (apply W_ret; constructor).
      assert (Hwa : ∀ a, a ∈ args → within a (TFn r args)).
      { intros a Ha. eapply W_arg; [done|constructor]. }
      destruct (IHr P s s1) as (I1 & I2 & I3); try done.
      { by eapply occurs_within. } { by eapply free_sub. }
      destruct (good_all args IHa P s1 s2) as (J1 & J2 & J3); try done.
      { intros a Ha. split; [by eapply occurs_within; [apply Hwa|]|by eapply free_sub; [apply Hwa|]]. }
      assert (I3' : ready K l r (out s2)).
      { eapply ready_grows; [|exact I3]. eapply define_all_grows; [|exact H2].
        apply Forall_forall. intros. by eapply define_grows. }
      destruct l eqn:El; [| |done]; rewrite <-El in *.
      + simplify_eq. split; [done|]. split; [done|]. split; [|by rewrite El]. intros m Hm. rewrite El in Hm.
        apply mentioned_fn in Hm as [Hm|[(a & Ha & Hm)|Hm]]; rewrite <-El in Hm.
        * by apply I3'.
        * by apply (J3 a).
        * left. by apply HK.
      + eapply (good_named P s2 s' (short (TFn r args))); [by rewrite El|done..| |exact H].
        intros s3 Hn He H3. eapply emit_named; [exact H3|done|done| |done|by rewrite El|by rewrite El].
        cbn [mentions]. intros m. rewrite elem_of_app. intros [Hm|Hm]; [by apply I3'|].
        apply elem_of_list_In, in_flat_map in Hm as (a & Ha & Hm).
        apply (J3 a); by apply elem_of_list_In.
    - (* structs *)
      intros P s s' Hoc Hf HI HO H. rewrite define_struct in H.
      set (t := TStruct n gs fs) in *.
      assert (Hwf : ∀ f a, (f, a) ∈ fs → within a t).
      { intros f a Ha. eapply W_field; [done|constructor]. }
      assert (Hk : type_key l t = Some (suffixed (short t))) by done.
      assert (Hme : mentioned l t = [suffixed (short t)]) by (by destruct l).
      eapply good_named; [exact Hk|done..| |exact H]. intros s1 Hn He H1.
      apply bind_ok in H1 as (s2 & H1 & H2).
      destruct (zst t); [done|].
      destruct (good_all (map snd fs)) with (P := suffixed (short t) :: P)
        (s := St (suffixed (short t) :: seen s) (out s)) (s' := s2) as (J1 & J2 & J3); try done.
      { by apply Forall_map. }
      { intros a Ha. apply elem_of_list_fmap in Ha as ([f a'] & -> & Ha). cbn.
        split; [by eapply occurs_within; [by eapply Hwf|]|].
        eapply free_enter; [done|by eapply Hwf|by eapply size_field|done..]. }
      eapply emit_named; [exact H2|done|done| |done|exact Hme|destruct l; [| |done]; intros ? [= <-]; done].
      cbn [mentions]. intros m Hm. apply elem_of_list_In, in_flat_map in Hm as ([f a] & Ha & Hm).
      apply elem_of_list_In, elem_of_list_filter in Ha as [_ Ha].
      apply (J3 a); [|by apply elem_of_list_In]. apply elem_of_list_fmap. by exists (f, a).
    - (* enums *)
      intros P s s' Hoc Hf HI HO H. cbn [define] in H.
      assert (Hk : type_key l (TEnum n i) = Some (suffixed n)) by done.
      assert (Hme : mentioned l (TEnum n i) = [suffixed n]) by (by destruct l).
      eapply good_named; [exact Hk|done..| |exact H]. intros s1 Hn He H1.
      apply bind_ok in H1 as (s2 & H1 & H2).
      destruct (good_ints _ _ _ He HO H1) as (J1 & J2 & J3).
      eapply emit_named; [exact H2|done|done| |done|exact Hme|destruct l; [| |done]; intros ? [= <-]; done].
      cbn [mentions]. destruct i as [i|]; [|intros m Hm; by apply elem_of_nil in Hm].
      apply J3. destruct Hss as [?|[?|HH]]; [by left|by right; left|]. do 2 right. intros ->. destruct (HH _ Hoc) as [_ HH']. by apply (HH' n).
    - (* aliases *)
      intros P s s' Hoc Hf HI HO H. cbn [define] in H.
      assert (Hw : within t (TAlias n t)) by (do 2 constructor).
      assert (Hk : type_key l (TAlias n t) = Some (suffixed n)) by done.
      eapply good_named; [exact Hk|done..| |exact H]. intros s1 Hn He H1.
      apply bind_ok in H1 as (s2 & H1 & H2).
      destruct (IH (suffixed n :: P) _ _ ltac:(by eapply occurs_within)
        ltac:(eapply free_enter; [done|done|cbn; lia|done|done]) He HO H1) as (I1 & I2 & I3).
      destruct l eqn:El; [| |done]; rewrite <-El in *.
      + eapply emit_named; [exact H2|done|done|by apply I3|done|by rewrite El|rewrite El; intros ? [= <-]; done].
      + simplify_eq. split; [done|]. split; [done|]. split; [|by rewrite El]. intros m Hm. rewrite El in Hm. cbn in Hm.
        apply I3. by rewrite El.
    - (* opaque types *)
      intros P s s' Hoc Hf HI HO H. cbn [define] in H.
      eapply good_named; [done|done..| |exact H]. intros s1 Hn He H1.
      eapply emit_named; [exact H1|done|done| |done|by destruct l|destruct l; [| |done]; intros ? [= <-]; done].
      intros m Hm. by apply elem_of_nil in Hm.
  Qed.

  Lemma free_nil t : free [] t.
  Proof. intros u k _ _ H. by apply elem_of_nil in H. Qed.

  Lemma gen_def_good i s s' : i ∈ is → inv [] s → in_order K l (out s) → gen_def l i s = Ok s' →
    inv [] s' ∧ in_order K l (out s') ∧
    ∀ d, exempt l i = false → own_decl i = Some d → d ∈ out s'.
  Proof.
    intros Hi HI HO H.
    assert (Hoc : ∀ t, t ∈ item_types i → occurs t is).
    { intros t Ht. exists i, t. split; [done|]. split; [done|constructor]. }
    destruct i as [n args r|n t u|n t]; cbn [gen_def] in H.
    - case_bool_decide as Hn; [done|].
      apply bind_ok in H as (s1 & H1 & H). apply bind_ok in H as (s2 & H2 & H).
      destruct (good_all (map snd args)) with (P := @nil string) (s := St (n :: seen s) (out s)) (s' := s1)
        as (J1 & J2 & J3); try done.
      { apply Forall_forall. intros t _. apply define_good. }
      { intros t Ht. split; [|apply free_nil]. apply Hoc. cbn. apply elem_of_app. by left. }
      { destruct Hno as [_ HN]. destruct (HN _ _ _ Hi) as (Hb & Hh & Hk). destruct HI as (K1 & K2 & K3).
        split; [|split]; cbn.
        - intros [?|?]%elem_of_cons; [by destruct Hh; subst|auto].
        - intros [?|?]%elem_of_cons; [congruence|auto].
        - intros t k Ht Hk' [->|?]%elem_of_cons; [by destruct (Hk t)|eauto]. }
      assert (Hr : occurs r is). { apply Hoc. cbn. apply elem_of_app. right. left. }
      destruct (define_good r [] s1 s2 Hr (free_nil _) J1 J2 H2) as (I1 & I2 & I3).
      injection H as <-. split; [by apply inv_emit|].
      split; [|intros d _ [= <-]; apply elem_of_app; right; left]. apply in_order_snoc; [done|].
      cbn [mentions]. intros m. rewrite elem_of_app. intros [Hm|Hm]; [|by apply I3].
      apply elem_of_list_In, in_flat_map in Hm as ([f a] & Ha & Hm).
      eapply ready_grows; [by eapply define_grows|apply (J3 a)|by apply elem_of_list_In].
      apply elem_of_list_fmap. exists (f, a). split; [done|by apply elem_of_list_In].
    - apply bind_ok in H as (s1 & H1 & H).
      destruct (define_good t [] s s1) as (I1 & I2 & I3); try done; [apply Hoc; left|apply free_nil|].
      assert (E : s' = s1 ∧ exempt l (IConst n t u) = true ∨ emit (DConst n t) s1 = Ok s').
      { destruct l, u; try (by right); left; by simplify_eq. }
      destruct E as [[-> E]|E]; [by rewrite E|]. injection E as <-.
      split; [by apply inv_emit|]. split; [by apply in_order_snoc; [|apply I3]|].
      intros d _ [= <-]. apply elem_of_app. right. left.
    - destruct (define_good t [] s s') as (I1 & I2 & I3); try done; [apply Hoc; left|apply free_nil|].
      split; [done|]. split; [done|]. intros d He Hd. apply I3.
      destruct l; [exact Hd| |done]. by destruct t.
  Qed.

  Lemma gen_all_good js s s' : js ⊆ is → inv [] s → in_order K l (out s) → gen_all l js s = Ok s' →
    inv [] s' ∧ in_order K l (out s') ∧
    ∀ i d, i ∈ js → exempt l i = false → own_decl i = Some d → d ∈ out s'.
  Proof.
    revert s. induction js as [|i js IH]; intros s Hjs HI HO H; cbn in H.
    { simplify_eq. split; [done|]. split; [done|]. intros i d Hi. by apply elem_of_nil in Hi. }
    apply bind_ok in H as (s1 & H1 & H).
    apply gen_def_good in H1 as (I1 & I2 & I3); [|set_solver|done|done].
    destruct (IH s1) as (J1 & J2 & J3); [set_solver|done..|].
    split; [done|]. split; [done|]. intros j d [->|Hj]%elem_of_cons He Hd; [|by eapply J3].
    apply gen_all_grows in H as (new & -> & _). apply elem_of_app. left. by apply I3.
  Qed.
End order.

Lemma in_order_nil K l : in_order K l [].
Proof. intros i d m Hi. by rewrite lookup_nil in Hi. Qed.

(** The items a header is generated from. *)
Definition listed (stable : bool) (is : list item) : list item := if stable then btree is else rev is.

Lemma btree_insert_sub i m : btree_insert i m ⊆ i :: m.
Proof.
  induction m as [|j m IH]; cbn; [done|]. destruct (String.compare _ _); set_solver.
Qed.
Lemma btree_sub is : btree is ⊆ is.
Proof.
  unfold btree. assert (H : ∀ m, fold_left (λ m i, btree_insert i m) is m ⊆ is ++ m).
  { induction is as [|i is IH]; intros m; cbn; [done|].
    pose proof (btree_insert_sub i m). specialize (IH (btree_insert i m)). set_solver. }
  specialize (H []). by rewrite app_nil_r in H.
Qed.
Lemma listed_sub stable is : listed stable is ⊆ is.
Proof.
  destruct stable; [apply btree_sub|]. intros i. cbn. rewrite !elem_of_list_In. apply in_rev.
Qed.

Lemma write_body_good l stable is K s :
  l ≠ LPython → no_clash l is → known l ⊆ K →
  (l = LCSharp ∨ "ssize_t" ∈ K ∨ ∀ t, occurs t is → t ≠ TInt Isize ∧ ∀ n, t ≠ TEnum n (Some Isize)) →
  write_body l stable is = Ok s →
  in_order K l (out s) ∧
  ∀ i d, i ∈ listed stable is → exempt l i = false → own_decl i = Some d → d ∈ out s.
Proof.
  intros Hl Hno HK Hss H. eapply (gen_all_good l is Hl Hno K HK Hss) in H as (_ & ? & ?); [done|..].
  - apply listed_sub.
  - split; [|split]; cbn; intros; set_solver.
  - apply in_order_nil.
Qed.

(** ** Constants *)

Definition const_names (ds : list decl) : list string :=
  flat_map (λ d, match d with DConst n _ => [n] | _ => [] end) ds.

Lemma once_consts k body s s' :
  (∀ s1, body (St (k :: seen s) (out s)) = Ok s1 → const_names (out s1) = const_names (out s)) →
  define_once k body s = Ok s' → const_names (out s') = const_names (out s).
Proof. unfold define_once. intros HB H. case_bool_decide; [by simplify_eq|by apply HB]. Qed.
Lemma emit_consts d s s' : (∀ n t, d ≠ DConst n t) → emit d s = Ok s' →
  const_names (out s') = const_names (out s).
Proof.
  intros Hd [= <-]. cbn. unfold const_names. rewrite flat_map_app. destruct d; cbn; try by rewrite app_nil_r.
  by destruct (Hd name ty).
Qed.
Lemma define_all_consts l ts :
  Forall (λ t, ∀ l s s', define l t s = Ok s' → const_names (out s') = const_names (out s)) ts →
  ∀ s s', define_all l ts s = Ok s' → const_names (out s') = const_names (out s).
Proof.
  induction 1 as [|t ts Ht _ IH]; intros s s' H; cbn in H; [by simplify_eq|].
  apply bind_ok in H as (s1 & H1 & H2). erewrite IH by done. by eapply Ht.
Qed.
Lemma define_int_consts l s s' : define_int l s = Ok s' → const_names (out s') = const_names (out s).
Proof.
  unfold define_int. intros H. destruct l; [|by simplify_eq|];
    (eapply once_consts; [|exact H]; intros s1 H1; by apply emit_consts in H1).
Qed.
Lemma define_consts t : ∀ l s s', define l t s = Ok s' → const_names (out s') = const_names (out s).
Proof.
  induction t as [i|d| | | | |c t IH|t n IH|r args IHr IHa|n gs fs _ IHf|n i|n t IH|n] using cty_ind';
    intros l s s' H.
  - by eapply define_int_consts.
  - by simplify_eq/=.
  - by simplify_eq/=.
  - cbn in H. destruct l; [|by simplify_eq|];
      (eapply once_consts; [|exact H]; intros s1 H1; by apply emit_consts in H1).
  - by simplify_eq/=.
  - by simplify_eq/=.
  - cbn in H. by eapply IH.
  - cbn [define] in H. destruct l.
    + eapply once_consts; [|exact H]. intros s1 H1. apply bind_ok in H1 as (s2 & H1 & H2).
      apply emit_consts in H2 as ->; [|done]. by apply IH in H1.
    + apply bind_ok in H as (s2 & H1 & H2). apply IH in H1 as <-.
      eapply once_consts; [|exact H2]. intros s1 H3. by apply emit_consts in H3.
    + eapply once_consts; [|exact H]. intros s1 H1. apply bind_ok in H1 as (s2 & H1 & H2).
      apply emit_consts in H2 as ->; [|done]. by apply IH in H1.
  - rewrite define_fn in H. apply bind_ok in H as (s1 & H1 & H). apply bind_ok in H as (s2 & H2 & H).
    apply IHr in H1 as <-. eapply define_all_consts in H2 as <-; [|done].
    destruct l; [by simplify_eq| |by simplify_eq].
    eapply once_consts; [|exact H]. intros s3 H3. by apply emit_consts in H3.
  - rewrite define_struct in H.
    eapply once_consts; [|exact H]. intros s1 H1. apply bind_ok in H1 as (s2 & H1 & H2).
    destruct (zst _); [done|]. apply emit_consts in H2 as ->; [|done].
    eapply define_all_consts in H1; [done|]. by apply Forall_map.
  - cbn [define] in H.
    eapply once_consts; [|exact H]. intros s1 H1. apply bind_ok in H1 as (s2 & H1 & H2).
    apply emit_consts in H2 as ->; [|done]. by apply define_int_consts in H1.
  - cbn [define] in H.
    eapply once_consts; [|exact H]. intros s1 H1. apply bind_ok in H1 as (s2 & H1 & H2).
    destruct l; [|simplify_eq; by apply IH in H1..].
    apply emit_consts in H2 as ->; [|done]. by apply IH in H1.
  - cbn [define] in H.
    eapply once_consts; [|exact H]. intros s1 H1. by apply emit_consts in H1.
Qed.

Definition item_const (l : lang) (i : item) : list string :=
  match i with IConst n _ _ => if exempt l i then [] else [n] | _ => [] end.

Lemma gen_def_consts l i s s' : gen_def l i s = Ok s' →
  const_names (out s') = const_names (out s) ++ item_const l i.
Proof.
  destruct i as [n args r|n t u|n t]; cbn [gen_def]; intros H.
  - case_bool_decide; [done|]. apply bind_ok in H as (s1 & H1 & H). apply bind_ok in H as (s2 & H2 & H).
    apply emit_consts in H as ->; [|done]. apply define_consts in H2 as ->.
    eapply define_all_consts in H1 as ->; [cbn; by rewrite app_nil_r|].
    apply Forall_forall. intros. by eapply define_consts.
  - apply bind_ok in H as (s1 & H1 & H). apply define_consts in H1 as <-.
    assert (E : s' = s1 ∧ exempt l (IConst n t u) = true ∨
                emit (DConst n t) s1 = Ok s' ∧ exempt l (IConst n t u) = false).
    { destruct l, u; try (by right); left; by simplify_eq. }
    unfold item_const. destruct E as [[-> ->]|[E ->]]; [by rewrite app_nil_r|].
    injection E as <-. cbn. unfold const_names. by rewrite flat_map_app.
  - apply define_consts in H as ->. by rewrite app_nil_r.
Qed.
Lemma gen_all_consts l is s s' : gen_all l is s = Ok s' →
  const_names (out s') = const_names (out s) ++ flat_map (item_const l) is.
Proof.
  revert s. induction is as [|i is IH]; intros s H; cbn in H; [simplify_eq; by rewrite app_nil_r|].
  apply bind_ok in H as (s1 & H1 & H). rewrite (IH _ H), (gen_def_consts _ _ _ _ H1). cbn.
  by rewrite app_assoc.
Qed.

(** ** The sorted map *)

Lemma compare_refl s : String.compare s s = Eq.
Proof. induction s as [|c s IH]; [done|]. cbn. unfold Ascii.compare. by rewrite N.compare_refl. Qed.
Lemma compare_eq a b : String.compare a b = Eq → a = b.
Proof. apply String.compare_eq_iff. Qed.
Lemma compare_cons c a d b : String.compare (String c a) (String d b) =
  match (N_of_ascii c ?= N_of_ascii d)%N with Eq => String.compare a b | o => o end.
Proof. done. Qed.
Lemma compare_trans a b c : String.compare a b = Lt → String.compare b c = Lt → String.compare a c = Lt.
Proof.
  revert b c. induction a as [|x a IH]; intros [|y b] [|z c] H1 H2; try done.
  rewrite compare_cons in *.
  destruct (N.compare_spec (N_of_ascii x) (N_of_ascii y)) as [E1|E1|E1]; [| |done];
  destruct (N.compare_spec (N_of_ascii y) (N_of_ascii z)) as [E2|E2|E2]; try done.
  - rewrite E1, E2, N.compare_refl. by eapply IH.
  - assert (N_of_ascii x < N_of_ascii z)%N as -> by lia. done.
  - assert (N_of_ascii x < N_of_ascii z)%N as -> by lia. done.
  - assert (N_of_ascii x < N_of_ascii z)%N as -> by lia. done.
Qed.
Lemma compare_anti a b : String.compare a b = CompOpp (String.compare b a).
Proof. apply String.compare_antisym. Qed.

Lemma insert_comm i j m : item_name i ≠ item_name j →
  btree_insert i (btree_insert j m) = btree_insert j (btree_insert i m).
Proof.
  intros Hne.
  assert (Hij : String.compare (item_name i) (item_name j) ≠ Eq) by (by intros ?%compare_eq).
  pose proof (compare_anti (item_name i) (item_name j)) as HA.
  induction m as [|k m IH]; cbn [btree_insert].
  { rewrite HA in Hij |- *. by destruct (String.compare (item_name j) (item_name i)). }
  pose proof (compare_anti (item_name i) (item_name k)) as HAi.
  pose proof (compare_anti (item_name j) (item_name k)) as HAj.
  destruct (String.compare (item_name i) (item_name k)) eqn:Ei;
  destruct (String.compare (item_name j) (item_name k)) eqn:Ej; cbn [btree_insert].
  - apply compare_eq in Ei, Ej. congruence.
  - apply compare_eq in Ei. rewrite <-Ei in Ej. rewrite Ej, HA, Ej. cbn. rewrite Ei, compare_refl. done.
  - apply compare_eq in Ei. rewrite <-Ei in Ej. rewrite Ej, Ei, compare_refl. done.
  - apply compare_eq in Ej. rewrite <-Ej in Ei. rewrite Ei.
    destruct (String.compare (item_name j) (item_name i)) eqn:Eji; rewrite Ei in HA; try done.
    rewrite Ej, compare_refl. done.
  - rewrite Ei, Ej. rewrite HA in Hij |- *. by destruct (String.compare (item_name j) (item_name i)).
  - rewrite Ei.
    assert (String.compare (item_name i) (item_name j) = Lt) as E.
    { eapply compare_trans; [exact Ei|]. rewrite compare_anti. by rewrite Ej. }
    rewrite E in HA. destruct (String.compare (item_name j) (item_name i)); try done. by rewrite Ej.
  - apply compare_eq in Ej. rewrite <-Ej in Ei. rewrite Ei, Ej, compare_refl. done.
  - rewrite Ej.
    assert (String.compare (item_name j) (item_name i) = Lt) as E.
    { eapply compare_trans; [exact Ej|]. rewrite compare_anti. by rewrite Ei. }
    rewrite E in HA. rewrite HA. cbn. by rewrite Ei.
  - rewrite Ei, Ej. by rewrite IH.
Qed.

Lemma btree_perm_eq is js : NoDup (map item_name is) → Permutation is js → btree is = btree js.
Proof.
  intros Hnd HP. unfold btree. generalize (@nil item) as m.
  revert Hnd. induction HP as [|x l l' HP IH|x y l|l1 l2 l3 HP1 IH1 HP2 IH2]; intros Hnd m; cbn in *.
  - done.
  - apply NoDup_cons in Hnd as [_ Hnd]. by apply IH.
  - rewrite insert_comm; [done|]. apply NoDup_cons in Hnd as [Hn _]. set_solver.
  - rewrite IH1 by done. apply IH2. by rewrite <-HP1.
Qed.

Lemma btree_insert_perm i m : item_name i ∉ map item_name m → Permutation (btree_insert i m) (i :: m).
Proof.
  induction m as [|j m IH]; cbn; intros Hn; [done|].
  destruct (String.compare _ _) eqn:E.
  - apply compare_eq in E. set_solver.
  - done.
  - rewrite IH by set_solver. constructor.
Qed.
Lemma btree_perm is : NoDup (map item_name is) → Permutation (btree is) is.
Proof.
  intros Hnd. unfold btree.
  assert (H : ∀ m, NoDup (map item_name is) → (∀ i, i ∈ is → item_name i ∉ map item_name m) →
    Permutation (fold_left (λ m i, btree_insert i m) is m) (is ++ m)).
  { clear Hnd. induction is as [|i is IH]; intros m Hnd Hm; cbn; [done|].
    cbn in Hnd. apply NoDup_cons in Hnd as [Hi Hnd].
    assert (HP : Permutation (btree_insert i m) (i :: m)) by (apply btree_insert_perm, Hm; left).
    rewrite IH; [|done|].
    - rewrite HP. by rewrite Permutation_middle.
    - intros j Hj. rewrite HP. cbn. intros [E|E]%elem_of_cons.
      + destruct Hi. rewrite <-E. apply elem_of_list_fmap. eauto.
      + by apply (Hm j); [right|]. }
  rewrite H; [by rewrite app_nil_r|done|]. intros i _ Hi. by apply elem_of_nil in Hi.
Qed.
Lemma listed_perm stable is : NoDup (map item_name is) → Permutation (listed stable is) is.
Proof. destruct stable; [apply btree_perm|]. intros _. symmetry. apply Permutation_rev. Qed.

(** ** Exactly once *)

Lemma NoDup_flat_map_once {A B} (f : A → list B) ds i j d :
  NoDup (flat_map f ds) → f d ≠ [] → ds !! i = Some d → ds !! j = Some d → i = j.
Proof.
  revert i j. induction ds as [|e ds IH]; intros i j Hnd Hd Hi Hj; [done|].
  cbn in Hnd. apply NoDup_app in Hnd as (_ & Hx & Hnd).
  assert (HN : ∀ k, ds !! k = Some d → e ≠ d).
  { intros k Hk ->. destruct (f d) as [|b bs] eqn:E; [done|].
    apply (Hx b); [left|]. apply elem_of_list_In, in_flat_map. exists d.
    split; [apply elem_of_list_In; by eapply elem_of_list_lookup_2|]. rewrite E. by left. }
  destruct i as [|i], j as [|j]; cbn in Hi, Hj; [done| | |].
  - simplify_eq. by apply HN in Hj.
  - simplify_eq. by apply HN in Hi.
  - f_equal. by eapply IH.
Qed.

Lemma sublist_NoDup' {A} (l k : list A) : sublist l k → NoDup k → NoDup l.
Proof.
  induction 1 as [|x l k H IH|x l k H IH]; intros Hnd; [done|..]; apply NoDup_cons in Hnd as [Hx Hnd]; [|by apply IH].
  constructor; [|by apply IH]. intros Hin. destruct Hx. clear -Hin H. induction H; set_solver.
Qed.
Lemma item_const_names l is : sublist (flat_map (item_const l) is) (map item_name is).
Proof.
  induction is as [|i is IH]; cbn; [constructor|].
  destruct i as [n args r|n t u|n t]; cbn [item_const app]; [by constructor| |by constructor].
  destruct (exempt _ _); cbn; by constructor.
Qed.

Lemma write_body_once l stable is s :
  write_body l stable is = Ok s → NoDup (flat_map declares (out s)).
Proof.
  intros H. apply gen_all_grows in H as (new & -> & _ & Hnd & _). by cbn.
Qed.

Lemma write_body_item l stable is s i d :
  l ≠ LPython → no_clash l is → NoDup (map item_name is) → write_body l stable is = Ok s →
  i ∈ is → exempt l i = false → own_decl i = Some d →
  ∃ k, out s !! k = Some d ∧ ∀ j, out s !! j = Some d → j = k.
Proof.
  intros Hl Hno Hnd H Hi He Hd.
  destruct (write_body_good l stable is ("ssize_t" :: known l) s) as [_ HX]; try done.
  { set_solver. } { right. left. left. }
  specialize (HX i d). destruct (elem_of_list_lookup_1 (out s) d) as [k Hk].
  { apply HX; [|done..]. by rewrite (listed_perm stable is Hnd). }
  exists k. split; [done|]. intros j Hj.
  destruct (declares d) as [|n ns] eqn:E.
  - assert (Hc : ∃ n t, d = DConst n t).
    { destruct i as [| |? []]; cbn in Hd; simplify_eq; cbn in E; try done. eauto. }
    destruct Hc as (n & t & ->).
    eapply (NoDup_flat_map_once (λ d, match d with DConst n _ => [n] | _ => [] end) (out s) j k (DConst n t));
      [|cbn; congruence|exact Hj|exact Hk].
    change (NoDup (const_names (out s))). unfold write_body in H. change (gen_all l (listed stable is) (St [] []) = Ok s) in H.
    rewrite (gen_all_consts _ _ _ _ H). cbn.
    eapply sublist_NoDup'; [apply item_const_names|].
    by rewrite (listed_perm stable is Hnd).
  - eapply (NoDup_flat_map_once declares); [by eapply write_body_once|by rewrite E|done..].
Qed.

(** ** Functions of the same name *)

Definition fn_names (is : list item) : list string :=
  flat_map (λ i, match i with IFn n _ _ => [n] | _ => [] end) is.

Lemma gen_def_seen l i s s' n : gen_def l i s = Ok s' → n ∈ fn_names [i] → n ∉ seen s ∧ n ∈ seen s'.
Proof.
  destruct i as [m args r| |]; cbn [gen_def fn_names flat_map app]; intros H Hn;
    [|by apply elem_of_nil in Hn..].
  apply elem_of_list_singleton in Hn as ->.
  case_bool_decide as Hm; [done|]. split; [done|].
  apply bind_ok in H as (s3 & H3 & H1). apply bind_ok in H1 as (s4 & H4 & H1). injection H1 as <-. cbn.
  apply define_grows in H4 as (_ & _ & Hs4 & _). apply Hs4.
  eapply define_all_grows in H3 as (_ & _ & Hs3 & _).
  - apply Hs3. left.
  - apply Forall_forall. intros. by eapply define_grows.
Qed.
Lemma gen_all_fns l is s s' : gen_all l is s = Ok s' →
  NoDup (fn_names is) ∧ ∀ n, n ∈ fn_names is → n ∉ seen s.
Proof.
  revert s. induction is as [|i is IH]; intros s H; cbn in H.
  { split; [constructor|]. intros n Hn. by apply elem_of_nil in Hn. }
  apply bind_ok in H as (s1 & H1 & H). destruct (IH s1 H) as [Hnd Hn].
  pose proof (λ n, gen_def_seen _ _ _ _ n H1) as Hi.
  apply gen_def_grows in H1 as (_ & _ & Hs & _).
  assert (E : fn_names (i :: is) = fn_names [i] ++ fn_names is) by (by destruct i).
  rewrite E.
  split.
  - apply NoDup_app. split; [|split; [|done]].
    + destruct i; cbn; repeat constructor. by intros ?%elem_of_nil.
    + intros n H1 H2. apply Hi in H1 as [_ H1]. by apply Hn in H2.
  - intros n [H1|H1]%elem_of_app; [by apply Hi|]. intros H2. by apply (Hn n H1), Hs.
Qed.
