(** Lemmas about the C declarators of headers. *)

From Coq Require Import NArith List Bool Lia String Ascii.
From stdpp Require Import base numbers list strings pretty sets.
From Verif Require Import HeaderModel HeaderSpec HeaderProofs.

(** ** The reader, for all large fuels *)

Definition pd (ts : list tok) (t : ctype) (x : option string) (r : list tok) : Prop :=
  ∃ n, ∀ m, n ≤ m → parse_decl m ts = Some (t, x, r).
Definition dl (q : bool) (ts : list tok) (f : ctype → ctype) (x : option string) (r : list tok) : Prop :=
  ∃ n, ∀ m, n ≤ m → declarator m q ts = Some (f, x, r).
Definition sx (ts : list tok) (g : ctype → ctype) (r : list tok) : Prop :=
  ∃ n, ∀ m, n ≤ m → suffixes m ts = Some (g, r).
Definition pr (ts : list tok) (l : list (ctype * option string)) (r : list tok) : Prop :=
  ∃ n, ∀ m, n ≤ m → params m ts = Some (l, r).

Definition no_const (ts : list tok) : Prop :=
  match ts with TkId s :: _ => s ≠ "const" | _ => True end.
Lemma no_const_qual ts : no_const ts → qual ts = (false, ts).
Proof.
  destruct ts as [|[] ts]; try done. cbn. intros H. by apply String.eqb_neq in H as ->.
Qed.

(** What may follow a declarator. *)
Definition stop (ts : list tok) : Prop :=
  match ts with [] | TkRp :: _ | TkComma :: _ => True | _ => False end.
Lemma stop_no_const ts : stop ts → no_const ts.
Proof. by destruct ts as [|[] ts]. Qed.

Lemma sx_stop ts : stop ts → sx ts (λ t, t) ts.
Proof. intros H. exists 1. intros [|m] Hm; [lia|]. by destruct ts as [|[] ts]. Qed.
Lemma sx_arr n ts g r : sx ts g r → sx (TkLb :: TkNum n :: TkRb :: ts) (λ t, CArr n (g t)) r.
Proof. intros [k H]. exists (S k). intros [|m] Hm; [lia|]. cbn [suffixes]. by rewrite H by lia. Qed.
Lemma sx_void ts g r : sx ts g r → sx (TkLp :: TkId "void" :: TkRp :: ts) (λ t, CFun (g t) []) r.
Proof. intros [k H]. exists (S k). intros [|m] Hm; [lia|]. cbn [suffixes]. rewrite H by lia. done. Qed.

(** Parameters other than [void]. *)
Lemma sx_params ts l r' g r :
  (∀ ts', ts ≠ TkId "void" :: TkRp :: ts') → pr ts l r' → sx r' g r → sx (TkLp :: ts) (λ t, CFun (g t) l) r.
Proof.
  intros Hv [k1 H1] [k2 H2]. exists (S (S (k1 + k2))). intros [|[|m]] Hm; [lia..|].
  assert (E : params_suffix (S m) (TkLp :: ts) = Some (λ t, CFun (g t) l, r)).
  { cbn [params_suffix]. rewrite H1 by lia. by rewrite H2 by lia. }
  change (suffixes (S (S m)) (TkLp :: ts)) with
    (match ts with
     | TkId v :: TkRp :: ts' =>
         if String.eqb v "void" then
           match suffixes (S m) ts' with Some (g, ts) => Some (λ t, CFun (g t) [], ts) | None => None end
         else params_suffix (S m) (TkLp :: ts)
     | _ => params_suffix (S m) (TkLp :: ts)
     end).
  destruct ts as [|[v| | | | | | |] [|[]]]; try exact E.
  destruct (String.eqb_spec v "void") as [->|]; [|exact E]. by destruct (Hv l0).
Qed.

Lemma pr_one ts t x r : pd ts t x (TkRp :: r) → pr ts [(t, x)] r.
Proof. intros [k H]. exists (S k). intros [|m] Hm; [lia|]. cbn [params]. by rewrite H by lia. Qed.
Lemma pr_more ts t x ts' l r : pd ts t x (TkComma :: ts') → pr ts' l r → pr ts ((t, x) :: l) r.
Proof.
  intros [k1 H1] [k2 H2]. exists (S (k1 + k2)). intros [|m] Hm; [lia|]. cbn [params].
  rewrite H1 by lia. by rewrite H2 by lia.
Qed.

Lemma dl_star q q' ts ts' f x r : qual ts = (q', ts') → dl q' ts' f x r →
  dl q (TkStar :: ts) (λ t, f (CPtr q t)) x r.
Proof.
  intros Hq [k H]. exists (S k). intros [|m] Hm; [lia|]. cbn [declarator]. rewrite Hq. by rewrite H by lia.
Qed.
Lemma dl_paren q ts f x r g r' : dl false (TkStar :: ts) f x (TkRp :: r) → sx r g r' →
  dl q (TkLp :: TkStar :: ts) (λ t, f (g t)) x r'.
Proof.
  intros [k1 H1] [k2 H2]. exists (S (k1 + k2)). intros [|m] Hm; [lia|].
  change (declarator (S m) q (TkLp :: TkStar :: ts)) with
    (match declarator m false (TkStar :: ts) with
     | Some (f, x, TkRp :: ts) =>
         match suffixes m ts with Some (g, ts) => Some (λ t, f (g t), x, ts) | None => None end
     | _ => None
     end).
  rewrite H1 by lia. by rewrite H2 by lia.
Qed.
Lemma dl_name q v ts g r : is_name v = true → sx ts g r → dl q (TkId v :: ts) g (Some v) r.
Proof.
  intros Hv [k H]. exists (S k). intros [|m] Hm; [lia|]. cbn [declarator]. rewrite Hv. by rewrite H by lia.
Qed.
Lemma dl_stop q ts : stop ts → dl q ts (λ t, t) None ts.
Proof.
  intros Hs. destruct (sx_stop ts Hs) as [k H]. exists (S k). intros [|m] Hm; [lia|].
  destruct ts as [|[] ts]; try done; cbn [declarator]; by rewrite H by lia.
Qed.

Lemma pd_base b ts q ts' f x r : is_type b = true → qual ts = (q, ts') → dl q ts' f x r →
  pd (TkId b :: ts) (f (CBase b)) x r.
Proof.
  intros Hb Hq [k H]. exists (S k). intros [|m] Hm; [lia|]. cbn [parse_decl]. rewrite Hb, Hq.
  by rewrite H by lia.
Qed.

(** ** Keywords *)

Fixpoint last2 (s : string) : option (ascii * ascii) :=
  match s with
  | String a s' =>
      match s' with
      | EmptyString => None
      | String b EmptyString => Some (a, b)
      | _ => last2 s'
      end
  | EmptyString => None
  end.
Lemma last2_suffixed s : last2 (suffixed s) = Some ("_"%char, "t"%char).
Proof.
  unfold suffixed. induction s as [|c s IH]; [done|].
  change (String c s +:+ "_t") with (String c (s +:+ "_t")).
  destruct s as [|d [|e s]]; [done|done|exact IH].
Qed.
Lemma suffixed_name s : is_name (suffixed s) = true.
Proof.
  unfold is_name. destruct (existsb _ _) eqn:E; [|done]. exfalso.
  apply existsb_exists in E as (k & Hk & E). apply String.eqb_eq in E. subst k.
  assert (H : forallb (λ k, match last2 k with
     | Some (a, b) => negb (Ascii.eqb a "_" && Ascii.eqb b "t") | None => true end) keywords = true)
    by (vm_compute; reflexivity).
  rewrite forallb_forall in H. specialize (H _ Hk). by rewrite last2_suffixed in H.
Qed.
Lemma suffixed_type s : is_type (suffixed s) = true.
Proof. unfold is_type. by rewrite suffixed_name. Qed.
Lemma suffixed_no_const s ts : no_const (TkId (suffixed s) :: ts).
Proof. intros H. pose proof (suffixed_name s) as E. by rewrite H in E. Qed.

(** ** Declarators *)

(** [v] is a declarator of a name or nothing. *)
Definition vok (v : list tok) (f : ctype → ctype) (x : option string) : Prop :=
  (∀ q rest, stop rest → dl q (v ++ rest) f x rest) ∧ no_const v.

Lemma vok_nil : vok [] (λ t, t) None.
Proof. split; [|done]. intros q rest. apply dl_stop. Qed.
Lemma name_no_const v ts : is_name v = true → no_const (TkId v :: ts).
Proof. intros H ->. done. Qed.
Lemma vok_name v : is_name v = true → vok [TkId v] (λ t, t) (Some v).
Proof.
  intros Hv. split; [|by apply name_no_const]. intros q rest Hs. cbn. apply dl_name; [done|]. by apply sx_stop.
Qed.
Lemma vok_arr v n : is_name v = true → vok [TkId v; TkLb; TkNum n; TkRb] (CArr n) (Some v).
Proof.
  intros Hv. split; [|by apply name_no_const]. intros q rest Hs. cbn.
  apply dl_name; [done|]. apply (sx_arr n rest (λ t, t)). by apply sx_stop.
Qed.

Lemma vok_app_no_const v f x rest : vok v f x → stop rest → no_const (v ++ rest).
Proof. intros [_ H] Hs. destruct v; [by apply stop_no_const|done]. Qed.

Definition qtok (q : bool) : list tok := if q then [TkId "const"] else [].

Lemma pd_base' b q w f x r : is_type b = true → no_const w → dl q w f x r →
  pd (TkId b :: qtok q ++ w) (f (CBase b)) x r.
Proof.
  intros Hb Hw Hd. eapply pd_base; [done| |exact Hd]. destruct q; [done|]. cbn. by apply no_const_qual.
Qed.

Lemma int_type i : is_type (suffixed (int_name i)) = true.
Proof. apply suffixed_type. Qed.

(** Types that are printed before the declarator. *)
Lemma pd_object t : object t = true →
  ∀ q w f x r, no_const w → dl q w f x r → pd (c_var t [] ++ qtok q ++ w) (f (sem t)) x r.
Proof.
  induction t as [i|d| | | | |c t IH|t n IH|r0 args IHr IHa|n gs fs _ IHf|n i|n t IH|n] using cty_ind';
    cbn [object]; intros Ho q w f x r Hw Hd; try done.
  - destruct i; by apply pd_base'.
  - destruct d; by apply pd_base'.
  - by apply pd_base'.
  - by apply pd_base'.
  - by apply pd_base'.
  - by apply pd_base'.
  - assert (E : c_var (TPtr c t) [] ++ qtok q ++ w = c_var t [] ++ qtok c ++ TkStar :: qtok q ++ w).
    { destruct c; cbn [c_var]; rewrite <-app_assoc; done. }
    rewrite E. apply (IH Ho c (TkStar :: qtok q ++ w) (λ t, f (CPtr c t)) x r); [done|].
    eapply dl_star; [|exact Hd]. destruct q; [done|]. cbn. by apply no_const_qual.
  - apply pd_base'; [apply suffixed_type|done..].
  - apply pd_base'; [apply suffixed_type|done..].
  - apply pd_base'; [apply suffixed_type|done..].
  - apply pd_base'; [apply suffixed_type|done..].
  - apply pd_base'; [apply suffixed_type|done..].
Qed.

Lemma c_var_object t v : object t = true → c_var t v = c_var t [] ++ v.
Proof. destruct t as [| | | | | |[] t| | | | | |]; try done; intros _; cbn [c_var]; rewrite <-app_assoc; done. Qed.

Lemma printable_fn r args : printable (TFn r args) =
  object r && forallb (λ a, printable a && negb (is_void a)) args.
Proof. done. Qed.

Lemma pr_all {A} (txt : A → list tok) (mean : A → ctype * option string) args rest :
  args ≠ [] →
  (∀ a rest, a ∈ args → stop rest → pd (txt a ++ rest) (mean a).1 (mean a).2 rest) →
  pr (commas (map txt args) ++ TkRp :: rest) (map mean args) rest.
Proof.
  intros Hne H. induction args as [|a [|b args] IH]; [done|..].
  - cbn. destruct (mean a) as [t x] eqn:E. apply pr_one.
    change t with (t, x).1. change (Some x) with (Some x).
    specialize (H a (TkRp :: rest) ltac:(left) I). by rewrite E in H.
  - change (commas (map txt (a :: b :: args))) with (txt a ++ TkComma :: commas (map txt (b :: args))).
    rewrite <-app_assoc. cbn [app]. change (map mean (a :: b :: args)) with (mean a :: map mean (b :: args)).
    destruct (mean a) as [t x] eqn:E. eapply pr_more.
    + specialize (H a (TkComma :: commas (map txt (b :: args)) ++ TkRp :: rest) ltac:(left) I).
      rewrite E in H. exact H.
    + apply IH; [done|]. intros. apply H; [by right|done].
Qed.

Lemma object_head t : object t = true → ∃ b w, c_var t [] = TkId b :: w ∧ TkRp ∉ w.
Proof.
  induction t as [i|d| | | | |c t IH|t n IH|r0 args IHr IHa|n gs fs _ IHf|n i|n t IH|n] using cty_ind';
    intros Ho; try done; try (eexists _, []; split; [done|]; by intros ?%elem_of_nil).
  cbn [object] in Ho. destruct (IH Ho) as (b & w & E & Hw). cbn [c_var]. rewrite E.
  destruct c; eexists b, (w ++ _); (split; [done|]); rewrite elem_of_app; intros [?|H]; try done;
    apply elem_of_list_In in H; cbn in H; naive_solver.
Qed.

Lemma head_app t tk ts ts' : object t = true → tk ≠ TkRp → c_var t [] ++ tk :: ts ≠ TkId "void" :: TkRp :: ts'.
Proof.
  intros Ho Ht H. destruct (object_head t Ho) as (b & w & E & Hw). rewrite E in H. cbn in H.
  injection H as _ H. destruct w as [|k w]; cbn in H; injection H as Hk _; [done|]. apply Hw. rewrite Hk. left.
Qed.

Lemma c_var_void t v rest ts : printable t = true → is_void t = false →
  c_var t v ++ rest ≠ TkId "void" :: TkRp :: ts.
Proof.
  assert (HS : ∀ s (l : list tok), TkId (suffixed s) :: l ≠ TkId "void" :: TkRp :: ts).
  { intros s l H. injection H as H _. pose proof (suffixed_name s) as E. by rewrite H in E. }
  intros Hp Hv. destruct t as [i|d| | | | |c t|t n|r args|n gs fs|n i|n t|n]; try done; cbn [c_var app];
    try apply HS.
  - by destruct d.
  - cbn in Hp. destruct c; rewrite <-app_assoc; cbn [app]; by apply head_app.
  - rewrite printable_fn in Hp. apply andb_true_iff in Hp as [Hp _].
    rewrite <-app_assoc. cbn [app]. by apply head_app.
Qed.

Lemma commas_head {A} (txt : A → list tok) a args rest : ∃ rest',
  commas (map txt (a :: args)) ++ rest = txt a ++ rest'.
Proof.
  destruct args as [|b args]; cbn [map commas]; [by eexists|]. rewrite <-app_assoc. by eexists.
Qed.

(** A parenthesised list of parameters. *)
Lemma sx_args {A} (txt : A → list tok) (mean : A → ctype * option string) args rest :
  (∀ a rest ts, a ∈ args → txt a ++ rest ≠ TkId "void" :: TkRp :: ts) →
  (∀ a rest, a ∈ args → stop rest → pd (txt a ++ rest) (mean a).1 (mean a).2 rest) →
  stop rest →
  sx (TkLp :: (match args with [] => [TkId "void"] | _ => commas (map txt args) end) ++ TkRp :: rest)
    (λ t, CFun t (map mean args)) rest.
Proof.
  intros Hv H Hs. destruct args as [|a args].
  - apply (sx_void rest (λ t, t)). by apply sx_stop.
  - eapply (sx_params _ _ rest (λ t, t)); [| |by apply sx_stop].
    + intros ts'. destruct (commas_head txt a args (TkRp :: rest)) as [rest' ->]. apply Hv. left.
    + by apply pr_all.
Qed.

Lemma pd_printable t : printable t = true →
  ∀ v f x rest, vok v f x → stop rest → pd (c_var t v ++ rest) (f (sem t)) x rest.
Proof.
  assert (HO' : ∀ v f x rest, vok v f x → stop rest →
    ∀ t, object t = true → pd (c_var t v ++ rest) (f (sem t)) x rest).
  { intros v f x rest Hv Hs u Hu. rewrite (c_var_object u v Hu), <-app_assoc.
    apply (pd_object u Hu false (v ++ rest)); [by eapply vok_app_no_const|by apply Hv]. }
  induction t as [i|d| | | | |c t IH|t n IH|r0 args IHr IHa|n gs fs _ IHf|n i|n t IH|n] using cty_ind';
    intros Hp v f x rest Hv Hs; pose proof (HO' v f x rest Hv Hs) as HO;
    try (by apply HO).
  rewrite printable_fn in Hp. apply andb_true_iff in Hp as [Ho Hp]. rewrite forallb_forall in Hp.
  assert (HG : ∀ l, (fix go (l : list cty) : list (list tok) :=
       match l with [] => [] | a :: l => c_var a [] :: go l end) l = map (λ a, c_var a []) l).
  { induction l; [done|]. by f_equal. }
  cbn [c_var sem]. rewrite HG. rewrite <-app_assoc. cbn [app]. rewrite <-app_assoc. cbn [app].
  rewrite <-app_assoc. cbn [app].
  set (ptxt := match args with [] => [TkId "void"] | _ => commas (map (λ a, c_var a []) args) end).
  apply (pd_object r0 Ho false _ (λ t, f (CPtr false (CFun t (map (λ a, (sem a, None)) args)))) x rest); [done|].
  apply (dl_paren false _ (λ t, f (CPtr false t)) x (TkLp :: ptxt ++ TkRp :: rest)
    (λ t, CFun t (map (λ a, (sem a, None)) args))).
  - eapply dl_star; [apply no_const_qual; eapply vok_app_no_const; [exact Hv|done]|]. by apply Hv.
  - apply (sx_args (λ a, c_var a []) (λ a, (sem a, None))); [..|done].
    + intros a rest' ts Ha. apply elem_of_list_In, Hp, andb_true_iff in Ha as [Ha Hn].
      apply c_var_void; [done|]. by destruct (is_void a).
    + intros a rest' Ha Hs'. rewrite Forall_forall in IHa. pose proof Ha as Ha'.
      apply elem_of_list_In, Hp, andb_true_iff in Ha' as [Ha' _].
      apply (IHa a Ha Ha' [] (λ t, t) None rest'); [apply vok_nil|done].
Qed.

(** ** Texts *)

Lemma reads_pd ts t x : reads ts t x ↔ pd ts t x [].
Proof. done. Qed.

Lemma alias_reads n t : object t = true → is_name n = true → reads (alias_text n t) (sem t) (Some n).
Proof.
  intros Ho Hn. apply reads_pd. unfold alias_text.
  apply (pd_object t Ho false [TkId n] (λ t, t)); [by apply name_no_const|].
  apply dl_name; [done|]. by apply sx_stop.
Qed.
Lemma field_reads f t : printable t = true → is_name f = true → reads (field_text t f) (sem t) (Some f).
Proof.
  intros Hp Hf. apply reads_pd. pose proof (pd_printable t Hp [TkId f] (λ t, t) (Some f) [] (vok_name f Hf) I) as H.
  by rewrite app_nil_r in H.
Qed.
Lemma array_reads n t : printable t = true → reads (array_text t n) (CArr n (sem t)) (Some "idx").
Proof.
  intros Hp. apply reads_pd. pose proof (pd_printable t Hp _ (CArr n) (Some "idx") [] (vok_arr "idx" n eq_refl) I) as H.
  by rewrite app_nil_r in H.
Qed.
Lemma type_reads t : printable t = true → reads (type_text t) (sem t) None.
Proof.
  intros Hp. apply reads_pd. pose proof (pd_printable t Hp [] (λ t, t) None [] vok_nil I) as H.
  by rewrite app_nil_r in H.
Qed.
Lemma fn_reads n args r :
  printable r = true → is_name n = true →
  (∀ a, a ∈ args → printable a.2 = true ∧ is_void a.2 = false ∧ is_name a.1 = true) →
  reads (fn_text n args r) (CFun (sem r) (map (λ a, (sem a.2, Some a.1)) args)) (Some n).
Proof.
  intros Hr Hn Ha. apply reads_pd.
  set (ps := map (λ a : string * cty, (sem a.2, Some a.1)) args).
  assert (HV : vok (TkId n :: TkLp :: params_text args ++ [TkRp]) (λ t, CFun t ps) (Some n)).
  { split; [|by apply name_no_const]. intros q rest Hs. cbn [app]. rewrite <-app_assoc. cbn [app].
    apply dl_name; [done|].
    apply (sx_args (λ a : string * cty, c_var a.2 [TkId a.1]) (λ a, (sem a.2, Some a.1))); [..|done].
    - intros a rest' ts Hin. apply Ha in Hin as (? & ? & ?). by apply c_var_void.
    - intros a rest' Hin Hs'. apply Ha in Hin as (? & ? & ?). cbn.
      apply (pd_printable a.2) with (f := λ t, t); [done|by apply vok_name|done]. }
  pose proof (pd_printable r Hr _ _ _ [] HV I) as H. by rewrite app_nil_r in H.
Qed.

Definition alias_name_ok (d : decl) : Prop :=
  match d with DAlias n _ | DEnum n _ => is_name n = true | _ => True end.

Lemma decl_reads d : good_decl d → alias_name_ok d →
  Forall2 (λ ts m, reads ts m.1 m.2) (texts d) (meanings d).
Proof.
  destruct d as [| |n fs|n t k|n i|n t|n|n r args|n args r|n t]; cbn; intros H Ha; try by constructor.
  - apply Forall2_fmap, Forall_Forall2_diag, Forall_forall. intros [f t] Hf.
    apply H in Hf as [? ?]. by apply field_reads.
  - constructor; [|constructor]. by apply array_reads.
  - destruct i as [i|]; constructor; [|constructor]. by apply (alias_reads n (TInt i)).
  - constructor; [|constructor]. by apply alias_reads.
  - destruct H as (? & ? & ?). constructor; [|constructor]. by apply fn_reads.
  - constructor; [|constructor]. by apply type_reads.
Qed.

(** ** Where declarations come from *)

Definition from (t : cty) (d : decl) : Prop :=
  d = DInts ∨ d = DBool ∨ (∃ u, within u t ∧ own_decl (IType "" u) = Some d) ∨
  ∃ r args, within (TFn r args) t ∧ d = DDelegate (short (TFn r args)) r args.
Definition adds (t : cty) (s s' : st) : Prop := ∀ d, d ∈ out s' → d ∈ out s ∨ from t d.

Lemma from_sub u t d : within u t → from u d → from t d.
Proof.
  intros Hw [->|[->|[(v & Hv & ?)|(r & args & Hv & ?)]]]; [by left|by right; left|..]; do 2 right.
  - left. exists v. split; [by eapply within_trans|done].
  - right. exists r, args. split; [by eapply within_trans|done].
Qed.
Lemma adds_refl t s : adds t s s.
Proof. intros d. by left. Qed.
Lemma adds_trans t s1 s2 s3 : adds t s1 s2 → adds t s2 s3 → adds t s1 s3.
Proof. intros H1 H2 d Hd. apply H2 in Hd as [Hd|?]; [by apply H1|by right]. Qed.
Lemma adds_sub u t s s' : within u t → adds u s s' → adds t s s'.
Proof. intros Hw H d Hd. apply H in Hd as [?|?]; [by left|]. right. by eapply from_sub. Qed.
Lemma adds_emit t d s s' : from t d → emit d s = Ok s' → adds t s s'.
Proof.
  intros Hf [= <-] e. cbn. rewrite elem_of_app, elem_of_list_singleton. intros [?| ->]; [by left|by right].
Qed.
Lemma adds_once t k body s s' :
  (∀ s1, body (St (k :: seen s) (out s)) = Ok s1 → adds t (St (k :: seen s) (out s)) s1) →
  define_once k body s = Ok s' → adds t s s'.
Proof. unfold define_once. intros HB H. case_bool_decide; [simplify_eq; apply adds_refl|]. by apply HB in H. Qed.
Lemma adds_all l t ts :
  Forall (λ u, ∀ l s s', define l u s = Ok s' → adds u s s') ts → (∀ u, u ∈ ts → within u t) →
  ∀ s s', define_all l ts s = Ok s' → adds t s s'.
Proof.
  induction 1 as [|u ts Hu _ IH]; intros Hw s s' H; cbn in H; [simplify_eq; apply adds_refl|].
  apply bind_ok in H as (s1 & H1 & H2). eapply adds_trans; [|eapply IH; [|exact H2]].
  - eapply adds_sub; [|by eapply Hu]. apply Hw. left.
  - intros v Hv. apply Hw. by right.
Qed.
Lemma adds_int t l s s' : define_int l s = Ok s' → adds t s s'.
Proof.
  unfold define_int. intros H. destruct l; [|simplify_eq; apply adds_refl|];
    (eapply adds_once; [|exact H]; intros s1 H1; eapply adds_emit; [|exact H1]; by left).
Qed.
Lemma from_own t d : own_decl (IType "" t) = Some d → from t d.
Proof. intros H. do 2 right. left. exists t. split; [constructor|done]. Qed.

Lemma define_adds t : ∀ l s s', define l t s = Ok s' → adds t s s'.
Proof.
  induction t as [i|d| | | | |c t IH|t n IH|r args IHr IHa|n gs fs _ IHf|n i|n t IH|n] using cty_ind';
    intros l s s' H.
  - by eapply adds_int.
  - simplify_eq/=. apply adds_refl.
  - simplify_eq/=. apply adds_refl.
  - cbn in H. destruct l; [|simplify_eq; apply adds_refl|];
      (eapply adds_once; [|exact H]; intros s1 H1; eapply adds_emit; [|exact H1]; by right; left).
  - simplify_eq/=. apply adds_refl.
  - simplify_eq/=. apply adds_refl.
  - cbn in H. eapply adds_sub; [|by eapply IH]. do 2 constructor.
  - assert (Hw : within t (TArr t n)) by (do 2 constructor).
    cbn [define] in H. destruct l.
    + eapply adds_once; [|exact H]. intros s1 H1. apply bind_ok in H1 as (s2 & H1 & H2).
      eapply adds_trans; [eapply adds_sub; [exact Hw|by eapply IH]|]. eapply adds_emit; [by apply from_own|exact H2].
    + apply bind_ok in H as (s2 & H1 & H2). eapply adds_trans; [eapply adds_sub; [exact Hw|by eapply IH]|].
      eapply adds_once; [|exact H2]. intros s1 H3. eapply adds_emit; [by apply from_own|exact H3].
    + eapply adds_once; [|exact H]. intros s1 H1. apply bind_ok in H1 as (s2 & H1 & H2).
      eapply adds_trans; [eapply adds_sub; [exact Hw|by eapply IH]|]. eapply adds_emit; [by apply from_own|exact H2].
  - rewrite define_fn in H. apply bind_ok in H as (s1 & H1 & H). apply bind_ok in H as (s2 & H2 & H).
    eapply adds_trans; [eapply adds_sub; [|by eapply IHr]; apply W_ret; constructor|].
    eapply adds_trans; [eapply adds_all; [done| |exact H2]|].
    { intros a Ha. eapply W_arg; [done|constructor]. }
    destruct l; [simplify_eq; apply adds_refl| |simplify_eq; apply adds_refl].
    eapply adds_once; [|exact H]. intros s3 H3. eapply adds_emit; [|exact H3].
    do 3 right. exists r, args. split; [constructor|done].
  - rewrite define_struct in H.
    eapply adds_once; [|exact H]. intros s1 H1. apply bind_ok in H1 as (s2 & H1 & H2).
    destruct (zst _); [done|]. eapply adds_trans; [eapply adds_all; [| |exact H1]|].
    + by apply Forall_map.
    + intros u Hu. apply elem_of_list_fmap in Hu as ([f a] & -> & Ha). eapply W_field; [done|constructor].
    + eapply adds_emit; [by apply from_own|exact H2].
  - cbn [define] in H.
    eapply adds_once; [|exact H]. intros s1 H1. apply bind_ok in H1 as (s2 & H1 & H2).
    eapply adds_trans; [by eapply adds_int|]. eapply adds_emit; [by apply from_own|exact H2].
  - assert (Hw : within t (TAlias n t)) by (do 2 constructor).
    cbn [define] in H.
    eapply adds_once; [|exact H]. intros s1 H1. apply bind_ok in H1 as (s2 & H1 & H2).
    eapply adds_trans; [eapply adds_sub; [exact Hw|by eapply IH]|].
    destruct l; [|simplify_eq; apply adds_refl..]. eapply adds_emit; [by apply from_own|exact H2].
  - cbn [define] in H.
    eapply adds_once; [|exact H]. intros s1 H1. eapply adds_emit; [by apply from_own|exact H1].
Qed.

Definition from_items (is : list item) (d : decl) : Prop :=
  d = DInts ∨ d = DBool ∨ (∃ i, i ∈ is ∧ own_decl i = Some d) ∨
  (∃ t, occurs t is ∧ own_decl (IType "" t) = Some d) ∨
  ∃ r args, occurs (TFn r args) is ∧ d = DDelegate (short (TFn r args)) r args.

Lemma from_item is i t d : i ∈ is → t ∈ item_types i → from t d → from_items is d.
Proof.
  intros Hi Ht [->|[->|[(u & Hu & ?)|(r & args & Hu & ?)]]]; [by left|by right; left|..]; do 3 right.
  - left. exists u. split; [by exists i, t|done].
  - right. exists r, args. split; [by exists i, t|done].
Qed.

Lemma gen_def_from l is i s s' d : i ∈ is → gen_def l i s = Ok s' → d ∈ out s' → d ∈ out s ∨ from_items is d.
Proof.
  intros Hi H Hd. destruct i as [n args r|n t u|n t]; cbn [gen_def] in H.
  - case_bool_decide; [done|]. apply bind_ok in H as (s1 & H1 & H). apply bind_ok in H as (s2 & H2 & H).
    injection H as <-. cbn in Hd. apply elem_of_app in Hd as [Hd| ->%elem_of_list_singleton].
    + apply (define_adds r _ _ _ H2) in Hd as [Hd|Hd].
      * assert (HA : ∀ ts s0 s0', (∀ t, t ∈ ts → t ∈ item_types (IFn n args r)) → define_all l ts s0 = Ok s0' →
          d ∈ out s0' → d ∈ out s0 ∨ from_items is d).
        { clear -Hi. induction ts as [|t ts IH]; intros s0 s0' Hts HH Hin; cbn in HH; [simplify_eq; by left|].
          apply bind_ok in HH as (s1 & HH1 & HH).
          apply (IH s1) in Hin as [Hin|?]; [|by right|set_solver|done].
          apply (define_adds t _ _ _ HH1) in Hin as [?|?]; [by left|]. right.
          eapply from_item; [done| |done]. apply Hts. left. }
        eapply HA in H1; [|intros t Ht; apply elem_of_app; by left|exact Hd]. done.
      * right. eapply from_item; [done| |done]. cbn. apply elem_of_app. right. left.
    + right. do 2 right. left. by exists (IFn n args r).
  - apply bind_ok in H as (s1 & H1 & H).
    assert (E : s' = s1 ∨ emit (DConst n t) s1 = Ok s').
    { destruct l, u; try (by right); left; by simplify_eq. }
    assert (HX : d ∈ out s1 → d ∈ out s ∨ from_items is d).
    { intros Hin. apply (define_adds t _ _ _ H1) in Hin as [?|?]; [by left|]. right.
      eapply from_item; [done| |done]. left. }
    destruct E as [->|E]; [by apply HX|]. injection E as <-. cbn in Hd.
    apply elem_of_app in Hd as [Hd| ->%elem_of_list_singleton]; [by apply HX|].
    right. do 2 right. left. by exists (IConst n t u).
  - apply (define_adds t _ _ _ H) in Hd as [?|?]; [by left|]. right.
    eapply from_item; [done| |done]. left.
Qed.

Lemma write_body_from l stable is s d :
  write_body l stable is = Ok s → d ∈ out s → from_items is d.
Proof.
  intros H Hd. change (gen_all l (listed stable is) (St [] []) = Ok s) in H.
  assert (HG : ∀ js s0, js ⊆ is → gen_all l js s0 = Ok s → d ∈ out s0 ∨ from_items is d).
  { induction js as [|i js IH]; intros s0 Hjs HH; cbn in HH; [simplify_eq; by left|].
    apply bind_ok in HH as (s1 & HH1 & HH). apply IH in HH as [HH|?]; [|by right|set_solver].
    eapply gen_def_from; [|exact HH1|done]. set_solver. }
  apply HG in H as [H|?]; [by apply elem_of_nil in H|done|apply listed_sub].
Qed.
