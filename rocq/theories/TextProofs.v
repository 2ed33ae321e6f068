(** Proofs for C82. *)

From Coq Require Import NArith ZArith List Bool String Ascii Lia ZifyBool ZifyNat ZifyN.
From stdpp Require Import base numbers list strings pretty.
From Verif Require Import NameModel NameSpec NameProofs DocModel DocSpec DocProofs HeaderModel HeaderSpec TextModel TextSpec TextLex.
From Verif Require ConstModel ConstProofs EnumModel FrameModel.
Local Open Scope N_scope.

Section xty_ind.
Context (Q : xty → Prop).
Context (HInt : ∀ i, Q (XInt i)) (HFloat : ∀ d, Q (XFloat d)) (HVoid : Q XVoid) (HBool : Q XBool) (HCInt : Q XCInt)
  (HChar : Q XChar) (HPtr : ∀ c t, Q t → Q (XPtr c t)) (HArr : ∀ t n, Q t → Q (XArr t n))
  (HFn : ∀ r args, Q r → Forall Q args → Q (XFn r args))
  (HStruct : ∀ d n gs fs, Forall Q gs → Forall (λ f : field, Q f.2) fs → Q (XStruct d n gs fs))
  (HEnum : ∀ d n i vs, Q (XEnum d n i vs)) (HAlias : ∀ d n t, Q t → Q (XAlias d n t)) (HOpaque : ∀ d n, Q (XOpaque d n)).
Fixpoint xty_ind' (t : xty) : Q t :=
  match t with
  | XInt i => HInt i
  | XFloat d => HFloat d
  | XVoid => HVoid
  | XBool => HBool
  | XCInt => HCInt
  | XChar => HChar
  | XPtr c t => HPtr c t (xty_ind' t)
  | XArr t n => HArr t n (xty_ind' t)
  | XFn r args => HFn r args (xty_ind' r)
      ((fix go (l : list xty) : Forall Q l :=
          match l with [] => List.Forall_nil _ | t :: l => List.Forall_cons _ _ _ (xty_ind' t) (go l) end) args)
  | XStruct d n gs fs => HStruct d n gs fs
      ((fix go (l : list xty) : Forall Q l :=
          match l with [] => List.Forall_nil _ | t :: l => List.Forall_cons _ _ _ (xty_ind' t) (go l) end) gs)
      ((fix go (l : list field) : Forall (λ f : field, Q f.2) l :=
          match l with [] => List.Forall_nil _ | f :: l => List.Forall_cons _ _ _ (xty_ind' f.2) (go l) end) fs)
  | XEnum d n i vs => HEnum d n i vs
  | XAlias d n t => HAlias d n t (xty_ind' t)
  | XOpaque d n => HOpaque d n
  end.
End xty_ind.

(** ** Names *)

Definition letters (s : ntext) : Prop := Forall (λ c, word_char c = true) s.
Lemma letters_app a b : letters (a ++ b) ↔ letters a ∧ letters b.
Proof. apply Forall_app. Qed.
Lemma wordy_app a b : wordy a → letters b → wordy (a ++ b).
Proof. intros [Ha Ha'] Hb. split; [by destruct a|by apply letters_app]. Qed.
Lemma letters_wordy a : a ≠ [] → letters a → wordy a.
Proof. done. Qed.
Lemma chars_app a b : chars (a +:+ b) = chars a ++ chars b.
Proof.
  induction a as [|c a IH]; [done|]. change (String c a +:+ b) with (String c (a +:+ b)). cbn [chars app]. by rewrite IH.
Qed.
Lemma letters_fixed s : forallb word_char s = true → letters s.
Proof. intros H. apply Forall_forall. intros c Hc%elem_of_list_In. rewrite forallb_forall in H. auto. Qed.
Lemma letters_pretty_go x s : letters (chars s) → letters (chars (pretty_N_go x s)).
Proof.
  revert s. induction x as [x IH] using (well_founded_induction N.lt_wf_0). intros s Hs.
  assert (x = 0 ∨ 0 < x) as [->|Hx] by lia; [by rewrite pretty_N_go_0|]. rewrite pretty_N_go_step by done.
  apply IH; [by apply N.div_lt|]. cbn [chars]. constructor; [|done].
  unfold pretty_N_char. by repeat case_match.
Qed.
Lemma letters_pretty (x : N) : letters (chars (pretty x)).
Proof. unfold pretty, pretty_N. case_decide; [by apply letters_fixed|]. apply letters_pretty_go. constructor. Qed.

Definition digit_char (c : N) : bool := (48 <=? c) && (c <=? 57).
Lemma digits_chars n : Forall (λ c, digit_char c = true) (num_text n).
Proof.
  unfold num_text. pose proof (ConstProofs.digits_small n) as H. unfold ConstModel.dtext. rewrite map_map.
  induction H as [|d l Hd _ IH]; [constructor|]. cbn [map]. constructor; [|done].
  unfold ConstModel.dchar. rewrite N_ascii_embedding by lia. unfold digit_char. lia.
Qed.
Lemma num_wordy n : wordy (num_text n).
Proof.
  split.
  - unfold num_text. destruct (ConstProofs.digits_cons n) as (d & l & ->). done.
  - eapply Forall_impl; [apply digits_chars|]. intros c Hc. unfold digit_char, word_char in *. lia.
Qed.
Lemma suffixed_wordy n : name_ok n → name_ok (suffixed n).
Proof. intros H. unfold name_ok, suffixed. rewrite chars_app. apply wordy_app; [done|by apply letters_fixed]. Qed.
Lemma int_wordy i : name_ok (suffixed (int_name i)).
Proof. apply suffixed_wordy. split; [by destruct i|]. apply letters_fixed. by destruct i. Qed.
Lemma fixed_wordy s : forallb word_char (chars s) = true → s ≠ ""%string → name_ok s.
Proof. intros H Hs. split; [by destruct s|by apply letters_fixed]. Qed.

Lemma upper_word c : word_char c = true → word_char (EnumModel.to_upper c) = true.
Proof. unfold EnumModel.to_upper, EnumModel.is_lower, word_char. intros H. destruct ((97 <=? c) && (c <=? 122)) eqn:E; lia. Qed.
Lemma variant_wordy n v : name_ok n → wordy v → wordy (variant_name n v).
Proof.
  intros Hn Hv. unfold variant_name, EnumModel.screaming_case.
  assert (H : wordy (chars n ++ v)) by (apply wordy_app; [done|apply Hv]).
  destruct (chars n ++ v) as [|c cs]; [by destruct H|]. destruct H as [_ H]. inversion_clear H as [|? ? Hc Hcs].
  split; [done|]. constructor; [by apply upper_word|]. induction Hcs as [|x l Hx _ IH]; [constructor|].
  cbn [map concat]. apply letters_app. split; [|done]. apply letters_app. split.
  - destruct (EnumModel.is_upper x); [|constructor]. by repeat constructor.
  - constructor; [by apply upper_word|constructor].
Qed.

Section types.
Context (ws : N → bool) (HW : ∀ c, c < 128 → ws c = ascii_ws c).

Lemma short_ok t : ty_ok ws t → name_ok (xshort t).
Proof.
  unfold xshort. induction t as [i|d| | | | |c t IH|t n IH|r args IHr IHa|d n gs fs IHg IHf|d n i vs|d n t IH|d n] using xty_ind'; cbn [ty_ok erase short]; intros H.
  - destruct i; by apply fixed_wordy.
  - destruct d; by apply fixed_wordy.
  - by apply fixed_wordy.
  - by apply fixed_wordy.
  - by apply fixed_wordy.
  - by apply fixed_wordy.
  - unfold name_ok. destruct c; rewrite chars_app; (apply wordy_app; [by apply IH|by apply letters_fixed]).
  - unfold name_ok. rewrite !chars_app. apply wordy_app; [by apply IH|]. apply letters_app. split; [by apply letters_fixed|].
    apply letters_app. split; [apply letters_pretty|by apply letters_fixed].
  - unfold name_ok. rewrite !chars_app. destruct H as [Hr Ha]. apply wordy_app; [by apply IHr|]. apply letters_app.
    split; [|by apply letters_fixed]. clear -IHa Ha. induction IHa as [|a args Q _ IH]; [constructor|]. destruct Ha as [H1 H2].
    cbn [map]. rewrite !chars_app. apply letters_app. split; [by apply letters_fixed|]. apply letters_app.
    split; [by apply Q|by apply IH].
  - unfold name_ok. rewrite !chars_app. destruct H as (_ & Hn & Hg & _). apply wordy_app; [done|].
    clear -IHg Hg. induction IHg as [|a args Q _ IH]; [constructor|]. destruct Hg as [H1 H2].
    cbn [map]. rewrite !chars_app. apply letters_app. split; [by apply letters_fixed|]. apply letters_app.
    split; [by apply Q|by apply IH].
  - by destruct H as (_ & H & _).
  - by destruct H as (_ & H & _).
  - by destruct H as (_ & H).
Qed.

(** ** Code *)

Definition codes (a : ntext) (ts : list ctok) : Prop := plain a ∧ lex a = ts.
Lemma codes_nil : codes [] [].
Proof. split; [constructor|done]. Qed.
Lemma codes_app a b ta tb : codes a ta → codes b tb → apart a b → codes (a ++ b) (ta ++ tb).
Proof. intros [Ha <-] [Hb <-] H. split; [by apply plain_app|by apply lex_app]. Qed.
Lemma codes_word s : wordy s → codes s [Wd s].
Proof. intros H. split; [by apply wordy_plain|by apply has_word]. Qed.
Lemma codes_name s : name_ok s → codes (chars s) [wd s].
Proof. apply codes_word. Qed.
Lemma codes_fixed a ts : forallb plainc a = true → lex a = ts → codes a ts.
Proof. intros H <-. split; [by apply plain_fixed|done]. Qed.
Lemma apart_sp a b c : head b = Some c → word_char c = false → apart a b.
Proof. intros Hb Hc. right. intros x Hx. congruence. Qed.
Lemma apart_pn a b c : last a = Some c → word_char c = false → apart a b.
Proof. intros Hb Hc. left. intros x Hx. congruence. Qed.
Lemma codes_spaced v ts : codes v ts → codes (spaced v) ts.
Proof. intros [Hv <-]. destruct v as [|c v]; [done|]. split; [by constructor|by apply lex_blank]. Qed.
Lemma apart_spaced a v : apart a (spaced v).
Proof. destruct v as [|c v]; [right; by intros ? ?|by apply (apart_sp a _ 32)]. Qed.
Lemma apart_nil_r a : apart a [].
Proof. right. by intros c ?. Qed.

(** What [name_wrapping_var] gives for a type. *)
Record wraps (f : ntext → ntext) (g : list tok → list tok) : Prop := {
  w_codes : ∀ v vt, codes v (map tk vt) → codes (f v) (map tk (g vt));
  w_split : ∃ pre post, plain pre ∧ 10 ∉ pre ∧ plain post ∧ 10 ∉ post ∧ ∀ v, v ≠ [] → f v = pre ++ v ++ post;
  w_line : 10 ∉ f [] }.

Lemma no10 s : forallb (λ c, negb (c =? 10)) s = true → 10 ∉ s.
Proof. intros H Hin%elem_of_list_In. rewrite forallb_forall in H. apply H in Hin. done. Qed.
Lemma word_no10 s : letters s → 10 ∉ s.
Proof. intros H Hin. unfold letters in H. rewrite Forall_forall in H. apply H in Hin. done. Qed.
Lemma no10_app a b : 10 ∉ a → 10 ∉ b → 10 ∉ a ++ b.
Proof. intros Ha Hb [?|?]%elem_of_app; done. Qed.

(** A prefix, then the variable. *)
Lemma wraps_spaced pre ts : codes pre (map tk ts) → 10 ∉ pre → wraps (λ v, pre ++ spaced v) (λ v, ts ++ v).
Proof.
  intros Hp Hn. split.
  - intros v vt Hv. rewrite map_app. apply codes_app; [done|by apply codes_spaced|apply apart_spaced].
  - exists (pre ++ [32]), []. split_and!; [|by apply no10_app; [|apply no10]|constructor|apply no10; done|].
    + apply plain_app. split; [apply Hp|by repeat constructor].
    + intros v Hv. rewrite app_nil_r, <-app_assoc. by destruct v.
  - cbn [spaced]. by rewrite app_nil_r.
Qed.
Lemma wraps_name s : name_ok s → wraps (λ v, chars s ++ spaced v) (λ v, TkId s :: v).
Proof.
  intros H. apply (wraps_spaced (chars s) [TkId s]); [by apply codes_name|]. by apply word_no10, H.
Qed.
Lemma wraps_ext f f' g g' : (∀ v, f v = f' v) → (∀ v, g v = g' v) → wraps f g → wraps f' g'.
Proof.
  intros Hf Hg [H1 (pre & post & P1 & P2 & P3 & P4 & P5) H3]. split.
  - intros v vt Hv. rewrite <-Hf, <-Hg. by apply H1.
  - exists pre, post. split_and!; try done. intros v Hv. rewrite <-Hf. by apply P5.
  - by rewrite <-Hf.
Qed.

Lemma commas_go args : (fix go (l : list cty) : list (list tok) :=
    match l with [] => [] | a :: l => c_var a [] :: go l end) (map erase args) = map (λ a, c_var (erase a) []) args.
Proof. induction args as [|a args IH]; [done|]. cbn [map]. by rewrite IH. Qed.
Lemma codes_joined {A} (sep : ntext) (f : A → ntext) (g : A → list tok) l :
  codes sep [Pn 44] → (∃ c, head sep = Some c ∧ word_char c = false) → (∃ c, last sep = Some c ∧ word_char c = false) →
  Forall (λ a, codes (f a) (map tk (g a))) l → codes (joined sep (map f l)) (map tk (commas (map g l))).
Proof.
  intros Hs Hh Hl H. induction H as [|a l Ha _ IH]; [apply codes_nil|]. destruct l as [|b l]; [done|].
  change (joined sep (map f (a :: b :: l))) with (f a ++ sep ++ joined sep (map f (b :: l))).
  change (commas (map g (a :: b :: l))) with (g a ++ TkComma :: commas (map g (b :: l))).
  rewrite map_app. change (map tk (TkComma :: commas (map g (b :: l)))) with ([Pn 44] ++ map tk (commas (map g (b :: l)))).
  apply codes_app; [done| |].
  - refine (codes_app _ _ _ _ Hs IH _). destruct Hl as (c & Hc & Wc). by apply (apart_pn _ _ c).
  - destruct Hh as (c & Hc & Wc). apply (apart_sp _ _ c); [|done]. destruct sep; [done|]. exact Hc.
Qed.

Lemma no10_joined sep ls : 10 ∉ sep → Forall (λ x, 10 ∉ x) ls → 10 ∉ joined sep ls.
Proof.
  intros Hs H. induction H as [|x l Hx _ IH]; [by apply not_elem_of_nil|]. destruct l as [|y l]; [done|].
  change (joined sep (x :: y :: l)) with (x ++ sep ++ joined sep (y :: l)). by apply no10_app; [|apply no10_app].
Qed.
Lemma ty_ok_args args :
  (fix go (l : list xty) : Prop := match l with [] => True | t :: l => ty_ok ws t ∧ go l end) args ↔ Forall (ty_ok ws) args.
Proof.
  induction args as [|a l IH]; [by split; [constructor|]|]. rewrite Forall_cons. by rewrite IH.
Qed.
Lemma ty_ok_fields fs :
  (fix go (l : list field) : Prop :=
     match l with [] => True | f :: l => (docs_ok ws f.1.1 ∧ name_ok f.1.2 ∧ ty_ok ws f.2) ∧ go l end) fs ↔
  Forall (λ f : field, docs_ok ws f.1.1 ∧ name_ok f.1.2 ∧ ty_ok ws f.2) fs.
Proof.
  induction fs as [|a l IH]; [by split; [constructor|]|]. rewrite Forall_cons. by rewrite IH.
Qed.

Lemma c_wraps t : ty_ok ws t → wraps (c_text t) (c_var (erase t)).
Proof.
  induction t as [i|d| | | | |c t IH|t n IH|r args IHr IHa|d n gs fs IHg IHf|d n i vs|d n t IH|d n] using xty_ind'; intros H;
    try (pose proof (short_ok _ H) as HS; apply suffixed_wordy in HS; exact (wraps_name _ HS)).
  - destruct d; refine (wraps_name _ _); by apply fixed_wordy.
  - refine (wraps_name "void" _); by apply fixed_wordy.
  - refine (wraps_name "bool" _); by apply fixed_wordy.
  - refine (wraps_name "int" _); by apply fixed_wordy.
  - refine (wraps_name "char" _); by apply fixed_wordy.
  - cbn [ty_ok] in H. specialize (IH H) as [I1 _ I3]. pose proof (I1 [] [] codes_nil) as HC. destruct c.
    + apply (wraps_ext (λ v, (c_text t [] ++ chars " const *") ++ spaced v) _
        (λ v, (c_var (erase t) [] ++ [TkId "const"; TkStar]) ++ v) _); [intros v; by rewrite <-app_assoc|intros v; by rewrite <-app_assoc|].
      apply wraps_spaced; [|by apply no10_app; [|apply no10]].
      rewrite map_app. apply codes_app; [done|by apply codes_fixed|by apply (apart_sp _ _ 32)].
    + apply (wraps_ext (λ v, (c_text t [] ++ chars " *") ++ spaced v) _
        (λ v, (c_var (erase t) [] ++ [TkStar]) ++ v) _); [intros v; by rewrite <-app_assoc|intros v; by rewrite <-app_assoc|].
      apply wraps_spaced; [|by apply no10_app; [|apply no10]].
      rewrite map_app. apply codes_app; [done|by apply codes_fixed|by apply (apart_sp _ _ 32)].
  - cbn [ty_ok] in H. destruct H as [Hr Ha]. apply ty_ok_args in Ha. specialize (IHr Hr) as [I1 _ I3].
    pose proof (I1 [] [] codes_nil) as HC.
    set (as_ := match args with [] => chars "void" | _ => joined (chars ", ") (map (λ a, c_text a []) args) end).
    set (ts := match args with [] => [TkId "void"] | _ => commas (map (λ a, c_var (erase a) []) args) end).
    assert (HA : codes as_ (map tk ts) ∧ 10 ∉ as_).
    { clear -IHa Ha HW. subst as_ ts. destruct args as [|a args]; [split; [by apply codes_fixed|by apply no10]|].
      split.
      - apply codes_joined; [by apply codes_fixed|by exists 44|by exists 32|].
        rewrite Forall_forall in IHa, Ha |- *. intros x Hx. apply (IHa x Hx (Ha x Hx)). apply codes_nil.
      - apply no10_joined; [by apply no10|]. apply Forall_map. rewrite Forall_forall in IHa, Ha |- *. intros x Hx.
        by apply (IHa x Hx (Ha x Hx)). }
    apply (wraps_ext (λ v, c_text r [] ++ chars " (*" ++ v ++ chars ")(" ++ as_ ++ chars ")") _
      (λ v, c_var (erase r) [] ++ [TkLp; TkStar] ++ v ++ [TkRp; TkLp] ++ ts ++ [TkRp]) _).
    + done.
    + intros v. subst ts. rewrite <-commas_go. destruct args; reflexivity.
    + destruct HA as [HA HA']. split.
      * intros v vt Hv. rewrite !map_app.
        apply codes_app; [done| |by apply (apart_sp _ _ 32)].
        apply codes_app; [by apply codes_fixed| |by apply (apart_pn _ _ 42)].
        apply codes_app; [done| |by apply (apart_sp _ _ 41)].
        apply codes_app; [by apply codes_fixed| |by apply (apart_pn _ _ 40)].
        apply codes_app; [done|by apply codes_fixed|by apply (apart_sp _ _ 41)].
      * exists (c_text r [] ++ chars " (*"), (chars ")(" ++ as_ ++ chars ")"). split_and!.
        -- apply plain_app. split; [apply HC|by apply plain_fixed].
        -- by apply no10_app; [|apply no10].
        -- apply plain_app. split; [by apply plain_fixed|]. apply plain_app. split; [apply HA|by apply plain_fixed].
        -- apply no10_app; [by apply no10|]. by apply no10_app; [|apply no10].
        -- intros v _. by rewrite <-app_assoc.
      * apply no10_app; [done|]. cbn [app]. apply (no10_app (chars " (*")); [by apply no10|].
        apply no10_app; [by apply no10|]. by apply no10_app; [|apply no10].
Qed.
Lemma py_wraps t : ty_ok ws t → wraps (py_text t) (var_toks LPython (erase t)).
Proof.
  assert (Hty : ∀ t, py_ty t = var_toks LPython t []) by (intros []; try done; cbn [py_ty var_toks]; by rewrite app_nil_r).
  induction t as [i|d| | | | |c t IH|t n IH|r args IHr IHa|d n gs fs IHg IHf|d n i vs|d n t IH|d n] using xty_ind'; intros H;
    try exact (c_wraps _ H).
  cbn [ty_ok] in H. specialize (IH (proj2 (proj2 H))) as [I1 _ I3].
  apply (wraps_spaced (py_text t []) (py_ty (erase t))); [|done]. rewrite Hty. apply I1. apply codes_nil.
Qed.
Lemma wrap_wraps l t : l ≠ LCSharp → ty_ok ws t → wraps (wrap l t) (var_toks l (erase t)).
Proof.
  intros Hl H. destruct l; [|done|by apply py_wraps].
  refine (wraps_ext _ _ _ _ _ _ (c_wraps t H)); [done|]. intros v. by destruct (erase t).
Qed.

(** ** Declarations *)

Definition decl_ok (y : xdecl) : Prop :=
  match y with
  | YInts | YBool => True
  | YStruct d n fs => docs_ok ws d ∧ name_ok n ∧ Forall (λ f : field, docs_ok ws f.1.1 ∧ name_ok f.1.2 ∧ ty_ok ws f.2) fs
  | YArr n t _ => name_ok n ∧ ty_ok ws t
  | YEnum d n _ vs => docs_ok ws d ∧ name_ok n ∧ Forall (λ v, docs_ok ws v.1.1 ∧ wordy v.1.2) vs
  | YAlias d n t => docs_ok ws d ∧ name_ok n ∧ ty_ok ws t
  | YOpaque d n => docs_ok ws d ∧ name_ok n
  | YDelegate _ _ _ => False
  | YFn d n args r => docs_ok ws d ∧ name_ok n ∧ Forall (λ a, name_ok a.1 ∧ ty_ok ws a.2) args ∧ ty_ok ws r
  | YConst d n t _ v => docs_ok ws d ∧ name_ok n ∧ chars n ∉ asked ∧ ty_ok ws t ∧ value_ok ws v
  end.

Lemma on_cons b st es : on (b :: st) es = if b then on st es else [].
Proof. by destruct b. Qed.
Lemma on_flat {A} (f : A → list ev) l st : on st (flat_map f l) = flat_map (λ x, on st (f x)) l.
Proof. induction l as [|x l IH]; [apply on_nil|]. cbn [flat_map]. by rewrite on_app, IH. Qed.
Lemma map_flat {A B C} (f : B → C) (g : A → list B) l : map f (flat_map g l) = flat_map (λ x, map f (g x)) l.
Proof. induction l as [|x l IH]; [done|]. cbn [flat_map]. by rewrite map_app, IH. Qed.
Lemma reads_flat {A} (f : A → ntext) (e : A → list ev) l defs st :
  Forall (λ x, reads (f x) defs st (e x) defs st) l → reads (flat_map f l) defs st (flat_map e l) defs st.
Proof. induction 1 as [|x l Hx _ IH]; [apply reads_nil|]. cbn [flat_map]. by eapply reads_app. Qed.
Lemma reads_joined {A} (f : A → ntext) (e : A → list ev) l defs st :
  Forall (λ x, reads (f x) defs st (e x) defs st) l → reads (joined eol (map f l)) defs st (flat_map e l) defs st.
Proof.
  induction 1 as [|x l Hx _ IH]; [apply reads_nil|]. destruct l as [|y l].
  - cbn [map joined flat_map]. by rewrite app_nil_r.
  - change (joined eol (map f (x :: y :: l))) with (f x ++ eol ++ joined eol (map f (y :: l))). cbn [flat_map].
    eapply reads_app; [exact Hx|]. change (e y ++ flat_map e l) with ([] ++ flat_map e (y :: l)).
    eapply reads_app; [apply reads_eol|exact IH].
Qed.
Lemma reads_codes n a ts defs st : codes a ts → reads (out_line ws n a) defs st (on st (map ETok ts)) defs st.
Proof. intros [Ha <-]. by apply reads_out. Qed.
Lemma reads_emit l n d defs st : l ≠ LCSharp → docs_ok ws d → reads (emit_docs ws l n d) defs st [] defs st.
Proof. intros Hl Hd. destruct l; [by apply reads_docs|done|apply reads_nil]. Qed.
(** A text ending with an empty line. *)
Lemma reads_end a defs st es defs' st' : reads a defs st es defs' st' → reads (a ++ eol) defs st es defs' st'.
Proof. intros H. rewrite <-(app_nil_r es). eapply reads_app; [exact H|apply reads_eol]. Qed.
Lemma reads_skip a b defs st es defs' st' :
  reads a defs st [] defs st → reads b defs st es defs' st' → reads (a ++ b) defs st es defs' st'.
Proof. intros Ha Hb. change es with ([] ++ es). by eapply reads_app. Qed.

Ltac fixed := by apply codes_fixed.
(** [chars s1 ++ name ++ chars s2] *)
Lemma codes_between s1 n s2 t1 t2 : codes (chars s1) t1 → (∃ c, last (chars s1) = Some c ∧ word_char c = false) →
  name_ok n → codes (chars s2) t2 → (∃ c, head (chars s2) = Some c ∧ word_char c = false) →
  codes (chars s1 ++ chars n ++ chars s2) (t1 ++ wd n :: t2).
Proof.
  intros H1 (c1 & E1 & W1) Hn H2 (c2 & E2 & W2). apply codes_app; [done| |by apply (apart_pn _ _ c1)].
  apply (codes_app (chars n) (chars s2) [wd n] t2); [by apply codes_name|done|by apply (apart_sp _ _ c2)].
Qed.

Lemma codes_num n : codes (num_text n) [Wd (num_text n)].
Proof. apply codes_word, num_wordy. Qed.
Lemma codes_z z : codes (z_text z) (z_toks z).
Proof.
  unfold z_text, z_toks, ConstModel.debug_int. destruct z as [|p|p]; cbn [Z.ltb Z.compare].
  - exact (codes_num 0).
  - exact (codes_num (N.pos p)).
  - change (codes ([45] ++ num_text (N.pos p)) ([Pn 45] ++ [Wd (num_text (N.pos p))])).
    apply codes_app; [fixed|apply codes_num|by apply (apart_pn _ _ 45)].
Qed.
Lemma reads_variant l n v defs st : l ≠ LCSharp → name_ok n → docs_ok ws v.1.1 ∧ wordy v.1.2 →
  reads (c_variant ws l n v) defs st (on st (map ETok (variant_toks l n v))) defs st.
Proof.
  intros Hl Hn [Hd Hv]. unfold c_variant. apply reads_skip; [by apply reads_emit|]. apply reads_codes.
  pose proof (codes_word _ (variant_wordy n v.1.2 Hn Hv)) as HN. unfold variant_toks.
  match goal with |- codes _ (Wd ?a :: ?x) => change (Wd a :: x) with ([Wd a] ++ x) end.
  destruct l; [|done|apply codes_app; [done|fixed|by apply (apart_sp _ _ 44)]].
  destruct v.2 as [z|]; cbn [value_text]; [|apply codes_app; [done|fixed|by apply (apart_sp _ _ 44)]].
  apply codes_app; [done| |by apply (apart_sp _ _ 32)]. change ((Pn 61 :: z_toks z) ++ [Pn 44]) with ([Pn 61] ++ z_toks z ++ [Pn 44]).
  apply codes_app; [fixed| |by apply (apart_pn _ _ 32)].
  apply codes_app; [apply codes_z|fixed|by apply (apart_sp _ _ 44)].
Qed.
Lemma reads_variants l n vs defs st : l ≠ LCSharp → name_ok n → Forall (λ v, docs_ok ws v.1.1 ∧ wordy v.1.2) vs →
  reads (flat_map (c_variant ws l n) vs) defs st (on st (map ETok (flat_map (variant_toks l n) vs))) defs st.
Proof.
  intros Hl Hn Hv. rewrite map_flat.
  assert (E : on st (flat_map (λ x, map ETok (variant_toks l n x)) vs) = flat_map (λ x, on st (map ETok (variant_toks l n x))) vs).
  { clear Hv. induction vs as [|v vs IH]; [apply on_nil|]. cbn [flat_map]. by rewrite on_app, IH. }
  rewrite E. apply reads_flat. eapply Forall_impl; [exact Hv|]. intros v H. by apply reads_variant.
Qed.

(** *** Directives *)
Lemma ws_solid c : c < 128 → ascii_ws c = false → ws c = false.
Proof. intros H E. by rewrite HW. Qed.
Lemma reads_if (neg : bool) (s : string) defs st : s = (if neg then "#ifndef DOXYGEN" else "#ifdef DOXYGEN")%string →
  reads (out_line ws 0 (chars s)) defs st [] defs (xorb neg (bool_decide (chars "DOXYGEN" ∈ defs)) :: st).
Proof.
  intros ->. rewrite (out_line_const ws 0 _ 78); [|by destruct neg|by apply ws_solid|by destruct neg; apply no10].
  change (indentation 0 ++ ?x) with x. apply reads_directive; [by destruct neg; apply no10|by destruct neg|by destruct neg|].
  intros ls. cbn [pp].
  replace (c_line_of (chars (if neg then "#ifndef DOXYGEN" else "#ifdef DOXYGEN"))) with (LIf neg (chars "DOXYGEN"))
    by (by destruct neg).
  by rewrite opt_nil.
Qed.
Lemma reads_endif b defs st : reads (out_line ws 0 (chars "#endif")) defs (b :: st) [] defs st.
Proof.
  rewrite (out_line_const ws 0 _ 102); [|done|by apply ws_solid|by apply no10].
  change (indentation 0 ++ ?x) with x. apply reads_directive; [by apply no10|done|done|].
  intros ls. cbn [pp]. change (c_line_of (chars "#endif")) with LEndif. by rewrite opt_nil.
Qed.
Lemma reads_include (s t : string) defs st : c_line_of (chars s) = LInclude (chars t) →
  10 ∉ chars s → last (chars s) ≠ Some 92 → read c_newline Code (chars s) = (Code, chars s) →
  reads (chars s ++ eol) defs st (on st [EInclude (chars t)]) defs st.
Proof.
  intros E H1 H2 H3. apply reads_directive; [done..|]. intros ls. cbn [pp]. by rewrite E.
Qed.

Lemma skip_word s r : wordy s → skip (s ++ r) = s ++ r.
Proof.
  intros [Hs H]. destruct s as [|c s]; [done|]. inversion_clear H as [|? ? Hc]. cbn [app skip].
  assert (E : ascii_ws c = false) by (unfold word_char, ascii_ws in *; lia). by rewrite E.
Qed.
Lemma word_app s r : letters s → (∀ c, head r = Some c → word_char c = false) → word (s ++ r) = (s, r).
Proof.
  intros Hs Hr. induction Hs as [|c s Hc _ IH]; cbn [app word].
  - destruct r as [|c r]; [done|]. cbn [word]. by rewrite (Hr c).
  - by rewrite Hc, IH.
Qed.
Lemma define_line n v : name_ok n → c_line_of (chars "#define " ++ chars n ++ 32 :: v) = LDefine (chars n) (lex (32 :: v)).
Proof.
  intros Hn. unfold c_line_of. change (chars "#define " ++ ?x) with (35 :: chars "define" ++ 32 :: x).
  set (x := chars n ++ 32 :: v). cbn [skip]. change (ascii_ws 35) with false. cbv iota. rewrite N.eqb_refl.
  rewrite skip_word by (by apply fixed_wordy). rewrite word_app; [|by apply letters_fixed|by intros c [= <-]].
  change (is (chars "define") "include") with false. change (is (chars "define") "endif") with false. cbv iota.
  cbn [skip]. change (ascii_ws 32) with true. cbv iota. subst x. rewrite skip_word by done.
  rewrite word_app; [|apply Hn|by intros c [= <-]].
  change (is (chars "define") "ifdef") with false. change (is (chars "define") "ifndef") with false.
  change (is (chars "define") "define") with true. done.
Qed.
Lemma reads_define n v ts defs st : name_ok n → has v ts → read c_newline Code v = (Code, v) → 10 ∉ v →
  (∃ c, last v = Some c ∧ ws c = false ∧ c ≠ 92) →
  reads (out_line ws 0 (chars "#define " ++ chars n ++ chars " " ++ v)) defs st (on st [EDefine (chars n) ts])
    (if forallb id st then chars n :: defs else defs) st.
Proof.
  intros Hn Hv Rv Nv (c & Lc & Wc & Bc). change (chars " " ++ v) with (32 :: v).
  set (a := chars "#define " ++ chars n ++ 32 :: v).
  assert (La : last a = Some c).
  { subst a. destruct v as [|x v]; [done|].
    replace (chars "#define " ++ chars n ++ 32 :: x :: v) with ((chars "#define " ++ chars n ++ [32]) ++ x :: v) by (by rewrite <-!app_assoc).
    by rewrite last_app, Lc. }
  assert (Na : 10 ∉ a).
  { subst a. apply no10_app; [by apply no10|]. apply no10_app; [by apply word_no10, Hn|]. by apply not_elem_of_cons. }
  rewrite (out_line_const ws 0 a c) by done. change (indentation 0 ++ ?x) with x.
  apply reads_directive; [done|congruence| |].
  - assert (Ra : ∀ b, plain b → read c_newline Code (b ++ v) = (Code, b ++ v)).
    { intros b Hb. rewrite read_app, plain_read by done. cbn [fst snd]. by rewrite Rv. }
    subst a. replace (chars "#define " ++ chars n ++ 32 :: v) with ([35] ++ (chars "define " ++ chars n ++ [32]) ++ v) by (by rewrite <-!app_assoc).
    rewrite read_app. change (read c_newline Code [35]) with (Code, [35]). cbn [fst snd]. rewrite Ra; [done|].
    apply plain_app. split; [by apply plain_fixed|]. apply plain_app. split; [by apply wordy_plain|by repeat constructor].
  - intros ls. subst a. cbn [pp]. rewrite define_line by done.
    replace (lex (32 :: v)) with ts; [by unfold on; destruct (forallb id st)|]. symmetry. refine (proj1 (has_blank [] 32 v ts _ Hv _)); [done|by left].
Qed.

(** *** All of them *)
Lemma reads_remark i defs st : reads (out_line ws 0 (chars "/** \remark Has the same ABI as `" ++ name_of LC (XInt i) ++ chars "` **/")) defs st [] defs st.
Proof.
  rewrite (out_line_const ws 0 _ 47); [|by destruct i|by apply ws_solid|by destruct i; apply no10].
  change (indentation 0 ++ ?x) with x. rewrite app_assoc.
  replace (@nil ev) with (on st (map ETok (lex [32]))) by (by rewrite on_nil).
  apply reads_code; [by destruct i|by destruct i|by destruct i|by repeat constructor].
Qed.
Lemma out_newline a b : DocModel.out ws (a ++ 10 :: b) = DocModel.out ws a ++ 10 :: DocModel.out ws b.
Proof.
  unfold DocModel.out. rewrite split_app, map_app.
  assert (H : ∀ l m, l ≠ [] → m ≠ [] → join 10 (l ++ m) = join 10 l ++ 10 :: join 10 m).
  { intros l m Hl Hm. induction l as [|x l IH]; [done|]. destruct l as [|y l].
    - destruct m; [done|]. done.
    - change (join 10 ((x :: y :: l) ++ m)) with (x ++ 10 :: join 10 ((y :: l) ++ m)). rewrite IH by done.
      change (join 10 (x :: y :: l)) with (x ++ 10 :: join 10 (y :: l)). by rewrite <-app_assoc. }
  apply H; intros E%map_eq_nil; by apply split_ne in E.
Qed.
Lemma out_solid a b c : last a = Some c → ws c = false → 10 ∉ a → DocModel.out ws (a ++ b) = a ++ DocModel.out ws b.
Proof.
  intros La Wc Na. unfold DocModel.out.
  assert (E : ∃ p ps, split 10 b = p :: ps ∧ split 10 (a ++ b) = (a ++ p) :: ps).
  { clear La. induction a as [|x a IH].
    - cbn [app]. destruct (split 10 b) as [|p ps] eqn:E; [by apply split_ne in E|]. by exists p, ps.
    - apply not_elem_of_cons in Na as [Nx Na]. destruct (IH Na) as (p & ps & E1 & E2). exists p, ps. split; [done|].
      cbn [app split]. rewrite E2. by destruct (x =? 10) eqn:Ex; [apply N.eqb_eq in Ex; subst|]. }
  destruct E as (p & ps & -> & ->). cbn [map]. rewrite (trim_end_app ws a p c) by done.
  destruct (map (trim_end ws) ps) as [|q qs]; [done|].
  change (join 10 ((a ++ ?x) :: q :: qs)) with ((a ++ x) ++ 10 :: join 10 (q :: qs)). by rewrite <-app_assoc.
Qed.
Lemma reads_commented pre w defs st : plain pre → plain w →
  reads (out_line ws 0 (pre ++ 10 :: chars "/* fn */" ++ w)) defs st (on st (map ETok (lex pre ++ lex w))) defs st.
Proof.
  intros Hp Hw. unfold out_line. change (indentation 0 ++ ?x) with x. rewrite out_snoc.
  fold (DocModel.out ws (pre ++ 10 :: chars "/* fn */" ++ w)). rewrite out_newline.
  rewrite (out_solid (chars "/* fn */") w 47); [|done|by apply ws_solid|by apply no10].
  pose proof (plain_out ws HW pre Hp) as Hp'. pose proof (plain_out ws HW w Hw) as Hw'.
  rewrite <-(lex_out ws HW pre), <-(lex_out ws HW w) by done.
  set (p' := DocModel.out ws pre) in *. set (w' := DocModel.out ws w) in *.
  replace (lex p' ++ lex w') with (lex (p' ++ 10 :: 32 :: w')).
  - apply reads_code.
    + apply splice_plain. intros [H|H]%elem_of_app; [by apply (plain_no p' 92)|].
      apply elem_of_cons in H as [H|H]; [done|]. apply elem_of_app in H as [H|H]; [|by apply (plain_no w' 92)].
      revert H. apply (bool_decide_unpack _). by vm_compute.
    + rewrite last_app. assert (Hl := plain_last w' Hw'). change (10 :: chars "/* fn */" ++ w') with ((10 :: chars "/* fn */") ++ w').
      rewrite last_app. destruct (last w') as [x|]; [done|]. done.
    + rewrite read_app, plain_read by done. cbn [fst snd].
      change (10 :: chars "/* fn */" ++ w') with ((10 :: chars "/* fn */") ++ w'). rewrite read_app.
      change (read c_newline Code (10 :: chars "/* fn */")) with (Code, [10; 32]). cbn [fst snd].
      by rewrite plain_read.
    + apply plain_app. split; [done|]. by repeat constructor.
  - rewrite lex_app; [|done|by repeat constructor|by apply (apart_sp _ _ 10)].
    by rewrite !lex_blank by (done || by repeat constructor).
Qed.

Lemma reads_fn fn_style l d n args r defs st : l ≠ LCSharp → decl_ok (YFn d n args r) →
  reads (c_fn ws fn_style l d n args r) defs st (on st (map ETok (decl_toks false l (YFn d n args r)))) defs st.
Proof.
  intros Hl (Hd & Hn & Ha & Hr). unfold c_fn. apply reads_skip; [by apply reads_emit|]. apply reads_end.
  cbn [decl_toks]. unfold fn_toks.
  set (ps := match args with [] => chars "void" | _ => joined (chars ",") (map (λ a, eol ++ indentation 4 ++ wrap l a.2 (chars a.1)) args) end).
  set (pt := match map (λ a : string * xty, (a.1, erase a.2)) args with [] => [TkId "void"] | _ =>
      commas (map (λ a, var_toks l a.2 [TkId a.1]) (map (λ a : string * xty, (a.1, erase a.2)) args)) end).
  assert (HP : codes ps (map tk pt)).
  { subst ps pt. destruct args as [|a args]; [fixed|]. rewrite map_map.
    apply (codes_joined (chars ",") (λ a : string * xty, eol ++ indentation 4 ++ wrap l a.2 (chars a.1)) (λ a : string * xty, var_toks l (erase a.2) [TkId a.1]) (a :: args)); [fixed|by exists 44|by exists 44|].
    eapply Forall_impl; [exact Ha|]. intros [x t] [Hx Ht]. cbn [fst snd] in *.
    pose proof (w_codes _ _ (wrap_wraps l t Hl Ht) (chars x) [TkId x] (codes_name x Hx)) as [H1 H2].
    split; [|rewrite <-H2].
    - constructor; [done|]. apply plain_app. split; [apply plain_indent|done].
    - change (eol ++ ?y) with (10 :: y). rewrite lex_blank; [by apply lex_indent|done|].
      apply plain_app. split; [apply plain_indent|done]. }
  set (body := chars n ++ chars " (" ++ ps ++ chars ")").
  assert (HB : codes body (map tk (TkId n :: TkLp :: pt ++ [TkRp]))).
  { change (map tk (TkId n :: TkLp :: pt ++ [TkRp])) with ([wd n] ++ [Pn 40] ++ map tk (pt ++ [TkRp])). rewrite map_app.
    apply codes_app; [by apply codes_name| |by apply (apart_sp _ _ 32)].
    apply codes_app; [fixed| |by apply (apart_pn _ _ 40)].
    apply codes_app; [done|fixed|by apply (apart_sp _ _ 41)]. }
  destruct (wrap_wraps l r Hl Hr) as [W1 (pre & post & P1 & P2 & P3 & P4 & P5) _].
  assert (HS : ∀ v, codes v (map tk (TkId n :: TkLp :: pt ++ [TkRp])) →
    codes (wrap l r v ++ chars ";") (map tk (var_toks l (erase r) (TkId n :: TkLp :: pt ++ [TkRp])) ++ [semi])).
  { intros v Hv. apply codes_app; [by apply W1|fixed|by apply (apart_sp _ _ 59)]. }
  assert (HN : ∀ c v ts, ascii_ws c = true → plainc c = true → codes v ts → codes (c :: v) ts).
  { intros c v ts H1 H2 [H3 H4]. split; [by constructor|]. by rewrite lex_blank. }
  unfold c_signature. fold ps. fold body.
  destruct (match l with LC => fn_style | _ => false end) eqn:E.
  - destruct l; try done. subst fn_style. change (eol ++ chars "/* fn */ " ++ body) with (10 :: chars "/* fn */" ++ 32 :: body).
    rewrite P5, <-!app_assoc by done.
    change ((10 :: chars "/* fn */" ++ 32 :: body) ++ post ++ chars ";") with (10 :: chars "/* fn */" ++ (32 :: body ++ post ++ chars ";")).
    pose proof (HS (10 :: 32 :: body) ltac:(by apply HN, HN)) as [H1 H2]. rewrite P5, <-!app_assoc in H1, H2 by done.
    cbn [app] in H1, H2. apply plain_app in H1 as [_ H1].
    inversion_clear H1 as [|? ? _ H1']. inversion_clear H1' as [|? ? _ H1].
    rewrite <-H2.
    replace (lex (pre ++ 10 :: 32 :: body ++ post ++ chars ";")) with (lex pre ++ lex (32 :: body ++ post ++ chars ";")).
    { apply reads_commented; [done|by constructor]. }
    rewrite (lex_app pre); [|done|by repeat constructor|by apply (apart_sp _ _ 10)].
    by rewrite (lex_blank 10) by (done || by repeat constructor).
  - apply reads_codes.
    replace (eol ++ _ ++ body) with (10 :: body); [apply HS; by apply HN|]. destruct l; by try subst fn_style.
Qed.

Lemma reads_struct l d n fs defs st : l ≠ LCSharp → decl_ok (YStruct d n fs) →
  reads (c_struct ws l d n fs) defs st (on st (map ETok (decl_toks false l (YStruct d n fs)))) defs st.
Proof.
  intros Hl (Hd & Hn & Hf). unfold c_struct. apply reads_skip; [by apply reads_emit|]. cbn [decl_toks].
  set (mid := flat_map (λ f : field, map tk (var_toks l (erase f.2) [TkId f.1.2]) ++ [semi]) fs).
  change (wd "typedef" :: wd "struct" :: wd n :: lbrace :: mid ++ [rbrace; wd (suffixed n); semi])
    with ([wd "typedef"; wd "struct"; wd n; lbrace] ++ mid ++ [rbrace; wd (suffixed n); semi]).
  rewrite !map_app, !on_app. eapply reads_app; [|eapply reads_app].
  - apply reads_codes.
    apply (codes_between "typedef struct " n " {" [wd "typedef"; wd "struct"] [lbrace]); [fixed|by exists 32|done|fixed|by exists 32].
  - subst mid. rewrite map_flat, on_flat. unfold fields_text. apply reads_joined. eapply Forall_impl; [exact Hf|].
    intros [[fd fn] t] (H1 & H2 & H3). cbn [fst snd] in *. unfold c_field. apply reads_skip; [by apply reads_emit|].
    apply reads_codes. apply codes_app; [|fixed|by apply (apart_sp _ _ 59)].
    apply (w_codes _ _ (wrap_wraps l t Hl H3) (chars fn) [TkId fn]). by apply codes_name.
  - apply reads_end. apply reads_codes.
    apply (codes_between "} " (suffixed n) ";" [rbrace] [semi]); [fixed|by exists 32|by apply suffixed_wordy|fixed|by exists 59].
Qed.
Lemma reads_arr n t len defs st : decl_ok (YArr n t len) →
  reads (c_arr n t len) defs st (on st (map ETok (decl_toks false LC (YArr n t len)))) defs st.
Proof.
  intros (Hn & Ht). unfold c_arr. cbn [decl_toks].
  set (v := chars "idx[" ++ num_text len ++ chars "]").
  replace (chars "typedef struct {" ++ eol ++ chars "    " ++ c_text t v ++ chars ";" ++ eol ++ chars "} " ++ chars n ++ chars ";" ++ eol ++ eol)
    with (((chars "typedef struct {" ++ eol ++ chars "    " ++ c_text t v ++ chars ";" ++ eol ++ chars "} " ++ chars n ++ chars ";") ++ [10]) ++ eol)
    by (by rewrite <-!app_assoc).
  apply reads_end.
  assert (HV : codes v (map tk [TkId "idx"; TkLb; TkNum len; TkRb])).
  { change (map tk [TkId "idx"; TkLb; TkNum len; TkRb]) with ([wd "idx"; Pn 91] ++ [Wd (num_text len)] ++ [Pn 93]).
    apply codes_app; [fixed| |by apply (apart_pn _ _ 91)]. apply codes_app; [apply codes_num|fixed|by apply (apart_sp _ _ 93)]. }
  assert (H : codes (chars "typedef struct {" ++ eol ++ chars "    " ++ c_text t v ++ chars ";" ++ eol ++ chars "} " ++ chars n ++ chars ";")
    (wd "typedef" :: wd "struct" :: lbrace :: map tk (array_text (erase t) len) ++ [semi; rbrace; wd n; semi])).
  { change (wd "typedef" :: wd "struct" :: lbrace :: ?x) with ([wd "typedef"; wd "struct"; lbrace] ++ [] ++ [] ++ x).
    apply codes_app; [fixed| |by apply (apart_sp _ _ 10)].
    apply codes_app; [fixed| |by apply (apart_pn _ _ 10)].
    apply codes_app; [fixed| |by apply (apart_pn _ _ 32)].
    change [semi; rbrace; wd n; semi] with ([semi] ++ [] ++ [rbrace] ++ [wd n] ++ [semi]).
    apply codes_app; [by apply (w_codes _ _ (c_wraps t Ht))| |by apply (apart_sp _ _ 59)].
    apply codes_app; [fixed| |by apply (apart_sp _ _ 10)].
    apply codes_app; [fixed| |by apply (apart_pn _ _ 10)].
    apply codes_app; [fixed| |by apply (apart_pn _ _ 32)].
    apply codes_app; [by apply codes_name|fixed|by apply (apart_sp _ _ 59)]. }
  destruct H as [H1 H2]. rewrite <-H2. apply reads_plain. done.
Qed.
Lemma reads_typedef_enum l n vs defs st : l ≠ LCSharp → name_ok n → Forall (λ v, docs_ok ws v.1.1 ∧ wordy v.1.2) vs →
  reads (out_line ws 0 (chars "typedef enum " ++ chars n ++ chars " {") ++ flat_map (c_variant ws l n) vs ++
         out_line ws 0 (chars "} " ++ chars (suffixed n) ++ chars ";")) defs st
    (on st (map ETok (wd "typedef" :: enum_toks l n vs ++ [wd (suffixed n); semi]))) defs st.
Proof.
  intros Hl Hn Hv. unfold enum_toks.
  replace (wd "typedef" :: (wd "enum" :: wd n :: lbrace :: flat_map (variant_toks l n) vs ++ [rbrace]) ++ [wd (suffixed n); semi])
    with ([wd "typedef"; wd "enum"; wd n; lbrace] ++ flat_map (variant_toks l n) vs ++ [rbrace; wd (suffixed n); semi])
    by (cbn [app]; by rewrite <-app_assoc).
  rewrite !map_app, !on_app. eapply reads_app; [|eapply reads_app].
  - apply reads_codes.
    apply (codes_between "typedef enum " n " {" [wd "typedef"; wd "enum"] [lbrace]); [fixed|by exists 32|done|fixed|by exists 32].
  - by apply (reads_variants l n vs defs st).
  - apply reads_codes.
    apply (codes_between "} " (suffixed n) ";" [rbrace] [semi]); [fixed|by exists 32|by apply suffixed_wordy|fixed|by exists 59].
Qed.
Lemma reads_enum d n i vs defs st : decl_ok (YEnum d n i vs) →
  reads (c_enum ws d n i vs) defs st (on st (map ETok (decl_toks (bool_decide (chars "DOXYGEN" ∈ defs)) LC (YEnum d n i vs)))) defs st.
Proof.
  intros (Hd & Hn & Hv). unfold c_enum. apply reads_skip; [by apply (reads_emit LC)|]. destruct i as [i|].
  2:{ apply reads_end. exact (reads_typedef_enum LC n vs defs st ltac:(done) Hn Hv). }
  apply reads_end. set (dox := bool_decide (chars "DOXYGEN" ∈ defs)).
  set (intn := name_of LC (XInt i)).
  assert (HI : codes intn [wd (suffixed (int_name i))]).
  { exact (w_codes _ _ (c_wraps (XInt i) I) [] [] codes_nil). }
  assert (E : on st (map ETok (decl_toks dox LC (YEnum d n (Some i) vs))) =
    [] ++ [] ++ on (xorb false dox :: st) (map ETok [wd "typedef"]) ++ [] ++ on st (map ETok [wd "enum"; wd n; lbrace]) ++
    on st (map ETok (flat_map (variant_toks LC n) vs)) ++ on st (map ETok [rbrace]) ++ [] ++
    on (xorb true dox :: st) (map ETok [semi; wd "typedef"; wd (suffixed (int_name i))]) ++ [] ++
    on st (map ETok [wd (suffixed n); semi]) ++ []).
  { rewrite !on_cons. cbn [decl_toks]. unfold enum_toks. unfold on. destruct (forallb id st); [|by destruct dox]. destruct dox; cbn [xorb forallb id andb app map]; rewrite ?map_app; cbn [map app];
      rewrite <-?app_assoc; cbn [app]; rewrite ?map_app, <-?app_assoc; done. }
  rewrite E. unfold block. cbn [flat_map]. rewrite <-!app_assoc.
  eapply reads_app; [apply reads_remark|].
  eapply reads_app; [by apply (reads_if false)|].
  eapply reads_app; [apply reads_codes; fixed|].
  eapply reads_app; [apply reads_endif|].
  eapply reads_app.
  { apply reads_codes.
    apply (codes_between "enum " n " {" [wd "enum"] [lbrace]); [fixed|by exists 32|done|fixed|by exists 32]. }
  match goal with |- reads ([] ++ ?x) ?a ?b ?c ?d ?e => change (reads x a b c d e) end.
  eapply reads_app; [by apply (reads_variants LC n vs defs st)|].
  eapply reads_app.
  { apply reads_codes. fixed. }
  eapply reads_app; [by apply (reads_if true)|].
  eapply reads_app.
  { apply reads_codes. change [semi; wd "typedef"; wd (suffixed (int_name i))] with ([semi; wd "typedef"] ++ [wd (suffixed (int_name i))]).
    apply codes_app; [fixed|done|by apply (apart_pn _ _ 32)]. }
  eapply reads_app; [apply reads_endif|].
  eapply reads_app; [|apply reads_nil].
  apply reads_codes.
  change [wd (suffixed n); semi] with ([wd (suffixed n)] ++ [semi]).
  apply codes_app; [by apply codes_name, suffixed_wordy|fixed|by apply (apart_sp _ _ 59)].
Qed.
Lemma reads_const d n t u v defs st : decl_ok (YConst d n t u v) →
  reads (c_const ws d n t u v) defs st (on st (expected false LC (YConst d n t u v)))
    (if forallb id st then chars n :: defs else defs) st.
Proof.
  intros (Hd & Hn & _ & Ht & Rv & Lv & Nv & Ev). unfold c_const. apply reads_skip; [by apply (reads_emit LC)|].
  apply reads_end. cbn [expected]. assert (HV : has v (lex v)) by (by split).
  destruct u; [by apply reads_define|].
  destruct (c_wraps t Ht) as [W1 _ W3]. pose proof (W1 [] [] codes_nil) as [T1 T2].
  change (name_of LC t) with (c_text t []).
  apply reads_define; [done| | | |].
  - change ([Pn 40; Pn 40] ++ ?x) with ([Pn 40; Pn 40] ++ x).
    apply has_app; [by apply has_lex| |by apply (apart_pn _ _ 40)].
    apply has_app; [| |by apply (apart_sp _ _ 41)].
    { unfold type_text. rewrite <-T2. by apply plain_has. }
    apply has_app; [by apply (has_lex (chars ") "))| |by apply (apart_pn _ _ 32)].
    apply has_app; [done|by apply (has_lex (chars ")"))|by apply (apart_sp _ _ 41)].
  - rewrite read_app. change (read c_newline Code (chars "((")) with (Code, chars "(("). cbn [fst snd].
    rewrite read_app, plain_read by done. cbn [fst snd]. rewrite read_app.
    change (read c_newline Code (chars ") ")) with (Code, chars ") "). cbn [fst snd]. rewrite read_app, Rv. done.
  - apply no10_app; [by apply no10|]. apply no10_app; [done|]. apply no10_app; [by apply no10|].
    apply no10_app; [done|by apply no10].
  - exists 41. split_and!; [|by apply ws_solid|done]. rewrite !app_assoc. by rewrite last_app.
Qed.

Definition agree (a b : list ntext) : Prop := ∀ x, x ∈ asked → bool_decide (x ∈ a) = bool_decide (x ∈ b).
Lemma chars_inj a b : chars a = chars b → a = b.
Proof.
  revert b. induction a as [|c s IH]; intros [|c' n] E; try done.
  cbn [chars] in E. injection E as E1 E2. f_equal; [|by apply IH].
  by rewrite <-(ascii_N_embedding c), <-(ascii_N_embedding c'), E1.
Qed.
Lemma agree_define n defs : chars n ∉ asked → agree (chars n :: defs) defs.
Proof.
  intros Hn x Hx. apply bool_decide_ext. rewrite elem_of_cons. split; [|by right]. intros [->|H]; done.
Qed.

Lemma render_reads P fn_style l y defs st : l ≠ LCSharp → decl_ok y → ∃ defs',
  reads (render P ws fn_style l y) defs st (on st (expected (bool_decide (chars "DOXYGEN" ∈ defs)) l y)) defs' st ∧
  agree defs' defs ∧ (forallb id st = false → defs' = defs).
Proof.
  intros Hl Hy.
  assert (HG : ∀ a es, reads a defs st (on st es) defs st → ∃ defs', reads a defs st (on st es) defs' st ∧
    agree defs' defs ∧ (forallb id st = false → defs' = defs)) by (intros a es H; by exists defs).
  destruct y as [| |d n fs|n t len|d n i vs|d n t|d n|n r args|d n args r|d n t u v]; cbn [render expected].
  - apply HG. unfold ints_text. rewrite !app_assoc. apply reads_end.
    change [EInclude (chars "<stddef.h>"); EInclude (chars "<stdint.h>")] with ([EInclude (chars "<stddef.h>")] ++ [EInclude (chars "<stdint.h>")]).
    rewrite on_app, <-(app_assoc eol). change (((eol ++ chars "#include <stddef.h>" ++ eol) ++ chars "#include <stdint.h>") ++ eol)
      with ((eol ++ (chars "#include <stddef.h>" ++ eol)) ++ (chars "#include <stdint.h>" ++ eol)).
    eapply reads_app; [apply reads_skip; [apply reads_eol|]|]; (apply reads_include; [done|by apply no10|done|done]).
  - apply HG. unfold bool_text. apply reads_skip; [apply reads_eol|]. rewrite app_assoc. apply reads_end.
    apply reads_include; [done|by apply no10|done|done].
  - apply HG. destruct l; [|done|]; by apply (reads_struct _ d n fs).
  - apply HG. destruct l; [|done|]; by apply (reads_arr n t len).
  - apply HG. destruct l; [by apply reads_enum|done|]. unfold py_enum. rewrite !app_assoc. apply reads_end.
    rewrite <-!app_assoc. destruct Hy as (_ & Hn & Hv). by apply reads_typedef_enum.
  - apply HG. destruct Hy as (Hd & Hn & Ht). apply reads_skip; [by apply (reads_emit LC)|]. apply reads_end.
    apply reads_codes. cbn [decl_toks]. unfold alias_text.
    rewrite map_app, <-app_assoc. cbn [map app]. change (tk (TkId n)) with (wd n).
    change (wd "typedef" :: map tk (c_var (erase t) []) ++ [wd n; semi])
      with ([wd "typedef"] ++ map tk (c_var (erase t) []) ++ [] ++ [wd n] ++ [semi]).
    apply codes_app; [fixed| |by apply (apart_pn _ _ 32)].
    apply codes_app; [exact (w_codes _ _ (c_wraps t Ht) [] [] codes_nil)| |by apply (apart_sp _ _ 32)].
    apply codes_app; [fixed| |by apply (apart_pn _ _ 32)].
    apply codes_app; [by apply codes_name|fixed|by apply (apart_sp _ _ 59)].
  - apply HG. destruct Hy as (Hd & Hn). destruct l; [|done|].
    + apply reads_skip; [by apply (reads_emit LC)|]. apply reads_end. apply reads_codes.
      change (decl_toks _ LC (YOpaque d n)) with ([wd "typedef"; wd "struct"] ++ [wd n] ++ [] ++ [wd (suffixed n)] ++ [semi]).
      apply codes_app; [fixed| |by apply (apart_pn _ _ 32)].
      apply codes_app; [by apply codes_name| |by apply (apart_sp _ _ 32)].
      apply codes_app; [fixed| |by apply (apart_pn _ _ 32)].
      apply codes_app; [by apply codes_name, suffixed_wordy|fixed|by apply (apart_sp _ _ 59)].
    + apply reads_end. apply reads_codes.
      apply (codes_between "typedef ... " (suffixed n) ";" (wd "typedef" :: dots) [semi]); [fixed|by exists 32|by apply suffixed_wordy|fixed|by exists 59].
  - done.
  - apply HG. destruct l; [|done|]; by apply reads_fn.
  - exists (if forallb id st then chars n :: defs else defs). split_and!.
    + destruct l; [by apply reads_const|done|]. destruct Hy as (_ & Hn & _). unfold py_const. apply reads_end.
      apply (reads_define n (chars "...")); [done|by apply has_lex|done|by apply no10|]. exists 46. split_and!; [done|by apply ws_solid|done].
    + destruct (forallb id st); [|done]. apply agree_define. by destruct Hy as (_ & _ & ? & _).
    + by intros ->.
Qed.

Lemma body_reads P fn_style ds st : Forall (λ d : lang * xdecl, d.1 ≠ LCSharp ∧ decl_ok d.2) ds → ∀ defs, ∃ defs',
  reads (body_text P ws fn_style ds) defs st
    (on st (flat_map (λ d : lang * xdecl, expected (bool_decide (chars "DOXYGEN" ∈ defs)) d.1 d.2) ds)) defs' st ∧
  agree defs' defs ∧ (forallb id st = false → defs' = defs).
Proof.
  intros H. induction H as [|d ds [Hl Hd] _ IH]; intros defs; [exists defs; split; [rewrite on_nil; apply reads_nil|done]|].
  destruct (render_reads P fn_style d.1 d.2 defs st Hl Hd) as (defs1 & H1 & E1 & K1).
  destruct (IH defs1) as (defs2 & H2 & E2 & K2). exists defs2. unfold body_text. cbn [flat_map]. split_and!.
  - assert (E : bool_decide (chars "DOXYGEN" ∈ defs1) = bool_decide (chars "DOXYGEN" ∈ defs)) by (apply E1; by left).
    rewrite on_app. rewrite E in H2. by eapply reads_app.
  - intros x Hx. by rewrite E2, E1.
  - intros E. rewrite K2, K1; done.
Qed.

(** ** The frame *)

Lemma reads_any a a' defs st es defs' st' : 10 ∉ a → last a ≠ Some 92 → read c_newline Code a = (Code, a') → 10 ∉ a' →
  (∀ ls, pp defs st (a' :: ls) = option_map (app es) (pp defs' st' ls)) → reads (a ++ [10]) defs st es defs' st'.
Proof.
  intros Ha La Ra Ha' Hp rest. rewrite <-app_assoc. cbn [app]. rewrite (reads_line a a') by done.
  unfold read_from. destruct (read c_newline Code (splice rest)) as [m s]. by destruct m.
Qed.
(** A fixed line. *)
Lemma reads_fixed a a' defs st es defs' st' :
  forallb (λ c, negb (c =? 10)) a && forallb (λ c, negb (c =? 10)) a' && negb (bool_decide (last a = Some 92)) &&
    bool_decide ((read c_newline Code a).2 = a') && match (read c_newline Code a).1 with Code => true | _ => false end = true →
  (∀ ls, pp defs st (a' :: ls) = option_map (app es) (pp defs' st' ls)) → reads (a ++ [10]) defs st es defs' st'.
Proof.
  intros H Hp. apply andb_prop in H as [H H5]. apply andb_prop in H as [H H4]. apply andb_prop in H as [H H3].
  apply andb_prop in H as [H1 H2]. apply bool_decide_eq_true in H4. apply (reads_any a a'); [by apply no10| | |by apply no10|done].
  - intros E. rewrite bool_decide_eq_true_2 in H3 by done. done.
  - destruct (read c_newline Code a) as [m o]. cbn [fst snd] in *. subst o. by destruct m.
Qed.
Lemma of_text_app a b : of_text (a ++ b) = of_text a ++ of_text b.
Proof. apply map_app. Qed.
Lemma of_text_cons a b : of_text (a :: b) = N_of_ascii a :: of_text b.
Proof. done. Qed.

Lemma banner_reads defs st : reads (of_text (FrameModel.default_banner ++ [FrameModel.nl])) defs st [] defs st.
Proof.
  rewrite of_text_app. apply reads_end.
  set (b := of_text FrameModel.default_banner).
  assert (E : ∃ a a', b = a ++ [10] ∧ splice a = a ∧ last a ≠ Some 92 ∧ read c_newline Code a = (Code, a') ∧
    forallb plainc a' = true ∧ lex a' = []).
  { exists (removelast b). eexists. split_and!; [by vm_compute|by vm_compute|by vm_compute|by vm_compute|by vm_compute|by vm_compute]. }
  destruct E as (a & a' & -> & H1 & H2 & H3 & H4 & H5). pose proof (reads_code a a' defs st H1 H2 H3 (plain_fixed _ H4)) as H.
  by rewrite H5, on_nil in H.
Qed.

Section frame.
Context (g : FrameModel.text) (Hg : wordy (of_text g)) (Ha : of_text g ∉ asked).
Let G := of_text g.

Lemma skip_all : skip G = G.
Proof. pose proof (skip_word G [] Hg) as H. by rewrite !app_nil_r in H. Qed.
Lemma word_all : word G = (G, []).
Proof. pose proof (word_app G [] (proj2 Hg) ltac:(done)) as H. by rewrite !app_nil_r in H. Qed.
Lemma reads_guard defs st : reads (chars "#ifndef " ++ G ++ [10]) defs st [] defs (negb (bool_decide (G ∈ defs)) :: st).
Proof.
  assert (HN : 10 ∉ chars "#ifndef " ++ G) by (apply no10_app; [by apply no10|by apply word_no10, Hg]).
  assert (HL : ∃ c, last (chars "#ifndef " ++ G) = Some c ∧ word_char c = true).
  { rewrite last_app. destruct Hg as [H1 H2]. destruct (last G) as [c|] eqn:E; [|by apply last_None in E].
    exists c. split; [done|]. apply last_Some_elem_of in E. rewrite Forall_forall in H2. by apply H2. }
  rewrite app_assoc. apply (reads_any _ (chars "#ifndef " ++ G)); [done| | |done|].
  - destruct HL as (c & -> & Hc). intros [= ->]. done.
  - rewrite read_app. change (read c_newline Code (chars "#ifndef ")) with (Code, chars "#ifndef "). cbn [fst snd].
    by rewrite plain_read by (by apply wordy_plain).
  - intros ls. cbn [pp].
    assert (E : c_line_of (chars "#ifndef " ++ G) = LIf true G).
    { unfold c_line_of. change (chars "#ifndef " ++ G) with (35 :: chars "ifndef" ++ 32 :: G).
      cbn [skip]. change (ascii_ws 35) with false. cbv iota. rewrite N.eqb_refl.
      rewrite skip_word by (by apply fixed_wordy). rewrite word_app; [|by apply letters_fixed|by intros c [= <-]].
      change (is (chars "ifndef") "include") with false. change (is (chars "ifndef") "endif") with false. cbv iota.
      cbn [skip]. change (ascii_ws 32) with true. cbv iota. by rewrite skip_all, word_all. }
    rewrite E. rewrite opt_nil. by destruct (bool_decide _).
Qed.
Lemma reads_define_guard defs st : reads (chars "#define " ++ G ++ [10]) defs st (on st [EDefine G []])
  (if forallb id st then G :: defs else defs) st.
Proof.
  assert (HN : 10 ∉ chars "#define " ++ G) by (apply no10_app; [by apply no10|by apply word_no10, Hg]).
  assert (HL : ∃ c, last (chars "#define " ++ G) = Some c ∧ word_char c = true).
  { rewrite last_app. destruct Hg as [H1 H2]. destruct (last G) as [c|] eqn:E; [|by apply last_None in E].
    exists c. split; [done|]. apply last_Some_elem_of in E. rewrite Forall_forall in H2. by apply H2. }
  rewrite app_assoc. apply (reads_any _ (chars "#define " ++ G)); [done| | |done|].
  - destruct HL as (c & -> & Hc). intros [= ->]. done.
  - rewrite read_app. change (read c_newline Code (chars "#define ")) with (Code, chars "#define "). cbn [fst snd].
    by rewrite plain_read by (by apply wordy_plain).
  - intros ls. cbn [pp].
    assert (E : c_line_of (chars "#define " ++ G) = LDefine G []).
    { unfold c_line_of. change (chars "#define " ++ G) with (35 :: chars "define" ++ 32 :: G).
      cbn [skip]. change (ascii_ws 35) with false. cbv iota. rewrite N.eqb_refl.
      rewrite skip_word by (by apply fixed_wordy). rewrite word_app; [|by apply letters_fixed|by intros c [= <-]].
      change (is (chars "define") "include") with false. change (is (chars "define") "endif") with false. cbv iota.
      cbn [skip]. change (ascii_ws 32) with true. cbv iota. by rewrite skip_all, word_all. }
    rewrite E. by unfold on; destruct (forallb id st).
Qed.
Lemma reads_endif_guard b defs st : reads (chars "#endif /* " ++ G ++ chars " */" ++ [10]) defs (b :: st) [] defs st.
Proof.
  rewrite (app_assoc G), (app_assoc (chars "#endif /* ")).
  apply (reads_any _ (chars "#endif  ")).
  - apply no10_app; [by apply no10|]. apply no10_app; [by apply word_no10, Hg|by apply no10].
  - rewrite app_assoc, last_app. done.
  - rewrite read_app. change (read c_newline Code (chars "#endif /* ")) with (Block false, chars "#endif  "). cbn [fst snd].
    rewrite read_app.
    assert (E : ∀ s b, letters s → (s = [] → b = false) → read c_newline (Block b) s = (Block false, [])).
    { clear. intros s b Hs. revert b. induction Hs as [|c s Hc Hs IH]; intros b Hb; [by rewrite Hb|]. cbn [read step].
      assert (b && (c =? 47) = false) as -> by (unfold word_char in Hc; lia).
      assert ((c =? 42) = false) as -> by (unfold word_char in Hc; lia). by rewrite IH. }
    rewrite E; [done|apply Hg|done].
  - by apply no10.
  - intros ls. cbn [pp]. change (c_line_of (chars "#endif  ")) with LEndif. by rewrite opt_nil.
Qed.

Lemma prelude_reads defs :
  reads (of_text (FrameModel.c_prelude g [] ++ [FrameModel.nl])) defs []
    (if bool_decide (G ∈ defs) then [] else
      EDefine G [] :: if bool_decide (chars "__cplusplus" ∈ defs) then extern_c else [])
    (if bool_decide (G ∈ defs) then defs else G :: defs) [negb (bool_decide (G ∈ defs))].
Proof.
  assert (ET : of_text (FrameModel.c_prelude g [] ++ [FrameModel.nl]) =
    (chars "#ifndef " ++ G ++ [10]) ++ (chars "#define " ++ G ++ [10]) ++ (chars "#ifdef __cplusplus" ++ [10]) ++
    (chars "extern " ++ [34; 67; 34] ++ chars " {" ++ [10]) ++ (chars "#endif" ++ [10]) ++ eol).
  { unfold FrameModel.c_prelude, FrameModel.lines. repeat (rewrite of_text_app || rewrite of_text_cons).
    rewrite <-!app_assoc. repeat (progress cbn [app] || rewrite <-!app_assoc). reflexivity. }
  rewrite ET. clear ET.
  set (b := bool_decide (G ∈ defs)). set (defs' := if b then defs else G :: defs).
  set (cpp := bool_decide (chars "__cplusplus" ∈ defs)).
  assert (EC : bool_decide (chars "__cplusplus" ∈ defs') = cpp).
  { subst defs' cpp. destruct b; [done|]. apply bool_decide_ext. rewrite elem_of_cons. split; [|by right].
    intros [E|?]; [|done]. destruct Ha. fold G. rewrite <-E. right. by left. }
  replace (if b then [] else EDefine G [] :: (if cpp then extern_c else [])) with
    ([] ++ on [negb b] [EDefine G []] ++ [] ++ on [cpp; negb b] extern_c ++ [] ++ []) by (by destruct b, cpp).
  eapply reads_app; [apply reads_guard|].
  eapply (reads_app _ _ _ _ _ defs'); [|].
  { assert (ED : (if forallb id [negb (bool_decide (G ∈ defs))] then G :: defs else defs) = defs').
    { unfold defs', b. by destruct (bool_decide (G ∈ defs)). }
    rewrite <-ED. apply reads_define_guard. }
  eapply (reads_app _ _ _ _ _ _ [cpp; negb b]).
  { apply (reads_fixed (chars "#ifdef __cplusplus") (chars "#ifdef __cplusplus")); [by vm_compute|]. intros ls. cbn [pp].
    change (c_line_of (chars "#ifdef __cplusplus")) with (LIf false (chars "__cplusplus")). rewrite opt_nil.
    rewrite Bool.xorb_false_l. match goal with |- pp _ (?x :: _) _ = _ => change x with (bool_decide (chars "__cplusplus" ∈ defs')) end.
    by rewrite EC. }
  eapply reads_app.
  { rewrite (app_assoc [34; 67; 34]), app_assoc.
    apply (reads_fixed _ (chars "extern " ++ [34; 67; 34] ++ chars " {")); [by vm_compute|]. intros ls. cbn [pp].
    change (c_line_of (chars "extern " ++ [34; 67; 34] ++ chars " {")) with (LTokens [wd "extern"; Lt (34 :: 67 :: [34]); lbrace]).
    reflexivity. }
  eapply reads_app; [|apply reads_eol].
  apply (reads_fixed (chars "#endif") (chars "#endif")); [by vm_compute|]. intros ls. cbn [pp].
  change (c_line_of (chars "#endif")) with LEndif. by rewrite opt_nil.
Qed.
Lemma epilogue_reads defs b : 
  reads (of_text (FrameModel.c_epilogue g)) defs [b]
    (if b && bool_decide (chars "__cplusplus" ∈ defs) then [ETok rbrace] else []) defs [].
Proof.
  assert (ET : of_text (FrameModel.c_epilogue g) =
    eol ++ (chars "#ifdef __cplusplus" ++ [10]) ++ (chars "} /* extern " ++ [92; 34; 67; 92; 34] ++ chars " */" ++ [10]) ++
    (chars "#endif" ++ [10]) ++ eol ++ (chars "#endif /* " ++ G ++ chars " */" ++ [10])).
  { unfold FrameModel.c_epilogue, FrameModel.lines. cbn [app]. repeat (rewrite of_text_app || rewrite of_text_cons).
    rewrite <-!app_assoc. repeat (progress cbn [app] || rewrite <-!app_assoc). reflexivity. }
  rewrite ET. clear ET. set (cpp := bool_decide (chars "__cplusplus" ∈ defs)).
  replace (if b && cpp then [ETok rbrace] else []) with ([] ++ [] ++ on [cpp; b] [ETok rbrace] ++ [] ++ [] ++ []) by (by destruct b, cpp).
  eapply reads_app; [apply reads_eol|].
  eapply (reads_app _ _ _ _ _ _ [cpp; b]).
  { apply (reads_fixed (chars "#ifdef __cplusplus") (chars "#ifdef __cplusplus")); [by vm_compute|]. intros ls. cbn [pp].
    change (c_line_of (chars "#ifdef __cplusplus")) with (LIf false (chars "__cplusplus")). by rewrite opt_nil, Bool.xorb_false_l. }
  eapply reads_app.
  { rewrite (app_assoc [92; 34; 67; 92; 34]), app_assoc.
    apply (reads_fixed _ (chars "}  ")); [by vm_compute|]. intros ls. cbn [pp].
    change (c_line_of (chars "}  ")) with (LTokens [rbrace]). reflexivity. }
  eapply reads_app.
  { apply (reads_fixed (chars "#endif") (chars "#endif")); [by vm_compute|]. intros ls. cbn [pp].
    change (c_line_of (chars "#endif")) with LEndif. by rewrite opt_nil. }
  eapply reads_app; [apply reads_eol|]. apply reads_endif_guard.
Qed.

End frame.

(** ** What is written *)

Definition fine (s : xst) : Prop := Forall (λ d : lang * xdecl, d.1 ≠ LCSharp ∧ decl_ok d.2) (xout s).
Definition keeps (f : xst → xres) : Prop := ∀ s, fine s → match f s with XOk s' => fine s' | _ => True end.
Lemma keeps_ok : keeps XOk.
Proof. by intros s H. Qed.
Lemma keeps_emit l y : l ≠ LCSharp → decl_ok y → keeps (xemit l y).
Proof. intros Hl Hy s H. cbn [xemit]. apply Forall_app. split; [done|by repeat constructor]. Qed.
Lemma keeps_bind f g : keeps f → keeps g → keeps (λ s, xbind (f s) g).
Proof. intros Hf Hg s H. specialize (Hf s H). destruct (f s) as [s'| |]; [by apply Hg|done|done]. Qed.
Lemma keeps_once k f : keeps f → keeps (xonce k f).
Proof. intros Hf s H. unfold xonce. case_bool_decide; [done|]. by apply Hf. Qed.
Lemma keeps_int l : l ≠ LCSharp → keeps (xdefine_int l).
Proof. intros Hl. destruct l; [|done|]; (apply keeps_once, keeps_emit; [done|exact I]). Qed.
Lemma legacy_c l : l ≠ LCSharp → legacy l ≠ LCSharp.
Proof. by destruct l. Qed.
Lemma keeps_define t : ty_ok ws t → ∀ l, l ≠ LCSharp → keeps (xdefine l t).
Proof.
  induction t as [i|d| | | | |c t IH|t n IH|r args IHr IHa|d n gs fs IHg IHf|d n i vs|d n t IH|d n] using xty_ind';
    intros H l Hl; cbn [xdefine]; try exact keeps_ok.
  - by apply keeps_int.
  - destruct l; [|done|]; (apply keeps_once, keeps_emit; [done|exact I]).
  - apply IH; [done|by apply legacy_c].
  - pose proof (suffixed_wordy _ (short_ok _ H)) as HS.
    destruct l; [|done|]; (apply keeps_once, keeps_bind; [by apply IH|by apply keeps_emit]).
  - destruct H as [Hr Ha]. apply ty_ok_args in Ha. pose proof (legacy_c l Hl) as Hl'.
    apply keeps_bind; [by apply IHr|]. apply keeps_bind; [|by destruct l; try exact keeps_ok].
    clear -IHa Ha Hl'. induction IHa as [|a args Ia _ IH]; [exact keeps_ok|]. inversion_clear Ha as [|? ? H1 H2].
    apply keeps_bind; [by apply Ia|by apply IH].
  - pose proof (short_ok _ H) as HS. destruct H as (Hd & Hn & Hg & Hf). apply ty_ok_fields in Hf. apply keeps_once.
    apply keeps_bind.
    + clear -IHf Hf Hl. induction IHf as [|[q t] fs If _ IH]; [exact keeps_ok|]. inversion_clear Hf as [|? ? H1 H2].
      apply keeps_bind; [apply If; [apply H1|done]|by apply IH].
    + intros s Hs. destruct (zst _); [done|]. apply (keeps_emit l _ Hl); [|done]. split_and!; [done|done|].
      apply Forall_forall. intros f Hin. apply elem_of_list_filter in Hin as [_ Hin]. rewrite Forall_forall in Hf. by apply Hf.
  - apply keeps_once, keeps_bind; [by apply keeps_int|by apply keeps_emit].
  - destruct H as (Hd & Hn & Ht). apply keeps_once, keeps_bind; [by apply IH|].
    destruct l; [|done|exact keeps_ok]. apply keeps_emit; [done|]. split_and!; [done|by apply suffixed_wordy|done].
  - by apply keeps_once, keeps_emit.
Qed.
Lemma keeps_define_all l ts : l ≠ LCSharp → Forall (ty_ok ws) ts → keeps (xdefine_all l ts).
Proof.
  intros Hl. induction 1 as [|t ts Ht _ IH]; [exact keeps_ok|]. apply keeps_bind; [by apply keeps_define|done].
Qed.
Lemma keeps_gen l i : l ≠ LCSharp → item_ok ws i → keeps (xgen_def l i).
Proof.
  intros Hl Hi. destruct i as [d n args r|d n t u v|n t]; cbn [xgen_def].
  - intros s Hs. change (xgen_def l (JFn d n args r) s) with (if bool_decide (n ∈ xseen s) then XErr else
      xbind (xdefine_all l (map snd args) (Xst (n :: xseen s) (xout s))) (λ s, xbind (xdefine l r s) (xemit l (YFn d n args r)))).
    destruct (bool_decide (n ∈ xseen s)); [done|]. destruct Hi as (Hd & Hn & Ha & Hr).
    apply (keeps_bind (xdefine_all l (map snd args)) (λ s, xbind (xdefine l r s) (xemit l (YFn d n args r)))); [| |exact Hs].
    + apply keeps_define_all; [done|]. apply Forall_map. eapply Forall_impl; [exact Ha|]. by intros a [_ ?].
    + apply keeps_bind; [by apply keeps_define|by apply keeps_emit].
  - pose proof Hi as (Hd & Hn & Hx & Ht & Hv). apply keeps_bind; [by apply keeps_define|].
    destruct l; [|done|]; by apply (keeps_emit _ (YConst d n t u v)).
  - by apply keeps_define.
Qed.
Lemma keeps_gen_all l is : l ≠ LCSharp → Forall (item_ok ws) is → keeps (xgen_all l is).
Proof. intros Hl. induction 1 as [|i is Hi _ IH]; [exact keeps_ok|]. apply keeps_bind; [by apply keeps_gen|done]. Qed.
Lemma xbtree_sub is i : i ∈ xbtree is → i ∈ is.
Proof.
  unfold xbtree. assert (G : ∀ m, i ∈ fold_left (λ m j, xbtree_insert j m) is m → i ∈ is ∨ i ∈ m); [|intros H%G; destruct H as [?|H]; [done|by apply elem_of_nil in H]].
  induction is as [|j is IH]; intros m; cbn [fold_left]; [by right|]. intros [H|H]%IH; [left; by right|].
  assert (HI : ∀ m, i ∈ xbtree_insert j m → i = j ∨ i ∈ m).
  { clear. induction m as [|k m IH]; cbn [xbtree_insert]; [intros ->%elem_of_list_singleton; by left|].
    destruct (String.compare _ _).
    - intros [->|H]%elem_of_cons; [by left|right; by right].
    - intros [->|H]%elem_of_cons; [by left|by right].
    - intros [->|H]%elem_of_cons; [right; by left|]. apply IH in H as [?|?]; [by left|right; by right]. }
  apply HI in H as [->|H]; [left; by left|by right].
Qed.
Lemma body_ok l stable is s : l ≠ LCSharp → Forall (item_ok ws) is → xwrite_body l stable is = XOk s → fine s.
Proof.
  intros Hl Hi E. unfold xwrite_body in E.
  assert (H : Forall (item_ok ws) (if stable then xbtree is else rev is)).
  { rewrite Forall_forall in Hi. apply Forall_forall. intros i H. apply Hi. destruct stable; [by apply xbtree_sub|].
    apply elem_of_list_In, in_rev in H. by apply elem_of_list_In. }
  pose proof (keeps_gen_all l _ Hl H (Xst [] []) (List.Forall_nil _)) as HK. by rewrite E in HK.
Qed.
End types.

(** ** Erasing the documentation *)

Definition abs (r : xres) : res :=
  match r with
  | XOk s => Ok (St (xseen s) (map (λ d, erase_decl d.2) (xout s)))
  | XErr => Err
  | XPanic => Panic
  end.
Definition sees (f : xst → xres) (g : st → res) : Prop :=
  ∀ s, abs (f s) = g (St (xseen s) (map (λ d, erase_decl d.2) (xout s))).
Lemma sees_ok : sees XOk Ok.
Proof. by intros s. Qed.
Lemma sees_emit l y d : erase_decl y = d → sees (xemit l y) (emit d).
Proof. intros <- s. unfold xemit, emit. cbn [abs xseen xout seen out]. by rewrite map_app. Qed.
Lemma sees_bind f f' g g' : sees f f' → sees g g' → sees (λ s, xbind (f s) g) (λ s, bind (f' s) g').
Proof. intros Hf Hg s. rewrite <-Hf. destruct (f s) as [s'| |]; [apply Hg|done|done]. Qed.
Lemma sees_once k f g : sees f g → sees (xonce k f) (define_once k g).
Proof. intros H s. unfold xonce, define_once. cbn [seen out]. case_bool_decide; [done|]. exact (H (Xst (k :: xseen s) (xout s))). Qed.
Lemma sees_int l : sees (xdefine_int l) (define_int l).
Proof. destruct l; [|exact sees_ok|]; by apply sees_once, sees_emit. Qed.
Lemma sees_define t : ∀ l, sees (xdefine l t) (define l (erase t)).
Proof.
  induction t as [i|d| | | | |c t IH|t n IH|r args IHr IHa|d n gs fs IHg IHf|d n i vs|d n t IH|d n] using xty_ind';
    intros l; cbn [xdefine erase define]; try exact sees_ok.
  - apply sees_int.
  - destruct l; [|exact sees_ok|]; by apply sees_once, sees_emit.
  - apply IH.
  - destruct l.
    + by apply sees_once, sees_bind; [apply IH|apply sees_emit].
    + apply sees_bind; [apply IH|]. by apply sees_once, sees_emit.
    + by apply sees_once, sees_bind; [apply IH|apply sees_emit].
  - apply sees_bind; [apply IHr|]. apply sees_bind.
    + clear -IHa. induction IHa as [|a args Ia _ IH]; [exact sees_ok|]. by apply sees_bind; [apply Ia|].
    + destruct l; [exact sees_ok| |exact sees_ok]. by apply sees_once, sees_emit.
  - apply sees_once, sees_bind.
    + clear -IHf. induction IHf as [|[q t] fs If _ IH]; [exact sees_ok|]. by apply sees_bind; [apply If|].
    + intros s. change (zst (erase (XStruct d n gs fs))) with (zst (TStruct n (map erase gs) (map (λ f : field, (f.1.2, erase f.2)) fs))).
      destruct (zst _); [done|]. refine (sees_emit l _ _ _ s). cbn [erase_decl]. f_equal. clear.
      induction fs as [|f fs IH]; [done|]. cbn [map]. rewrite !filter_cons. cbn [fst snd].
      destruct (decide (zst (erase f.2) = false)); [cbn [map]; by rewrite IH|done].
  - apply sees_once, sees_bind; [apply sees_int|by apply sees_emit].
  - apply sees_once, sees_bind; [apply IH|]. destruct l; [by apply sees_emit|exact sees_ok|exact sees_ok].
  - by apply sees_once, sees_emit.
Qed.
Lemma sees_gen l i : sees (xgen_def l i) (gen_def l (erase_item i)).
Proof.
  destruct i as [d n args r|d n t u v|n t].
  - intros s. unfold xgen_def, erase_item, gen_def. cbn [seen out]. destruct (bool_decide (n ∈ xseen s)); [done|].
    assert (HA : sees (xdefine_all l (map snd args)) (define_all l (map snd (map (λ a : string * xty, (a.1, erase a.2)) args)))).
    { clear. induction args as [|[a t] args IH]; [exact sees_ok|]. apply sees_bind; [apply sees_define|exact IH]. }
    exact (sees_bind _ _ _ _ HA (sees_bind _ _ _ _ (sees_define r l) (sees_emit l (YFn d n args r) _ eq_refl)) (Xst (n :: xseen s) (xout s))).
  - unfold xgen_def, erase_item, gen_def. apply sees_bind; [apply sees_define|]. intros s. destruct l, u; first [exact (sees_emit _ (YConst d n t _ v) _ eq_refl s)|done].
  - exact (sees_define t l).
Qed.
Lemma sees_gen_all l is : sees (xgen_all l is) (gen_all l (map erase_item is)).
Proof. induction is as [|i is IH]; [exact sees_ok|]. apply sees_bind; [apply sees_gen|exact IH]. Qed.
Lemma btree_erase is : map erase_item (xbtree is) = btree (map erase_item is).
Proof.
  unfold xbtree, btree. change (@nil item) with (map erase_item []). generalize (@nil xitem).
  induction is as [|i is IH]; intros m; [done|]. cbn [fold_left map]. rewrite IH. f_equal. clear.
  induction m as [|j m IH]; [done|]. cbn [xbtree_insert btree_insert map]. unfold xitem_name.
  destruct (String.compare _ _); [done|done|]. cbn [map]. by rewrite IH.
Qed.
Lemma write_erase l stable is : abs (xwrite_body l stable is) = write_body l stable (map erase_item is).
Proof.
  unfold xwrite_body, write_body. rewrite (sees_gen_all l _ (Xst [] [])). cbn [xseen xout map]. f_equal.
  destruct stable; [apply btree_erase|]. by rewrite map_rev.
Qed.

(** ** Checking the hypotheses *)

(** Documentation in one line, without the end of a comment. *)
Fixpoint calm_doc (s : ntext) : bool :=
  match s with
  | [] => true
  | c :: r => negb (c =? 10) && negb ((c =? 42) && match r with d :: _ => d =? 47 | [] => false end) && calm_doc r
  end.
Definition wordyb (s : ntext) : bool := match s with [] => false | _ => forallb word_char s end.
Definition value_okb (ws : N → bool) (v : ntext) : bool :=
  bool_decide ((read c_newline Code v).2 = v) && match (read c_newline Code v).1 with Code => true | _ => false end &&
  match (lexes Gap v).1 with InLit _ _ _ => false | _ => true end && forallb (λ c, negb (c =? 10)) v &&
  match last v with Some c => negb (ws c) && negb (c =? 92) | None => false end.
Definition nameb (s : string) : bool := wordyb (chars s).
Definition docsb (d : docs) : bool := forallb calm_doc d.
Fixpoint ty_okb (t : xty) : bool :=
  match t with
  | XInt _ | XFloat _ | XVoid | XBool | XCInt | XChar => true
  | XPtr _ t | XArr t _ => ty_okb t
  | XFn r args => ty_okb r && forallb ty_okb args
  | XStruct d n gs fs =>
      docsb d && nameb n && forallb ty_okb gs && forallb (λ f : field, docsb f.1.1 && nameb f.1.2 && ty_okb f.2) fs
  | XEnum d n _ vs => docsb d && nameb n && forallb (λ v, docsb v.1.1 && wordyb v.1.2) vs
  | XAlias d n t => docsb d && nameb n && ty_okb t
  | XOpaque d n => docsb d && nameb n
  end.
Definition item_okb (ws : N → bool) (i : xitem) : bool :=
  match i with
  | JFn d n args r => docsb d && nameb n && forallb (λ a, nameb a.1 && ty_okb a.2) args && ty_okb r
  | JConst d n t _ v => docsb d && nameb n && negb (bool_decide (chars n ∈ asked)) && ty_okb t && value_okb ws v
  | JType _ t => ty_okb t
  end.

Section check.
Context (ws : N → bool).
Lemma calm_sound d : calm_doc d = true → harmless DocModel.LC ws d.
Proof.
  intros H. split.
  - intros (a & b & ->). change (chars "*/") with [42; 47] in H. induction a as [|c a IH].
    + cbn in H. done.
    + cbn [app calm_doc] in H. apply IH. apply andb_prop in H. by destruct H.
  - left. intros Hin. induction d as [|c d IH]; [by apply elem_of_nil in Hin|]. cbn [calm_doc] in H.
    apply andb_prop in H as [H1 H2]. apply andb_prop in H1 as [H0 _]. apply elem_of_cons in Hin as [<-|Hin]; [done|by apply IH].
Qed.
Lemma docs_sound d : docsb d = true → docs_ok ws d.
Proof.
  intros H. apply Forall_forall. intros x Hx. apply calm_sound. unfold docsb in H. rewrite forallb_forall in H.
  by apply H, elem_of_list_In.
Qed.
Lemma wordy_sound s : wordyb s = true → wordy s.
Proof. intros H. destruct s as [|c s]; [done|]. split; [done|]. by apply letters_fixed. Qed.
Lemma name_sound s : nameb s = true → name_ok s.
Proof. apply wordy_sound. Qed.
Lemma ty_sound t : ty_okb t = true → ty_ok ws t.
Proof.
  induction t as [i|d| | | | |c t IH|t n IH|r args IHr IHa|d n gs fs IHg IHf|d n i vs|d n t IH|d n] using xty_ind';
    cbn [ty_okb ty_ok]; intros H; try done.
  - by apply IH.
  - by apply IH.
  - apply andb_prop in H as [H1 H2]. split; [by apply IHr|]. clear -IHa H2. induction IHa as [|a args Ia _ IH]; [done|].
    cbn [forallb] in H2. apply andb_prop in H2 as [H1 H2]. split; [by apply Ia|by apply IH].
  - apply andb_prop in H as [H H4]. apply andb_prop in H as [H H3]. apply andb_prop in H as [H1 H2].
    split_and!; [by apply docs_sound|by apply name_sound| |].
    + clear -IHg H3. induction IHg as [|a args Ia _ IH]; [done|].
      cbn [forallb] in H3. apply andb_prop in H3 as [H1 H2]. split; [by apply Ia|by apply IH].
    + clear -IHf H4. induction IHf as [|f fs If _ IH]; [done|].
      cbn [forallb] in H4. apply andb_prop in H4 as [H H4]. apply andb_prop in H as [H H3]. apply andb_prop in H as [H1 H2].
      split; [|by apply IH]. split_and!; [by apply docs_sound|by apply name_sound|by apply If].
  - apply andb_prop in H as [H H3]. apply andb_prop in H as [H1 H2]. split_and!; [by apply docs_sound|by apply name_sound|].
    apply Forall_forall. intros v Hv%elem_of_list_In. rewrite forallb_forall in H3. apply H3, andb_prop in Hv as [H4 H5].
    split; [by apply docs_sound|by apply wordy_sound].
  - apply andb_prop in H as [H H3]. apply andb_prop in H as [H1 H2].
    split_and!; [by apply docs_sound|by apply name_sound|by apply IH].
  - apply andb_prop in H as [H1 H2]. split; [by apply docs_sound|by apply name_sound].
Qed.
Lemma value_sound v : value_okb ws v = true → value_ok ws v.
Proof.
  unfold value_okb. intros H. apply andb_prop in H as [H H5]. apply andb_prop in H as [H H4]. apply andb_prop in H as [H H3].
  apply andb_prop in H as [H1 H2]. apply bool_decide_eq_true in H1. split_and!.
  - destruct (read c_newline Code v) as [m o]. cbn [fst snd] in *. subst o. by destruct m.
  - intros q e w E. by rewrite E in H3.
  - by apply no10.
  - destruct (last v) as [c|]; [|done]. exists c. apply andb_prop in H5 as [H5 H6]. apply negb_true_iff in H5, H6.
    split_and!; [done|done|]. by apply N.eqb_neq.
Qed.
Lemma item_sound i : item_okb ws i = true → item_ok ws i.
Proof.
  destruct i as [d n args r|d n t u v|n t]; cbn [item_okb item_ok]; intros H.
  - apply andb_prop in H as [H H4]. apply andb_prop in H as [H H3]. apply andb_prop in H as [H1 H2].
    split_and!; [by apply docs_sound|by apply name_sound| |by apply ty_sound].
    apply Forall_forall. intros a Ha%elem_of_list_In. rewrite forallb_forall in H3. apply H3, andb_prop in Ha as [H5 H6].
    split; [by apply name_sound|by apply ty_sound].
  - apply andb_prop in H as [H H5]. apply andb_prop in H as [H H4]. apply andb_prop in H as [H H3]. apply andb_prop in H as [H1 H2].
    split_and!; [by apply docs_sound|by apply name_sound| |by apply ty_sound|by apply value_sound].
    intros Hin. by rewrite bool_decide_eq_true_2 in H3.
  - by apply ty_sound.
Qed.
Lemma items_sound is : forallb (item_okb ws) is = true → Forall (item_ok ws) is.
Proof. intros H. apply Forall_forall. intros i Hi%elem_of_list_In. rewrite forallb_forall in H. by apply item_sound, H. Qed.
End check.
