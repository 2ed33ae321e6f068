(** Lemmas about the names of types. *)

From Coq Require Import NArith List Bool Lia String Ascii.
From stdpp Require Import base numbers list strings pretty sets.
From Verif Require Import HeaderModel HeaderSpec HeaderProofs.

(** ** Words *)

Fixpoint words (t : cty) : list string :=
  match t with
  | TInt i => [int_name i]
  | TFloat d => [if d then "double" else "float"]
  | TVoid => ["void"]
  | TBool => ["bool"]
  | TCInt => ["int"]
  | TChar => ["char"]
  | TPtr true t => words t ++ ["const"; "ptr"]
  | TPtr false t => words t ++ ["ptr"]
  | TArr t n => words t ++ [pretty n; "array"]
  | TFn _ _ => []
  | TStruct n gs _ =>
      n :: (fix go (l : list cty) : list string := match l with [] => [] | a :: l => words a ++ go l end) gs
  | TEnum n _ | TAlias n _ | TOpaque n => [n]
  end.
Lemma words_struct n gs fs : words (TStruct n gs fs) = n :: flat_map words gs.
Proof. done. Qed.

Fixpoint enc (ws : list string) : string :=
  match ws with [] => "" | w :: ws => "_" +:+ w +:+ enc ws end.
Lemma append_nil (a : string) : a +:+ "" = a.
Proof. induction a as [|x a IH]; [done|]. change (String x (a +:+ "") = String x a). by rewrite IH. Qed.
Lemma enc_cons w ws : enc (w :: ws) = "_" +:+ w +:+ enc ws.
Proof. done. Qed.
Lemma enc_app a b : enc (a ++ b) = enc a +:+ enc b.
Proof.
  induction a as [|w a IH]; [done|]. change ((w :: a) ++ b) with (w :: (a ++ b)).
  by rewrite !enc_cons, IH, !append_assoc.
Qed.

Lemma short_words p t : simple p t → "_" +:+ short t = enc (words t).
Proof.
  assert (HN : ∀ t, nominal p t → "_" +:+ short t = enc (words t)).
  { clear t. refine (cty_ind' _ _ _ _ _ _ _ _ _ _ _ _ _ _).
    - intros i _. by destruct i.
    - intros d _. by destruct d.
    - done.
    - done.
    - done.
    - done.
    - intros c t _ H. inversion H.
    - intros t n _ H. inversion H.
    - intros r args _ _ H. inversion H.
    - intros n gs fs IH _ H. rewrite words_struct, enc_cons.
      assert (Hgs : Forall (nominal p) gs) by (by inversion H).
      change (short (TStruct n gs fs)) with (n +:+ (fix go (l : list cty) : string :=
         match l with [] => "" | a :: l => "_" +:+ short a +:+ go l end) gs).
      do 2 f_equal. clear H. induction gs as [|g gs IHg]; [done|].
      apply Forall_cons in IH as [Hg IH], Hgs as [Hg' Hgs].
      change (flat_map words (g :: gs)) with (words g ++ flat_map words gs).
      rewrite enc_app, <-Hg by done. rewrite append_assoc. by rewrite IHg.
    - intros n i _. change (words (TEnum n i)) with [n]. by rewrite enc_cons, append_nil.
    - intros n t _ _. change (words (TAlias n t)) with [n]. by rewrite enc_cons, append_nil.
    - intros n _. change (words (TOpaque n)) with [n]. by rewrite enc_cons, append_nil. }
  induction 1 as [t H|c t H IH|t n H IH].
  - by apply HN.
  - destruct c; cbn [words short]; by rewrite enc_app, <-append_assoc, IH.
  - cbn [words short]. rewrite enc_app, <-append_assoc, IH. done.
Qed.

(** ** Underscores *)

Lemma us_app a b : has_underscore (a +:+ b) = has_underscore a || has_underscore b.
Proof.
  induction a as [|c a IH]; [done|]. change (String c a +:+ b) with (String c (a +:+ b)).
  cbn [has_underscore]. by rewrite IH, orb_assoc.
Qed.

Definition opens (r : string) : Prop := r = "" ∨ ∃ r', r = String "_" r'.
Lemma enc_opens ws : opens (enc ws).
Proof. destruct ws as [|w ws]; [by left|]. right. by eexists. Qed.
Lemma word_inj w w' r r' : has_underscore w = false → has_underscore w' = false → opens r → opens r' →
  w +:+ r = w' +:+ r' → w = w' ∧ r = r'.
Proof.
  revert w'. induction w as [|c w IH]; intros [|c' w'] Hw Hw' Hr Hr' E.
  - done.
  - change (r = String c' (w' +:+ r')) in E. subst r. destruct Hr as [Hr|[r'' Hr]]; [done|].
    injection Hr as -> _. done.
  - change (String c (w +:+ r) = r') in E. subst r'. destruct Hr' as [H|[r'' H]]; [done|].
    injection H as -> _. done.
  - change (String c (w +:+ r) = String c' (w' +:+ r')) in E. injection E as -> E.
    cbn in Hw, Hw'. apply orb_false_iff in Hw as [_ Hw], Hw' as [_ Hw'].
    destruct (IH w') as [-> ->]; done.
Qed.
Lemma enc_inj ws ws' : Forall (λ w, has_underscore w = false) ws → Forall (λ w, has_underscore w = false) ws' →
  enc ws = enc ws' → ws = ws'.
Proof.
  intros H. revert ws'. induction H as [|w ws Hw _ IH]; intros ws' H' E.
  - by destruct ws'.
  - destruct H' as [|w' ws' Hw' H']; [done|].
    rewrite !enc_cons in E. injection E as E.
    apply word_inj in E as [-> E]; [|done|done|apply enc_opens..]. f_equal. by apply IH.
Qed.

Lemma pretty_us (n : N) : has_underscore (pretty n) = false.
Proof.
  assert (HC : ∀ x, (x < 10)%N → Ascii.eqb (pretty_N_char x) "_" = false).
  { intros x _. unfold pretty_N_char. by repeat case_match. }
  assert (HG : ∀ x s, has_underscore s = false → has_underscore (pretty_N_go x s) = false).
  { induction x as [x IH] using (well_founded_ind N.lt_wf_0). intros s Hs.
    destruct (decide (0 < x)%N) as [Hx|Hx].
    - rewrite pretty_N_go_step by done. apply IH; [apply N.div_lt; lia|].
      cbn [has_underscore]. rewrite HC, Hs; [done|]. apply N.mod_lt. lia.
    - assert (x = 0%N) as -> by lia. by rewrite pretty_N_go_0. }
  unfold pretty, pretty_N. destruct (decide _); [done|]. by apply HG.
Qed.

Lemma words_us p t : simple p t → Forall (λ w, has_underscore w = false) (words t).
Proof.
  assert (HN : ∀ t, nominal p t → Forall (λ w, has_underscore w = false) (words t)).
  { clear t. refine (cty_ind' _ _ _ _ _ _ _ _ _ _ _ _ _ _).
    - intros i _. repeat constructor. by destruct i.
    - intros d _. repeat constructor. by destruct d.
    - by repeat constructor.
    - by repeat constructor.
    - by repeat constructor.
    - by repeat constructor.
    - intros c t _ H. inversion H.
    - intros t n _ H. inversion H.
    - intros r args _ _ H. inversion H.
    - intros n gs fs IH _ H. rewrite words_struct.
      assert (Forall (nominal p) gs ∧ plain n) as [Hgs [Hn _]] by (by inversion H).
      constructor; [done|]. clear H Hn. induction gs as [|g gs IHg]; [constructor|].
      apply Forall_cons in IH as [Hg IH], Hgs as [Hg' Hgs]. cbn. apply Forall_app. eauto.
    - intros n i H. inversion H as [| | | | | | |? ? ? [? _]| |]. by repeat constructor.
    - intros n t _ H. inversion H as [| | | | | | | |? ? ? [? _]|]. by repeat constructor.
    - intros n H. inversion H as [| | | | | | | | |? ? [? _]]. by repeat constructor. }
  induction 1 as [t H|c t H IH|t n H IH].
  - by apply HN.
  - destruct c; cbn [words]; apply Forall_app; split; try done; by repeat constructor.
  - cbn [words]. apply Forall_app. split; [done|]. repeat constructor. apply pretty_us.
Qed.

(** ** Reading words back *)

Definition special : list string := ["ptr"; "const"; "array"; "fptr"].

Lemma builtin_special w : w ∈ builtins → w ∉ special.
Proof.
  intros H. assert (HF : Forall (λ w, w ∉ special) builtins).
  { apply (bool_decide_unpack _). vm_compute. done. }
  rewrite Forall_forall in HF. by apply HF.
Qed.
Lemma int_builtin i : int_name i ∈ builtins.
Proof. destruct i; apply (bool_decide_unpack _); vm_compute; done. Qed.

(** The first word. *)
Definition head_of (t : cty) : string := hd "" (words t).
Lemma nominal_head p t : nominal p t →
  (words t = [head_of t] ∧ head_of t ∈ builtins ∧
     (∀ u, nominal p u → head_of u = head_of t → u = t)) ∨ plain (head_of t).
Proof.
  assert (HB : ∀ t, nominal p t → head_of t ∈ builtins →
    t = TVoid ∨ t = TBool ∨ t = TCInt ∨ t = TChar ∨ (∃ d, t = TFloat d) ∨ ∃ i, t = TInt i).
  { intros u Hu Hin. destruct Hu as [i|d| | | | |n a f gs _ (_ & Hn & _) _ _|n i _ (_ & Hn & _)|n t' _ (_ & Hn & _)|n _ (_ & Hn & _)];
      try naive_solver; done. }
  assert (HI : ∀ u, nominal p u → ∀ t, nominal p t → head_of t ∈ builtins → head_of u = head_of t → u = t).
  { intros u Hu t' Ht Hin E. pose proof (HB t' Ht Hin) as Ht'. rewrite <-E in Hin. pose proof (HB u Hu Hin) as Hu'.
    destruct Ht' as [->|[->|[->|[->|[[d ->]|[i ->]]]]]], Hu' as [->|[->|[->|[->|[[d' ->]|[i' ->]]]]]];
      try done; try (by destruct d); try (by destruct d'); try (by destruct i); try (by destruct i');
      try (by destruct d, d'); try (by destruct d, i'); try (by destruct i, d'); try (by destruct i, i'). }
  intros Ht. assert (Ht2 := Ht).
  destruct Ht as [i|d| | | | |n a f gs _ Hn _ _|n i _ Hn|n t' _ Hn|n _ Hn]; try (by right); left;
    (split; [done|]);
    (assert (Hin : ∀ t, t = t → head_of t ∈ builtins → head_of t ∈ builtins) by done); clear Hin.
  - split; [apply int_builtin|]. intros u Hu E. apply (HI u Hu _ Ht2); [apply int_builtin|done].
  - assert (head_of (TFloat d) ∈ builtins) by (destruct d; apply (bool_decide_unpack _); vm_compute; done).
    split; [done|]. intros u Hu E. by apply HI.
  - assert (head_of TVoid ∈ builtins) by (apply (bool_decide_unpack _); vm_compute; done).
    split; [done|]. intros u Hu E. by apply HI.
  - assert (head_of TBool ∈ builtins) by (apply (bool_decide_unpack _); vm_compute; done).
    split; [done|]. intros u Hu E. by apply HI.
  - assert (head_of TCInt ∈ builtins) by (apply (bool_decide_unpack _); vm_compute; done).
    split; [done|]. intros u Hu E. by apply HI.
  - assert (head_of TChar ∈ builtins) by (apply (bool_decide_unpack _); vm_compute; done).
    split; [done|]. intros u Hu E. by apply HI.
Qed.

Lemma words_cons p t : nominal p t → ∃ ws, words t = head_of t :: ws.
Proof. intros H. destruct H; try (by eexists). Qed.

Lemma prefix_builtin p t u x y : nominal p t → head_of t ∈ builtins → nominal p u →
  words t ++ x = words u ++ y → t = u ∧ x = y.
Proof.
  intros Ht Hin Hu E. destruct (nominal_head p t Ht) as [(Et & _ & HI)|(_ & Hn & _)]; [|done].
  destruct (words_cons p u Hu) as [ws Eu]. rewrite Et in E. rewrite Eu in E. cbn in E. injection E as E1 E2.
  rewrite <-(HI u Hu) in Et |- * by done. rewrite Eu in Et. injection Et as ->. done.
Qed.

Lemma prefix_list p gs :
  Forall (λ t, nominal p t → ∀ u x y, nominal p u → words t ++ x = words u ++ y → t = u ∧ x = y) gs →
  Forall (nominal p) gs → ∀ hs x y, Forall (nominal p) hs → length gs = length hs →
  flat_map words gs ++ x = flat_map words hs ++ y → gs = hs ∧ x = y.
Proof.
  induction 1 as [|g gs Hg _ IH]; intros Hgs hs x y Hhs HL E.
  - by destruct hs.
  - destruct hs as [|h hs]; [done|]. apply Forall_cons in Hgs as [Hg' Hgs], Hhs as [Hh' Hhs].
    cbn in E. rewrite <-!app_assoc in E. apply Hg in E as [-> E]; [|done..].
    injection HL as HL. by destruct (IH Hgs hs x y Hhs HL E) as [-> ->].
Qed.

Lemma nominal_prefix p t : nominal p t → ∀ u x y, nominal p u → words t ++ x = words u ++ y → t = u ∧ x = y.
Proof.
  assert (HB : ∀ t, nominal p t → head_of t ∈ builtins →
    ∀ u x y, nominal p u → words t ++ x = words u ++ y → t = u ∧ x = y).
  { intros. by eapply prefix_builtin. }
  assert (HP : ∀ n ws u x y, plain n → nominal p u → n :: ws ++ x = words u ++ y →
    (∃ gs a f, u = TStruct n gs (f gs) ∧ p n = Some (EStruct a f) ∧ length gs = a ∧ Forall (nominal p) gs
       ∧ ws ++ x = flat_map words gs ++ y) ∨
    (∃ i, u = TEnum n i ∧ p n = Some (EEnum i) ∧ ws ++ x = y) ∨
    (∃ t, u = TAlias n t ∧ p n = Some (EAlias t) ∧ ws ++ x = y) ∨
    (u = TOpaque n ∧ p n = Some EOpaque ∧ ws ++ x = y)).
  { intros n ws u x y (_ & Hn & _) Hu E.
    destruct Hu as [i|d| | | | |n' a f gs Hp _ HL HF|n' i Hp _|n' t' Hp _|n' Hp _]; cbn in E; injection E as E1 E2.
    - destruct Hn. rewrite E1. apply int_builtin.
    - destruct Hn. rewrite E1. destruct d; apply (bool_decide_unpack _); vm_compute; done.
    - destruct Hn. rewrite E1. apply (bool_decide_unpack _); vm_compute; done.
    - destruct Hn. rewrite E1. apply (bool_decide_unpack _); vm_compute; done.
    - destruct Hn. rewrite E1. apply (bool_decide_unpack _); vm_compute; done.
    - destruct Hn. rewrite E1. apply (bool_decide_unpack _); vm_compute; done.
    - subst n'. left. eauto 10.
    - subst n'. right. left. eauto 10.
    - subst n'. do 2 right. left. eauto 10.
    - subst n'. do 3 right. eauto 10. }
  revert t. refine (cty_ind' _ _ _ _ _ _ _ _ _ _ _ _ _ _).
  - intros i H. apply HB; [done|apply int_builtin].
  - intros d H. apply HB; [done|destruct d; apply (bool_decide_unpack _); vm_compute; done].
  - intros H. apply HB; [done|apply (bool_decide_unpack _); vm_compute; done].
  - intros H. apply HB; [done|apply (bool_decide_unpack _); vm_compute; done].
  - intros H. apply HB; [done|apply (bool_decide_unpack _); vm_compute; done].
  - intros H. apply HB; [done|apply (bool_decide_unpack _); vm_compute; done].
  - intros c t _ H. inversion H.
  - intros t n _ H. inversion H.
  - intros r args _ _ H. inversion H.
  - intros n gs fs IH _ H u x y Hu E. rewrite words_struct in E.
    inversion H as [| | | | | |n' a f gs' Hp Hpl HL HF| | |]; subst.
    apply HP in E as [(hs & a' & f' & -> & Hp' & HL' & HF' & E)|[(i & -> & Hp' & _)|[(t & -> & Hp' & _)|(-> & Hp' & _)]]];
      [|congruence..|done|done].
    rewrite Hp in Hp'. injection Hp' as <- <-.
    eapply prefix_list in E as [-> ->]; done.
  - intros n i H u x y Hu E.
    inversion H as [| | | | | | |n' i' Hp Hpl| |]; subst.
    apply (HP n []) in E as [(hs & a' & f' & -> & Hp' & HL' & HF' & E)|[(i' & -> & Hp' & E)|[(t & -> & Hp' & _)|(-> & Hp' & _)]]];
      [congruence| |congruence..|done|done].
    rewrite Hp in Hp'. injection Hp' as <-. done.
  - intros n t _ H u x y Hu E.
    inversion H as [| | | | | | | |n' t' Hp Hpl|]; subst.
    apply (HP n []) in E as [(hs & a' & f' & -> & Hp' & HL' & HF' & E)|[(i' & -> & Hp' & E)|[(t' & -> & Hp' & E)|(-> & Hp' & _)]]];
      [congruence..| |congruence|done|done].
    rewrite Hp in Hp'. injection Hp' as <-. done.
  - intros n H u x y Hu E.
    inversion H as [| | | | | | | | |n' Hp Hpl]; subst.
    apply (HP n []) in E as [(hs & a' & f' & -> & Hp' & HL' & HF' & E)|[(i' & -> & Hp' & E)|[(t' & -> & Hp' & E)|(-> & Hp' & E)]]];
      [congruence..| |done|done].
    done.
Qed.

(** The last word. *)
Lemma nominal_last p t : nominal p t → ∃ ws w, words t = ws ++ [w] ∧ w ∉ special.
Proof.
  revert t. refine (cty_ind' _ _ _ _ _ _ _ _ _ _ _ _ _ _).
  - intros i _. exists [], (int_name i). split; [done|]. apply builtin_special, int_builtin.
  - intros d _. exists [], (if d then "double" else "float"). split; [done|].
    destruct d; apply (bool_decide_unpack _); vm_compute; done.
  - intros _. exists [], "void". split; [done|]. apply (bool_decide_unpack _); vm_compute; done.
  - intros _. exists [], "bool". split; [done|]. apply (bool_decide_unpack _); vm_compute; done.
  - intros _. exists [], "int". split; [done|]. apply (bool_decide_unpack _); vm_compute; done.
  - intros _. exists [], "char". split; [done|]. apply (bool_decide_unpack _); vm_compute; done.
  - intros c t _ H. inversion H.
  - intros t n _ H. inversion H.
  - intros r args _ _ H. inversion H.
  - intros n gs fs IH _ H. rewrite words_struct.
    inversion H as [| | | | | |n' a f gs' Hp (_ & _ & Hs) HL HF| | |]; subst.
    induction gs as [|g gs _] using rev_ind; [by exists [], n|].
    apply Forall_app in IH as [_ IH], HF as [_ HF]. apply Forall_cons in IH as [IH _], HF as [HF _].
    destruct (IH HF) as (ws & w & E & Hw). exists (n :: flat_map words gs ++ ws), w.
    split; [|done]. rewrite flat_map_app. cbn. rewrite app_nil_r, E. by rewrite <-app_assoc.
  - intros n i H. inversion H as [| | | | | | |? ? ? (_ & _ & ?)| |]. by exists [], n.
  - intros n t _ H. inversion H as [| | | | | | | |? ? ? (_ & _ & ?)|]. by exists [], n.
  - intros n H. inversion H as [| | | | | | | | |? ? (_ & _ & ?)]. by exists [], n.
Qed.

Lemma snoc_inj {A} (a b : list A) x y : a ++ [x] = b ++ [y] → a = b ∧ x = y.
Proof. apply app_inj_tail. Qed.

Lemma simple_not_const p t ws : simple p t → words t ≠ ws ++ ["const"].
Proof.
  intros H E. destruct H as [t H|c t H|t n H].
  - apply nominal_last in H as (ws' & w & E' & Hw). rewrite E' in E. apply snoc_inj in E as [_ ->].
    by apply Hw, (bool_decide_unpack _).
  - destruct c; cbn [words] in E.
    + change (words t ++ ["const"; "ptr"]) with (words t ++ ["const"] ++ ["ptr"]) in E.
      rewrite app_assoc in E. by apply snoc_inj in E as [_ ?].
    + by apply snoc_inj in E as [_ ?].
  - cbn [words] in E. change [pretty n; "array"] with ([pretty n] ++ ["array"]) in E.
    rewrite app_assoc in E. by apply snoc_inj in E as [_ ?].
Qed.

Lemma words_inj p t u : simple p t → simple p u → words t = words u → t = u.
Proof.
  assert (HX : ∀ t ws w, nominal p t → words t = ws ++ [w] → w ∉ special).
  { intros t' ws w H E. apply nominal_last in H as (ws' & w' & E' & Hw).
    rewrite E' in E. by apply snoc_inj in E as [_ <-]. }
  assert (HA : ∀ t n, words (TArr t n) = (words t ++ [pretty n]) ++ ["array"]).
  { intros. cbn [words]. by rewrite <-app_assoc. }
  assert (HC : ∀ t, words (TPtr true t) = (words t ++ ["const"]) ++ ["ptr"]).
  { intros. cbn [words]. by rewrite <-app_assoc. }
  assert (HM : ∀ t, words (TPtr false t) = words t ++ ["ptr"]) by done.
  assert (HN1 : ∀ t ws, nominal p t → words t ≠ ws ++ ["ptr"]).
  { intros t' ws H E. eapply HX in E; [|done]. by apply E, (bool_decide_unpack _). }
  assert (HN2 : ∀ t ws, nominal p t → words t ≠ ws ++ ["array"]).
  { intros t' ws H E. eapply HX in E; [|done]. by apply E, (bool_decide_unpack _). }
  intros Ht. revert u. induction Ht as [t Ht|c t Ht IH|t n Ht IH]; intros u Hu E.
  - destruct Hu as [u Hu|c u Hu|u n Hu].
    + destruct (nominal_prefix p t Ht u [] [] Hu) as [-> _]; [|done]. by rewrite !app_nil_r.
    + destruct c; [rewrite HC in E|rewrite HM in E]; by apply HN1 in E.
    + rewrite HA in E. by apply HN2 in E.
  - destruct Hu as [u Hu|c' u Hu|u n Hu].
    + symmetry in E. destruct c; [rewrite HC in E|rewrite HM in E]; by apply HN1 in E.
    + destruct c, c'; rewrite ?HC, ?HM in E; apply snoc_inj in E as [E _].
      * apply snoc_inj in E as [E _]. f_equal. by apply IH.
      * symmetry in E. by eapply simple_not_const in E.
      * by eapply simple_not_const in E.
      * f_equal. by apply IH.
    + rewrite HA in E. destruct c; rewrite ?HC, ?HM in E; by apply snoc_inj in E as [_ ?].
  - destruct Hu as [u Hu|c' u Hu|u m Hu].
    + symmetry in E. rewrite HA in E. by apply HN2 in E.
    + rewrite HA in E. destruct c'; rewrite ?HC, ?HM in E; by apply snoc_inj in E as [_ ?].
    + rewrite !HA in E. apply snoc_inj in E as [E _]. apply snoc_inj in E as [E Hn].
      apply (inj pretty) in Hn as ->. f_equal. by apply IH.
Qed.

Lemma suffixed_inj a b : suffixed a = suffixed b → a = b.
Proof.
  unfold suffixed. revert b. induction a as [|c a IH]; intros [|d b] E; [done| | |].
  - exfalso. change ("_t" = String d (b +:+ "_t")) in E. injection E as _ E.
    destruct b as [|e b]; [done|]. injection E as _ E. by destruct b.
  - exfalso. change (String c (a +:+ "_t") = "_t") in E. injection E as _ E.
    destruct a as [|e a]; [done|]. injection E as _ E. by destruct a.
  - change (String c (a +:+ "_t") = String d (b +:+ "_t")) in E. injection E as -> E. f_equal. by apply IH.
Qed.

Lemma short_inj p t u : simple p t → simple p u → short t = short u → t = u.
Proof.
  intros Ht Hu E. apply (words_inj p); [done..|].
  apply enc_inj; [by eapply words_us|by eapply words_us|].
  rewrite <-(short_words p t), <-(short_words p u) by done. by rewrite E.
Qed.

Lemma key_inj p l t u k : simple p t → simple p u → type_key l t = Some k → type_key l u = Some k → t = u.
Proof.
  intros Ht Hu E1 E2. apply (short_inj p); [done..|].
  assert (HK : ∀ t, simple p t → type_key l t = Some k → suffixed (short t) = k).
  { intros v Hv. destruct v; try done; cbn; intros; simplify_eq; try done. inversion Hv as [? Hn| |]. inversion Hn. }
  apply suffixed_inj. rewrite (HK t), (HK u); done.
Qed.

Lemma no_clash_simple p l is :
  (∀ t k, occurs t is → type_key l t = Some k → simple p t) →
  (∀ n args r, IFn n args r ∈ is → n ≠ "bool" ∧ n ≠ "__int_headers__" ∧ ∀ m, n ≠ suffixed m) →
  no_clash l is.
Proof.
  intros HS HF. split.
  - intros t u k Ht Hu E1 E2. eapply key_inj; eauto.
  - intros n args r Hi. destruct (HF _ _ _ Hi) as (? & ? & Hn). split; [done|]. split; [done|].
    intros t Ht E. pose proof (HS t n Ht E) as Hs. destruct t; try done; cbn in E; simplify_eq; try (by eapply Hn).
    inversion Hs as [? Hm| |]. inversion Hm.
Qed.

(** All types within a type, computed. *)
Fixpoint subs (t : cty) : list cty :=
  t ::
  match t with
  | TPtr _ t | TArr t _ | TAlias _ t => subs t
  | TFn r args =>
      subs r ++ (fix go (l : list cty) : list cty := match l with [] => [] | a :: l => subs a ++ go l end) args
  | TStruct _ _ fs =>
      (fix go (l : list (string * cty)) : list cty := match l with [] => [] | (_, a) :: l => subs a ++ go l end) fs
  | _ => []
  end.
Definition all_types (is : list item) : list cty := flat_map (λ i, flat_map subs (item_types i)) is.

Lemma subs_refl t : t ∈ subs t.
Proof. destruct t; left. Qed.
Lemma within_subs t u : within t u → t ∈ subs u.
Proof.
  induction 1 as [|c u _ IH|u n _ IH|r args _ IH|r args u Hu _ IH|n gs fs f u Hu _ IH|n u _ IH];
    [apply subs_refl|..]; cbn [subs]; right; try done.
  - apply elem_of_app. by left.
  - apply elem_of_app. right. clear -Hu IH. induction args as [|a args IHa]; [by apply elem_of_nil in Hu|].
    apply elem_of_app. apply elem_of_cons in Hu as [->|Hu]; [by left|]. right. by apply IHa.
  - clear -Hu IH. induction fs as [|[g a] fs IHa]; [by apply elem_of_nil in Hu|].
    apply elem_of_app. apply elem_of_cons in Hu as [[= -> ->]|Hu]; [by left|]. right. by apply IHa.
Qed.
Lemma occurs_all t is : occurs t is → t ∈ all_types is.
Proof.
  intros (i & u & Hi & Hu & Hw). apply elem_of_list_In, in_flat_map. exists i. split; [by apply elem_of_list_In|].
  apply in_flat_map. exists u. split; [by apply elem_of_list_In|]. by apply elem_of_list_In, within_subs.
Qed.

Lemma omap_inj {A B} (f : A → option B) (l : list A) t u k :
  NoDup (omap f l) → t ∈ l → u ∈ l → f t = Some k → f u = Some k → t = u.
Proof.
  induction l as [|a l IH]; intros Hnd Ht Hu Et Eu; [by apply elem_of_nil in Ht|]. cbn in Hnd.
  assert (HE : ∀ v, v ∈ l → f v = Some k → k ∈ omap f l) by (intros v Hv E; apply elem_of_list_omap; eauto).
  apply elem_of_cons in Ht as [->|Ht], Hu as [->|Hu]; [done|..].
  - rewrite Et in Hnd. apply NoDup_cons in Hnd as [Hn _]. destruct Hn. eauto.
  - rewrite Eu in Hnd. apply NoDup_cons in Hnd as [Hn _]. destruct Hn. eauto.
  - apply IH; try done. destruct (f a); [by apply NoDup_cons in Hnd as [_ ?]|done].
Qed.
