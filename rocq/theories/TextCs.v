(** Proofs for C83: the text of C# files. *)

From Coq Require Import NArith ZArith List Bool String Ascii Lia ZifyBool ZifyNat ZifyN.
From stdpp Require Import base numbers list strings pretty.
From Verif Require Import NameModel NameSpec NameProofs DocModel DocSpec DocProofs HeaderModel HeaderSpec CsModel.
From Verif Require Import TextModel TextSpec TextLex TextProofs TextCsSpec.
From Verif Require ConstModel ConstProofs EnumModel FrameModel.
Local Open Scope N_scope.

(** ** Numbers *)

Lemma pretty_char d : d < 10 → N_of_ascii (pretty_N_char d) = N_of_ascii (ConstModel.dchar d).
Proof.
  intros H. destruct d as [|p]; [done|]. do 4 (destruct p as [p|p|]; try done; try lia).
Qed.
Lemma digits_acc fuel : ∀ n acc, ConstModel.digits_fuel fuel n acc = ConstModel.digits_fuel fuel n [] ++ acc.
Proof.
  induction fuel as [|fuel IH]; intros n acc; cbn [ConstModel.digits_fuel]; [done|]. destruct (n <? 10); [done|].
  rewrite IH, (IH _ [_]). by rewrite <-app_assoc.
Qed.
Lemma digits_go fuel : ∀ n s, n < 2 ^ N.of_nat fuel → 0 < n →
  chars (pretty_N_go n s) = map N_of_ascii (ConstModel.dtext (ConstModel.digits_fuel fuel n [])) ++ chars s.
Proof.
  induction fuel as [|fuel IH]; intros n s Hn H0; [cbn in Hn; lia|]. cbn [ConstModel.digits_fuel].
  rewrite pretty_N_go_step by done. destruct (n <? 10) eqn:E.
  - rewrite N.div_small, pretty_N_go_0 by lia. rewrite N.mod_small by lia. cbn [chars ConstModel.dtext map app].
    by rewrite pretty_char by lia.
  - rewrite digits_acc. unfold ConstModel.dtext. rewrite !map_app, <-app_assoc. fold (ConstModel.dtext (ConstModel.digits_fuel fuel (n / 10) [])).
    rewrite IH; [|rewrite Nat2N.inj_succ, N.pow_succ_r' in Hn; apply N.div_lt_upper_bound; lia|apply N.div_str_pos; lia].
    cbn [chars map app]. rewrite pretty_char; [done|]. apply N.mod_lt. lia.
Qed.
Lemma pretty_num (n : N) : chars (pretty n) = num_text n.
Proof.
  unfold pretty, pretty_N, num_text. case_decide as E; [by subst|]. unfold ConstModel.digits. rewrite (digits_go (N.to_nat (N.size n))).
  - cbn [chars]. by rewrite app_nil_r.
  - rewrite N2Nat.id. apply N.size_gt.
  - lia.
Qed.
Lemma pretty_nat_text (n : nat) : chars (pretty n) = nat_text n.
Proof. exact (pretty_num (N.of_nat n)). Qed.
Lemma nat_wordy n : wordy (nat_text n).
Proof. exact (num_wordy (N.of_nat n)). Qed.

(** ** Reading *)

Definition calmc (c : N) : bool := plainc c && negb (c =? 13).
Definition calm (s : ntext) : Prop := Forall (λ c, calmc c = true) s.
Lemma calm_plain s : calm s → plain s.
Proof. intros H. eapply Forall_impl; [exact H|]. intros c Hc. by apply andb_prop in Hc as [? _]. Qed.
Lemma calm_app a b : calm (a ++ b) ↔ calm a ∧ calm b.
Proof. apply Forall_app. Qed.
Lemma calm_fixed s : forallb calmc s = true → calm s.
Proof. intros H. apply Forall_forall. intros c Hc%elem_of_list_In. rewrite forallb_forall in H. auto. Qed.
Lemma wordy_calm s : wordy s → calm s.
Proof. intros [_ H]. eapply Forall_impl; [exact H|]. intros c Hc. unfold word_char, calmc, plainc in *. lia. Qed.
Lemma calm_indent n : calm (indentation n).
Proof. apply Forall_forall. intros x Hx%elem_of_list_In%repeat_spec. by subst. Qed.
Lemma same_lines_app a b : same_lines (a ++ b) = same_lines a ++ same_lines b.
Proof. apply map_app. Qed.
Lemma same_lines_none s : Forall (λ c, cs_newline c = true → c = 10) s → same_lines s = s.
Proof.
  induction 1 as [|c s Hc _ IH]; [done|]. unfold same_lines in *. cbn [map]. rewrite IH. f_equal.
  destruct (cs_newline c); [|done]. symmetry. by apply Hc.
Qed.
Lemma calm_same s : calm s → same_lines s = s.
Proof.
  intros H. apply same_lines_none. eapply Forall_impl; [exact H|]. intros c Hc Hn. unfold calmc, plainc, cs_newline in *. lia.
Qed.
Lemma calm_read s : calm s → read cs_newline Code s = (Code, s).
Proof.
  induction 1 as [|c a Hc _ IH]; [done|]. cbn [read step]. unfold code, calmc, plainc in *.
  destruct (c =? 47) eqn:E1; [lia|]. destruct ((c =? 34) || (c =? 39)) eqn:E2; [lia|]. by rewrite IH.
Qed.
Lemma plain_cs_code l : plain l → cs_line_of l = CTokens (lex l).
Proof.
  intros H. unfold cs_line_of.
  assert (G : ∀ r, (∃ b, l = b ++ r ∧ Forall (λ c, ascii_ws c = true) b) → match skip r with
     | [] => CTokens []
     | c :: r0 => if c =? 35 then let '(d, r1) := word (skip r0) in
          if is d "pragma" then CNothing else if is d "else" then CElse else if is d "endif" then CEndif
          else let '(x, r) := word (skip r1) in
          if is d "if" then match x, skip r with _ :: _, [] => CIf x | _, _ => CBad end else CBad
        else CTokens (lex l) end = CTokens (lex l)).
  { induction r as [|c r IH]; intros (b & -> & Hb).
    - rewrite app_nil_r. cbn [skip]. f_equal. symmetry. apply (has_blanks b Hb).
    - cbn [skip]. destruct (ascii_ws c) eqn:E.
      + apply IH. exists (b ++ [c]). split; [by rewrite <-app_assoc|]. apply Forall_app. split; [done|by repeat constructor].
      + destruct (c =? 35) eqn:E'; [|done]. apply plain_app in H as [_ H]. inversion_clear H as [|? ? Hc].
        unfold plainc in Hc. lia. }
  apply G. exists []. by split.
Qed.

Definition sel (st : list (bool * bool)) (ts : list ctok) : list ctok := if taken st then ts else [].
Lemma sel_nil st : sel st [] = [].
Proof. unfold sel. by destruct (taken st). Qed.
Lemma sel_app st a b : sel st (a ++ b) = sel st a ++ sel st b.
Proof. unfold sel. by destruct (taken st). Qed.
Lemma cs_pp_plain defs st ls rest : Forall plain ls →
  cs_pp defs st (ls ++ rest) = option_map (app (sel st (flat_map lex ls))) (cs_pp defs st rest).
Proof.
  induction 1 as [|l ls Hl _ IH]; cbn [app flat_map].
  - by rewrite sel_nil, opt_nil.
  - cbn [cs_pp]. rewrite plain_cs_code by done. rewrite IH, opt_app, sel_app. done.
Qed.

(** [a], wherever it stands at the start of a line, gives these tokens. *)
Definition csr (a : ntext) (ts : list ctok) : Prop :=
  ∀ defs st rest, cs_from defs st (a ++ rest) = option_map (app (sel st ts)) (cs_from defs st rest).
Lemma csr_nil : csr [] [].
Proof. intros defs st rest. by rewrite sel_nil, opt_nil. Qed.
Lemma csr_app a b ta tb : csr a ta → csr b tb → csr (a ++ b) (ta ++ tb).
Proof. intros Ha Hb defs st rest. by rewrite <-app_assoc, Ha, Hb, opt_app, sel_app. Qed.
Lemma csr_flat {A} (f : A → ntext) (e : A → list ctok) l : Forall (λ x, csr (f x) (e x)) l → csr (flat_map f l) (flat_map e l).
Proof. induction 1 as [|x l Hx _ IH]; [apply csr_nil|]. cbn [flat_map]. by apply csr_app. Qed.
(** A line: what is left of it when comments are removed. *)
Lemma csr_line a a' ts : read cs_newline Code a = (Code, a') → Forall (λ c, cs_newline c = false) a' →
  (cs_line_of a' = CTokens ts ∨ cs_line_of a' = CNothing ∧ ts = []) → csr (a ++ [10]) ts.
Proof.
  intros Ra Na Ht defs st rest. unfold cs_from. rewrite <-app_assoc, read_app, Ra. cbn [fst snd app read].
  change (step cs_newline Code 10) with (Code, [10]). cbv beta iota.
  destruct (read cs_newline Code rest) as [m s]. cbn [fst snd app]. destruct m; try done.
  rewrite same_lines_app. change (same_lines (10 :: s)) with (10 :: same_lines s).
  rewrite (same_lines_none a').
  2:{ eapply Forall_impl; [exact Na|]. intros c Hc. by rewrite Hc. }
  rewrite split_app, split_none.
  - cbn [app cs_pp]. destruct Ht as [->|[-> ->]]; [done|]. by rewrite sel_nil, opt_nil.
  - intros Hin. rewrite Forall_forall in Na. apply Na in Hin. done.
Qed.

(** Code, comments in it perhaps. *)
Definition coded (a : ntext) (ts : list ctok) : Prop :=
  ∃ a', read cs_newline Code a = (Code, a') ∧ calm a' ∧ lex a' = ts.
Lemma csr_code a ts : coded a ts → csr (a ++ [10]) ts.
Proof.
  intros (a' & Ra & Ca & <-) defs st rest. unfold cs_from. rewrite <-app_assoc, read_app, Ra. cbn [fst snd app read].
  change (step cs_newline Code 10) with (Code, [10]). cbv beta iota.
  destruct (read cs_newline Code rest) as [m s]. cbn [fst snd app]. destruct m; try done.
  rewrite same_lines_app, calm_same by done. change (same_lines (10 :: s)) with (10 :: same_lines s).
  rewrite split_app, cs_pp_plain, lex_lines; [done|by apply calm_plain|by apply plain_split, calm_plain].
Qed.
Lemma csr_eol : csr eol [].
Proof. apply (csr_code []). exists []. split_and!; [done|constructor|done]. Qed.
Lemma csr_end a ts : csr a ts → csr (a ++ eol) ts.
Proof. intros H. rewrite <-(app_nil_r ts). apply csr_app; [done|apply csr_eol]. Qed.
Lemma csr_skip a b ts : csr a [] → csr b ts → csr (a ++ b) ts.
Proof. intros Ha Hb. change ts with ([] ++ ts). by apply csr_app. Qed.

Definition solid (c : N) : bool := calmc c && negb (word_char c).
Lemma head_read c b a' : read cs_newline Code (c :: b) = (Code, a') → calmc c = true → head a' = Some c.
Proof.
  cbn [read step]. unfold code. intros H Hc. unfold calmc, plainc in Hc. destruct (c =? 47) eqn:E1; [lia|].
  destruct ((c =? 34) || (c =? 39)) eqn:E2; [lia|]. destruct (read cs_newline Code b) as [m o]. by injection H as _ <-.
Qed.
Lemma last_read m a c a' : read cs_newline m (a ++ [c]) = (Code, a') → calmc c = true → last a' = Some c.
Proof.
  rewrite read_app. destruct (read cs_newline m a) as [m' o]. cbn [fst snd read]. intros H Hc.
  destruct (step cs_newline m' c) as [m'' o'] eqn:E. cbn [fst snd] in H. injection H as -> <-. rewrite app_nil_r.
  enough (last o' = Some c) as HL by (by rewrite last_app, HL).
  unfold calmc, plainc in Hc. assert (HE : code c = (Code, [c])).
  { unfold code. destruct (c =? 47) eqn:E1; [lia|]. destruct ((c =? 34) || (c =? 39)) eqn:E2; [lia|]. done. }
  destruct m' as [| |s| |q e]; cbn [step] in E.
  - by rewrite HE in E; simplify_eq.
  - rewrite HE in E. destruct (c =? 42); [done|]. destruct (c =? 47); [done|]. by simplify_eq.
  - destruct (s && (c =? 47)) eqn:E1; [lia|done].
  - destruct (cs_newline c); by simplify_eq.
  - destruct e; [done|]. destruct (c =? 92); [done|]. destruct (c =? q); by simplify_eq.
Qed.
Definition parted (a b : ntext) : Prop :=
  b = [] ∨ (∃ c, head b = Some c ∧ solid c = true) ∨ (∃ c, last a = Some c ∧ solid c = true).
Lemma coded_app a b ta tb : coded a ta → coded b tb → parted a b → coded (a ++ b) (ta ++ tb).
Proof.
  intros (a' & Ra & Ca & <-) (b' & Rb & Cb & <-) H. exists (a' ++ b'). split_and!.
  - rewrite read_app, Ra. cbn [fst snd]. by rewrite Rb.
  - by apply calm_app.
  - apply lex_app; [by apply calm_plain..|]. destruct H as [->|[(c & Hc & Sc)|(c & Hc & Sc)]].
    + injection Rb as <-. apply apart_nil_r.
    + apply andb_prop in Sc as [S1 S2]. apply negb_true_iff in S2. destruct b as [|x b]; [done|]. injection Hc as ->.
      apply (apart_sp _ _ c); [|done]. by eapply head_read.
    + apply andb_prop in Sc as [S1 S2]. apply negb_true_iff in S2. apply last_Some in Hc as [a0 ->].
      apply (apart_pn _ _ c); [|done]. by eapply last_read.
Qed.
Lemma parted_sp a b c : head b = Some c → solid c = true → parted a b.
Proof. right. left. eauto. Qed.
Lemma parted_pn a b c : last a = Some c → solid c = true → parted a b.
Proof. right. right. eauto. Qed.
Lemma coded_nil : coded [] [].
Proof. exists []. split_and!; [done|constructor|done]. Qed.
Lemma coded_calm a ts : calm a → lex a = ts → coded a ts.
Proof. intros H <-. exists a. split_and!; [by apply calm_read|done|done]. Qed.
Lemma coded_word s : wordy s → coded s [Wd s].
Proof. intros H. apply coded_calm; [by apply wordy_calm|by apply has_word]. Qed.
Lemma coded_name s : name_ok s → coded (chars s) [wd s].
Proof. apply coded_word. Qed.
(** A fixed text. *)
Lemma coded_fixed a ts : match read cs_newline Code a with (Code, a') => forallb calmc a' | _ => false end = true →
  match read cs_newline Code a with (_, a') => lex a' end = ts → coded a ts.
Proof.
  intros H1 H2. destruct (read cs_newline Code a) as [m a'] eqn:E. destruct m; try done. exists a'.
  split_and!; [done|by apply calm_fixed|done].
Qed.
Lemma coded_blank c a ts : calmc c = true → ascii_ws c = true → coded a ts → coded (c :: a) ts.
Proof.
  intros Hc Hw H. change ts with ([] ++ ts). apply (coded_app [c] a); [|done|].
  - apply coded_calm; [by constructor|]. rewrite lex_blank; [done|done|constructor].
  - apply (parted_pn _ _ c); [done|]. unfold solid. rewrite Hc. unfold word_char, ascii_ws in *. lia.
Qed.
Lemma coded_indent n a ts : coded a ts → coded (indentation n ++ a) ts.
Proof. intros H. induction n as [|n IH]; [done|]. by apply (coded_blank 32). Qed.
Lemma coded_eq a ts ts' : coded a ts → ts = ts' → coded a ts'.
Proof. by intros ? <-. Qed.
Lemma csr_eq a ts ts' : csr a ts → ts = ts' → csr a ts'.
Proof. by intros ? <-. Qed.
Lemma coded_words s : match read cs_newline Code (chars s) with (Code, a') => forallb calmc a' | _ => false end = true →
  match read cs_newline Code (chars s) with (_, a') => lex a' end = words s → coded (chars s) (words s).
Proof. apply coded_fixed. Qed.
Lemma coded_joined xs ts : Forall2 coded xs ts → coded (joined (chars ",") xs) (comma ts).
Proof.
  induction 1 as [|x t xs ts Hx Hl IH]; [apply coded_nil|]. destruct Hl as [|x' t' xs ts Hx' Hl]; [done|].
  change (joined (chars ",") (x :: x' :: xs)) with (x ++ chars "," ++ joined (chars ",") (x' :: xs)).
  change (comma (t :: t' :: ts)) with (t ++ words "," ++ comma (t' :: ts)).
  apply coded_app; [done| |by apply (parted_sp _ _ 44)]. apply coded_app; [by apply coded_words|done|by apply (parted_pn _ _ 44)].
Qed.
Lemma flat_map_map {A B C} (f : B → list C) (g : A → B) l : flat_map f (map g l) = flat_map (λ x, f (g x)) l.
Proof. induction l as [|x l IH]; [done|]. cbn [map flat_map]. by rewrite IH. Qed.

Ltac kw := by apply coded_words.
Ltac sp c := apply (parted_sp _ _ c); [reflexivity|reflexivity].
Ltac pn c := apply (parted_pn _ _ c); [reflexivity|reflexivity].

Section decls.
Context (P : platform) (ws : N → bool) (HW : ∀ c, c < 128 → ws c = ascii_ws c).

(** ** Types *)

Lemma cs_short_ok t : cs_ty_ok ws t → name_ok (xshort t).
Proof.
  unfold xshort. induction t as [i|d| | | | |c t IH|t n IH|r args IHr IHa|d n gs fs IHg IHf|d n i vs|d n t IH|d n] using xty_ind'; cbn [cs_ty_ok erase short]; intros H.
  - destruct i; by apply fixed_wordy.
  - destruct d; by apply fixed_wordy.
  - by apply fixed_wordy.
  - by apply fixed_wordy.
  - by apply fixed_wordy.
  - by apply fixed_wordy.
  - unfold name_ok. destruct c; rewrite chars_app; (apply wordy_app; [by apply IH|by apply letters_fixed]).
  - unfold name_ok. rewrite !chars_app. apply wordy_app; [by apply IH|]. apply letters_app. split; [by apply letters_fixed|].
    apply letters_app. split; [apply letters_pretty|by apply letters_fixed].
  - unfold name_ok. rewrite !chars_app. destruct H as [Hr Ha]. apply wordy_app; [by apply IHr|]. apply letters_app.
    split; [|by apply letters_fixed]. clear -IHa Ha. induction IHa as [|a args Q _ IH]; [constructor|]. destruct Ha as [H1 H2].
    cbn [map]. rewrite !chars_app. apply letters_app. split; [by apply letters_fixed|]. apply letters_app.
    split; [by apply Q|by apply IH].
  - unfold name_ok. rewrite !chars_app. destruct H as (_ & Hn & Hg & _). apply wordy_app; [done|].
    clear -IHg Hg. induction IHg as [|a args Q _ IH]; [constructor|]. destruct Hg as [H1 H2].
    cbn [map]. rewrite !chars_app. apply letters_app. split; [by apply letters_fixed|]. apply letters_app.
    split; [by apply Q|by apply IH].
  - by destruct H as (_ & H & _).
  - by destruct H as (_ & H & _).
  - by destruct H as (_ & H).
Qed.
Lemma full_ok t : cs_ty_ok ws t → name_ok (suffixed (xshort t)).
Proof. intros H. by apply suffixed_wordy, cs_short_ok. Qed.
Lemma name_no10 s : name_ok s → 10 ∉ chars s.
Proof. intros [_ H]. by apply word_no10. Qed.
Lemma cs_text_ok t : cs_ty_ok ws t → coded (cs_text t) (map tk (csharp_ty (erase t))) ∧ 10 ∉ cs_text t.
Proof.
  assert (HN : ∀ s, name_ok s → coded (chars s) [wd s] ∧ 10 ∉ chars s).
  { intros s Hs. split; [by apply coded_name|by apply name_no10]. }
  induction t as [i|d| | | | |c t IH|t n IH|r args IHr IHa|d n gs fs IHg IHf|d n i vs|d n t IH|d n] using xty_ind'; intros H.
  - apply HN. destruct i; by apply fixed_wordy.
  - apply HN. destruct d; by apply fixed_wordy.
  - apply HN. by apply fixed_wordy.
  - apply HN. by apply fixed_wordy.
  - apply HN. by apply fixed_wordy.
  - apply HN. by apply fixed_wordy.
  - destruct (IH H) as [I1 I2]. cbn [cs_text erase csharp_ty]. destruct c; rewrite map_app.
    + split; [|apply no10_app; [done|by apply no10]]. apply coded_app; [done|by apply coded_fixed|sp 32].
    + split; [|apply no10_app; [done|by apply no10]]. apply coded_app; [done|by apply coded_fixed|sp 32].
  - apply HN. by apply (full_ok (XArr t n)).
  - apply HN. by apply (cs_short_ok (XFn r args)).
  - apply HN. by apply (full_ok (XStruct d n gs fs)).
  - apply HN. by apply (full_ok (XEnum d n i vs)).
  - apply IH. apply H.
  - apply HN. by apply (full_ok (XOpaque d n)).
Qed.

(** ** Lines *)

Definition ends (a : ntext) : Prop := ∃ c, last a = Some c ∧ c < 128 ∧ ascii_ws c = false.
Lemma ends_fixed a c : last a = Some c → c < 128 → ascii_ws c = false → ends a.
Proof. intros. by exists c. Qed.
Lemma ends_app a b : ends b → ends (a ++ b).
Proof. intros (c & Hc & ?). exists c. split; [|done]. by rewrite last_app, Hc. Qed.
Lemma out_end n a : ends a → 10 ∉ a → out_line ws n a = (indentation n ++ a) ++ [10].
Proof. intros (c & Hc & Lc & Wc) Ha. rewrite <-app_assoc. apply (out_line_const ws n a c); [done| |done]. by rewrite HW. Qed.
Lemma csr_out n a ts : coded a ts → ends a → 10 ∉ a → csr (out_line ws n a) ts.
Proof. intros H He Ha. rewrite out_end by done. by apply csr_code, coded_indent. Qed.
Lemma csr_words n s c : match read cs_newline Code (chars s) with (Code, a') => forallb calmc a' | _ => false end = true →
  match read cs_newline Code (chars s) with (_, a') => lex a' end = words s →
  last (chars s) = Some c → c < 128 → ascii_ws c = false → forallb (λ c, negb (c =? 10)) (chars s) = true →
  csr (out_line ws n (chars s)) (words s).
Proof. intros. apply csr_out; [by apply coded_words|by exists c|by apply no10]. Qed.

(** Blanks before a line. *)
Lemma skip_lex l : lex (32 :: l) = lex l.
Proof. unfold lex. cbn [lexes]. change (lex1 Gap 32) with (Gap, @nil ctok). cbv beta iota. by destruct (lexes Gap l). Qed.
Lemma blank_line l : cs_line_of (32 :: l) = cs_line_of l.
Proof. unfold cs_line_of. rewrite skip_lex. reflexivity. Qed.
Lemma blank_pp defs st w s : Forall (λ c, blank c = true) w → cs_pp defs st (split 10 (w ++ s)) = cs_pp defs st (split 10 s).
Proof.
  induction 1 as [|c w Hc _ IH]; [done|]. cbn [app split]. unfold blank in Hc.
  destruct (c =? 10) eqn:E.
  - cbn [cs_pp]. change (cs_line_of []) with (CTokens []). cbv iota. change (if taken st then [] else []) with (sel st []).
    by rewrite sel_nil, opt_nil.
  - assert (c = 32) as -> by lia. destruct (split 10 (w ++ s)) as [|l ls] eqn:ES.
    + rewrite <-IH. cbn [cs_pp]. change (cs_line_of [32]) with (CTokens []). cbv iota.
      change (if taken st then [] else []) with (sel st []). by rewrite sel_nil, opt_nil.
    + rewrite <-IH. cbn [cs_pp]. by rewrite blank_line.
Qed.
Lemma csr_docs n d : cs_docs_ok ws d → csr (emit_docs ws LCSharp n d) [].
Proof.
  intros Hd defs st rest. rewrite sel_nil, opt_nil. destruct (cs_docs_read ws HW n d Hd) as (w & Rw & Bw).
  change (emit_docs ws LCSharp n d) with (cs_docs ws n d). unfold cs_from. rewrite read_app, Rw. cbn [fst snd].
  destruct (read cs_newline Code rest) as [m s]. cbn [fst snd]. destruct m; try done. rewrite same_lines_app, (same_lines_none w).
  - by apply blank_pp.
  - eapply Forall_impl; [exact Bw|]. intros c Hc Hn. unfold blank, cs_newline in *. lia.
Qed.

(** ** Attributes *)

Definition prefix_toks (pre : string) (pt : list ctok) : Prop := pre = "["%string ∧ pt = [] ∨ pre = "[return: "%string ∧ pt = return_.
Lemma attr_ok pre pt t m : prefix_toks pre pt → marshaler t = Some m →
  coded (attr pre (chars m)) (attr_toks pt (Some m)) ∧ last (attr pre (chars m)) = Some 93 ∧ 10 ∉ attr pre (chars m).
Proof.
  intros Hp Hm. destruct t; try done; injection Hm as <-;
    destruct Hp as [[-> ->]|[-> ->]]; (split_and!; [by apply coded_fixed|done|by apply no10]).
Qed.
Lemma attr_line_eq n pre pt t : prefix_toks pre pt → attr_line ws n pre t =
  match marshaler (erase t) with Some m => (indentation n ++ attr pre (chars m)) ++ [10] | None => [] end.
Proof.
  intros Hp. unfold attr_line, marshal. destruct (marshaler (erase t)) as [m|] eqn:E; [|done]. cbn [option_map].
  destruct (attr_ok pre pt _ _ Hp E) as (H1 & H2 & H3). apply out_end; [by exists 93|done].
Qed.
Lemma csr_attr n pre pt t : prefix_toks pre pt → csr (attr_line ws n pre t) (attr_toks pt (marshaler (erase t))).
Proof.
  intros Hp. rewrite (attr_line_eq n pre pt) by done. destruct (marshaler (erase t)) as [m|] eqn:E; [|apply csr_nil].
  apply csr_code, coded_indent. by destruct (attr_ok pre pt _ _ Hp E) as (H1 & _).
Qed.
Lemma coded_attr n pre pt t b tb : prefix_toks pre pt → coded b tb → coded (attr_line ws n pre t ++ b) (attr_toks pt (marshaler (erase t)) ++ tb).
Proof.
  intros Hp Hb. rewrite (attr_line_eq n pre pt) by done. destruct (marshaler (erase t)) as [m|] eqn:E; [|done].
  destruct (attr_ok pre pt _ _ Hp E) as (H1 & _). rewrite <-!app_assoc. apply coded_indent.
  apply coded_app; [done| |sp 10]. by apply (coded_blank 10).
Qed.
Lemma coded_inline n pre pt t b tb : prefix_toks pre pt → coded b tb → coded (inline_attr n pre t ++ b) (attr_toks pt (marshaler (erase t)) ++ tb).
Proof.
  intros Hp Hb. unfold inline_attr, marshal. destruct (marshaler (erase t)) as [m|] eqn:E; [|done]. cbn [option_map].
  destruct (attr_ok pre pt _ _ Hp E) as (H1 & _). rewrite <-!app_assoc.
  apply coded_app; [done| |sp 10]. apply (coded_blank 10); [done|done|]. by apply coded_indent.
Qed.
Lemma pre_field : prefix_toks "[" [].
Proof. by left. Qed.
Lemma pre_return : prefix_toks "[return: " return_.
Proof. by right. Qed.

(** ** Declarations *)

Definition cs_field_ok (f : field) : Prop := cs_docs_ok ws f.1.1 ∧ name_ok f.1.2 ∧ cs_ty_ok ws f.2.
Definition cs_decl_ok (y : xdecl) : Prop :=
  match y with
  | YInts | YBool | YAlias _ _ _ => False
  | YStruct d n fs => cs_docs_ok ws d ∧ name_ok n ∧ Forall cs_field_ok fs
  | YArr n t _ => name_ok n ∧ cs_ty_ok ws t
  | YEnum d n _ vs => cs_docs_ok ws d ∧ name_ok n ∧ Forall (λ v, cs_docs_ok ws v.1.1 ∧ wordy v.1.2) vs
  | YOpaque d n => cs_docs_ok ws d ∧ name_ok n
  | YDelegate n r args => name_ok n ∧ cs_ty_ok ws r ∧ Forall (cs_ty_ok ws) args
  | YFn d n args r => cs_docs_ok ws d ∧ name_ok n ∧ Forall (λ a, name_ok a.1 ∧ cs_ty_ok ws a.2) args ∧ cs_ty_ok ws r
  | YConst d n t _ v => cs_docs_ok ws d ∧ name_ok n ∧ cs_ty_ok ws t ∧ cs_value_ok ws v
  end.

Lemma coded_z z : coded (z_text z) (z_toks z).
Proof.
  unfold z_text, z_toks, ConstModel.debug_int. destruct z as [|p|p]; cbn [Z.ltb Z.compare].
  - exact (coded_word _ (num_wordy 0)).
  - exact (coded_word _ (num_wordy (N.pos p))).
  - change (coded ([45] ++ num_text (N.pos p)) ([Pn 45] ++ [Wd (num_text (N.pos p))])).
    apply coded_app; [by apply coded_fixed|exact (coded_word _ (num_wordy (N.pos p)))|pn 45].
Qed.
Lemma z_no10 z : 10 ∉ z_text z.
Proof.
  unfold z_text, ConstModel.debug_int. destruct z as [|p|p].
  - apply (word_no10 _ (proj2 (num_wordy 0))).
  - apply (word_no10 _ (proj2 (num_wordy (N.pos p)))).
  - change (10 ∉ [45] ++ num_text (N.pos p)). apply no10_app; [by apply no10|]. apply (word_no10 _ (proj2 (num_wordy (N.pos p)))).
Qed.
Ltac n10 := repeat (apply no10_app); try done; try (by apply no10); try (by apply name_no10); try (by apply word_no10, nat_wordy).
Ltac fin c := rewrite ?app_assoc; apply ends_app; by exists c.

Lemma csr_cs_variant v : cs_docs_ok ws v.1.1 ∧ wordy v.1.2 → csr (cs_variant ws v) (cs_variant_toks v).
Proof.
  intros [Hd Hv]. unfold cs_variant. apply csr_skip; [by apply csr_docs|]. apply csr_out.
  - unfold cs_variant_toks. match goal with |- coded _ (Wd ?a :: ?x) => change (Wd a :: x) with ([Wd a] ++ x) end.
    apply coded_app; [by apply coded_word| |by destruct v.2; [sp 32|sp 44]]. destruct v.2 as [z|]; cbn [value_text]; [|by apply coded_fixed].
    change ((Pn 61 :: z_toks z) ++ [Pn 44]) with ([Pn 61] ++ z_toks z ++ [Pn 44]).
    apply coded_app; [by apply coded_fixed| |pn 32]. apply coded_app; [apply coded_z|by apply coded_fixed|sp 44].
  - destruct v.2 as [z|]; cbn [value_text]; fin 44.
  - apply no10_app; [by apply word_no10, Hv|]. destruct v.2 as [z|]; cbn [value_text]; [|by apply no10].
    apply no10_app; [by apply no10|]. apply no10_app; [apply z_no10|by apply no10].
Qed.
Lemma csr_cs_enum d n i vs : cs_decl_ok (YEnum d n i vs) → csr (cs_enum ws d n i vs) (cs_expected P (YEnum d n i vs)).
Proof.
  intros (Hd & Hn & Hv). apply suffixed_wordy in Hn. unfold cs_expected. cbn [erase_decl cs_decl flat_map csdecl_toks variants]. rewrite !app_nil_r.
  unfold cs_enum. apply csr_skip; [by apply csr_docs|].
  eapply csr_eq.
  - eapply csr_app.
    + apply csr_out; [|fin 123|].
      * eapply coded_app; [kw| |pn 32]. eapply coded_app; [by apply coded_name| |sp 32]. eapply coded_app; [kw| |pn 32].
        instantiate (1 := (match i with Some i => Pn 58 :: map tk (csharp_ty (TInt i)) | None => [] end) ++ words " {").
        apply coded_app; [|kw|sp 32]. destruct i as [i|]; [|apply coded_nil].
        change (name_of LCSharp (XInt i)) with (cs_text (XInt i) ++ []). rewrite app_nil_r.
        change (Pn 58 :: map tk (csharp_ty (TInt i))) with (words ": " ++ map tk (csharp_ty (erase (XInt i)))).
        eapply coded_app; [kw|by apply (cs_text_ok (XInt i))|pn 32].
      * n10. destruct i as [i|]; [|apply not_elem_of_nil]. apply no10_app; [by apply no10|]. by destruct i; apply no10.
    + apply csr_app; [apply csr_flat; eapply Forall_impl; [exact Hv|]; intros v H; by apply csr_cs_variant|].
      apply csr_end. by apply (csr_words _ "}" 125).
  - rewrite <-!app_assoc. by destruct i.
Qed.
Lemma csr_size n sz : csr (out_line ws n (size_line sz)) (words "[StructLayout(LayoutKind.Sequential, Size =" ++ [size_tok sz] ++ words ")]") ∧
  coded (size_line sz) (words "[StructLayout(LayoutKind.Sequential, Size =" ++ [size_tok sz] ++ words ")]").
Proof.
  assert (H : coded (size_line sz) (words "[StructLayout(LayoutKind.Sequential, Size =" ++ [size_tok sz] ++ words ")]")).
  { unfold size_line. apply coded_app; [by apply coded_fixed| |pn 32]. apply coded_app; [apply coded_word, nat_wordy|kw|sp 41]. }
  split; [|done]. apply csr_out; [done| |].
  - unfold size_line. fin 93.
  - unfold size_line. n10.
Qed.
Lemma csr_cs_field f : cs_field_ok f → csr (cs_field ws f) (field_toks (FVar (var (erase f.2)) f.1.2)).
Proof.
  intros (Hd & Hn & Ht). destruct (cs_text_ok _ Ht) as [T1 T2]. unfold cs_field. apply csr_skip; [by apply csr_docs|].
  cbn [field_toks var v_attr v_ty]. apply csr_app; [apply csr_attr, pre_field|]. apply csr_out.
  - apply coded_app; [by apply coded_fixed| |pn 32]. apply coded_app; [done| |sp 32].
    apply (coded_blank 32); [done|done|]. apply (coded_app _ _ [wd f.1.2] [semi]); [by apply coded_name|by apply coded_fixed|sp 59].
  - fin 59.
  - n10.
Qed.
Lemma csr_cs_fields fs : Forall cs_field_ok fs →
  csr (fields_text (cs_field ws) fs) (flat_map field_toks (map (λ f, FVar (var f.2) f.1) (map (λ f : field, (f.1.2, erase f.2)) fs))).
Proof.
  rewrite !flat_map_map. unfold fields_text. induction 1 as [|f fs Hf Hl IH]; [apply csr_nil|]. cbn [map flat_map fst snd].
  apply csr_cs_field in Hf. destruct fs as [|g fs]; [cbn [map joined flat_map]; by rewrite app_nil_r|].
  change (joined eol (cs_field ws f :: map (cs_field ws) (g :: fs))) with
    (cs_field ws f ++ eol ++ joined eol (map (cs_field ws) (g :: fs))).
  apply csr_app; [done|]. apply csr_skip; [apply csr_eol|done].
Qed.
Lemma csr_cs_struct d n fs : cs_decl_ok (YStruct d n fs) → csr (cs_struct P ws d n fs) (cs_expected P (YStruct d n fs)).
Proof.
  intros (Hd & Hn & Hf). apply suffixed_wordy in Hn. unfold cs_expected. cbn [erase_decl cs_decl flat_map csdecl_toks]. rewrite !app_nil_r.
  unfold cs_struct, block. cbn [flat_map]. rewrite app_nil_r. apply csr_skip; [by apply csr_docs|].
  rewrite (map_map (λ f : field, (f.1.2, erase f.2)) (λ f : string * cty, lay P f.2)). cbn [snd].
  eapply csr_eq.
  - eapply csr_app.
    + eapply csr_app; [apply csr_size|].
      apply csr_out; [|fin 123|n10]. eapply coded_app; [kw| |pn 32]. eapply coded_app; [by apply coded_name|kw|sp 32].
    + eapply csr_app; [by apply csr_cs_fields|]. apply csr_end. by apply (csr_words _ "}" 125).
  - rewrite <-!app_assoc. reflexivity.
Qed.
Lemma csr_cs_opaque d n : cs_decl_ok (YOpaque d n) → csr (cs_opaque ws d n) (cs_expected P (YOpaque d n)).
Proof.
  intros (Hd & Hn). apply suffixed_wordy in Hn. unfold cs_expected. cbn [erase_decl cs_decl flat_map csdecl_toks]. rewrite !app_nil_r.
  unfold cs_opaque, block. cbn [flat_map]. rewrite app_nil_r, <-!app_assoc. apply csr_skip; [by apply csr_docs|].
  assert (HP : ∀ s, s = "#pragma warning disable 0169"%string ∨ s = "#pragma warning restore 0169"%string → csr (out_line ws 4 (chars s)) []).
  { intros s Hs. rewrite out_end.
    - apply (csr_line _ (indentation 4 ++ chars s)); [by destruct Hs as [-> | ->]| |right; by destruct Hs as [-> | ->]].
      destruct Hs as [-> | ->]; by repeat constructor.
    - by exists 57; destruct Hs as [-> | ->].
    - by destruct Hs as [-> | ->]; apply no10. }
  eapply csr_eq.
  - eapply csr_app.
    + apply csr_out; [|fin 123|n10]. eapply coded_app; [kw| |pn 32]. eapply coded_app; [by apply coded_name|kw|sp 32].
    + eapply csr_app; [apply HP; by left|]. eapply csr_app; [by apply (csr_words _ "private byte OPAQUE;" 59)|].
      eapply csr_app; [apply HP; by right|]. apply csr_end. by apply (csr_words _ "}" 125).
  - rewrite <-!app_assoc. reflexivity.
Qed.
(** Parameters. *)
Lemma coded_arg a : name_ok a.1 ∧ cs_ty_ok ws a.2 → coded (cs_arg ws a) (param_toks (var (erase a.2), chars a.1)).
Proof.
  intros [Hn Ht]. destruct (cs_text_ok _ Ht) as [T1 T2]. unfold cs_arg, param_toks. cbn [fst snd var v_attr v_ty].
  apply (coded_blank 10); [done|done|]. apply coded_attr; [apply pre_field|]. apply coded_indent.
  apply coded_app; [done| |sp 32]. apply (coded_blank 32); [done|done|]. by apply coded_name.
Qed.
Lemma coded_delegate_arg i t : cs_ty_ok ws t → coded (delegate_arg i t) (param_toks (var (erase t), chars "_" ++ nat_text i)).
Proof.
  intros Ht. destruct (cs_text_ok _ Ht) as [T1 T2]. unfold delegate_arg, param_toks. cbn [fst snd var v_attr v_ty].
  apply (coded_blank 10); [done|done|]. apply coded_indent. apply coded_inline; [apply pre_field|].
  apply coded_app; [done| |sp 32]. apply (coded_blank 32 (chars "_" ++ nat_text i)); [done|done|]. apply coded_word.
  apply wordy_app; [by apply fixed_wordy|apply nat_wordy].
Qed.
Lemma coded_sig r n xs ps : cs_ty_ok ws r → name_ok n → Forall2 coded xs (map param_toks ps) →
  coded (cs_text r ++ chars " " ++ chars n ++ chars " (" ++ joined (chars ",") xs ++ chars ");")
    (map tk (csharp_ty (erase r)) ++ [wd n] ++ words "(" ++ comma (map param_toks ps) ++ words ");").
Proof.
  intros Hr Hn Hx. destruct (cs_text_ok _ Hr) as [T1 T2]. apply coded_app; [done| |sp 32]. apply (coded_blank 32); [done|done|].
  apply coded_app; [by apply coded_name| |sp 32]. apply (coded_app (chars " (") _ (words "(")); [by apply coded_fixed| |pn 40].
  apply coded_app; [by apply coded_joined|kw|sp 41].
Qed.
Lemma csr_cs_fn d n args r : cs_decl_ok (YFn d n args r) → csr (cs_fn ws d n args r) (cs_expected P (YFn d n args r)).
Proof.
  intros (Hd & Hn & Ha & Hr). unfold cs_expected. cbn [erase_decl cs_decl flat_map csdecl_toks param_names]. rewrite !app_nil_r.
  unfold cs_fn, sig_toks. cbn [var v_attr v_ty].
  set (ps := zip _ _). assert (HF : Forall2 coded (map (cs_arg ws) args) (map param_toks ps)).
  { subst ps. clear -HW Ha. induction Ha as [|a args Ha _ IH]; [constructor|]. cbn [map zip_with]. constructor; [|done].
    by apply coded_arg. }
  eapply csr_eq.
  - eapply csr_app; [by apply (csr_words _ "public unsafe partial class Ffi {" 123)|]. apply csr_skip; [by apply csr_docs|].
    eapply csr_app; [apply csr_attr, pre_return|].
    eapply csr_app; [by apply (csr_words _ "[DllImport(RustLib, ExactSpelling = true)] public static unsafe extern" 110)|].
    match goal with |- csr ?x _ => replace x with (((indentation 4 ++ cs_text r ++ chars " " ++ chars n ++ chars " (" ++
      joined (chars ",") (map (cs_arg ws) args) ++ chars ");") ++ [10]) ++ out_line ws 0 (chars "}") ++ eol) by (by rewrite <-!app_assoc) end.
    eapply csr_app; [apply csr_code, coded_indent, coded_sig; [exact Hr|exact Hn|exact HF]|].
    apply csr_end. by apply (csr_words _ "}" 125).
  - rewrite <-!app_assoc. reflexivity.
Qed.
Lemma csr_cs_delegate n r args : cs_decl_ok (YDelegate n r args) → csr (cs_delegate n r args) (cs_expected P (YDelegate n r args)).
Proof.
  intros (Hn & Hr & Ha). unfold cs_expected. cbn [erase_decl cs_decl flat_map csdecl_toks param_names]. rewrite !app_nil_r.
  unfold cs_delegate, sig_toks. cbn [var v_attr v_ty]. destruct (cs_text_ok _ Hr) as [T1 T2].
  set (ps := zip _ _). assert (HF : Forall2 coded (imap delegate_arg args) (map param_toks ps)).
  { assert (G : ∀ k : nat → nat, Forall2 coded (imap (λ i, delegate_arg (k i)) args)
      (map param_toks (zip (map var (map erase args)) (imap (λ (i : nat) (_ : xty), chars "_" ++ nat_text (k i)) args)))).
    { clear -Ha. induction Ha as [|a args Ha _ IH]; intros k; [constructor|]. cbn [map imap zip_with]. constructor.
      - by apply coded_delegate_arg.
      - exact (IH (λ i, k (S i))). }
    exact (G (λ i, i)). }
  match goal with |- csr ?x _ => replace x with (((chars "[UnmanagedFunctionPointer(CallingConvention.Winapi)]" ++ eol ++ inline_attr 0 "[return: " r ++
     chars "public unsafe /* static */ delegate" ++ eol ++ indentation 4 ++ cs_text r ++ eol ++ indentation 4 ++ chars n ++ chars " (" ++
     joined (chars ",") (imap delegate_arg args) ++ chars ");") ++ [10]) ++ eol) by (rewrite <-?app_assoc; reflexivity) end.
  apply csr_end, csr_code. apply coded_app; [kw| |sp 10]. apply (coded_blank 10); [done|done|].
  apply coded_inline; [apply pre_return|]. apply coded_app; [by apply coded_fixed| |sp 10]. apply (coded_blank 10); [done|done|].
  apply coded_indent. apply coded_app; [done| |sp 10]. apply (coded_blank 10); [done|done|]. apply coded_indent.
  apply coded_app; [by apply coded_name| |sp 32]. apply (coded_app (chars " (") _ (words "(")); [by apply coded_fixed| |pn 40].
  apply coded_app; [by apply coded_joined|kw|sp 41].
Qed.
Lemma csr_cs_arr n t len : cs_decl_ok (YArr n t len) → csr (cs_arr P n t len) (cs_expected P (YArr n t len)).
Proof.
  intros (Hn & Ht). unfold cs_expected. cbn [erase_decl cs_decl flat_map csdecl_toks]. rewrite !app_nil_r.
  destruct (cs_text_ok _ Ht) as [T1 T2]. unfold cs_arr. set (sz := (arr_lay (lay P (erase t)) (N.to_nat len)).1).
  rewrite app_assoc. apply (csr_eq _ ((words "[StructLayout(LayoutKind.Sequential, Size =" ++ [size_tok sz] ++ words ")]") ++
    words "public unsafe struct" ++ [wd n; lbrace] ++ flat_map field_toks (arr_fields (erase t) (N.to_nat len)) ++ [rbrace])); [|by rewrite <-!app_assoc].
  apply csr_app; [apply csr_code, csr_size; exact 0%nat|].
  match goal with |- csr ?x ?y => replace x with (((chars "public unsafe struct " ++ chars n ++ chars " {") ++ [10]) ++
    (if is_fixed (erase t)
     then (indentation 4 ++ chars "public fixed " ++ cs_text t ++ chars " arr[" ++ num_text len ++ chars "];") ++ [10]
     else flat_map (λ i, chars "    " ++ inline_attr 4 "[" t ++ chars "public " ++ cs_text t ++ chars " _" ++ nat_text i ++ chars ";" ++ eol)
            (List.seq 0 (N.to_nat len))) ++ (chars "}" ++ [10]) ++ eol);
    [change y with ((words "public unsafe struct" ++ [wd n; lbrace]) ++ flat_map field_toks (arr_fields (erase t) (N.to_nat len)) ++ [rbrace])|] end.
  2:{ rewrite <-!app_assoc. destruct (is_fixed (erase t)); by rewrite <-?app_assoc. }
  apply csr_app.
  { apply csr_code. apply coded_app; [by apply coded_fixed| |pn 32].
    apply (coded_app _ _ [wd n] [lbrace]); [by apply coded_name|by apply coded_fixed|sp 32]. }
  apply csr_app; [|apply csr_end, csr_code; by apply coded_fixed].
  unfold arr_fields. destruct (is_fixed (erase t)).
  - cbn [flat_map field_toks]. rewrite app_nil_r. apply csr_code, coded_indent.
    apply coded_app; [by apply coded_fixed| |pn 32]. apply coded_app; [done| |sp 32].
    apply (coded_app (chars " arr[") _ [wd "arr"; Pn 91] [size_tok (N.to_nat len); Pn 93; semi]); [by apply coded_fixed| |pn 91].
    unfold size_tok, nat_text. rewrite N2Nat.id.
    apply (coded_app _ _ [Wd (num_text len)] [Pn 93; semi]); [apply coded_word, num_wordy|by apply coded_fixed|sp 93].
  - rewrite flat_map_map. apply csr_flat. apply Forall_forall. intros i _. cbn [field_toks var v_attr v_ty].
    match goal with |- csr ?x _ => replace x with ((indentation 4 ++ inline_attr 4 "[" t ++ chars "public " ++ cs_text t ++ chars " " ++ (chars "_" ++ nat_text i) ++ chars ";") ++ [10])
      by (rewrite <-?app_assoc; reflexivity) end.
    apply csr_code, coded_indent. apply coded_inline; [apply pre_field|]. apply coded_app; [by apply coded_fixed| |pn 32].
    apply coded_app; [done| |sp 32]. apply (coded_blank 32); [done|done|].
    apply (coded_app _ _ [wd ("_" +:+ pretty i)] [semi]); [|by apply coded_fixed|sp 59].
    unfold wd. rewrite chars_app, pretty_nat_text. apply coded_word. apply wordy_app; [by apply fixed_wordy|apply nat_wordy].
Qed.

(** *** Constants *)

Lemma read_from_input nl a : ∀ m x, x ∈ (read nl m a).2 → x ∈ a ∨ x = 32 ∨ x = 47.
Proof.
  induction a as [|c a IH]; intros m x; cbn [read]; [intros H; by apply elem_of_nil in H|].
  destruct (step nl m c) as [m1 o1] eqn:E1. specialize (IH m1 x). destruct (read nl m1 a) as [m2 o2]. cbn [fst snd] in *.
  intros [H|H]%elem_of_app; [|destruct (IH H) as [?|?]; [left; by right|by right]].
  assert (HO : x = c ∨ x = 32 ∨ x = 47); [|destruct HO as [->|?]; [left; by left|by right]].
  assert (HC : ∀ m o, code c = (m, o) → x ∈ o → x = c).
  { intros m' o' Hc Hx. unfold code in Hc. destruct (c =? 47); [injection Hc as <- <-; by apply elem_of_nil in Hx|].
    destruct (_ || _); injection Hc as <- <-; by apply elem_of_list_singleton in Hx. }
  destruct m as [| |s| |q e]; cbn [step] in E1.
  - left. by eapply HC.
  - destruct (c =? 42); [injection E1 as <- <-; apply elem_of_list_singleton in H; auto|].
    destruct (c =? 47); [injection E1 as <- <-; apply elem_of_list_singleton in H; auto|].
    destruct (code c) as [m' o'] eqn:Ec. injection E1 as <- <-. apply elem_of_cons in H as [->|H]; [auto|]. left. by eapply HC.
  - destruct (_ && _); injection E1 as <- <-; by apply elem_of_nil in H.
  - destruct (nl c); injection E1 as <- <-; [left; by apply elem_of_list_singleton in H|by apply elem_of_nil in H].
  - destruct e; [injection E1 as <- <-; left; by apply elem_of_list_singleton in H|].
    destruct (c =? 92); [injection E1 as <- <-; left; by apply elem_of_list_singleton in H|].
    destruct (c =? q); injection E1 as <- <-; left; by apply elem_of_list_singleton in H.
Qed.
Lemma blank_lines n l : cs_line_of (indentation n ++ l) = cs_line_of l.
Proof. induction n as [|n IH]; [done|]. change (indentation (S n) ++ l) with (32 :: indentation n ++ l). by rewrite blank_line. Qed.
Lemma value_line n pre ts c v tv : coded pre ts → 10 ∉ pre → head pre = Some c → calmc c = true → ascii_ws c = false →
  last pre = Some 32 → read cs_newline Code v = (Code, v) → has v tv → Forall (λ c, cs_newline c = false) v →
  ∃ a', read cs_newline Code (indentation n ++ pre ++ v ++ chars ";") = (Code, a') ∧ Forall (λ c, cs_newline c = false) a' ∧
    cs_line_of a' = CTokens (ts ++ tv ++ [semi]).
Proof.
  intros (p' & Rp & Cp & <-) Np Hc Cc Wc Lp Rv Hv Nv. exists (indentation n ++ p' ++ v ++ chars ";"). split_and!.
  - rewrite read_app, read_indent. cbn [fst snd]. rewrite read_app, Rp. cbn [fst snd]. by rewrite read_app, Rv.
  - apply Forall_app. split; [|apply Forall_app; split; [|apply Forall_app; split; [done|by repeat constructor]]].
    + apply Forall_forall. intros x Hx%elem_of_list_In%repeat_spec. by subst.
    + apply Forall_forall. intros x Hx. unfold calm in Cp. rewrite Forall_forall in Cp. pose proof (Cp x Hx) as Hcalm.
      assert (x ≠ 10).
      { intros ->. pose proof (read_from_input cs_newline pre Code 10) as H. rewrite Rp in H. destruct (H Hx) as [?|[?|?]]; done. }
      unfold calmc, plainc, cs_newline in *. lia.
  - rewrite blank_lines. destruct pre as [|x pre]; [done|]. injection Hc as ->. pose proof (head_read _ _ _ Rp Cc) as Hh.
    destruct p' as [|x p']; [done|]. injection Hh as ->. unfold cs_line_of. cbn [app skip]. rewrite Wc.
    destruct (c =? 35) eqn:E35; [unfold calmc, plainc in Cc; lia|]. f_equal.
    assert (HP : has (c :: p') (lex (c :: p'))) by (by apply plain_has, calm_plain).
    change (c :: p' ++ v ++ chars ";") with ((c :: p') ++ v ++ chars ";").
    assert (HL : last (c :: p') = Some 32).
    { rewrite last_Some in Lp. destruct Lp as [l El]. rewrite El in Rp. by eapply last_read. }
    apply (has_app _ _ _ _ HP); [|by apply (apart_pn _ _ 32)].
    apply has_app; [done|by apply (has_lex (chars ";"))|by apply (apart_sp _ _ 59)].
Qed.
Lemma csr_cs_const d n t u v : cs_decl_ok (YConst d n t u v) → csr (cs_const ws d n t u v) (cs_expected P (YConst d n t u v)).
Proof.
  intros (Hd & Hn & Ht & Rv & Lv & Nv). unfold cs_expected. cbn [erase_decl cs_decl flat_map app].
  unfold cs_const. destruct u; [apply csr_nil|]. destruct (cs_text_ok _ Ht) as [T1 T2].
  assert (N10 : 10 ∉ v) by (intros H; rewrite Forall_forall in Nv; by apply Nv in H).
  set (pre := chars "public const " ++ cs_text t ++ chars " " ++ chars n ++ chars " = ").
  assert (HP : coded pre (words "public const" ++ map tk (csharp_ty (erase t)) ++ [wd n; Pn 61])).
  { apply coded_app; [by apply coded_fixed| |pn 32]. apply coded_app; [done| |sp 32]. apply (coded_blank 32); [done|done|].
    apply (coded_app _ _ [wd n] [Pn 61]); [by apply coded_name|by apply coded_fixed|sp 32]. }
  assert (HV : has v (lex v)) by (by split).
  destruct (value_line 4 pre _ 112 v (lex v) HP) as (a' & Ra & Na & Ea); [subst pre; n10|done|done|done| |done|done|done|].
  { subst pre. rewrite !app_assoc. by rewrite last_app. }
  eapply csr_eq.
  - eapply csr_app; [by apply (csr_words _ "public unsafe partial class Ffi {" 123)|]. apply csr_skip; [by apply csr_docs|].
    eapply csr_app; [|apply csr_end; by apply (csr_words _ "}" 125)].
    match goal with |- csr (out_line ws 4 ?x) _ => replace x with (pre ++ v ++ chars ";") by (subst pre; by rewrite <-!app_assoc) end.
    rewrite out_end; [|fin 59|subst pre; n10]. apply (csr_line _ a'); [done|done|]. left. exact Ea.
  - rewrite <-!app_assoc. reflexivity.
Qed.

(** ** The body *)

Lemma csr_render fn_style y : cs_decl_ok y → csr (render P ws fn_style LCSharp y) (cs_expected P y).
Proof.
  intros Hy. destruct y as [| |d n fs|n t len|d n i vs|d n t|d n|n r args|d n args r|d n t u v]; try done; cbn [render].
  - by apply csr_cs_struct.
  - by apply csr_cs_arr.
  - by apply csr_cs_enum.
  - by apply csr_cs_opaque.
  - by apply csr_cs_delegate.
  - by apply csr_cs_fn.
  - by apply csr_cs_const.
Qed.
Definition cs_fine (s : xst) : Prop := Forall (λ d : lang * xdecl, d.1 = LCSharp ∧ cs_decl_ok d.2) (xout s).
Lemma csr_body fn_style s : cs_fine s →
  csr (body_text P ws fn_style (xout s)) (flat_map (λ d : lang * xdecl, cs_expected P d.2) (xout s)).
Proof.
  intros H. unfold body_text. apply csr_flat. eapply Forall_impl; [exact H|]. intros [l y] [Hl Hy]. cbn [fst snd] in *. subst l.
  by apply csr_render.
Qed.

(** ** What is written *)

Definition cs_keeps (f : xst → xres) : Prop := ∀ s, cs_fine s → match f s with XOk s' => cs_fine s' | _ => True end.
Lemma cs_keeps_ok : cs_keeps XOk.
Proof. by intros s H. Qed.
Lemma cs_keeps_emit y : cs_decl_ok y → cs_keeps (xemit LCSharp y).
Proof. intros Hy s H. cbn [xemit]. apply Forall_app. split; [done|by repeat constructor]. Qed.
Lemma cs_keeps_bind f g : cs_keeps f → cs_keeps g → cs_keeps (λ s, xbind (f s) g).
Proof. intros Hf Hg s H. specialize (Hf s H). destruct (f s) as [s'| |]; [by apply Hg|done|done]. Qed.
Lemma cs_keeps_once k f : cs_keeps f → cs_keeps (xonce k f).
Proof. intros Hf s H. unfold xonce. case_bool_decide; [done|]. by apply Hf. Qed.
Lemma cs_ty_ok_args args :
  (fix go (l : list xty) : Prop := match l with [] => True | t :: l => cs_ty_ok ws t ∧ go l end) args ↔ Forall (cs_ty_ok ws) args.
Proof. induction args as [|a l IH]; [by split; [constructor|]|]. rewrite Forall_cons. by rewrite IH. Qed.
Lemma cs_ty_ok_fields fs :
  (fix go (l : list field) : Prop :=
     match l with [] => True | f :: l => (cs_docs_ok ws f.1.1 ∧ name_ok f.1.2 ∧ cs_ty_ok ws f.2) ∧ go l end) fs ↔ Forall cs_field_ok fs.
Proof. induction fs as [|a l IH]; [by split; [constructor|]|]. rewrite Forall_cons. by rewrite IH. Qed.
Lemma cs_keeps_define t : cs_ty_ok ws t → cs_keeps (xdefine LCSharp t).
Proof.
  induction t as [i|d| | | | |c t IH|t n IH|r args IHr IHa|d n gs fs IHg IHf|d n i vs|d n t IH|d n] using xty_ind';
    intros H; cbn [xdefine xdefine_int legacy]; try exact cs_keeps_ok.
  - by apply IH.
  - pose proof (full_ok _ H) as HS. apply cs_keeps_bind; [by apply IH|]. by apply cs_keeps_once, cs_keeps_emit.
  - pose proof (cs_short_ok _ H) as HS. destruct H as [Hr Ha]. apply cs_ty_ok_args in Ha.
    apply cs_keeps_bind; [by apply IHr|]. apply cs_keeps_bind; [|by apply cs_keeps_once, cs_keeps_emit].
    clear -IHa Ha. induction IHa as [|a args Ia _ IH]; [exact cs_keeps_ok|]. inversion_clear Ha as [|? ? H1 H2].
    apply cs_keeps_bind; [by apply Ia|by apply IH].
  - pose proof (cs_short_ok _ H) as HS. destruct H as (Hd & Hn & Hg & Hf). apply cs_ty_ok_fields in Hf. apply cs_keeps_once.
    apply cs_keeps_bind.
    + clear -IHf Hf. induction IHf as [|[q t] fs If _ IH]; [exact cs_keeps_ok|]. inversion_clear Hf as [|? ? H1 H2].
      apply cs_keeps_bind; [apply If; apply H1|by apply IH].
    + intros s Hs. destruct (zst _); [done|]. apply cs_keeps_emit; [|done]. split_and!; [done|done|].
      apply Forall_forall. intros f Hin. apply elem_of_list_filter in Hin as [_ Hin]. rewrite Forall_forall in Hf. by apply Hf.
  - apply cs_keeps_once, cs_keeps_bind; [exact cs_keeps_ok|by apply cs_keeps_emit].
  - destruct H as (Hd & Hn & Ht). apply cs_keeps_once, cs_keeps_bind; [by apply IH|exact cs_keeps_ok].
  - by apply cs_keeps_once, cs_keeps_emit.
Qed.
Lemma cs_keeps_gen i : cs_item_ok ws i → cs_keeps (xgen_def LCSharp i).
Proof.
  intros Hi. destruct i as [d n args r|d n t u v|n t]; cbn [xgen_def].
  - intros s Hs. change (xgen_def LCSharp (JFn d n args r) s) with (if bool_decide (n ∈ xseen s) then XErr else
      xbind (xdefine_all LCSharp (map snd args) (Xst (n :: xseen s) (xout s))) (λ s, xbind (xdefine LCSharp r s) (xemit LCSharp (YFn d n args r)))).
    destruct (bool_decide (n ∈ xseen s)); [done|]. pose proof Hi as (Hd & Hn & Ha & Hr).
    apply (cs_keeps_bind (xdefine_all LCSharp (map snd args)) (λ s, xbind (xdefine LCSharp r s) (xemit LCSharp (YFn d n args r)))); [| |exact Hs].
    + clear -Ha. induction Ha as [|a args [_ Ha] _ IH]; [exact cs_keeps_ok|]. apply cs_keeps_bind; [by apply cs_keeps_define|done].
    + apply cs_keeps_bind; [by apply cs_keeps_define|by apply cs_keeps_emit].
  - pose proof Hi as (Hd & Hn & Ht & Hv). apply cs_keeps_bind; [by apply cs_keeps_define|].
    destruct u; [exact cs_keeps_ok|]. by apply (cs_keeps_emit (YConst d n t false v)).
  - by apply cs_keeps_define.
Qed.
Lemma cs_body_ok stable is s : Forall (cs_item_ok ws) is → xwrite_body LCSharp stable is = XOk s → cs_fine s.
Proof.
  intros Hi E. unfold xwrite_body in E.
  assert (H : Forall (cs_item_ok ws) (if stable then xbtree is else rev is)).
  { rewrite Forall_forall in Hi. apply Forall_forall. intros i H. apply Hi. destruct stable; [by apply xbtree_sub|].
    apply elem_of_list_In, in_rev in H. by apply elem_of_list_In. }
  assert (HK : cs_keeps (xgen_all LCSharp (if stable then xbtree is else rev is))).
  { clear -H. induction H as [|i is' Hi _ IH]; [exact cs_keeps_ok|]. apply cs_keeps_bind; [by apply cs_keeps_gen|done]. }
  specialize (HK (Xst [] []) (List.Forall_nil _)). by rewrite E in HK.
Qed.
End decls.

(** ** The frame *)

Lemma cs_from_line a a' defs st rest : read cs_newline Code a = (Code, a') → Forall (λ c, cs_newline c = false) a' →
  cs_from defs st ((a ++ [10]) ++ rest) =
  match cs_line_of a' with
  | CIf x => cs_from defs ((bool_decide (x ∈ defs), false) :: st) rest
  | CElse => match st with (b, false) :: st => cs_from defs ((negb b, true) :: st) rest | _ => None end
  | CEndif => match st with _ :: st => cs_from defs st rest | [] => None end
  | CNothing => cs_from defs st rest
  | CTokens ts => option_map (app (sel st ts)) (cs_from defs st rest)
  | CBad => None
  end.
Proof.
  intros Ra Na. unfold cs_from. rewrite <-app_assoc, read_app, Ra. cbn [fst snd app read].
  change (step cs_newline Code 10) with (Code, [10]). cbv beta iota.
  destruct (read cs_newline Code rest) as [m s]. cbn [fst snd app]. destruct m.
  2-5: destruct (cs_line_of a'); try done; destruct st as [|[b []] st]; done.
  rewrite same_lines_app. change (same_lines (10 :: s)) with (10 :: same_lines s).
  rewrite (same_lines_none a').
  2:{ eapply Forall_impl; [exact Na|]. intros c Hc. by rewrite Hc. }
  rewrite split_app, split_none.
  - reflexivity.
  - intros Hin. rewrite Forall_forall in Na. apply Na in Hin. done.
Qed.
Definition insidec (c : N) : bool := negb ((c =? 34) || (c =? 92)) && negb (cs_newline c).
Definition inside (s : ntext) : Prop := Forall (λ c, insidec c = true) s.
Lemma read_inside s : inside s → read cs_newline (Lit 34 false) s = (Lit 34 false, s).
Proof.
  induction 1 as [|c s Hc _ IH]; [done|]. cbn [read step]. unfold insidec in Hc.
  destruct (c =? 92) eqn:E1; [lia|]. destruct (c =? 34) eqn:E2; [lia|]. by rewrite IH.
Qed.
Lemma lexes_inside s : inside s → ∀ w, lexes (InLit 34 false w) s = (InLit 34 false (w ++ s), []).
Proof.
  induction 1 as [|c s Hc _ IH]; intros w; [by rewrite app_nil_r|]. cbn [lexes lex1]. unfold insidec in Hc.
  destruct (c =? 92) eqn:E1; [lia|]. destruct (c =? 34) eqn:E2; [lia|]. rewrite IH, <-app_assoc. done.
Qed.
Lemma literal_ok s : inside s → read cs_newline Code (34 :: s ++ [34]) = (Code, 34 :: s ++ [34]) ∧
  has (34 :: s ++ [34]) [lib_tok s] ∧ Forall (λ c, cs_newline c = false) (34 :: s ++ [34]).
Proof.
  intros Hs. split_and!.
  - change (34 :: s ++ [34]) with ([34] ++ s ++ [34]). rewrite read_app. change (read cs_newline Code [34]) with (Lit 34 false, [34]).
    cbn [fst snd]. rewrite read_app, read_inside by done. done.
  - assert (E : lexes Gap (34 :: s ++ [34]) = (Gap, [lib_tok s])).
    { cbn [lexes]. change (lex1 Gap 34) with (InLit 34 false [34], @nil ctok). cbv beta iota.
      rewrite lexes_app, lexes_inside by done. done. }
    unfold has, lex. rewrite E. by split.
  - constructor; [done|]. apply Forall_app. split; [|by repeat constructor]. eapply Forall_impl; [exact Hs|].
    intros c Hc. unfold insidec in Hc. lia.
Qed.
Lemma wordy_inside s : wordy s → inside s.
Proof. intros [_ H]. eapply Forall_impl; [exact H|]. intros c Hc. unfold word_char, insidec, cs_newline in *. lia. Qed.

Lemma cs_banner_reads : csr (of_text (FrameModel.default_banner ++ [FrameModel.nl])) [].
Proof.
  rewrite of_text_app. apply csr_end.
  set (b := of_text FrameModel.default_banner).
  assert (E : b = removelast b ++ [10]) by (by vm_compute). rewrite E. apply csr_code.
  apply coded_fixed; by vm_compute.
Qed.
(** A directive without parameters. *)
Lemma csr_pragma s : (read cs_newline Code (chars s)) = (Code, chars s) → forallb (λ c, negb (cs_newline c)) (chars s) = true →
  cs_line_of (chars s) = CNothing → csr (chars s ++ [10]) [].
Proof.
  intros H1 H2 H3. apply (csr_line _ (chars s)); [done| |by right]. apply Forall_forall. intros c Hc%elem_of_list_In.
  rewrite forallb_forall in H2. specialize (H2 c Hc). by apply negb_true_iff in H2.
Qed.
Section frame.
Context (ns lib : FrameModel.text) (Hns : wordy (of_text ns)) (Hlib : wordy (of_text lib)).

Definition rust_lib (b : bool) : ntext := if b then of_text lib ++ chars ".framework/" ++ of_text lib else of_text lib.
Lemma rust_lib_inside b : inside (rust_lib b).
Proof.
  unfold rust_lib. destruct b; [|by apply wordy_inside]. apply Forall_app. split; [by apply wordy_inside|].
  apply Forall_app. split; [by repeat constructor|by apply wordy_inside].
Qed.
Lemma lib_line b : ∃ a', read cs_newline Code (indentation 4 ++ chars "private const string RustLib = " ++ (34 :: rust_lib b ++ [34]) ++ chars ";") = (Code, a') ∧
  Forall (λ c, cs_newline c = false) a' ∧
  cs_line_of a' = CTokens (words "private const string RustLib = " ++ [lib_tok (rust_lib b)] ++ [semi]).
Proof.
  destruct (literal_ok _ (rust_lib_inside b)) as (L1 & L2 & L3).
  apply (value_line ascii_ws ltac:(done) 4 _ _ 112); [kw|by apply no10|done|done|done|done|done|done|done].
Qed.
Lemma cs_prelude_reads defs rest :
  cs_from defs [] (of_text (FrameModel.cs_prelude ns lib ++ [FrameModel.nl]) ++ rest) =
  option_map (app (words "namespace" ++ [Wd (of_text ns)] ++ words "{ using System; using System.Runtime.InteropServices;" ++
    words "public unsafe partial class Ffi { private const string RustLib =" ++
    [lib_tok (rust_lib (bool_decide (chars "IOS" ∈ defs)))] ++ words "; }")) (cs_from defs [] rest).
Proof.
  set (A := (chars "#pragma warning disable IDE0044, IDE0049, IDE0055, IDE1006," ++ [10]) ++
    (chars "#pragma warning disable SA1004, SA1008, SA1023, SA1028," ++ [10]) ++
    (chars "#pragma warning disable SA1121, SA1134," ++ [10]) ++ (chars "#pragma warning disable SA1201," ++ [10]) ++
    (chars "#pragma warning disable SA1300, SA1306, SA1307, SA1310, SA1313," ++ [10]) ++
    (chars "#pragma warning disable SA1500, SA1505, SA1507," ++ [10]) ++
    (chars "#pragma warning disable SA1600, SA1601, SA1604, SA1605, SA1611, SA1615, SA1649," ++ [10]) ++ eol ++
    ((chars "namespace " ++ of_text ns ++ chars " {") ++ [10]) ++ (chars "using System;" ++ [10]) ++
    (chars "using System.Runtime.InteropServices;" ++ [10]) ++ eol ++ (chars "public unsafe partial class Ffi {" ++ [10])).
  set (L := λ b, indentation 4 ++ chars "private const string RustLib = " ++ (34 :: rust_lib b ++ [34]) ++ chars ";").
  assert (ET : of_text (FrameModel.cs_prelude ns lib ++ [FrameModel.nl]) =
    A ++ (chars "#if IOS" ++ [10]) ++ (L true ++ [10]) ++ (chars "#else" ++ [10]) ++ (L false ++ [10]) ++ (chars "#endif" ++ [10]) ++
    (chars "}" ++ [10]) ++ eol).
  { subst A L. unfold FrameModel.cs_prelude, FrameModel.lines, FrameModel.quoted, rust_lib.
    repeat (rewrite of_text_app || rewrite of_text_cons).
    rewrite <-!app_assoc. repeat (progress cbn [app] || rewrite <-!app_assoc). reflexivity. }
  assert (HA : csr A (words "namespace" ++ [Wd (of_text ns)] ++ words "{ using System; using System.Runtime.InteropServices;" ++
    words "public unsafe partial class Ffi {")).
  { subst A. repeat (apply csr_skip; [by apply csr_pragma|]). apply csr_skip; [apply csr_eol|].
    eapply csr_eq.
    - eapply csr_app.
      + apply csr_code. eapply coded_app; [kw| |pn 32]. eapply coded_app; [by apply coded_word|kw|sp 32].
      + eapply csr_app; [apply csr_code; kw|]. eapply csr_app; [apply csr_code; kw|]. apply csr_skip; [apply csr_eol|].
        apply csr_code. kw.
    - rewrite <-!app_assoc. reflexivity. }
  rewrite ET, <-app_assoc, HA. clear ET HA. rewrite <-!(app_assoc _ _ rest), <-!app_assoc.
  set (b := bool_decide (chars "IOS" ∈ defs)).
  assert (HL : ∀ b st rest, cs_from defs st (L b ++ [10] ++ rest) =
    option_map (app (sel st (words "private const string RustLib = " ++ [lib_tok (rust_lib b)] ++ [semi]))) (cs_from defs st rest)).
  { intros b' st rest'. destruct (lib_line b') as (a' & Ra & Na & Ea). rewrite app_assoc. rewrite (cs_from_line _ a') by done. by rewrite Ea. }
  assert (HD : ∀ s st rest, read cs_newline Code (chars s) = (Code, chars s) → forallb (λ c, negb (cs_newline c)) (chars s) = true →
    cs_from defs st (chars s ++ [10] ++ rest) = match cs_line_of (chars s) with
      | CIf x => cs_from defs ((bool_decide (x ∈ defs), false) :: st) rest
      | CElse => match st with (b, false) :: st => cs_from defs ((negb b, true) :: st) rest | _ => None end
      | CEndif => match st with _ :: st => cs_from defs st rest | [] => None end
      | CNothing => cs_from defs st rest
      | CTokens ts => option_map (app (sel st ts)) (cs_from defs st rest)
      | CBad => None
      end).
  { intros s st rest' H1 H2. rewrite app_assoc. apply cs_from_line; [done|]. apply Forall_forall. intros c Hc%elem_of_list_In.
    rewrite forallb_forall in H2. specialize (H2 c Hc). by apply negb_true_iff in H2. }
  rewrite (HD "#if IOS") by done. change (cs_line_of (chars "#if IOS")) with (CIf (chars "IOS")). cbv iota.
  match goal with |- context [cs_from defs [(?x, false)]] => change x with b end.
  rewrite HL. rewrite (HD "#else") by done. change (cs_line_of (chars "#else")) with CElse. cbv iota.
  rewrite HL. rewrite (HD "#endif") by done. change (cs_line_of (chars "#endif")) with CEndif. cbv iota.
  rewrite (HD "}") by done. change (cs_line_of (chars "}")) with (CTokens [rbrace]). cbv iota.
  rewrite (csr_eol defs []). rewrite !opt_app. f_equal. f_equal. clearbody b. rewrite <-!app_assoc. destruct b; reflexivity.
Qed.
Lemma cs_epilogue_reads : csr (of_text (FrameModel.cs_epilogue ns)) [rbrace].
Proof.
  assert (ET : of_text (FrameModel.cs_epilogue ns) = eol ++ (chars "} /* " ++ of_text ns ++ chars " */") ++ [10]).
  { unfold FrameModel.cs_epilogue, FrameModel.lines. cbn [app]. repeat (rewrite of_text_app || rewrite of_text_cons).
    rewrite <-!app_assoc. repeat (progress cbn [app] || rewrite <-!app_assoc). reflexivity. }
  rewrite ET. apply csr_skip; [apply csr_eol|]. apply (csr_line _ (chars "}  ")); [|by repeat constructor|by left].
  rewrite read_app. change (read cs_newline Code (chars "} /* ")) with (Block false, chars "}  "). cbn [fst snd]. rewrite read_app.
  assert (E : ∀ s b, letters s → (s = [] → b = false) → read cs_newline (Block b) s = (Block false, [])).
  { clear. intros s b Hs. revert b. induction Hs as [|c s Hc Hs IH]; intros b Hb; [by rewrite Hb|]. cbn [read step].
    assert (b && (c =? 47) = false) as -> by (unfold word_char in Hc; lia).
    assert ((c =? 42) = false) as -> by (unfold word_char in Hc; lia). by rewrite IH. }
  rewrite E; [done|apply Hns|done].
Qed.
End frame.

(** ** Checking the hypotheses *)

Definition one_line (s : ntext) : bool := forallb (λ c, negb (cs_newline c)) s.
Definition cs_value_okb (v : ntext) : bool :=
  bool_decide ((read cs_newline Code v).2 = v) && match (read cs_newline Code v).1 with Code => true | _ => false end &&
  match (lexes Gap v).1 with InLit _ _ _ => false | _ => true end && one_line v.
Definition cs_docsb (d : docs) : bool := forallb one_line d.
Fixpoint cs_ty_okb (t : xty) : bool :=
  match t with
  | XInt _ | XFloat _ | XVoid | XBool | XCInt | XChar => true
  | XPtr _ t | XArr t _ => cs_ty_okb t
  | XFn r args => cs_ty_okb r && forallb cs_ty_okb args
  | XStruct d n gs fs =>
      cs_docsb d && nameb n && forallb cs_ty_okb gs && forallb (λ f : field, cs_docsb f.1.1 && nameb f.1.2 && cs_ty_okb f.2) fs
  | XEnum d n _ vs => cs_docsb d && nameb n && forallb (λ v, cs_docsb v.1.1 && wordyb v.1.2) vs
  | XAlias d n t => cs_docsb d && nameb n && cs_ty_okb t
  | XOpaque d n => cs_docsb d && nameb n
  end.
Definition cs_item_okb (i : xitem) : bool :=
  match i with
  | JFn d n args r => cs_docsb d && nameb n && forallb (λ a, nameb a.1 && cs_ty_okb a.2) args && cs_ty_okb r
  | JConst d n t _ v => cs_docsb d && nameb n && cs_ty_okb t && cs_value_okb v
  | JType _ t => cs_ty_okb t
  end.

Section check.
Context (ws : N → bool).
Lemma one_line_sound s : one_line s = true → Forall (λ c, cs_newline c = false) s.
Proof.
  intros H. apply Forall_forall. intros c Hc%elem_of_list_In. unfold one_line in H. rewrite forallb_forall in H.
  specialize (H c Hc). by apply negb_true_iff in H.
Qed.
Lemma cs_docs_sound d : cs_docsb d = true → cs_docs_ok ws d.
Proof.
  intros H. apply Forall_forall. intros x Hx%elem_of_list_In. unfold cs_docsb in H. rewrite forallb_forall in H.
  specialize (H x Hx). apply one_line_sound in H. apply Forall_forall. intros c Hc%sub_trim. rewrite Forall_forall in H. by apply H.
Qed.
Lemma cs_ty_sound t : cs_ty_okb t = true → cs_ty_ok ws t.
Proof.
  induction t as [i|d| | | | |c t IH|t n IH|r args IHr IHa|d n gs fs IHg IHf|d n i vs|d n t IH|d n] using xty_ind';
    cbn [cs_ty_okb cs_ty_ok]; intros H; try done.
  - by apply IH.
  - by apply IH.
  - apply andb_prop in H as [H1 H2]. split; [by apply IHr|]. clear -IHa H2. induction IHa as [|a args Ia _ IH]; [done|].
    cbn [forallb] in H2. apply andb_prop in H2 as [H1 H2]. split; [by apply Ia|by apply IH].
  - apply andb_prop in H as [H H4]. apply andb_prop in H as [H H3]. apply andb_prop in H as [H1 H2].
    split_and!; [by apply cs_docs_sound|by apply name_sound| |].
    + clear -IHg H3. induction IHg as [|a args Ia _ IH]; [done|].
      cbn [forallb] in H3. apply andb_prop in H3 as [H1 H2]. split; [by apply Ia|by apply IH].
    + clear -IHf H4. induction IHf as [|f fs If _ IH]; [done|].
      cbn [forallb] in H4. apply andb_prop in H4 as [H H4]. apply andb_prop in H as [H H3]. apply andb_prop in H as [H1 H2].
      split; [|by apply IH]. split_and!; [by apply cs_docs_sound|by apply name_sound|by apply If].
  - apply andb_prop in H as [H H3]. apply andb_prop in H as [H1 H2]. split_and!; [by apply cs_docs_sound|by apply name_sound|].
    apply Forall_forall. intros v Hv%elem_of_list_In. rewrite forallb_forall in H3. apply H3, andb_prop in Hv as [H4 H5].
    split; [by apply cs_docs_sound|by apply wordy_sound].
  - apply andb_prop in H as [H H3]. apply andb_prop in H as [H1 H2].
    split_and!; [by apply cs_docs_sound|by apply name_sound|by apply IH].
  - apply andb_prop in H as [H1 H2]. split; [by apply cs_docs_sound|by apply name_sound].
Qed.
Lemma cs_value_sound v : cs_value_okb v = true → cs_value_ok ws v.
Proof.
  unfold cs_value_okb. intros H. apply andb_prop in H as [H H4]. apply andb_prop in H as [H H3].
  apply andb_prop in H as [H1 H2]. apply bool_decide_eq_true in H1. split_and!.
  - destruct (read cs_newline Code v) as [m o]. cbn [fst snd] in *. subst o. by destruct m.
  - intros q e w E. by rewrite E in H3.
  - by apply one_line_sound.
Qed.
Lemma cs_items_sound is : forallb cs_item_okb is = true → Forall (cs_item_ok ws) is.
Proof.
  intros Hall. apply Forall_forall. intros i Hi%elem_of_list_In. rewrite forallb_forall in Hall. specialize (Hall i Hi) as H. clear Hi Hall.
  destruct i as [d n args r|d n t u v|n t]; cbn [cs_item_okb cs_item_ok] in *.
  - apply andb_prop in H as [H H4]. apply andb_prop in H as [H H3]. apply andb_prop in H as [H1 H2].
    split_and!; [by apply cs_docs_sound|by apply name_sound| |by apply cs_ty_sound].
    apply Forall_forall. intros a Ha%elem_of_list_In. rewrite forallb_forall in H3. apply H3, andb_prop in Ha as [H5 H6].
    split; [by apply name_sound|by apply cs_ty_sound].
  - apply andb_prop in H as [H H5]. apply andb_prop in H as [H H4]. apply andb_prop in H as [H1 H2].
    split_and!; [by apply cs_docs_sound|by apply name_sound|by apply cs_ty_sound|by apply cs_value_sound].
  - by apply cs_ty_sound.
Qed.
End check.
