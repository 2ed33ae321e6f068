(** Lemmas for C82: tokens, lines, names of types. *)

From Coq Require Import NArith ZArith List Bool String Ascii Lia ZifyBool ZifyNat ZifyN.
From stdpp Require Import base numbers list strings pretty.
From Verif Require Import NameModel NameSpec NameProofs DocModel DocSpec DocProofs HeaderModel HeaderSpec TextModel TextSpec.
From Verif Require ConstModel EnumModel.
Local Open Scope N_scope.

(** ** Lexing *)

Lemma lexes_app m a b : lexes m (a ++ b) =
  ((lexes (lexes m a).1 b).1, (lexes m a).2 ++ (lexes (lexes m a).1 b).2).
Proof.
  revert m. induction a as [|c a IH]; intros m; cbn [app lexes].
  - cbn [fst snd app]. by destruct (lexes m b).
  - destruct (lex1 m c) as [m' o]. rewrite IH. destruct (lexes m' a) as [m'' o']. cbn [fst snd].
    by rewrite app_assoc.
Qed.

(** A text with these tokens, all literals closed. *)
Definition has (a : ntext) (ts : list ctok) : Prop :=
  lex a = ts ∧ ∀ q e w, (lexes Gap a).1 ≠ InLit q e w.
(** Nothing is glued together where they meet. *)
Definition apart (a b : ntext) : Prop :=
  (∀ c, last a = Some c → word_char c = false) ∨ (∀ c, head b = Some c → word_char c = false).

Lemma in_word_last m s w : (lexes m s).1 = InWord w → s ≠ [] → ∃ c, last s = Some c ∧ word_char c = true.
Proof.
  revert m. induction s as [|c s IH]; intros m; [done|]. cbn [lexes]. intros H _.
  destruct (lex1 m c) as [m' o] eqn:E. destruct (lexes m' s) as [m'' o'] eqn:E'. cbn [fst] in H. subst m''.
  destruct s as [|d s].
  - cbn [lexes] in E'. injection E' as -> _. exists c. split; [done|].
    destruct m as [|w0|q e w0]; cbn [lex1] in E.
    + unfold start in E. destruct (word_char c); [done|]. by destruct ((c =? 34) || (c =? 39)), (ascii_ws c); simplify_eq.
    + destruct (word_char c) eqn:Wc; [done|]. unfold start in E. rewrite Wc in E.
      by destruct ((c =? 34) || (c =? 39)), (ascii_ws c); simplify_eq.
    + destruct e; [done|]. by destruct (c =? 92), (c =? q); simplify_eq.
  - destruct (IH m') as (c' & ? & ?); [by rewrite E'|done|]. exists c'. by rewrite last_cons_cons.
Qed.
Lemma has_app a b ts us : has a ts → has b us → apart a b → has (a ++ b) (ts ++ us).
Proof.
  intros [Ha La] [Hb Lb] Hab. destruct b as [|c b].
  { rewrite app_nil_r. cbn in Hb. rewrite <-Hb. by rewrite app_nil_r. }
  unfold has, lex. rewrite lexes_app. cbn [fst snd]. unfold lex in Ha. subst ts us.
  destruct (lexes Gap a) as [m o] eqn:Ea. cbn [fst snd] in *.
  destruct m as [|w|q e w]; [| |by destruct (La q e w)].
  - cbn [flush]. rewrite app_nil_r. unfold lex. by rewrite <-app_assoc.
  - assert (Hc : word_char c = false).
    { destruct Hab as [H|H]; [|by apply H]. destruct a as [|x a]; [done|].
      destruct (in_word_last Gap (x :: a) w) as (z & Hz & Wz); [by rewrite Ea|done|].
      rewrite (H _ Hz) in Wz. done. }
    unfold lex. cbn [lexes lex1]. rewrite Hc. change (lex1 Gap c) with (start c).
    destruct (start c) as [m o'] eqn:Es.
    cbn [lexes lex1] in Lb. rewrite Es in Lb. destruct (lexes m b) as [m' o'']. cbn [fst snd] in *.
    split; [|done]. cbn [flush]. rewrite <-!app_assoc. done.
Qed.
Lemma has_nil : has [] [].
Proof. split; done. Qed.
(** A fixed text. *)
Lemma has_lex a : match (lexes Gap a).1 with InLit _ _ _ => false | _ => true end = true → has a (lex a).
Proof. intros H. split; [done|]. intros q e w E. by rewrite E in H. Qed.
Lemma lexes_word w s : Forall (λ c, word_char c = true) s → lexes (InWord w) s = (InWord (w ++ s), []).
Proof.
  intros H. revert w. induction H as [|c s Hc _ IH]; intros w; cbn [lexes]; [by rewrite app_nil_r|].
  cbn [lex1]. rewrite Hc, IH. by rewrite <-app_assoc.
Qed.
Lemma elem_of_reverse_rev (x : N) l : x ∈ rev l → x ∈ l.
Proof. intros H%elem_of_list_In%in_rev. by apply elem_of_list_In. Qed.
Lemma has_word s : wordy s → has s [Wd s].
Proof.
  intros [Hs H]. destruct s as [|c s]; [done|]. inversion_clear H as [|? ? Hc Hs'].
  unfold has, lex. cbn [lexes]. change (lex1 Gap c) with (start c). unfold start. rewrite Hc.
  rewrite lexes_word by done. done.
Qed.
Lemma has_blank a c b ts : ascii_ws c = true → has (a ++ b) ts → (a = [] ∨ b = []) → has (a ++ c :: b) ts.
Proof.
  intros Hc H Hab.
  assert (Hc' : has [c] []).
  { split; unfold lex; cbn [lexes]; change (lex1 Gap c) with (start c); unfold start; rewrite Hc;
    destruct (word_char c) eqn:E; try (unfold word_char, ascii_ws in *; lia);
    destruct ((c =? 34) || (c =? 39)) eqn:E'; try (unfold ascii_ws in *; lia); done. }
  assert (Wc : word_char c = false) by (unfold word_char, ascii_ws in *; lia).
  destruct Hab as [-> | ->].
  - cbn [app] in *. change (c :: b) with ([c] ++ b). change ts with ([] ++ ts). apply has_app; [done|done|].
    left. intros x [= <-]. done.
  - rewrite app_nil_r in H. rewrite <-(app_nil_r ts). apply has_app; [done|done|]. right. intros x [= <-]. done.
Qed.

(** ** Plain code: no comments, literals, directives *)

Definition plainc (c : N) : bool :=
  (c <? 128) && negb ((c =? 47) || (c =? 34) || (c =? 39) || (c =? 92) || (c =? 35)).
Definition plain (s : ntext) : Prop := Forall (λ c, plainc c = true) s.
Lemma plain_app a b : plain (a ++ b) ↔ plain a ∧ plain b.
Proof. apply Forall_app. Qed.
Lemma wordy_plain s : wordy s → plain s.
Proof. intros [_ H]. eapply Forall_impl; [exact H|]. intros c Hc. unfold word_char, plainc in *. lia. Qed.
Lemma plain_fixed s : forallb plainc s = true → plain s.
Proof. intros H. apply Forall_forall. intros c Hc%elem_of_list_In. rewrite forallb_forall in H. auto. Qed.

Lemma plain_open m a : plain a → (∀ q e w, m ≠ InLit q e w) → ∀ q e w, (lexes m a).1 ≠ InLit q e w.
Proof.
  intros H. revert m. induction H as [|c a Hc _ IH]; intros m Hm; cbn [lexes]; [done|].
  destruct (lex1 m c) as [m' o] eqn:E. specialize (IH m'). destruct (lexes m' a) as [m'' o']. cbn [fst] in *.
  apply IH. intros q e w ->. unfold plainc in Hc.
  destruct m as [|w0|q0 e0 w0]; [| |by destruct (Hm q0 e0 w0)]; cbn [lex1] in E; unfold start in E;
    destruct (word_char c); try done; destruct ((c =? 34) || (c =? 39)) eqn:E'; [lia| |lia| ];
    by destruct (ascii_ws c).
Qed.
Lemma plain_has a : plain a → has a (lex a).
Proof. intros H. split; [done|]. by apply plain_open. Qed.
Lemma has_blanks b : Forall (λ c, ascii_ws c = true) b → has b [].
Proof.
  intros H. induction H as [|c b Hc _ IH]; [apply has_nil|]. apply (has_blank [] c b []); [done|done|by left].
Qed.
Lemma apart_blanks a b : Forall (λ c, ascii_ws c = true) b → apart a b.
Proof.
  intros H. right. intros c Hc. destruct b as [|x b]; [done|]. injection Hc as ->. inversion_clear H.
  unfold word_char, ascii_ws in *. lia.
Qed.
Lemma has_trimmed a b ts : plain a → Forall (λ c, ascii_ws c = true) b → has (a ++ b) ts → has a ts.
Proof.
  intros Ha Hb [H _]. pose proof (plain_has _ Ha) as H1.
  destruct (has_app _ _ _ _ H1 (has_blanks _ Hb) (apart_blanks a b Hb)) as [H2 _]. rewrite app_nil_r in H2.
  split; [congruence|by apply plain_open].
Qed.

(** Comments and splices: nothing happens. *)
Lemma plain_read a : plain a → read c_newline Code a = (Code, a).
Proof.
  induction 1 as [|c a Hc _ IH]; [done|]. cbn [read step]. unfold code, plainc in *.
  destruct (c =? 47) eqn:E1; [lia|]. destruct ((c =? 34) || (c =? 39)) eqn:E2; [lia|]. by rewrite IH.
Qed.
Lemma plain_no a c : plain a → plainc c = false → c ∉ a.
Proof. intros H Hc Hin. unfold plain in H; rewrite Forall_forall in H. apply H in Hin. congruence. Qed.
Lemma plain_splice a : plain a → splice a = a.
Proof. intros H. apply splice_plain. by apply (plain_no a 92). Qed.

(** *** The lines of a text *)
Lemma split_app c a b : split c (a ++ c :: b) = split c a ++ split c b.
Proof.
  induction a as [|x a IH]; cbn [app split].
  - by rewrite N.eqb_refl.
  - destruct (x =? c); [by rewrite IH|]. rewrite IH. destruct (split c a) as [|q qs] eqn:E; [by apply split_ne in E|done].
Qed.
Lemma split_elem c s p x : p ∈ split c s → x ∈ p → x ∈ s.
Proof.
  revert p. induction s as [|y s IH]; intros p; cbn [split].
  - intros ->%elem_of_list_singleton H. done.
  - destruct (y =? c).
    + intros [->|H]%elem_of_cons Hx; [by apply elem_of_nil in Hx|]. right. by eapply IH.
    + destruct (split c s) as [|q qs] eqn:E; [by apply split_ne in E|].
      intros [->|H]%elem_of_cons Hx.
      * apply elem_of_cons in Hx as [->|Hx]; [by left|]. right. eapply IH; [by left|done].
      * right. eapply IH; [by right|done].
Qed.
Lemma plain_code l : plain l → c_line_of l = LTokens (lex l).
Proof.
  intros H. unfold c_line_of.
  assert (G : ∀ r, (∃ b, l = b ++ r ∧ Forall (λ c, ascii_ws c = true) b) → match skip r with
     | [] => LTokens []
     | c :: r0 => if c =? 35 then let '(d, r1) := word (skip r0) in
          if is d "include" then LInclude (skip r1) else if is d "endif" then LEndif
          else let '(x, r) := word (skip r1) in
          if is d "ifdef" then LIf false x else if is d "ifndef" then LIf true x
          else if is d "define" then
            match r with [] => LDefine x [] | c0 :: _ => if ascii_ws c0 then LDefine x (lex r) else LBad end
          else LBad
        else LTokens (lex l) end = LTokens (lex l)).
  { induction r as [|c r IH]; intros (b & -> & Hb).
    - rewrite app_nil_r. cbn [skip]. f_equal. symmetry. apply (has_blanks b Hb).
    - cbn [skip]. destruct (ascii_ws c) eqn:E.
      + apply IH. exists (b ++ [c]). split; [by rewrite <-app_assoc|]. apply Forall_app. split; [done|by repeat constructor].
      + destruct (c =? 35) eqn:E'; [|done]. apply plain_app in H as [_ H]. inversion_clear H as [|? ? Hc].
        unfold plainc in Hc. lia. }
  apply G. exists []. by split.
Qed.
Definition on (st : list bool) (es : list ev) : list ev := if forallb id st then es else [].
Lemma on_nil st : on st [] = [].
Proof. unfold on. by destruct (forallb id st). Qed.
Lemma on_app st a b : on st (a ++ b) = on st a ++ on st b.
Proof. unfold on. by destruct (forallb id st). Qed.
Lemma opt_app {A} (a b : list A) o : option_map (app a) (option_map (app b) o) = option_map (app (a ++ b)) o.
Proof. destruct o; [|done]. cbn. by rewrite app_assoc. Qed.
Lemma opt_nil {A} (o : option (list A)) : option_map (app []) o = o.
Proof. by destruct o. Qed.
Lemma pp_plain defs st ls rest : Forall plain ls →
  pp defs st (ls ++ rest) = option_map (app (on st (map ETok (flat_map lex ls)))) (pp defs st rest).
Proof.
  induction 1 as [|l ls Hl _ IH]; cbn [app flat_map map].
  - by rewrite on_nil, opt_nil.
  - cbn [pp]. rewrite plain_code by done. rewrite IH, opt_app, map_app, on_app. done.
Qed.
Lemma plain_join ls : Forall plain ls → plain (join 10 ls).
Proof.
  induction 1 as [|l ls Hl _ IH]; [constructor|]. destruct ls as [|m ls]; [done|].
  change (join 10 (l :: m :: ls)) with (l ++ 10 :: join 10 (m :: ls)). apply plain_app. split; [done|].
  by constructor.
Qed.
Lemma plain_split a : plain a → Forall plain (split 10 a).
Proof.
  intros Ha. apply Forall_forall. intros p Hp. apply Forall_forall. intros x Hx. unfold plain in Ha; rewrite Forall_forall in Ha.
  apply Ha. by eapply split_elem.
Qed.
Lemma lex_app a b : plain a → plain b → apart a b → lex (a ++ b) = lex a ++ lex b.
Proof. intros Ha Hb H. exact (proj1 (has_app _ _ _ _ (plain_has _ Ha) (plain_has _ Hb) H)). Qed.
Lemma lex_blank c a : ascii_ws c = true → plain a → lex (c :: a) = lex a.
Proof. intros Hc Ha. refine (proj1 (has_blank [] c a (lex a) Hc (plain_has _ Ha) _)). by left. Qed.
Lemma lex_join ls : Forall plain ls → lex (join 10 ls) = flat_map lex ls.
Proof.
  induction 1 as [|l ls Hl Hls IH]; [done|]. cbn [flat_map]. rewrite <-IH. destruct ls as [|l' ls].
  - cbn [join]. change (lex []) with (@nil ctok). by rewrite app_nil_r.
  - change (join 10 (l :: l' :: ls)) with (l ++ 10 :: join 10 (l' :: ls)).
    assert (Hj : plain (join 10 (l' :: ls))) by (by apply plain_join).
    rewrite lex_app; [by rewrite lex_blank|done|by constructor|]. right. by intros c [= <-].
Qed.
Lemma lex_lines a : plain a → flat_map lex (split 10 a) = lex a.
Proof. intros Ha. rewrite <-lex_join by (by apply plain_split). by rewrite join_split. Qed.

(** ** Reading pieces of a header *)

(** [a], read in this state, gives these events and this state. *)
Definition reads (a : ntext) (defs : list ntext) (st : list bool) (es : list ev) (defs' : list ntext) (st' : list bool) : Prop :=
  ∀ rest, read_from defs st (a ++ rest) = option_map (app es) (read_from defs' st' rest).
Lemma reads_nil defs st : reads [] defs st [] defs st.
Proof. intros rest. by rewrite opt_nil. Qed.
Lemma reads_app a b d1 s1 e1 d2 s2 e2 d3 s3 :
  reads a d1 s1 e1 d2 s2 → reads b d2 s2 e2 d3 s3 → reads (a ++ b) d1 s1 (e1 ++ e2) d3 s3.
Proof. intros Ha Hb rest. by rewrite <-app_assoc, Ha, Hb, opt_app. Qed.
Lemma reads_eol defs st : reads eol defs st [] defs st.
Proof.
  intros rest. unfold read_from, eol. rewrite splice_app by done. change (splice [10]) with [10].
  rewrite read_app. change (read c_newline Code [10]) with (Code, [10]). cbn [fst snd app].
  destruct (read c_newline Code (splice rest)) as [m s]. cbn [fst snd].
  destruct m; try done. cbn [split]. rewrite N.eqb_refl. cbn [pp]. change (c_line_of []) with (LTokens []).
  by rewrite on_nil || (destruct (forallb id st)).
Qed.
(** Any line: comments may be in it. *)
Lemma reads_line a a' defs st : 10 ∉ a → last a ≠ Some 92 → read c_newline Code a = (Code, a') → 10 ∉ a' →
  ∀ rest, read_from defs st (a ++ 10 :: rest) =
    match read c_newline Code (splice rest) with (Code, s) => pp defs st (a' :: split 10 s) | _ => None end.
Proof.
  intros Ha La Ra Ha' rest. unfold read_from. change (a ++ 10 :: rest) with (a ++ [10] ++ rest).
  rewrite app_assoc, splice_app by (by rewrite last_snoc). rewrite splice_app by done.
  rewrite splice_line by done. change (splice [10]) with [10]. rewrite <-app_assoc, read_app, Ra. cbn [fst snd].
  rewrite read_app. change (read c_newline Code [10]) with (Code, [10]). cbn [fst snd app].
  destruct (read c_newline Code (splice rest)) as [m s]. cbn [fst snd]. destruct m; try done.
  by rewrite split_app, split_none.
Qed.
(** Lines of code, with comments perhaps. *)
Lemma reads_code a a' defs st : splice a = a → last a ≠ Some 92 → read c_newline Code a = (Code, a') → plain a' →
  reads (a ++ [10]) defs st (on st (map ETok (lex a'))) defs st.
Proof.
  intros Sa La Ra Ha' rest. unfold read_from. rewrite splice_app by (by rewrite last_snoc).
  rewrite splice_app, Sa by done. change (splice [10]) with [10].
  rewrite <-app_assoc, read_app, Ra. cbn [fst snd app read]. change (step c_newline Code 10) with (Code, [10]).
  cbv beta iota. destruct (read c_newline Code (splice rest)) as [m s]. cbn [fst snd app]. destruct m; try done.
  rewrite split_app, pp_plain, lex_lines; [done|done|by apply plain_split].
Qed.
Lemma plain_last a : plain a → last a ≠ Some 92.
Proof. intros H E. apply (plain_no a 92); [done|done|]. by apply last_Some_elem_of in E. Qed.
Lemma reads_plain a defs st : plain a → reads (a ++ [10]) defs st (on st (map ETok (lex a))) defs st.
Proof.
  intros Ha. apply reads_code; [by apply plain_splice|by apply plain_last|by apply plain_read|done].
Qed.
(** Directives. *)
Lemma reads_directive a defs st defs' st' es : 10 ∉ a → last a ≠ Some 92 → read c_newline Code a = (Code, a) →
  (∀ ls, pp defs st (a :: ls) = option_map (app es) (pp defs' st' ls)) → reads (a ++ [10]) defs st es defs' st'.
Proof.
  intros Ha La Ra Hp rest. rewrite <-app_assoc. cbn [app]. rewrite (reads_line a a) by done.
  unfold read_from. destruct (read c_newline Code (splice rest)) as [m s]. by destruct m.
Qed.

Section ws.
Context (ws : N → bool) (HW : ∀ c, c < 128 → ws c = ascii_ws c).

Lemma plain_trim_end l : plain l → ∃ b, l = trim_end ws l ++ b ∧ Forall (λ c, ascii_ws c = true) b.
Proof.
  intros Hl. unfold trim_end.
  assert (G : ∀ r, plain r → ∃ b, r = b ++ trim_start ws r ∧ Forall (λ c, ascii_ws c = true) b).
  { induction 1 as [|c r Hc _ (b & E & Hb)]; [by exists []|]. cbn [trim_start]. destruct (ws c) eqn:Ew.
    - exists (c :: b). rewrite E at 1. split; [done|]. constructor; [|done]. rewrite <-HW; [done|]. unfold plainc in Hc. lia.
    - by exists []. }
  destruct (G (rev l)) as (b & E & Hb).
  { apply Forall_forall. intros x Hx%elem_of_reverse_rev. unfold plain in Hl; rewrite Forall_forall in Hl. auto. }
  exists (rev b). split.
  - rewrite <-rev_app_distr, <-E. by rewrite rev_involutive.
  - apply Forall_forall. intros x Hx%elem_of_reverse_rev. rewrite Forall_forall in Hb. auto.
Qed.
Lemma plain_trim l : plain l → plain (trim_end ws l).
Proof. intros H. destruct (plain_trim_end l H) as (b & E & _). rewrite E in H. by apply plain_app in H as [? _]. Qed.
Lemma lex_trim l : plain l → lex (trim_end ws l) = lex l.
Proof.
  intros H. destruct (plain_trim_end l H) as (b & E & Hb). assert (has l (lex l)) as Hl by (by apply plain_has).
  rewrite E in Hl at 1. apply has_trimmed in Hl as [? _]; [done|by apply plain_trim|done].
Qed.
Lemma plain_out a : plain a → plain (DocModel.out ws a).
Proof.
  intros H. unfold DocModel.out. apply plain_join. apply Forall_map. eapply Forall_impl; [by apply plain_split|].
  intros x Hx. by apply plain_trim.
Qed.
Lemma lex_out a : plain a → lex (DocModel.out ws a) = lex a.
Proof.
  intros H. unfold DocModel.out. pose proof (plain_split a H) as Hs. rewrite lex_join.
  - rewrite <-(lex_lines a) by done. clear H. induction Hs as [|x l Hx _ IH]; [done|]. cbn [map flat_map].
    by rewrite lex_trim, IH.
  - apply Forall_map. eapply Forall_impl; [exact Hs|]. intros x Hx. by apply plain_trim.
Qed.
Lemma plain_indent n : plain (indentation n).
Proof. apply Forall_forall. intros x Hx%elem_of_list_In%repeat_spec. by subst. Qed.
Lemma lex_indent n a : plain a → lex (indentation n ++ a) = lex a.
Proof.
  intros H. induction n as [|n IH]; [done|]. change (indentation (S n)) with (32 :: indentation n). cbn [app].
  rewrite lex_blank; [done|done|]. apply plain_app. split; [apply plain_indent|done].
Qed.
(** A line of code, as [out!] writes it. *)
Lemma reads_out n a defs st : plain a → reads (out_line ws n a) defs st (on st (map ETok (lex a))) defs st.
Proof.
  intros Ha. unfold out_line. rewrite app_assoc. rewrite out_snoc.
  fold (DocModel.out ws (indentation n ++ a)).
  assert (Hp : plain (indentation n ++ a)) by (apply plain_app; split; [apply plain_indent|done]).
  pose proof (reads_plain (DocModel.out ws (indentation n ++ a)) defs st (plain_out _ Hp)) as H.
  by rewrite lex_out, lex_indent in H.
Qed.
(** Documentation. *)
Lemma reads_docs n d defs st : docs_ok ws d → reads (c_docs ws n d) defs st [] defs st.
Proof.
  intros Hd rest. unfold read_from. rewrite c_docs_read by done.
  destruct (read c_newline Code (splice rest)) as [m s]. cbn [fst snd]. destruct m; try done.
  replace ((indentation n ++ [32; 10]) ++ s) with ((indentation n ++ [32]) ++ 10 :: s) by (by rewrite <-!app_assoc).
  rewrite split_app, split_none.
  - cbn [app pp]. rewrite plain_code.
    + rewrite lex_indent by (by repeat constructor).
      change (lex [32]) with (@nil ctok). cbn [map]. by destruct (forallb id st).
    + apply plain_app. split; [apply plain_indent|by repeat constructor].
  - intros [H|H]%elem_of_app.
    + by apply elem_of_list_In, repeat_spec in H.
    + by apply elem_of_list_singleton in H.
Qed.
End ws.
