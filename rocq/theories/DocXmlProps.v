(** Theorems about the documentation in C# headers: C76. *)

From Coq Require Import NArith List Bool Lia String Ascii.
From stdpp Require Import base numbers list strings.
From Verif Require Import NameModel NameSpec NameProofs DocModel DocSpec DocProofs DocXmlSpec.
Local Open Scope N_scope.

(** ** Lemmas *)

Definition xt (x : span) : list N :=
  match x with SText s => s | SCode s => chars "<c>" ++ s ++ chars "</c>" | SFence => [96; 96; 96] end.

Lemma ticks_text o s r : Forall (λ c, c ≠ 96) s → ticks o (s ++ r) = s ++ ticks o r.
Proof.
  induction 1 as [|c s Hc _ IH]; [done|]. cbn [app ticks]. apply N.eqb_neq in Hc. by rewrite Hc, IH.
Qed.
Lemma ticks_one o r : head r ≠ Some 96 →
  ticks o (96 :: r) = (if o then chars "</c>" else chars "<c>") ++ ticks (negb o) r.
Proof.
  intros H. destruct r as [|d r]; cbn [ticks].
  - rewrite N.eqb_refl. cbn [ticks]. by rewrite app_nil_r.
  - rewrite N.eqb_refl. assert (E : (d =? 96) = false) by (apply N.eqb_neq; intros ->; by apply H). by rewrite E.
Qed.
Lemma plain_no_tick s : Forall plain_char s → Forall (λ c, c ≠ 96) s.
Proof. intros H. eapply Forall_impl; [exact H|]. by intros c (? & _). Qed.
Lemma ticks_md l : plain l → ticks false (markdown l) = flat_map xt l.
Proof.
  induction l as [|x l IH]; [done|]. cbn [plain markdown flat_map]. intros [Hx Hl]. specialize (IH Hl). destruct x as [s|s|]; cbn [md xt].
  - rewrite ticks_text by by apply plain_no_tick. by rewrite <-IH.
  - destruct Hx as (Hn & Hs & Hh). cbn [app]. rewrite <-app_assoc. cbn [app]. rewrite ticks_one.
    + rewrite <-!app_assoc. f_equal. rewrite ticks_text by by apply plain_no_tick. f_equal.
      change (flat_map md l) with (markdown l). rewrite ticks_one by done. cbn [negb]. by rewrite IH.
    + destruct s as [|c s]; [done|]. cbn. intros [=->]. apply Forall_cons in Hs as [(? & _) _]. done.
  - cbn [app ticks]. rewrite !N.eqb_refl. change (flat_map md l) with (markdown l). by rewrite IH.
Qed.

Lemma xml_text o s r : Forall (λ c, c ≠ 60 ∧ c ≠ 38) s → xml XText o (s ++ r) = option_map (app (map XChar s)) (xml XText o r).
Proof.
  induction 1 as [|c s [H1 H2] _ IH]; cbn [app map xml].
  - by destruct (xml XText o r).
  - apply N.eqb_neq in H1, H2. rewrite H1, H2, IH. by destruct (xml XText o r).
Qed.
Lemma plain_no_markup s : Forall plain_char s → Forall (λ c, c ≠ 60 ∧ c ≠ 38) s.
Proof. intros H. eapply Forall_impl; [exact H|]. by intros c (? & ? & ? & _). Qed.
Lemma xml_open o r : xml XText o (chars "<c>" ++ r) = option_map (cons (XOpen c_elem)) (xml XText (c_elem :: o) r).
Proof. change (chars "<c>") with [60; 99; 62]. cbn. by destruct (xml XText _ r). Qed.
Lemma xml_close o r : xml XText (c_elem :: o) (chars "</c>" ++ r) = option_map (cons (XClose c_elem)) (xml XText o r).
Proof. change (xml XText (c_elem :: o) (chars "</c>" ++ r)) with (option_map (app [XClose c_elem]) (xml XText o r)). by destruct (xml XText o r). Qed.
Lemma xml_spans o l r : plain l → xml XText o (flat_map xt l ++ r) = option_map (app (flat_map xml_of l)) (xml XText o r).
Proof.
  induction l as [|x l IH]; cbn [plain flat_map].
  - intros _. cbn [app]. by destruct (xml XText o r).
  - intros [Hx Hl]. specialize (IH Hl). destruct x as [s|s|]; cbn [xt xml_of].
    + rewrite <-app_assoc, xml_text, IH by by apply plain_no_markup. destruct (xml XText o r); cbn; [|done]. by rewrite app_assoc.
    + destruct Hx as (_ & Hs & _). rewrite <-!app_assoc, xml_open, xml_text, xml_close, IH by by apply plain_no_markup.
      destruct (xml XText o r); cbn [option_map app]; [|done]. by rewrite <-!app_assoc.
    + rewrite <-app_assoc, xml_text, IH by (repeat constructor; done). destruct (xml XText o r); cbn; done.
Qed.

Lemma ticks_last ws o s x : (∀ c, c < 128 → ws c = ascii_ws c) → last s = Some x → ws x = false →
  ∃ y, last (ticks o s) = Some y ∧ ws y = false.
Proof.
  intros HW. assert (HC : ∀ (b : bool) r, (r = [] ∨ ∃ y, last r = Some y ∧ ws y = false) →
    ∃ y, last ((if b then chars "</c>" else chars "<c>") ++ r) = Some y ∧ ws y = false).
  { intros b r [->|(y & Hy & Wy)].
    - exists 62. rewrite app_nil_r. split; [by destruct b|]. by rewrite HW.
    - exists y. by rewrite last_app, Hy. }
  assert (HK : ∀ c r, (∃ y, last r = Some y ∧ ws y = false) → ∃ y : N, last (c :: r) = Some y ∧ ws y = false).
  { intros c r (y & Hy & Wy). exists y. split; [|done]. by destruct r. }
  remember (length s) as n eqn:Hn. revert o s Hn. induction n as [n IH] using lt_wf_ind. intros o s -> Hl Hw.
  destruct s as [|c r]; [done|]. cbn [ticks]. destruct (c =? 96) eqn:Ec.
  - apply N.eqb_eq in Ec as ->. destruct r as [|d r].
    + specialize (HC o [] (or_introl eq_refl)). by rewrite app_nil_r in HC.
    + destruct (d =? 96) eqn:Ed.
      * apply N.eqb_eq in Ed as ->. apply HK. destruct r as [|e r].
        { exists 96. split; [done|]. by rewrite HW. }
        apply HK. destruct r as [|g r].
        { exists e. cbn. cbn in Hl. injection Hl as ->. done. }
        apply HK. eapply IH; [|reflexivity|exact Hl|done]. cbn. lia.
      * apply HC. right. eapply IH; [|reflexivity|exact Hl|done]. cbn. lia.
  - destruct r as [|d r].
    + exists c. cbn. cbn in Hl. injection Hl as ->. done.
    + apply HK. eapply IH; [|reflexivity|exact Hl|done]. cbn. lia.
Qed.
Lemma trim_last ws s : trim ws s = [] ∨ ∃ x, last (trim ws s) = Some x ∧ ws x = false.
Proof.
  unfold trim. generalize (rev (trim_start ws s)). intros l. induction l as [|c l IH]; [by left|]. cbn [trim_start].
  destruct (ws c) eqn:E; [done|]. right. exists c. cbn [rev]. by rewrite last_snoc.
Qed.
Lemma trim_end_solid ws s x : last s = Some x → ws x = false → trim_end ws s = s.
Proof. intros Hx Wx. pose proof (trim_end_app ws s [] x Hx Wx) as H. change (trim_end ws []) with (@nil N) in H. by rewrite !app_nil_r in H. Qed.

Lemma line_text_indent n t : line_text (indentation n ++ chars "///" ++ t) = Some t.
Proof. induction n as [|n IH]; [reflexivity|exact IH]. Qed.
Lemma indent_no_newline n : 10 ∉ indentation n.
Proof. intros H. apply elem_of_list_In, repeat_spec in H. done. Qed.
Lemma doc_text_line n t s : 10 ∉ t →
  doc_text (split 10 (indentation n ++ chars "///" ++ t ++ 10 :: s)) = option_map (λ b, t ++ 10 :: b) (doc_text (split 10 s)).
Proof.
  intros Ht. rewrite !app_assoc, split_app.
  - cbn [doc_text]. destruct (split 10 s) as [|p ps] eqn:E; [by apply split_ne in E|]. rewrite <-app_assoc, line_text_indent.
    by destruct (doc_text (p :: ps)).
  - intros [[H|H]%elem_of_app|H]%elem_of_app; [by apply indent_no_newline in H| |done].
    vm_compute in H. repeat (apply elem_of_cons in H as [H|H]; [done|]). by apply elem_of_nil in H.
Qed.

Lemma plain_newline s : Forall plain_char s → 10 ∉ s.
Proof. rewrite Forall_forall. intros H Hin. by destruct (H _ Hin) as (_ & _ & _ & ?). Qed.
Lemma xt_newline l : plain l → 10 ∉ flat_map xt l.
Proof.
  induction l as [|x l IH]; cbn [plain flat_map]; [intros _; apply not_elem_of_nil|]. intros [Hx Hl] [H|H]%elem_of_app; [|by apply IH].
  destruct x as [s|s|]; cbn [xt] in H.
  - by apply (plain_newline s).
  - destruct Hx as (_ & Hs & _). apply elem_of_app in H as [H|[H|H]%elem_of_app]; [|by apply (plain_newline s)|];
      vm_compute in H; repeat (apply elem_of_cons in H as [H|H]; [done|]); by apply elem_of_nil in H.
  - repeat (apply elem_of_cons in H as [H|H]; [done|]). by apply elem_of_nil in H.
Qed.
Lemma ticks_nil o s : ticks o s = [] ↔ s = [].
Proof. split; [|by intros ->]. destruct s as [|c r]; [done|]. cbn [ticks]. destruct (c =? 96); [|done]. destruct r as [|d r]; [by destruct o|]. destruct (d =? 96); [done|]. by destruct o. Qed.

Definition sep_of (s : list N) : list N := match s with [] => [] | _ => [32] end.
Lemma cs_line_plain ws n d l : (∀ c, c < 128 → ws c = ascii_ws c) → plain l → trim ws d = markdown l →
  cs_line ws n d = indentation n ++ chars "///" ++ (sep_of (markdown l) ++ flat_map xt l) ++ [10].
Proof.
  intros HW Hl Hd. unfold cs_line. rewrite Hd, ticks_md by done.
  rewrite (out_line_fixed ws n (chars "///") _ 47); [|done|by rewrite HW| |].
  - f_equal. f_equal. f_equal. destruct (trim_last ws d) as [E|(x & Hx & Wx)].
    + rewrite Hd in E. rewrite <-ticks_md by done. rewrite E. done.
    + rewrite Hd in Hx. destruct (ticks_last ws false _ x HW Hx Wx) as (y & Hy & Wy). rewrite ticks_md in Hy by done.
      destruct (flat_map xt l) eqn:El; [done|]. destruct (markdown l) eqn:Em; [done|]. cbn [sep_of].
      apply (trim_end_solid _ _ y); [|done]. change (chars " ") with [32]. by rewrite last_app, Hy.
  - apply (bool_decide_unpack _). vm_compute. exact I.
  - intros [H|H]%elem_of_app; [|by apply xt_newline in H]. destruct (flat_map xt l); [by apply elem_of_nil in H|].
    vm_compute in H. apply elem_of_cons in H as [H|H]; [done|by apply elem_of_nil in H].
Qed.

Definition text_of (ls : list (list span)) : list N := flat_map (λ l, sep_of (markdown l) ++ flat_map xt l ++ [10]) ls.
Lemma text_of_cons l ls : text_of (l :: ls) = sep_of (markdown l) ++ flat_map xt l ++ [10] ++ text_of ls.
Proof. unfold text_of. cbn [flat_map]. by rewrite <-!app_assoc. Qed.
Lemma doc_text_lines ws n docs ls s : (∀ c, c < 128 → ws c = ascii_ws c) →
  Forall2 (λ d l, plain l ∧ trim ws d = markdown l) docs ls →
  doc_text (split 10 (flat_map (cs_line ws n) docs ++ s)) = option_map (app (text_of ls)) (doc_text (split 10 s)).
Proof.
  intros HW. induction 1 as [|d l docs ls [Hl Hd] _ IH]; cbn [flat_map app text_of].
  - by destruct (doc_text (split 10 s)).
  - rewrite (cs_line_plain ws n d l) by done. rewrite <-!app_assoc. cbn [app].
    rewrite (app_assoc (sep_of _)), doc_text_line.
    + rewrite IH. destruct (doc_text (split 10 s)); cbn; [|done]. rewrite <-!app_assoc. done.
    + intros [H|H]%elem_of_app; [|by apply xt_newline in H]. destruct (markdown l); cbn in H; [by apply elem_of_nil in H|].
      apply elem_of_cons in H as [H|H]; [done|by apply elem_of_nil in H].
Qed.
Lemma xml_lines o ls r : Forall plain ls → xml XText o (text_of ls ++ r) = option_map (app (flat_map line_xml ls)) (xml XText o r).
Proof.
  induction 1 as [|l ls Hl _ IH]; [cbn [text_of flat_map app]; by destruct (xml XText o r)|].
  - rewrite text_of_cons, <-!app_assoc. rewrite xml_text, xml_spans by (done || by destruct (markdown l); repeat constructor).
    rewrite xml_text by by repeat constructor. rewrite IH.
    destruct (xml XText o r); cbn [option_map flat_map]; [|done]. f_equal. unfold line_xml. rewrite <-!app_assoc. by destruct (markdown l).
Qed.

(** ** C76 *)

(** Documentation of lines of text, of code between pairs of backticks and of
    fences is well-formed XML, and is what it should be: a summary with the
    text, the code being in [c] elements.
    Missing: lines that contain a less-than sign or an ampersand, or in which
    backticks are not paired; see the refutations. *)
Theorem C76_wellformed_partial ws n docs ls :
  (∀ c, c < 128 → ws c = ascii_ws c) → docs ≠ [] →
  Forall2 (λ d l, plain l ∧ trim ws d = markdown l) docs ls →
  read_doc (cs_docs ws n docs) = Some (docs_xml ls).
Proof.
  intros HW Hn H. unfold read_doc, cs_docs. destruct docs as [|d0 docs0] eqn:Ed; [done|]. rewrite <-Ed in *. clear Ed Hn.
  assert (Hs : ∀ a, last a = Some 62 → 10 ∉ a → out_line ws n a = indentation n ++ a ++ [10]).
  { intros a Ha Hno. apply (out_line_const ws n a 62); [done|by rewrite HW|done]. }
  rewrite !Hs; try done; try (apply (bool_decide_unpack _); vm_compute; exact I).
  change (chars "/// <summary>") with (chars "///" ++ chars " <summary>").
  change (chars "/// </summary>") with (chars "///" ++ chars " </summary>").
  rewrite <-!app_assoc. cbn [app]. rewrite doc_text_line by (apply (bool_decide_unpack _); vm_compute; exact I).
  rewrite (doc_text_lines ws n docs ls) by done.
  rewrite doc_text_line by (apply (bool_decide_unpack _); vm_compute; exact I). cbn [split doc_text option_map].
  assert (Hp : Forall plain ls) by (clear -H; induction H as [|? ? ? ? [? _]]; by constructor).
  change (chars " <summary>" ++ 10 :: ?x) with ([32] ++ 60 :: summary ++ 62 :: [10] ++ x).
  rewrite xml_text by by repeat constructor.
  assert (E : ∀ x, xml XText [] (60 :: summary ++ 62 :: x) = option_map (cons (XOpen summary)) (xml XText [summary] x)).
  { intros x. change (xml XText [] (60 :: summary ++ 62 :: x)) with (option_map (app [XOpen summary]) (xml XText [summary] x)).
    by destruct (xml XText _ x). }
  rewrite E, xml_text, xml_lines by (done || by repeat constructor). reflexivity.
Qed.
Definition ex_docs : list (list span) :=
  [[SText (chars "Calls "); SCode (chars "f"); SText (chars " twice.")]; []; [SFence; SText (chars "rust")]; [SFence]].
Example C76_example :
  Forall2 (λ d l, plain l ∧ trim ascii_ws d = markdown l)
    (map chars [" Calls `f` twice. "; ""; " ```rust"; " ```"])%string ex_docs ∧
  read_doc (cs_docs ascii_ws 4 (map chars [" Calls `f` twice. "; ""; " ```rust"; " ```"])%string) = Some (docs_xml ex_docs).
Proof.
  split; [|vm_compute; reflexivity].
  repeat constructor; try (vm_compute; reflexivity); try (by vm_compute); try (intros H; by vm_compute in H).
Qed.

(** Whatever the documentation, if it has no less-than sign, opening and
    closing tags alternate in every line. *)
Theorem C76_tags s : 60 ∉ s → alternate true (tags (ticks false s)).
Proof.
  change true with (negb false). generalize false. remember (length s) as n eqn:Hn. revert s Hn. induction n as [n IH] using lt_wf_ind.
  intros s -> o Hs. destruct s as [|c r]; [done|]. apply not_elem_of_cons in Hs as [Hc Hr]. cbn [ticks].
  assert (Hk : ∀ c t, 60 ≠ c → tags (c :: t) = tags t).
  { intros c' t Hc'. cbn [tags]. assert (E : (c' =? 60) = false) by (apply N.eqb_neq; congruence). by rewrite E. }
  assert (Ht : ∀ (b : bool) t, tags ((if b then chars "</c>" else chars "<c>") ++ t) = negb b :: tags t) by by intros [|].
  destruct (c =? 96) eqn:Ec; [|rewrite Hk by done; eapply IH; [|reflexivity|done]; cbn; lia].
  destruct r as [|d r].
  - rewrite <-(app_nil_r (if o then _ else _)), Ht. done.
  - destruct (d =? 96) eqn:Ed.
    + apply not_elem_of_cons in Hr as [Hd Hr]. rewrite !Hk by done. destruct r as [|e r]; [done|].
      apply not_elem_of_cons in Hr as [He Hr]. rewrite Hk by done. eapply IH; [|reflexivity|done]. cbn. lia.
    + rewrite Ht. split; [done|]. eapply (IH (length (d :: r))); [|reflexivity|done]. cbn. lia.
Qed.

(** Types with parameters make it ill formed, in code and elsewhere; so do
    ampersands, and code that continues on the next line. *)
Theorem C76_generics_refuted : read_doc (cs_docs ascii_ws 0 [chars " Takes a `Vec<u8>`."]) = None ∧
  read_doc (cs_docs ascii_ws 0 [chars " Takes a Vec<u8>."]) = None.
Proof. vm_compute. done. Qed.
Theorem C76_ampersand_refuted : read_doc (cs_docs ascii_ws 0 [chars " Whether a && b."]) = None.
Proof. vm_compute. done. Qed.
Theorem C76_lines_refuted : read_doc (cs_docs ascii_ws 0 [chars " Calls `f"; chars " (x)`."]) = None.
Proof. vm_compute. done. Qed.

Print Assumptions C76_wellformed_partial.
Print Assumptions C76_tags.
Print Assumptions C76_generics_refuted.
Print Assumptions C76_ampersand_refuted.
Print Assumptions C76_lines_refuted.
