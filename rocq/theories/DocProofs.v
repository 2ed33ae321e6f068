(** Lemmas for C30. *)

From Coq Require Import NArith List Bool Lia String Ascii ZifyBool ZifyNat ZifyN.
From stdpp Require Import base numbers list strings.
From Verif Require Import NameModel NameSpec NameProofs DocModel DocSpec.
Local Open Scope N_scope.

(** ** Reading *)

Lemma read_app nl m a b : read nl m (a ++ b) =
  ((read nl (read nl m a).1 b).1, (read nl m a).2 ++ (read nl (read nl m a).1 b).2).
Proof.
  revert m. induction a as [|c a IH]; intros m; cbn [app read].
  - cbn [fst snd app]. by destruct (read nl m b).
  - destruct (step nl m c) as [m' o]. rewrite IH. destruct (read nl m' a) as [m'' o']. cbn [fst snd].
    by rewrite app_assoc.
Qed.
Lemma splice_plain s : 92 ∉ s → splice s = s.
Proof.
  induction s as [|x s IH]; [done|]. intros [Hx Hs]%not_elem_of_cons. cbn [splice].
  destruct (x =? 92) eqn:E; [apply N.eqb_eq in E; by subst|]. by rewrite IH.
Qed.
Lemma splice_line s : 10 ∉ s → splice s = s.
Proof.
  induction s as [|x s IH]; [done|]. intros [Hx Hs]%not_elem_of_cons. cbn [splice]. rewrite IH by done.
  destruct (x =? 92) eqn:E; [|done]. destruct s as [|y s]; [done|].
  apply not_elem_of_cons in Hs as [Hy _]. by destruct (y =? 10) eqn:E'; [apply N.eqb_eq in E'; subst|].
Qed.
Lemma splice_app a b : last a ≠ Some 92 → splice (a ++ b) = splice a ++ splice b.
Proof.
  remember (length a) as n eqn:Hn. revert a Hn. induction n as [n IH] using lt_wf_ind. intros a -> Ha.
  destruct a as [|x a]; [done|]. cbn [app splice]. destruct (x =? 92) eqn:E.
  - destruct a as [|y a]; [apply N.eqb_eq in E; by subst|]. cbn [app]. destruct (y =? 10).
    + eapply IH; [|reflexivity|].
      * cbn. lia.
      * by destruct a.
    + change (y :: a ++ b) with ((y :: a) ++ b). rewrite (IH (length (y :: a))); [done|cbn; lia|done|done].
  - rewrite (IH (length a)); [done|cbn; lia|done|]. by destruct a.
Qed.
Lemma splice_joined t r : 10 ∉ t → splice (t ++ 92 :: 10 :: r) = t ++ splice r.
Proof.
  induction t as [|x t IH]; [done|]. intros [Hx Ht]%not_elem_of_cons. cbn [app splice]. rewrite IH by done.
  destruct (x =? 92) eqn:E; [|done]. destruct t as [|y t]; cbn [app].
  - done.
  - apply not_elem_of_cons in Ht as [Hy _]. by destruct (y =? 10) eqn:E'; [apply N.eqb_eq in E'; subst|].
Qed.

(** ** Trimming *)

Lemma trim_start_app ws u v x : head v = Some x → ws x = false → trim_start ws (u ++ v) = trim_start ws u ++ v.
Proof.
  intros Hx Wx. induction u as [|c u IH]; cbn [app trim_start].
  - by apply (trim_start_solid ws v x).
  - by destruct (ws c).
Qed.
Lemma trim_end_app ws a b x : last a = Some x → ws x = false → trim_end ws (a ++ b) = a ++ trim_end ws b.
Proof.
  intros Hx Wx. unfold trim_end. rewrite rev_app_distr, (trim_start_app ws (rev b) (rev a) x); [|by rewrite head_rev|done].
  by rewrite rev_app_distr, rev_involutive.
Qed.
Lemma trim_start_suffix ws s : ∃ w, s = w ++ trim_start ws s.
Proof.
  induction s as [|c s [w IH]]; [by exists []|]. cbn [trim_start]. destruct (ws c); [|by exists []].
  exists (c :: w). cbn. by rewrite <-IH.
Qed.
Lemma trim_end_prefix ws s : ∃ w, s = trim_end ws s ++ w.
Proof.
  unfold trim_end. destruct (trim_start_suffix ws (rev s)) as [w E]. exists (rev w).
  by rewrite <-rev_app_distr, <-E, rev_involutive.
Qed.
Lemma trim_infix ws s : ∃ a b, s = a ++ trim ws s ++ b.
Proof.
  destruct (trim_start_suffix ws s) as [a E]. destruct (trim_end_prefix ws (trim_start ws s)) as [b E'].
  exists a, b. unfold trim. fold (trim_end ws (trim_start ws s)). by rewrite <-E'.
Qed.
Lemma join_split c s : join c (split c s) = s.
Proof.
  induction s as [|x s IH]; [done|]. cbn [split]. destruct (split c s) as [|p ps] eqn:E; [by apply split_ne in E|].
  destruct (x =? c) eqn:Ex.
  - apply N.eqb_eq in Ex as ->. change (join c ([] :: p :: ps)) with (c :: join c (p :: ps)). by rewrite IH.
  - rewrite <-IH. destruct ps; reflexivity.
Qed.
Lemma split_snoc c s : split c (s ++ [c]) = split c s ++ [[]].
Proof.
  induction s as [|x s IH]; cbn [app split].
  - by rewrite N.eqb_refl.
  - rewrite IH. destruct (split c s) as [|p ps] eqn:E; [by apply split_ne in E|]. by destruct (x =? c).
Qed.
Lemma join_snoc c l : l ≠ [] → join c (l ++ [[]]) = join c l ++ [c].
Proof.
  induction l as [|x l IH]; [done|]. intros _. destruct l as [|y l]; [done|].
  change (join c ((x :: y :: l) ++ [[]])) with (x ++ c :: join c ((y :: l) ++ [[]])).
  rewrite IH by done. change (join c (x :: y :: l)) with (x ++ c :: join c (y :: l)).
  by rewrite <-app_assoc.
Qed.
Lemma out_snoc ws s : out ws (s ++ [10]) = join 10 (map (trim_end ws) (split 10 s)) ++ [10].
Proof.
  unfold out. rewrite split_snoc, map_app. cbn [map]. change (trim_end ws []) with (@nil N). apply join_snoc.
  intros E%map_eq_nil. by apply split_ne in E.
Qed.
Lemma out_line_single ws n t : 10 ∉ t → out_line ws n t = trim_end ws (indentation n ++ t) ++ [10].
Proof.
  intros Ht. unfold out_line. rewrite app_assoc, out_snoc, split_none; [done|].
  intros [H|H]%elem_of_app; [|done]. apply elem_of_list_In, repeat_spec in H. done.
Qed.

Section ws.
Context (ws : N → bool) (HW : ∀ c, c < 128 → ws c = ascii_ws c).

(** A line that begins with a fixed text. *)
Lemma out_line_fixed n a b x : last a = Some x → ws x = false → 10 ∉ a → 10 ∉ b →
  out_line ws n (a ++ b) = indentation n ++ a ++ trim_end ws b ++ [10].
Proof.
  intros Hx Wx Ha Hb. rewrite out_line_single; [|by intros [?|?]%elem_of_app].
  rewrite app_assoc, (trim_end_app ws (indentation n ++ a) b x), <-!app_assoc; [done| |done].
  by rewrite last_app, Hx.
Qed.
Lemma out_line_const n a x : last a = Some x → ws x = false → 10 ∉ a →
  out_line ws n a = indentation n ++ a ++ [10].
Proof.
  intros Hx Wx Ha. rewrite <-(app_nil_r a) at 1. by rewrite (out_line_fixed n a [] x) by (done || by apply not_elem_of_nil).
Qed.

Lemma read_indent nl n : read nl Code (indentation n) = (Code, indentation n).
Proof. 
  induction n as [|n IH]; [done|]. change (indentation (S n)) with (32 :: indentation n). cbn [read].
  change (step nl Code 32) with (Code, [32]). cbv beta iota. by rewrite IH.
Qed.
Lemma read_indent_block nl n b : ∃ b', read nl (Block b) (indentation n) = (Block b', []).
Proof.
  revert b. induction n as [|n IH]; intros b; [by eexists|].
  assert (E : step nl (Block b) 32 = (Block false, [])) by (by destruct b).
  change (indentation (S n)) with (32 :: indentation n). cbn [read]. rewrite E.
  destruct (IH false) as [b' ->]. by eexists.
Qed.

(** ** Block comments *)

(** From code one gets into a comment only with output. *)
Lemma slash_noisy u b : (read c_newline Slash u).1 = Block b → (read c_newline Slash u).2 ≠ [].
Proof.
  destruct u as [|c u]; [done|]. cbn [read step]. destruct (c =? 42); [by destruct (read _ _ u)|].
  destruct (c =? 47); [by destruct (read _ _ u)|]. destruct (code c) as [m o]. by destruct (read _ m u).
Qed.
Lemma code_noisy u b : (read c_newline Code u).1 = Block b → (read c_newline Code u).2 ≠ [].
Proof.
  destruct u as [|c u]; [done|]. cbn [read step]. unfold code. destruct (c =? 47).
  - pose proof (slash_noisy u b). by destruct (read _ _ u).
  - destruct ((c =? 34) || (c =? 39)); by destruct (read _ _ u).
Qed.

Definition calm (b : bool) (s : list N) : Prop := ∃ b', read c_newline (Block b) s = (Block b', []).
Lemma calm_app b s t : calm b (s ++ t) ↔ ∃ b', read c_newline (Block b) s = (Block b', []) ∧ calm b' t.
Proof.
  unfold calm. split.
  - intros [b' H]. rewrite read_app in H.
    revert b H. induction s as [|c s IH]; intros b H.
    { cbn in H. exists b. split; [done|]. exists b'. by destruct (read c_newline (Block b) t). }
    cbn [read step] in H |- *. destruct (b && (c =? 47)) eqn:E.
    + exfalso. cbn [app] in H.
      destruct (read c_newline Code s) as [m o] eqn:Es. cbn [fst snd app] in H.
      injection H as H1 H2. apply app_eq_nil in H2 as [-> H2].
      pose proof (read_app c_newline Code s t) as HA. rewrite Es in HA. cbn [fst snd app] in HA.
      eapply (code_noisy (s ++ t)); rewrite HA; [exact H1|exact H2].
    + destruct (read c_newline (Block (c =? 42)) s) as [m o] eqn:Es. cbn [fst snd app] in H |- *.
      destruct (IH (c =? 42)) as (b1 & H1 & H2).
      { rewrite Es. exact H. }
      rewrite Es in H1. injection H1 as -> ->. by exists b1.
  - intros (b1 & H1 & b2 & H2). exists b2. rewrite read_app, H1. cbn [fst snd app]. rewrite H2. done.
Qed.
Lemma calm_prefix b s t : calm b (s ++ t) → calm b s.
Proof. intros (b' & H & _)%calm_app. by exists b'. Qed.
Lemma calm_trim b s : calm b s → calm b (trim_end ws s).
Proof. destruct (trim_end_prefix ws s) as [w E]. intros H. rewrite E in H. by apply calm_prefix in H. Qed.
Lemma calm_infix b s : ¬ infix (chars "*/") s → (b = true → head s ≠ Some 47) → calm b s.
Proof.
  revert b. induction s as [|c s IH]; intros b Hi Hb; [by exists b|].
  destruct (IH (c =? 42)) as [b' H].
  - intros (x & y & ->). apply Hi. by exists (c :: x), y.
  - intros Hc Hs. apply N.eqb_eq in Hc as ->. destruct s as [|d s]; [done|]. injection Hs as ->.
    apply Hi. by exists [], s.
  - exists b'. cbn [read step]. destruct (b && (c =? 47)) eqn:E.
    + apply andb_prop in E as [-> E]. apply N.eqb_eq in E as ->. by destruct (Hb eq_refl).
    + by rewrite H.
Qed.
Lemma calm_join b x l : calm b (join 10 (x :: l)) ↔ calm b x ∧ Forall (calm false) l.
Proof.
  revert b x. induction l as [|y l IH]; intros b x.
  - cbn [join]. split; [by split; [|constructor]|by intros [? _]].
  - change (join 10 (x :: y :: l)) with (x ++ 10 :: join 10 (y :: l)). rewrite calm_app.
    assert (HN : ∀ b, calm b (10 :: join 10 (y :: l)) ↔ calm false (join 10 (y :: l))).
    { intros b'. unfold calm. cbn [read step]. rewrite andb_false_r. change (10 =? 42) with false.
      split; intros [b'' H]; exists b''; destruct (read c_newline (Block false) (join 10 (y :: l))); exact H. }
    split.
    + intros (b' & H1 & H2). apply HN, IH in H2 as [H2 H3]. split; [by exists b'|by constructor].
    + intros [[b' H1] H2]. inversion_clear H2. exists b'. split; [done|]. by apply HN, IH.
Qed.
Lemma calm_out b s : calm b s → calm b (out ws s).
Proof.
  intros H. rewrite <-(join_split 10 s) in H. unfold out.
  destruct (split 10 s) as [|x l]; [done|]. cbn [map].
  apply calm_join in H as [H1 H2]. apply calm_join. split; [by apply calm_trim|].
  induction H2; constructor; [by apply calm_trim|done].
Qed.

Lemma ws_star : ws 42 = false. Proof. by rewrite HW. Qed.
Lemma sub_out c s : c ∈ out ws s → c ∈ s.
Proof.
  intros H. rewrite <-(join_split 10 s). unfold out in H. revert H. generalize (split 10 s). intros l.
  assert (HT : ∀ x, c ∈ trim_end ws x → c ∈ x).
  { intros x Hx. destruct (trim_end_prefix ws x) as [w E]. rewrite E. apply elem_of_app. by left. }
  induction l as [|x l IH]; [done|]. destruct l as [|y l]; [cbn; apply HT|].
  change (join 10 (map (trim_end ws) (x :: y :: l)))
    with (trim_end ws x ++ 10 :: join 10 (map (trim_end ws) (y :: l))).
  change (join 10 (x :: y :: l)) with (x ++ 10 :: join 10 (y :: l)).
  intros [H|[H|H]%elem_of_cons]%elem_of_app; apply elem_of_app; [left; auto|right; subst; left|right; right; auto].
Qed.
Lemma sub_trim c s : c ∈ trim ws s → c ∈ s.
Proof. apply trim_sub. Qed.

(** One line of documentation, in a C comment. *)
Lemma c_line_reads n d b rest : harmless LC ws d → ∃ b',
  read c_newline (Block b) (splice (c_line ws n d ++ rest)) = read c_newline (Block b') (splice rest).
Proof.
  intros [Hi Hn]. unfold c_line. set (line := trim ws d).
  set (sep := match line with [] => [] | _ => chars "  " end).
  assert (Hi' : ¬ infix (chars "*/") line).
  { intros (x & y & E). apply Hi. destruct (trim_infix ws d) as (u & v & E'). fold line in E'.
    exists (u ++ x), (y ++ v). rewrite E', E. by rewrite <-!app_assoc. }
  assert (HC : ∀ b, calm b (indentation n ++ (chars " *" ++ sep ++ line))).
  { intros b0. apply calm_app. destruct (read_indent_block c_newline n b0) as [b1 H1].
    exists b1. split; [exact H1|]. apply calm_app. exists true. split; [by destruct b1|].
    unfold sep. destruct line as [|x l] eqn:El; [by exists true|]. rewrite <-El in *.
    apply calm_app. exists false. split; [done|]. by apply calm_infix. }
  destruct Hn as [H10|H92].
  - (* one line *)
    assert (Hsl : 10 ∉ sep ++ line).
    { intros [H|H]%elem_of_app.
      - unfold sep in H. destruct line; [by apply elem_of_nil in H|]. vm_compute in H.
        repeat (apply elem_of_cons in H as [H|H]; [done|]). by apply elem_of_nil in H.
      - by apply sub_trim in H. }
    rewrite (out_line_fixed n (chars " *") (sep ++ line) 42); [|done|apply ws_star| |done].
    2:{ apply (bool_decide_unpack _). vm_compute. exact I. }
    set (t := indentation n ++ chars " *" ++ trim_end ws (sep ++ line)).
    assert (E : (indentation n ++ chars " *" ++ trim_end ws (sep ++ line) ++ [10]) ++ rest = t ++ 10 :: rest).
    { unfold t. rewrite <-!app_assoc. done. }
    rewrite E. clear E.
    assert (Ht : calm b t).
    { destruct (trim_end_prefix ws (sep ++ line)) as [w E]. specialize (HC b). rewrite E in HC.
      rewrite !app_assoc in HC. apply calm_prefix in HC. unfold t. by rewrite app_assoc. }
    assert (Ht10 : 10 ∉ t).
    { unfold t. intros [H|[H|H]%elem_of_app]%elem_of_app.
      - apply elem_of_list_In, repeat_spec in H. done.
      - revert H. apply (bool_decide_unpack _). vm_compute. exact I.
      - destruct (trim_end_prefix ws (sep ++ line)) as [w E]. apply Hsl. rewrite E. apply elem_of_app. by left. }
    destruct (decide (last t = Some 92)) as [H92|H92].
    + destruct t as [|z u _] using rev_ind; [done|]. rewrite last_snoc in H92. injection H92 as ->.
      rewrite <-app_assoc. cbn [app]. rewrite splice_joined; [|intros H; apply Ht10, elem_of_app; by left].
      apply calm_prefix in Ht as [b' Hb]. exists b'. rewrite read_app, Hb. cbn [fst snd app].
      by destruct (read c_newline (Block b') (splice rest)).
    + rewrite splice_app by done. rewrite (splice_line t) by done. change (10 :: rest) with ([10] ++ rest).
      rewrite splice_app by done. destruct Ht as [b' Hb]. exists false. rewrite read_app, Hb. cbn [fst snd].
      change (splice [10]) with [10]. cbn [app read step]. rewrite andb_false_r. change (10 =? 42) with false. cbn [app].
      by destruct (read c_newline (Block false) (splice rest)).
  - assert (Hno : 92 ∉ out_line ws n (chars " *" ++ sep ++ line)).
    { unfold out_line. intros H%sub_out. apply elem_of_app in H as [H|H].
      - apply elem_of_list_In, repeat_spec in H. done.
      - rewrite <-!app_assoc in H. apply elem_of_app in H as [H|H].
        { revert H. apply (bool_decide_unpack _). vm_compute. exact I. }
        apply elem_of_app in H as [H|H].
        { unfold sep in H. destruct line; [by apply elem_of_nil in H|]. revert H.
          apply (bool_decide_unpack _). vm_compute. exact I. }
        apply elem_of_app in H as [H|H]; [by apply sub_trim in H|]. by apply elem_of_list_singleton in H. }
    assert (HB : calm b (out_line ws n (chars " *" ++ sep ++ line))).
    { unfold out_line. apply calm_out. rewrite app_assoc. apply calm_app. destruct (HC b) as [b' Hb].
      exists b'. split; [exact Hb|]. exists false. cbn [read step]. by rewrite andb_false_r. }
    assert (HL : last (out_line ws n (chars " *" ++ sep ++ line)) ≠ Some 92).
    { intros H. apply Hno. by apply last_Some_elem_of. }
    rewrite splice_app by done. rewrite splice_plain by done. destruct HB as [b' Hb]. exists b'.
    rewrite read_app, Hb. cbn [fst snd app]. by destruct (read c_newline (Block b') (splice rest)).
Qed.

Lemma c_lines_read n docs b rest : Forall (harmless LC ws) docs → ∃ b',
  read c_newline (Block b) (splice (flat_map (c_line ws n) docs ++ rest)) = read c_newline (Block b') (splice rest).
Proof.
  intros H. revert b. induction H as [|d docs Hd _ IH]; intros b; [by exists b|]. cbn [flat_map].
  rewrite <-app_assoc. destruct (c_line_reads n d b (flat_map (c_line ws n) docs ++ rest) Hd) as [b1 E].
  destruct (IH b1) as [b2 E2]. exists b2. by rewrite E.
Qed.

(** A whole C comment. *)
Lemma c_docs_read n docs rest : Forall (harmless LC ws) docs →
  read c_newline Code (splice (c_docs ws n docs ++ rest)) =
  ((read c_newline Code (splice rest)).1, (indentation n ++ [32; 10]) ++ (read c_newline Code (splice rest)).2).
Proof.
  intros Hd. destruct docs as [|d docs].
  - cbn [c_docs]. rewrite (out_line_const n _ 47); [|done|by rewrite HW|].
    2:{ apply (bool_decide_unpack _). vm_compute. exact I. }
    rewrite splice_app; [|by rewrite app_assoc, last_snoc]. rewrite splice_plain.
    2:{ intros [H|H]%elem_of_app; [by apply elem_of_list_In, repeat_spec in H|]. revert H.
        apply (bool_decide_unpack _). vm_compute. exact I. }
    rewrite <-app_assoc, read_app, read_indent. cbn [fst snd]. rewrite read_app.
    assert (E : read c_newline Code (chars "/** <No documentation available> */" ++ [10]) = (Code, [32; 10]))
      by (vm_compute; reflexivity).
    rewrite E. cbn [fst snd]. by rewrite app_assoc.
  - unfold c_docs. rewrite (out_line_const n (chars "/** \brief") 102); [|done|by rewrite HW|].
    2:{ apply (bool_decide_unpack _). vm_compute. exact I. }
    rewrite (out_line_const n (chars " */") 47); [|done|by rewrite HW|].
    2:{ apply (bool_decide_unpack _). vm_compute. exact I. }
    set (E := indentation n ++ chars " */" ++ [10]).
    rewrite <-!app_assoc.
    rewrite (app_assoc (chars "/** \brief")), (app_assoc (indentation n)).
    rewrite splice_app; [|by rewrite app_assoc, last_snoc].
    assert (HS : splice (indentation n ++ chars "/** \brief" ++ [10]) = indentation n ++ chars "/** \brief" ++ [10]).
    { rewrite splice_app.
      - rewrite splice_plain; [by vm_compute|]. intros H. by apply elem_of_list_In, repeat_spec in H.
      - destruct n as [|n]; [done|]. intros H%last_Some_elem_of. by apply elem_of_list_In, repeat_spec in H. }
    rewrite HS, read_app. rewrite read_app, read_indent. cbn [fst snd].
    assert (E1 : read c_newline Code (chars "/** \brief" ++ [10]) = (Block false, [32])) by (vm_compute; reflexivity).
    rewrite E1. cbn [fst snd].
    destruct (c_lines_read n (d :: docs) false (E ++ rest) Hd) as [b' ->].
    assert (HE : last E ≠ Some 92) by (unfold E; by rewrite app_assoc, last_snoc).
    rewrite (splice_app E rest) by done.
    assert (HSE : splice E = E).
    { apply splice_plain. unfold E. intros [H|H]%elem_of_app; [by apply elem_of_list_In, repeat_spec in H|].
      revert H. apply (bool_decide_unpack _). vm_compute. exact I. }
    rewrite HSE, read_app. unfold E. rewrite read_app. destruct (read_indent_block c_newline n b') as [b2 ->].
    cbn [fst snd]. assert (E2 : read c_newline (Block b2) (chars " */" ++ [10]) = (Code, [10])) by (by destruct b2).
    rewrite E2. cbn [fst snd app]. by rewrite <-!app_assoc.
Qed.

(** ** Line comments *)

Lemma read_line s : Forall (λ c, cs_newline c = false) s → read cs_newline Line s = (Line, []).
Proof. induction 1 as [|c s Hc _ IH]; [done|]. cbn [read step]. by rewrite Hc, IH. Qed.
Lemma ticks_in odd s c : c ∈ ticks odd s → c ∈ s ∨ c ∈ chars "</c>".
Proof.
  remember (length s) as n eqn:Hn. revert odd s Hn. induction n as [n IH] using lt_wf_ind. intros odd s ->.
  assert (HC : ∀ b : bool, c ∈ (if b then chars "</c>" else chars "<c>") → c ∈ chars "</c>").
  { intros [|] H; [done|]. vm_compute in H |- *.
    repeat (apply elem_of_cons in H as [->|H]; [repeat first [apply elem_of_list_here|apply elem_of_list_further]|]).
    by apply elem_of_nil in H. }
  destruct s as [|x r]; [auto|]. cbn [ticks]. destruct (x =? 96).
  - destruct r as [|d r]; [intros H; right; eauto|]. destruct (d =? 96).
    + destruct r as [|e r].
      { intros H. left. exact H. }
      intros [->|[->|[->|H]%elem_of_cons]%elem_of_cons]%elem_of_cons.
      * left. left.
      * left. right. left.
      * left. right. right. left.
      * apply (IH (length r)) in H; [|cbn; lia|reflexivity]. destruct H as [H|H]; [left; do 3 right; done|by right].
    + intros [H|H]%elem_of_app; [right; eauto|]. apply (IH (length (d :: r))) in H; [|cbn; lia|reflexivity].
      destruct H as [H|H]; [left; by right|by right].
  - intros [->|H]%elem_of_cons; [left; left|]. apply (IH (length r)) in H; [|cbn; lia|reflexivity].
    destruct H as [H|H]; [left; by right|by right].
Qed.
Lemma slash_line n x : Forall (λ c, cs_newline c = false) x →
  read cs_newline Code (out_line ws n (chars "///" ++ x)) = (Code, indentation n ++ [32; 10]).
Proof.
  intros Hx. rewrite (out_line_fixed n (chars "///") x 47); [|done|by rewrite HW| |].
  - rewrite read_app, read_indent. cbn [fst snd]. rewrite read_app.
    assert (E : read cs_newline Code (chars "///") = (Line, [32])) by (vm_compute; reflexivity).
    rewrite E. cbn [fst snd]. rewrite read_app.
    assert (Hx' : Forall (λ c, cs_newline c = false) (trim_end ws x)).
    { destruct (trim_end_prefix ws x) as [w Ew]. rewrite Ew in Hx. by apply Forall_app in Hx as [? _]. }
    rewrite (read_line _ Hx'). done.
  - apply (bool_decide_unpack _). vm_compute. exact I.
  - intros H. rewrite Forall_forall in Hx. apply Hx in H. done.
Qed.
Lemma cs_line_reads n d : harmless LCSharp ws d →
  read cs_newline Code (cs_line ws n d) = (Code, indentation n ++ [32; 10]).
Proof.
  intros Hd. unfold cs_line. apply slash_line. apply Forall_app. split.
  - destruct (ticks false (trim ws d)); [constructor|]. vm_compute. by constructor.
  - apply Forall_forall. intros c [H|H]%ticks_in.
    + cbn in Hd. rewrite Forall_forall in Hd. auto.
    + vm_compute in H. repeat (apply elem_of_cons in H as [->|H]; [done|]). by apply elem_of_nil in H.
Qed.
Lemma cs_docs_read n docs : Forall (harmless LCSharp ws) docs → ∃ w,
  read cs_newline Code (cs_docs ws n docs) = (Code, w) ∧ Forall (λ c, blank c = true) w.
Proof.
  assert (HB : Forall (λ c, blank c = true) (indentation n ++ [32; 10])).
  { apply Forall_app. split; [|by repeat constructor]. apply Forall_forall.
    intros c H%elem_of_list_In%repeat_spec. by subst. }
  intros Hd. destruct docs as [|d docs]; [by exists []|]. unfold cs_docs.
  assert (HL : ∃ w, read cs_newline Code (flat_map (cs_line ws n) (d :: docs)) = (Code, w) ∧ Forall (λ c, blank c = true) w).
  { revert Hd. generalize (d :: docs). intros l Hl. induction Hl as [|x l Hx _ (w & IH1 & IH2)].
    - by exists [].
    - cbn [flat_map]. eexists. rewrite read_app, cs_line_reads by done. cbn [fst snd]. rewrite IH1. cbn [fst snd].
      split; [reflexivity|]. by apply Forall_app. }
  destruct HL as (w & E & Hw).
  assert (HC : ∀ s, (s = " <summary>" ∨ s = " </summary>")%string → Forall (λ c, cs_newline c = false) (chars s)).
  { intros s Hs. apply Forall_forall. intros c H.
    destruct Hs as [-> | ->]; vm_compute in H; repeat (apply elem_of_cons in H as [->|H]; [done|]);
      by apply elem_of_nil in H. }
  eexists. rewrite read_app.
  change (chars "/// <summary>") with (chars "///" ++ chars " <summary>").
  change (chars "/// </summary>") with (chars "///" ++ chars " </summary>").
  rewrite slash_line by auto. cbn [fst snd]. rewrite read_app, E. cbn [fst snd]. rewrite slash_line by auto.
  cbn [fst snd]. split; [reflexivity|]. rewrite !Forall_app. by rewrite Forall_app in HB.
Qed.

(** ** Whole headers *)

Definition piece : Type := nat * list (list N) * list N.

(** What remains of a header: its code, and spaces. *)
Fixpoint code_only (ps : list piece) : list N :=
  match ps with
  | [] => []
  | p :: ps => (indentation p.1.1 ++ [32; 10]) ++ (read c_newline Code (splice p.2)).2 ++ code_only ps
  end.
Lemma c_header ps : Forall (λ p : piece, Forall (harmless LC ws) p.1.2 ∧ whole LC p.2) ps →
  read c_newline Code (splice (header LC ws ps)) = (Code, code_only ps).
Proof.
  induction 1 as [|p ps [Hd [Hm Hl]] _ IH]; [done|]. unfold header. cbn [flat_map]. fold (header LC ws ps).
  rewrite <-app_assoc. change (emit_docs LC) with c_docs. rewrite c_docs_read by done.
  rewrite splice_app by (by rewrite Hl). rewrite read_app.
  cbn in Hm. rewrite Hm, IH. cbn [fst snd code_only]. done.
Qed.
Lemma cs_header ps : Forall (λ p : piece, Forall (harmless LCSharp ws) p.1.2 ∧ whole LCSharp p.2) ps →
  (read cs_newline Code (header LCSharp ws ps)).1 = Code ∧
  filter (λ c, blank c = false) (read cs_newline Code (header LCSharp ws ps)).2 =
  filter (λ c, blank c = false) (flat_map (λ p : piece, (read cs_newline Code p.2).2) ps).
Proof.
  induction 1 as [|p ps [Hd [Hm _]] _ [IH1 IH2]]; [done|]. unfold header. cbn [flat_map]. fold (header LCSharp ws ps).
  rewrite <-app_assoc. change (emit_docs LCSharp) with cs_docs. destruct (cs_docs_read p.1.1 p.1.2 Hd) as (w & E & Hw).
  rewrite read_app, E. cbn [fst snd]. rewrite read_app. cbn in Hm. rewrite Hm. cbn [fst snd]. split; [done|].
  assert (Ew : filter (λ c, blank c = false) w = []).
  { clear E. induction Hw as [|c w Hc _ IHw]; [done|]. rewrite filter_cons_False by congruence. exact IHw. }
  rewrite !filter_app, IH2, Ew. done.
Qed.
End ws.
