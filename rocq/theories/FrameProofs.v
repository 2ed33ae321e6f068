(** Proofs about the frame of a header. *)

From Coq Require Import NArith List Bool Lia String Ascii.
From Coq Require Import ZifyBool ZifyN.
From stdpp Require Import base numbers list.
From Verif Require Import HeaderModel FrameModel FrameSpec.

(** ** Texts *)

Lemma strip_app m a b : strip m (a ++ b) =
  ((strip m a).1 ++ (strip (strip m a).2 b).1, (strip (strip m a).2 b).2).
Proof.
  revert m. induction a as [|c a IH]; intros m; cbn [strip app].
  - cbn. by destruct (strip m b).
  - destruct (strip1 m c) as [o m'] eqn:E1. rewrite IH. destruct (strip m' a) as [o1 m1]. cbn [fst snd].
    destruct (strip m1 b) as [o2 m2]. cbn. by rewrite app_assoc.
Qed.
Lemma strip_code_app a b a' : strip Code a = (a', Code) → strip Code (a ++ b) = (a' ++ (strip Code b).1, (strip Code b).2).
Proof. intros H. rewrite strip_app, H. done. Qed.

Lemma pieces_cons s : ∃ l ls, pieces s = l :: ls.
Proof.
  induction s as [|c s (l & ls & IH)]; [by exists [], []|]. cbn. destruct (Ascii.eqb c nl); [eauto|].
  rewrite IH. eauto.
Qed.
Lemma pieces_app a b : pieces (a ++ nl :: b) = pieces a ++ pieces b.
Proof.
  induction a as [|c a IH]; [done|]. cbn [app pieces]. rewrite IH. destruct (Ascii.eqb c nl); [done|].
  by destruct (pieces_cons a) as (l & ls & ->).
Qed.
Lemma pieces_line s : forallb (λ c, negb (Ascii.eqb c nl)) s = true → pieces s = [s].
Proof.
  induction s as [|c s IH]; [done|]. cbn [forallb pieces]. intros H. apply andb_true_iff in H as [H1 H2].
  apply negb_true_iff in H1. rewrite H1. by rewrite IH.
Qed.

Lemma pp_app cs ls ls' : ∀ defs st, pp cs defs st (ls ++ ls') =
  match pp cs defs st ls with
  | Some (o, defs, st) =>
      match pp cs defs st ls' with Some (o', defs, st) => Some (o ++ o', defs, st) | None => None end
  | None => None
  end.
Proof.
  induction ls as [|l ls IH]; intros defs st; cbn [app pp].
  - by destruct (pp cs defs st ls') as [[[]]|].
  - destruct (pp1 cs defs st l) as [[[o d] s]|]; [|done]. rewrite IH.
    destruct (pp cs d s ls) as [[[o1 d1] s1]|]; [|done].
    destruct (pp cs d1 s1 ls') as [[[o2 d2] s2]|]; [|done]. by rewrite app_assoc.
Qed.

(** A text read from the start of a line, outside comments. *)
Definition run (cs : bool) (defs : list text) (st : list bool) (s : text) :
    option (list text * list text * list bool) :=
  match strip Code s with (s', Code) => pp cs defs st (pieces s') | _ => None end.
Lemma preprocess_run cs defs file :
  preprocess cs defs file = match run cs defs [] file with Some (o, d, []) => Some (o, d) | _ => None end.
Proof. unfold preprocess, run. destruct (strip Code file) as [s []]; done. Qed.
Definition seq {X} (o : list X) {A B} (r : option (list X * A * B)) : option (list X * A * B) :=
  match r with Some (o', d, s) => Some (o ++ o', d, s) | None => None end.
Lemma run_line cs defs st a b a' o defs' st' :
  strip Code a = (a', Code) → pp cs defs st (pieces a') = Some (o, defs', st') →
  run cs defs st (a ++ nl :: b) = seq o (run cs defs' st' b).
Proof.
  intros Ha Hp. unfold run. rewrite (strip_code_app _ _ _ Ha). cbn [strip strip1].
  change (in_code nl) with ([nl], Code). cbn [app].
  destruct (strip Code b) as [b' m]. cbn [fst snd]. destruct m; try done.
  rewrite pieces_app, pp_app, Hp. done.
Qed.
Lemma seq_nil {X A B} (r : option (list X * A * B)) : seq [] r = r.
Proof. by destruct r as [[[]]|]. Qed.
Lemma seq_seq {X A B} o o' (r : option (list X * A * B)) : seq o (seq o' r) = seq (o ++ o') r.
Proof. destruct r as [[[]]|]; [|done]. cbn. by rewrite app_assoc. Qed.

(** ** Under conditionals *)

Lemma taken_app st st' : taken (st ++ st') = taken st && taken st'.
Proof. apply forallb_app. Qed.
Lemma pp_taken cs base ls : taken base = true → ∀ defs st o defs' st',
  pp cs defs st ls = Some (o, defs', st') → pp cs defs (st ++ base) ls = Some (o, defs', st' ++ base).
Proof.
  intros Hb. induction ls as [|l ls IH]; intros defs st o defs' st' H; cbn [pp] in *; [by simplify_eq|].
  destruct (pp1 cs defs st l) as [[[o1 d1] s1]|] eqn:E; [|done].
  destruct (pp cs d1 s1 ls) as [[[o2 d2] s2]|] eqn:E2; [|done]. simplify_eq.
  assert (HE : pp1 cs defs (st ++ base) l = Some (o1, d1, s1 ++ base)).
  { unfold pp1 in *. destruct (read l); simplify_eq; rewrite ?taken_app, ?Hb, ?andb_true_r; try done.
    - destruct st; [done|]. by simplify_eq.
    - destruct st; [done|]. by simplify_eq.
    - destruct cs; [|done]. by simplify_eq. }
  rewrite HE. by rewrite (IH _ _ _ _ _ E2).
Qed.
Lemma pp_skipped cs base ls : taken base = false → ∀ defs st o defs' st' d st0,
  pp cs defs st ls = Some (o, defs', st') → length st0 = length st →
  ∃ st1, length st1 = length st' ∧ pp cs d (st0 ++ base) ls = Some ([], d, st1 ++ base).
Proof.
  intros Hb. induction ls as [|l ls IH]; intros defs st o defs' st' d st0 H HL; cbn [pp] in *; [simplify_eq; eauto|].
  destruct (pp1 cs defs st l) as [[[o1 d1] s1]|] eqn:E; [|done].
  destruct (pp cs d1 s1 ls) as [[[o2 d2] s2]|] eqn:E2; [|done]. simplify_eq.
  assert (HE : ∃ s0, length s0 = length s1 ∧ pp1 cs d (st0 ++ base) l = Some ([], d, s0 ++ base)).
  { assert (HT : taken (st0 ++ base) = false) by (rewrite taken_app, Hb; apply andb_false_r).
    unfold pp1 in *. destruct (read l); simplify_eq; rewrite ?HT.
    - exists (defined d x :: st0). cbn. by rewrite HL.
    - exists (negb (defined d x) :: st0). cbn. by rewrite HL.
    - destruct st as [|b st]; [done|]. simplify_eq. destruct st0 as [|b0 st0]; [done|]. exists (negb b0 :: st0). by cbn in *.
    - destruct st as [|b st]; [done|]. simplify_eq. destruct st0 as [|b0 st0]; [done|]. exists st0. cbn in *. by simplify_eq.
    - by exists st0.
    - by exists st0.
    - by exists st0.
    - destruct cs; [|done]. simplify_eq. exists (defined d x :: st0). cbn. by rewrite HL. }
  destruct HE as (s0 & HL0 & HE). rewrite HE. destruct (IH _ _ _ _ _ d s0 E2 HL0) as (st1 & HL1 & Hp).
  exists st1. split; [done|]. by rewrite Hp.
Qed.

(** ** Identifiers in texts *)

Ltac chars := unfold ident_char, ident_start, is_letter, is_digit, blank in *.
Lemma ident_char_not c x : ident_char c = true → ident_char x = false → Ascii.eqb c x = false.
Proof. intros H Hx. destruct (Ascii.eqb_spec c x) as [->|]; [congruence|done]. Qed.
Lemma ident_all s : ident s = true → forallb ident_char s = true ∧ s ≠ [].
Proof.
  destruct s as [|c s]; [done|]. cbn. intros H. apply andb_true_iff in H as [H1 H2]. rewrite H2. split; [|done].
  unfold ident_char. by rewrite H1.
Qed.
Lemma strip_ident s : forallb ident_char s = true → strip Code s = (s, Code).
Proof.
  induction s as [|c s IH]; [done|]. cbn [forallb strip strip1]. intros H. apply andb_true_iff in H as [H1 H2].
  unfold in_code. rewrite !(ident_char_not c) by done. by rewrite IH.
Qed.
Lemma strip_block_ident s : forallb ident_char s = true → strip Block s = ([], Block).
Proof.
  induction s as [|c s IH]; [done|]. cbn [forallb strip strip1]. intros H. apply andb_true_iff in H as [H1 H2].
  rewrite !(ident_char_not c) by done. by rewrite IH.
Qed.
Lemma ident_no_nl s : forallb ident_char s = true → forallb (λ c, negb (Ascii.eqb c nl)) s = true.
Proof.
  induction s as [|c s IH]; [done|]. cbn [forallb]. intros H. apply andb_true_iff in H as [H1 H2].
  rewrite (ident_char_not c) by done. by rewrite IH.
Qed.
Lemma word_ident s : forallb ident_char s = true → word s = (s, []).
Proof.
  induction s as [|c s IH]; [done|]. cbn [forallb word]. intros H. apply andb_true_iff in H as [H1 H2]. rewrite H1. by rewrite IH.
Qed.
Lemma ident_not_blank c : ident_char c = true → blank c = false.
Proof. intros H. unfold blank. by rewrite !(ident_char_not c). Qed.
Lemma ltrim_head c s : blank c = false → ltrim (c :: s) = c :: s.
Proof. intros H. cbn. by rewrite H. Qed.
Lemma trim_last s c : blank c = false → ltrim (s ++ [c]) = s ++ [c] → trim (s ++ [c]) = s ++ [c].
Proof.
  intros H Hl. unfold trim. rewrite Hl. rewrite rev_app_distr. cbn [rev app]. rewrite ltrim_head by done.
  cbn [rev]. by rewrite rev_involutive.
Qed.
Lemma ident_last g : ident g = true → ∃ g' c, g = g' ++ [c] ∧ ident_char c = true.
Proof.
  intros H. apply ident_all in H as [H Hn]. destruct (exists_last Hn) as (g' & c & ->). exists g', c. split; [done|].
  rewrite forallb_app in H. apply andb_true_iff in H as [_ H]. cbn in H. by apply andb_true_iff in H as [H _].
Qed.
Lemma trim_lit a g : ltrim a = a → a ≠ [] → ident g = true → trim (a ++ g) = a ++ g.
Proof.
  intros Ha Hn Hg. destruct (ident_last _ Hg) as (g' & c & -> & Hc). rewrite app_assoc. apply trim_last.
  - by apply ident_not_blank.
  - destruct a as [|x a]; [done|]. cbn in Ha |- *. destruct (blank x) eqn:E; [|done].
    exfalso. assert (HL : ∀ s, length (ltrim s) ≤ length s).
    { induction s as [|y s IH]; [done|]. cbn. destruct (blank y); cbn; lia. }
    specialize (HL a). rewrite Ha in HL. cbn in HL. lia.
Qed.
Lemma ltrim_ident g : ident g = true → ltrim g = g.
Proof.
  destruct g as [|c g]; [done|]. cbn. intros H. apply andb_true_iff in H as [H _].
  rewrite ident_not_blank; [done|]. unfold ident_char. by rewrite H.
Qed.
Lemma read_guard g : ident g = true →
  read (tx "#ifndef " ++ g) = DIfndef g ∧ read (tx "#define " ++ g) = DDefine g.
Proof.
  intros Hg. pose proof (ltrim_ident _ Hg) as Hl. pose proof (ident_all _ Hg) as [Ha _]. split; unfold read; rewrite trim_lit by done.
  - change (tx "#ifndef " ++ g) with ("#"%char :: tx "ifndef" ++ " "%char :: g). cbn [Ascii.eqb].
    change (Ascii.eqb "#" "#") with true. cbv beta iota.
    change (ltrim (tx "ifndef" ++ " "%char :: g)) with (tx "ifndef" ++ " "%char :: g).
    change (word (tx "ifndef" ++ " "%char :: g)) with (tx "ifndef", " "%char :: g). cbv beta iota.
    change (ltrim (" "%char :: g)) with (ltrim g). rewrite Hl, word_ident by done. done.
  - change (tx "#define " ++ g) with ("#"%char :: tx "define" ++ " "%char :: g).
    change (Ascii.eqb "#" "#") with true. cbv beta iota.
    change (ltrim (tx "define" ++ " "%char :: g)) with (tx "define" ++ " "%char :: g).
    change (word (tx "define" ++ " "%char :: g)) with (tx "define", " "%char :: g). cbv beta iota.
    change (ltrim (" "%char :: g)) with (ltrim g). rewrite Hl, word_ident by done. done.
Qed.

(** ** The C header *)

Lemma preprocess_body cs defs body o d : preprocess cs defs body = Some (o, d) →
  ∃ b, strip Code body = (b, Code) ∧ pp cs defs [] (pieces b) = Some (o, d, []).
Proof.
  unfold preprocess. destruct (strip Code body) as [b []]; try done.
  destruct (pp cs defs [] (pieces b)) as [[[o' d'] []]|] eqn:E; try done. intros. simplify_eq. by exists b.
Qed.
Lemma run_taken cs defs st body o d rest : preprocess cs defs body = Some (o, d) → taken st = true →
  run cs defs st (body ++ nl :: rest) = seq o (run cs d st rest).
Proof.
  intros H Ht. apply preprocess_body in H as (b & Hb & Hp). eapply run_line; [done|].
  by apply (pp_taken cs st (pieces b) Ht defs [] o d []).
Qed.
Lemma run_skipped cs defs st body d0 r rest : preprocess cs d0 body = Some r → taken st = false →
  run cs defs st (body ++ nl :: rest) = run cs defs st rest.
Proof.
  intros H Ht. destruct r as [o d]. apply preprocess_body in H as (b & Hb & Hp).
  destruct (pp_skipped cs st (pieces b) Ht d0 [] o d [] defs [] Hp eq_refl) as (st1 & HL & HS).
  destruct st1; [|done]. rewrite (run_line _ _ _ _ _ _ _ _ _ Hb HS). by rewrite seq_nil.
Qed.
Lemma read_blank l : forallb blank l = true → read l = DText [].
Proof.
  intros H. unfold read. assert (HT : trim l = []); [|by rewrite HT].
  unfold trim. assert (HL : ltrim l = []); [|by rewrite HL].
  induction l as [|c l IH]; [done|]. cbn [forallb ltrim] in *. apply andb_true_iff in H as [H1 H2]. rewrite H1. by apply IH.
Qed.
Lemma pp_blank cs defs st b : forallb (λ c, blank c || Ascii.eqb c nl) b = true →
  pp cs defs st (pieces b) = Some ([], defs, st).
Proof.
  intros H. assert (HP : ∀ l, l ∈ pieces b → forallb blank l = true).
  { induction b as [|c b IH]; intros l Hl.
    - cbn in Hl. apply elem_of_list_singleton in Hl. by subst.
    - cbn [forallb] in H. apply andb_true_iff in H as [H1 H2]. cbn [pieces] in Hl.
      destruct (Ascii.eqb c nl) eqn:E.
      + apply elem_of_cons in Hl as [->|Hl]; [done|]. by apply IH.
      + rewrite orb_false_r in H1. destruct (pieces_cons b) as (l1 & ls & Hp). rewrite Hp in Hl, IH.
        apply elem_of_cons in Hl as [->|Hl].
        * cbn [forallb]. rewrite H1. cbn. apply IH; [done|]. by left.
        * apply IH; [done|]. by right. }
  clear H. revert HP. induction (pieces b) as [|l ls IH]; intros HP; [done|]. cbn [pp].
  unfold pp1 at 1. rewrite read_blank by (apply HP; by left).
  rewrite IH; [by destruct (taken st)|]. intros. apply HP. by right.
Qed.
Lemma strip_nl m : (strip m [nl]).2 = Code → ∃ b, (strip m [nl]).1 = b ++ [nl].
Proof. destruct m; vm_compute; try done; intros _; [by exists []; auto|by exists [slash]; auto|by exists []; auto|by exists []; auto|by exists []; auto]. Qed.
Lemma run_comments cs defs st s rest : comments s → run cs defs st (s ++ nl :: rest) = run cs defs st rest.
Proof.
  intros (b & Hs & Hb). rewrite (cons_middle nl), app_assoc. unfold run. rewrite (strip_code_app _ _ _ Hs).
  assert (HE : ∃ b', b = b' ++ [nl]).
  { rewrite strip_app in Hs. pose proof (f_equal fst Hs) as H1. pose proof (f_equal snd Hs) as H2. cbn [fst snd] in H1, H2. destruct (strip_nl _ H2) as (b' & HB). rewrite HB in H1.
    eexists. by rewrite <-H1, app_assoc. }
  destruct HE as (b' & ->). rewrite <-app_assoc. cbn [app]. rewrite forallb_app in Hb. apply andb_true_iff in Hb as [Hb _].
  destruct (strip Code rest) as [r []]; try done. cbn [fst snd].
  rewrite pieces_app, pp_app, pp_blank by done. apply seq_nil.
Qed.
Lemma run_empty cs defs st rest : run cs defs st (nl :: rest) = run cs defs st rest.
Proof. apply (run_comments cs defs st [] rest). by exists [nl]. Qed.
Lemma run_lit cs defs st l rest a' r :
  strip Code l = (a', Code) → pieces a' = [a'] → read a' = r →
  ∀ o d s, pp1 cs defs st a' = Some (o, d, s) → run cs defs st (l ++ nl :: rest) = seq o (run cs d s rest).
Proof.
  intros Hs Hp _ o d s E. eapply run_line; [done|]. rewrite Hp. cbn [pp]. rewrite E. by rewrite app_nil_r.
Qed.
Ltac lit := erewrite run_lit;
  [|vm_compute; reflexivity|vm_compute; reflexivity|vm_compute; reflexivity
   |unfold pp1; match goal with |- context [read ?x] =>
      let r := eval vm_compute in (read x) in change (read x) with r end; reflexivity].

Definition cpp : text := tx "__cplusplus".
Definition extern_line : text := tx "extern " ++ quoted (tx "C") ++ tx " {".
Lemma run_ifdef defs st rest :
  run false defs st (tx "#ifdef __cplusplus" ++ nl :: rest) = run false defs (defined defs cpp :: st) rest.
Proof. lit. by rewrite seq_nil. Qed.
Lemma run_endif defs b st rest : run false defs (b :: st) (tx "#endif" ++ nl :: rest) = run false defs st rest.
Proof. lit. by rewrite seq_nil. Qed.
Lemma run_extern defs st rest :
  run false defs st (extern_line ++ nl :: rest) = seq (if taken st then [extern_line] else []) (run false defs st rest).
Proof. lit. by destruct (taken st). Qed.
Lemma run_close defs st rest :
  run false defs st ((tx "} /* extern " ++ bs :: dq :: tx "C" ++ bs :: dq :: tx " */") ++ nl :: rest) =
  seq (if taken st then [tx "}"] else []) (run false defs st rest).
Proof. lit. by destruct (taken st). Qed.
Lemma run_ifndef g defs st rest : ident g = true →
  run false defs st ((tx "#ifndef " ++ g) ++ nl :: rest) = run false defs (negb (defined defs g) :: st) rest.
Proof.
  intros Hg. pose proof (ident_all _ Hg) as [Ha _].
  assert (Hr : read (tx "#ifndef " ++ g) = DIfndef g) by (by apply read_guard).
  rewrite (λ H1 H2 H3, run_lit false defs st (tx "#ifndef " ++ g) rest (tx "#ifndef " ++ g) (DIfndef g) H1 H2 H3 [] defs (negb (defined defs g) :: st)).
  - by rewrite seq_nil.
  - rewrite strip_app. change (strip Code (tx "#ifndef ")) with (tx "#ifndef ", Code). cbn [fst snd]. by rewrite strip_ident.
  - apply pieces_line. rewrite forallb_app, (ident_no_nl g) by done. done.
  - done.
  - unfold pp1. by rewrite Hr.
Qed.
Lemma run_define g defs st rest : ident g = true →
  run false defs st ((tx "#define " ++ g) ++ nl :: rest) = run false (if taken st then g :: defs else defs) st rest.
Proof.
  intros Hg. pose proof (ident_all _ Hg) as [Ha _].
  assert (Hr : read (tx "#define " ++ g) = DDefine g) by (by apply read_guard).
  rewrite (λ H1 H2 H3, run_lit false defs st (tx "#define " ++ g) rest (tx "#define " ++ g) (DDefine g) H1 H2 H3 [] (if taken st then g :: defs else defs) st).
  - by rewrite seq_nil.
  - rewrite strip_app. change (strip Code (tx "#define ")) with (tx "#define ", Code). cbn [fst snd]. by rewrite strip_ident.
  - apply pieces_line. rewrite forallb_app, (ident_no_nl g) by done. done.
  - done.
  - unfold pp1. by rewrite Hr.
Qed.
Lemma run_last g defs b st : ident g = true →
  run false defs (b :: st) ((tx "#endif /* " ++ g ++ tx " */") ++ [nl]) = run false defs st [].
Proof.
  intros Hg. pose proof (ident_all _ Hg) as [Ha _].
  rewrite (λ H1 H2 H3, run_lit false defs (b :: st) _ [] (tx "#endif  ") DEndif H1 H2 H3 [] defs st).
  - by rewrite seq_nil.
  - rewrite strip_app. change (strip Code (tx "#endif /* ")) with (tx "#endif  ", Block). cbn [fst snd].
    rewrite strip_app, strip_block_ident by done. done.
  - done.
  - done.
  - done.
Qed.
Lemma run_nil defs st : run false defs st [] = Some ([], defs, st).
Proof. unfold run. cbn. by destruct (taken st). Qed.

Lemma epilogue_run g defs b o d body : ident g = true → preprocess false defs body = Some (o, d) →
  run false defs [true] (body ++ c_epilogue g) =
    Some (o ++ (if defined d cpp then [tx "}"] else []), d, []) ∧
  (∀ defs', run false defs' (false :: b) (body ++ c_epilogue g) = Some ([], defs', b)).
Proof.
  intros Hg Hb. unfold c_epilogue. cbn [lines app]. split.
  - rewrite (run_taken _ _ _ _ _ _ _ Hb) by done. rewrite run_ifdef, run_close, run_endif, run_empty, run_last, run_nil by done.
    unfold taken. cbn [forallb id]. destruct (defined d cpp); cbn; by rewrite ?app_nil_r.
  - intros defs'. rewrite (run_skipped _ _ _ _ _ _ _ Hb) by done.
    rewrite run_ifdef, run_close, run_endif, run_empty, run_last, run_nil by done.
    cbn. by rewrite andb_false_r.
Qed.
Lemma prelude_run g a defs da oa defs' rest : ident g = true →
  match a with
  | None => da = g :: defs ∧ oa = []
  | Some a => preprocess false (g :: defs) (a ++ [nl]) = Some (oa, da)
  end →
  (defined defs g = false →
    run false defs [] (c_prelude g (match a with None => [] | Some s => nl :: nl :: s ++ [nl] end) ++ [nl] ++ rest) =
    seq (oa ++ if defined da cpp then [extern_line] else []) (run false da [true] rest)) ∧
  (defined defs' g = true →
    run false defs' [] (c_prelude g (match a with None => [] | Some s => nl :: nl :: s ++ [nl] end) ++ [nl] ++ rest) =
    run false defs' [false] rest).
Proof.
  intros Hg Ha. unfold c_prelude. cbn [lines app]. rewrite <-!app_assoc. cbn [app]. rewrite <-!app_assoc. cbn [app].
  fold extern_line.
  assert (HR : ∀ defs st, run false defs st (tx "#ifdef __cplusplus" ++ nl :: extern_line ++ nl :: tx "#endif" ++ nl :: nl :: rest) =
    seq (if defined defs cpp && taken st then [extern_line] else []) (run false defs st rest)).
  { intros ds st. rewrite run_ifdef, run_extern, run_endif, run_empty. by cbn [taken forallb id]. }
  assert (HD : ∀ defs st, run false defs st (tx "#define " ++ g ++ (match a with None => [] | Some s => nl :: nl :: s ++ [nl] end)
       ++ nl :: tx "#ifdef __cplusplus" ++ nl :: extern_line ++ nl :: tx "#endif" ++ nl :: nl :: rest) =
    match a with
    | None => seq (if defined (if taken st then g :: defs else defs) cpp && taken st then [extern_line] else [])
                (run false (if taken st then g :: defs else defs) st rest)
    | Some s => run false (if taken st then g :: defs else defs) st (s ++ nl :: nl ::
         tx "#ifdef __cplusplus" ++ nl :: extern_line ++ nl :: tx "#endif" ++ nl :: nl :: rest)
    end).
  { intros ds st. rewrite (app_assoc (tx "#define ")). destruct a as [s|]; cbn [app].
    - rewrite run_define, run_empty by done. by rewrite <-app_assoc.
    - by rewrite run_define, HR. }
  split; intros Hd; rewrite (app_assoc (tx "#ifndef ")), run_ifndef, Hd by done; cbn [negb]; rewrite HD; cbn [taken forallb id andb].
  - destruct a as [s|].
    + rewrite (cons_middle nl s), app_assoc. rewrite (run_taken _ _ _ _ _ _ _ Ha) by done. rewrite HR. cbn [taken forallb id andb].
      rewrite andb_true_r. by rewrite seq_seq.
    + destruct Ha as [-> ->]. by rewrite andb_true_r.
  - destruct a as [s|].
    + rewrite (cons_middle nl s), app_assoc. rewrite (run_skipped _ _ _ _ _ _ _ Ha) by done. rewrite HR. cbn [taken forallb id andb].
      rewrite andb_false_r. by rewrite seq_nil.
    + by rewrite andb_false_r, seq_nil.
Qed.

(** ** The C# header *)

(** A line of text. *)
Lemma run_text cs defs st l l' rest :
  strip Code l = (l, Code) → forallb (λ c, negb (Ascii.eqb c nl)) l = true →
  read l = DText l' → l' ≠ [] →
  run cs defs st (l ++ nl :: rest) = seq (if taken st then [l'] else []) (run cs defs st rest).
Proof.
  intros Hs Hn Hr Hl. eapply run_line; [done|]. rewrite pieces_line by done. cbn [pp]. unfold pp1. rewrite Hr.
  rewrite app_nil_r. by destruct l'.
Qed.
Lemma strip_str_ident s : forallb ident_char s = true → strip Str s = (s, Str).
Proof.
  induction s as [|c s IH]; [done|]. cbn [forallb strip strip1]. intros H. apply andb_true_iff in H as [H1 H2].
  rewrite !(ident_char_not c) by done. by rewrite IH.
Qed.
Lemma trim_ends a m z c : ltrim (a ++ m ++ z ++ [c]) = a ++ m ++ z ++ [c] → blank c = false →
  trim (a ++ m ++ z ++ [c]) = a ++ m ++ z ++ [c].
Proof. intros Hl Hc. rewrite !app_assoc in *. by apply trim_last. Qed.

Definition ns_line (ns : text) : text := tx "namespace " ++ ns ++ tx " {".
Definition lib_const (lib : text) : text := tx "private const string RustLib = " ++ quoted lib ++ tx ";".
Lemma run_ns ns defs st rest : ident ns = true →
  run true defs st (ns_line ns ++ nl :: rest) = seq (if taken st then [ns_line ns] else []) (run true defs st rest).
Proof.
  intros Hg. pose proof (ident_all _ Hg) as [Ha _]. apply run_text.
  - unfold ns_line. rewrite strip_app. change (strip Code (tx "namespace ")) with (tx "namespace ", Code).
    cbn [fst snd]. rewrite strip_app, strip_ident by done. done.
  - unfold ns_line. rewrite !forallb_app, (ident_no_nl ns) by done. done.
  - unfold read. assert (HT : trim (ns_line ns) = ns_line ns) by (by apply (trim_ends (tx "namespace ") ns [" "%char] "{")).
    rewrite HT. done.
  - done.
Qed.
Lemma read_lib a b : read (tx "    private const string RustLib = " ++ dq :: a ++ b ++ [";"%char]) =
  DText (tx "private const string RustLib = " ++ dq :: a ++ b ++ [";"%char]).
Proof.
  unfold read.
  assert (HT : trim (tx "    private const string RustLib = " ++ dq :: a ++ b ++ [";"%char]) =
     tx "private const string RustLib = " ++ dq :: a ++ b ++ [";"%char]); [|by rewrite HT].
  transitivity (trim (tx "private const string RustLib = " ++ dq :: a ++ b ++ [";"%char])); [done|].
  rewrite (cons_middle dq), (app_assoc _ [dq]). by apply trim_ends.
Qed.
Lemma strip_lib s : strip Str s = (s, Str) →
  strip Code (tx "    private const string RustLib = " ++ quoted s ++ tx ";") =
  (tx "    private const string RustLib = " ++ quoted s ++ tx ";", Code).
Proof.
  intros Hs. rewrite strip_app. change (strip Code (tx "    private const string RustLib = ")) with (tx "    private const string RustLib = ", Code).
  cbn [fst snd]. unfold quoted. cbn [app strip strip1]. change (in_code dq) with ([dq], Str). cbv beta iota.
  rewrite <-app_assoc, strip_app, Hs. cbn [fst snd]. done.
Qed.
Lemma run_lib s defs st rest : strip Str s = (s, Str) → forallb (λ c, negb (Ascii.eqb c nl)) s = true →
  run true defs st ((tx "    private const string RustLib = " ++ quoted s ++ tx ";") ++ nl :: rest) =
  seq (if taken st then [lib_const s] else []) (run true defs st rest).
Proof.
  intros Hs Hn. apply run_text.
  - by apply strip_lib.
  - unfold quoted. rewrite !forallb_app. cbn [forallb]. rewrite !forallb_app, Hn. done.
  - unfold lib_const, quoted. cbn [app]. rewrite <-!app_assoc. apply read_lib.
  - done.
Qed.

(** What comes before the constant, in the prelude. *)
Definition cs_head (ns : text) : list text := [
  tx "#pragma warning disable IDE0044, IDE0049, IDE0055, IDE1006,";
  tx "#pragma warning disable SA1004, SA1008, SA1023, SA1028,";
  tx "#pragma warning disable SA1121, SA1134,";
  tx "#pragma warning disable SA1201,";
  tx "#pragma warning disable SA1300, SA1306, SA1307, SA1310, SA1313,";
  tx "#pragma warning disable SA1500, SA1505, SA1507,";
  tx "#pragma warning disable SA1600, SA1601, SA1604, SA1605, SA1611, SA1615, SA1649,";
  ns_line ns;
  tx "using System;";
  tx "using System.Runtime.InteropServices;";
  tx "public unsafe partial class Ffi {"].
Lemma run_const l defs st rest : strip Code l = (l, Code) → forallb (λ c, negb (Ascii.eqb c nl)) l = true →
  read l = DText l → l ≠ [] → taken st = true →
  run true defs st (l ++ nl :: rest) = seq [l] (run true defs st rest).
Proof. intros ???? Ht. rewrite (run_text _ _ _ _ l) by done. by rewrite Ht. Qed.
Ltac const := rewrite run_const; [|reflexivity|reflexivity|reflexivity|done|reflexivity].
Lemma run_if defs st rest :
  run true defs st (tx "#if IOS" ++ nl :: rest) = run true defs (defined defs (tx "IOS") :: st) rest.
Proof. lit. by rewrite seq_nil. Qed.
Lemma run_else defs b st rest : run true defs (b :: st) (tx "#else" ++ nl :: rest) = run true defs (negb b :: st) rest.
Proof. lit. by rewrite seq_nil. Qed.
Lemma run_cs_endif defs b st rest : run true defs (b :: st) (tx "#endif" ++ nl :: rest) = run true defs st rest.
Proof. lit. by rewrite seq_nil. Qed.
Lemma run_cs_last ns defs : ident ns = true →
  run true defs [] ((tx "} /* " ++ ns ++ tx " */") ++ [nl]) = Some ([tx "}"], defs, []).
Proof.
  intros Hg. pose proof (ident_all _ Hg) as [Ha _].
  rewrite (run_line true defs [] (tx "} /* " ++ ns ++ tx " */") [] (tx "}  ") [tx "}"] defs []); [done| |done].
  rewrite strip_app. change (strip Code (tx "} /* ")) with (tx "}  ", Block). cbn [fst snd].
  rewrite strip_app, strip_block_ident by done. done.
Qed.
Lemma cs_run ns lib defs o d body : ident ns = true → ident lib = true → preprocess true defs body = Some (o, d) →
  run true defs [] (cs_prelude ns lib ++ [nl] ++ body ++ cs_epilogue ns) =
  Some (cs_head ns ++ [lib_const (if defined defs (tx "IOS") then lib ++ tx ".framework/" ++ lib else lib); tx "}"]
        ++ o ++ [tx "}"], d, []).
Proof.
  intros Hn Hl Hb. pose proof (ident_all _ Hl) as [Ha _].
  unfold cs_prelude, cs_epilogue. cbn [lines]. repeat first [rewrite <-app_assoc | progress cbn [app]].
  assert (HN : ∀ rest, tx "namespace " ++ ns ++ tx " {" ++ rest = ns_line ns ++ rest).
  { intros. unfold ns_line. by rewrite <-!app_assoc. }
  assert (HL : ∀ s rest, tx "    private const string RustLib = " ++ quoted s ++ tx ";" ++ rest =
     (tx "    private const string RustLib = " ++ quoted s ++ tx ";") ++ rest) by (intros; by rewrite <-!app_assoc).
  assert (HE : ∀ rest, tx "} /* " ++ ns ++ tx " */" ++ rest = (tx "} /* " ++ ns ++ tx " */") ++ rest) by (intros; by rewrite <-!app_assoc).
  do 7 const. rewrite run_empty, HN, run_ns by done. do 2 const. rewrite run_empty. const. rewrite run_if.
  rewrite HL, run_lib, run_else, HL, run_lib, run_cs_endif.
  2, 3: by rewrite ?strip_str_ident, ?ident_no_nl.
  2: { rewrite strip_app, strip_str_ident by done. cbn [fst snd]. rewrite strip_app. cbn [fst snd].
       change (strip Str (tx ".framework/")) with (tx ".framework/", Str). cbn [fst snd]. by rewrite strip_str_ident. }
  2: { rewrite !forallb_app, (ident_no_nl lib) by done. done. }
  const. rewrite run_empty. rewrite (run_taken _ _ _ _ _ _ _ Hb) by done. rewrite HE, run_cs_last by done.
  unfold taken. cbn [forallb id]. destruct (defined defs (tx "IOS")); cbn; rewrite <-?app_assoc; done.
Qed.

(** ** Names *)

Lemma N_upper c : N_of_ascii (upper c) = if lower_case c then (N_of_ascii c - 32)%N else N_of_ascii c.
Proof. by destruct c as [[] [] [] [] [] [] [] []]. Qed.
Lemma upper_ident c : ident_char c = true → ident_char (upper c) = true.
Proof. by destruct c as [[] [] [] [] [] [] [] []]. Qed.
Lemma upper_start c : ident_start c = true → ident_start (upper c) = true ∧ lower_case (upper c) = false.
Proof. by destruct c as [[] [] [] [] [] [] [] []]. Qed.
Lemma upper_same a b : upper a = upper b ↔ same_letter a b.
Proof.
  assert (HI : ∀ a b, N_of_ascii a = N_of_ascii b → a = b).
  { intros x y H. by rewrite <-(ascii_N_embedding x), H, ascii_N_embedding. }
  pose proof (N_upper a) as Ha. pose proof (N_upper b) as Hb. unfold same_letter, is_letter, lower_case in *. split.
  - intros H. rewrite H, Hb in Ha. destruct (decide (N_of_ascii a = N_of_ascii b)); [left; by apply HI|right].
    repeat case_match; lia.
  - intros [->|(H1 & H2 & H3)]; [done|]. apply HI. repeat case_match; lia.
Qed.
Lemma map_upper_same a b : map upper a = map upper b ↔ Forall2 same_letter a b.
Proof.
  revert b. induction a as [|x a IH]; intros [|y b]; split; intros H; try done; try by inversion H.
  - cbn [map] in H. injection H as H1 H2. constructor; [by apply upper_same|by apply IH].
  - inversion H; subst. cbn [map]. f_equal; [by apply upper_same|by apply IH].
Qed.
Lemma pascal_ident s u : forallb ident_char s = true → forallb ident_char (pascal u s) = true.
Proof.
  revert u. induction s as [|c s IH]; intros u; [done|]. cbn [forallb pascal]. intros H. apply andb_true_iff in H as [H1 H2].
  destruct u; [|destruct (Ascii.eqb c "_")]; cbn [forallb]; rewrite ?IH, ?upper_ident, ?H1 by done; done.
Qed.
Lemma lower_upper a : lower_case a = true → upper_case (upper a) = true.
Proof. by destruct a as [[] [] [] [] [] [] [] []]. Qed.
Lemma lower_upper_inj a b : lower_case a = true → lower_case b = true → upper a = upper b → a = b.
Proof.
  intros Ha Hb H. apply upper_same in H as [H|H]; [done|]. unfold lower_case, is_letter in *. lia.
Qed.
Lemma low_not_upper a : lower_case a || is_digit a = true → upper_case a = false.
Proof. by destruct a as [[] [] [] [] [] [] [] []]. Qed.
(** What a word in snake case gives starts with a capital. *)
Lemma pascal_start s : snake true s = true → ∃ c r, pascal true s = c :: r ∧ upper_case c = true.
Proof.
  destruct s as [|c s]; [done|]. cbn [snake pascal]. intros H. apply andb_true_iff in H as [H _].
  eexists _, _. split; [done|]. by apply lower_upper.
Qed.
Lemma pascal_inj a b u : snake u a = true → snake u b = true → pascal u a = pascal u b → a = b.
Proof.
  revert b u. induction a as [|x a IH]; intros b u Ha Hb H.
  - destruct b as [|y b]; [done|]. destruct u; [done|]. cbn [snake pascal] in *. destruct (Ascii.eqb y "_"); [|done].
    destruct (pascal_start _ Hb) as (c & r & HE & _). by rewrite HE in H.
  - destruct b as [|y b].
    { destruct u; [done|]. cbn [snake pascal] in *. destruct (Ascii.eqb x "_"); [|done].
      destruct (pascal_start _ Ha) as (c & r & HE & _). by rewrite HE in H. }
    destruct u.
    + cbn [snake pascal] in *. apply andb_true_iff in Ha as [Ha1 Ha2]. apply andb_true_iff in Hb as [Hb1 Hb2].
      injection H as H1 H2. f_equal; [by apply lower_upper_inj|by eapply IH].
    + cbn [snake pascal] in *. destruct (Ascii.eqb_spec x "_") as [->|Hx], (Ascii.eqb_spec y "_") as [->|Hy].
      * f_equal. by eapply IH.
      * apply andb_true_iff in Hb as [Hb1 Hb2]. destruct (pascal_start _ Ha) as (c & r & HE & HC).
        rewrite HE in H. injection H as -> _. apply low_not_upper in Hb1. congruence.
      * apply andb_true_iff in Ha as [Ha1 Ha2]. destruct (pascal_start _ Hb) as (c & r & HE & HC).
        rewrite HE in H. injection H as -> _. apply low_not_upper in Ha1. congruence.
      * apply andb_true_iff in Ha as [Ha1 Ha2]. apply andb_true_iff in Hb as [Hb1 Hb2].
        injection H as H1 H2. f_equal; [done|by eapply IH].
Qed.
