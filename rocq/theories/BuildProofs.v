(** Lemmas on the builder of headers. *)

From Coq Require Import NArith List Bool String Ascii Lia.
From stdpp Require Import base numbers list strings.
From Verif Require Import NameModel DocModel HeaderModel CsModel TextModel TextProofs BuildModel BuildSpec.
From Verif Require FrameModel.
Import stdpp.list.

(** ** Pieces *)

Section Any.
Context (P : platform) (ws : N → bool) (fn_style : bool) (cut : list N → list (list N)).
Context {W : Type} (wr : list N → W → W * option stop).
Local Notation res := (@res W).
Local Notation state := (@state W).
Local Notation pieces := (pieces wr).
Local Notation define := (define P ws fn_style cut wr).

Lemma pieces_app ts us w : pieces (ts ++ us) w =
  match pieces ts w with (w, None) => pieces us w | (w, Some e) => (w, Some e) end.
Proof.
  revert w. induction ts as [|t ts IH]; intros w; [done|]. cbn [app BuildModel.pieces]. destruct (wr t w) as [w' [e|]]; [done|]. apply IH.
Qed.

Definition texts (ds : list (lang * xdecl)) : list (list N) :=
  flat_map (λ d, cut (utf8_text (render P ws fn_style d.1 d.2))) ds.

(** The writing traversal follows the pure one. *)
Definition follows (s : state) (r : res) (x : xst) (y : xres) : Prop :=
  match y with
  | XOk x' => ∃ new, xout x' = xout x ++ new ∧
      match pieces (texts new) (out s) with
      | (w, None) => r = (State (xseen x') w, None)
      | (w, Some e) => ∃ k, r = (State k w, Some e)
      end
  | _ => ∃ s' e, r = (s', Some e)
  end.
Definition sim (m : state → res) (f : xst → xres) : Prop := ∀ s x, seen s = xseen x → follows s (m s) x (f x).

Lemma sim_ret : sim (λ s, (s, None)) XOk.
Proof. intros [k w] x E. exists []. rewrite app_nil_r. split; [done|]. cbn in *. by subst. Qed.
Lemma sim_bind m f n g : sim m f → sim n g → sim (λ s, then_ (m s) n) (λ x, xbind (f x) g).
Proof.
  intros Hm Hn s x E. specialize (Hm s x E). unfold follows in Hm. destruct (f x) as [x1| |] eqn:Ef; cbn [xbind].
  2,3: destruct Hm as (s' & e & ->); cbn [then_]; eexists _, _; done.
  destruct Hm as (new & Eo & Hm). destruct (pieces (texts new) (out s)) as [w1 [e|]] eqn:E1.
  - destruct Hm as [k ->]. cbn [then_]. unfold follows.
    specialize (Hn (State (xseen x1) w1) x1 eq_refl). unfold follows in Hn. destruct (g x1) as [x2| |] eqn:Eg.
    + destruct Hn as (new2 & Eo2 & _). exists (new ++ new2). split; [by rewrite Eo2, Eo, app_assoc|].
      unfold texts. rewrite flat_map_app. fold (texts new) (texts new2). rewrite pieces_app, E1. by eexists.
    + by eexists _, _.
    + by eexists _, _.
  - rewrite Hm. cbn [then_]. specialize (Hn (State (xseen x1) w1) x1 eq_refl). unfold follows in *. destruct (g x1) as [x2| |] eqn:Eg.
    + destruct Hn as (new2 & Eo2 & Hn). exists (new ++ new2). split; [by rewrite Eo2, Eo, app_assoc|].
      unfold texts. rewrite flat_map_app. fold (texts new) (texts new2). rewrite pieces_app, E1. apply Hn.
    + apply Hn.
    + apply Hn.
Qed.
Lemma sim_emit l d : sim (emit P ws fn_style cut wr l d) (xemit l d).
Proof.
  intros [k w] x E. unfold emit, xemit, puts, follows. cbn [xout xseen out seen] in *. exists [(l, d)]. split; [done|].
  cbn [texts flat_map fst snd]. rewrite app_nil_r. destruct (pieces _ w) as [w' [e|]]; [by eexists|]. by subst.
Qed.
Lemma sim_once k m f : sim m f → sim (once k m) (xonce k f).
Proof.
  intros H s x E. unfold once, xonce. rewrite E. case_bool_decide; [apply (sim_ret s x E)|].
  specialize (H (State (k :: xseen x) (out s)) (Xst (k :: xseen x) (xout x)) eq_refl). unfold follows in *. cbn [xout out] in H. done.
Qed.
Lemma sim_panic : sim (λ s, (s, Some SPanic)) (λ _, XPanic).
Proof. intros s x E. by eexists _, _. Qed.
Lemma sim_int l : sim (define_int P ws fn_style cut wr l) (xdefine_int l).
Proof. destruct l; [|apply sim_ret|]; apply sim_once, sim_emit. Qed.

Lemma sim_define t : ∀ l, sim (define l t) (xdefine l t).
Proof.
  induction t as [i|dbl| | | | |m t IH|t n IH|r args IHr IHa|d n gs fs IHg IHf|d n i vs|d n t IH|d n] using xty_ind'; intros l;
    cbn [BuildModel.define xdefine].
  - apply sim_int.
  - apply sim_ret.
  - apply sim_ret.
  - destruct l; [|apply sim_ret|]; apply sim_once, sim_emit.
  - apply sim_ret.
  - apply sim_ret.
  - apply IH.
  - destruct l.
    + apply sim_once, sim_bind; [apply IH|apply sim_emit].
    + apply sim_bind; [apply IH|]. apply sim_once, sim_emit.
    + apply sim_once, sim_bind; [apply IH|apply sim_emit].
  - apply sim_bind; [apply IHr|]. apply sim_bind; [|destruct l; [apply sim_ret|apply sim_once, sim_emit|apply sim_ret]].
    induction IHa as [|t ts Ht _ IH]; [apply sim_ret|]. apply sim_bind; [apply Ht|apply IH].
  - apply sim_once, sim_bind; [|destruct (zst _); [apply sim_panic|apply sim_emit]].
    clear IHg. induction IHf as [|[dn t] ts Ht _ IH]; [apply sim_ret|]. apply sim_bind; [apply Ht|apply IH].
  - apply sim_once, sim_bind; [apply sim_int|apply sim_emit].
  - apply sim_once, sim_bind; [apply IH|]. destruct l; [apply sim_emit|apply sim_ret|apply sim_ret].
  - apply sim_once, sim_emit.
Qed.

Lemma sim_define_all l ts : sim (define_all P ws fn_style cut wr l ts) (xdefine_all l ts).
Proof. induction ts as [|t ts IH]; [apply sim_ret|]. apply sim_bind; [apply sim_define|apply IH]. Qed.
Lemma sim_gen_def l i : sim (gen_def P ws fn_style cut wr l i) (xgen_def l i).
Proof.
  destruct i as [d n args r|d n t u v|n t]; cbn [gen_def xgen_def].
  - intros s x E. unfold gen_def, xgen_def. rewrite E. case_bool_decide; [by eexists _, _|].
    refine (sim_bind _ _ _ _ (sim_define_all l (map snd args)) (sim_bind _ _ _ _ (sim_define r l) (sim_emit l (YFn d n args r)))
      (State (n :: xseen x) (out s)) (Xst (n :: xseen x) (xout x)) eq_refl).
  - apply (sim_bind _ _ (λ s, match l, u with LCSharp, true => (s, None) | _, _ => emit P ws fn_style cut wr l (YConst d n t u v) s end)
      (λ s, match l, u with LCSharp, true => XOk s | _, _ => xemit l (YConst d n t u v) s end)); [apply sim_define|].
    destruct l; [apply sim_emit|destruct u; [apply sim_ret|apply sim_emit]|apply sim_emit].
  - apply sim_define.
Qed.
Lemma sim_gen_all l is : sim (gen_all P ws fn_style cut wr l is) (xgen_all l is).
Proof. induction is as [|i is IH]; [apply sim_ret|]. apply sim_bind; [apply sim_gen_def|apply IH]. Qed.

Lemma gen_all_app l is js s : gen_all P ws fn_style cut wr l (is ++ js) s =
  then_ (gen_all P ws fn_style cut wr l is s) (gen_all P ws fn_style cut wr l js).
Proof.
  revert s. induction is as [|i is IH]; intros s; [by destruct s|]. cbn [app gen_all].
  destruct (gen_def P ws fn_style cut wr l i s) as [s' [e|]]; cbn [then_]; [done|]. apply IH.
Qed.

(** ** The whole *)

Lemma whole_inv b e is T : whole P ws fn_style b e is = Some T → ∃ lib x,
  lib_of b e = Some lib ∧ xgen_all (language b) (ordered b is) (Xst [] []) = XOk x ∧
  T = utf8_text (file_text (language b) (frame b) lib (body_text P ws fn_style (xout x))).
Proof.
  unfold whole, xwrite_body, ordered. destruct (lib_of b e) as [lib|]; [|done]. destruct (xgen_all _ _ _) as [x| |] eqn:E; [|done..].
  intros [= <-]. by exists lib, x.
Qed.

(** All pieces of the file, in order. *)
Definition file_pieces (b : builder) (lib : FrameModel.text) (ds : list (lang * xdecl)) : list (list N) :=
  cut (utf8_text (of_text (FrameModel.write_banner (frame b)))) ++
  cut (utf8_text (of_text (FrameModel.write_prelude (language b) (frame b) lib))) ++
  texts ds ++
  cut (utf8_text (of_text (FrameModel.write_epilogue (language b) (frame b) lib))).

Lemma generate_whole b e is lib x w : lib_of b e = Some lib → xgen_all (language b) (ordered b is) (Xst [] []) = XOk x →
  generate P ws fn_style cut wr b e is w = pieces (file_pieces b lib (xout x)) w.
Proof.
  intros El Ex. unfold generate, generate_with, file_pieces. rewrite El. rewrite pieces_app. unfold puts at 1. cbn [out seen].
  destruct (pieces (cut (utf8_text (of_text (FrameModel.write_banner (frame b))))) w) as [w1 [e1|]] eqn:E1; cbn [then_]; [done|].
  rewrite pieces_app. unfold puts at 1. cbn [out seen].
  destruct (pieces (cut (utf8_text (of_text (FrameModel.write_prelude (language b) (frame b) lib)))) w1) as [w2 [e2|]] eqn:E2; cbn [then_]; [done|].
  rewrite pieces_app. pose proof (sim_gen_all (language b) (ordered b is) (State [] w2) (Xst [] []) eq_refl) as H.
  unfold follows in H. rewrite Ex in H. destruct H as (new & Eo & H). cbn [xout app out] in Eo, H. rewrite Eo.
  unfold write_body. fold (ordered b is). destruct (pieces (texts new) w2) as [w3 [e3|]] eqn:E3.
  - destruct H as [k ->]. done.
  - rewrite H. cbn [then_]. unfold puts. cbn [out seen]. by destruct (pieces _ w3).
Qed.

Lemma generate_ok b e is w w' : generate P ws fn_style cut wr b e is w = (w', None) → ∃ lib x,
  lib_of b e = Some lib ∧ xgen_all (language b) (ordered b is) (Xst [] []) = XOk x.
Proof.
  intros H. destruct (lib_of b e) as [lib|] eqn:El.
  2:{ exfalso. unfold generate, generate_with in H. rewrite El in H. destruct (puts _ _ _ _) as [s1 [e1|]]; cbn [then_] in H; done. }
  destruct (xgen_all (language b) (ordered b is) (Xst [] [])) as [x| |] eqn:Ex; [by exists lib, x|exfalso..].
  all: unfold generate, generate_with in H; rewrite El in H;
    destruct (puts _ _ (of_text (FrameModel.write_banner (frame b))) _) as [[k1 w1] [e1|]] eqn:E1; cbn [then_] in H; [done|];
    destruct (puts _ _ (of_text (FrameModel.write_prelude _ _ _)) _) as [[k2 w2] [e2|]] eqn:E2; cbn [then_] in H; [done|];
    assert (Ek1 : k1 = []) by (unfold puts in E1; cbn [out seen] in E1; destruct (pieces _ _) in E1; congruence);
    assert (Ek2 : k2 = []) by (unfold puts in E2; cbn [out seen] in E2; destruct (pieces _ _) in E2; congruence); subst k1 k2;
    pose proof (sim_gen_all (language b) (ordered b is) (State [] w2) (Xst [] []) eq_refl) as HS;
    unfold follows in HS; rewrite Ex in HS; destruct HS as (s' & e' & HS);
    unfold write_body in H; fold (ordered b is) in H; rewrite HS in H; done.
Qed.
End Any.

Lemma utf8_app a b : utf8_text (a ++ b) = utf8_text a ++ utf8_text b.
Proof. apply flat_map_app. Qed.
Lemma texts_concat P ws fn_style cut ds : (∀ t, concat (cut t) = t) →
  concat (texts P ws fn_style cut ds) = utf8_text (body_text P ws fn_style ds).
Proof.
  intros Hc. induction ds as [|d ds IH]; [done|]. unfold texts, body_text. cbn [flat_map]. rewrite concat_app, utf8_app, Hc. f_equal. apply IH.
Qed.
Lemma file_concat P ws fn_style cut b lib ds : (∀ t, concat (cut t) = t) →
  concat (file_pieces P ws fn_style cut b lib ds) = utf8_text (file_text (language b) (frame b) lib (body_text P ws fn_style ds)).
Proof.
  intros Hc. unfold file_pieces, file_text. rewrite !concat_app, !utf8_app, !Hc, texts_concat by done. done.
Qed.

(** ** The writer *)

(** How a writer gets from [r] to [r'] when asked to take [t]. *)
Definition took (t : list N) (r r' : raw) (o : option stop) : Prop :=
  ∃ used, answers r = used ++ answers r' ∧
  match o with
  | None => sunk r' = sunk r ++ t ∧ Forall fine used
  | Some e => (∃ a b, t = a ++ b ∧ sunk r' = sunk r ++ a) ∧
      match e with
      | SHang => Forall fine used ∧ answers r' = []
      | SIo _ | SZero => first_failure used e
      | _ => False
      end
  end.

Lemma failure_later a used e : fine a → first_failure used e → first_failure (a :: used) e.
Proof. intros Ha (pre & post & x & -> & Hp & Hx). exists (a :: pre), post, x. split; [done|]. split; [by constructor|done]. Qed.
Lemma failure_app xs used e : Forall fine xs → first_failure used e → first_failure (xs ++ used) e.
Proof. induction 1 as [|a xs Ha _ IH]; [done|]. intros H. by apply failure_later, IH. Qed.

Lemma write_all_spec ans : ∀ buf got r o, write_all buf ans got = (r, o) → took buf (Raw ans got) r o.
Proof.
  unfold took. cbn [answers sunk].
  induction ans as [|a ans IH]; intros buf got r o.
  { destruct buf as [|c buf]; cbn [write_all]; intros [= <- <-]; exists []; cbn [answers sunk].
    - by rewrite !app_nil_r.
    - split; [done|]. split; [exists [], (c :: buf); by rewrite app_nil_r|done]. }
  destruct buf as [|c buf]; cbn [write_all]; [intros [= <- <-]; exists []; cbn [answers sunk]; by rewrite !app_nil_r|].
  destruct a as [n| |e].
  - destruct n as [|n]; cbn [take drop].
    + intros [= <- <-]. exists [Take 0]. cbn [answers sunk]. split; [done|]. split; [exists [], (c :: buf); by rewrite app_nil_r|].
      exists [], [], (Take 0). done.
    + intros H. apply IH in H as (used & -> & H). exists (Take (S n) :: used). split; [done|].
      destruct o as [e|].
      * destruct H as [(x & y & Ex & Es) H]. split.
        -- exists (c :: take n buf ++ x), y. split; [|by rewrite Es, <- app_assoc].
           cbn [app]. f_equal. rewrite <- app_assoc, <- Ex. by rewrite take_drop.
        -- destruct e; try done; [by apply failure_later|by apply failure_later|]. destruct H. split; [by constructor|done].
      * destruct H as [Es H]. split; [|by constructor]. rewrite Es, <- app_assoc. f_equal. cbn [app]. by rewrite take_drop.
  - intros H. apply IH in H as (used & -> & H). exists (Interrupted :: used). split; [done|]. destruct o as [e|].
    + destruct H as [H1 H]. split; [done|]. destruct e; try done; [by apply failure_later|by apply failure_later|]. destruct H. split; [by constructor|done].
    + destruct H as [Es H]. split; [done|by constructor].
  - intros [= <- <-]. exists [Fails e]. cbn [answers sunk]. split; [done|]. split; [exists [], (c :: buf); by rewrite app_nil_r|].
    exists [], [], (Fails e). done.
Qed.

Lemma took_app t u r r1 r2 o : took t r r1 None → took u r1 r2 o → took (t ++ u) r r2 o.
Proof.
  intros (u1 & E1 & S1 & F1) (u2 & E2 & H). exists (u1 ++ u2). rewrite <- app_assoc, <- E2. split; [done|]. destruct o as [e|].
  - destruct H as [(x & y & -> & Es) H]. split; [exists (t ++ x), y; by rewrite Es, S1, <- !app_assoc|].
    destruct e; try done; [by apply failure_app|by apply failure_app|]. destruct H. split; [by apply Forall_app|done].
  - destruct H as [Es H]. split; [by rewrite Es, S1, <- app_assoc|by apply Forall_app].
Qed.
Lemma took_stop t u r r' e : took t r r' (Some e) → took (t ++ u) r r' (Some e).
Proof. intros (us & E & (x & y & -> & Es) & H). exists us. split; [done|]. split; [|done]. exists x, (y ++ u). by rewrite <- app_assoc. Qed.

Lemma pieces_took ts : ∀ r r' o, pieces raw_write ts r = (r', o) → took (concat ts) r r' o.
Proof.
  induction ts as [|t ts IH]; intros r r' o; cbn [pieces concat].
  - intros [= <- <-]. exists []. by rewrite app_nil_r.
  - destruct r as [ans got]. unfold raw_write at 1. cbn [answers sunk]. destruct (write_all t ans got) as [r1 o1] eqn:E1.
    apply write_all_spec in E1. destruct o1 as [e|].
    + intros [= <- <-]. by apply took_stop.
    + intros H. apply IH in H. by eapply took_app.
Qed.

(** Enough answers that are no failure. *)
Lemma write_all_enough ans : ∀ buf got, Forall fine ans → (length buf ≤ writes ans)%nat →
  ∃ r, write_all buf ans got = (r, None) ∧ Forall fine (answers r) ∧ (writes ans ≤ writes (answers r) + length buf)%nat.
Proof.
  induction ans as [|a ans IH]; intros buf got Hf Hl.
  { destruct buf; [|cbn in Hl; lia]. exists (Raw [] got). by repeat split. }
  inversion Hf as [|? ? Ha Hf']; subst.
  destruct buf as [|c buf]; [exists (Raw (a :: ans) got); cbn; repeat split; [done|lia]|].
  unfold writes in *. destruct a as [n| |e]; [| |done].
  - rewrite filter_cons_True in Hl |- * by done. cbn [length] in *. destruct n as [|n]; [done|]. cbn [write_all take drop].
    destruct (IH (drop n buf) (got ++ c :: take n buf) Hf') as (r & E & F & L).
    { rewrite drop_length. lia. }
    exists r. rewrite E. repeat split; [done|]. rewrite drop_length in L. lia.
  - rewrite filter_cons_False in Hl |- * by (cbn; tauto). cbn [write_all]. apply IH; done.
Qed.
Lemma pieces_enough ts : ∀ r, Forall fine (answers r) → (length (concat ts) ≤ writes (answers r))%nat →
  ∃ r', pieces raw_write ts r = (r', None).
Proof.
  induction ts as [|t ts IH]; intros [ans got] Hf Hl; cbn [answers pieces concat] in *; [by eexists|]. rewrite app_length in Hl.
  unfold raw_write at 1. cbn [answers sunk]. destruct (write_all_enough ans t got Hf ltac:(lia)) as (r1 & E & F & L). rewrite E.
  apply IH; [done|]. lia.
Qed.

(** ** Buffering *)

Lemma flush_spec b b' o : flush_buf b = (b', o) → took (b_buf b) (b_inner b) (b_inner b') o ∧
  b_cap b' = b_cap b ∧ sunk (b_inner b') ++ b_buf b' = sunk (b_inner b) ++ b_buf b ∧ (o = None → b_buf b' = []).
Proof.
  unfold flush_buf. destruct b as [r buf cap]. cbn [b_inner b_buf b_cap]. destruct (raw_write buf r) as [r' o'] eqn:E. intros [= <- <-].
  unfold raw_write in E. destruct r as [ans got]. apply write_all_spec in E. cbn [b_inner b_buf b_cap answers sunk]. split; [done|]. split; [done|].
  destruct E as (us & _ & H). cbn [sunk] in H. destruct o' as [e|].
  - destruct H as [(x & y & -> & ->) _]. rewrite app_length, <- app_assoc. replace (length got + length x - length got) with (length x) by lia.
    split; [by rewrite drop_app|done].
  - destruct H as [-> _]. rewrite app_length. replace (length got + length buf - length got) with (length buf) by lia.
    rewrite drop_all. split; [by rewrite app_nil_r|done].
Qed.

(** What the buffer and the writer hold together. *)
Definition held (b : buffered) : list N := sunk (b_inner b) ++ b_buf b.
Definition fits (b : buffered) : Prop := (length (b_buf b) ≤ b_cap b)%nat.
Lemma buffered_spec t b b' o : fits b → buffered_write t b = (b', o) → fits b' ∧
  match o with
  | None => held b' = held b ++ t
  | Some _ => ∃ x y, t = x ++ y ∧ held b' = held b ++ x
  end.
Proof.
  unfold buffered_write, held, fits. destruct b as [r buf cap]. cbn [b_inner b_buf b_cap]. intros Hf.
  destruct (length t <? cap - length buf)%nat eqn:E0.
  { apply Nat.ltb_lt in E0. intros [= <- <-]; cbn [b_inner b_buf b_cap]. rewrite app_length, app_assoc. split; [lia|done]. }
  apply Nat.ltb_ge in E0.
  destruct (cap - length buf <? length t)%nat eqn:E1.
  - destruct (flush_buf _) as [b1 o1] eqn:E2. pose proof E2 as E2'. apply flush_spec in E2 as (_ & Ec & Eh & Ee). cbn [b_inner b_buf b_cap] in *.
    assert (Hl : (length (b_buf b1) ≤ length buf)%nat).
    { unfold flush_buf in E2'. cbn [b_buf b_inner b_cap] in E2'. destruct (raw_write buf r) in E2'. injection E2' as <- <-. cbn [b_buf]. rewrite drop_length. lia. }
    destruct o1 as [e|]; [intros [= <- <-]; split; [lia|]; exists [], t; by rewrite app_nil_r|]. specialize (Ee eq_refl). rewrite Ee, app_nil_r in Eh.
    destruct (b_cap b1 <=? length t)%nat eqn:El.
    + destruct (raw_write t (b_inner b1)) as [r2 o2] eqn:E3. intros [= <- <-]. cbn [b_inner b_buf b_cap]. rewrite Ee. split; [cbn; lia|].
      rewrite app_nil_r, <- Eh. unfold raw_write in E3. apply write_all_spec in E3 as (us & _ & H). cbn [sunk] in H. destruct o2; [|apply H].
      destruct H as [(x & y & -> & ->) _]. by exists x, y.
    + apply Nat.leb_gt in El. intros [= <- <-]. cbn [b_inner b_buf b_cap]. rewrite Ee. cbn [app]. split; [lia|]. by rewrite Eh, <- app_assoc.
  - apply Nat.ltb_ge in E1. cbv beta iota. cbn [b_inner b_buf b_cap]. destruct (cap <=? length t)%nat eqn:El.
    + apply Nat.leb_le in El. assert (Hb : buf = []) by (destruct buf; [done|cbn in *; lia]). subst buf.
      destruct (raw_write t r) as [r2 o2] eqn:E3. intros [= <- <-]. cbn [b_inner b_buf b_cap]. split; [cbn; lia|]. rewrite !app_nil_r.
      unfold raw_write in E3. apply write_all_spec in E3 as (us & _ & H). cbn [sunk] in H. destruct o2; [|apply H].
      destruct H as [(x & y & -> & ->) _]. by exists x, y.
    + intros [= <- <-]. cbn [b_inner b_buf b_cap]. rewrite app_length, app_assoc. split; [lia|done].
Qed.
Lemma buffered_pieces ts : ∀ b b' o, fits b → pieces buffered_write ts b = (b', o) → fits b' ∧
  match o with
  | None => held b' = held b ++ concat ts
  | Some _ => ∃ x y, concat ts = x ++ y ∧ held b' = held b ++ x
  end.
Proof.
  induction ts as [|t ts IH]; intros b b' o Hf; cbn [pieces concat]; [intros [= <- <-]; by rewrite app_nil_r|].
  destruct (buffered_write t b) as [b1 o1] eqn:E1. apply buffered_spec in E1 as [F1 H1]; [|done]. destruct o1 as [e|].
  - intros [= <- <-]. split; [done|]. destruct H1 as (x & y & -> & H1). exists x, (y ++ concat ts). by rewrite <- app_assoc.
  - intros H. apply IH in H as [F2 H2]; [|done]. split; [done|]. destruct o as [e|].
    + destruct H2 as (x & y & Ec & H2). exists (t ++ x), y. rewrite H2, H1, Ec, <- !app_assoc. done.
    + by rewrite H2, H1, <- app_assoc.
Qed.
Lemma buffered_cap ts : ∀ b b' o, pieces buffered_write ts b = (b', o) → b_cap b' = b_cap b.
Proof.
  assert (H : ∀ t b b' o, buffered_write t b = (b', o) → b_cap b' = b_cap b).
  { intros t b b' o. unfold buffered_write. destruct (_ <? _)%nat; [by intros [= <- <-]|].
    match goal with |- context [if ?c then flush_buf b else ?x] => destruct (if c then flush_buf b else x) as [b1 o1] eqn:E1 end.
    assert (E2 : b_cap b1 = b_cap b).
    { destruct (_ <? _)%nat; [|by injection E1 as <- _]. unfold flush_buf in E1. destruct (raw_write _ _) in E1. by injection E1 as <- _. }
    destruct o1; [by intros [= <- <-]|]. destruct (_ <=? _)%nat; [|by intros [= <- <-]]. destruct (raw_write _ _). by intros [= <- <-]. }
  induction ts as [|t ts IH]; intros b b' o; cbn [pieces]; [by intros [= <- <-]|].
  destruct (buffered_write t b) as [b1 [e|]] eqn:E1; apply H in E1; [by intros [= <- <-]|]. intros E. by rewrite (IH _ _ _ E).
Qed.
(** A writer that has enough answers, none of them a failure, also does behind a buffer. *)
Definition ready (n : nat) (r : raw) : Prop := Forall fine (answers r) ∧ (n ≤ writes (answers r))%nat.
Lemma raw_ready t n r : ready (length t + n) r → ∃ r', raw_write t r = (r', None) ∧ ready n r'.
Proof.
  intros [Hf Hl]. unfold raw_write. destruct (write_all_enough (answers r) t (sunk r) Hf ltac:(lia)) as (r' & E & F & L).
  exists r'. split; [done|]. split; [done|lia].
Qed.
Lemma flush_ready b n : ready (length (b_buf b) + n) (b_inner b) → ∃ b', flush_buf b = (b', None) ∧ b_buf b' = [] ∧ b_cap b' = b_cap b ∧ ready n (b_inner b').
Proof.
  intros H. apply raw_ready in H as (r' & E & H). destruct (flush_buf b) as [b' o] eqn:Ef.
  assert (Eb : b_inner b' = r' ∧ o = None) by (unfold flush_buf in Ef; rewrite E in Ef; injection Ef as <- <-; done). destruct Eb as [<- ->].
  exists b'. apply flush_spec in Ef as (_ & Ec & _ & Ee). split; [done|]. split; [by apply Ee|done].
Qed.
Lemma buffered_ready t b n : fits b → ready (length (b_buf b) + length t + n) (b_inner b) →
  ∃ b', buffered_write t b = (b', None) ∧ fits b' ∧ ready (length (b_buf b') + n) (b_inner b').
Proof.
  intros Hf Hr. destruct (buffered_write t b) as [b' o] eqn:E. exists b'. pose proof E as E'. apply buffered_spec in E' as [F _]; [|done].
  revert E. unfold buffered_write. destruct b as [r buf cap]. cbn [b_inner b_buf b_cap] in *.
  destruct (length t <? cap - length buf)%nat.
  { intros [= <- <-]. split; [done|]. split; [done|]. cbn [b_buf b_inner]. by rewrite app_length. }
  destruct (cap - length buf <? length t)%nat eqn:E1.
  - destruct (flush_ready (Buffered r buf cap) (length t + n)) as (b1 & E2 & Eb & Ec & Hr1).
    { cbn [b_buf b_inner]. by rewrite Nat.add_assoc. }
    rewrite E2, Eb, Ec. cbn [b_cap]. destruct (cap <=? length t)%nat.
    + apply raw_ready in Hr1 as (r' & -> & Hr'). intros [= <- <-]. done.
    + intros [= <- <-]. done.
  - cbv beta iota. cbn [b_inner b_buf b_cap]. destruct (cap <=? length t)%nat eqn:El.
    + replace (length buf + length t + n)%nat with (length t + (length buf + n))%nat in Hr by lia.
      apply raw_ready in Hr as (r' & -> & Hr'). intros [= <- <-]. done.
    + intros [= <- <-]. split; [done|]. split; [done|]. cbn [b_buf b_inner]. by rewrite app_length.
Qed.
Lemma buffered_pieces_ready ts : ∀ b n, fits b → ready (length (b_buf b) + length (concat ts) + n) (b_inner b) →
  ∃ b', pieces buffered_write ts b = (b', None) ∧ ready (length (b_buf b') + n) (b_inner b').
Proof.
  induction ts as [|t ts IH]; intros b n Hf Hr; cbn [pieces concat] in *; [exists b; split; [done|]; by rewrite Nat.add_0_r in Hr|].
  rewrite app_length in Hr. destruct (buffered_ready t b (length (concat ts) + n) Hf) as (b1 & -> & F1 & R1).
  { by replace (length (b_buf b) + length t + (length (concat ts) + n))%nat with (length (b_buf b) + (length t + length (concat ts)) + n)%nat by lia. }
  apply IH; [done|]. by rewrite <- Nat.add_assoc.
Qed.

(** ** Options *)

Lemma last_of_app {A} (f : call → option A) cs c : last_of f (cs ++ [c]) = match f c with Some a => Some a | None => last_of f cs end.
Proof. induction cs as [|d cs IH]; cbn; [by destruct (f c)|]. rewrite IH. by destruct (f c). Qed.
Lemma build_app cs c : build (cs ++ [c]) = with_ (build cs) c.
Proof. unfold build. by rewrite fold_left_app. Qed.
Lemma build_options cs : b_guard (build cs) = last_of guard_in cs ∧ b_text_after_guard (build cs) = last_of after_in cs ∧
  b_banner (build cs) = last_of banner_in cs ∧ b_language (build cs) = last_of language_in cs ∧ b_stable (build cs) = last_of stable_in cs.
Proof.
  induction cs as [|c cs IH] using rev_ind; [done|]. rewrite build_app, !last_of_app. destruct IH as (H1 & H2 & H3 & H4 & H5).
  destruct c; cbn; by rewrite ?H1, ?H2, ?H3, ?H4, ?H5.
Qed.
Lemma generate_same P ws fn_style cut {W} (wr : list N → W → W * option stop) b b' e is w :
  frame b = frame b' → language b = language b' → stable b = stable b' →
  generate P ws fn_style cut wr b e is w = generate P ws fn_style cut wr b' e is w.
Proof.
  intros Hf Hl Hs. assert (Hg : b_guard b = b_guard b') by (unfold frame in Hf; congruence).
  assert (Ha : lib_of b e = lib_of b' e) by (unfold lib_of, asks; by rewrite Hl, Hg).
  unfold generate, generate_with, write_body. by rewrite Ha, Hf, Hl, Hs.
Qed.
