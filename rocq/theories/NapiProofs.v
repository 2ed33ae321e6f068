(** Lemmas about the conversions of pointers and compound types. *)

From Coq Require Import ZArith NArith Bool List String Lia ZifyBool ZifyNat ZifyN.
From stdpp Require Import base numbers list.
From Verif Require Import CStrModel JsNumModel JsNumSpec JsNumProofs JsNumProps NapiModel NapiSpec.
Local Open Scope Z_scope.

(** ** Replacing *)

Lemma replace_skip (pat rep a s : text) : replace pat rep (List.length a) (a ++ s) = replace pat rep 0 s.
Proof. induction a as [|c a IH]; [done|exact IH]. Qed.

Section replace.
  Context (q rep : text) (Hq : q ≠ []) (Hs : 42%N ∉ q).
  Local Notation pat := (q ++ [42%N])%list.

  Lemma starts_pat (q' z r : text) : 42%N ∉ q' → 42%N ∉ z → starts (q' ++ [42%N]) (z ++ 42%N :: r) = true ↔ z = q'.
  Proof.
    revert z. induction q' as [|a q' IH]; intros [|b z] Hq' Hz; cbn [starts app].
    - split; done.
    - apply not_elem_of_cons in Hz as [Hb Hz]. split; [|done]. rewrite andb_true_r. lia.
    - apply not_elem_of_cons in Hq' as [Ha Hq']. split; [|done]. intros [? _]%andb_prop. lia.
    - apply not_elem_of_cons in Hz as [Hb Hz], Hq' as [Ha Hq']. rewrite andb_true_iff, N.eqb_eq, (IH z Hq' Hz).
      split; [by intros [-> ->]|by intros [= -> ->]].
  Qed.
  Lemma starts_no (q' z : text) : 42%N ∉ z → starts (q' ++ [42%N]) z = false.
  Proof.
    revert z. induction q' as [|a q' IH]; intros [|b z] Hz; cbn [starts app]; try done.
    - apply not_elem_of_cons in Hz as [Hb Hz]. rewrite andb_true_r. lia.
    - apply not_elem_of_cons in Hz as [Hb Hz]. by rewrite (IH z Hz), andb_false_r.
  Qed.
  Lemma replace_none (z : text) : 42%N ∉ z → replace pat rep 0 z = z.
  Proof.
    induction z as [|c z IH]; intros Hz; [done|]. cbn [replace]. rewrite starts_no by done.
    apply not_elem_of_cons in Hz as [_ Hz]. by rewrite IH.
  Qed.
  Lemma replace_no (z r : text) : 42%N ∉ z → ¬ q `suffix_of` z →
    replace pat rep 0 (z ++ 42%N :: r) = (z ++ 42%N :: replace pat rep 0 r)%list.
  Proof.
    induction z as [|c z IH]; intros Hz Hn.
    - cbn [app replace]. destruct (starts _ _) eqn:E; [|done].
      apply (starts_pat q [] r Hs Hz) in E. by destruct q.
    - cbn [app replace]. destruct (starts _ _) eqn:E.
      + apply (starts_pat q (c :: z) r Hs Hz) in E. destruct Hn. exists []. done.
      + apply not_elem_of_cons in Hz as [_ Hz]. f_equal. apply IH; [done|]. intros [y ->]. apply Hn. by exists (c :: y).
  Qed.
  Lemma replace_yes (y r : text) : 42%N ∉ y →
    replace pat rep 0 ((y ++ q) ++ 42%N :: r) = (y ++ rep ++ replace pat rep 0 r)%list.
  Proof.
    intros Hy. assert (Hyq : 42%N ∉ (y ++ q)) by (rewrite elem_of_app; tauto). clear Hy.
    induction y as [|c y IH].
    - cbn [app] in *. assert (E : starts pat (q ++ 42%N :: r) = true) by by apply starts_pat.
      destruct q as [|a q']; [done|]. cbn [app replace] in *. rewrite E. f_equal.
      replace (List.length (a :: (q' ++ [42%N])) - 1)%nat with (List.length (q' ++ [42%N])) by (cbn [List.length]; lia).
      replace (q' ++ 42%N :: r)%list with ((q' ++ [42%N]) ++ r)%list by by rewrite <-app_assoc.
      apply (replace_skip _ _ (q' ++ [42%N])).
    - cbn [app replace]. destruct (starts _ _) eqn:E.
      + apply (starts_pat q (c :: y ++ q) r Hs Hyq) in E. apply (f_equal (@List.length N)) in E.
        cbn [List.length] in E. rewrite app_length in E. lia.
      + apply not_elem_of_cons in Hyq as [_ Hyq]. f_equal. by apply IH.
  Qed.
End replace.

(** ** Names *)

Local Notation CONST := (chars "const") (only parsing).
Local Notation CONST_ := (chars "const ") (only parsing).
Local Notation SP := [32%N] (only parsing).

Lemma first_star (s : text) : 42%N ∉ s ∨ ∃ z r, s = (z ++ 42%N :: r)%list ∧ 42%N ∉ z.
Proof.
  induction s as [|c s IH]; [left; by apply not_elem_of_nil|]. destruct (decide (c = 42%N)) as [->|Hc].
  - right. exists [], s. split; [done|apply not_elem_of_nil].
  - destruct IH as [H|(z & r & -> & Hz)].
    + left. apply not_elem_of_cons. split; [by intros <-|done].
    + right. exists (c :: z), r. split; [done|]. apply not_elem_of_cons. split; [by intros <-|done].
Qed.
Lemma star_eq (z z' r r' : text) : 42%N ∉ z → 42%N ∉ z' → (z ++ 42%N :: r)%list = (z' ++ 42%N :: r')%list → z = z' ∧ r = r'.
Proof.
  revert z'. induction z as [|c z IH]; intros [|c' z'] Hz Hz' H; cbn [app] in H.
  - by injection H as ->.
  - injection H as <- _. destruct Hz'. constructor.
  - injection H as -> _. destruct Hz. constructor.
  - apply not_elem_of_cons in Hz as [_ Hz], Hz' as [_ Hz']. injection H as <- H. destruct (IH z' Hz Hz' H) as [-> ->]. done.
Qed.

Definition strip (z z1 : text) : Prop := z = (z1 ++ CONST_)%list ∨ (z = z1 ∧ ¬ CONST_ `suffix_of` z).
Definition add (z1 w : text) : Prop :=
  (∃ y, z1 = (y ++ SP)%list ∧ w = (y ++ chars " const ")%list) ∨ (w = z1 ∧ ¬ SP `suffix_of` z1).

Lemma no_star_chars (s : string) : forallb (λ c, negb (c =? 42)%N) (chars s) = true → 42%N ∉ chars s.
Proof. intros H Hin. rewrite forallb_forall in H. apply elem_of_list_In, H in Hin. done. Qed.

Lemma weaken_none s : 42%N ∉ s → weaken s = s.
Proof.
  intros H. unfold weaken. change (chars "const *") with (chars "const " ++ [42%N])%list.
  change (chars " *") with ([32%N] ++ [42%N])%list. rewrite (replace_none (chars "const ") _ s H). by apply replace_none.
Qed.
Lemma weaken_step z r : 42%N ∉ z → ∃ z1 w, strip z z1 ∧ add z1 w ∧ 42%N ∉ w ∧
  weaken (z ++ 42%N :: r) = (w ++ 42%N :: weaken r)%list.
Proof.
  intros Hz. unfold weaken. change (chars "const *") with (chars "const " ++ [42%N])%list.
  change (chars " *") with ([32%N] ++ [42%N])%list. set (r1 := replace _ (chars "*") 0 r).
  assert (∃ z1, strip z z1 ∧ 42%N ∉ z1 ∧
    replace (chars "const " ++ [42%N]) (chars "*") 0 (z ++ 42%N :: r) = (z1 ++ 42%N :: r1)%list) as (z1 & Hs & Hz1 & ->).
  { destruct (decide (CONST_ `suffix_of` z)) as [[z1 ->]|Hn].
    - exists z1. rewrite elem_of_app in Hz. split_and!; [by left|tauto|].
      rewrite replace_yes; [done|done|by apply no_star_chars|tauto].
    - exists z. split_and!; [by right|done|]. rewrite replace_no; [done|done|by apply no_star_chars|done|done]. }
  exists z1. destruct (decide (SP `suffix_of` z1)) as [[y ->]|Hn].
  - exists (y ++ chars " const ")%list. rewrite elem_of_app in Hz1. split_and!; [done|left; by exists y| |].
    + rewrite elem_of_app. intros [?|H]; [tauto|by apply no_star_chars in H].
    + rewrite replace_yes; [by rewrite <-!app_assoc|done|by apply not_elem_of_cons; split; [|apply not_elem_of_nil]|tauto].
  - exists z1. split_and!; [done|by right|done|].
    rewrite replace_no; [done|done|by apply not_elem_of_cons; split; [|apply not_elem_of_nil]|done|done].
Qed.
Lemma strip_fun z a b : strip z a → strip z b → a = b.
Proof.
  intros [->|[-> Ha]] [H|[H Hb]].
  - by apply app_inv_tail in H.
  - destruct Hb. by exists a.
  - destruct Ha. by exists b.
  - done.
Qed.
Lemma add_fun z a b : add z a → add z b → a = b.
Proof.
  intros [(y & -> & ->)|[-> Ha]] [(y' & H & ->)|[-> Hb]].
  - by apply app_inv_tail in H as ->.
  - destruct Hb. by exists y.
  - destruct Ha. by exists y'.
  - done.
Qed.

Definition piece (c : bool) : text := if c then chars " const " else [32%N].
Fixpoint flat (ls : list bool) : text :=
  match ls with [] => [] | c :: ls => (piece c ++ 42%N :: flat ls)%list end.
Lemma piece_star c : 42%N ∉ piece c.
Proof. destruct c; [by apply no_star_chars|]. by apply not_elem_of_cons; split; [|apply not_elem_of_nil]. Qed.
(** What a name with its piece becomes. *)
Lemma plain_nil : plain [].
Proof. split; [apply not_elem_of_nil|]. intros [[|??] H]; discriminate H. Qed.
Lemma step_plain n z z1 w b : plain n → strip z z1 → add z1 w → w = (n ++ piece b)%list ↔ b = true ∧ ∃ c, z = (n ++ piece c)%list.
Proof.
  intros [_ Hn] Hs Ha. split.
  - intros Hw. destruct Ha as [(y & -> & Hy)|[Hy Hy']].
    + destruct b; cbn [piece] in Hw.
      * rewrite Hw in Hy. apply app_inv_tail in Hy as <-. split; [done|].
        destruct Hs as [->|[-> _]]; [exists true|by exists false]. by rewrite <-app_assoc.
      * exfalso. rewrite Hw in Hy. change (chars " const ") with (chars " const" ++ [32%N])%list in Hy.
        rewrite app_assoc in Hy. apply app_inv_tail in Hy. apply Hn. exists (y ++ [32%N])%list. by rewrite Hy, <-app_assoc.
    + exfalso. apply Hy'. rewrite <-Hy, Hw. destruct b; cbn [piece]; [|by exists n].
      exists (n ++ chars " const")%list. by rewrite <-app_assoc.
  - intros [-> [c ->]]. assert (z1 = (n ++ [32%N])%list) as ->.
    { eapply strip_fun; [exact Hs|]. destruct c; cbn [piece]; [left; by rewrite <-app_assoc|]. right. split; [done|].
      intros [y Hy]. change (chars "const ") with (chars "const" ++ [32%N])%list in Hy. rewrite app_assoc in Hy.
      apply app_inv_tail in Hy. apply Hn. by exists y. }
    eapply add_fun; [exact Ha|]. left. by exists n.
Qed.
(** Exactly which texts are taken for a given constant pointer. *)
Lemma weaken_exact ls n s : plain n →
  weaken s = (n ++ flat ls)%list ↔ Forall (λ c, c = true) ls ∧ ∃ ls', List.length ls' = List.length ls ∧ s = (n ++ flat ls')%list.
Proof.
  revert n s. induction ls as [|b ls IH]; intros n s Hn; cbn [flat].
  - rewrite app_nil_r. split.
    + intros H. split; [constructor|]. exists []. split; [done|]. cbn [flat]. rewrite app_nil_r.
      destruct (first_star s) as [Hs|(z & r & -> & Hz)]; [by rewrite weaken_none in H|].
      destruct (weaken_step z r Hz) as (z1 & w & _ & _ & _ & E). rewrite E in H. destruct Hn as [Hn _]. destruct Hn.
      rewrite <-H. apply elem_of_app. right. constructor.
    + intros (_ & [|? ?] & H & ->); [|done]. cbn [flat]. rewrite app_nil_r. apply weaken_none, Hn.
  - rewrite app_assoc. assert (Hnb : ∀ b, 42%N ∉ (n ++ piece b)%list).
    { intros b'. rewrite elem_of_app. intros [H|H]; [by apply Hn in H|by apply piece_star in H]. }
    split.
    + intros H. destruct (first_star s) as [Hs|(z & r & -> & Hz)].
      { rewrite weaken_none in H by done. destruct Hs. rewrite H. apply elem_of_app. right. constructor. }
      destruct (weaken_step z r Hz) as (z1 & w & Hs & Ha & Hw & E). rewrite E in H.
      apply star_eq in H as [Ew Er]; [|done|apply Hnb].
      apply (step_plain n z z1 w b Hn Hs Ha) in Ew as [-> [c ->]].
      apply (IH [] r plain_nil) in Er as (Hls & ls' & El & ->). split; [by constructor|].
      exists (c :: ls'). split; [cbn; by rewrite El|]. cbn [flat app]. by rewrite <-app_assoc.
    + intros (Hls & ls' & El & ->). destruct ls' as [|c ls']; [done|]. cbn [flat]. rewrite app_assoc.
      destruct (weaken_step (n ++ piece c) (flat ls') (Hnb c)) as (z1 & w & Hs & Ha & Hw & ->).
      apply Forall_cons in Hls as [-> Hls]. f_equal.
      * apply (step_plain n _ z1 w true Hn Hs Ha). split; [done|by exists c].
      * f_equal. apply (IH [] (flat ls') plain_nil). split; [done|]. exists ls'. by injection El.
Qed.
Lemma flat_inj n m ls ls' : plain n → plain m → (n ++ flat ls)%list = (m ++ flat ls')%list → n = m ∧ ls = ls'.
Proof.
  revert n m ls'. induction ls as [|b ls IH]; intros n m [|b' ls'] Hn Hm; cbn [flat].
  - rewrite !app_nil_r. done.
  - rewrite app_nil_r. intros ->. destruct Hn as [Hn _]. destruct Hn. apply elem_of_app; right. apply elem_of_app; right. constructor.
  - rewrite app_nil_r. intros <-. destruct Hm as [Hm _]. destruct Hm. apply elem_of_app; right. apply elem_of_app; right. constructor.
  - rewrite !app_assoc. intros H. apply star_eq in H as [Hp Hr].
    + destruct (IH [] [] ls' plain_nil plain_nil Hr) as [_ <-].
      destruct b, b'; cbn [piece] in Hp.
      * by apply app_inv_tail in Hp as ->.
      * exfalso. change (chars " const ") with (chars " const" ++ [32%N])%list in Hp. rewrite app_assoc in Hp.
        apply app_inv_tail in Hp. apply Hm. exists (n ++ [32%N])%list. by rewrite <-Hp, <-app_assoc.
      * exfalso. change (chars " const ") with (chars " const" ++ [32%N])%list in Hp. rewrite app_assoc in Hp.
        apply app_inv_tail in Hp. apply Hn. exists (m ++ [32%N])%list. by rewrite Hp, <-app_assoc.
      * by apply app_inv_tail in Hp as ->.
    + rewrite elem_of_app. intros [H'|H']; [by apply Hn in H'|by apply piece_star in H'].
    + rewrite elem_of_app. intros [H'|H']; [by apply Hm in H'|by apply piece_star in H'].
Qed.

(** Pointers as a base and levels, the innermost first. *)
Fixpoint root (t : pty) : text := match t with PBase n => n | PPtr _ t => root t end.
Fixpoint levels (t : pty) : list bool := match t with PBase _ => [] | PPtr c t => (levels t ++ [c])%list end.
Definition mk (n : text) (ls : list bool) : pty := fold_left (λ t c, PPtr c t) ls (PBase n).
Lemma mk_app n ls c : mk n (ls ++ [c]) = PPtr c (mk n ls).
Proof. unfold mk. by rewrite fold_left_app. Qed.
Lemma mk_spec t : mk (root t) (levels t) = t.
Proof. induction t as [n|c t IH]; [done|]. cbn [root levels]. by rewrite mk_app, IH. Qed.
Lemma root_mk n ls : root (mk n ls) = n.
Proof. induction ls as [|c ls IH] using rev_ind; [done|]. by rewrite mk_app. Qed.
Lemma levels_mk n ls : levels (mk n ls) = ls.
Proof. induction ls as [|c ls IH] using rev_ind; [done|]. rewrite mk_app. cbn [levels]. by rewrite IH. Qed.
Lemma flat_app a b : flat (a ++ b) = (flat a ++ flat b)%list.
Proof. induction a as [|c a IH]; [done|]. cbn [app flat]. rewrite IH, <-app_assoc. done. Qed.
Lemma pname_flat t : pname t = (root t ++ flat (levels t))%list.
Proof.
  induction t as [n|c t IH]; cbn [pname root levels]; [by rewrite app_nil_r|].
  rewrite IH, flat_app, app_assoc. f_equal. by destruct c.
Qed.
Lemma named_root t : named t ↔ plain (root t).
Proof. induction t; cbn [named root]; done. Qed.
Lemma const_levels t : all_const t ↔ Forall (λ c, c = true) (levels t).
Proof.
  induction t as [n|c t IH]; cbn [all_const levels]; [split; [constructor|done]|].
  rewrite Forall_app, Forall_singleton. tauto.
Qed.
Lemma pname_inj t u : named t → named u → pname t = pname u → t = u.
Proof.
  intros Ht%named_root Hu%named_root H. rewrite !pname_flat in H. apply flat_inj in H as [Hr Hl]; [|done..].
  by rewrite <-(mk_spec t), <-(mk_spec u), Hr, Hl.
Qed.
Lemma const_weaker t u : all_const t → root t = root u → List.length (levels t) = List.length (levels u) → weaker t u.
Proof.
  revert u. induction t as [n|c t IH]; intros [m|d u]; cbn [all_const root levels weaker]; try rewrite !app_length; cbn [List.length].
  - done.
  - lia.
  - lia.
  - intros [-> Ht] Hr Hl. split; [done|]. apply IH; [done..|]. lia.
Qed.
Lemma weaker_shape t u : weaker t u → root t = root u ∧ List.length (levels t) = List.length (levels u).
Proof.
  revert u. induction t as [n|c t IH]; intros [m|d u]; cbn [root levels weaker]; try done.
  intros [_ H]. destruct (IH u H) as [-> E]. rewrite !app_length, E. done.
Qed.
Lemma weaken_pname t s : named t → weaken s = pname t ↔ all_const t ∧ ∃ u, weaker t u ∧ s = pname u.
Proof.
  intros Ht%named_root. rewrite pname_flat, weaken_exact, const_levels by done. split.
  - intros (Hc & ls' & El & ->). split; [done|]. exists (mk (root t) ls'). split.
    + apply const_weaker; [by apply const_levels|by rewrite root_mk|by rewrite levels_mk].
    + by rewrite pname_flat, root_mk, levels_mk.
  - intros (Hc & u & Hu & ->). split; [done|]. apply weaker_shape in Hu as [Er El]. exists (levels u). split; [done|].
    by rewrite pname_flat, Er.
Qed.
Lemma weaker_refl t : weaker t t.
Proof. induction t; cbn [weaker]; auto. Qed.

(** ** Values of another kind *)

Lemma extract_node b ptr k j : extract (Node b ptr) k j = if has_kind k j then Some j else None.
Proof. done. Qed.
Lemma extract_kind p k j i : extract p k j = Some i → has_kind k i = true.
Proof.
  assert (Hd : (if has_kind k j then Some j else None) = Some i → has_kind k i = true).
  { destruct (has_kind k j) eqn:E; [|done]. by intros [= <-]. }
  destruct p as [b ptr|str]; [exact Hd|]. cbn [extract]. destruct k; try exact Hd.
  - destruct (to_number str j); [|done]. by intros [= <-].
  - destruct (to_boolean str j); [|done]. by intros [= <-].
  - by intros [= <-].
  - destruct j; cbn [option_map]; try (by intros [= <-]); destruct (to_bytes str _); cbn [option_map]; try done; by intros [= <-].
Qed.
Lemma extract_id p k j : has_kind k j = true → extract p k j = Some j.
Proof.
  intros H. destruct p as [b ptr|str]; cbn [extract]; [by rewrite H|].
  destruct k; try (by rewrite H); destruct j; done.
Qed.
Lemma extract_same p k j i : k = KString ∨ k = KUnknown → extract p k j = Some i → i = j.
Proof.
  intros Hk H. assert ((if has_kind k j then Some j else None) = Some i) as H'.
  { destruct p; [done|]. by destruct Hk as [->| ->]. }
  destruct (has_kind k j); [|done]. by injection H'.
Qed.
Lemma of_Z_double z : double (of_Z z).
Proof. apply round_canon; [exact ok64|]. lia. Qed.
Lemma extract_ok p k j i : k ≠ KBuffer → js_ok p j → extract p k j = Some i → js_ok p i.
Proof.
  intros Hk Hj H. assert (Hd : (if has_kind k j then Some j else None) = Some i → js_ok p i).
  { destruct (has_kind k j); [|done]. by intros [= <-]. }
  destruct p as [b ptr|str]; [by apply Hd|]. cbn [extract] in H. destruct k; try by apply Hd.
  - destruct (to_number str j) as [x|] eqn:E; [|done]. injection H as <-. cbn [js_ok].
    destruct j as [y| |bl| | |s|a [|c [|d s]]|fs|]; cbn [to_number] in E; try done; injection E as <-; try exact (of_Z_double _); done.
  - destruct (to_boolean str j); [|done]. by injection H as <-.
  - by injection H as <-.
Qed.

Lemma to_number_spec str j x : to_number str j = Some x ↔ read_number str j x.
Proof.
  split.
  - destruct j as [y|z|[|]| | |s|a [|c [|d s]]|fs|]; cbn [to_number]; intros H; try done; injection H as <-; try constructor.
    cbn [List.length]. lia.
  - intros H. destruct H as [| | | | | | | |a [|c [|d s]] Hs| |]; cbn [List.length] in *; try done; lia.
Qed.
Lemma zero_i32_spec neg m e : (wrap true 32 (trunc neg m e) =? 0) = true ↔ zero_i32 (Fin neg m e).
Proof.
  cbn [zero_i32]. rewrite Z.eqb_eq, <-Z.mod_divide by done. unfold wrap. change (2 ^ (32 - 1)) with 2147483648. change (2 ^ 32) with 4294967296.
  pose proof (Z.mod_pos_bound (trunc neg m e) 4294967296 eq_refl). cbn [andb]. destruct (Z.leb_spec 2147483648 (trunc neg m e mod 4294967296)); lia.
Qed.
Lemma extract_bool p j b : extract p KBoolean j = Some (JBool b) ↔ read_bool p j b.
Proof.
  destruct p as [beyond ptr|str]; cbn [extract read_bool].
  - split; [destruct j; try done; by intros [= ->]|]. by intros ->.
  - transitivity (to_boolean str j = Some b).
    { destruct (to_boolean str j); cbn [option_map]; split; try done; by intros [= ->]. }
    assert (Hg : j ≠ JNull → j ≠ JUndefined → (∀ b, j ≠ JBool b) → to_boolean str j = Some b ↔ ∃ x, read_number str j x ∧ (b = false ↔ zero_i32 x)).
    { intros H1 H2 H3. assert (to_boolean str j = match to_number str j with
        | Some (Fin neg m e) => Some (negb (wrap true 32 (trunc neg m e) =? 0)) | Some _ => Some false | None => None end) as -> by (destruct j; try done; by destruct (H3 b0)).
      split.
      - destruct (to_number str j) as [x|] eqn:E; [|done]. intros H. exists x. split; [by apply to_number_spec|].
        destruct x as [|ng|neg m e]; [by injection H as <-..|]. injection H as <-. rewrite <-zero_i32_spec.
        destruct (_ =? 0); done.
      - intros (x & Hx & Hb). apply to_number_spec in Hx. rewrite Hx. destruct x as [|ng|neg m e].
        + by rewrite (proj2 Hb).
        + by rewrite (proj2 Hb).
        + rewrite <-zero_i32_spec in Hb. destruct (_ =? 0), b; try done; exfalso; destruct Hb as [H4 H5]; [by specialize (H5 eq_refl)|by specialize (H4 eq_refl)]. }
    destruct j as [y|z|c| | |s|a s|fs|].
    all: try (split; [intros H; split_and!; [done..|]; by apply Hg|intros (_ & _ & H); by apply Hg]).
    + cbn [to_boolean]. split.
      * intros [= ->]. split_and!; [done..|]. exists (of_Z (if b then 1 else 0)). split; [destruct b; constructor|].
        destruct b; [|split; [intros _; vm_compute; by exists 0|done]]. split; [done|]. intros H. exfalso. destruct H as [k H]. change (1 = k * 4294967296) in H. lia.
      * intros (_ & _ & x & Hx & Hb). inversion Hx; subst.
        -- rewrite (proj2 Hb); [done|]. vm_compute. by exists 0.
        -- destruct b; [done|]. destruct (proj1 Hb eq_refl) as [k H]. exfalso.
           change (1 = k * 4294967296) in H. lia.
    + split; [done|]. intros (? & _). done.
    + split; [done|]. intros (_ & ? & _). done.
Qed.

(** ** Pointers *)

Lemma js_nval p signed z v : to_size p signed z = Ok v → nval_of (js_of v) = v.
Proof. by destruct v. Qed.
Lemma size_rt p a : plat_ok p → addr_ok p a → ∃ v, to_size p false a = Ok v ∧ from_size p false (nval_of (js_of v)) = Ok a.
Proof.
  intros Hp Ha. unfold plat_ok in Hp. destruct (C43_size p false a) as (v & E & E'); [lia|done|]. exists v. split; [done|]. by destruct v.
Qed.
Lemma to_ptr_null p c t : to_ptr p c t 0 = Ok JNull.
Proof. done. Qed.
Definition from_addr (p : plat) (j : js) : res Z :=
  match extract p (size_kind p) j with Some addr => from_size p false (nval_of addr) | None => Err end.
Lemma to_ptr_obj p c t a : plat_ok p → addr_ok p a → a ≠ 0 →
  ∃ j, to_ptr p c t a = Ok (JObj [(chars "addr", j); (chars "type", JStr (pname (PPtr c t)))]) ∧ from_addr p j = Ok a.
Proof.
  intros Hp Ha Hn. destruct (size_rt p a Hp Ha) as (v & E & E'). exists (js_of v). split.
  - unfold to_ptr. rewrite (proj2 (Z.eqb_neq a 0) Hn), E. done.
  - unfold from_addr. destruct p as [b ptr|str]; [done|]. by destruct v.
Qed.
Lemma from_addr_spec chk p j a : from_addr p j = Ok a ↔ from_napi chk p (TSize false) j = Ok (VInt a).
Proof.
  unfold from_addr. cbn [from_napi kind_of]. destruct (extract p (size_kind p) j) as [i|]; [|done].
  destruct (from_size p false (nval_of i)); cbn [mapr]; split; try done; by intros [= ->].
Qed.
Lemma from_obj chk p c t j s :
  from_ptr chk p c t (JObj [(chars "addr", j); (chars "type", JStr s)]) =
  if decide ((if c then weaken s else s) = pname (PPtr c t)) then from_addr p j else Err.
Proof.
  unfold from_ptr. change (get _ (chars "type")) with (JStr s). change (get _ (chars "addr")) with j.
  cbn iota. destruct (decide _) as [H|H]; [by rewrite bool_decide_eq_true_2|by rewrite bool_decide_eq_false_2].
Qed.

(** ** Compound types *)

Section ind.
  Context (P : cty → Prop).
  Context (Hsmall : ∀ s b, P (TSmall s b)) (H64 : ∀ s, P (T64 s)) (Hsize : ∀ s, P (TSize s)) (Hfloat : ∀ s, P (TFloat s))
    (Hbool : P TBool) (Hvoid : P TVoid) (Hbytes : ∀ n, P (TBytes n)) (Hptr : ∀ c t, P (TPtr c t)) (Henum : ∀ vs, P (TEnum vs))
    (Hstruct : ∀ u8 fs, Forall (λ f, P f.2) fs → P (TStruct u8 fs)).
  Fixpoint cty_ind' (t : cty) : P t :=
    match t with
    | TSmall s b => Hsmall s b | T64 s => H64 s | TSize s => Hsize s | TFloat s => Hfloat s | TBool => Hbool | TVoid => Hvoid
    | TBytes n => Hbytes n | TPtr c t => Hptr c t | TEnum vs => Henum vs
    | TStruct u8 fs =>
        Hstruct u8 fs
          ((fix go (fs : list (text * cty)) : Forall (λ f, P f.2) fs :=
              match fs with [] => Forall_nil_2 _ | f :: fs => Forall_cons_2 _ f fs (cty_ind' f.2) (go fs) end) fs)
    end.
End ind.

Fixpoint to_fields (p : plat) (fresh : Z) (fs : list (text * cty)) (vs : list val) : res (list (text * js)) :=
  match fs, vs with
  | (n, t) :: fs, v :: vs =>
      match to_napi p fresh t v with
      | Ok j => match to_fields p fresh fs vs with Ok js => Ok ((n, j) :: js) | r => r end
      | Err => Err
      | Panic => Panic
      end
  | _, _ => Ok []
  end.
Fixpoint from_fields (chk : bool) (p : plat) (js : list (text * js)) (fs : list (text * cty)) : res (list val) :=
  match fs with
  | (n, t) :: fs =>
      match from_napi chk p t (get js n) with
      | Ok v => match from_fields chk p js fs with Ok vs => Ok (v :: vs) | r => r end
      | Err => Err
      | Panic => Panic
      end
  | [] => Ok []
  end.
Fixpoint fields_type (p : plat) (fs : list (text * cty)) (vs : list val) : Prop :=
  match fs, vs with
  | [], [] => True
  | (_, t) :: fs, v :: vs => has_type p t v ∧ fields_type p fs vs
  | _, _ => False
  end.
Lemma to_struct p fresh u8 fs vs : to_napi p fresh (TStruct u8 fs) (VStruct vs) = mapr JObj (to_fields p fresh fs vs).
Proof. cbn [to_napi]. f_equal. revert vs. induction fs as [|[n t] fs IH]; intros [|v vs]; cbn [to_fields]; try done. by rewrite IH. Qed.
Lemma from_struct chk p u8 fs js : from_napi chk p (TStruct u8 fs) (JObj js) = mapr VStruct (from_fields chk p js fs).
Proof.
  cbn [from_napi kind_of]. rewrite extract_id by done. assert (E : ∀ fs, (fix go fs := match fs with
    | (n, t) :: fs => match from_napi chk p t (get js n) with Ok v => match go fs with Ok vs => Ok (v :: vs) | r => r end | Err => Err | Panic => Panic end
    | [] => Ok [] end) fs = from_fields chk p js fs).
  { clear fs. induction fs as [|[n t] fs IH]; cbn [from_fields]; [done|]. by rewrite IH. }
  destruct u8; cbn [object_fields]; by rewrite E.
Qed.
Lemma from_struct_buf chk p fs a s : from_napi chk p (TStruct false fs) (JBuf a s) = mapr VStruct (from_fields chk p [] fs).
Proof.
  cbn [from_napi kind_of]. rewrite extract_id by done. cbn [object_fields]. f_equal. induction fs as [|[n t] fs IH]; cbn [from_fields]; [done|]. by rewrite IH.
Qed.
Lemma from_struct_fun chk p u8 fs : from_napi chk p (TStruct u8 fs) JFun = match p with Wasm _ => mapr VStruct (from_fields chk p [] fs) | Node _ _ => Err end.
Proof.
  assert (E : ∀ fs, (fix go fs := match fs with
    | (n, t) :: fs => match from_napi chk p t (get [] n) with Ok v => match go fs with Ok vs => Ok (v :: vs) | r => r end | Err => Err | Panic => Panic end
    | [] => Ok [] end) fs = from_fields chk p [] fs).
  { clear fs. induction fs as [|[n t] fs IH]; cbn [from_fields]; [done|]. by rewrite IH. }
  cbn [from_napi kind_of]. rewrite extract_id by done. cbn [object_fields]. destruct u8, p; try done; by rewrite E.
Qed.
Lemma type_struct p u8 fs vs : has_type p (TStruct u8 fs) (VStruct vs) ↔ fields_type p fs vs.
Proof. cbn [has_type]. revert vs. induction fs as [|[n t] fs IH]; intros [|v vs]; cbn [fields_type]; try done. by rewrite IH. Qed.
Lemma wf_struct u8 fs : well_formed (TStruct u8 fs) ↔
  (u8 = true → ∃ n m k, fs = [(n, TPtr true (PBase (chars "uint8_t"))); (m, TSize false); (k, TVoid)]) ∧ NoDup fs.*1 ∧ Forall (λ f, well_formed f.2) fs.
Proof.
  cbn [well_formed]. assert (E : (fix go fs := match fs with [] => True | f :: fs => well_formed f.2 ∧ go fs end) fs ↔ Forall (λ f, well_formed f.2) fs).
  { induction fs as [|f fs IH]; [split; [constructor|done]|]. by rewrite Forall_cons, IH. }
  by rewrite E.
Qed.
Lemma dc_struct u8 fs : deep_const (TStruct u8 fs) ↔ Forall (λ f, deep_const f.2) fs.
Proof. cbn [deep_const]. induction fs as [|f fs IH]; [split; [constructor|done]|]. by rewrite Forall_cons, IH. Qed.
Lemma nf_struct vs : nan_free (VStruct vs) ↔ Forall nan_free vs.
Proof. cbn [nan_free]. induction vs as [|v vs IH]; [split; [constructor|done]|]. by rewrite Forall_cons, IH. Qed.
Lemma ok_obj p fs : js_ok p (JObj fs) ↔ Forall (λ f, js_ok p f.2) fs.
Proof. cbn [js_ok]. induction fs as [|f fs IH]; [split; [constructor|done]|]. by rewrite Forall_cons, IH. Qed.
Lemma get_ok p fs n : Forall (λ f, js_ok p f.2) fs → js_ok p (get fs n).
Proof.
  intros H. unfold get. destruct (List.find _ fs) as [f|] eqn:E; [|done]. apply find_some in E as [E _].
  rewrite Forall_forall in H. by apply H, elem_of_list_In.
Qed.
Lemma get_at (fs : list (text * js)) n j : NoDup fs.*1 → (n, j) ∈ fs → get fs n = j.
Proof.
  unfold get. induction fs as [|[m i] fs IH]; intros Hd Hin; [by apply elem_of_nil in Hin|].
  cbn [List.find fst fmap list_fmap] in *. apply NoDup_cons in Hd as [Hn Hd]. apply elem_of_cons in Hin as [[= -> ->]|Hin].
  - by rewrite bool_decide_eq_true_2.
  - rewrite bool_decide_eq_false_2; [by apply IH|]. intros ->. apply Hn. apply elem_of_list_fmap. by exists (n, j).
Qed.
(** Every value is converted. *)
Lemma size_ok p signed z : plat_ok p → in_range signed (size_bits p) z → ∃ v, to_size p signed z = Ok v.
Proof. intros Hp Hz. unfold plat_ok in Hp. destruct (C43_size p signed z) as (v & E & _); [lia|done|by exists v]. Qed.
Lemma find_enum (vs : list (text * Z)) z : z ∈ vs.*2 → ∃ n, List.find (λ v, v.2 =? z) vs = Some (n, z) ∧ (n, z) ∈ vs.
Proof.
  induction vs as [|[m w] vs IH]; intros Hz; [by apply elem_of_nil in Hz|]. cbn [List.find snd fmap list_fmap] in *.
  destruct (Z.eqb_spec w z) as [->|Hn].
  - exists m. split; [done|constructor].
  - apply elem_of_cons in Hz as [->|Hz]; [done|]. destruct (IH Hz) as (n & E & Hin). exists n. split; [done|by constructor].
Qed.
Lemma find_name (vs : list (text * Z)) n z : NoDup vs.*1 →
  List.find (λ v, bool_decide (v.1 = n)) vs = Some (n, z) ↔ (n, z) ∈ vs.
Proof.
  intros Hd. induction vs as [|[m w] vs IH]; cbn [List.find fst fmap list_fmap] in *; [split; [done|by intros ?%elem_of_nil]|].
  apply NoDup_cons in Hd as [Hm Hd]. destruct (bool_decide_reflect (m = n)) as [->|Hn].
  - rewrite elem_of_cons. split; [intros [= ->]; by left|]. intros [[= ->]|Hin]; [done|]. destruct Hm. apply elem_of_list_fmap. by exists (n, z).
  - rewrite (IH Hd), elem_of_cons. split; [by right|]. by intros [[= -> ->]|?].
Qed.
