(** Proofs about [#[ffi_export]] on functions. *)

From Coq Require Import NArith List Bool Lia String Ascii ZifyBool ZifyNat ZifyN.
From stdpp Require Import base numbers list strings pretty.
From Verif Require Import HeaderModel HeaderSpec HeaderRead ExportModel ExportSpec.

(** ** Names of parameters *)

Lemma arg_names_from_length ps i : length (arg_names_from i ps) = length ps.
Proof. revert i. induction ps as [|p ps IH]; intros i; [done|]. cbn. by rewrite IH. Qed.
Lemma arg_names_from_lookup ps i k : arg_names_from i ps !! k = arg_name (i + k) <$> ps !! k.
Proof.
  revert i k. induction ps as [|p ps IH]; intros i k; [done|]. destruct k as [|k]; cbn.
  - by rewrite Nat.add_0_r.
  - rewrite IH. by rewrite Nat.add_succ_r.
Qed.
Lemma arg_names_lookup ps k : arg_names ps !! k = arg_name k <$> ps !! k.
Proof. apply arg_names_from_lookup. Qed.

Lemma prefix_app (a b : string) : String.prefix a (a +:+ b) = true.
Proof.
  induction a as [|c a IH]; [by destruct b|]. change (String c a +:+ b) with (String c (a +:+ b)).
  cbn [String.prefix]. destruct (ascii_dec c c) as [|n]; [apply IH|by destruct n].
Qed.
Lemma has_hash_raw s : has_hash ("r#" +:+ s) = true.
Proof. done. Qed.
Lemma ident_text_inj x y :
  has_hash (name x) = false → has_hash (name y) = false → ident_text x = ident_text y → name x = name y.
Proof.
  intros Hx Hy E. unfold ident_text in E. destruct (raw x), (raw y).
  - cbn in E. by injection E.
  - change ("" +:+ name y) with (name y) in E. rewrite <-E in Hy. done.
  - change ("" +:+ name x) with (name x) in E. rewrite E in Hx. done.
  - done.
Qed.
Lemma append_inj (a b c : string) : a +:+ b = a +:+ c → b = c.
Proof. induction a as [|x a IH]; [done|]. cbn. intros E. apply IH. by injection E. Qed.

Lemma arg_name_cases i p :
  (∃ r m x s, p = PIdent r m x s ∧ String.prefix "__arg_" (ident_text x) = false ∧
     arg_name i p = ident_text x) ∨
  arg_name i p = "__arg_" +:+ pretty (N.of_nat i).
Proof.
  destruct p as [r m x s| |]; [|by right..]. cbn.
  destruct (String.prefix ARG_PREFIX (ident_text x)) eqn:E; [by right|]. left. by exists r, m, x, s.
Qed.

Lemma arg_names_distinct ps :
  rust_params ps → one_context ps → lexical ps → NoDup (arg_names ps).
Proof.
  intros Hr Hc Hl. apply NoDup_alt. intros i j n Hi Hj. rewrite arg_names_lookup in Hi, Hj.
  apply fmap_Some in Hi as (p & Hp & Ep). apply fmap_Some in Hj as (q & Hq & Eq).
  destruct (decide (i = j)) as [|Hne]; [done|exfalso]. rewrite Ep in Eq. clear n Ep.
  destruct (arg_name_cases i p) as [(r & m & x & s & -> & Hx & Ei)|Ei];
    destruct (arg_name_cases j q) as [(r' & m' & y & s' & -> & Hy & Ej)|Ej]; rewrite Ei, Ej in Eq.
  - assert (Hxb : x ∈ bindings (PIdent r m x s)) by left.
    assert (Hyb : y ∈ bindings (PIdent r' m' y s')) by left.
    apply (Hr _ _ _ _ _ _ Hne Hp Hq Hxb Hyb). apply elem_of_list_lookup_2 in Hp, Hq. split.
    + apply ident_text_inj; [exact (Hl _ _ Hp Hxb)|exact (Hl _ _ Hq Hyb)|done].
    + exact (Hc _ _ _ _ Hp Hq Hxb Hyb).
  - rewrite Eq in Hx. by rewrite prefix_app in Hx.
  - rewrite <-Eq in Hy. by rewrite prefix_app in Hy.
  - apply append_inj in Eq. apply (inj pretty) in Eq. lia.
Qed.

(** ** Prototypes *)

Lemma csharp_ty_stars t : ∃ b n, cs_sem t = (b, n) ∧ csharp_ty t = TkId b :: repeat TkStar n.
Proof.
  induction t; cbn; try (do 2 eexists; split; [reflexivity|]; cbn; try done; fail).
  - destruct IHt as (b & n & -> & ->). exists b, (S n). split; [done|]. cbn. f_equal.
    induction n; [done|]. cbn. by rewrite IHn.
  - done.
Qed.
Lemma stars_repeat n ts : (match ts with TkStar :: _ => False | _ => True end) →
  stars (repeat TkStar n ++ ts) = (n, ts).
Proof.
  intros H. induction n; cbn.
  - by destruct ts as [|[]].
  - by rewrite IHn.
Qed.
Lemma cs_param_reads t x rest : cs_name x = true →
  cs_param (csharp_ty t ++ TkId x :: rest) = Some (cs_sem t, x, rest).
Proof.
  intros Hx. destruct (csharp_ty_stars t) as (b & n & -> & ->). cbn [app cs_param].
  rewrite stars_repeat; [|done]. by rewrite Hx.
Qed.
Lemma cs_params_read (args : list (string * cty)) :
  args ≠ [] → (∀ a, a ∈ args → cs_name a.1 = true) →
  cs_params (length args) (commas (map (λ a, csharp_ty a.2 ++ [TkId a.1]) args) ++ [TkRp]) =
    Some (map (λ a, (cs_sem a.2, a.1)) args, []).
Proof.
  induction args as [|a args IH]; [done|]. intros _ Ha.
  assert (H1 : cs_name a.1 = true) by (apply Ha; left).
  destruct args as [|b args].
  - cbn [map commas length cs_params]. rewrite <-app_assoc. cbn [app]. by rewrite cs_param_reads.
  - assert (IH' := IH ltac:(done) ltac:(intros c Hc; apply Ha; by right)). clear IH.
    set (g := λ a : string * cty, csharp_ty a.2 ++ [TkId a.1]) in *.
    change (commas (map g (a :: b :: args))) with (g a ++ TkComma :: commas (map g (b :: args))).
    change (length (a :: b :: args)) with (S (length (b :: args))). cbn [cs_params].
    unfold g at 1. rewrite <-!app_assoc. cbn [app]. rewrite cs_param_reads by done. by rewrite IH'.
Qed.
Lemma csharp_fn_reads n args r :
  cs_name n = true → (∀ a, a ∈ args → cs_name a.1 = true) →
  cs_reads (csharp_fn_text n args r) (cs_sem r) n (map (λ a, (cs_sem a.2, a.1)) args).
Proof.
  intros Hn Ha. unfold cs_reads, csharp_fn_text. rewrite cs_param_reads by done. eexists. split; [done|].
  destruct args as [|a args]; [done|]. rewrite map_length. by apply cs_params_read.
Qed.

(** A type that is no function pointer is printed before the name. *)
Lemma c_var_object t v : object t = true → c_var t v = c_var t [] ++ v.
Proof.
  revert v. induction t; intros v Ho; try done; cbn in *.
  destruct const; by rewrite <-app_assoc.
Qed.
Lemma py_ty_unalias t : py_ty t = c_var (unalias t) [].
Proof. by induction t. Qed.
Lemma py_var_c t v : py_ok t = true → py_var t v = c_var (unalias t) v.
Proof.
  destruct t; try done. cbn [py_ok py_var unalias py_ty]. intros Ho. rewrite py_ty_unalias.
  by rewrite (c_var_object _ v).
Qed.
Lemma py_fn_c n args r :
  py_ok r = true → (∀ a, a ∈ args → py_ok a.2 = true) →
  py_fn_text n args r = fn_text n (map (λ a, (a.1, unalias a.2)) args) (unalias r).
Proof.
  intros Hr Ha. unfold py_fn_text, fn_text. rewrite py_var_c by done. f_equal. f_equal. f_equal. f_equal.
  assert (HM : map (λ a : string * cty, py_var a.2 [TkId a.1]) args =
          map (λ a, c_var a.2 [TkId a.1]) (map (λ a, (a.1, unalias a.2)) args)).
  { rewrite map_map. apply map_ext_in. intros a Hin. cbn. apply py_var_c, Ha. by apply elem_of_list_In. }
  unfold py_params_text, params_text. rewrite HM. by destruct args.
Qed.

(** ** The shim *)

Section runs.
Context (dbg strict nested : bool) (env : string → efn).
Notation eval := (eval dbg strict nested env).
Notation runs := (runs dbg strict nested env).
Notation run_steps := (run_steps dbg nested).
Implicit Types (call : list N → option (list ev * res)).

Lemma run_args pk call rest live oks raws vs : length raws = length oks →
  run_steps pk call (repeat SArg (length oks) ++ rest) live oks raws vs 0 =
  if all_valid oks raws then run_steps pk call rest live [] [] (vs ++ raws) 0
  else Some ([], leave live (if dbg then panic nested pk else RUB)).
Proof.
  revert raws vs. induction oks as [|ok oks IH]; intros [|v raws] vs H; try done.
  - by rewrite app_nil_r.
  - cbn [length repeat app ExportModel.run_steps all_valid]. unfold from_raw_unchecked. destruct (ok v).
    + rewrite IH by (cbn in H; lia). cbn [andb]. by rewrite <-app_assoc.
    + cbn [andb]. by destruct dbg, live, pk, nested.
Qed.
Lemma run_plain pk call rest live oks raws vs : length raws = length oks →
  run_steps pk call (repeat SPlain (length oks) ++ rest) live oks raws vs 0 =
  if all_valid oks raws then run_steps pk call rest live [] [] (vs ++ raws) 0
  else Some ([], RUB).
Proof.
  revert raws vs. induction oks as [|ok oks IH]; intros [|v raws] vs H; try done.
  - by rewrite app_nil_r.
  - cbn [length repeat app ExportModel.run_steps all_valid]. destruct (ok v); [|done].
    rewrite IH by (cbn in H; lia). cbn [andb]. by rewrite <-app_assoc.
Qed.
(** A guard turns unwinding into aborting. *)
Definition guarded (pk : bool) (k : fkind) (r : res) : res :=
  match k with KExport => to_abort r | KJs => if pk then r else to_abort r | _ => r end.
Lemma run_shim pk k call oks raws : length raws = length oks →
  run_steps pk call (shim_steps k (length oks)) GNone oks raws [] 0 =
  if all_valid oks raws then
    match call raws with Some (t, r) => Some (t, guarded pk k r) | None => None end
  else Some ([], guarded pk k (match k with KExport | KVirtual => if dbg then panics nested pk else RUB | _ => RUB end)).
Proof.
  intros H. unfold shim_steps. destruct k; cbn [ExportModel.run_steps]; rewrite ?run_args, ?run_plain by done.
  all: destruct (all_valid oks raws); [|by destruct dbg, pk, nested].
  all: cbn [app ExportModel.run_steps]; destruct (call raws) as [[t []]|]; try (by destruct pk); try destruct pk; cbn; by rewrite app_nil_r.
Qed.
Lemma all_valid_length oks vs : all_valid oks vs = true → length vs = length oks.
Proof.
  revert vs. induction oks as [|ok oks IH]; intros [|v vs] H; try done. cbn in H.
  apply andb_true_iff in H as [_ H]. cbn. f_equal. by apply IH.
Qed.

(** A call from C. *)
Lemma eval_sym fuel pk f args k : length args = length (valid (env f)) →
  eval (S fuel) pk (PCSym f args k) =
  if all_valid (valid (env f)) args then
    match eval fuel pk (body (env f) args) with
    | Some (t, RRet v) => match eval fuel pk (k v) with Some (t', r) => Some (t ++ t', r) | None => None end
    | Some (t, r) => Some (t ++ unwound strict env pk f r, to_c strict env pk f r)
    | None => None
    end
  else Some (unwound strict env pk f (bad_param dbg nested env pk f), to_c strict env pk f (bad_param dbg nested env pk f)).
Proof.
  intros HL. cbn [ExportModel.eval]. cbv zeta. rewrite (proj2 (Nat.eqb_eq _ _) HL). cbn [negb].
  rewrite run_shim by done. unfold unwound, to_c, bad_param, stopped.
  destruct (all_valid (valid (env f)) args).
  - destruct (kind (env f)); destruct (eval fuel pk (body (env f) args)) as [[t []]|]; try done.
    all: cbn; destruct pk, strict; cbn; by rewrite ?app_nil_r.
  - destruct (kind (env f)), dbg, strict, pk, nested; done.
Qed.
Lemma eval_sym_arity fuel pk f args k : length args ≠ length (valid (env f)) →
  eval (S fuel) pk (PCSym f args k) = Some ([], RUB).
Proof. intros HL. cbn [ExportModel.eval]. cbv zeta. by rewrite (proj2 (Nat.eqb_neq _ _) HL). Qed.
(** A call from Rust. *)
Lemma eval_rust fuel pk f args k :
  eval (S fuel) pk (PRust f args k) =
  match eval fuel pk (body (env f) args) with
  | Some (t, RRet v) => match eval fuel pk (k v) with Some (t', r) => Some (t ++ t', r) | None => None end
  | Some (t, r) => Some (t, to_rust strict env pk f r)
  | None => None
  end.
Proof.
  cbn [ExportModel.eval]. cbv zeta. destruct (eval fuel pk (body (env f) args)) as [[t r]|]; [|done].
  unfold to_rust. destruct (kind (env f)), pk, r; try done; by destruct strict.
Qed.
Lemma not_back r : (∀ v, r ≠ RRet v) → ¬ comes_back r.
Proof. intros H [v ->]. by apply (H v). Qed.

Lemma eval_runs fuel pk p t r : eval fuel pk p = Some (t, r) → runs pk p t r.
Proof.
  revert pk p t r. induction fuel as [|fuel IH]; [done|]. intros pk p t r H.
  destruct p as [v| |e k|f args k|f args k|p k|p d];
    lazymatch type of H with
    | ExportModel.eval _ _ _ _ _ _ (PCSym _ _ _) = _ => idtac
    | ExportModel.eval _ _ _ _ _ _ (PRust _ _ _) = _ => rewrite eval_rust in H
    | _ => cbn [ExportModel.eval] in H; cbv zeta in H end.
  - simplify_eq. constructor.
  - simplify_eq. constructor.
  - destruct (eval fuel pk k) as [[t1 r1]|] eqn:E; [|done]. simplify_eq. constructor. by apply IH.
  - destruct (decide (length args = length (valid (env f)))) as [EL|EL].
    2: { rewrite eval_sym_arity in H by done. simplify_eq. by apply Runs_sym_arity. }
    rewrite eval_sym in H by done. destruct (all_valid (valid (env f)) args) eqn:EV.
    2: { simplify_eq. by apply Runs_sym_invalid. }
    destruct (eval fuel pk (body (env f) args)) as [[t1 r1]|] eqn:EB; [|done].
    apply IH in EB. destruct r1 as [v| | |].
    + destruct (eval fuel pk (k v)) as [[t2 r2]|] eqn:EK; [|done]. simplify_eq.
      eapply Runs_sym_ret; [done|done|by apply IH].
    + simplify_eq. by apply (Runs_sym_end _ _ _ _ pk f args k t1 RUnwind EV EB), not_back.
    + simplify_eq. by apply (Runs_sym_end _ _ _ _ pk f args k t1 RAbort EV EB), not_back.
    + simplify_eq. by apply (Runs_sym_end _ _ _ _ pk f args k t1 RUB EV EB), not_back.
  - destruct (eval fuel pk (body (env f) args)) as [[t1 r1]|] eqn:EB; [|done].
    apply IH in EB. destruct r1 as [v| | |].
    + destruct (eval fuel pk (k v)) as [[t2 r2]|] eqn:EK; [|done]. simplify_eq.
      eapply Runs_rust_ret; [done|by apply IH].
    + simplify_eq. by apply (Runs_rust_end _ _ _ _ pk f args k t RUnwind EB), not_back.
    + simplify_eq. by apply (Runs_rust_end _ _ _ _ pk f args k t RAbort EB), not_back.
    + simplify_eq. by apply (Runs_rust_end _ _ _ _ pk f args k t RUB EB), not_back.
  - destruct (eval fuel pk p) as [[t1 r1]|] eqn:E; [|done]. apply IH in E. destruct r1 as [v| | |].
    + destruct (eval fuel pk (k (Some v))) as [[t2 r2]|] eqn:EK; [|done]. simplify_eq.
      eapply Runs_catch_ret; [done|by apply IH].
    + destruct (eval fuel pk (k None)) as [[t2 r2]|] eqn:EK; [|done]. simplify_eq.
      eapply Runs_catch_unwind; [done|by apply IH].
    + simplify_eq. apply Runs_catch_end; [done|by left].
    + simplify_eq. apply Runs_catch_end; [done|by right].
  - destruct (eval fuel pk p) as [[t1 r1]|] eqn:E; [|done]. apply IH in E. destruct r1 as [v| | |].
    + destruct (eval fuel pk d) as [[t2 r2]|] eqn:EK; [|done]. apply IH in EK. destruct r2; simplify_eq.
      * by eapply Runs_scope_ret.
      * by eapply Runs_scope_drop, not_back.
      * by eapply Runs_scope_drop, not_back.
      * by eapply Runs_scope_drop, not_back.
    + destruct (eval fuel true d) as [[t2 r2]|] eqn:EK; [|done]. apply IH in EK. destruct r2; cbn in H; simplify_eq.
      * by eapply Runs_scope_unwind.
      * by apply (Runs_scope_twice _ _ _ _ pk p d t1 t2 RUnwind E EK), not_back.
      * by apply (Runs_scope_twice _ _ _ _ pk p d t1 t2 RAbort E EK), not_back.
      * by apply (Runs_scope_twice _ _ _ _ pk p d t1 t2 RUB E EK), not_back.
    + simplify_eq. apply Runs_scope_end; [done|by left].
    + simplify_eq. apply Runs_scope_end; [done|by right].
Qed.

Lemma eval_S fuel pk p x : eval fuel pk p = Some x → eval (S fuel) pk p = Some x.
Proof.
  revert pk p x. induction fuel as [|fuel IH]; [done|]. intros pk p x H.
  assert (HN : ∀ t q (y : list ev * res),
    match eval fuel pk q with Some (t', r) => Some (t ++ t', r) | None => None end = Some y →
    match eval (S fuel) pk q with Some (t', r) => Some (t ++ t', r) | None => None end = Some y).
  { intros t q y Hy. destruct (eval fuel pk q) as [z|] eqn:E; [|done]. by rewrite (IH _ _ _ E). }
  assert (HS : (∃ f args k, p = PCSym f args k) ∨ (∃ f args k, p = PRust f args k) ∨
    ∀ f args k, p ≠ PCSym f args k ∧ p ≠ PRust f args k).
  { destruct p; try (by right; right). - left. by repeat eexists. - right. left. by repeat eexists. }
  destruct HS as [(f & args & k & ->)|[(f & args & k & ->)|HS]].
  { destruct (decide (length args = length (valid (env f)))) as [EL|EL].
    2: { rewrite eval_sym_arity in * by done. done. }
    rewrite eval_sym in H |- * by done. destruct (all_valid (valid (env f)) args); [|done].
    destruct (eval fuel pk (body (env f) args)) as [[t1 r1]|] eqn:EB; [|done]. rewrite (IH _ _ _ EB).
    destruct r1; try done. by apply HN. }
  { rewrite eval_rust in H |- *.
    destruct (eval fuel pk (body (env f) args)) as [[t1 r1]|] eqn:EB; [|done]. rewrite (IH _ _ _ EB).
    destruct r1; try done. by apply HN. }
  remember (S fuel) as g. cbn [ExportModel.eval]. rewrite Heqg in H. cbn [ExportModel.eval] in H. subst g.
  cbv zeta in *.
  destruct p as [v| |e k|f args k|f args k|p k|p d]; try done; try (by destruct (HS f args k) as [HS1 HS2]; contradiction).
  - destruct (eval fuel pk k) as [z|] eqn:E; [|done]. by rewrite (IH _ _ _ E).
  - destruct (eval fuel pk p) as [[t1 r1]|] eqn:E; [|done]. rewrite (IH _ _ _ E). destruct r1; [by apply HN..|done|done].
  - destruct (eval fuel pk p) as [[t1 r1]|] eqn:E; [|done]. rewrite (IH _ _ _ E). destruct r1; try done.
    + destruct (eval fuel pk d) as [z|] eqn:ED; [|done]. by rewrite (IH _ _ _ ED).
    + destruct (eval fuel true d) as [z|] eqn:ED; [|done]. by rewrite (IH _ _ _ ED).
Qed.
Lemma eval_le fuel fuel' pk p x : fuel ≤ fuel' → eval fuel pk p = Some x → eval fuel' pk p = Some x.
Proof. induction 1 as [|m Hle IH]; [done|]. intros H. by apply eval_S, IH. Qed.

Lemma runs_eval pk p t r : runs pk p t r → ∃ fuel, eval fuel pk p = Some (t, r).
Proof.
  induction 1 as [pk v|pk|pk e k t r H1 [n1 E1]|pk f args k t v t' r Hv H1 [n1 E1] H2 [n2 E2]
    |pk f args k t r Hv H1 [n1 E1] Hb|pk f args k Hl Hv|pk f args k Hl|pk f args k t v t' r H1 [n1 E1] H2 [n2 E2]
    |pk f args k t r H1 [n1 E1] Hb|pk p k t v t' r H1 [n1 E1] H2 [n2 E2]|pk p k t t' r H1 [n1 E1] H2 [n2 E2]
    |pk p k t r H1 [n1 E1] Hr|pk p d t v t' v' H1 [n1 E1] H2 [n2 E2]|pk p d t v t' r H1 [n1 E1] H2 [n2 E2] Hb
    |pk p d t t' v H1 [n1 E1] H2 [n2 E2]|pk p d t t' r H1 [n1 E1] H2 [n2 E2] Hb|pk p d t r H1 [n1 E1] Hr].
  - by exists 1.
  - by exists 1.
  - exists (S n1). cbn. by rewrite E1.
  - exists (S (n1 + n2)). rewrite eval_sym, Hv by by apply all_valid_length.
    rewrite (eval_le n1 (n1 + n2) _ _ _ ltac:(lia) E1). by rewrite (eval_le n2 (n1 + n2) _ _ _ ltac:(lia) E2).
  - exists (S n1). rewrite eval_sym, Hv, E1 by by apply all_valid_length.
    destruct r; try done. exfalso. apply Hb. by eexists.
  - exists 1. by rewrite eval_sym, Hv.
  - exists 1. by rewrite eval_sym_arity.
  - exists (S (n1 + n2)). rewrite eval_rust. rewrite (eval_le n1 (n1 + n2) _ _ _ ltac:(lia) E1).
    by rewrite (eval_le n2 (n1 + n2) _ _ _ ltac:(lia) E2).
  - exists (S n1). rewrite eval_rust, E1. destruct r; try done. exfalso. apply Hb. by eexists.
  - exists (S (n1 + n2)). cbn [ExportModel.eval]. cbv zeta.
    rewrite (eval_le n1 (n1 + n2) _ _ _ ltac:(lia) E1). by rewrite (eval_le n2 (n1 + n2) _ _ _ ltac:(lia) E2).
  - exists (S (n1 + n2)). cbn [ExportModel.eval]. cbv zeta.
    rewrite (eval_le n1 (n1 + n2) _ _ _ ltac:(lia) E1). by rewrite (eval_le n2 (n1 + n2) _ _ _ ltac:(lia) E2).
  - exists (S n1). cbn [ExportModel.eval]. cbv zeta. rewrite E1. by destruct Hr as [-> | ->].
  - exists (S (n1 + n2)). cbn [ExportModel.eval]. cbv zeta.
    rewrite (eval_le n1 (n1 + n2) _ _ _ ltac:(lia) E1). by rewrite (eval_le n2 (n1 + n2) _ _ _ ltac:(lia) E2).
  - exists (S (n1 + n2)). cbn [ExportModel.eval]. cbv zeta.
    rewrite (eval_le n1 (n1 + n2) _ _ _ ltac:(lia) E1). rewrite (eval_le n2 (n1 + n2) _ _ _ ltac:(lia) E2).
    destruct r; try done. exfalso. apply Hb. by eexists.
  - exists (S (n1 + n2)). cbn [ExportModel.eval]. cbv zeta.
    rewrite (eval_le n1 (n1 + n2) _ _ _ ltac:(lia) E1). by rewrite (eval_le n2 (n1 + n2) _ _ _ ltac:(lia) E2).
  - exists (S (n1 + n2)). cbn [ExportModel.eval]. cbv zeta.
    rewrite (eval_le n1 (n1 + n2) _ _ _ ltac:(lia) E1). rewrite (eval_le n2 (n1 + n2) _ _ _ ltac:(lia) E2).
    destruct r; try done. exfalso. apply Hb. by eexists.
  - exists (S n1). cbn [ExportModel.eval]. cbv zeta. rewrite E1. by destruct Hr as [-> | ->].
Qed.

Lemma runs_no_unwound pk p t r f : runs pk p t r →
  (∀ pk, stopped strict env pk f = true) → EvUnwound f ∉ t.
Proof.
  intros H Hs. assert (HU : ∀ pk g r, EvUnwound f ∉ unwound strict env pk g r).
  { intros pk' g r'. unfold unwound. destruct r'; try apply not_elem_of_nil.
    destruct (stopped strict env pk' g) eqn:E; [apply not_elem_of_nil|]. intros HE.
    apply elem_of_list_singleton in HE. simplify_eq. by rewrite Hs in E. }
  induction H; try done; try apply not_elem_of_nil; try (rewrite not_elem_of_app; by split).
  by apply not_elem_of_cons.
Qed.
(** A function that never panics never unwinds. *)
Lemma runs_calm pk p t r f : runs pk p t r →
  (∀ pk vs t, all_valid (valid (env f)) vs = true → runs pk (body (env f) vs) t RUnwind →
     stopped strict env pk f = true) →
  (∀ pk, bad_param dbg nested env pk f ≠ RUnwind) → EvUnwound f ∉ t.
Proof.
  intros H Hb Hp.
  assert (HU : ∀ pk g r, EvUnwound f ∈ unwound strict env pk g r → r = RUnwind ∧ g = f ∧ stopped strict env pk g = false).
  { intros pk' g r' HE. unfold unwound in HE. destruct r'; try by apply elem_of_nil in HE.
    destruct (stopped strict env pk' g); [by apply elem_of_nil in HE|].
    apply elem_of_list_singleton in HE. by simplify_eq. }
  induction H; try done; try apply not_elem_of_nil; try (rewrite not_elem_of_app; by split).
  - by apply not_elem_of_cons.
  - rewrite not_elem_of_app. split; [done|]. intros HE. apply HU in HE as (-> & -> & HE).
    by erewrite Hb in HE.
  - intros HE. apply HU in HE as (HE & -> & _). by eapply Hp.
Qed.
(** If no panic can be caught while panicking, nothing unwinds then. *)
Lemma runs_panicking p t r : nested = false → runs true p t r → r ≠ RUnwind.
Proof.
  intros Hn H. remember true as pk eqn:Ep. revert Ep. induction H; intros ->; try done; intros HE; try (by eapply IHruns2).
  - unfold panics in HE. by rewrite Hn in HE.
  - by eapply IHruns.
  - unfold to_c in HE. destruct r; try done. by destruct (stopped strict env true f).
  - unfold to_c, bad_param, panics in HE. rewrite Hn in HE. by destruct (kind (env f)), dbg.
  - unfold to_rust in HE. destruct r; try done. by eapply IHruns.
  - by eapply IHruns.
  - by eapply IHruns1.
  - by destruct r.
  - by eapply IHruns.
Qed.

(** The outcome of a call from C, given that of the body. *)
Lemma runs_call pk f args t r :
  runs pk (PCSym f args PRet) t r ↔
  (all_valid (valid (env f)) args = true ∧
     ∃ t' r', runs pk (body (env f) args) t' r' ∧ t = t' ++ unwound strict env pk f r' ∧ r = to_c strict env pk f r') ∨
  (all_valid (valid (env f)) args = false ∧
     if Nat.eqb (length args) (length (valid (env f))) then
       t = unwound strict env pk f (bad_param dbg nested env pk f) ∧ r = to_c strict env pk f (bad_param dbg nested env pk f)
     else t = [] ∧ r = RUB).
Proof.
  split.
  - intros H. inversion H; subst.
    + left. split; [done|]. match goal with H : runs pk (PRet _) _ _ |- _ => inversion H; subst end.
      do 2 eexists. by split.
    + left. split; [done|]. do 2 eexists. by split.
    + right. split; [done|]. by rewrite (proj2 (Nat.eqb_eq _ _)).
    + right. split.
      * destruct (all_valid (valid (env f)) args) eqn:E; [|done]. by apply all_valid_length in E.
      * by rewrite (proj2 (Nat.eqb_neq _ _)).
  - intros [(Hv & t' & r' & Hr & -> & ->)|(Hv & H)].
    + destruct r' as [v| | |].
      * eapply Runs_sym_ret; [done|done|constructor].
      * apply (Runs_sym_end _ _ _ _ pk f args PRet t' RUnwind); [done|done|by intros []].
      * apply (Runs_sym_end _ _ _ _ pk f args PRet t' RAbort); [done|done|by intros []].
      * apply (Runs_sym_end _ _ _ _ pk f args PRet t' RUB); [done|done|by intros []].
    + destruct (Nat.eqb (length args) (length (valid (env f)))) eqn:E; destruct H as [-> ->].
      * apply Nat.eqb_eq in E. by apply Runs_sym_invalid.
      * apply Nat.eqb_neq in E. by apply Runs_sym_arity.
Qed.
End runs.

(** ** The attribute *)

Section attr.
Context (is_ident : string → bool).

Lemma parse_args_rename ts c a a' : parse_args is_ident ts c a = Some a' →
  a_rename a' = match a_rename a with Some s => Some s | None => renamed ts end ∧
  (∀ s, renamed ts = Some s → a_rename a = None ∧ is_ident (trim s) = true).
Proof.
  revert c a. induction ts as [|t ts IH]; intros c a H; cbn in H.
  - simplify_eq. split; [by destruct (a_rename a')|done].
  - destruct t as [|w|s| |].
    + destruct (a_exec a); [done|]. by apply IH in H.
    + destruct (a_js a); [done|]. by apply IH in H.
    + destruct (a_rename a) eqn:E; [done|]. unfold lit_ident in H.
      destruct (is_ident (trim s)) eqn:Ei; [|done]. apply IH in H as [H _]. cbn in H |- *. split; [done|].
      intros s' [= <-]. done.
    + destruct c; [|done]. by apply IH in H.
    + done.
Qed.
Lemma parse_args_js ts c a a' : parse_args is_ident ts c a = Some a' →
  bool_decide (is_Some (a_js a')) = bool_decide (is_Some (a_js a)) || has_js ts.
Proof.
  revert c a. induction ts as [|t ts IH]; intros c a H; cbn in H.
  - simplify_eq. cbn. by rewrite orb_false_r.
  - destruct t as [|w|s| |].
    + destruct (a_exec a); [done|]. by apply IH in H.
    + destruct (a_js a); [done|]. apply IH in H. rewrite H. cbn. by rewrite orb_true_l || done.
    + destruct (a_rename a); [done|]. destruct (lit_ident is_ident s); [|done]. by apply IH in H.
    + destruct c; [|done]. by apply IH in H.
    + done.
Qed.
Lemma parse_args_exec ts c a a' : parse_args is_ident ts c a = Some a' →
  a_exec a' = a_exec a || has_exec ts.
Proof.
  revert c a. induction ts as [|t ts IH]; intros c a H; cbn in H.
  - simplify_eq. cbn. by rewrite orb_false_r.
  - destruct t as [|w|s| |].
    + destruct (a_exec a) eqn:E; [done|]. apply IH in H. cbn in *. by rewrite H.
    + destruct (a_js a); [done|]. by apply IH in H.
    + destruct (a_rename a); [done|]. destruct (lit_ident is_ident s); [|done]. by apply IH in H.
    + destruct c; [|done]. by apply IH in H.
    + done.
Qed.

Lemma export_sync_names c a f es : export_sync is_ident c a f = Some es →
  syms es = (if wasm c then [] else [match a_rename a with Some s => s | None => ident_text (fname f) end]) ∧
  header_names es =
    (if f_headers c && negb (wasm c)
     then [match a_rename a with Some s => s | None => ident_text (fname f) end] else []) ∧
  js_names es =
    (if f_js c && bool_decide (is_Some (a_js a))
     then [match a_rename a with
           | Some s => match lit_ident is_ident s with Some s => s | None => "" end
           | None => ident_text (fname f)
           end]
     else []).
Proof.
  unfold export_sync. intros H.
  destruct (match abi f with Some s => negb (String.eqb s "C") | None => false end); [done|].
  destruct (receiver f); [done|]. simplify_eq.
  destruct (wasm c), (a_js a), (f_js c), (f_headers c); by cbn.
Qed.

Lemma ffi_export_sync c ts f es :
  ffi_export is_ident c ts f = Some es → is_async f = false →
  has_exec ts = false ∧
  syms es = (if wasm c then [] else [wanted ts f]) ∧
  header_names es = (if f_headers c && negb (wasm c) then [wanted ts f] else []) ∧
  js_names es =
    (if f_js c && has_js ts
     then [match renamed ts with Some s => trim s | None => ident_text (fname f) end] else []).
Proof.
  unfold ffi_export. intros H Ha. destruct (parse_args is_ident ts false no_args) as [a|] eqn:E; [|done].
  pose proof (parse_args_exec _ _ _ _ E) as He. pose proof (parse_args_js _ _ _ _ E) as Hj.
  pose proof (parse_args_rename _ _ _ _ E) as [Hr Hri]. cbn in He, Hj, Hr.
  unfold handle in H. rewrite Ha, orb_false_r in H. destruct (a_exec a) eqn:Ee.
  { destruct (f_async c); [|done]. unfold export_async in H. by rewrite Ha, andb_false_r in H. }
  apply export_sync_names in H as (H1 & H2 & H3). split; [done|].
  rewrite Hr in H1, H2, H3. rewrite Hj in H3. split; [exact H1|]. split; [exact H2|].
  rewrite H3. destruct (f_js c && has_js ts); [|done]. destruct (renamed ts) as [s|] eqn:Es; [|done].
  destruct (Hri s eq_refl) as [_ Hs]. unfold lit_ident. by rewrite Hs.
Qed.

Lemma ffi_export_async c ts f es :
  ffi_export is_ident c ts f = Some es → is_async f = true →
  has_exec ts = true ∧ f_async c = true ∧
  (if f_js c then
     syms es = [] ∧ header_names es = [] ∧
     js_names es =
       (if has_js ts then [match renamed ts with Some s => trim s | None => ident_text (fname f) end] else [])
   else
     syms es = (if wasm c then [] else [ident_text (fname f)]) ∧
     header_names es = (if f_headers c && negb (wasm c) then [ident_text (fname f)] else []) ∧
     js_names es = []).
Proof.
  unfold ffi_export. intros H Ha. destruct (parse_args is_ident ts false no_args) as [a|] eqn:E; [|done].
  pose proof (parse_args_exec _ _ _ _ E) as He. pose proof (parse_args_js _ _ _ _ E) as Hj.
  pose proof (parse_args_rename _ _ _ _ E) as [Hr Hri]. cbn in He, Hj, Hr.
  unfold handle in H. rewrite Ha, orb_true_r in H. destruct (f_async c) eqn:Ef; [|done].
  unfold export_async in H. rewrite Ha, andb_true_r in H. destruct (a_exec a) eqn:Ee; [|done]. cbn [negb] in H.
  destruct (awaits f); [|done]. cbn [negb] in H. split; [done|]. split; [done|].
  destruct (f_js c) eqn:Ec.
  - rewrite <-Hj. destruct (a_js a) eqn:Ej.
    + simplify_eq. split; [done|]. split; [done|]. cbn. rewrite Hr.
      destruct (renamed ts) as [s|] eqn:Es; [|done].
      destruct (Hri s eq_refl) as [_ Hs]. unfold lit_ident. by rewrite Hs.
    + simplify_eq. by rewrite bool_decide_false by by intros [].
  - apply export_sync_names in H as (H1 & H2 & H3). rewrite Ec in H3. done.
Qed.
End attr.
