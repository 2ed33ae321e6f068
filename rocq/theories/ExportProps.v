(** Properties C29, C31 and C32: functions with [#[ffi_export]]. *)

From Coq Require Import NArith List Bool Lia String Ascii ZifyBool ZifyNat ZifyN.
From stdpp Require Import base numbers list strings pretty.
From Verif Require Import HeaderModel HeaderSpec HeaderRead ExportModel ExportSpec ExportProofs.

(** ** C29 *)

(** One name per parameter, in order, no two alike.
    Missing: parameters some of which come from a macro, see
    [C29_macro_refuted]. *)
Theorem C29_names_partial ps :
  rust_params ps → one_context ps → lexical ps →
  length (arg_names ps) = length ps ∧ NoDup (arg_names ps).
Proof. intros. split; [apply arg_names_from_length|by apply arg_names_distinct]. Qed.
(** A parameter that is an identifier keeps its name, unless it begins as the
    names made up do. *)
Theorem C29_kept ps k r m x s :
  ps !! k = Some (PIdent r m x s) → String.prefix "__arg_" (ident_text x) = false →
  arg_names ps !! k = Some (ident_text x).
Proof. intros Hk Hx. rewrite arg_names_lookup, Hk. cbn. unfold ARG_PREFIX. by rewrite Hx. Qed.

(** The parameters of a prototype. *)
Definition c_params (names : list string) (ts : list cty) : list (ctype * option string) :=
  zip_with (λ x t, (sem t, Some x)) names ts.
Definition csharp_params (names : list string) (ts : list cty) : list (cstype * string) :=
  zip_with (λ x t, (cs_sem t, x)) names ts.

Lemma map_zip {A B C} (f : A → B → C) (l : list A) (k : list B) :
  map (λ a, f a.1 a.2) (zip l k) = zip_with f l k.
Proof. revert k. induction l as [|x l IH]; intros [|y k]; try done. cbn. by rewrite IH. Qed.
Lemma zip_elem {A B} (l : list A) (k : list B) a : a ∈ zip l k → a.1 ∈ l ∧ a.2 ∈ k.
Proof.
  intros H. apply elem_of_list_In in H. destruct a as [x y]. split; apply elem_of_list_In.
  - by eapply in_combine_l, H.
  - by eapply in_combine_r, H.
Qed.
(** Names made up are names of C and of C#. *)
Lemma keywords_arg i ks : Forall (λ k, String.prefix "__arg_" k = false) ks →
  negb (existsb (String.eqb ("__arg_" +:+ pretty (N.of_nat i))) ks) = true.
Proof.
  intros H. apply negb_true_iff. apply not_true_is_false. intros Hex.
  apply existsb_exists in Hex as (k & Hk & E). apply String.eqb_eq in E. subst k.
  rewrite List.Forall_forall in H. apply H in Hk. by rewrite prefix_app in Hk.
Qed.
Lemma names_ok (ok : string → bool) ks (ps : list pat) :
  (∀ s, ok s = negb (existsb (String.eqb s) ks)) → Forall (λ k, String.prefix "__arg_" k = false) ks →
  (∀ r m x s, PIdent r m x s ∈ ps → ok (ident_text x) = true) →
  ∀ n, n ∈ arg_names ps → ok n = true.
Proof.
  intros Hok Hks Hps n Hn. apply elem_of_list_lookup in Hn as [k Hk]. rewrite arg_names_lookup in Hk.
  apply fmap_Some in Hk as (p & Hp & ->). apply elem_of_list_lookup_2 in Hp.
  destruct (arg_name_cases k p) as [(r & m & x & s & -> & Hx & ->)| ->].
  - by eapply Hps.
  - rewrite Hok. by apply keywords_arg.
Qed.

(** The prototype in a C header has one parameter per parameter, in order, of
    the same types and with different names.
    Missing: parameters that come from a macro; parameters named by a keyword
    of C or of Rust; parameters without a size; types C22 to C25 leave out. *)
Theorem C29_c_partial n ps r :
  rust_params (map fst ps) → one_context (map fst ps) → lexical (map fst ps) →
  is_name n = true → (∀ b m x s, PIdent b m x s ∈ map fst ps → is_name (ident_text x) = true ∧ raw x = false) →
  printable r = true → (∀ p, p ∈ ps → printable p.2 = true ∧ is_void p.2 = false) →
  ∃ names, length names = length ps ∧ NoDup names ∧
    reads (proto_text LC (export_item n ps r)) (CFun (sem r) (c_params names (map snd ps))) (Some n).
Proof.
  intros H1 H2 H3 Hn Hx Hr Ht. exists (arg_names (map fst ps)).
  destruct (C29_names_partial _ H1 H2 H3) as [HL HN]. rewrite map_length in HL. split; [done|]. split; [done|].
  cbn [export_item proto_text]. unfold c_params. rewrite <-(map_zip (λ x t, (sem t, Some x))).
  apply fn_reads; [done|done|]. intros a Ha. apply zip_elem in Ha as [Ha1 Ha2].
  apply elem_of_list_fmap in Ha2 as (p & -> & Hp). destruct (Ht p Hp) as [? ?]. split; [done|]. split; [done|].
  eapply (names_ok is_name keywords (map fst ps)); [done| |by intros; eapply Hx|done].
  apply (bool_decide_unpack _). vm_compute. exact I.
Qed.
(** C#. *)
Theorem C29_csharp_partial n ps r :
  rust_params (map fst ps) → one_context (map fst ps) → lexical (map fst ps) →
  cs_name n = true → (∀ b m x s, PIdent b m x s ∈ map fst ps → cs_name (ident_text x) = true ∧ raw x = false) →
  ∃ names, length names = length ps ∧ NoDup names ∧
    cs_reads (proto_text LCSharp (export_item n ps r)) (cs_sem r) n (csharp_params names (map snd ps)).
Proof.
  intros H1 H2 H3 Hn Hx. exists (arg_names (map fst ps)).
  destruct (C29_names_partial _ H1 H2 H3) as [HL HN]. rewrite map_length in HL. split; [done|]. split; [done|].
  cbn [export_item proto_text]. unfold csharp_params. rewrite <-(map_zip (λ x t, (cs_sem t, x))).
  apply csharp_fn_reads; [done|]. intros a Ha. apply zip_elem in Ha as [Ha1 Ha2].
  eapply (names_ok cs_name cs_keywords (map fst ps)); [done| |by intros; eapply Hx|done].
  apply (bool_decide_unpack _). vm_compute. exact I.
Qed.
(** Python (cffi), where aliases are replaced by what they stand for. *)
Theorem C29_python_partial n ps r :
  rust_params (map fst ps) → one_context (map fst ps) → lexical (map fst ps) →
  is_name n = true → (∀ b m x s, PIdent b m x s ∈ map fst ps → is_name (ident_text x) = true ∧ raw x = false) →
  printable (unalias r) = true → py_ok r = true →
  (∀ p, p ∈ ps → printable (unalias p.2) = true ∧ is_void (unalias p.2) = false ∧ py_ok p.2 = true) →
  ∃ names, length names = length ps ∧ NoDup names ∧
    reads (proto_text LPython (export_item n ps r))
      (CFun (sem (unalias r)) (c_params names (map (λ p, unalias p.2) ps))) (Some n).
Proof.
  intros H1 H2 H3 Hn Hx Hr Hp Ht. exists (arg_names (map fst ps)).
  destruct (C29_names_partial _ H1 H2 H3) as [HL HN]. rewrite map_length in HL. split; [done|]. split; [done|].
  cbn [export_item proto_text]. rewrite py_fn_c; [|done|].
  2: { intros a Ha. apply zip_elem in Ha as [_ Ha2]. apply elem_of_list_fmap in Ha2 as (p & -> & Hin). by apply Ht. }
  assert (HZ : map (λ a, (a.1, unalias a.2)) (zip (arg_names (map fst ps)) (map snd ps)) =
               zip (arg_names (map fst ps)) (map (λ p, unalias p.2) ps)).
  { rewrite (map_zip (λ x t, (x, unalias t))). generalize (arg_names (map fst ps)). clear.
    induction ps as [|p ps IH]; intros [|x l]; try done. cbn. by rewrite IH. }
  rewrite HZ. unfold c_params. rewrite <-(map_zip (λ x t, (sem t, Some x))).
  apply fn_reads; [done|done|]. intros a Ha. apply zip_elem in Ha as [Ha1 Ha2].
  apply elem_of_list_fmap in Ha2 as (p & -> & Hin). destruct (Ht p Hin) as (? & ? & ?).
  split; [done|]. split; [done|].
  eapply (names_ok is_name keywords (map fst ps)); [done| |by intros; eapply Hx|done].
  apply (bool_decide_unpack _). vm_compute. exact I.
Qed.

(** [fn f (mut a: i32, _: u8, (x, y): Pair, ref __arg_1: bool, b: *const u8)] *)
Definition id (s : string) : ident := Ident false s 0.
Definition pair_t : cty := TStruct "Pair" [] [("fst", TCInt); ("snd", TCInt)].
Definition sample : list (pat * cty) :=
  [(PIdent false true (id "a") None, TInt I32); (PWild, TInt U8);
   (POther [PIdent false false (id "x") None; PIdent false false (id "y") None], pair_t);
   (PIdent true false (id "__arg_1") None, TBool); (PIdent false false (id "b") None, TPtr true (TInt U8))].
Lemma rust_params_nodup ps :
  NoDup (map (λ x, (name x, ctx x)) (flat_map bindings ps)) → rust_params ps.
Proof.
  induction ps as [|p0 ps IH]; intros Hnd i j p q x y Hne Hp Hq Hx Hy [Hn Hc]; [done|].
  cbn in Hnd. rewrite map_app in Hnd. apply NoDup_app in Hnd as (_ & Hd & Hnd).
  assert (Hin : ∀ q y, q ∈ ps → y ∈ bindings q → (name y, ctx y) ∈ map (λ x, (name x, ctx x)) (flat_map bindings ps)).
  { intros q' y' Hq' Hy'. apply elem_of_list_In, in_map_iff. exists y'. split; [done|]. apply in_flat_map.
    exists q'. split; by apply elem_of_list_In. }
  assert (Hin0 : ∀ y, y ∈ bindings p0 → (name y, ctx y) ∈ map (λ x, (name x, ctx x)) (bindings p0)).
  { intros y' Hy'. apply elem_of_list_In, in_map_iff. exists y'. split; [done|]. by apply elem_of_list_In. }
  destruct i as [|i], j as [|j]; cbn in Hp, Hq; simplify_eq.
  - apply (Hd _ (Hin0 _ Hx)). rewrite Hn, Hc. eapply Hin; [by eapply elem_of_list_lookup_2|done].
  - apply (Hd _ (Hin0 _ Hy)). rewrite <-Hn, <-Hc. eapply Hin; [by eapply elem_of_list_lookup_2|done].
  - eapply (IH Hnd i j p q x y); [lia|done..].
Qed.
Lemma sample_params : rust_params (map fst sample) ∧ one_context (map fst sample) ∧ lexical (map fst sample).
Proof.
  split; [|split].
  - apply rust_params_nodup, (bool_decide_unpack _). vm_compute. exact I.
  - intros p q x y Hp Hq Hx Hy.
    assert (H : forallb (λ p, forallb (λ x, Nat.eqb (ctx x) 0) (bindings p)) (map fst sample) = true) by done.
    rewrite forallb_forall in H. apply elem_of_list_In in Hp, Hq, Hx, Hy.
    pose proof (H _ Hp) as H1. pose proof (H _ Hq) as H2. rewrite forallb_forall in H1, H2.
    apply H1 in Hx. apply H2 in Hy. apply Nat.eqb_eq in Hx, Hy. congruence.
  - intros p x Hp Hx.
    assert (H : forallb (λ p, forallb (λ x, negb (has_hash (name x))) (bindings p)) (map fst sample) = true) by done.
    rewrite forallb_forall in H. apply elem_of_list_In in Hp, Hx. apply H in Hp. rewrite forallb_forall in Hp.
    apply Hp in Hx. by apply negb_true_iff.
Qed.
Example C29_names_example :
  arg_names (map fst sample) = ["a"; "__arg_1"; "__arg_2"; "__arg_3"; "b"] ∧ NoDup (arg_names (map fst sample)).
Proof. split; [by vm_compute|]. destruct sample_params as (? & ? & ?). by apply C29_names_partial. Qed.
Example C29_kept_example : arg_names (map fst sample) !! 4 = Some "b".
Proof. by apply (C29_kept (map fst sample) 4 false false (id "b") None). Qed.
Lemma sample_names (ok : string → bool) :
  forallb ok ["a"; "__arg_1"; "b"] = true →
  ∀ b m x s, PIdent b m x s ∈ map fst sample → ok (ident_text x) = true ∧ raw x = false.
Proof.
  intros H b m x s Hin. rewrite forallb_forall in H. cbn in Hin. rewrite !elem_of_cons, elem_of_nil in Hin.
  destruct Hin as [E|[E|[E|[E|[E|[]]]]]]; try discriminate E; injection E as -> -> -> ->;
    split; try done; apply H; cbn; tauto.
Qed.
Example C29_c_example : ∃ names, length names = 5 ∧ NoDup names ∧
  reads (proto_text LC (export_item "f" sample TVoid))
    (CFun (CBase "void") (c_params names (map snd sample))) (Some "f").
Proof.
  destruct sample_params as (? & ? & ?). apply (C29_c_partial "f" sample TVoid); try done.
  - by apply sample_names.
  - intros p Hp. assert (HH : forallb (λ p, printable p.2 && negb (is_void p.2)) sample = true) by done.
    rewrite forallb_forall in HH. apply elem_of_list_In, HH in Hp. apply andb_true_iff in Hp as [Hp1 Hp2].
    split; [done|]. by apply negb_true_iff.
Qed.
Example C29_csharp_example : ∃ names, length names = 5 ∧ NoDup names ∧
  cs_reads (proto_text LCSharp (export_item "f" sample TVoid)) ("void", 0) "f"
    (csharp_params names (map snd sample)).
Proof.
  destruct sample_params as (? & ? & ?). apply (C29_csharp_partial "f" sample TVoid); try done.
  by apply sample_names.
Qed.
Example C29_python_example : ∃ names, length names = 5 ∧ NoDup names ∧
  reads (proto_text LPython (export_item "f" sample (TAlias "Id" (TInt U64))))
    (CFun (CBase "uint64_t") (c_params names (map (λ p, unalias p.2) sample))) (Some "f").
Proof.
  destruct sample_params as (? & ? & ?). apply (C29_python_partial "f" sample (TAlias "Id" (TInt U64))); try done.
  - by apply sample_names.
  - intros p Hp. assert (HH : forallb (λ p, printable (unalias p.2) && negb (is_void (unalias p.2)) && py_ok p.2)
                                sample = true) by done.
    rewrite forallb_forall in HH. apply elem_of_list_In, HH in Hp. rewrite !andb_true_iff in Hp.
    destruct Hp as [[Hp1 Hp2] Hp3]. split; [done|]. split; [by apply negb_true_iff|done].
Qed.

(** [macro_rules! m {( $x:ident ) => ( #[ffi_export] fn f (a: i32, $x: u8) {} )} m!(a);]
    Rust tells the two parameters apart, the header does not. *)
Theorem C29_macro_refuted : ∃ ps, rust_params ps ∧ lexical ps ∧ ¬ NoDup (arg_names ps).
Proof.
  exists [PIdent false false (Ident false "a" 1) None; PIdent false false (Ident false "a" 0) None].
  split; [|split].
  - apply rust_params_nodup, (bool_decide_unpack _). vm_compute. exact I.
  - intros p x Hp Hx. rewrite !elem_of_cons, elem_of_nil in Hp. destruct Hp as [->|[->|[]]]; cbn in Hx;
      rewrite elem_of_cons, elem_of_nil in Hx; destruct Hx as [->|[]]; done.
  - intros H. apply NoDup_cons in H as [H _]. apply H. left.
Qed.
(** A parameter [r#type] is printed as it is written in Rust. *)
Theorem C29_raw_refuted : ∃ ps n, rust_params ps ∧ one_context ps ∧ lexical ps ∧
  n ∈ arg_names ps ∧ has_hash n = true.
Proof.
  exists [PIdent false false (Ident true "type" 0) None], "r#type". split; [|split; [|split]].
  - intros i j p q x y Hne Hp Hq. destruct i as [|i], j as [|j]; try done.
  - intros p q x y ->%elem_of_list_singleton ->%elem_of_list_singleton
      ->%elem_of_list_singleton ->%elem_of_list_singleton. done.
  - intros p x ->%elem_of_list_singleton ->%elem_of_list_singleton. done.
  - split; [left|done].
Qed.
(** [fn f (int: i32)]: not a C declaration of any function. *)
Theorem C29_keyword_refuted : ∃ ps, rust_params (map fst ps) ∧
  ∀ t x, ¬ reads (proto_text LC (export_item "f" ps TVoid)) t x.
Proof.
  exists [(PIdent false false (id "int") None, TInt I32)]. split.
  - intros i j p q x y Hne Hp Hq. destruct i as [|i], j as [|j]; try done.
  - intros t x [fuel H]. specialize (H (fuel + 10) ltac:(lia)).
    replace (fuel + 10) with (10 + fuel) in H by lia. vm_compute in H. discriminate H.
Qed.
(** [fn f (event: i32)] in C#. *)
Theorem C29_csharp_keyword_refuted : ∃ ps, rust_params (map fst ps) ∧
  ∀ r n qs, ¬ cs_reads (proto_text LCSharp (export_item "f" ps TVoid)) r n qs.
Proof.
  exists [(PIdent false false (id "event") None, TInt I32)]. split.
  - intros i j p q x y Hne Hp Hq. destruct i as [|i], j as [|j]; try done.
  - intros r n qs (rest & H & H'). vm_compute in H. injection H as <- <- <-.
    destruct qs as [|[]]; [discriminate H'|]. cbn in H'. discriminate H'.
Qed.
(** [fn f (x: ())]: C has no such parameter. *)
Theorem C29_unit_refuted : ∃ ps, rust_params (map fst ps) ∧
  reads (proto_text LC (export_item "f" ps TVoid)) (CFun (CBase "void") [(CBase "void", Some "x")]) (Some "f").
Proof.
  exists [(PIdent false false (id "x") None, TVoid)]. split.
  - intros i j p q x y Hne Hp Hq. destruct i as [|i], j as [|j]; try done.
  - exists 10. intros fuel Hf. replace fuel with (10 + (fuel - 10)) by lia.
    generalize (fuel - 10). intros g. vm_compute. reflexivity.
Qed.

(** ** C31 *)

(** No exported function unwinds into C, whatever the functions do. *)
Theorem C31_no_unwinding dbg strict nested env fuel pk p t r f :
  kind (env f) = KExport → eval dbg strict nested env fuel pk p = Some (t, r) → EvUnwound f ∉ t.
Proof. intros Hk H. eapply runs_no_unwound; [by eapply eval_runs|]. intros pk'. unfold stopped. by rewrite Hk. Qed.
(** A call from C with valid arguments has the outcome of the body, except that
    the process aborts where the body panics. *)
Theorem C31_call dbg strict nested env pk f args t r :
  kind (env f) = KExport → all_valid (valid (env f)) args = true →
  (∃ fuel, eval dbg strict nested env fuel pk (PCSym f args PRet) = Some (t, r)) ↔
  (∃ fuel r', eval dbg strict nested env fuel pk (body (env f) args) = Some (t, r') ∧
     r = match r' with RUnwind => RAbort | _ => r' end).
Proof.
  intros Hk Hv.
  assert (HU : ∀ r, unwound strict env pk f r = []) by (intros []; [done| |done..]; unfold unwound, stopped; by rewrite Hk).
  assert (HC : ∀ r, to_c strict env pk f r = match r with RUnwind => RAbort | _ => r end)
    by (intros []; [done| |done..]; unfold to_c, stopped; by rewrite Hk).
  split.
  - intros [fuel H]. apply eval_runs, runs_call in H as [(_ & t' & r' & H & -> & ->)|(H & _)].
    + apply runs_eval in H as [n H]. exists n, r'. by rewrite HU, HC, app_nil_r.
    + by rewrite Hv in H.
  - intros (fuel & r' & H & ->). apply runs_eval, runs_call. left. split; [done|]. exists t, r'.
    rewrite HU, HC, app_nil_r. split; [|done]. by eapply eval_runs.
Qed.
(** In a debug build invalid arguments abort before the body runs. *)
Theorem C31_invalid strict nested env pk f args fuel :
  kind (env f) = KExport → length args = length (valid (env f)) → all_valid (valid (env f)) args = false →
  eval true strict nested env (S fuel) pk (PCSym f args PRet) = Some ([], RAbort).
Proof.
  intros Hk Hl Hv. rewrite eval_sym, Hv by done. unfold unwound, to_c, bad_param, stopped. rewrite Hk.
  unfold panics. by destruct pk, nested.
Qed.
(** Whole executions are those of the specification. *)
Theorem C31_adequate dbg strict nested env pk p t r :
  (∃ fuel, eval dbg strict nested env fuel pk p = Some (t, r)) ↔ runs dbg strict nested env pk p t r.
Proof. split; [intros [n H]; by eapply eval_runs|apply runs_eval]. Qed.

(** [inner] panics on 0; [outer] calls it from C with its argument, in
    [catch_unwind], with a local whose destructor has an effect. *)
Definition world (f : string) : efn :=
  if String.eqb f "inner" then
    EFn KExport [λ _, true] (λ vs, match vs with [0%N] => PEmit 1 PPanic | v :: _ => PRet (v + 1) | [] => PPanic end)
  else
    EFn KExport [λ b, N.ltb b 2]
      (λ vs, PScope (PCatch (PCSym "inner" vs PRet) (λ o, match o with Some v => PRet (v * 10) | None => PRet 7 end))
               (PEmit 2 (PRet 0))).
Example C31_example strict nested :
  eval true strict nested world 9 false (PCSym "outer" [1%N] PRet) = Some ([EvOut 2], RRet 20) ∧
  eval true strict nested world 9 false (PCSym "outer" [0%N] PRet) = Some ([EvOut 1], RAbort) ∧
  eval true strict nested world 9 false (PCSym "outer" [2%N] PRet) = Some ([], RAbort) ∧
  eval true strict nested world 9 false (body (world "inner") [0%N]) = Some ([EvOut 1], RUnwind) ∧
  all_valid (valid (world "outer")) [0%N] = true ∧ all_valid (valid (world "outer")) [2%N] = false.
Proof. by destruct strict. Qed.
Example C31_call_example strict nested : ∃ fuel,
  eval false strict nested world fuel false (PCSym "inner" [0%N] PRet) = Some ([EvOut 1], RAbort).
Proof. apply C31_call; [done..|]. by exists 3, RUnwind. Qed.
Example C31_invalid_example nested :
  eval true false nested world 1 false (PCSym "outer" [2%N] PRet) = Some ([], RAbort).
Proof. by apply C31_invalid. Qed.

(** ** C60 *)

(** With a compiler that aborts when [extern "C"] functions unwind, nothing
    unwinds into C.
    Missing: the compiler that the repository asks for (1.72.1) does not, see
    [C60_call_refuted], [C60_free_refuted], [C60_virtual_refuted]. *)
Theorem C60_no_unwinding_partial dbg nested env fuel pk p t r f :
  eval dbg true nested env fuel pk p = Some (t, r) → EvUnwound f ∉ t.
Proof.
  intros H. eapply runs_no_unwound; [by eapply eval_runs|]. intros pk'. unfold stopped. by destruct (kind (env f)).
Qed.
(** Otherwise callbacks, destructors and virtual methods must not panic.
    Missing: those that do. *)
Theorem C60_calm_partial dbg strict nested env fuel pk p t r f :
  (∀ pk vs n t, all_valid (valid (env f)) vs = true → eval dbg strict nested env n pk (body (env f) vs) ≠ Some (t, RUnwind)) →
  (kind (env f) = KVirtual → dbg = false) → kind (env f) ≠ KExport →
  eval dbg strict nested env fuel pk p = Some (t, r) → EvUnwound f ∉ t.
Proof.
  intros Hb Hd Hk H. eapply runs_calm; [by eapply eval_runs| |].
  - intros pk' vs t' Hv Hr. apply runs_eval in Hr as [n Hr]. by apply Hb in Hr.
  - intros pk'. unfold bad_param. destruct (kind (env f)); try done. by rewrite Hd.
Qed.
(** What a call from C through a pointer does: with valid arguments exactly what
    the body does, except that a panic aborts the process with a recent compiler,
    and unwinds into C with an older one. *)
Theorem C60_exact dbg strict nested env pk f args t r :
  kind (env f) ≠ KExport → kind (env f) ≠ KJs → all_valid (valid (env f)) args = true →
  (∃ fuel, eval dbg strict nested env fuel pk (PCSym f args PRet) = Some (t, r)) ↔
  (∃ fuel t' r', eval dbg strict nested env fuel pk (body (env f) args) = Some (t', r') ∧
     match r' with
     | RUnwind => if strict then t = t' ∧ r = RAbort else t = t' ++ [EvUnwound f] ∧ r = RUB
     | _ => t = t' ∧ r = r'
     end).
Proof.
  intros Hk Hj Hv. assert (HS : stopped strict env pk f = strict) by (unfold stopped; by destruct (kind (env f))).
  assert (HE : ∀ t' r', (t = t' ++ unwound strict env pk f r' ∧ r = to_c strict env pk f r') ↔
     match r' with
     | RUnwind => if strict then t = t' ∧ r = RAbort else t = t' ++ [EvUnwound f] ∧ r = RUB
     | _ => t = t' ∧ r = r'
     end).
  { intros t' []; unfold unwound, to_c; rewrite ?HS; try destruct strict; by rewrite ?app_nil_r. }
  split.
  - intros [fuel H]. apply eval_runs, runs_call in H as [(_ & t' & r' & H & HH)|(H & _)].
    + apply runs_eval in H as [n H]. exists n, t', r'. split; [done|]. by apply HE.
    + by rewrite Hv in H.
  - intros (fuel & t' & r' & H & HH). apply runs_eval, runs_call. left. split; [done|]. exists t', r'.
    split; [by eapply eval_runs|]. by apply HE.
Qed.

(** A callback that panics on 0, with its destructor and a method that takes a
    [bool]. *)
Definition pointers (f : string) : efn :=
  if String.eqb f "call" then
    EFn KCall [λ _, true] (λ vs, match vs with [0%N] => PEmit 1 PPanic | v :: _ => PRet (v + 1) | [] => PPanic end)
  else if String.eqb f "free" then EFn KFree [] (λ _, PScope (PEmit 3 (PRet 0)) PPanic)
  else if String.eqb f "method" then
    EFn KVirtual [λ b, N.ltb b 2] (λ vs, match vs with [1%N] => PPanic | _ => PRet 5 end)
  else if String.eqb f "calm" then
    EFn KCall [λ _, true] (λ vs, PCatch (PRust "call" vs PRet) (λ o, PRet (match o with Some v => v | None => 99 end)))
  else EFn KExport [] (λ _, PCSym "call" [0%N] PRet).
Example C60_example nested :
  eval false true nested pointers 9 false (PCSym "call" [0%N] PRet) = Some ([EvOut 1], RAbort) ∧
  eval false true nested pointers 9 false (PCSym "free" [] PRet) = Some ([EvOut 3], RAbort) ∧
  eval false true nested pointers 9 false (PCSym "method" [1%N] PRet) = Some ([], RAbort) ∧
  eval false false nested pointers 9 false (PCSym "method" [0%N] PRet) = Some ([], RRet 5) ∧
  eval false false nested pointers 9 false (PCSym "calm" [0%N] PRet) = Some ([EvOut 1], RRet 99) ∧
  eval false false nested pointers 9 false (PCSym "f" [] PRet) = Some ([EvOut 1; EvUnwound "call"], RUB) ∧
  all_valid (valid (pointers "call")) [0%N] = true.
Proof. by destruct nested. Qed.
Example C60_exact_example nested : ∃ fuel,
  eval false false nested pointers fuel false (PCSym "call" [0%N] PRet) = Some ([EvOut 1; EvUnwound "call"], RUB).
Proof. apply C60_exact; [done..|]. by exists 3, [EvOut 1], RUnwind. Qed.
Example C60_calm_example nested fuel pk p t r :
  eval false false nested pointers fuel pk p = Some (t, r) → EvUnwound "calm" ∉ t.
Proof.
  apply C60_calm_partial; [|done..]. intros pk' vs n t' _ H. apply eval_runs in H. cbn in H.
  inversion H; subst; try (by match goal with H : runs _ _ _ _ _ (PRet _) _ _ |- _ => inversion H end).
  by match goal with H : _ ∨ _ |- _ => destruct H end.
Qed.

(** With the compiler that the repository asks for: a closure unwinds into the C
    code that called it, *)
Theorem C60_call_refuted : ∃ env f args t,
  kind (env f) = KCall ∧ all_valid (valid (env f)) args = true ∧
  eval false false true env 3 false (PCSym f args PRet) = Some (t ++ [EvUnwound f], RUB).
Proof. by exists pointers, "call", [0%N], [EvOut 1]. Qed.
(** so does the destructor of a closure or of an object, *)
Theorem C60_free_refuted : ∃ env f t,
  kind (env f) = KFree ∧ eval false false true env 9 false (PCSym f [] PRet) = Some (t ++ [EvUnwound f], RUB).
Proof. by exists pointers, "free", [EvOut 3]. Qed.
(** and a virtual method, which in debug builds does so before it starts if an
    argument is invalid. *)
Theorem C60_virtual_refuted : ∃ env f args args',
  kind (env f) = KVirtual ∧
  all_valid (valid (env f)) args = true ∧
  eval false false true env 3 false (PCSym f args PRet) = Some ([EvUnwound f], RUB) ∧
  all_valid (valid (env f)) args' = false ∧
  eval true false true env 3 false (PCSym f args' PRet) = Some ([EvUnwound f], RUB).
Proof. by exists pointers, "method", [1%N], [2%N]. Qed.

(** ** C61 *)

(** A JS function called from C: if the thread is not panicking, a panic (of the
    conversions, or because JS threw) aborts the process. *)
Theorem C61_call dbg strict nested env f args t r :
  kind (env f) = KJs → all_valid (valid (env f)) args = true →
  (∃ fuel, eval dbg strict nested env fuel false (PCSym f args PRet) = Some (t, r)) ↔
  (∃ fuel r', eval dbg strict nested env fuel false (body (env f) args) = Some (t, r') ∧
     r = match r' with RUnwind => RAbort | _ => r' end).
Proof.
  intros Hk Hv. assert (HS : stopped strict env false f = true).
  { unfold stopped. rewrite Hk. by destruct strict. }
  assert (HU : ∀ r, unwound strict env false f r = []) by (intros []; [done| |done..]; unfold unwound; by rewrite HS).
  assert (HC : ∀ r, to_c strict env false f r = match r with RUnwind => RAbort | _ => r end)
    by (intros []; [done| |done..]; unfold to_c; by rewrite HS).
  split.
  - intros [fuel H]. apply eval_runs, runs_call in H as [(_ & t' & r' & H & -> & ->)|(H & _)].
    + apply runs_eval in H as [n H]. exists n, r'. by rewrite HU, HC, app_nil_r.
    + by rewrite Hv in H.
  - intros (fuel & r' & H & ->). apply runs_eval, runs_call. left. split; [done|]. exists t, r'.
    rewrite HU, HC, app_nil_r. split; [|done]. by eapply eval_runs.
Qed.
(** With a standard library in which panicking while panicking aborts at once,
    which is what the code relies on, no JS function unwinds into C.
    Missing: more recent ones, see [C61_nested_refuted]. *)
Theorem C61_no_unwinding_partial dbg strict env fuel pk p t r f :
  kind (env f) = KJs → eval dbg strict false env fuel pk p = Some (t, r) → EvUnwound f ∉ t.
Proof.
  intros Hk H. eapply runs_calm; [by eapply eval_runs| |].
  - intros [] vs t' Hv Hr; [by apply runs_panicking in Hr|]. unfold stopped. rewrite Hk. by destruct strict.
  - intros pk'. unfold bad_param. by rewrite Hk.
Qed.

(** A JS function that throws on 0, and one that also catches. *)
Definition js_world (f : string) : efn :=
  if String.eqb f "js" then EFn KJs [λ _, true] (λ vs, match vs with [0%N] => PEmit 1 PPanic | _ => PRet 4 end)
  else EFn KExport [] (λ _, PCatch (PScope PPanic (PCatch (PCSym "js" [0%N] PRet) (λ _, PRet 0))) (λ _, PRet 0)).
Example C61_example strict :
  eval false strict true js_world 9 false (PCSym "js" [0%N] PRet) = Some ([EvOut 1], RAbort) ∧
  eval false strict true js_world 9 false (PCSym "js" [1%N] PRet) = Some ([], RRet 4) ∧
  eval false strict true js_world 9 true (PCSym "js" [1%N] PRet) = Some ([], RRet 4) ∧
  eval false strict true js_world 9 false (PCatch (PRust "js" [0%N] PRet) (λ _, PRet 0)) = Some ([EvOut 1], RAbort) ∧
  eval false strict false js_world 9 false (PCSym "other" [] PRet) = Some ([EvOut 1], RAbort).
Proof. by destruct strict. Qed.
Example C61_call_example strict nested : ∃ fuel,
  eval false strict nested js_world fuel false (PCSym "js" [0%N] PRet) = Some ([EvOut 1], RAbort).
Proof. apply C61_call; [done..|]. by exists 3, RUnwind. Qed.

(** The guard is left out when the thread is panicking: a callback called by the
    destructor of a local, while another panic unwinds, unwinds into C. *)
Theorem C61_nested_refuted : ∃ env f p,
  kind (env f) = KJs ∧ eval false false true env 9 false p = Some ([EvOut 1; EvUnwound f], RUB).
Proof. by exists js_world, "js", (PCSym "other" [] PRet). Qed.

(** ** C32 *)

(** A function that is not [async] has one symbol, the name asked for, and the
    header declares that name. *)
Theorem C32_sync is_ident c ts f es :
  ffi_export is_ident c ts f = Some es → is_async f = false → wasm c = false →
  syms es = [wanted ts f] ∧ header_names es = (if f_headers c then [wanted ts f] else []).
Proof.
  intros H Ha Hw. apply ffi_export_sync in H as (_ & H1 & H2 & _); [|done].
  rewrite Hw in H1, H2. by rewrite andb_true_r in H2.
Qed.
(** It has that name in JS too.
    Missing: blanks around the name, see [C32_blank_refuted]. *)
Theorem C32_js_partial is_ident c ts f es :
  ffi_export is_ident c ts f = Some es → is_async f = false → tight (wanted ts f) →
  js_names es = (if f_js c && has_js ts then [wanted ts f] else []).
Proof.
  intros H Ha Ht. apply ffi_export_sync in H as (_ & _ & _ & H); [|done]. rewrite H. unfold wanted in *.
  destruct (renamed ts); [|done]. by rewrite Ht.
Qed.
(** An [async] function has its own name.
    Missing: [rename], see [C32_async_refuted]. *)
Theorem C32_async_partial is_ident c ts f es :
  ffi_export is_ident c ts f = Some es → is_async f = true → f_js c = false → wasm c = false →
  renamed ts = None →
  syms es = [wanted ts f] ∧ header_names es = (if f_headers c then [wanted ts f] else []).
Proof.
  intros H Ha Hj Hw Hr. apply ffi_export_async in H as (_ & _ & H); [|done]. rewrite Hj, Hw in H.
  unfold wanted. rewrite Hr. destruct H as (H1 & H2 & _). by rewrite andb_true_r in H2.
Qed.
(** In JS [rename] works for [async] functions. *)
Theorem C32_async_js_partial is_ident c ts f es :
  ffi_export is_ident c ts f = Some es → is_async f = true → f_js c = true → tight (wanted ts f) →
  syms es = [] ∧ js_names es = (if has_js ts then [wanted ts f] else []).
Proof.
  intros H Ha Hj Ht. apply ffi_export_async in H as (_ & _ & H); [|done]. rewrite Hj in H.
  destruct H as (H1 & _ & H3). split; [done|]. rewrite H3. unfold wanted in *.
  destruct (renamed ts); [|done]. by rewrite Ht.
Qed.

Definition any_ident (s : string) : bool := negb (has_hash s).
Definition native : features := Features false true true false.
Definition node : features := Features true true true false.
Definition plain_fn : fnitem := FnItem (id "f") false false false None.
Definition async_fn : fnitem := FnItem (id "f") true true false None.
Example C32_sync_example :
  ffi_export any_ident node [ARename "g"; AComma; AJs false] plain_fn = Some [ESym "g"; EJs "g"; EHeader "g"] ∧
  ffi_export any_ident node [AJs true; ARename "g"] plain_fn = Some [ESym "g"; EJs "g"; EHeader "g"] ∧
  ffi_export any_ident native [] plain_fn = Some [ESym "f"; EHeader "f"] ∧
  ffi_export any_ident native [ARename "g"; ARename "h"] plain_fn = None ∧
  tight "g".
Proof. by vm_compute. Qed.
Example C32_async_example :
  ffi_export any_ident native [AExec] async_fn = Some [ESym "f"; EHeader "f"] ∧
  ffi_export any_ident node [AExec; AComma; AJs false; AComma; ARename "g"] async_fn = Some [EJs "g"].
Proof. by vm_compute. Qed.

(** [rename] on an [async] function has no effect on the symbol. *)
Theorem C32_async_refuted : ∃ ts es,
  ffi_export any_ident native ts async_fn = Some es ∧ renamed ts = Some "g" ∧
  syms es = ["f"] ∧ header_names es = ["f"].
Proof. exists [AExec; AComma; ARename "g"]. eexists. split; [vm_compute; reflexivity|]. done. Qed.
(** With blanks around the name the symbol has them too, and JS does not. *)
Theorem C32_blank_refuted : ∃ ts es,
  ffi_export any_ident node ts plain_fn = Some es ∧ syms es = ["g "] ∧ js_names es = ["g"].
Proof. exists [ARename "g "; AComma; AJs false]. eexists. split; [vm_compute; reflexivity|]. done. Qed.
(** With the feature [js], an [async] function not marked [js] is not exported
    at all. *)
Theorem C32_js_feature_refuted : ∃ ts,
  ffi_export any_ident node ts async_fn = Some [] ∧ renamed ts = Some "g".
Proof. by exists [AExec; AComma; ARename "g"]. Qed.

Print Assumptions C29_names_partial.
Print Assumptions C29_kept.
Print Assumptions C29_c_partial.
Print Assumptions C29_csharp_partial.
Print Assumptions C29_python_partial.
Print Assumptions C29_macro_refuted.
Print Assumptions C29_raw_refuted.
Print Assumptions C29_keyword_refuted.
Print Assumptions C29_csharp_keyword_refuted.
Print Assumptions C29_unit_refuted.
Print Assumptions C31_no_unwinding.
Print Assumptions C31_call.
Print Assumptions C31_invalid.
Print Assumptions C31_adequate.
Print Assumptions C60_no_unwinding_partial.
Print Assumptions C60_calm_partial.
Print Assumptions C60_exact.
Print Assumptions C60_call_refuted.
Print Assumptions C60_free_refuted.
Print Assumptions C60_virtual_refuted.
Print Assumptions C61_call.
Print Assumptions C61_no_unwinding_partial.
Print Assumptions C61_nested_refuted.
Print Assumptions C32_sync.
Print Assumptions C32_js_partial.
Print Assumptions C32_async_partial.
Print Assumptions C32_async_js_partial.
Print Assumptions C32_async_refuted.
Print Assumptions C32_blank_refuted.
Print Assumptions C32_js_feature_refuted.
