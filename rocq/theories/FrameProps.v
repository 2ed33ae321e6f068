(** C62 and C63: the frame of a header and the names in it. *)

From Coq Require Import NArith List Bool Lia String Ascii.
From stdpp Require Import base numbers list.
From Verif Require Import HeaderModel FrameModel FrameSpec FrameProofs.

(** ** C62: a header can be included by C and C++, any number of times *)

Definition guard_for (o : options) (e : vars) : text := guard_of o (default [] (lib_name e)).
(** The text the user asked for after the guard, [defs] being defined, is read as [oa], leaving [da]. *)
Definition after_reads (o : options) (defs : list text) (oa da : list text) : Prop :=
  match o_text_after_guard o with
  | None => oa = [] ∧ da = defs
  | Some s => preprocess false defs (s ++ [nl]) = Some (oa, da)
  end.

Lemma generate_c o e body file : generate LC o e body = Some file →
  file = default default_banner (o_banner o) ++ nl ::
    c_prelude (guard_for o e) (text_after_guard o) ++ [nl] ++ body ++ c_epilogue (guard_for o e).
Proof.
  assert (HI : ∀ x y : text, Some x = Some y → x = y) by congruence.
  unfold generate, guard_for, guard_of, write_banner, write_prelude, write_epilogue. intros H.
  destruct (o_guard o) as [g|] eqn:Hg; [|destruct (lib_name e) as [lib|]; [|done]]; apply HI in H as <-;
    unfold guard_of; rewrite Hg; cbn [default]; rewrite <-!app_assoc; done.
Qed.
Lemma banner_ok : comments default_banner.
Proof. eexists. split; vm_compute; reflexivity. Qed.

(** First inclusion: what C sees is the text after the guard and the body; what
    C++ sees is the same with the body inside one [extern "C"] block. *)
Theorem C62_first o e body file defs oa da ob db :
  generate LC o e body = Some file →
  comments (default default_banner (o_banner o)) →
  ident (guard_for o e) = true →
  defined defs (guard_for o e) = false →
  after_reads o (guard_for o e :: defs) oa da →
  preprocess false da body = Some (ob, db) →
  defined da (tx "__cplusplus") = defined defs (tx "__cplusplus") →
  defined db (tx "__cplusplus") = defined defs (tx "__cplusplus") →
  preprocess false defs file =
  Some (oa ++ (if defined defs (tx "__cplusplus")
               then [tx "extern " ++ [dq] ++ tx "C" ++ [dq] ++ tx " {"] ++ ob ++ [tx "}"] else ob), db).
Proof.
  intros Hf Hc Hg Hd Ha Hb H1 H2. apply generate_c in Hf as ->. rewrite preprocess_run, run_comments by done.
  unfold text_after_guard.
  destruct (prelude_run (guard_for o e) (o_text_after_guard o) defs da oa [] (body ++ c_epilogue (guard_for o e)) Hg) as [HP _].
  { unfold after_reads in Ha. destruct (o_text_after_guard o); [done|]. naive_solver. }
  specialize (HP Hd). match type of HP with ?l = _ => match goal with |- context [run false defs [] ?x] =>
    change (run false defs [] x) with l end end. rewrite HP. destruct (epilogue_run (guard_for o e) da [] ob db body Hg Hb) as [HE _]. rewrite HE. cbn [seq].
  unfold cpp. rewrite H1, H2. destruct (defined defs (tx "__cplusplus")).
  - by rewrite <-!app_assoc.
  - by rewrite !app_nil_r.
Qed.
Print Assumptions C62_first.

(** With the guard defined nothing is seen, and nothing is changed. *)
Theorem C62_again o e body file defs defs0 oa da ob db :
  generate LC o e body = Some file →
  comments (default default_banner (o_banner o)) →
  ident (guard_for o e) = true →
  defined defs (guard_for o e) = true →
  after_reads o (guard_for o e :: defs0) oa da →
  preprocess false da body = Some (ob, db) →
  preprocess false defs file = Some ([], defs).
Proof.
  intros Hf Hc Hg Hd Ha Hb. apply generate_c in Hf as ->. rewrite preprocess_run, run_comments by done.
  unfold text_after_guard.
  destruct (prelude_run (guard_for o e) (o_text_after_guard o) defs0 da oa defs (body ++ c_epilogue (guard_for o e)) Hg) as [_ HP].
  { unfold after_reads in Ha. destruct (o_text_after_guard o); [done|]. naive_solver. }
  specialize (HP Hd). match type of HP with ?l = _ => match goal with |- context [run false defs [] ?x] =>
    change (run false defs [] x) with l end end. rewrite HP. destruct (epilogue_run (guard_for o e) da [] ob db body Hg Hb) as [_ HE]. by rewrite HE.
Qed.
Print Assumptions C62_again.

(** C#: the body is inside one namespace, and there is one [RustLib]. *)
Theorem C62_csharp o e lib body file defs ob db :
  generate LCSharp o e body = Some file →
  comments (default default_banner (o_banner o)) →
  lib_name e = Some lib → ident lib = true → ident (pascal_cased lib) = true →
  preprocess true defs body = Some (ob, db) →
  ∃ pragmas, (∀ l, l ∈ pragmas → take 8 l = tx "#pragma ") ∧
  preprocess true defs file = Some (
    pragmas ++
    [tx "namespace " ++ pascal_cased lib ++ tx " {";
     tx "using System;"; tx "using System.Runtime.InteropServices;";
     tx "public unsafe partial class Ffi {";
     tx "private const string RustLib = " ++
       [dq] ++ (if defined defs (tx "IOS") then lib ++ tx ".framework/" ++ lib else lib) ++ [dq] ++ tx ";";
     tx "}"] ++
    ob ++ [tx "}"], db).
Proof.
  intros Hf Hc Hl Hi Hn Hb. exists (take 7 (cs_head [])). split.
  { intros l H. repeat (apply elem_of_cons in H as [->|H]; [done|]). by apply elem_of_nil in H. }
  assert (HI : ∀ x y : text, Some x = Some y → x = y) by congruence.
  unfold generate in Hf. rewrite Hl in Hf. apply HI in Hf as <-.
  unfold write_banner, write_prelude, write_epilogue. rewrite <-!app_assoc. cbn [app].
  rewrite preprocess_run, run_comments by done. pose proof (cs_run _ _ _ _ _ _ Hn Hi Hb) as HP.
  match type of HP with ?l = _ => match goal with |- context [run true defs [] ?x] =>
    change (run true defs [] x) with l end end. rewrite HP.
  unfold cs_head, lib_const, quoted, ns_line. cbn [take app]. by destruct (defined defs (tx "IOS")); rewrite <-!app_assoc.
Qed.
Print Assumptions C62_csharp.

(** Python (what [cdef] reads): nothing is added but the banner. *)
Theorem C62_python o e body file cs defs :
  generate LPython o e body = Some file →
  comments (default default_banner (o_banner o)) →
  preprocess cs defs file = preprocess cs defs body.
Proof.
  intros Hf Hc.
  assert (E : file = write_banner o ++ body).
  { unfold generate, write_prelude, write_epilogue in Hf. cbn [app] in Hf. rewrite app_nil_r in Hf.
    destruct (o_guard o); [by injection Hf|]. destruct (lib_name e); [by injection Hf|done]. }
  subst file. unfold write_banner. rewrite <-!app_assoc. cbn [app].
  rewrite !preprocess_run, run_comments by done. done.
Qed.
Print Assumptions C62_python.

(** The default banner is fine in all of these. *)
Theorem C62_banner : comments default_banner ∧ comments (tx "// Copyright (c) 2023") ∧ comments (tx "/* a" ++ nl :: tx "b */").
Proof. split; [apply banner_ok|split; eexists; (split; vm_compute; reflexivity)]. Qed.
Print Assumptions C62_banner.

(** ** C63: the names *)

(** The default guard and the namespace are identifiers, and no keywords of C#. *)
Theorem C63_guard_ident o lib : o_guard o = None → forallb ident_char lib = true → ident (guard_of o lib) = true.
Proof.
  intros Hg H. unfold guard_of. rewrite Hg. change (ident (tx "__RUST_" ++ map upper lib ++ tx "__"))
    with (forallb ident_char (tx "_RUST_" ++ map upper lib ++ tx "__")).
  rewrite !forallb_app. change (forallb ident_char (tx "_RUST_")) with true. change (forallb ident_char (tx "__")) with true.
  rewrite andb_true_r, andb_true_l. clear Hg. induction lib as [|c lib IH]; [done|]. cbn [map forallb] in *.
  apply andb_true_iff in H as [H1 H2]. rewrite upper_ident by done. by apply IH.
Qed.
Theorem C63_namespace_ident lib : ident lib = true →
  ident (pascal_cased lib) = true ∧ pascal_cased lib ∉ cs_keywords.
Proof.
  destruct lib as [|c lib]; [done|]. cbn [ident]. intros H. apply andb_true_iff in H as [H1 H2].
  destruct (upper_start _ H1) as [H3 H4]. unfold pascal_cased. cbn [pascal]. split.
  - cbn [ident]. rewrite H3. by apply pascal_ident.
  - intros Hk. assert (HF : Forall (λ k, match k with c :: _ => lower_case c = true | [] => False end) cs_keywords)
      by (repeat constructor).
    rewrite Forall_forall in HF. specialize (HF _ Hk). cbn in HF. congruence.
Qed.
Print Assumptions C63_guard_ident.
Print Assumptions C63_namespace_ident.

(** Libraries have the same default guard exactly when their names are equal up to case. *)
Theorem C63_guard_exact o a b : o_guard o = None → guard_of o a = guard_of o b ↔ Forall2 same_letter a b.
Proof.
  intros Hg. unfold guard_of. rewrite Hg, <-map_upper_same. split; [|by intros ->].
  intros H. apply app_inv_head in H. by apply app_inv_tail in H.
Qed.
Theorem C63_guard_distinct_partial o a b : o_guard o = None →
  forallb (λ c, negb (upper_case c)) a = true → forallb (λ c, negb (upper_case c)) b = true →
  guard_of o a = guard_of o b → a = b.
Proof.
  intros Hg Ha Hb H. apply C63_guard_exact in H; [|done]. clear Hg. induction H as [|x y a b Hx HF IH]; [done|].
  cbn [forallb] in *. apply andb_true_iff in Ha as [Ha1 Ha2], Hb as [Hb1 Hb2]. f_equal; [|by apply IH].
  destruct Hx as [Hx|(H1 & H2 & H3)]; [done|]. exfalso. unfold is_letter, upper_case in *. lia.
Qed.
(** Refuted: libraries whose names differ in case share the guard, so of the
    second header nothing is seen. *)
Theorem C63_guard_refuted : ∃ e1 e2 body1 body2 file1 file2 d,
  lib_name e1 ≠ lib_name e2 ∧
  generate LC (Options None None None) e1 body1 = Some file1 ∧
  generate LC (Options None None None) e2 body2 = Some file2 ∧
  preprocess false [] file1 = Some ([tx "int f (void);"], d) ∧
  preprocess false [] file2 = Some ([tx "int g (void);"], d) ∧
  preprocess false d file2 = Some ([], d).
Proof.
  exists (Vars (Some (tx "Core")) None), (Vars (Some (tx "core")) None), (lines [tx "int f (void);"]), (lines [tx "int g (void);"]).
  do 2 eexists. exists [tx "__RUST_CORE__"]. split; [done|]. split; [vm_compute; reflexivity|]. split; [vm_compute; reflexivity|].
  split; [|split]; vm_compute; reflexivity.
Qed.
Print Assumptions C63_guard_exact.
Print Assumptions C63_guard_distinct_partial.
Print Assumptions C63_guard_refuted.

(** Namespaces tell libraries apart whose names are words that start with
    letters, joined by underscores. *)
Theorem C63_namespace_distinct_partial a b : snake true a = true → snake true b = true →
  pascal_cased a = pascal_cased b → a = b.
Proof. intros Ha Hb H. by eapply pascal_inj. Qed.
Theorem C63_namespace_refuted : ∃ a b c d, Forall (λ s, ident s = true) [a; b; c; d] ∧
  a ≠ b ∧ pascal_cased a = pascal_cased b ∧ c ≠ d ∧ pascal_cased c = pascal_cased d.
Proof. exists (tx "core_2"), (tx "core2"), (tx "fooBar"), (tx "foo_bar"). split; [repeat constructor|]. split; [done|]. split; [done|]. by split. Qed.
Print Assumptions C63_namespace_distinct_partial.
Print Assumptions C63_namespace_refuted.

(** Without the environment variables there is a panic, if the name is needed. *)
Theorem C63_panics l o e body :
  generate l o e body = None ↔
  crate_name e = None ∧ pkg_name e = None ∧ (l = LCSharp ∨ o_guard o = None).
Proof.
  unfold generate, lib_name. destruct l, (o_guard o), (crate_name e), (pkg_name e); naive_solver.
Qed.
(** The crate's name is preferred; dashes in a package's name become underscores. *)
Theorem C63_lib_name e lib : lib_name e = Some lib →
  match crate_name e with
  | Some s => lib = s
  | None => ∃ s, pkg_name e = Some s ∧ Forall2 (λ x y, x = "-"%char ∧ y = "_"%char ∨ x ≠ "-"%char ∧ x = y) s lib
  end.
Proof.
  unfold lib_name. destruct (crate_name e); [by intros [= ->]|]. destruct (pkg_name e) as [s|]; [|done].
  intros [= <-]. exists s. split; [done|]. induction s as [|c s IH]; constructor; [|done].
  unfold dash. destruct (Ascii.eqb_spec c "-"); auto.
Qed.
Print Assumptions C63_panics.
Print Assumptions C63_lib_name.

Example C63_example : pascal_cased (tx "my_lib2_core") = tx "MyLib2Core" ∧ pascal_cased (tx "_x") = tx "_x" ∧
  snake true (tx "my_lib2_core") = true ∧ ident (tx "my_lib2_core") = true ∧
  guard_of (Options None None None) (tx "my_lib2") = tx "__RUST_MY_LIB2__" ∧
  pascal_cased (tx "namespace") = tx "Namespace".
Proof. vm_compute. auto 10. Qed.

(** ** Examples for C62 *)

Definition ex_vars := Vars None (Some (tx "my-lib")).
Definition ex_opts := Options None (Some (tx "#include <stdint.h>")) None.
Definition ex_body := lines [[]; tx "/** \brief"; tx " *  Adds: see http://x.y"; tx " */"; tx "int32_t add (int32_t a);"; []].
Example C62_example_c :
  ∃ file, generate LC ex_opts ex_vars ex_body = Some file ∧
  preprocess false [] file = Some ([tx "#include <stdint.h>"; tx "int32_t add (int32_t a);"], [tx "__RUST_MY_LIB__"]) ∧
  preprocess false [tx "__cplusplus"] file = Some (
    [tx "#include <stdint.h>"; tx "extern " ++ quoted (tx "C") ++ tx " {"; tx "int32_t add (int32_t a);"; tx "}"],
    [tx "__RUST_MY_LIB__"; tx "__cplusplus"]) ∧
  preprocess false [tx "__RUST_MY_LIB__"] file = Some ([], [tx "__RUST_MY_LIB__"]).
Proof. eexists. split; [vm_compute; reflexivity|]. split; [|split]; vm_compute; reflexivity. Qed.
Example C62_example_hypotheses :
  ident (guard_for ex_opts ex_vars) = true ∧ guard_for ex_opts ex_vars = tx "__RUST_MY_LIB__" ∧
  after_reads ex_opts [tx "__RUST_MY_LIB__"] [tx "#include <stdint.h>"] [tx "__RUST_MY_LIB__"] ∧
  preprocess false [tx "__RUST_MY_LIB__"] ex_body = Some ([tx "int32_t add (int32_t a);"], [tx "__RUST_MY_LIB__"]).
Proof. vm_compute. auto. Qed.
Example C62_example_csharp :
  ∃ file, generate LCSharp ex_opts ex_vars (lines [tx "enum E { A }"]) = Some file ∧
  option_map (λ r, skipn 7 r.1) (preprocess true [] file) = Some
    [tx "namespace MyLib {"; tx "using System;"; tx "using System.Runtime.InteropServices;";
     tx "public unsafe partial class Ffi {";
     tx "private const string RustLib = " ++ quoted (tx "my_lib") ++ tx ";"; tx "}";
     tx "enum E { A }"; tx "}"].
Proof. eexists. split; vm_compute; reflexivity. Qed.
