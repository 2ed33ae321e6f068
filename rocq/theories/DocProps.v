(** Theorems about documentation in headers: C30. *)

From Coq Require Import NArith List Bool Lia String Ascii.
From stdpp Require Import base numbers list strings.
From Verif Require Import NameModel NameSpec DocModel DocSpec DocProofs.
Local Open Scope N_scope.

(** Two headers that differ in documentation differ in comments only.
    Missing: documentation that is not [harmless], see the refutations. *)
Theorem C30_comments_partial l ws ps ps' :
  (∀ c, c < 128 → ws c = ascii_ws c) →
  Forall2 (λ p p' : nat * list (list N) * list N, p.1.1 = p'.1.1 ∧ p.2 = p'.2) ps ps' →
  Forall (λ p : nat * list (list N) * list N, Forall (harmless l ws) p.1.2 ∧ whole l p.2) ps →
  Forall (λ p : nat * list (list N) * list N, Forall (harmless l ws) p.1.2) ps' →
  same l (read_header l (header l ws ps)) (read_header l (header l ws ps')).
Proof.
  intros HW H2 H Hd'.
  assert (H' : Forall (λ p : nat * list (list N) * list N, Forall (harmless l ws) p.1.2 ∧ whole l p.2) ps').
  { clear HW. induction H2 as [|p p' ps ps' [_ E] _ IH]; [constructor|].
    inversion_clear H as [|? ? [_ Hw]]. inversion_clear Hd'. constructor; [by rewrite <-E|auto]. }
  destruct l.
  - cbn [read_header same]. rewrite (c_header ws HW ps), (c_header ws HW ps') by done. f_equal.
    clear -H2. induction H2 as [|p p' ps ps' [E1 E2] _ IH]; [done|]. cbn [code_only]. by rewrite E1, E2, IH.
  - cbn [read_header same]. destruct (cs_header ws HW ps H) as [-> ->]. destruct (cs_header ws HW ps' H') as [-> ->].
    split; [done|]. f_equal. clear -H2. induction H2 as [|p p' ps ps' [_ E] _ IH]; [done|]. cbn [flat_map].
    by rewrite E, IH.
  - cbn [same]. f_equal. clear -H2. induction H2 as [|p p' ps ps' [_ E] _ IH]; [done|].
    unfold header. cbn [flat_map]. fold (header LPython ws ps) (header LPython ws ps'). by rewrite E, IH.
Qed.

(** Python headers: whatever the documentation. *)
Theorem C30_python ws ps ps' :
  Forall2 (λ p p' : nat * list (list N) * list N, p.2 = p'.2) ps ps' → header LPython ws ps = header LPython ws ps'.
Proof.
  induction 1 as [|p p' ps ps' E _ IH]; [done|]. unfold header. cbn [flat_map].
  fold (header LPython ws ps) (header LPython ws ps'). by rewrite E, IH.
Qed.

(** A struct with documentation on it and on its field. *)
Definition sample (a b : list (list N)) : list (nat * list (list N) * list N) :=
  [(0%nat, a, chars "typedef struct A {" ++ [10]); (4%nat, b, chars "    int x;" ++ [10; 10] ++ chars "} A_t;" ++ [10])].
Definition docs1 : list (list N) := [chars " Some `text`: a / b * c, /* even this"; []; chars " and \"].
Lemma infix_no d :
  forallb (λ n, negb (bool_decide (take 2 (drop n d) = chars "*/"))) (List.seq 0 (length d)) = true →
  ¬ infix (chars "*/") d.
Proof.
  intros H (x & y & ->). rewrite forallb_forall in H.
  assert (E : In (length x) (List.seq 0 (length (x ++ chars "*/" ++ y)))).
  { apply in_seq. rewrite !app_length. change (length (chars "*/")) with 2%nat. lia. }
  apply H in E. rewrite drop_app in E. change (take 2 (chars "*/" ++ y)) with (chars "*/") in E.
  by rewrite bool_decide_true in E.
Qed.
Lemma sample_ok l : Forall (λ p : nat * list (list N) * list N, Forall (harmless l ascii_ws) p.1.2 ∧ whole l p.2)
  (sample docs1 docs1).
Proof.
  assert (HH : Forall (harmless l ascii_ws) docs1).
  { destruct l; apply List.Forall_cons; [|apply List.Forall_cons; [|apply List.Forall_cons; [|apply List.Forall_nil]]| |
      apply List.Forall_cons; [|apply List.Forall_cons; [|apply List.Forall_nil]]| |
      apply List.Forall_cons; [|apply List.Forall_cons; [|apply List.Forall_nil]]]; try exact I.
    1-3: split; [apply infix_no; vm_compute; reflexivity|left; apply (bool_decide_unpack _); vm_compute; exact I].
    all: unfold harmless; apply (bool_decide_unpack _); vm_compute; exact I. }
  apply List.Forall_cons; [split; [exact HH|]|apply List.Forall_cons; [split; [exact HH|]|apply List.Forall_nil]];
    split; destruct l; vm_compute; reflexivity.
Qed.
Example C30_example l :
  same l (read_header l (header l ascii_ws (sample docs1 docs1))) (read_header l (header l ascii_ws (sample [] []))) ∧
  read_header LC (header LC ascii_ws (sample [] [])) =
    (Code, [32; 10] ++ chars "typedef struct A {" ++ [10] ++ chars "     " ++ [10] ++ chars "    int x;" ++ [10; 10] ++
      chars "} A_t;" ++ [10]).
Proof.
  split; [|vm_compute; reflexivity]. apply C30_comments_partial; [done| |apply sample_ok|].
  - repeat constructor.
  - repeat constructor.
Qed.

(** C: [/// see */ int y; /*]. *)
Theorem C30_c_refuted : ∃ d,
  10 ∉ d ∧ whole LC (chars "int x;" ++ [10]) ∧
  ¬ same LC (read_header LC (header LC ascii_ws [(0%nat, [d], chars "int x;" ++ [10])]))
            (read_header LC (header LC ascii_ws [(0%nat, [], chars "int x;" ++ [10])])).
Proof.
  exists (chars " see */ int y; /*"). split; [apply (bool_decide_unpack _); vm_compute; exact I|].
  split; [split; vm_compute; reflexivity|]. vm_compute. discriminate.
Qed.
(** C: a star and a backslash, then a line that begins with a slash. *)
Theorem C30_splice_refuted : ∃ d,
  ¬ infix (chars "*/") d ∧
  ¬ same LC (read_header LC (header LC ascii_ws [(0%nat, [d], chars "int x;" ++ [10])]))
            (read_header LC (header LC ascii_ws [(0%nat, [], chars "int x;" ++ [10])])).
Proof.
  exists (chars "a *\" ++ [10] ++ chars "/ int y; /*"). split.
  - apply infix_no. vm_compute. reflexivity.
  - vm_compute. discriminate.
Qed.
(** C#: a [/** .. */] comment of two lines. *)
Theorem C30_csharp_refuted : ∃ d,
  ¬ same LCSharp (read_header LCSharp (header LCSharp ascii_ws [(0%nat, [d], chars "int x;" ++ [10])]))
                 (read_header LCSharp (header LCSharp ascii_ws [(0%nat, [], chars "int x;" ++ [10])])).
Proof. exists (chars "one" ++ [10] ++ chars "two"). intros [_ H]. vm_compute in H. discriminate H. Qed.

Print Assumptions C30_comments_partial.
Print Assumptions C30_python.
Print Assumptions C30_c_refuted.
Print Assumptions C30_splice_refuted.
Print Assumptions C30_csharp_refuted.
