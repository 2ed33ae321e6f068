(** C75: calls of the methods of a dynamic trait, from Rust and from C. *)
From stdpp Require Import base numbers list strings.
From Verif Require Import VtModel VtSpec VtProofs.
From Verif Require DynModel.
Local Open Scope string_scope.

(** Exactly the traits described are taken. *)
Theorem C75_accepts_partial t : rust_trait t → compiles t = true ↔ supported t.
Proof. apply compiles_spec. Qed.

(** Whatever pointer the [VirtualPtr] was made of, and however often it was
    cloned: a call is one call of the method of that name, on what the pointer
    points to, with the arguments in order, and has its result.  (Methods are
    told apart by their names: NoDup is part of what was accepted.) *)
Theorem C75_rust_call t : compiles t = true →
  ∃ es, expand t = Some es ∧
  ∀ I m a v args, m ∈ methods_of (t_items t) → made t es a v → length args = length (m_args m) →
  rust_call t es I v (m_name m) args = Some (the_call m a args, I (the_call m a args)).
Proof.
  intros (es & E & F & H)%compiles_entries. exists es. split; [done|].
  intros I m a v args Hm Hv L. apply elem_of_list_lookup in Hm as [i Hi].
  destruct (Forall2_lookup_l _ _ _ _ _ H Hi) as (e & He & Hme). by eapply rust_call_spec.
Qed.

(** The vtable C sees, and a call through it. *)
Theorem C75_c_slots t : compiles t = true → ∃ es, expand t = Some es ∧ c_fields t es = slots t ∧ NoDup (slots t).*1.
Proof.
  intros (es & E & F & H)%compiles_entries. exists es. split; [done|].
  rewrite <- (c_fields_slots t es H). split; [done|].
  apply vtable_def_NoDup in F. rewrite vtable_def_names in F.
  rewrite c_fields_spec. cbn [fmap list_fmap fst]. rewrite fmap_app.
  assert (E1 : (if t_clone t then [("retain_vptr", FRetain)] else []).*1 = if t_clone t then ["retain_vptr"] else []) by (by destruct (t_clone t)).
  rewrite E1. rewrite <- list_fmap_compose. rewrite app_assoc, app_comm_cons in F. by apply NoDup_app in F as [F _].
Qed.
Theorem C75_c_call t : compiles t = true →
  ∃ es, expand t = Some es ∧
  ∀ I i m a v args, methods_of (t_items t) !! i = Some m → made t es a v → length args = length (m_args m) →
  (slots t) !! slot t i = Some (m_name m, slot_type m) ∧
  c_call t es I v (slot t i) args = Some (the_call m a args, I (the_call m a args)).
Proof.
  intros (es & E & F & H)%compiles_entries. exists es. split; [done|].
  intros I i m a v args Hi Hv L.
  destruct (Forall2_lookup_l _ _ _ _ _ H Hi) as (e & He & Hme). split; [|by eapply c_call_spec].
  unfold slots, slot. destruct (t_clone t); simpl; rewrite list_lookup_fmap, Hi; done.
Qed.

(** ** An example *)

Definition Method' (x : string) (b p : bool) (args : list string) (r : option string) : method :=
  Method x false false false (Some (receiver_of b p)) args r.
(** [#[derive_ReprC(dyn, Clone)] trait Exec { fn spawn(&self, a: A, b: B, c: A) -> u8; fn stop(&self); }] *)
Definition Exec : trait :=
  Trait "Exec" false [] [SAuto; SAuto]
    [IMethod (Method' "spawn" false false ["A"; "B"; "A"] (Some "u8")); IMethod (Method' "stop" false false [] None)] true.
(** [#[derive_ReprC(dyn)] trait Gen<'a, T, U, const N: usize> { fn next(self: Pin<&mut Self>, t: T) -> U; fn len(&self) -> usize; }] *)
Definition Gen : trait :=
  Trait "Gen" false [GLt "a"; GTy "T"; GTy "U"; GConst "N"] []
    [IMethod (Method' "next" true true ["T"] (Some "U")); IMethod (Method' "len" false false [] (Some "usize"))] false.
Example Exec_compiles : compiles Exec = true. Proof. by vm_compute. Qed.
Example Gen_compiles : compiles Gen = true. Proof. by vm_compute. Qed.
Example Gen_supported : rust_trait Gen ∧ supported Gen.
Proof.
  assert (R : rust_trait Gen).
  { split.
    - repeat (apply NoDup_cons; split; [vm_compute; intros H; repeat (inversion H as [|? ? ? H']; subst; clear H; rename H' into H) |]); apply NoDup_nil; done.
    - intros [|[|[|[|i]]]] [|[|[|[|j]]]] x g; vm_compute; intros [= <-] [= <-]; try done; intros; lia. }
  split; [done|]. apply C75_accepts_partial; [done|]. by vm_compute.
Qed.
Example Exec_calls :
  (match expand Exec with
   | Some es =>
       let v := dyn_clone (make Exec es DynModel.CBox 7) 9 in
       let I k := VBits [N.of_nat (length (k_args k))] in
       (rust_call Exec es I v "spawn" [VBits [1]; VBits [2]; VBits [3]]%N, c_call Exec es I v 3 [])
   | None => (None, None)
   end) =
  (Some (Called "spawn" (VAddr 9) false [VBits [1]; VBits [2]; VBits [3]]%N, VBits [3]%N),
   Some (Called "stop" (VAddr 9) false [], VBits [0]%N)).
Proof. by vm_compute. Qed.

(** ** Simple traits that are refused *)

(** None of these is taken, though all are simple, with methods only and
    receivers that agree. *)
Definition refused (t : trait) : Prop := simple t ∧ pins_agree t ∧ compiles t = false.
Lemma refused_one t m : t_items t = [IMethod m] → simple_method m → compiles t = false → refused t.
Proof.
  intros E H C. split; [|split; [|done]].
  - unfold simple. rewrite E. split; (apply Forall_cons; split; [done|apply Forall_nil; done]).
  - intros m1 m2. rewrite E. simpl. intros H1%elem_of_list_singleton H2%elem_of_list_singleton b. subst.
    intros ->. by destruct b.
Qed.
(** [trait Buf<const N: usize, T> { fn get(&self) -> T; }] *)
Theorem C75_const_first_refuted : ∃ t, t_generics t = [GConst "N"; GTy "T"] ∧ t_supers t = [] ∧ refused t.
Proof.
  exists (Trait "Buf" false [GConst "N"; GTy "T"] [] [IMethod (Method' "get" false false [] (Some "T"))] false).
  split; [done|]. split; [done|]. eapply refused_one; [done| |by vm_compute]. repeat split. by exists false, false.
Qed.
(** [#[derive_ReprC(dyn, Clone)] trait Get<T> { fn get(&self) -> T; }] *)
Theorem C75_clone_generic_refuted : ∃ t, t_clone t = true ∧ t_generics t = [GTy "T"] ∧ refused t ∧
  compiles (Trait (t_name t) false (t_generics t) [] (t_items t) false) = true.
Proof.
  exists (Trait "Get" false [GTy "T"] [] [IMethod (Method' "get" false false [] (Some "T"))] true).
  split; [done|]. split; [done|]. split; [|by vm_compute].
  eapply refused_one; [done| |by vm_compute]. repeat split. by exists false, false.
Qed.
(** [trait Pool { fn release_vptr(&self); }] *)
Theorem C75_name_refuted : ∃ t, t_generics t = [] ∧ t_supers t = [] ∧ t_clone t = false ∧ t_unsafe t = false ∧ refused t.
Proof.
  exists (Trait "Pool" false [] [] [IMethod (Method' "release_vptr" false false [] None)] false).
  do 4 (split; [done|]). eapply refused_one; [done| |by vm_compute]. repeat split. by exists false, false.
Qed.
(** [unsafe trait Raw { fn get(&self); }], [trait Job: 'static { fn run(&self); }] *)
Theorem C75_unsafe_refuted : ∃ t, t_unsafe t = true ∧ refused t ∧
  compiles (Trait (t_name t) false (t_generics t) (t_supers t) (t_items t) (t_clone t)) = true.
Proof.
  exists (Trait "Raw" true [] [] [IMethod (Method' "get" false false [] None)] false).
  split; [done|]. split; [|by vm_compute]. eapply refused_one; [done| |by vm_compute]. repeat split. by exists false, false.
Qed.
Theorem C75_static_refuted : ∃ t, t_supers t = [SLifetime] ∧ refused t ∧
  compiles (Trait (t_name t) false (t_generics t) [] (t_items t) (t_clone t)) = true.
Proof.
  exists (Trait "Job" false [] [SLifetime] [IMethod (Method' "run" false false [] None)] false).
  split; [done|]. split; [|by vm_compute]. eapply refused_one; [done| |by vm_compute]. repeat split. by exists false, false.
Qed.

Print Assumptions C75_accepts_partial.
Print Assumptions C75_rust_call.
Print Assumptions C75_c_slots.
Print Assumptions C75_c_call.
Print Assumptions C75_const_first_refuted.
Print Assumptions C75_clone_generic_refuted.
Print Assumptions C75_name_refuted.
Print Assumptions C75_unsafe_refuted.
Print Assumptions C75_static_refuted.
