(** Properties C01-C11: the [Bytes] type. *)
From stdpp Require Import base numbers list.
From Verif Require Import BytesModel BytesSpec BytesEnc BytesInv BytesMeth BytesRefine BytesFacts.
Local Open Scope N_scope.

(** ** Concrete platforms for the examples *)
Definition ex_addr (v : vt) : N :=
  match v with VStatic => 65552 | VBorrow => 65568 | VArc => 65584 | VArcT => 65600 | VBox => 65616 | VStab => 65632 end.
(** 64-bit little-endian, a debug and a release build. *)
Definition le64 := Platform 8 true true ex_addr false.
Definition le64r := Platform 8 true false ex_addr false.
(** 64-bit big-endian; 32-bit little-endian. *)
Definition be64 := Platform 8 false true ex_addr false.
Definition le32 := Platform 4 true true ex_addr false.

Ltac wf_tac := split;
  [vm_compute; lia | by intros [] | by intros [] | by intros [] | intros [] [] H; try done; vm_compute in H; lia].
Lemma wf_le64 : wf_platform le64. Proof. wf_tac. Qed.
Lemma wf_le64r : wf_platform le64r. Proof. wf_tac. Qed.
Lemma wf_be64 : wf_platform be64. Proof. wf_tac. Qed.
Lemma wf_le32 : wf_platform le32. Proof. wf_tac. Qed.

Definition seqN (n : nat) : list N := N.of_nat <$> seq 0 n.

(** ** C01 *)
Theorem C01_inline_lossless : ∀ p m data, wf_platform p → bytelist data →
  match inline_slice p data with
  | None => (max_inline p < length data)%nat
  | Some b => (length data ≤ max_inline p)%nat ∧ as_slice p m b = Some data
              ∧ len p b = N.of_nat (length data)
  end.
Proof.
  intros p m data Hwf Hb. unfold inline_slice.
  destruct (Nat.ltb_spec (max_inline p) (length data)) as [H|H]; [done|].
  split_and!; [done|by apply inl_as_slice|by apply inl_len].
Qed.
Print Assumptions C01_inline_lossless.

Example C01_example : (∀ m, ∃ b, inline_slice le64 (seqN 32) = Some b ∧ as_slice le64 m b = Some (seqN 32))
  ∧ inline_slice le64 (seqN 33) = None ∧ inline_slice be64 (seqN 39) ≠ None
  ∧ inline_slice be64 (seqN 40) = None.
Proof. split; [intros m; eexists; split; [vm_compute; reflexivity|done]|]. vm_compute. done. Qed.

(** ** C02 *)

(** Whatever the data words, a value with a vtable address is seen as out of line, with that very vtable;
    an inlined one is seen as inlined; both have a non-null vtable word. *)
Theorem C02_tag_unambiguous : ∀ p, wf_platform p →
  (∀ start n owner cap v, let b := Bytes start n owner cap (vt_addr p v) in
     is_inlined p b = false ∧ vtable p b = IsVt v ∧ b_vt b ≠ 0) ∧
  (∀ data b, bytelist data → inline_slice p data = Some b →
     is_inlined p b = true ∧ vtable p b = NoVt ∧ b_vt b ≠ 0).
Proof.
  intros p Hwf. split.
  - intros start n owner cap v b. subst b. split_and!.
    + by eapply not_inlined.
    + by apply vtable_addr.
    + simpl. apply (wf_nonnull p Hwf).
  - intros data b Hb. unfold inline_slice.
    destruct (Nat.ltb_spec (max_inline p) (length data)) as [H|H]; [done|]. intros [= <-].
    assert (Hin : is_inlined p (inline_unchecked p data) = true) by (by apply inl_is_inlined).
    split_and!; [done|by apply vtable_inlined|].
    apply (inlined_nonzero p); [apply (wf_wsz p Hwf)|done].
Qed.
Print Assumptions C02_tag_unambiguous.

(** In every state a program can reach, every value is one of the two. *)
Theorem C02_reachable : ∀ p s h x, wf_platform p → reach p s → get_h s h = Some x →
  vtable p (h_b x) ≠ BadVt ∧ b_vt (h_b x) ≠ 0.
Proof.
  intros p s h x Hwf Hr Hx. destruct (view_handle p Hwf s h x Hr Hx) as (c & _ & Hok & _).
  destruct (is_inlined p (h_b x)) eqn:Hin.
  - rewrite vtable_inlined by done. split; [done|].
    apply (inlined_nonzero p); [apply (wf_wsz p Hwf)|done].
  - destruct (out_vt p _ x c Hok Hin) as [v Hv]. rewrite (vtable_addr p _ v) by done.
    split; [done|]. rewrite Hv. apply (wf_nonnull p Hwf).
Qed.
Print Assumptions C02_reachable.

(** ** C03, C04: programs *)

(** One program that makes every kind of value. *)
Definition demo : list op :=
  [ ONewBorrow 4096 (seqN 100);
    ONewStatic 8192 (seqN 50);
    ONewArc 12288 (seqN 60);
    ONewArcT 16384 (seqN 70);
    OFromSlice 0 10 80;          (* value 0: borrowed *)
    OFromStatic 1 0 50;          (* value 1 *)
    OFromArc 0;                  (* value 2 *)
    OFromArcT 1 5 60;            (* value 3 *)
    OFromBox (seqN 90) 20480;    (* value 4 *)
    OCopied (seqN 20) 0;         (* value 5: inlined *)
    OCopied (seqN 200) 24576;    (* value 6: in a new Arc *)
    OClone 2 0; OClone 3 0; OClone 4 28672;  (* values 7, 8, 9 *)
    OSplit 6 100 0;              (* values 6, 10 *)
    OUpgrade 0 32768;            (* value 0 no longer borrows *)
    OEndBorrow 0;
    ORead 2 40; ODrop 4; OIntoArc 7 ].

Definition demo_state : state :=
  match run le64 init demo with SDone s _ => s | _ => init end.

Example demo_runs : run le64 init demo = SDone demo_state RUnit
  ∧ view le64 demo_state !! 0%nat = Some (Some (slice (seqN 100) 10 90))
  ∧ view le64 demo_state !! 10%nat = Some (Some (drop 100 (seqN 200)))
  ∧ view le64 demo_state !! 7%nat = Some None
  ∧ arc_view demo_state !! 2%nat = Some (Some (seqN 60)).
Proof. vm_compute. done. Qed.

Example demo_reach : reach le64 demo_state.
Proof.
  eapply (run_reach le64 init demo); [apply reach_init|reflexivity|].
  apply demo_runs.
Qed.

(** A buffer may go exactly when no value of its lifetime is left: dropped and moved ones do not keep it. *)
Theorem C04_ends p s rid : (∃ s' r, step p s (OEndBorrow rid) = SDone s' r) ↔
  (∃ r, st_mem s !! rid = Some r ∧ r_kind r = KBorrow ∧ r_live r = true) ∧
  ∀ h x, st_h s !! h = Some (Some x) → h_lt x ≠ LBorrow rid.
Proof.
  cbn [step]. split.
  - destruct (st_mem s !! rid) as [r|]; [|naive_solver]. destruct (r_kind r) eqn:Ek; try naive_solver.
    destruct (r_live r) eqn:El; cbn [andb]; [|naive_solver].
    destruct (existsb (borrows rid) (st_h s)) eqn:Eb; cbn [negb]; [naive_solver|]. intros _. split; [by exists r|].
    intros h x Hx Hl. assert (existsb (borrows rid) (st_h s) = true); [|congruence].
    apply existsb_exists. exists (Some x). split; [by eapply elem_of_list_In, elem_of_list_lookup_2|].
    cbn. by apply bool_decide_eq_true.
  - intros [(r & -> & Ek & El) Hh]. rewrite Ek, El. cbn [andb].
    destruct (existsb (borrows rid) (st_h s)) eqn:Eb; cbn [negb]; [|eauto].
    apply existsb_exists in Eb as ([x|] & Hx & Hb); [|done]. cbn in Hb. apply bool_decide_eq_true in Hb.
    apply elem_of_list_In, elem_of_list_lookup in Hx as [h Hx]. by destruct (Hh h x Hx).
Qed.
Print Assumptions C04_ends.
Example ends_after_drop : ∃ s r, run le64 init
  [ONewBorrow 4096 (seqN 100); OFromSlice 0 10 80; OClone 0 0; ODrop 0; ODrop 1; OEndBorrow 0] = SDone s r ∧
  ∃ x, st_mem s !! 0%nat = Some x ∧ r_live x = false.
Proof. eexists _, _. split; [vm_compute; reflexivity|]. eexists. split; [reflexivity|done]. Qed.

(** Each step is one the string specification allows; it never is undefined behaviour, and it panics
    only as the specification says. *)
Theorem C03_refinement : ∀ p s o, wf_platform p → reach p s → admissible p s o →
  match step p s o with
  | SDone s' r => expects (bufs_of s) (view p s) (arc_view s) o r (view p s') (arc_view s')
  | SPanic s' => may_panic (max_inline p) (view p s) (arc_view s) o (view p s') (arc_view s')
  | SUndef => False
  | SReject => True
  end.
Proof. intros p s o Hwf. by apply step_refines. Qed.
Print Assumptions C03_refinement.

(** No operation changes what another value reads. *)
Theorem C03_frame : ∀ p s o s', wf_platform p → reach p s → admissible p s o →
  (∃ r, step p s o = SDone s' r) ∨ step p s o = SPanic s' →
  ∀ j c, view p s !! j = Some c → target o ≠ Some j → view p s' !! j = Some c.
Proof. intros p s o s' Hwf. by apply frame. Qed.
Print Assumptions C03_frame.

Theorem C04_no_undefined_behaviour : ∀ p s o, wf_platform p → reach p s → admissible p s o →
  step p s o ≠ SUndef.
Proof.
  intros p s o Hwf Hr Ha H. pose proof (step_refines p Hwf s o Hr Ha) as Hs. by rewrite H in Hs.
Qed.
Print Assumptions C04_no_undefined_behaviour.

(** The same for whole programs. *)
Theorem C04_programs : ∀ p l, wf_platform p → forallb plain l = true → run p init l ≠ SUndef.
Proof.
  intros p l Hwf. cut (∀ s, reach p s → forallb plain l = true → run p s l ≠ SUndef).
  { intros H. apply H. apply reach_init. }
  induction l as [|o l IH]; intros s Hr Hp; simpl in *; [done|].
  apply andb_true_iff in Hp as [Ho Hp].
  assert (Hadm : admissible p s o) by (destruct o; done).
  pose proof (C04_no_undefined_behaviour p s o Hwf Hr Hadm) as Hn.
  destruct (step p s o) as [s1 r1|s1| |] eqn:Hs; try done.
  - apply IH; [|done]. by eapply reach_done.
  - apply IH; [|done]. by eapply reach_panic.
Qed.
Print Assumptions C04_programs.

(** Live values are readable: their storage is alive. *)
Theorem C04_alive : ∀ p s h x, wf_platform p → reach p s → get_h s h = Some x →
  ∃ c, as_slice p (st_mem s) (h_b x) = Some c ∧ len p (h_b x) = N.of_nat (length c).
Proof.
  intros p s h x Hwf Hr Hx. destruct (live_readable p Hwf s h x Hr Hx) as (c & ? & ? & _). eauto.
Qed.
Print Assumptions C04_alive.

(** Reference counts equal the number of owners; so a heap buffer is freed as soon as its last owner
    goes. *)
Theorem C04_no_leak : ∀ p s i r, wf_platform p → reach p s → st_mem s !! i = Some r → r_live r = true →
  match r_kind r with
  | KStatic | KBorrow => True
  | KArc n => n = owners p s VArc (r_base r) ∧ (0 < n)%nat
  | KArcT n => n = owners p s VArcT (r_base r) ∧ (0 < n)%nat
  | KBox => owners p s VBox (r_base r) = 1%nat
  | KStab n => n = owners p s VStab (r_base r) ∧ (0 < n)%nat
  end.
Proof. intros p s i r Hwf. by apply counts_exact. Qed.
Print Assumptions C04_no_leak.

(** When all values and arcs are gone, so is all heap memory. *)
Theorem C04_all_freed : ∀ p s i r, wf_platform p → reach p s →
  Forall (λ x, x = None) (st_h s) → Forall (λ x, x = None) (st_arcs s) →
  st_mem s !! i = Some r → r_live r = true → r_kind r = KStatic ∨ r_kind r = KBorrow.
Proof.
  intros p s i r Hwf Hr Hh Ha Hi Hl. pose proof (counts_exact p Hwf s i r Hr Hi Hl) as H.
  assert (Z1 : ∀ v, cnt (val_owns p v (r_base r)) (st_h s) = 0%nat).
  { intros v. induction Hh as [|x l -> _ IH]; [done|]. simpl. exact IH. }
  assert (Z2 : ∀ v, cnt (arcv_owns v (r_base r)) (st_arcs s) = 0%nat).
  { intros v. induction Ha as [|x l -> _ IH]; [done|]. simpl. exact IH. }
  unfold owners in H. rewrite !Z1, ?Z2 in H.
  destruct (r_kind r); simpl in H; auto; lia.
Qed.
Print Assumptions C04_all_freed.

(** A program that drops everything, among which memory shared by a clone and an arc. *)
Example C04_example :
  ∃ s, run le64 init (demo ++ [ODrop 0; ODrop 1; ODrop 2; ODrop 3; ODrop 5; ODrop 6; ODrop 8; ODrop 9;
                               ODrop 10; OArcDrop 2]) = SDone s RUnit
  ∧ Forall (λ x, x = None) (st_h s) ∧ Forall (λ x, x = None) (st_arcs s)
  ∧ map r_live (st_mem s) = [false; true; false; false; false; false; false; false].
Proof. eexists. split; [vm_compute; reflexivity|]. split_and!; [repeat constructor..|done]. Qed.

(** ** C05 *)
Theorem C05_upgrade_detaches : ∀ p s h base s' r rids s'' r', wf_platform p → reach p s →
  step p s (OUpgrade h base) = SDone s' r →
  (* … then any number of borrowed buffers go away *)
  run p s' (map OEndBorrow rids) = SDone s'' r' →
  view p s'' !! h = view p s !! h ∧
  (∃ x, get_h s' h = Some x ∧ h_lt x = LStatic).
Proof.
  intros p s h base s' r rids s'' r' Hwf Hr Hst Hrun.
  destruct (upgrade_step p Hwf s h base s' r Hr Hst) as (H1 & _ & H2).
  assert (Hr' : reach p s') by (by eapply (reach_done p s (OUpgrade h base))).
  destruct (end_borrows p Hwf s' rids s'' r' Hr' Hrun) as [_ H3].
  split; [|done]. by rewrite H3, H1.
Qed.
Print Assumptions C05_upgrade_detaches.

(** [noalloc_upgrade] does not: its condition (bytes.rs L349) is inverted.  A borrowed value of 40 bytes
    becomes [Bytes<'static>] as is, and reads freed memory once the borrow ends. *)
Theorem C05_noalloc_upgrade_refuted : ∃ p l1 l2, wf_platform p ∧
  (∃ s, run p init l1 = SDone s RUnit ∧ reach p s ∧
        step p s (ONoallocUpgrade 0) ≠ SReject ∧
        ∃ s', step p s (ONoallocUpgrade 0) = SDone s' (RHandle 0) ∧
              (∃ x, get_h s' 0 = Some x ∧ h_lt x = LStatic) ∧ run p s' l2 = SUndef).
Proof.
  exists le64, [ONewBorrow 4096 (seqN 40); OFromSlice 0 0 40], [OEndBorrow 0; OAsSlice 0].
  split; [apply wf_le64|].
  eexists. split; [vm_compute; reflexivity|]. split.
  { eapply (run_reach le64 init [ONewBorrow 4096 (seqN 40); OFromSlice 0 0 40]);
      [apply reach_init|reflexivity|vm_compute; reflexivity]. }
  split; [vm_compute; done|].
  eexists. split; [vm_compute; reflexivity|]. split; [eexists; split; reflexivity|].
  vm_compute. done.
Qed.
Print Assumptions C05_noalloc_upgrade_refuted.

(** …and it refuses values that need no upgrade at all. *)
Theorem C05_noalloc_upgrade_owned_refuted : ∃ s, reach le64 s ∧
  (∃ x, get_h s 0 = Some x ∧ h_lt x = LStatic) ∧ step le64 s (ONoallocUpgrade 0) = SDone s (RFail 0).
Proof.
  eexists. split.
  { eapply (run_reach le64 init [OCopied (seqN 40) 4096]);
      [apply reach_init|reflexivity|vm_compute; reflexivity]. }
  split; [eexists; split; reflexivity|]. vm_compute. done.
Qed.
Print Assumptions C05_noalloc_upgrade_owned_refuted.

(** ** C06 *)

(** "Would allocate": the call fails when the allocator has nothing to give (address 0). *)
Definition upgrade_would_allocate p (s : state) (x : handle) : Prop :=
  upgrade p (st_mem s) (h_b x) 0 = NoAlloc.
Definition clone_would_allocate p (s : state) (x : handle) : Prop :=
  clone p (st_mem s) (h_b x) 0 = NoAlloc.

(** On big-endian targets the predictions are exact. *)
Theorem C06_big_endian_exact : ∀ p s h x, wf_platform p → little p = false →
  reach p s → get_h s h = Some x →
  (upgrade_will_allocate p (h_b x) = true ↔ upgrade_would_allocate p s x) ∧
  (clone_will_allocate p (h_b x) = true ↔ clone_would_allocate p s x).
Proof.
  intros p s h x Hwf Hbe Hr Hx. unfold upgrade_would_allocate, clone_would_allocate.
  rewrite (upgrade_allocates p Hwf s h x Hr Hx), (clone_allocates p Hwf s h x Hr Hx).
  rewrite (upgrade_will_allocate_spec p Hwf s h x Hr Hx), (clone_will_allocate_spec p Hwf s h x Hr Hx).
  pose proof (wf_wsz p Hwf).
  assert (N.of_nat (size_of_bytes p) = N.of_nat (max_inline p) + 1).
  { unfold max_inline, size_of_bytes. rewrite Hbe. lia. }
  rewrite H0. split; (split; intros [? ?]; split; [done|lia|done|lia]).
Qed.
Print Assumptions C06_big_endian_exact.

(** On all targets a predicted allocation happens (partial: the converse fails, next theorem). *)
Theorem C06_predicted_happens_partial : ∀ p s h x, wf_platform p → reach p s → get_h s h = Some x →
  (upgrade_will_allocate p (h_b x) = true → upgrade_would_allocate p s x) ∧
  (clone_will_allocate p (h_b x) = true → clone_would_allocate p s x).
Proof.
  intros p s h x Hwf Hr Hx. unfold upgrade_would_allocate, clone_would_allocate.
  rewrite (upgrade_allocates p Hwf s h x Hr Hx), (clone_allocates p Hwf s h x Hr Hx).
  rewrite (upgrade_will_allocate_spec p Hwf s h x Hr Hx), (clone_will_allocate_spec p Hwf s h x Hr Hx).
  pose proof (max_inline_bounds p Hwf).
  split; (intros [? ?]; split; [done|lia]).
Qed.
Print Assumptions C06_predicted_happens_partial.

(** On little-endian targets values of 33 to 39 bytes allocate although predicted not to. *)
Theorem C06_little_endian_refuted : ∃ p s h1 x1 h2 x2, wf_platform p ∧ reach p s
  ∧ get_h s h1 = Some x1 ∧ get_h s h2 = Some x2
  ∧ upgrade_will_allocate p (h_b x1) = false ∧ upgrade_would_allocate p s x1
  ∧ clone_will_allocate p (h_b x2) = false ∧ clone_would_allocate p s x2.
Proof.
  exists le64.
  eexists _, 0%nat, _, 1%nat, _. split; [apply wf_le64|]. split.
  { eapply (run_reach le64 init [ONewBorrow 4096 (seqN 36); OFromSlice 0 0 36; OFromBox (seqN 36) 8192]);
      [apply reach_init|reflexivity|vm_compute; reflexivity]. }
  split_and!; vm_compute; done.
Qed.
Print Assumptions C06_little_endian_refuted.

(** ** C07 *)
Theorem C07_into_arc : ∀ p s h x, wf_platform p → reach p s → get_h s h = Some x →
  (whole_arc p s x →
     ∃ s' c, step p s (OIntoArc h) = SDone s' (RArc (length (st_arcs s))) ∧ st_mem s' = st_mem s
       ∧ view p s !! h = Some (Some c) ∧ arc_view s' !! length (st_arcs s) = Some (Some c)
       ∧ get_h s' h = None)
  ∧ (¬ whole_arc p s x → step p s (OIntoArc h) = SDone s (RFail h)).
Proof. intros p s h x Hwf. by apply into_arc_iff. Qed.
Print Assumptions C07_into_arc.

(** Both cases occur: the arc is shared by two values, one of which gets split. *)
Definition c07_state : state :=
  match run le64 init [OCopied (seqN 200) 4096; OClone 0 0; OSplit 1 100 0] with SDone s _ => s | _ => init end.
Example C07_example : reach le64 c07_state ∧
  (∃ s', step le64 c07_state (OIntoArc 0) = SDone s' (RArc 0)) ∧
  step le64 c07_state (OIntoArc 1) = SDone c07_state (RFail 1).
Proof.
  split.
  { eapply (run_reach le64 init [OCopied (seqN 200) 4096; OClone 0 0; OSplit 1 100 0]);
      [apply reach_init|reflexivity|vm_compute; reflexivity]. }
  split; [eexists; vm_compute; reflexivity|vm_compute; reflexivity].
Qed.

(** ** C08 *)

(** For values stored out of line, and bounds that do not overflow [usize] (or with overflow checks). *)
Theorem C08_subslicing_partial : ∀ p s h x c lo hi, wf_platform p → reach p s → get_h s h = Some x →
  view p s !! h = Some (Some c) → is_inlined p (h_b x) = false →
  bound_ok p lo false → bound_ok p hi true →
  (in_range c lo hi → ∃ s', step p s (OShrink h lo hi) = SDone s' RUnit ∧
      view p s' = <[h := Some (slice c (lo_of lo) (hi_of c hi))]> (view p s))
  ∧ (¬ in_range c lo hi → step p s (OShrink h lo hi) = SPanic s).
Proof. intros p s h x c lo hi Hwf. by apply shrink_exact. Qed.
Print Assumptions C08_subslicing_partial.

Example C08_example : ∃ x, get_h c07_state 0 = Some x ∧ is_inlined le64 (h_b x) = false
  ∧ (∃ s', step le64 c07_state (OShrink 0 (Excl 9) (Incl 99)) = SDone s' RUnit ∧
           view le64 s' !! 0%nat = Some (Some (slice (seqN 200) 10 100)))
  ∧ step le64 c07_state (OShrink 0 (Incl 10) (Excl 201)) = SPanic c07_state.
Proof.
  eexists. split; [vm_compute; reflexivity|]. split; [reflexivity|].
  split; [eexists; split; [vm_compute; reflexivity|vm_compute; reflexivity]|vm_compute; reflexivity].
Qed.

(** Inlined values: a perfectly good range panics, because L235 compares with the raw [len] word. *)
Theorem C08_inline_spurious_panic_refuted : ∃ p s c, wf_platform p ∧ reach p s ∧
  view p s !! 0%nat = Some (Some c) ∧ in_range c (Incl 0) (Excl 3) ∧
  step p s (OShrink 0 (Incl 0) (Excl 3)) = SPanic s.
Proof.
  exists le64. eexists _, _. split; [apply wf_le64|]. split.
  { eapply (run_reach le64 init [OInlineSlice (seqN 5)]);
      [apply reach_init|reflexivity|vm_compute; reflexivity]. }
  split; [vm_compute; reflexivity|]. split; [vm_compute; done|]. vm_compute. done.
Qed.
Print Assumptions C08_inline_spurious_panic_refuted.

(** Inlined values: an out-of-range end is accepted; the string silently changes in the middle… *)
Theorem C08_inline_corruption_refuted : ∃ p s s' c c', wf_platform p ∧ reach p s ∧
  view p s !! 0%nat = Some (Some c) ∧ ¬ in_range c (Incl 0) (Excl 1000) ∧
  step p s (OShrink 0 (Incl 0) (Excl 1000)) = SDone s' RUnit ∧
  view p s' !! 0%nat = Some (Some c') ∧ length c' = length c ∧ c' ≠ c.
Proof.
  exists le64. eexists _, _, _, _. split; [apply wf_le64|]. split.
  { eapply (run_reach le64 init [OInlineSlice (replicate 20 97)]);
      [apply reach_init|reflexivity|vm_compute; reflexivity]. }
  split; [vm_compute; reflexivity|]. split; [intros [_ H]; vm_compute in H; done|].
  split; [vm_compute; reflexivity|]. split; [vm_compute; reflexivity|]. vm_compute. done.
Qed.
Print Assumptions C08_inline_corruption_refuted.

(** …or pointer arithmetic on the inlined bytes is undefined behaviour, from safe code. *)
Theorem C08_inline_undefined_refuted : ∃ p s lo hi, wf_platform p ∧ reach p s ∧
  step p s (OShrink 0 lo hi) = SUndef.
Proof.
  exists le64. eexists _, (Incl 1), (Excl 1000). split; [apply wf_le64|]. split.
  { eapply (run_reach le64 init [OInlineSlice (replicate 20 97)]);
      [apply reach_init|reflexivity|vm_compute; reflexivity]. }
  vm_compute. done.
Qed.
Print Assumptions C08_inline_undefined_refuted.

(** Without overflow checks [..= usize::MAX] is taken for an empty range instead of panicking. *)
Theorem C08_usize_max_refuted : ∃ p s s' c, wf_platform p ∧ reach p s ∧
  view p s !! 0%nat = Some (Some c) ∧ is_inlined p (from_option h_b (Bytes 0 0 0 0 0) (get_h s 0)) = false ∧
  ¬ in_range c (Incl 0) (Incl (wlim p - 1)) ∧
  step p s (OShrink 0 (Incl 0) (Incl (wlim p - 1))) = SDone s' RUnit ∧
  view p s' !! 0%nat = Some (Some []).
Proof.
  exists le64r. eexists _, _, _. split; [apply wf_le64r|]. split.
  { eapply (run_reach le64r init [OCopied (seqN 40) 4096]);
      [apply reach_init|reflexivity|vm_compute; reflexivity]. }
  split; [vm_compute; reflexivity|]. split; [reflexivity|]. split; [intros [_ H]; vm_compute in H; done|].
  split; [vm_compute; reflexivity|]. vm_compute. done.
Qed.
Print Assumptions C08_usize_max_refuted.

(** ** C09 *)
Theorem C09_observers : ∀ p s h1 h2 x1 x2 c1 c2, wf_platform p → reach p s →
  get_h s h1 = Some x1 → get_h s h2 = Some x2 →
  view p s !! h1 = Some (Some c1) → view p s !! h2 = Some (Some c2) →
  bytes_eq p (st_mem s) (h_b x1) (h_b x2) = Some (bool_decide (c1 = c2)) ∧
  bytes_cmp p (st_mem s) (h_b x1) (h_b x2) = Some (lex c1 c2) ∧
  (∀ H (hasher : list N → H), bytes_hash hasher p (st_mem s) (h_b x1) = Some (hasher c1)).
Proof.
  intros p s h1 h2 x1 x2 c1 c2 Hwf Hr H1 H2 V1 V2.
  destruct (view_handle p Hwf s h1 x1 Hr H1) as (d1 & W1 & _ & A1).
  destruct (view_handle p Hwf s h2 x2 Hr H2) as (d2 & W2 & _ & A2).
  assert (d1 = c1) as -> by congruence. assert (d2 = c2) as -> by congruence.
  unfold bytes_eq, bytes_cmp, bytes_hash. rewrite A1, A2. done.
Qed.
Print Assumptions C09_observers.

(** …where [lex] is the lexicographic order. *)
Theorem C09_order : ∀ a b : list N,
  (lex a b = Eq ↔ a = b) ∧
  (lex a b = Lt ↔ (∃ t, t ≠ [] ∧ b = a ++ t)
                  ∨ (∃ q x y u v, a = q ++ x :: u ∧ b = q ++ y :: v ∧ x < y)) ∧
  lex b a = CompOpp (lex a b).
Proof. intros a b. split_and!; [apply lex_eq|apply lex_lt|apply lex_antisym]. Qed.
Print Assumptions C09_order.

(** The same 40 bytes stored in five ways, and 20 bytes inlined or not. *)
Definition c09_state : state :=
  match run le64 init [ONewBorrow 4096 (seqN 40); ONewStatic 8192 (seqN 40); OFromSlice 0 0 40;
     OFromStatic 1 0 40; OCopied (seqN 40) 12288; OFromBox (seqN 40) 16384; OInlineSlice (seqN 20);
     OFromStatic 1 0 20] with SDone s _ => s | _ => init end.
Example C09_example :
  let v i := from_option h_b (Bytes 0 0 0 0 0) (get_h c09_state i) in
  map (λ i, bytes_eq le64 (st_mem c09_state) (v 0%nat) (v i)) (seq 0 6)
    = [Some true; Some true; Some true; Some true; Some false; Some false]
  ∧ bytes_eq le64 (st_mem c09_state) (v 4%nat) (v 5%nat) = Some true
  ∧ bytes_cmp le64 (st_mem c09_state) (v 4%nat) (v 0%nat) = Some Lt.
Proof. vm_compute. done. Qed.

(** ** C10 *)

(** Chunks returned by successful reads are consecutive.  Partial: reads of inlined values may panic,
    see below. *)
Theorem C10_reads_partial : ∀ p s h ns ls s' c, wf_platform p → reach p s →
  view p s !! h = Some (Some c) → reads p s h ns = Some (ls, s') →
  ∃ rest, view p s' !! h = Some (Some rest) ∧ c = mjoin ls ++ rest
    ∧ Forall2 (λ l n, N.of_nat (length l) ≤ n) ls ns.
Proof.
  intros p s h ns ls s' c Hwf Hr Hc Hrd.
  destruct (reads_concat p Hwf s h ns ls s' c Hr Hc Hrd) as (rest & ? & ? & ? & _). eauto.
Qed.
Print Assumptions C10_reads_partial.

Theorem C10_zero_is_end : ∀ p s h n s', wf_platform p → reach p s →
  step p s (ORead h n) = SDone s' (RData []) → n = 0 ∨ view p s !! h = Some (Some []).
Proof. intros p s h n s' Hwf. by apply read_zero. Qed.
Print Assumptions C10_zero_is_end.

Theorem C10_out_of_line_reads_succeed : ∀ p s h x n, wf_platform p → reach p s →
  get_h s h = Some x → is_inlined p (h_b x) = false →
  ∃ s' l, step p s (ORead h n) = SDone s' (RData l).
Proof. intros p s h x n Hwf. by apply read_out_ok. Qed.
Print Assumptions C10_out_of_line_reads_succeed.

Example C10_example : ∃ s', reads le64 c07_state 0 [60; 60; 100] =
  Some ([slice (seqN 200) 0 60; slice (seqN 200) 60 120; slice (seqN 200) 120 200], s').
Proof. eexists. vm_compute. reflexivity. Qed.

(** Every read of every value of 1 to 8 bytes (one word) panics. *)
Theorem C10_short_values_panic : ∀ p m data n, wf_platform p → bytelist data →
  (1 ≤ length data ≤ wsz p)%nat → read p m (inline_unchecked p data) n = Panic m.
Proof. intros p m data n Hwf. by apply small_reads_panic. Qed.
Print Assumptions C10_short_values_panic.

(** Hence reading a long value to its end in chunks panics before the end. *)
Theorem C10_chunked_read_refuted : ∃ p s s1 s2 r1 r2, wf_platform p ∧ reach p s ∧
  step p s (ORead 0 40) = SDone s1 r1 ∧ step p s1 (ORead 0 30) = SDone s2 r2
  ∧ step p s2 (ORead 0 10) = SPanic s2 ∧ view p s2 !! 0%nat = Some (Some [70; 71; 72]).
Proof.
  exists le64. eexists _, _, _, _, _. split; [apply wf_le64|]. split.
  { eapply (run_reach le64 init [OCopied (seqN 73) 4096]);
      [apply reach_init|reflexivity|vm_compute; reflexivity]. }
  split; [vm_compute; reflexivity|]. split; [vm_compute; reflexivity|].
  split; vm_compute; reflexivity.
Qed.
Print Assumptions C10_chunked_read_refuted.

(** ** C11 *)
Theorem C11_split_partial : ∀ p s h x c i base, wf_platform p → reach p s → get_h s h = Some x →
  view p s !! h = Some (Some c) → is_inlined p (h_b x) = false →
  match step p s (OSplit h i base) with
  | SDone s' r =>
      (i ≤ N.of_nat (length c) ∧ r = RPair h (length (view p s))
       ∧ view p s' = <[h := Some (take (N.to_nat i) c)]> (view p s) ++ [Some (drop (N.to_nat i) c)])
      ∨ (N.of_nat (length c) < i ∧ r = RFail h ∧ s' = s)
  | SReject => i ≤ N.of_nat (length c)   (* the allocator refused *)
  | _ => False
  end.
Proof. intros p s h x c i base Hwf. by apply split_exact. Qed.
Print Assumptions C11_split_partial.

(** Inlined values of at most one word cannot be split anywhere. *)
Theorem C11_short_values_panic : ∀ p m data i base, wf_platform p → bytelist data →
  (1 ≤ length data ≤ wsz p)%nat → i ≤ N.of_nat (length data) →
  split_at p m (inline_unchecked p data) i base = Panic m.
Proof. intros p m data i base Hwf. by apply small_splits_panic. Qed.
Print Assumptions C11_short_values_panic.

Theorem C11_split_refuted : ∃ p s c i, wf_platform p ∧ reach p s ∧
  view p s !! 0%nat = Some (Some c) ∧ i ≤ N.of_nat (length c) ∧
  ∃ s', step p s (OSplit 0 i 0) = SPanic s'.
Proof.
  exists le64. eexists _, _, 1. split; [apply wf_le64|]. split.
  { eapply (run_reach le64 init [OInlineSlice (seqN 2)]);
      [apply reach_init|reflexivity|vm_compute; reflexivity]. }
  split; [vm_compute; reflexivity|]. split; [vm_compute; done|]. eexists. vm_compute. reflexivity.
Qed.
Print Assumptions C11_split_refuted.

Example C11_example : ∃ s', step le64 c07_state (OSplit 0 150 0) = SDone s' (RPair 0 3)
  ∧ step le64 c07_state (OSplit 0 201 0) = SDone c07_state (RFail 0)
  ∧ split_at le64 [] (inline_unchecked le64 [104; 105]) 1 0 = Panic [].
Proof. eexists. split; [vm_compute; reflexivity|]. split; vm_compute; reflexivity. Qed.
