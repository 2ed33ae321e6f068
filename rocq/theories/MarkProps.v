(** C77-C79: wrappers on other threads, at other types, at later times. *)
From stdpp Require Import base numbers list relations.
From Verif Require Import MarkModel MarkSpec MarkProofs.

(** ** C77 *)

(** Whatever is sent to another thread, through no sequence of safe operations
    does that thread get a value of a type that is not [Send], or a shared borrow
    of what is not [Sync], whatever closures and owners were erased on the way. *)
Theorem C77_send t : built t = true → send (marks_of t) = true → harmless (Own, t).
Proof. intros B S. by apply harmless_ok. Qed.
(** And whatever is shared with one. *)
Theorem C77_sync t : built t = true → sync (marks_of t) = true → harmless (Shr, t).
Proof. intros B S. by apply harmless_ok. Qed.

(** No more is refused than has to be. *)
Theorem C77_exact t : built t = true → open t = true →
  (send (marks_of t) = true ↔ harmless (Own, t)) ∧ (sync (marks_of t) = true ↔ harmless (Shr, t)).
Proof.
  intros B O. destruct (open_bad t O) as [H1 H2]. split; split.
  - by apply C77_send.
  - intros H. destruct (send (marks_of t)); [done|]. by destruct (bad_harmless _ (H1 eq_refl)).
  - by apply C77_sync.
  - intros H. destruct (sync (marks_of t)); [done|]. by destruct (bad_harmless _ (H2 eq_refl)).
Qed.

(** A wrapper crosses threads exactly if the Rust type it stands for does.  (A
    [char_p_raw] always does, and gives nothing without [unsafe].) *)
Theorem C77_counterpart t : has_char_raw t = false → marks_of t = marks_of (counterpart t).
Proof. apply counterpart_marks. Qed.
Theorem C77_char_raw r m : marks_of CharRaw = Marks true true ∧ gives r m CharRaw = [].
Proof. split; [done|]. by destruct m. Qed.

(** What the lists of operations have in them.  A handle that is [Clone] gives another from a shared
    borrow; what borrows its contents gives a handle that borrows them; and nothing shared gives a place
    to write to, or a value other than a handle: what it was, or a shared borrow. *)
Definition clones (t : ty) : bool :=
  match t with
  | Ref _ _ | RArc _ | SRef _ _ | StrRef _ | CharRef _ | SharedCStr | ArcFn _ _ _ | Bytes _ _ => true
  | _ => false
  end.
Theorem C77_clones r t : clones t = true → (Own, t) ∈ gives r Shr t ∧ (∀ f u v, t ≠ ArcFn f u v → (∃ c, (Shr, c) ∈ gives r Shr t)).
Proof. destruct t; try discriminate; intros _; (split; [by repeat constructor|]); intros; eexists; by repeat constructor. Qed.
Theorem C77_borrows r t :
  (Own, SRef r t) ∈ gives r Shr (CVec t) ∧ (Own, SRef r t) ∈ gives r Shr (SBox t) ∧ (∀ a, (Own, SRef r t) ∈ gives r Shr (SMut a t)) ∧
  (Own, StrRef r) ∈ gives r Shr StrBox ∧ (Own, CharRef r) ∈ gives r Shr CharBox ∧
  (Own, SMut r t) ∈ gives r Mut (CVec t) ∧ (Own, SMut r t) ∈ gives r Mut (SBox t) ∧ (∀ a, (Own, SMut r t) ∈ gives r Mut (SMut a t)).
Proof. repeat split; intros; by repeat constructor. Qed.
Theorem C77_shared r t m t' : (m, t') ∈ gives r Shr t →
  m = Shr ∨ (m = Own ∧ (t' = t ∨ t' = StrRef r ∨ t' = CharRef r ∨ ∃ u, t' = SRef r u)).
Proof.
  intros H. destruct t; cbn [gives] in H;
    repeat first [apply elem_of_nil in H; done|apply elem_of_cons in H as [H|H]; [injection H as -> ->|]]; eauto 10.
Qed.

(** [Cell<u8>], [Rc<u8>], the guard of a mutex. *)
Definition cell : ty := Any true false true None.
Definition rc : ty := Any false false false None.
Definition lock_guard (a : lt) : ty := Any false true false a.

Example C77_example :
  built (CVec (CBox cell)) = true ∧ open (CVec (CBox cell)) = true ∧
  marks_of (CVec (CBox cell)) = Marks true false ∧
  marks_of (SRef None cell) = Marks false false ∧ marks_of (SMut None cell) = Marks true false ∧
  marks_of (CBox rc) = Marks false false ∧ marks_of (SRef None (lock_guard None)) = Marks true true ∧
  marks_of (CBox (lock_guard None)) = Marks false true ∧
  built (BoxFn cell Byte Byte) = true ∧ built (BoxFn rc Byte Byte) = false ∧ built (ArcFn cell Byte Byte) = false ∧
  marks_of (CBox (ArcFn Byte rc rc)) = Marks true true ∧
  ¬ harmless (Shr, CVec (CBox cell)) ∧ ¬ harmless (Own, SRef None cell) ∧ ¬ harmless (Own, BoxFn rc Byte Byte).
Proof.
  repeat split.
  - intros H. by apply (proj2 (C77_exact (CVec (CBox cell)) eq_refl eq_refl)) in H.
  - intros H. by apply (proj1 (C77_exact (SRef None cell) eq_refl eq_refl)) in H.
  - apply bad_harmless. eapply bad_1; [reflexivity|]. exists Own, false, false, false, None. split; [apply rtc_refl|done].
Qed.

(** ** C78 *)

(** A value made at one type and used at a supertype of it: whatever is then done
    with it, nothing is used for longer than it is there, whether it is read, is
    written to a borrowed place, is passed to a closure or comes from one. *)
Theorem C78_sound t t' v :
  subtype t t' = true → rtc op2 (View Own t t' true) v → fits v.
Proof. intros R H. apply inv2_fits. eapply rtc_inv2; [done|]. split; [done|]. done. Qed.
(** The same operations are there at both types. *)
Theorem C78_same t t' r m v :
  subtype t t' = true → rtc op2 (View Own t t' true) v →
  (gives r m (v_made v)).*1 = (gives r m (v_used v)).*1 ∧
  (is_Some (calls m (v_made v)) ↔ is_Some (calls m (v_used v))).
Proof.
  intros R H.
  assert (I : inv2 v) by (eapply rtc_inv2; [done|]; split; done). destruct I as [I _]. split.
  - by eapply gives_modes.
  - pose proof (calls_rel m _ _ _ I) as K.
    destruct (calls m (v_made v)) as [[? ?]|], (calls m (v_used v)) as [[? ?]|]; try done.
Qed.

(** Which wrappers are subtypes of which. *)
Theorem C78_variance a b t t' :
  (subtype (CBox t) (CBox t') = subtype t t') ∧ (subtype (CVec t) (CVec t') = subtype t t') ∧
  (subtype (SBox t) (SBox t') = subtype t t') ∧ (subtype (TOption t) (TOption t') = subtype t t') ∧
  (subtype (SRef a t) (SRef b t') = outl a b && subtype t t') ∧
  (subtype (SMut a t) (SMut b t') = outl a b && (subtype t t' && rel t t' false)) ∧
  (∀ f u u', subtype (ArcFn f t u) (ArcFn f t' u') = rel t t' false && subtype u u') ∧
  (∀ f u u', subtype (BoxFn f t u) (BoxFn f t' u') = rel t t' false && subtype u u') ∧
  (∀ f u u', subtype (RefFn a f t u) (RefFn b f t' u') = outl a b && rel t t' false && subtype u u').
Proof.
  repeat split; intros; unfold subtype; cbn [rel]; rewrite ?bool_decide_true by done; reflexivity.
Qed.

Definition short (n : nat) : ty := Any true true false (Some n).
Example C78_example :
  subtype (CBox (short 5)) (CBox (short 3)) = true ∧ subtype (CBox (short 3)) (CBox (short 5)) = false ∧
  subtype (SMut (Some 2) (short 5)) (SMut (Some 2) (short 3)) = false ∧
  subtype (SMut (Some 4) (short 5)) (SMut (Some 2) (short 5)) = true ∧
  subtype (ArcFn Byte (short 3) (short 5)) (ArcFn Byte (short 5) (short 3)) = true ∧
  subtype (ArcFn Byte (short 5) (short 5)) (ArcFn Byte (short 3) (short 3)) = false ∧
  (** otherwise: what the owner of the slice takes for 5 is there until 3 *)
  ∃ v, rtc op2 (View Own (SMut (Some 2) (short 5)) (SMut (Some 2) (short 3)) true) v ∧ ¬ fits v.
Proof.
  repeat split. exists (View Mut (short 5) (short 3) true). split.
  - eapply rtc_l; [left; exists None, 0, Own; do 2 eexists; repeat split|].
    eapply rtc_l; [left; exists None, 0, Mut; do 2 eexists; repeat split|].
    eapply rtc_l; [left; exists None, 0, Mut; do 2 eexists; repeat split|]. apply rtc_refl.
  - intros F. destruct (F _ _ _ _ eq_refl eq_refl) as [_ H]. specialize (H (or_introl eq_refl)). discriminate H.
Qed.

(** ** C79 *)

(** As long as the lifetimes in the type of a handle last, so does whatever it
    reaches, also what its type does not mention. *)
Theorem C79_alive now t m : built t = true → usable now t → lives now (m, t).
Proof. intros B U. by apply usable_lives. Qed.
(** The type alone says so: erased closures and owners add nothing to it. *)
Theorem C79_erased f t u a : built (ArcFn f t u) = true ∨ built (BoxFn f t u) = true ∨ built (Bytes a f) = true →
  ∀ now, lives now (Own, f).
Proof.
  intros H now. apply usable_lives; unfold usable; cbn [fst snd].
  - destruct H as [H|[H|H]]; cbn [built] in H; bools; done.
  - destruct H as [H|[H|H]]; cbn [built] in H; bools; by eapply outlives_trans.
Qed.

(** A handle got from another is one that was in it, or expires no later than
    the other or the borrow of the other. *)
Theorem C79_no_longer r m t t' b : (Own, t') ∈ gives r m t → borrows t' = Some b →
  t' ∈ holds t ∨ (∃ a, borrows t = Some a ∧ outl a b = true) ∨ (m ≠ Own ∧ outl r b = true).
Proof.
  assert (HO : ∀ a : lt, outl a a = true) by (intros [n|]; [apply Nat.leb_refl|done]).
  intros H HB. destruct m, t; cbn [gives] in H;
    repeat first [apply elem_of_nil in H; done|apply elem_of_cons in H as [H|H]; [try discriminate H; injection H as ->|]];
    try discriminate HB; cbn [borrows] in HB; try injection HB as <-;
    first [left; cbn [holds]; rewrite ?elem_of_cons; by auto
          |right; left; eexists; split; [done|apply HO]
          |right; right; split; [done|apply HO]].
Qed.

Example C79_example :
  let h := CBox (RefFn (Some 4) (SMut (Some 6) Byte) Byte Byte) in
  built h = true ∧ usable 4 h ∧ ¬ usable 5 h ∧
  built (RefFn (Some 4) (SRef (Some 3) Byte) Byte Byte) = false ∧
  built (BoxFn (SRef (Some 9) Byte) Byte Byte) = false ∧
  (Own, SMut (Some 2) Byte) ∈ gives (Some 2) Mut (SMut (Some 6) Byte) ∧ borrows (SMut (Some 2) Byte) = Some (Some 2) ∧
  ¬ lives 5 (Own, BoxFn (short 4) Byte Byte).
Proof.
  cbn zeta. repeat split; [done|left|].
  intros L. specialize (L Own true true false (Some 4)).
  assert (H : outl (Some 4) (Some 5) = true); [|discriminate H]. apply L.
  eapply rtc_l; [left; exists None; split; [done|]; apply elem_of_list_here|apply rtc_refl].
Qed.

Print Assumptions C77_send.
Print Assumptions C77_sync.
Print Assumptions C77_exact.
Print Assumptions C77_counterpart.
Print Assumptions C77_char_raw.
Print Assumptions C77_clones.
Print Assumptions C77_borrows.
Print Assumptions C77_shared.
Print Assumptions C78_sound.
Print Assumptions C78_same.
Print Assumptions C78_variance.
Print Assumptions C79_alive.
Print Assumptions C79_erased.
Print Assumptions C79_no_longer.
