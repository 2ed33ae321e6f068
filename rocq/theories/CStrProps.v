(** Properties C12-C15 and C51: C strings. *)
From Coq Require Import ZifyBool ZifyNat ZifyN.
From stdpp Require Import base numbers list sets.
From Verif Require Import CStrModel CStrSpec CStrProofs CStrOps CStrRefine.
Local Open Scope N_scope.

(** ** Whole programs *)

(** Every program gets exactly the results it would get if all the values were plain byte strings, and
    none of its steps is undefined. *)
Theorem C12_programs os :
  Forall wf_op os → ∃ st, run init os = Some ((expected_run [] os).1, st).
Proof. intros H. destruct (run_refines os H) as (m & ws & E & _). eauto. Qed.

Lemma expected_run_app vs os os' :
  expected_run vs (os ++ os') =
  ((expected_run vs os).1 ++ (expected_run (expected_run vs os).2 os').1,
   (expected_run (expected_run vs os).2 os').2).
Proof.
  revert vs; induction os as [|o os IH]; intros vs; cbn [app expected_run].
  - cbn. by destruct (expected_run vs os').
  - destruct (expected vs o) as [r vs1]. rewrite IH.
    destruct (expected_run vs1 os) as [rs vs2]. done.
Qed.

(** The results of the last operations of a program. *)
Definition results_after (os os' : list op) : option (list (option res)) :=
  '(rs, _) ← run init (os ++ os'); Some (drop (length os) rs).

Lemma run_length st os rs st' : run st os = Some (rs, st') → length rs = length os.
Proof.
  revert st rs st'; induction os as [|o os IH]; cbn; intros st rs st' H; [by simplify_eq/=|].
  destruct (step st o); [| |done];
    (destruct (run st0 os) as [[rs' st'']|] eqn:E; [|done]); cbn in H; simplify_eq/=;
    f_equal; by eapply IH.
Qed.
Lemma expected_run_length vs os : length (expected_run vs os).1 = length os.
Proof.
  revert vs; induction os as [|o os IH]; cbn; intros vs; [done|].
  destruct (expected vs o) as [r vs1]. specialize (IH vs1). destruct (expected_run vs1 os). cbn in *. lia.
Qed.
Lemma results_after_spec os os' :
  Forall wf_op os → Forall wf_op os' →
  results_after os os' = Some (expected_run (expected_run [] os).2 os').1.
Proof.
  intros H H'. unfold results_after.
  destruct (C12_programs (os ++ os')) as [st ->]; [by apply Forall_app|]. cbn.
  rewrite expected_run_app. cbn [fst]. rewrite drop_app_alt; [done|]. by rewrite expected_run_length.
Qed.

(** Number of values made so far. *)
Definition made (os : list op) : nat := length (expected_run [] os).2.

(** Looking past the earlier values. *)
Lemma past0 (vs l : astate) : (vs ++ l) !! length vs = l !! 0%nat.
Proof. rewrite lookup_app_r by lia. by rewrite Nat.sub_diag. Qed.
Lemma past1 (vs l : astate) : (vs ++ l) !! S (length vs) = l !! 1%nat.
Proof. rewrite lookup_app_r by lia. f_equal. lia. Qed.
Lemma past2 (vs l : astate) : (vs ++ l) !! S (S (length vs)) = l !! 2%nat.
Proof. rewrite lookup_app_r by lia. f_equal. lia. Qed.
Lemma gone0 (vs l : astate) : agone (vs ++ l) (length vs) = vs ++ agone l 0.
Proof. unfold agone. rewrite insert_app_r_alt by lia. by rewrite Nat.sub_diag. Qed.
Lemma gone1 (vs l : astate) : agone (vs ++ l) (S (length vs)) = vs ++ agone l 1.
Proof. unfold agone. rewrite insert_app_r_alt by lia. by replace (S (length vs) - length vs)%nat with 1%nat by lia. Qed.
Lemma new_past (vs l : astate) a :
  anew (vs ++ l) a = (Some (RNew (length l + length vs)), vs ++ (l ++ [Some a])).
Proof. unfold anew. by rewrite <-app_assoc, app_length, Nat.add_comm. Qed.
Ltac past := repeat progress (cbn [expected_run expected]; unfold aill;
  rewrite ?past0, ?past1, ?past2, ?gone0, ?gone1, ?new_past;
  cbn [lookup list_lookup fst snd length app Nat.add];
  cbn [agone insert list_insert]).
Ltac past_start os :=
  f_equal; unfold made; rewrite <-(app_nil_r (expected_run [] os).2) at 1;
  generalize (expected_run [] os).2; intros vs.

(** C12: after any history, making an owned C string out of any string succeeds exactly when the string
    has no NUL before its last byte.  It then reads back as the string without the final NUL (with exactly
    one NUL added in the [_with_null] view), and converting it back gives that same string; the source
    string is used up.  Otherwise the very same string is given back. *)
Theorem C12_round_trip os s extra :
  Forall wf_op os → utf8 s = true →
  let n := made os in
  results_after os [NewString s extra; TryFromString n; ReadBuf n; ToStr (S n); ToBytesWithNull (S n);
                    IntoString (S n); ReadBuf (S (S n))] =
  Some (Some <$>
    if decide (no_inner_nul s)
    then [RNew n; RNew (S n); RIll; RBytes (strip s); RBytes (strip s ++ [0]);
          RNew (S (S n)); RBytes (strip s)]
    else [RNew n; RErr n; RBytes s; RIll; RIll; RIll; RIll]).
Proof.
  intros Hos Hs n. rewrite results_after_spec; [|done|by repeat constructor]. unfold n. past_start os.
  past. destruct (decide (no_inner_nul s)); by past.
Qed.

(** C12: [char_p::new] panics exactly on strings with an inner NUL (the argument is released by the
    unwinding, see [C13_all_freed]). *)
Theorem C12_new os s extra :
  Forall wf_op os → utf8 s = true →
  let n := made os in
  results_after os [NewString s extra; NewFromStr n; ReadBuf n; NewFromString n; ReadBuf n] =
  Some (if decide (no_inner_nul s)
        then [Some (RNew n); Some (RNew (S n)); Some (RBytes s); Some (RNew (S (S n))); Some RIll]
        else [Some (RNew n); None; Some (RBytes s); None; Some RIll]).
Proof.
  intros Hos Hs n. rewrite results_after_spec; [|done|by repeat constructor]. unfold n. past_start os.
  past. destruct (decide (no_inner_nul s)) as [Hn|Hn]; past;
    rewrite ?decide_True by done; rewrite ?decide_False by done; by past.
Qed.

(** ** Allocation *)

(** C13: no program ever reads freed memory, frees twice, or frees with a size other than the
    allocated one (all of these are the undefined outcome in the model, in which [run] is [None]). *)
Theorem C13_no_undefined_behaviour os : Forall wf_op os → run init os ≠ None.
Proof. intros H. destruct (C12_programs os H) as [st ->]. done. Qed.

(** C13: a block is allocated exactly as long as some value owns it ... *)
Theorem C13_live_iff_owned os rs st b k :
  Forall wf_op os → run init os = Some (rs, st) → st_mem st !! b = Some k →
  (b_live k = true ↔ ∃ h v, st_vals st !! h = Some (Some v) ∧ owns v b).
Proof.
  intros Hos Hrun Hk. destruct (run_refines os Hos) as (m & ws & E & _ & HI).
  rewrite Hrun in E. simplify_eq/=. split.
  - intros Hl. by eapply SInv_owned.
  - intros (h & v & Hh & Ho). rewrite concrete_at in Hh.
    destruct (ws !! h) as [[[v' a]|]|] eqn:Ew; cbn in Hh; simplify_eq.
    destruct (rep_in m v a b) as (k' & Hk' & Hl); [|done|by simplify_eq].
    exact (Inv_head _ _ _ _ (SInv_at _ _ _ _ _ HI Ew)).
Qed.

(** ... so that nothing is left once every value is gone ... *)
Theorem C13_all_freed os rs st :
  Forall wf_op os → run init os = Some (rs, st) →
  Forall (λ o, o = None) (st_vals st) → Forall (λ k, b_live k = false) (st_mem st).
Proof.
  intros Hos Hrun Hnone. apply Forall_lookup. intros b k Hk.
  destruct (b_live k) eqn:El; [|done]. apply (C13_live_iff_owned _ _ _ _ _ Hos Hrun Hk) in El.
  destruct El as (h & v & Hh & _). rewrite Forall_lookup in Hnone. by specialize (Hnone _ _ Hh).
Qed.

(** ... and only [Arc]-based values share a block. *)
Theorem C13_unique os rs st h1 h2 v1 v2 b :
  Forall wf_op os → run init os = Some (rs, st) →
  st_vals st !! h1 = Some (Some v1) → st_vals st !! h2 = Some (Some v2) →
  owns v1 b → owns v2 b → h1 ≠ h2 →
  (∃ x y, (v1 = VArc b x ∨ v1 = VShared b) ∧ (v2 = VArc b y ∨ v2 = VShared b)).
Proof.
  intros Hos Hrun H1 H2 O1 O2 Hne. destruct (run_refines os Hos) as (m & ws & E & _ & HI).
  rewrite Hrun in E. simplify_eq/=. rewrite concrete_at in H1, H2.
  destruct (ws !! h1) as [[[v1' a1]|]|] eqn:Ew1; cbn in H1; simplify_eq.
  destruct (ws !! h2) as [[[v2' a2]|]|] eqn:Ew2; cbn in H2; simplify_eq.
  assert (∀ ha hb va vb aa ab, ws !! ha = Some (Some (va, aa)) → ws !! hb = Some (Some (vb, ab)) →
    ha ≠ hb → owns va b → owns vb b → sharable va = true) as Hsh.
  { intros ha hb va vb aa ab Ha Hb Hab Oa Ob. destruct (sharable va) eqn:Es; [done|exfalso].
    pose proof (SInv_at _ _ _ _ _ HI Ha) as HIa. pose proof (Inv_head _ _ _ _ HIa) as Hr.
    destruct (rep_in _ _ _ _ Hr Oa) as (k & Hk & _).
    pose proof (rep_unique _ _ _ _ _ Hr Oa Es Hk) as Hrc.
    apply (unique_other _ _ _ _ _ _ HIa Oa Hk Hrc (vb, ab)); [|done].
    unfold held. apply elem_of_list_omap. exists (Some (vb, ab)). split; [|done].
    apply elem_of_list_lookup. exists hb. by rewrite list_lookup_insert_ne. }
  pose proof (Hsh _ _ _ _ _ _ Ew1 Ew2 Hne O1 O2) as S1.
  pose proof (Hsh _ _ _ _ _ _ Ew2 Ew1 (not_eq_sym Hne) O2 O1) as S2.
  assert (∀ v, sharable v = true → owns v b → ∃ x, v = VArc b x ∨ v = VShared b) as Hk.
  { unfold owns. intros [| | |[|?]|? len|?] Hs Ho; try done; cbn in Ho; simplify_eq; [exists len|exists 0%nat]; auto. }
  destruct (Hk _ S1 O1) as [x ?], (Hk _ S2 O2) as [y ?]. by exists x, y.
Qed.

(** C13: dropping one owned C string releases exactly its block (nothing for the empty string's
    sentinel), and leaves every other block as it was. *)
Theorem C13_drop os rs st h p :
  Forall wf_op os → run init os = Some (rs, st) → st_vals st !! h = Some (Some (VBoxed p)) →
  ∃ st', step st (DropIt h) = ODone RUnit st' ∧
    ∀ b k, st_mem st !! b = Some k →
      st_mem st' !! b = Some (if decide (p = PHeap b) then Blk (b_size k) [] false 0 else k).
Proof.
  intros Hos Hrun Hh. destruct (run_refines os Hos) as (m & ws & E & _ & HI).
  rewrite Hrun in E. simplify_eq/=. rewrite Hh. pose proof Hh as Hw. rewrite concrete_at in Hw.
  destruct (ws !! h) as [[[v a]|]|] eqn:Ew; cbn in Hw; simplify_eq.
  pose proof (Inv_head _ _ _ _ (SInv_at _ _ _ _ _ HI Ew)) as Hr. destruct p as [|b0].
  - cbn. eexists. split; [done|]. cbn. intros b k ->. by rewrite decide_False.
  - destruct a as [| | |x| |]; try done. destruct (as_ref_ok _ _ _ Hr) as (Er & Hx & _).
    unfold boxed_drop. rewrite Er. cbn [mbind option_bind].
    rewrite ref_to_bytes_with_null_ok by done. cbn [mbind option_bind]. destruct Hr as (Hb & _).
    rewrite app_length. cbn [length]. rewrite (dealloc_ok _ _ _ _ _ Hb). cbn [req done].
    eexists. split; [done|]. cbn. intros b k Hk. destruct (decide (PHeap b0 = PHeap b)) as [[= ->]|Hne].
    + rewrite Hb in Hk. simplify_eq/=. by rewrite (insert_at _ _ _ _ Hb).
    + rewrite list_lookup_insert_ne by congruence. done.
Qed.

(** ** Borrowed C strings *)

(** C14: a [str] (at an address followed by arbitrary bytes) becomes a borrowed C string exactly when
    it is empty or its first NUL is its last byte, and reads back as itself without that NUL; the
    [_with_null] views have exactly one NUL more. *)
Theorem C14_borrowed s post :
  utf8 s = true →
  (is_Some (ref_try_from s post) ↔ terminated s) ∧
  ∀ r, ref_try_from s post = Some r →
    ref_to_bytes r = Some (strip s) ∧ ref_to_str r = Some (strip s) ∧
    ref_to_bytes_with_null r = Some (strip s ++ [0]) ∧ ref_to_str_with_null r = Some (strip s ++ [0]) ∧
    0 ∉ strip s.
Proof.
  intros Hu. destruct (ref_try_from_ok s post) as [H1 H2]. split.
  - split; [|intros Ht; destruct (H1 Ht) as (t & -> & _); eauto].
    intros [r Hr]. apply dec_stable. intros Hn. by rewrite (H2 Hn) in Hr.
  - intros r Hr. destruct (decide (terminated s)) as [Ht|Hn]; [|by rewrite (H2 Hn) in Hr].
    destruct (H1 Ht) as (t & E & Hx). rewrite E in Hr. simplify_eq.
    assert (utf8 (strip s) = true) as Hus.
    { apply terminated_cases in Ht as [->|(y & -> & Hy)]; [done|].
      rewrite strip_snoc. by rewrite utf8_snoc in Hu. }
    rewrite ref_to_bytes_ok, ref_to_str_ok, ref_to_bytes_with_null_ok, ref_to_str_with_null_ok by done. done.
Qed.

(** C14: [From<&CStr>] panics exactly on invalid UTF-8 and otherwise reads back the same bytes. *)
Theorem C14_from_cstr s post :
  0 ∉ s →
  (is_Some (ref_from_cstr s post) ↔ utf8 s = true) ∧
  ∀ r, ref_from_cstr s post = Some r → ref_to_str r = Some s ∧ ref_to_bytes_with_null r = Some (s ++ [0]).
Proof.
  intros Hs. unfold ref_from_cstr. destruct (utf8 s) eqn:Hu; split.
  - split; [done|eauto].
  - intros r [= <-]. by rewrite ref_to_str_ok, ref_to_bytes_with_null_ok.
  - split; [intros [? ?]|]; done.
  - done.
Qed.

(** C14: any pointer coming from C to a NUL-terminated area reads as the bytes up to the first NUL,
    and two such strings are equal exactly when those bytes are, wherever they live. *)
Theorem C14_foreign s t : 0 ∉ s → ref_to_bytes (s ++ 0 :: t) = Some s ∧ ref_to_bytes_with_null (s ++ 0 :: t) = Some (s ++ [0]).
Proof. intros H. by rewrite ref_to_bytes_ok, ref_to_bytes_with_null_ok. Qed.
Theorem C14_equality s1 t1 s2 t2 :
  0 ∉ s1 → 0 ∉ s2 → utf8 s1 = true → utf8 s2 = true →
  ref_eq (s1 ++ 0 :: t1) (s2 ++ 0 :: t2) = Some (bool_decide (s1 = s2)).
Proof. intros. unfold ref_eq. by rewrite !ref_to_str_ok. Qed.

(** ** Literals and JS strings *)

(** C15: [c!] accepts exactly the literals without inner NUL and emits them with exactly one NUL,
    at the end. *)
Theorem C15_c_macro s :
  (∀ bs, c_macro (Some s) = inl bs ↔ no_inner_nul s ∧ bs = strip s ++ [0]) ∧
  (no_inner_nul s → 0 ∉ strip s) ∧
  c_macro None = inl [0].
Proof.
  assert (no_inner_nul s → 0 ∉ strip s) as Hs.
  { intros [H|(t & -> & H)]%no_inner_nul_cases; [by rewrite strip_nonul|by rewrite strip_snoc]. }
  split_and!; [|done|done]. intros bs. unfold c_macro. destruct (position0 s) as [n|] eqn:E.
  - apply position0_some in E as (u & v & -> & <- & Hu). rewrite app_length. cbn [length].
    destruct (decide _) as [He|He].
    + destruct v; [|cbn in He; lia]. rewrite strip_snoc. split; [|by intros [_ ->]].
      intros [= <-]. split; [|done]. apply no_inner_nul_cases. eauto.
    + split; [done|]. intros [Hn _]. unfold no_inner_nul in Hn. destruct v as [|x v]; [cbn in He; lia|].
      rewrite removelast_app in Hn by done. change (removelast (0 :: x :: v)) with (0 :: removelast (x :: v)) in Hn.
      set_solver.
  - apply position0_none in E. rewrite strip_nonul by done. split; [|by intros [_ ->]].
    intros [= <-]. split; [|done]. apply no_inner_nul_cases. eauto.
Qed.

(** C15: an inner NUL is reported at its first position. *)
Theorem C15_c_macro_error s n :
  c_macro (Some s) = inr n → s !! n = Some 0 ∧ (n < length s - 1)%nat ∧ 0 ∉ take n s.
Proof.
  unfold c_macro. destruct (position0 s) as [k|] eqn:E; [|done].
  destruct (decide _) as [|Hk]; [done|]. intros [= ->].
  apply position0_some in E as (u & v & -> & <- & Hu). rewrite take_app. rewrite list_lookup_middle by done.
  rewrite app_length in *. cbn in *. split_and!; [done|lia|done].
Qed.

(** C15: [withCString] accepts the same set of strings, passes the same bytes, and [null] for null. *)
Theorem C15_js_string s :
  (∀ bs, with_c_string (JsString s) = Some (JsPBuf bs) ↔ no_inner_nul s ∧ bs = strip s ++ [0]) ∧
  with_c_string (JsString s) ≠ Some JsPNull ∧
  with_c_string JsNull = Some JsPNull ∧ with_c_string JsOther = None.
Proof.
  split_and!; [|cbn; by repeat case_match|done|done]. intros bs.
  destruct (C15_c_macro s) as [H _]. rewrite <-H. cbn. unfold c_macro.
  destruct (position0 s) as [n|]; [destruct (decide _)|]; split; intros; by simplify_eq.
Qed.

(** C15: the same string is meant whichever of the three ways it is made. *)
Theorem C15_same_as_borrowed s bs post :
  utf8 s = true → c_macro (Some s) = inl bs → ref_to_str (bs ++ post) = Some (strip s).
Proof.
  intros Hu H. destruct (C15_c_macro s) as (H1 & H2 & _). apply H1 in H as [Hn ->].
  rewrite <-app_assoc. apply ref_to_str_ok; [by apply H2|].
  apply no_inner_nul_cases in Hn as [?|(t & -> & ?)]; [by rewrite strip_nonul|].
  rewrite strip_snoc. by rewrite utf8_snoc in Hu.
Qed.

(** ** Shared C strings *)

(** C51: a [SharedCStr] made of a string reads back as that string through every clone, including
    after the original is dropped; only strings with a NUL are refused (by a panic). *)
Theorem C51_shared os s extra :
  Forall wf_op os → utf8 s = true →
  let n := made os in
  results_after os [NewString s extra; SharedFromStr n; CloneIt (S n); DropIt (S n); ToStr (S (S n));
                    ToStr (S n); ReadBuf n] =
  Some (if decide (0 ∈ s)
        then [Some (RNew n); None; Some RIll; Some RIll; Some RIll; Some RIll; Some (RBytes s)]
        else [Some (RNew n); Some (RNew (S n)); Some (RNew (S (S n))); Some RUnit; Some (RBytes s);
              Some RIll; Some (RBytes s)]).
Proof.
  intros Hos Hs n. rewrite results_after_spec; [|done|by repeat constructor]. unfold n. past_start os.
  past. destruct (decide (0 ∈ s)); by past.
Qed.

(** C51: the count of a block is the number of values that own it, at every point of every program, so
    the string is freed by the drop of the last one and by no other. *)
Theorem C51_count os rs st b k :
  Forall wf_op os → run init os = Some (rs, st) → st_mem st !! b = Some k →
  b_rc k = length (filter (slot_owns b) (st_vals st)).
Proof.
  intros Hos Hrun Hk. destruct (run_refines os Hos) as (m & ws & E & _ & HI).
  rewrite Hrun in E. simplify_eq/=. rewrite (inv_occ _ _ HI _ _ Hk). clear.
  induction ws as [|w ws IH]; [done|]. destruct w as [[v a]|].
  - change (held (Some (v, a) :: ws)) with ((v, a) :: held ws).
    change (concrete (Some (v, a) :: ws)) with (Some v :: concrete ws).
    rewrite filter_cons, occ_cons. cbn [fst]. destruct (decide (own v = Some b)).
    + rewrite decide_True by done. cbn [length]. by rewrite IH.
    + rewrite decide_False by done. by rewrite IH.
  - change (held (None :: ws)) with (held ws).
    change (concrete (None :: ws)) with (None :: concrete ws).
    rewrite filter_cons, decide_False; [exact IH|]. by intros [].
Qed.

(** ** Examples: the hypotheses are met *)

(** "hé" with a terminator, an inner NUL, a history with panics and errors. *)
Definition he : list N := [104; 195; 169].
Definition demo : list op :=
  [NewString he 5; TryFromString 0; CloneIt 1; NewString [97; 0; 98] 0; TryFromString 3; NewFromString 3;
   NewString (he ++ [0]) 0; NewFromStr 4; EqBoxed 1 5; NewCString [255]; FromCString 6; NewCString he;
   ArcFromCString 7; CloneIt 8; SharedFromArc 8; CloneIt 10; ToStr 11; IntoVec 1; NewString [] 3; TryFromString 13;
   IntoString 14; SharedFromStr 3].
Example demo_wf : Forall wf_op demo.
Proof. repeat constructor. Qed.
Example demo_runs : made demo = 16%nat ∧
  (fst <$> run init demo) = Some
  [Some (RNew 0); Some (RNew 1); Some (RNew 2); Some (RNew 3); Some (RErr 3); None; Some (RNew 4);
   Some (RNew 5); Some (RBool true); Some (RNew 6); None; Some (RNew 7); Some (RNew 8); Some (RNew 9);
   Some (RNew 10); Some (RNew 11); Some (RBytes he); Some (RNew 12); Some (RNew 13); Some (RNew 14);
   Some (RNew 15); Some RIll].
Proof. vm_compute. done. Qed.
Definition cleanup : list op := map DropIt (seq 0 16).
Example demo_cleanup :
  match run init (demo ++ cleanup) with
  | Some (_, st) => (forallb (λ o : option value, if o then false else true) (st_vals st),
                     forallb (λ k, negb (b_live k)) (st_mem st), length (st_mem st)) = (true, true, 9%nat)
  | None => False
  end.
Proof. vm_compute. done. Qed.
Example utf8_examples : utf8 he = true ∧ utf8 [255] = false ∧ utf8 [237; 160; 128] = false ∧ utf8 [240; 159; 166; 128] = true.
Proof. vm_compute. done. Qed.
Example terminated_example : terminated (he ++ [0]) ∧ ¬ terminated he ∧ no_inner_nul he ∧ ¬ no_inner_nul [97; 0; 98].
Proof.
  split_and!.
  - apply (bool_decide_eq_true_1 (terminated (he ++ [0]))). vm_compute. done.
  - apply (bool_decide_eq_true_1 (¬ terminated he)). vm_compute. done.
  - apply (bool_decide_eq_true_1 (no_inner_nul he)). vm_compute. done.
  - apply (bool_decide_eq_true_1 (¬ no_inner_nul [97; 0; 98])). vm_compute. done.
Qed.

Print Assumptions C12_programs.
Print Assumptions C12_round_trip.
Print Assumptions C12_new.
Print Assumptions C13_no_undefined_behaviour.
Print Assumptions C13_live_iff_owned.
Print Assumptions C13_all_freed.
Print Assumptions C13_unique.
Print Assumptions C13_drop.
Print Assumptions C14_borrowed.
Print Assumptions C14_from_cstr.
Print Assumptions C14_foreign.
Print Assumptions C14_equality.
Print Assumptions C15_c_macro.
Print Assumptions C15_c_macro_error.
Print Assumptions C15_js_string.
Print Assumptions C15_same_as_borrowed.
Print Assumptions C51_shared.
Print Assumptions C51_count.
