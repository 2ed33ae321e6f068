(** Property C69: the memory that conversions take on wasm. *)

From Coq Require Import ZArith NArith Bool List String Lia.
From stdpp Require Import base numbers list.
From Verif Require Import JsNumModel NapiModel NapiSpec NapiProofs WasmMemModel WasmMemSpec WasmMemProofs.
Local Open Scope Z_scope.

(** The results are those of the conversions of C44 and C56. *)
Theorem C69_agrees chk str t j : erase (from_wasm chk str t j).2 = from_napi chk (Wasm str) t j.
Proof. apply erase_from. Qed.

(** Only buffers borrowed from are copied, each once and in order; all of them
    are if the conversion succeeds. *)
Theorem C69_copies chk str t j :
  (∃ rest, buffers t j = (from_wasm chk str t j).1 ++ rest)%list ∧
  ∀ v, (from_wasm chk str t j).2 = WOk v → (from_wasm chk str t j).1 = buffers t j.
Proof. pose proof (copies_prefix chk str t j) as H. by destruct (from_wasm chk str t j). Qed.

(** The shape of what happens. *)
Lemma call_shape chk str fresh rust ts ret args es o : call_js chk str fresh rust ts ret args = (es, o) →
  ∃ cs r mid, convert chk str 0 ts args = (cs, r) ∧
    (mid = [] ∧ (∀ vs, r ≠ WOk vs) ∨ ∃ vs, mid = [Called vs] ∧ r = WOk vs) ∧
    ((es = map Alloc cs ++ mid ++ cleanup cs ∧ (o = Fails ∨ ∃ j, o = Gives j))%list ∨
     (es = map Alloc cs ++ mid ∧ (o = Throws ∨ o = Traps))%list).
Proof.
  unfold call_js. destruct (convert chk str 0 ts args) as [cs r]. destruct r as [vs| | |].
  - intros H. exists cs, (WOk vs), [Called vs]. split; [done|]. split; [right; by exists vs|].
    destruct (rust vs) as [v|]; [destruct (to_napi (Wasm str) fresh ret v)|]; injection H as <- <-; naive_solver.
  - intros [= <- <-]. exists cs, WErr, []. split; [done|]. split; [by left|]. left. split; [done|]. by left.
  - intros [= <- <-]. exists cs, WThrow, []. split; [done|]. split; [by left|]. right. rewrite app_nil_r. split; [done|]. by left.
  - intros [= <- <-]. exists cs, WTrap, []. split; [done|]. split; [by left|]. right. rewrite app_nil_r. split; [done|]. by right.
Qed.
Lemma no_called cs pre vs post : map Alloc cs = (pre ++ Called vs :: post)%list → False.
Proof.
  intros H. assert (Hin : Called vs ∈ map Alloc cs) by (rewrite H; apply elem_of_app; right; by left).
  apply elem_of_list_In, in_map_iff in Hin as (c & [=] & _).
Qed.
Lemma no_called' cs pre vs post : cleanup cs = (pre ++ Called vs :: post)%list → False.
Proof.
  intros H. assert (Hin : Called vs ∈ cleanup cs) by (rewrite H; apply elem_of_app; right; by left).
  apply elem_of_list_In, in_map_iff in Hin as (c & [=] & _).
Qed.
Lemma split_called cs mid rest pre vs post : (mid = [] ∨ ∃ ws, mid = [Called ws]) → (rest = [] ∨ rest = cleanup cs) →
  (map Alloc cs ++ mid ++ rest = pre ++ Called vs :: post)%list → mid = [Called vs] ∧ pre = map Alloc cs ∧ post = rest.
Proof.
  intros Hmid Hrest H.
  assert (Hr : ∀ p q, rest = (p ++ Called vs :: q)%list → False).
  { intros p q Hq. destruct Hrest as [->| ->]; [by destruct p|]. by eapply no_called'. }
  destruct (app_eq_inv _ _ _ _ H) as [(k & Hk1 & Hk2)|(k & Hk1 & Hk2)].
  - destruct k as [|e k].
    + cbn in Hk2. rewrite app_nil_r in Hk1. destruct Hmid as [->|[ws ->]]; cbn in Hk2.
      * exfalso. by apply (Hr [] post).
      * injection Hk2 as -> ->. done.
    + exfalso. cbn in Hk2. injection Hk2 as E1 E2. rewrite <- E1 in Hk1. by eapply no_called.
  - destruct Hmid as [->|[ws ->]]; cbn in Hk2.
    + exfalso. by eapply Hr.
    + destruct k as [|e k]; cbn in Hk2.
      * injection Hk2 as -> ->. rewrite app_nil_r in Hk1. done.
      * exfalso. injection Hk2 as _ Hk2. by eapply Hr.
Qed.

(** When Rust is called, all that its arguments borrow is in memory, with the
    bytes that JavaScript gave; it is called at most once. *)
Theorem C69_borrowed chk str fresh rust ts ret args es o pre vs post :
  call_js chk str fresh rust ts ret args = (es, o) → es = (pre ++ Called vs :: post)%list →
  Forall2 (λ '(t, k) v, points (live pre []) t (arg args k) v) (zip ts (seq 0 (List.length ts))) vs ∧
  (∀ ws, Called ws ∉ pre ∧ Called ws ∉ post).
Proof.
  intros Hc Hes. apply call_shape in Hc as (cs & r & mid & Hconv & Hmid & Hend).
  assert (Hm : mid = [] ∨ ∃ ws, mid = [Called ws]) by naive_solver.
  assert (Hs : ∃ rest, (rest = [] ∨ rest = cleanup cs) ∧ (map Alloc cs ++ mid ++ rest = pre ++ Called vs :: post)%list).
  { destruct Hend as [[E _]|[E _]]; rewrite Hes in E.
    - exists (cleanup cs). split; [by right|done].
    - exists []. split; [by left|]. by rewrite app_nil_r. }
  destruct Hs as (rest & Hrest & Hs). destruct (split_called _ _ _ _ _ _ Hm Hrest Hs) as (-> & -> & ->). split.
  - destruct Hmid as [[[=] _]|(ws & [= <-] & ->)]. rewrite live_allocs, app_nil_r.
    pose proof (convert_points chk str 0 ts args vs (rev cs)) as Hp. rewrite Hconv in Hp. apply Hp; [done|].
    intros c Hin. cbn [fst] in Hin. apply elem_of_list_In, in_rev. rewrite rev_involutive. by apply elem_of_list_In.
  - intros ws. split; intros Hin.
    + apply elem_of_list_In, in_map_iff in Hin as (c & [=] & _).
    + destruct Hrest as [->| ->]; [by apply elem_of_nil in Hin|]. apply elem_of_list_In, in_map_iff in Hin as (c & [=] & _).
Qed.

(** Calls that end with a value or with an error returned free each copy once,
    after the call. *)
Theorem C69_balanced chk str fresh rust ts ret args es o :
  call_js chk str fresh rust ts ret args = (es, o) → (o = Fails ∨ ∃ j, o = Gives j) →
  frees es = map fst (allocs es) ∧ live es [] = [] ∧
  ∀ pre a post, es = (pre ++ Free a :: post)%list → (∀ vs, Called vs ∉ post) ∧ ∀ c, Alloc c ∉ post.
Proof.
  intros Hc Ho. apply call_shape in Hc as (cs & r & mid & _ & Hmid & [[-> _]|[_ Hn]]); [|naive_solver].
  assert (Hm : allocs mid = [] ∧ frees mid = []) by naive_solver. destruct Hm as [Ha Hf].
  split; [|split].
  - rewrite !allocs_app, !frees_app, allocs_allocs, frees_allocs, allocs_cleanup, frees_cleanup, Ha, Hf. cbn. by rewrite app_nil_r.
  - apply live_all. intros e He. destruct Hmid as [[-> _]|(vs & -> & _)]; [by apply elem_of_nil in He|].
    apply elem_of_list_singleton in He as ->. by exists vs.
  - intros pre a post H.
    assert (Hpost : ∃ pre', cleanup cs = (pre' ++ Free a :: post)%list).
    { rewrite app_assoc in H. destruct (app_eq_inv _ _ _ _ H) as [(k & Hk1 & Hk2)|(k & Hk1 & Hk2)]; [|by exists k].
      destruct k as [|e k]; [exists []; exact (eq_sym Hk2)|]. exfalso. injection Hk2 as <- _.
      assert (Hin : Free a ∈ (map Alloc cs ++ mid)%list) by (rewrite Hk1; apply elem_of_app; right; by left).
      apply elem_of_app in Hin as [Hin|Hin].
      - apply elem_of_list_In, in_map_iff in Hin as (c & [=] & _).
      - destruct Hmid as [[-> _]|(vs & -> & _)]; [by apply elem_of_nil in Hin|]. by apply elem_of_list_singleton in Hin. }
    destruct Hpost as [pre' Hpost].
    assert (Hin : ∀ e, e ∈ post → ∃ b, e = Free b).
    { intros e He. assert (Hin : e ∈ cleanup cs) by (rewrite Hpost; apply elem_of_app; right; by right).
      apply elem_of_list_In, in_map_iff in Hin as (c & <- & _). by eexists. }
    split; [intros vs He|intros c He]; by destruct (Hin _ He).
Qed.

(** Copies have different addresses: none is freed twice, none before it is
    made. *)
Theorem C69_once chk str fresh rust ts ret args es o :
  call_js chk str fresh rust ts ret args = (es, o) → NoDup (map fst (allocs es)) →
  NoDup (frees es) ∧ ∀ a, a ∈ frees es → a ∈ map fst (allocs es).
Proof.
  intros Hc Hn. pose proof Hc as Hc'. apply call_shape in Hc' as (cs & r & mid & _ & Hmid & [[_ Ho]|[-> _]]).
  - destruct (C69_balanced _ _ _ _ _ _ _ _ _ Hc) as [-> _]; [naive_solver|]. done.
  - assert (Hf : frees mid = []) by naive_solver. rewrite frees_app, frees_allocs, Hf. split; [constructor|].
    intros a Ha. by apply elem_of_nil in Ha.
Qed.

(** After an exception or a trap nothing is freed: all copies made remain. *)
Theorem C69_left chk str fresh rust ts ret args es o :
  call_js chk str fresh rust ts ret args = (es, o) → o = Throws ∨ o = Traps →
  frees es = [] ∧ ∀ c, c ∈ allocs es ↔ c ∈ live es [].
Proof.
  intros Hc Ho. apply call_shape in Hc as (cs & r & mid & _ & Hmid & [[_ Hn]|[-> _]]); [naive_solver|].
  assert (Hm : allocs mid = [] ∧ frees mid = [] ∧ ∀ mem, live mid mem = mem) by naive_solver. destruct Hm as (Ha & Hf & Hl).
  rewrite frees_app, frees_allocs, Hf, allocs_app, allocs_allocs, Ha, app_nil_r. split; [done|]. intros c.
  rewrite live_app, live_allocs, Hl, !app_nil_r. rewrite !elem_of_list_In. apply in_rev.
Qed.

(** When that happens: an exception goes through exactly if, of the arguments,
    the first that is not taken cannot be read by JavaScript itself; an error is
    returned if it is refused; a trap is a panic of the conversion, of the Rust
    function, or of the conversion of its result. *)
Definition first_bad (P : cty → js → Prop) chk str (ts : list cty) (args : list js) : Prop :=
  ∃ k t, ts !! k = Some t ∧ P t (arg args k) ∧
    ∀ k' u, (k' < k)%nat → ts !! k' = Some u → takes chk str u (arg args k').
Theorem C69_throws chk str fresh rust ts ret args es o : call_js chk str fresh rust ts ret args = (es, o) →
  (o = Throws ↔ first_bad (raises chk str) chk str ts args) ∧
  (o = Fails → first_bad (λ t j, from_napi chk (Wasm str) t j = Err ∧ ¬ raises chk str t j) chk str ts args ∨
    ∃ vs v, Called vs ∈ es ∧ rust vs = Some v ∧ to_napi (Wasm str) fresh ret v = Err) ∧
  (o = Traps → first_bad (λ t j, from_napi chk (Wasm str) t j = Panic) chk str ts args ∨
    ∃ vs, Called vs ∈ es ∧ ∀ v, rust vs = Some v → to_napi (Wasm str) fresh ret v = Panic).
Proof.
  intros H.
  assert (HF : ∀ r, bad (convert chk str 0 ts args).2 = Some r ↔ first_bad (λ t j, bad (from_wasm chk str t j).2 = Some r) chk str ts args).
  { intros r. rewrite convert_first. done. }
  assert (HT : bad (convert chk str 0 ts args).2 = Some WThrow ↔ first_bad (raises chk str) chk str ts args).
  { rewrite HF. unfold first_bad. split; intros (k & t & Hk & Hb & Hf); exists k, t; (split; [done|]); (split; [|done]).
    - apply from_throws. by destruct (from_wasm chk str t (arg args k)).2.
    - apply from_throws in Hb. by rewrite Hb. }
  assert (HE : ∀ r, first_bad (λ t j, bad (from_wasm chk str t j).2 = Some r) chk str ts args → 
    (r = WErr → first_bad (λ t j, from_napi chk (Wasm str) t j = Err ∧ ¬ raises chk str t j) chk str ts args) ∧
    (r = WTrap → first_bad (λ t j, from_napi chk (Wasm str) t j = Panic) chk str ts args)).
  { intros r (k & t & Hk & Hb & Hf). split; intros ->; exists k, t; (split; [done|]); (split; [|done]).
    - rewrite <- from_throws, <- erase_from. by destruct (from_wasm chk str t (arg args k)).2.
    - rewrite <- erase_from. by destruct (from_wasm chk str t (arg args k)).2. }
  unfold call_js in H. destruct (convert chk str 0 ts args) as [cs r]. cbn [snd] in *. destruct r as [vs| | |].
  - assert (HN : ¬ first_bad (raises chk str) chk str ts args) by by intros ?%HT.
    assert (HC : ∀ rest, Called vs ∈ (map Alloc cs ++ [Called vs] ++ rest)%list) by (intros rest; apply elem_of_app; right; left).
    destruct (rust vs) as [v|] eqn:Er; [destruct (to_napi (Wasm str) fresh ret v) eqn:En|]; injection H as <- <-.
    + split_and!; [|done|done]. split; [done|]. by intros ?%HN.
    + split_and!; [|intros _; right; exists vs, v; split_and!; [apply HC|done|done]|done]. split; [done|]. by intros ?%HN.
    + split_and!; [|done|intros _; right; exists vs; split; [apply (HC [])|congruence]]. split; [done|]. by intros ?%HN.
    + split_and!; [|done|intros _; right; exists vs; split; [apply (HC [])|congruence]]. split; [done|]. by intros ?%HN.
  - injection H as <- <-. split_and!; [|intros _; left; eapply HE; [by apply HF|done]|done]. split; [done|]. by intros ?%HT.
  - injection H as <- <-. split_and!; [|done|done]. split; [intros _; by apply HT|done].
  - injection H as <- <-. split_and!; [|done|intros _; left; eapply HE; [by apply HF|done]]. split; [done|]. by intros ?%HT.
Qed.
Print Assumptions C69_throws.
(** [f(buffer, {type: 'int *', addr: 1n})] throws, [f(buffer, 5)] is refused, an
    empty buffer for a C string traps (if overflow is checked). *)
Example C69_throws_example str :
  let ptr := TPtr false (PBase (chars "int")) in let cstr := TPtr true (PBase (chars "char")) in
  let buf := JBuf 4096 [65%N; 0%N] in let big := JObj [(chars "type", JStr (pname (PPtr false (PBase (chars "int"))))); (chars "addr", JBig 1)] in
  (call_js true str 0 (λ _, Some VUnit) [cstr; ptr] TVoid [buf; big]).2 = Throws ∧
  (call_js true str 0 (λ _, Some VUnit) [cstr; ptr] TVoid [buf; JBool true]).2 = Fails ∧
  (call_js true str 0 (λ _, Some VUnit) [cstr; ptr] TVoid [JBuf 4096 []; big]).2 = Traps ∧
  raises true str ptr big ∧ takes true str cstr buf.
Proof.
  split_and!; try done.
  - split; [done|by exists 1].
  - by exists (VPtr 4096).
Qed.

(** Without buffers nothing is left by any call. *)
Theorem C69_nothing chk str fresh rust ts ret args es o :
  call_js chk str fresh rust ts ret args = (es, o) →
  (∀ k t, ts !! k = Some t → buffers t (arg args k) = []) → allocs es = [] ∧ frees es = [].
Proof.
  intros Hc Hb. apply call_shape in Hc as (cs & r & mid & Hconv & Hmid & Hend).
  assert (Hn : ∀ i ts, (∀ k t, ts !! k = Some t → buffers t (arg args (i + k)%nat) = []) → args_buffers i ts args = []).
  { clear. intros i ts. revert i. induction ts as [|t ts IH]; intros i H; [done|]. cbn [args_buffers].
    pose proof (H 0%nat t eq_refl) as H0. rewrite Nat.add_0_r in H0. rewrite H0. cbn [app]. apply IH. intros k u Hk.
    replace (S i + k)%nat with (i + S k)%nat by lia. by apply H. }
  pose proof (convert_prefix chk str 0 ts args) as Hp. rewrite Hconv in Hp. destruct Hp as [[rest Hp] _].
  rewrite (Hn 0%nat ts) in Hp by (intros k t Hk; by apply Hb). symmetry in Hp. apply app_eq_nil in Hp as [-> _].
  destruct Hmid as [[-> _]|(vs & -> & _)], Hend as [[-> _]|[-> _]]; done.
Qed.

Lemma bytes_wf : well_formed
  (TStruct true [(chars "ptr", TPtr true (PBase (chars "uint8_t"))); (chars "len", TSize false); (chars "_lt", TVoid)]).
Proof.
  apply wf_struct. split_and!; [intros _; by eexists _, _, _|apply (bool_decide_unpack _); vm_compute; exact I|].
  repeat constructor.
Qed.
(** "No call leaves memory behind" is false: the next argument throws. *)
Theorem C69_leak_refuted : ∃ ts ret args, Forall well_formed (ret :: ts) ∧
  ∀ chk str fresh rust, ∃ es, call_js chk str fresh rust ts ret args = (es, Throws) ∧ live es [] ≠ [].
Proof.
  exists [TStruct true [(chars "ptr", TPtr true (PBase (chars "uint8_t"))); (chars "len", TSize false); (chars "_lt", TVoid)]; TBool], TVoid,
    [JBuf 4096 [1%N; 2%N; 3%N]; JNull].
  split; [constructor; [done|]; constructor; [apply bytes_wf|by constructor]|]. intros chk str fresh rust. eexists. split; [reflexivity|done].
Qed.

(** What a JS callback returns is converted as arguments are, and its copies are
    freed at once: what Rust gets points to memory iff it borrows from no
    buffer. *)
Theorem C69_callback_partial chk str ret r es v : returned chk str ret r = (es, Some v) →
  ∃ j, r = Some j ∧ from_napi chk (Wasm str) ret j = Ok v ∧ live es [] = [] ∧
    frees es = map fst (buffers ret j) ∧ (points (live es []) ret j v ↔ buffers ret j = []).
Proof.
  unfold returned. destruct r as [j|]; [|done]. pose proof (erase_from chk str ret j) as He.
  pose proof (copies_prefix chk str ret j) as Hp. pose proof (from_points chk str ret j) as Hpt.
  destruct (from_wasm chk str ret j) as [cs w]. destruct w as [w| | |]; try done. intros [= <- <-]. exists j.
  cbn [fst snd erase] in *. destruct Hp as [_ Hp]. specialize (Hp w eq_refl).
  assert (Hl : live (map Alloc cs ++ cleanup cs) [] = []) by (apply (live_all cs []); intros e Hin; by apply elem_of_nil in Hin).
  split; [done|]. split; [by rewrite He|]. split; [done|].
  rewrite frees_app, frees_allocs, frees_cleanup, Hp. split; [done|]. rewrite <- Hp, Hl. split.
  - intros H. rewrite Hp. by eapply points_nil.
  - intros Hb. apply Hpt; [done|]. intros c Hc. by rewrite Hb in Hc.
Qed.
Theorem C69_callback_refuted : ∃ ret j, well_formed ret ∧ ∀ chk str, ∃ es v,
  returned chk str ret (Some j) = (es, Some v) ∧ ¬ points (live es []) ret j v.
Proof.
  exists (TStruct true [(chars "ptr", TPtr true (PBase (chars "uint8_t"))); (chars "len", TSize false); (chars "_lt", TVoid)]), (JBuf 4096 [1%N]).
  split; [apply bytes_wf|]. intros chk str. eexists _, _. split; [reflexivity|].
  cbn. intros (a & _ & Ha). by apply elem_of_nil in Ha.
Qed.

(** ** Examples *)

Definition bytes_t : cty := TStruct true [(chars "ptr", TPtr true (PBase (chars "uint8_t"))); (chars "len", TSize false); (chars "_lt", TVoid)].
Definition cstr_t : cty := TPtr true (PBase (chars "char")).
Definition pair_t : cty := TStruct false [(chars "a", bytes_t); (chars "b", cstr_t)].
Definition no_str : text → num := λ _, NaN.
Definition two : list js := [JObj [(chars "b", JBuf 32 [104%N; 0%N]); (chars "a", JBuf 16 [1%N; 2%N])]; JNum (of_Z 7)].
Example C69_example_call : ∃ es j, call_js true no_str 0 (λ _, Some VUnit) [pair_t; TSmall false 8] TVoid two = (es, Gives j) ∧
  allocs es = [(16, [1%N; 2%N]); (32, [104%N; 0%N])] ∧ frees es = [16; 32] ∧ live es [] = [] ∧ NoDup (map fst (allocs es)).
Proof. eexists _, _. split; [vm_compute; reflexivity|]. repeat split; try reflexivity. apply (bool_decide_unpack _). by vm_compute. Qed.
(** A string without its terminator: an error, and nothing is left. *)
Example C69_example_error : ∃ es, call_js true no_str 0 (λ _, Some VUnit) [bytes_t; cstr_t] TVoid
  [JBuf 16 [1%N]; JBuf 32 [104%N]] = (es, Fails) ∧ allocs es = [(16, [1%N]); (32, [104%N])] ∧ live es [] = [].
Proof. eexists. split; [vm_compute; reflexivity|]. by split. Qed.
(** A panic of the function leaves the copy. *)
Example C69_example_panic : ∃ es, call_js true no_str 0 (λ _, None) [bytes_t] TVoid [JBuf 16 [1%N]] = (es, Traps) ∧ live es [] = [(16, [1%N])].
Proof. eexists. split; [vm_compute; reflexivity|]. done. Qed.
Example C69_example_callback : ∃ es, returned true no_str (TSmall false 8) (Some (JNum (of_Z 7))) = (es, Some (VInt 7)) ∧ es = [].
Proof. eexists. split; [vm_compute; reflexivity|]. done. Qed.

Print Assumptions C69_agrees.
Print Assumptions C69_copies.
Print Assumptions C69_borrowed.
Print Assumptions C69_balanced.
Print Assumptions C69_once.
Print Assumptions C69_left.
Print Assumptions C69_nothing.
Print Assumptions C69_leak_refuted.
Print Assumptions C69_callback_partial.
Print Assumptions C69_callback_refuted.
