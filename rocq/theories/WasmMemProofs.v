(** Proofs about the memory that conversions take on wasm. *)

From Coq Require Import ZArith NArith Bool List String Lia.
From stdpp Require Import base numbers list.
From Verif Require Import JsNumModel NapiModel NapiProofs WasmMemModel WasmMemSpec.
Local Open Scope Z_scope.

Fixpoint wasm_fields (chk : bool) (str : text → num) (js : list (text * js)) (fs : list (text * cty)) : list copy * wres (list val) :=
  match fs with
  | (n, t) :: fs =>
      let '(cs, r) := from_wasm chk str t (get js n) in
      match r with
      | WOk v => let '(cs', r') := wasm_fields chk str js fs in (cs ++ cs', mapw (cons v) r')
      | WErr => (cs, WErr)
      | WThrow => (cs, WThrow)
      | WTrap => (cs, WTrap)
      end
  | [] => ([], WOk [])
  end.
Lemma from_wasm_struct chk str u8 fs j : from_wasm chk str (TStruct u8 fs) j =
  match u8, j with
  | true, JBuf a s => ([(a, s)], WOk (VStruct [VPtr a; VInt (Z.of_nat (List.length s)); VUnit]))
  | true, JNull => ([], WOk (VStruct [VPtr 0; VInt 12242944; VUnit]))
  | _, _ =>
      match object_fields (Wasm str) j with
      | None => ([], WErr)
      | Some js => let '(cs, r) := wasm_fields chk str js fs in (cs, mapw VStruct r)
      end
  end.
Proof.
  assert (E : ∀ l, (fix go fs :=
    match fs with
    | (n, t) :: fs =>
        let '(cs, r) := from_wasm chk str t (get l n) in
        match r with
        | WOk v => let '(cs', r') := go fs in (cs ++ cs', mapw (cons v) r')
        | WErr => (cs, WErr)
        | WThrow => (cs, WThrow)
        | WTrap => (cs, WTrap)
        end
    | [] => ([], WOk [])
    end) fs = wasm_fields chk str l fs).
  { intros l. induction fs as [|[n t] fs IH]; [done|]. cbn [wasm_fields]. by rewrite IH. }
  cbn [from_wasm]. destruct u8, j; cbn [object_fields]; try done; by rewrite E.
Qed.

Lemma from_struct_any chk str u8 fs j : from_napi chk (Wasm str) (TStruct u8 fs) j =
  match u8, j with
  | true, JBuf a s => Ok (VStruct [VPtr a; VInt (Z.of_nat (List.length s)); VUnit])
  | true, JNull => Ok (VStruct [VPtr 0; VInt 12242944; VUnit])
  | _, _ =>
      match object_fields (Wasm str) j with
      | None => Err
      | Some js => mapr VStruct (from_fields chk (Wasm str) js fs)
      end
  end.
Proof.
  destruct j as [| | | | | |a s|l|].
  8: { rewrite from_struct. by destruct u8. }
  8: { rewrite from_struct_fun. by destruct u8. }
  7: { destruct u8; [done|]. by rewrite from_struct_buf. }
  all: by destruct u8.
Qed.

Lemma erase_lift {A} b (r : res A) : erase (lift b r) = r.
Proof. destruct r, b; done. Qed.
Lemma erase_mapw {A B} (f : A → B) r : erase (mapw f r) = mapr f (erase r).
Proof. by destruct r. Qed.

Lemma erase_from chk str t j : erase (from_wasm chk str t j).2 = from_napi chk (Wasm str) t j.
Proof.
  revert j. induction t as [s n|s|s|s| | |n|c t|vs|u8 fs IH] using cty_ind'; intros j.
  1-7, 9: cbn [from_wasm snd]; apply erase_lift.
  - cbn [from_wasm snd]. rewrite erase_mapw, erase_lift. cbn [from_napi kind_of]. by rewrite extract_id.
  - rewrite from_wasm_struct, from_struct_any.
    assert (E : ∀ l, erase (wasm_fields chk str l fs).2 = from_fields chk (Wasm str) l fs).
    { intros l. induction IH as [|[n t] fs IH1 _ IHf]; [done|]. cbn [wasm_fields from_fields]. cbn [snd] in IH1.
      rewrite <- (IH1 (get l n)). destruct (from_wasm chk str t (get l n)) as [cs [v| | |]]; try done. cbn [snd erase].
      destruct (wasm_fields chk str l fs) as [cs' r']. cbn [snd] in *. rewrite erase_mapw, IHf.
      by destruct (from_fields chk (Wasm str) l fs). }
    assert (E' : ∀ l, erase (let '(cs, r) := wasm_fields chk str l fs in (cs, mapw VStruct r)).2 = mapr VStruct (from_fields chk (Wasm str) l fs)).
    { intros l. rewrite <- E. destruct (wasm_fields chk str l fs) as [cs r]. cbn [snd]. apply erase_mapw. }
    destruct u8, j; cbn [object_fields]; try done; apply E'.
Qed.

Fixpoint buffers_fields (l : list (text * js)) (fs : list (text * cty)) : list copy :=
  match fs with [] => [] | f :: fs => (buffers f.2 (get l f.1) ++ buffers_fields l fs)%list end.
Lemma buffers_struct u8 fs j : buffers (TStruct u8 fs) j =
  match u8, j with true, JBuf a s => [(a, s)] | _, JObj l => buffers_fields l fs | _, _ => [] end.
Proof.
  assert (E : ∀ l, (fix go fs := match fs with [] => [] | f :: fs => (buffers f.2 (get l f.1) ++ go fs)%list end) fs = buffers_fields l fs).
  { intros l. induction fs as [|f fs IH]; [done|]. cbn [buffers_fields]. by rewrite IH. }
  cbn [buffers]. destruct u8, j; try done; apply E.
Qed.
Lemma buffers_undefined t : buffers t JUndefined = [].
Proof. by destruct t as [| | | | | | |[]| |[]]. Qed.
Lemma buffers_none fs : buffers_fields [] fs = [].
Proof. induction fs as [|f fs IH]; [done|]. cbn [buffers_fields]. by rewrite IH, buffers_undefined. Qed.

(** All copies are of buffers borrowed from, in order; all are made if the
    conversion succeeds. *)
Lemma copies_prefix chk str t j : let '(cs, r) := from_wasm chk str t j in
  (∃ rest, buffers t j = cs ++ rest)%list ∧ ∀ v, r = WOk v → cs = buffers t j.
Proof.
  revert j. induction t as [s n|s|s|s| | |n|c t|vs|u8 fs IH] using cty_ind'; intros j.
  1-7, 9: cbn [from_wasm]; split; [by exists []|done].
  - cbn [from_wasm buffers]. destruct c; [|destruct j; by (split; [exists []|])].
    destruct j; cbn [andb]; try (split; [by exists []|done]).
    split; [exists []; by rewrite app_nil_r|done].
  - rewrite from_wasm_struct, buffers_struct.
    assert (E : ∀ l, let '(cs, r) := wasm_fields chk str l fs in
      (∃ rest, buffers_fields l fs = cs ++ rest)%list ∧ ∀ vs, r = WOk vs → cs = buffers_fields l fs).
    { intros l. induction IH as [|[n t] fs IH1 _ IHf]; [split; [by exists []|done]|]. cbn [wasm_fields buffers_fields fst snd].
      specialize (IH1 (get l n)). cbn [snd] in IH1. destruct (from_wasm chk str t (get l n)) as [cs r].
      destruct IH1 as [[rest Hr] Hv].
      assert (Hp : ∃ rest', (buffers t (get l n) ++ buffers_fields l fs = cs ++ rest')%list).
      { exists (rest ++ buffers_fields l fs)%list. by rewrite Hr, app_assoc. }
      destruct r as [v| | |]; try (split; [exact Hp|done]).
      destruct (wasm_fields chk str l fs) as [cs' r']. destruct IHf as [[rest' Hr'] Hv'].
      rewrite <- (Hv v eq_refl). split.
      - exists rest'. by rewrite Hr', app_assoc.
      - intros vs Hm. destruct r' as [vs'| | |]; try done. by rewrite <- (Hv' vs' eq_refl). }
    assert (E' : ∀ l, let '(cs, r) := (let '(cs, r) := wasm_fields chk str l fs in (cs, mapw VStruct r)) in
      (∃ rest, buffers_fields l fs = cs ++ rest)%list ∧ ∀ v, r = WOk v → cs = buffers_fields l fs).
    { intros l. specialize (E l). destruct (wasm_fields chk str l fs) as [cs r]. destruct E as [E1 E2]. split; [done|].
      intros v Hv. destruct r as [vs| | |]; try done. by apply (E2 vs). }
    destruct u8, j as [| | | | | |a s|l|]; cbn [object_fields]; try (split; [by exists []|done]); try apply E';
      specialize (E' []); rewrite buffers_none in E'; exact E'.
Qed.

Fixpoint points_fields (mem : list copy) (l : list (text * js)) (fs : list (text * cty)) (vs : list val) : Prop :=
  match fs, vs with
  | [], [] => True
  | f :: fs, v :: vs => points mem f.2 (get l f.1) v ∧ points_fields mem l fs vs
  | _, _ => False
  end.
Lemma points_struct mem u8 fs j v : points mem (TStruct u8 fs) j v ↔
  match u8, j with
  | true, JBuf _ s => ∃ a, v = VStruct [VPtr a; VInt (Z.of_nat (List.length s)); VUnit] ∧ (a, s) ∈ mem
  | _, JObj l => ∃ vs, v = VStruct vs ∧ points_fields mem l fs vs
  | _, _ => True
  end.
Proof.
  assert (E : ∀ l vs, (fix go fs vs :=
           match fs, vs with
           | [], [] => True
           | f :: fs, v :: vs => points mem f.2 (get l f.1) v ∧ go fs vs
           | _, _ => False
           end) fs vs ↔ points_fields mem l fs vs).
  { intros l. induction fs as [|f fs IH]; intros [|w vs]; cbn [points_fields]; try done. by rewrite IH. }
  cbn [points]. destruct u8, j; try done; split; intros (vs & -> & H); exists vs; (split; [done|]); by apply E.
Qed.

Lemma from_points chk str t j v mem : (from_wasm chk str t j).2 = WOk v →
  (∀ c, c ∈ (from_wasm chk str t j).1 → c ∈ mem) → points mem t j v.
Proof.
  revert j v. induction t as [s n|s|s|s| | |n|c t|vs|u8 fs IH] using cty_ind'; intros j v; try done.
  - cbn [from_wasm fst snd points]. destruct c; [|done]. destruct j; try done. cbn [andb from_ptr]. intros H Hm Hc.
    rewrite bool_decide_eq_true_2 in H, Hm by done. cbn [andb] in *. exists addr. split; [|apply Hm; by left].
    unfold from_buf in H. destruct (CStrModel.utf8 bytes); [|by destruct (throws_ptr _ _ _ _)].
    destruct bytes; [by destruct chk, (throws_ptr _ _ _ _)|]. destruct (bool_decide _).
    + cbn [lift mapw] in H. congruence.
    + by destruct (throws_ptr _ _ _ _).
  - rewrite from_wasm_struct, points_struct.
    assert (E : ∀ l vs, (wasm_fields chk str l fs).2 = WOk vs → (∀ c, c ∈ (wasm_fields chk str l fs).1 → c ∈ mem) → points_fields mem l fs vs).
    { intros l. induction IH as [|[n t] fs IH1 _ IHf]; intros vs; cbn [wasm_fields points_fields].
      { cbn [snd]. by intros [= <-]. }
      cbn [fst snd]. specialize (IH1 (get l n)). cbn [snd] in IH1. destruct (from_wasm chk str t (get l n)) as [cs [w| | |]]; try done.
      destruct (wasm_fields chk str l fs) as [cs' r']. cbn [fst snd] in *. destruct r' as [ws| | |]; try done. cbn [mapw]. intros [= <-] Hm.
      split.
      - apply (IH1 w eq_refl). intros c Hc. apply Hm, elem_of_app. by left.
      - apply (IHf ws eq_refl). intros c Hc. apply Hm, elem_of_app. by right. }
    destruct u8, j as [| | | | | |a s|l|]; try done; cbn [object_fields fst snd].
    + intros [= <-] Hm. exists a. split; [done|]. apply Hm. by left.
    + specialize (E l). destruct (wasm_fields chk str l fs) as [cs r]. cbn [fst snd] in *. destruct r as [ws| | |]; try done. intros [= <-] Hm.
      exists ws. split; [done|]. by apply E.
    + specialize (E l). destruct (wasm_fields chk str l fs) as [cs r]. cbn [fst snd] in *. destruct r as [ws| | |]; try done. intros [= <-] Hm.
      exists ws. split; [done|]. by apply E.
Qed.

(** ** Arguments *)

Fixpoint args_buffers (i : nat) (ts : list cty) (args : list js) : list copy :=
  match ts with [] => [] | t :: ts => (buffers t (arg args i) ++ args_buffers (S i) ts args)%list end.
Lemma convert_prefix chk str i ts args : let '(cs, r) := convert chk str i ts args in
  (∃ rest, args_buffers i ts args = cs ++ rest)%list ∧ ∀ vs, r = WOk vs → cs = args_buffers i ts args.
Proof.
  revert i. induction ts as [|t ts IH]; intros i; [split; [by exists []|done]|]. cbn [convert args_buffers].
  pose proof (copies_prefix chk str t (arg args i)) as Hc. destruct (from_wasm chk str t (arg args i)) as [cs r].
  destruct Hc as [[rest Hr] Hv].
  assert (Hp : ∃ rest', (buffers t (arg args i) ++ args_buffers (S i) ts args = cs ++ rest')%list).
  { exists (rest ++ args_buffers (S i) ts args)%list. by rewrite Hr, app_assoc. }
  destruct r as [v| | |]; try (split; [exact Hp|done]).
  specialize (IH (S i)). destruct (convert chk str (S i) ts args) as [cs' r']. destruct IH as [[rest' Hr'] Hv'].
  rewrite <- (Hv v eq_refl). split.
  - exists rest'. by rewrite Hr', app_assoc.
  - intros vs Hm. destruct r' as [vs'| | |]; try done. by rewrite <- (Hv' vs' eq_refl).
Qed.
Lemma convert_points chk str i ts args vs mem : (convert chk str i ts args).2 = WOk vs →
  (∀ c, c ∈ (convert chk str i ts args).1 → c ∈ mem) →
  Forall2 (λ '(t, k) v, points mem t (arg args k) v) (zip ts (seq i (List.length ts))) vs.
Proof.
  revert i vs. induction ts as [|t ts IH]; intros i vs; cbn [convert].
  { cbn [snd]. intros [= <-] _. constructor. }
  pose proof (from_points chk str t (arg args i)) as Hp. destruct (from_wasm chk str t (arg args i)) as [cs [v| | |]]; try done.
  specialize (IH (S i)). destruct (convert chk str (S i) ts args) as [cs' r']. cbn [fst snd] in *.
  destruct r' as [ws| | |]; try done. cbn [mapw]. intros [= <-] Hm. cbn [List.length seq zip zip_with]. constructor.
  - apply Hp; [done|]. intros c Hc. apply Hm, elem_of_app. by left.
  - apply IH; [done|]. intros c Hc. apply Hm, elem_of_app. by right.
Qed.

(** ** Memory *)

Lemma live_app es es' mem : live (es ++ es') mem = live es' (live es mem).
Proof. revert mem. induction es as [|[c|vs|a] es IH]; intros mem; [done|..]; cbn [app live]; apply IH. Qed.
Lemma live_allocs cs mem : live (map Alloc cs) mem = (rev cs ++ mem)%list.
Proof. revert mem. induction cs as [|c cs IH]; intros mem; [done|]. cbn [map live rev]. by rewrite IH, <- app_assoc. Qed.
Lemma live_cleanup cs mem : (∀ c, c ∈ mem → c.1 ∈ map fst cs) → live (cleanup cs) mem = [].
Proof.
  revert mem. induction cs as [|c cs IH]; intros mem Hm; cbn [cleanup map live].
  - destruct mem as [|c mem]; [done|]. specialize (Hm c). exfalso. cbn [map] in Hm.
    assert (c.1 ∈ @nil Z) as Hn by (apply Hm; by left). by apply elem_of_nil in Hn.
  - apply IH. intros c' Hc'. apply elem_of_list_In, filter_In in Hc' as [Hin Hne]. apply elem_of_list_In in Hin.
    pose proof (Hm c' Hin) as H. cbn [map] in H. apply elem_of_cons in H as [H|H]; [|done].
    rewrite H, Z.eqb_refl in Hne. done.
Qed.
Lemma live_all cs mid : (∀ e, e ∈ mid → ∃ vs, e = Called vs) → live (map Alloc cs ++ mid ++ cleanup cs) [] = [].
Proof.
  intros Hmid. rewrite live_app, live_allocs, live_app, app_nil_r.
  assert (E : ∀ mem, live mid mem = mem).
  { induction mid as [|e mid IH]; intros mem; [done|]. destruct (Hmid e) as [vs ->]; [by left|]. cbn [live]. apply IH.
    intros e He. apply Hmid. by right. }
  rewrite E. apply live_cleanup. intros c Hc. rewrite <- elem_of_list_In, <- in_rev, elem_of_list_In in Hc || idtac.
  apply elem_of_list_In. apply elem_of_list_In, in_rev in Hc. by apply in_map.
Qed.
Lemma allocs_app es es' : allocs (es ++ es') = (allocs es ++ allocs es')%list.
Proof. apply flat_map_app. Qed.
Lemma frees_app es es' : frees (es ++ es') = (frees es ++ frees es')%list.
Proof. apply flat_map_app. Qed.
Lemma allocs_allocs cs : allocs (map Alloc cs) = cs.
Proof. induction cs as [|c cs IH]; [done|]. cbn. unfold allocs in IH. by rewrite IH. Qed.
Lemma frees_allocs cs : frees (map Alloc cs) = [].
Proof. induction cs as [|c cs IH]; [done|]. exact IH. Qed.
Lemma allocs_cleanup cs : allocs (cleanup cs) = [].
Proof. induction cs as [|c cs IH]; [done|]. exact IH. Qed.
Lemma frees_cleanup cs : frees (cleanup cs) = map fst cs.
Proof. induction cs as [|c cs IH]; [done|]. cbn. unfold frees, cleanup in IH. by rewrite IH. Qed.

Lemma points_nil t j v : points [] t j v → buffers t j = [].
Proof.
  revert j v. induction t as [s n|s|s|s| | |n|c t|vs|u8 fs IH] using cty_ind'; intros j v; try done.
  - cbn [points buffers]. destruct c, j; try done. intros H. rewrite bool_decide_eq_false_2; [done|].
    intros E. destruct (H E) as (a & _ & Ha). by apply elem_of_nil in Ha.
  - rewrite points_struct, buffers_struct.
    assert (E : ∀ l vs, points_fields [] l fs vs → buffers_fields l fs = []).
    { intros l. induction IH as [|[n t] fs IH1 _ IHf]; intros vs; [done|]. cbn [points_fields buffers_fields fst snd].
      destruct vs as [|w vs]; [done|]. intros [H1 H2]. cbn [snd] in IH1. by rewrite (IH1 _ _ H1), (IHf _ H2). }
    destruct u8, j; try done.
    + intros (a & _ & Ha). by apply elem_of_nil in Ha.
    + intros (vs & _ & H). by apply (E _ vs).
    + intros (vs & _ & H). by apply (E _ vs).
Qed.

(** ** What throws *)

Lemma lift_throw {A} b (r : res A) : lift b r = WThrow ↔ b = true ∧ r = Err.
Proof. destruct r, b; cbn; split; try done; by intros [? ?]. Qed.
Lemma mapw_throw {A B} (f : A → B) r : mapw f r = WThrow ↔ r = WThrow.
Proof. by destruct r. Qed.
Lemma takes_iff chk str t j : takes chk str t j ↔ ∃ v, (from_wasm chk str t j).2 = WOk v.
Proof.
  unfold takes. setoid_rewrite <- erase_from. destruct (from_wasm chk str t j).2; cbn; split; intros [v H]; try done; by exists v; injection H as ->.
Qed.
Fixpoint raises_fields (chk : bool) (str : text → num) (l : list (text * js)) (fs : list (text * cty)) : Prop :=
  match fs with
  | [] => False
  | f :: fs => raises chk str f.2 (get l f.1) ∨ takes chk str f.2 (get l f.1) ∧ raises_fields chk str l fs
  end.
Lemma raises_struct chk str u8 fs j : raises chk str (TStruct u8 fs) j =
  match u8, j with
  | true, JBuf _ _ => False
  | _, _ => match properties j with Some l => raises_fields chk str l fs | None => False end
  end.
Proof.
  cbn [raises]. assert (E : ∀ l, (fix first fs := match fs with [] => False
    | f :: fs => raises chk str f.2 (get l f.1) ∨ takes chk str f.2 (get l f.1) ∧ first fs end) fs = raises_fields chk str l fs).
  { intros l. induction fs as [|f fs IH]; [done|]. cbn [raises_fields]. by rewrite <- IH. }
  destruct u8, j; cbn [properties]; try done; apply E.
Qed.
Lemma to_number_none str j : to_number str j = None ↔ ∃ z, j = JBig z.
Proof. split; [|by intros [z ->]]. destruct j as [| | | | | |a [|b [|c s]]| |]; try done. intros _. by eexists. Qed.
Lemma from_throws chk str t j : (from_wasm chk str t j).2 = WThrow ↔ raises chk str t j.
Proof.
  revert j. induction t as [s n|s|s|s| | |n|c t|vs|u8 fs IH] using cty_ind'; intros j.
  1-7, 9: cbn [from_wasm snd]; rewrite lift_throw; cbn [raises kind_of size_kind throws from_napi extract].
  - rewrite <- (to_number_none str). destruct (to_number str j) eqn:E; cbn; split; try done; by intros [? ?].
  - split; [by intros [? ?]|done].
  - rewrite <- (to_number_none str). destruct (to_number str j) eqn:E; cbn; split; try done; by intros [? ?].
  - rewrite <- (to_number_none str). destruct (to_number str j) eqn:E; cbn; split; try done; by intros [? ?].
  - destruct j as [x|z|b| | |s|a s|l|]; cbn [to_boolean]; try (split; [by intros [? ?]|naive_solver]).
    + destruct (to_number str (JNum x)) as [[]|] eqn:E; cbn; split; naive_solver.
    + cbn. split; [intros _; right; right; by exists z|done].
    + cbn. split; [auto|done].
    + cbn. split; [auto|done].
    + destruct (to_number str (JStr s)) as [[]|] eqn:E; cbn; split; naive_solver.
    + destruct (to_number str (JBuf a s)) as [[]|] eqn:E; cbn; split; try naive_solver. apply to_number_none in E as [? [=]].
  - split; [by intros [? ?]|done].
  - destruct (to_bytes str j) eqn:E; split; try done; try by intros [? ?].
    intros _. split; [done|]. by destruct j.
  - destruct j; cbn [has_kind negb]; split; try (by intros [? ?]); try (intros _; by (split || (intros [? [=]]))). intros H. destruct H. by eexists.
  - cbn [from_wasm snd]. rewrite mapw_throw, lift_throw. cbn [raises throws_ptr from_ptr]. destruct j; try (split; [by intros [? ?]|done]).
    + unfold throws_ptr, from_ptr. destruct c; cbn [andb]; [|split; [intros _ [? ?]; done|done]]. case_bool_decide as E; cbn [negb].
      * split; [by intros [? ?]|]. intros H. by destruct H.
      * split; [|done]. intros _ [_ ?]. done.
    + unfold throws_ptr, from_ptr. destruct (get fields (chars "type")); try (split; done).
      case_bool_decide as E; cbn [andb throws size_kind extract].
      * rewrite <- (to_number_none str). destruct (to_number str _); cbn [option_map]; split; naive_solver.
      * split; naive_solver.
  - rewrite from_wasm_struct, raises_struct.
    assert (E : ∀ l, (wasm_fields chk str l fs).2 = WThrow ↔ raises_fields chk str l fs).
    { intros l. induction IH as [|[n t] fs IH1 _ IHf]; [done|]. cbn [wasm_fields raises_fields fst snd]. cbn [snd] in IH1.
      rewrite <- (IH1 (get l n)), takes_iff. destruct (from_wasm chk str t (get l n)) as [cs [v| | |]]; cbn [snd].
      - destruct (wasm_fields chk str l fs) as [cs' r']. cbn [snd] in *. rewrite mapw_throw, <- IHf. split; [|naive_solver].
        intros H. right. split; [by exists v|done].
      - split; [done|naive_solver].
      - split; [auto|done].
      - split; [done|naive_solver]. }
    assert (E' : ∀ l, (let '(cs, r) := wasm_fields chk str l fs in (cs, mapw VStruct r)).2 = WThrow ↔ raises_fields chk str l fs).
    { intros l. rewrite <- E. destruct (wasm_fields chk str l fs) as [cs r]. cbn [snd]. apply mapw_throw. }
    destruct u8, j; cbn [object_fields properties snd]; try done; apply E'.
Qed.
Definition bad {A} (r : wres A) : option (wres val) :=
  match r with WOk _ => None | WErr => Some WErr | WThrow => Some WThrow | WTrap => Some WTrap end.
Lemma convert_first chk str i ts args r :
  bad (convert chk str i ts args).2 = Some r ↔
  ∃ k t, ts !! k = Some t ∧ bad (from_wasm chk str t (arg args (i + k))).2 = Some r ∧
    ∀ k' u, (k' < k)%nat → ts !! k' = Some u → takes chk str u (arg args (i + k')).
Proof.
  revert i. induction ts as [|t ts IH]; intros i; cbn [convert].
  { split; [done|]. intros (k & t & H & _). by rewrite lookup_nil in H. }
  destruct (from_wasm chk str t (arg args i)) as [cs q] eqn:E.
  assert (H0 : ∀ q', bad q = Some q' → (bad q = Some r ↔ ∃ k t0, (t :: ts) !! k = Some t0 ∧ bad (from_wasm chk str t0 (arg args (i + k))).2 = Some r ∧
    ∀ k' u, (k' < k)%nat → (t :: ts) !! k' = Some u → takes chk str u (arg args (i + k')))).
  { intros q' Hq. split.
    - intros H. exists 0%nat, t. rewrite Nat.add_0_r, E. split_and!; [done|done|]. intros; lia.
    - intros (k & t0 & Hk & Hb & Hf). destruct k as [|k].
      + injection Hk as <-. rewrite Nat.add_0_r, E in Hb. done.
      + specialize (Hf 0%nat t ltac:(lia) eq_refl). rewrite Nat.add_0_r in Hf. apply takes_iff in Hf as [v Hv]. rewrite E in Hv. cbn in Hv. by subst q. }
  destruct q as [v| | |].
  - specialize (IH (S i)). destruct (convert chk str (S i) ts args) as [cs' r']. cbn [snd] in *.
    assert (Hb : bad (mapw (cons v) r') = bad r') by by destruct r'. rewrite Hb, IH. split.
    + intros (k & u & Hk & Hb' & Hf). exists (S k), u. rewrite Nat.add_succ_r. split_and!; [done|done|].
      intros [|k'] u' Hl Hu; [|rewrite Nat.add_succ_r; apply Hf; [lia|done]].
      injection Hu as <-. rewrite Nat.add_0_r. apply takes_iff. rewrite E. by exists v.
    + intros ([|k] & u & Hk & Hb' & Hf).
      * injection Hk as <-. rewrite Nat.add_0_r, E in Hb'. done.
      * exists k, u. rewrite Nat.add_succ_r in Hb'. split_and!; [done|done|]. intros k' u' Hl Hu.
        specialize (Hf (S k') u' ltac:(lia) Hu). by rewrite Nat.add_succ_r in Hf.
  - exact (H0 WErr eq_refl).
  - exact (H0 WThrow eq_refl).
  - exact (H0 WTrap eq_refl).
Qed.
