(** C90: [TaggedOption] is used as [Option] is. *)
From Coq Require Import NArith List Bool Lia.
From stdpp Require Import base numbers list list_numbers.
From Verif Require Import OptModel OptSpec.
Import stdpp.list.

Definition M (s : list (option (option N))) : list (option topt) :=
  (λ o : option (option N), from_opt <$> o) <$> s.

(** ** Conversions *)
Theorem C90_convert :
  (∀ o, into_rust (from_opt o) = o) ∧ (∀ t, from_opt (into_rust t) = t) ∧
  (∀ v, into_rust (from_val v) = Some v) ∧
  (∀ t, as_ref t = into_rust t) ∧
  (∀ t, (as_mut t = None ↔ into_rust t = None) ∧
        ∀ v k, as_mut t = Some (v, k) → into_rust t = Some v ∧ ∀ w, into_rust (k w) = Some w) ∧
  (∀ t, take_ t = (from_opt None, t)).
Proof.
  split_and!; try (intros []; done); try done.
  intros []; (split; [done|]); intros ?? [=]; subst; done.
Qed.

(** ** Programs on [TaggedOption] and on [Option] *)
Section P.
Context (run : N → option N → option N) (runo : N → option N → option (option N)).

Notation step_t := (step from_opt from_val into_rust as_ref as_mut map_or_else unwrap_or_else and_then take_ drop_topt run runo).
Notation step_s := (step (λ o : option N, o) Some (λ o, o) (λ o, o) std_as_mut std_map_or_else std_unwrap_or_else std_and_then
       (λ o, (None, o)) std_drop run runo).
Notation old_t := (old drop_topt).
Notation old_s := (old std_drop).

Lemma M_lookup s x : M s !! x = fmap from_opt <$> (s !! x).
Proof. unfold M. by rewrite list_lookup_fmap. Qed.
Lemma M_length s : length (M s) = length s.
Proof. unfold M. by rewrite fmap_length. Qed.
Lemma M_insert s x o : M (<[x := o]> s) = <[x := from_opt <$> o]> (M s).
Proof. unfold M. by rewrite list_fmap_insert. Qed.
Lemma drop_same o : drop_topt (from_opt o) = std_drop o.
Proof. by destruct o. Qed.
Lemma old_same s y : old_t (M s) y = old_s s y.
Proof. unfold old. rewrite M_lookup. destruct (s !! y) as [[o|]|]; cbn; [apply drop_same|done..]. Qed.
Lemma imap_M {B} (f : nat → B) s : imap (λ i _, f i) (M s) = imap (λ i _, f i) s.
Proof.
  unfold M. revert f. induction s as [|o s IH]; intros f; [done|].
  rewrite fmap_cons, !imap_cons. f_equal. apply (IH (f ∘ S)).
Qed.
Lemma imap_ext_ {A B} (f g : nat → B) (s : list A) : (∀ i, f i = g i) → imap (λ i _, f i) s = imap (λ i _, g i) s.
Proof.
  revert f g. induction s as [|o s IH]; intros f g H; [done|].
  rewrite !imap_cons. f_equal; [apply H|]. apply (IH (f ∘ S) (g ∘ S)). intros. apply H.
Qed.
Lemma drops_same s : concat (imap (λ i _, old_t (M s) i) (M s)) = concat (imap (λ i _, old_s s i) s).
Proof.
  rewrite (imap_M (λ i, old_t (M s) i)). f_equal. apply imap_ext_. intros i. apply old_same.
Qed.

Definition lift (r : res (store (option N))) : res (store topt) :=
  match r with Done s tr => Done (M s) tr | Unw tr => Unw tr end.

Lemma step_same s c : step_t (M s) c = lift <$> step_s s c.
Proof.
  destruct c; cbn [step]; rewrite ?M_lookup, ?M_length.
  all: try (destruct (s !! x) as [[o|]|] eqn:E; cbn [fmap option_fmap option_map]; [|done..]).
  all: try (destruct (decide _); [|done]).
  all: cbn [fmap option_fmap option_map]; f_equal.
  all: rewrite ?old_same; cbn [lift take_ fst snd].
  - by rewrite M_insert.
  - by rewrite M_insert.
  - rewrite !M_insert. cbn. f_equal.
    change (Some TNone) with (from_opt <$> Some None).
    rewrite <- M_insert. apply old_same.
  - rewrite !M_insert. cbn. f_equal.
    change (<[x:=None]> (M s)) with (<[x:=from_opt <$> None]> (M s)).
    rewrite <- M_insert. apply old_same.
  - change (<[x:=None]> (M s)) with (<[x:=from_opt <$> None]> (M s)).
    rewrite <- M_insert. set (s1 := <[x:=None]> s). destruct o as [v|]; cbn.
    + unfold call. destruct (runo f (Some v)) as [[w|]|]; cbn.
      * by rewrite old_same, M_insert.
      * by rewrite old_same, M_insert.
      * do 2 f_equal. apply drops_same.
    + by rewrite old_same, M_insert.
  - change (<[x:=None]> (M s)) with (<[x:=from_opt <$> None]> (M s)).
    rewrite <- M_insert. destruct o as [v|]; cbn; [done|].
    unfold call. destruct (run f None) as [w|]; cbn; [done|]. do 2 f_equal. apply drops_same.
  - change (<[x:=None]> (M s)) with (<[x:=from_opt <$> None]> (M s)).
    rewrite <- M_insert. destruct o as [v|]; cbn; unfold call.
    + destruct (run f (Some v)) as [w|]; cbn; [done|]. do 3 f_equal. apply drops_same.
    + destruct (run d None) as [w|]; cbn; [done|]. do 3 f_equal. apply drops_same.
  - rewrite M_insert. by destruct o.
  - by destruct o.
  - destruct o; cbn; [by rewrite M_insert|done].
  - rewrite M_insert. by rewrite drop_same.
Qed.

Lemma exec_same s cs : exec_tagged run runo (M s) cs = exec_std run runo s cs.
Proof.
  unfold exec_tagged, exec_std. revert s. induction cs as [|c cs IH]; intros s; cbn [exec].
  - f_equal. apply drops_same.
  - rewrite step_same. destruct (step_s s c) as [[s' tr|tr]|]; cbn; [|done..].
    by rewrite IH.
Qed.
End P.

(** Every program does the same with [TaggedOption] as with [Option]: the same
    closures are called with the same values, the same values are seen, handed
    out and dropped, in the same order, whatever the closures answer and
    wherever they panic. *)
Theorem C90_std run runo s cs :
  exec_tagged run runo (M s) cs = exec_std run runo s cs.
Proof. apply exec_same. Qed.

(** ** Nothing leaks, nothing is dropped twice *)
Lemma count_app p a b : count p (a ++ b) = count p a + count p b.
Proof. apply sum_list_with_app. Qed.

Lemma count_cons p e b : count p (e :: b) = (if p e then 1 else 0) + count p b.
Proof. done. Qed.

Definition h1 (v : N) (o : option topt) : nat :=
  match o with Some (TSome w) => if (v =? w)%N then 1 else 0 | _ => 0 end.

Lemma held_insert v s x o o' :
  s !! x = Some o → held v (<[x := o']> s) + h1 v o = held v s + h1 v o'.
Proof.
  revert x. induction s as [|a s IH]; intros x H; [done|].
  destruct x as [|x]; cbn in H |- *.
  - injection H as ->. change (h1 v o' + held v s + h1 v o = h1 v o + held v s + h1 v o'). lia.
  - specialize (IH x H). change (h1 v a + held v (<[x:=o']> s) + h1 v o = h1 v a + held v s + h1 v o'). lia.
Qed.

Lemma end_old v t : count (is_end v) (drop_topt t) = h1 v (Some t).
Proof. destruct t; cbn; [done|]. by destruct (v =? v0)%N. Qed.
Lemma in_old v t : count (is_in v) (drop_topt t) = 0.
Proof. by destruct t. Qed.
Lemma use_old f t : count (is_use f) (drop_topt t) = 0.
Proof. by destruct t. Qed.

Lemma end_olds v s x o : s !! x = Some o → count (is_end v) (old drop_topt s x) = h1 v o.
Proof. unfold old. intros ->. destruct o; [apply end_old|done]. Qed.
Lemma in_olds v s x : count (is_in v) (old drop_topt s x) = 0.
Proof. unfold old. destruct (s !! x) as [[t|]|]; [apply in_old|done..]. Qed.
Lemma use_olds f s x : count (is_use f) (old drop_topt s x) = 0.
Proof. unfold old. destruct (s !! x) as [[t|]|]; [apply use_old|done..]. Qed.

Lemma all_is (s s0 : store topt) (k : nat) :
  (∀ i, s0 !! (k + i) = s !! i) →
  concat (imap (λ i _, old drop_topt s0 (k + i)) s) = concat (map (λ o, match o with Some t => drop_topt t | None => [] end) s).
Proof.
  revert k. induction s as [|o s IH]; intros k H; [done|].
  rewrite imap_cons. cbn [concat map]. f_equal.
  - unfold old. rewrite (H 0). cbn. by destruct o.
  - rewrite <- (IH (S k)).
    + f_equal. apply (imap_ext_ (λ i, old drop_topt s0 (k + S i)) (λ i, old drop_topt s0 (S k + i))).
      intros i. by rewrite Nat.add_succ_r.
    + intros i. specialize (H (S i)). rewrite Nat.add_succ_r in H. exact H.
Qed.

Lemma all_drops (s : store topt) (p : event → bool) (n : option topt → nat) :
  (∀ o, count p (match o with Some t => drop_topt t | None => [] end) = n o) →
  count p (concat (imap (λ i _, old drop_topt s i) s)) = sum_list_with n s.
Proof.
  intros H. pose proof (all_is s s 0 (λ i, eq_refl)) as X. cbn [Nat.add] in X. rewrite X. clear X.
  induction s as [|o s IH]; [done|]. cbn [concat map]. rewrite count_app, IH, H. done.
Qed.
Lemma end_all v s : count (is_end v) (concat (imap (λ i _, old drop_topt s i) s)) = held v s.
Proof. apply all_drops. intros [t|]; [apply end_old|done]. Qed.
Lemma sum_zero {A} (s : list A) : sum_list_with (λ _, 0) s = 0.
Proof. by induction s. Qed.
Lemma in_all v s : count (is_in v) (concat (imap (λ i _, old drop_topt s i) s)) = 0.
Proof. rewrite (all_drops _ _ (λ _, 0)); [apply sum_zero|]. intros [t|]; [apply in_old|done]. Qed.
Lemma use_all f s : count (is_use f) (concat (imap (λ i _, old drop_topt s i) s)) = 0.
Proof. rewrite (all_drops _ _ (λ _, 0)); [apply sum_zero|]. intros [t|]; [apply use_old|done]. Qed.

Section L.
Context (run : N → option N → option N) (runo : N → option N → option (option N)).
Notation step_t := (step from_opt from_val into_rust as_ref as_mut map_or_else unwrap_or_else and_then take_ drop_topt run runo).

Lemma insert_len {A} (s : list A) x o y : y < length s → y < length (<[x := o]> s).
Proof. by rewrite insert_length. Qed.

Lemma step_balance v s c r :
  step_t s c = Some r →
  match r with
  | Done s' tr => count (is_in v) tr + held v s = count (is_end v) tr + held v s'
  | Unw tr => count (is_in v) tr + held v s = count (is_end v) tr
  end.
Proof.
  destruct c; cbn [step].
  all: try (destruct (s !! x) as [[t|]|] eqn:E; [|done..]).
  all: try (destruct (decide _) as [LT|]; [|done]).
  all: intros [= <-].
  - destruct (lookup_lt_is_Some_2 s x LT) as [o E].
    pose proof (held_insert v s x o (Some (from_val v0)) E).
    rewrite !count_cons, in_olds, (end_olds v s x o E). cbn in *. destruct (v =? v0)%N; lia.
  - destruct (lookup_lt_is_Some_2 s x LT) as [o' E].
    pose proof (held_insert v s x o' (Some (from_opt o)) E).
    rewrite !count_app, in_olds, (end_olds v s x o' E).
    destruct o as [w|]; cbn in *; [destruct (v =? w)%N|]; lia.
  - cbn [take_ fst snd].
    pose proof (held_insert v s x _ (Some TNone) E).
    destruct (lookup_lt_is_Some_2 _ y (insert_len s x (Some TNone) y LT)) as [o E'].
    pose proof (held_insert v _ y o (Some t) E').
    rewrite in_olds, (end_olds v _ y o E'). cbn [h1] in *. lia.
  - pose proof (held_insert v s x _ None E).
    destruct (lookup_lt_is_Some_2 _ y (insert_len s x None y LT)) as [o E'].
    pose proof (held_insert v _ y o (Some t) E').
    rewrite in_olds, (end_olds v _ y o E'). cbn [h1] in *. lia.
  - pose proof (held_insert v s x _ None E) as H1.
    destruct (lookup_lt_is_Some_2 _ y (insert_len s x None y LT)) as [o E'].
    destruct t as [|w]; cbn [and_then as_ref].
    + pose proof (held_insert v _ y o (Some TNone) E') as H2.
      rewrite !count_app, in_olds, (end_olds v _ y o E'). cbn in *. lia.
    + unfold call. destruct (runo f (Some w)) as [u|]; cbn [option_bind mbind].
      * pose proof (held_insert v _ y o (Some (from_opt u)) E') as H2.
        rewrite !count_app, in_olds, (end_olds v _ y o E').
        destruct u as [u|]; cbn in *; repeat destruct (v =? _)%N; lia.
      * rewrite !count_app, in_all, end_all. cbn in *. destruct (v =? w)%N; lia.
  - pose proof (held_insert v s x _ None E) as H1.
    destruct t as [|w]; cbn [unwrap_or_else as_ref].
    + unfold call. destruct (run f None) as [u|].
      * rewrite !count_app. cbn in *. destruct (v =? u)%N; lia.
      * rewrite !count_app, in_all, end_all. cbn in *. lia.
    + rewrite !count_app. cbn in *. destruct (v =? w)%N; lia.
  - pose proof (held_insert v s x _ None E) as H1.
    destruct t as [|w]; cbn [map_or_else]; unfold call.
    + destruct (run d None) as [u|].
      * rewrite !count_app. cbn in *. destruct (v =? u)%N; lia.
      * rewrite !count_app, in_all, end_all. cbn in *. lia.
    + destruct (run f (Some w)) as [u|].
      * rewrite !count_app. cbn in *. repeat destruct (v =? _)%N; lia.
      * rewrite !count_app, in_all, end_all. cbn in *. destruct (v =? w)%N; lia.
  - pose proof (held_insert v s x _ None E) as H1.
    destruct t as [|w]; cbn in *; [|destruct (v =? w)%N]; lia.
  - cbn. lia.
  - destruct t as [|w]; cbn [as_mut].
    + cbn. destruct (v =? v0)%N; lia.
    + pose proof (held_insert v s x _ (Some (TSome v0)) E) as H1.
      cbn in *. repeat destruct (v =? _)%N; lia.
  - pose proof (held_insert v s x _ None E) as H1.
    rewrite in_old, end_old. cbn [h1] in *. lia.
Qed.

Lemma step_uses f s c r :
  step_t s c = Some r →
  match r with Done _ tr | Unw tr => count (is_use f) tr = given f c end.
Proof.
  destruct c; cbn [step].
  all: try (destruct (s !! x) as [[t|]|] eqn:E; [|done..]).
  all: try (destruct (decide _) as [LT|]; [|done]).
  all: intros [= <-]; cbn [given].
  - by rewrite count_cons, use_olds.
  - rewrite count_app, use_olds. by destruct o.
  - apply use_olds.
  - apply use_olds.
  - destruct t as [|w]; cbn [and_then as_ref].
    + rewrite !count_app, use_olds. cbn. destruct (f =? _)%N; lia.
    + unfold call. destruct (runo _ (Some w)) as [[u|]|]; cbn [option_bind mbind];
        rewrite !count_app, ?use_olds, ?use_all; cbn; destruct (f =? _)%N; lia.
  - destruct t as [|w]; cbn [unwrap_or_else as_ref]; unfold call; [destruct (run _ None)|];
      rewrite !count_app, ?use_all; cbn; destruct (f =? _)%N; lia.
  - destruct t as [|w]; cbn [map_or_else]; unfold call; [destruct (run _ None)|destruct (run _ (Some w))];
      rewrite !count_app, ?use_all; cbn; repeat destruct (f =? _)%N; lia.
  - by destruct t.
  - done.
  - by destruct t.
  - apply use_old.
Qed.
End L.

(** In every program that the compiler takes, each payload ends as often as it
    comes into being: dropped, moved into a closure or handed out, once; also
    when a closure panics. *)
Theorem C90_once run runo s cs tr :
  exec_tagged run runo s cs = Some tr →
  ∀ v, count (is_in v) tr + held v s = count (is_end v) tr.
Proof.
  intros H v. unfold exec_tagged in H. revert s tr H.
  induction cs as [|c cs IH]; intros s tr; cbn [exec].
  - intros [= <-]. rewrite in_all, end_all. lia.
  - destruct (step _ _ _ _ _ _ _ _ _ _ _ _ s c) as [[s' t1|t1]|] eqn:E; [..|done].
    + destruct (exec _ _ _ _ _ _ _ _ _ _ _ _ s' cs) as [t2|] eqn:E2; [|done].
      intros [= <-]. apply (step_balance run runo v) in E. specialize (IH s' t2 E2).
      cbn in *. rewrite !count_app. lia.
    + intros [= <-]. apply (step_balance run runo v) in E. exact E.
Qed.

(** Each closure given to a statement that is reached is called or dropped,
    once. *)
Theorem C90_closures run runo s cs tr :
  exec_tagged run runo s cs = Some tr →
  ∃ n, ∀ f, count (is_use f) tr = sum_list_with (given f) (firstn n cs).
Proof.
  intros H. unfold exec_tagged in H. revert s tr H.
  induction cs as [|c cs IH]; intros s tr; cbn [exec].
  - intros [= <-]. exists 0. intros f. by rewrite use_all.
  - destruct (step _ _ _ _ _ _ _ _ _ _ _ _ s c) as [[s' t1|t1]|] eqn:E; [..|done].
    + destruct (exec _ _ _ _ _ _ _ _ _ _ _ _ s' cs) as [t2|] eqn:E2; [|done].
      intros [= <-]. destruct (IH s' t2 E2) as [n Hn]. exists (S n). intros f.
      apply (step_uses run runo f) in E. cbn iota beta in E.
      change (firstn (S n) (c :: cs)) with (c :: firstn n cs). cbn [sum_list_with].
      rewrite count_app, <- Hn, E. done.
    + intros [= <-]. exists 1. intros f. apply (step_uses run runo f) in E.
      cbn iota beta in E. rewrite E.
      change (firstn 1 (c :: cs)) with [c]. unfold sum_list_with. by rewrite Nat.add_0_r.
Qed.

(** ** Comparing, hashing, cloning *)
Theorem C90_eq eqt a b :
  teq eqt a b = true ↔
  (into_rust a = None ∧ into_rust b = None) ∨
  ∃ x y, into_rust a = Some x ∧ into_rust b = Some y ∧ eqt x y = true.
Proof. destruct a, b; cbn; naive_solver. Qed.

Theorem C90_partial_cmp pcmpt a b :
  (tpartial_cmp pcmpt a b = Some Lt ↔ std_lt (λ x y, pcmpt x y = Some Lt) (into_rust a) (into_rust b)) ∧
  (tpartial_cmp pcmpt a b = Some Gt ↔ std_lt (λ y x, pcmpt x y = Some Gt) (into_rust b) (into_rust a)) ∧
  (tpartial_cmp pcmpt a b = Some Eq ↔
   (into_rust a = None ∧ into_rust b = None) ∨
   ∃ x y, into_rust a = Some x ∧ into_rust b = Some y ∧ pcmpt x y = Some Eq) ∧
  (tpartial_cmp pcmpt a b = None ↔
   ∃ x y, into_rust a = Some x ∧ into_rust b = Some y ∧ pcmpt x y = None).
Proof. destruct a, b; cbn; naive_solver. Qed.

Theorem C90_cmp cmpt a b :
  tpartial_cmp (λ x y, Some (cmpt x y)) a b = Some (tcmp cmpt a b).
Proof. by destruct a, b. Qed.

(** Equal options hash equally; but none hashes as the [Option] it stands for
    (a byte is hashed for the discriminant, where [Option] hashes a word). *)
Theorem C90_hash hasht a b eqt :
  (∀ x y, eqt x y = true → hasht x = hasht y) →
  teq eqt a b = true → thash hasht a = thash hasht b.
Proof.
  intros H. destruct a as [|x], b as [|y]; [done..|]. intros E.
  unfold thash. cbn [discr]. by rewrite (H x y E).
Qed.
Theorem C90_hash_differs hasht t : thash hasht t ≠ std_hash hasht (into_rust t).
Proof. by destruct t. Qed.

(** A clone is the clone of the payload; if that panics nothing is left. *)
Theorem C90_clone clonet t :
  tclone clonet t =
  match into_rust t with
  | None => Done (from_opt None) []
  | Some v => match clonet v with Some w => Done (from_opt (Some w)) [EIn w] | None => Unw [] end
  end.
Proof. destruct t; cbn; [done|]. by destruct (clonet v). Qed.

(** ** Examples *)
Definition ex_run (f : N) (a : option N) : option N :=
  if (f =? 13)%N then None else Some (f + default 0 a)%N.
Definition ex_runo (f : N) (a : option N) : option (option N) :=
  if (f =? 13)%N then None else if (f =? 7)%N then Some None else Some (ex_run f a).
Definition ex_prog : list cmd :=
  [Let 0 5; Take 0 1; See 0; AndThen 1 20 1; Put 1 99; MapOr 0 1 2; Let 0 3; Unwrap 1 4]%N.

Example ex_trace :
  exec_tagged ex_run ex_runo [None; None] ex_prog =
  Some [EIn 5; ESee None; ECall 20 (Some 5); EIn 25; EIn 99; EDrop 25; ECall 1 None; EDropF 2;
        EIn 1; EOut 1; EIn 3; EDropF 4; EOut 99; EDrop 3]%N.
Proof. vm_compute. reflexivity. Qed.
(** A panic in the midst. *)
Example ex_panic :
  exec_tagged ex_run ex_runo [None; Some (TSome 8)] [Let 0 5; AndThen 0 13 0; See 0]%N =
  Some [EIn 5; ECall 13 (Some 5); EDrop 8]%N.
Proof. vm_compute. reflexivity. Qed.
(** Use after a move is refused. *)
Example ex_moved : exec_tagged ex_run ex_runo [None] [Let 0 5; Into 0; See 0]%N = None.
Proof. vm_compute. reflexivity. Qed.
Example ex_order :
  tcmp N.compare TNone (TSome 0) = Lt ∧ tcmp N.compare (TSome 3) (TSome 2) = Gt.
Proof. done. Qed.

Print Assumptions C90_convert.
Print Assumptions C90_std.
Print Assumptions C90_once.
Print Assumptions C90_closures.
Print Assumptions C90_eq.
Print Assumptions C90_partial_cmp.
Print Assumptions C90_cmp.
Print Assumptions C90_hash.
Print Assumptions C90_hash_differs.
Print Assumptions C90_clone.
