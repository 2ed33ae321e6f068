(** The ownership invariant of [Bytes] programs and its preservation by each method. *)
From Coq Require Import ZifyBool ZifyNat ZifyN.
From stdpp Require Import base numbers list.
From Verif Require Import BytesModel BytesEnc.
Local Open Scope N_scope.
Ltac Zify.zify_post_hook ::= Z.div_mod_to_equations.

(** ** Counting *)
Fixpoint cnt {A} (f : A → bool) (l : list A) : nat :=
  match l with [] => 0 | x :: l => (if f x then 1 else 0) + cnt f l end.

Lemma cnt_perm {A} (f : A → bool) l k : l ≡ₚ k → cnt f l = cnt f k.
Proof. induction 1; simpl; lia. Qed.
Lemma cnt_zero {A} (f : A → bool) l x : cnt f l = 0%nat → x ∈ l → f x = false.
Proof.
  induction l as [|y l IH]; simpl; intros Hc Hx; [by apply elem_of_nil in Hx|].
  apply elem_of_cons in Hx as [->|Hx]; destruct (f y) eqn:?; try lia; auto.
Qed.
Lemma cnt_pos {A} (f : A → bool) l x : x ∈ l → f x = true → (0 < cnt f l)%nat.
Proof.
  intros Hx Hf. destruct (decide (cnt f l = 0%nat)) as [Hc|]; [|lia].
  pose proof (cnt_zero f l x Hc Hx). congruence.
Qed.

(** ** Ghost state: every value with its contents *)
Notation gh := (handle * list N)%type.
Notation ga := (arc * list N)%type.

(** The value owns one unit of the storage at [base] through vtable [v]. *)
Definition owns (p : platform) (v : vt) (base : N) (x : gh) : bool :=
  (b_vt (h_b (fst x)) =? vt_addr p v) && (b_owner (h_b (fst x)) =? base)
  && negb (bool_decide (v = VBox) && (b_cap (h_b (fst x)) =? 0)).
Definition arc_owns (t : aty) (base : N) (x : ga) : bool :=
  bool_decide (a_t (fst x) = t) && (a_base (fst x) =? base).

Definition region_ok (p : platform) (r : region) : Prop :=
  bytelist (r_data r) ∧ hdr p (r_kind r) < r_base r ∧ r_base r + r_len r < wlim p
  ∧ (r_kind r = KBox → r_data r ≠ []).

Definition sep (p : platform) (r r' : region) : Prop :=
  r_base r + r_len r ≤ r_base r' - hdr p (r_kind r')
  ∨ r_base r' + r_len r' ≤ r_base r - hdr p (r_kind r).

(** Region [r] (number [i]) is what value [b] of lifetime [lt] with vtable [v] is stored in. *)
Definition backs (v : vt) (b : bytes) (lt : lifetime) (i : nat) (r : region) : Prop :=
  match v with
  | VStatic => r_kind r = KStatic
  | VBorrow => r_kind r = KBorrow ∧ lt = LBorrow i
  | VArc => arc_at (b_owner b) (b_cap b) r = true
  | VArcT => arct_at (b_owner b) r = true
  | VBox => box_at (b_owner b) (b_cap b) r = true ∧ b_cap b ≠ 0
  | VStab => stab_at (b_owner b) (b_cap b) r = true
  end.

Definition sub_data (a n : N) (r : region) : list N :=
  take (N.to_nat n) (drop (N.to_nat (a - r_base r)) (r_data r)).

Definition out_ok (p : platform) (m : mem) (x : handle) (c : list N) : Prop :=
  ∃ v, b_vt (h_b x) = vt_addr p v ∧
  ((∃ i r, m !! i = Some r ∧ backs v (h_b x) (h_lt x) i r
           ∧ contains (b_start (h_b x)) (b_len (h_b x)) r = true
           ∧ c = sub_data (b_start (h_b x)) (b_len (h_b x)) r)
   ∨ (v = VBox ∧ b_cap (h_b x) = 0 ∧ b_len (h_b x) = 0 ∧ c = [])).

Definition inl_ok (p : platform) (x : handle) (c : list N) : Prop :=
  is_inlined p (h_b x) = true ∧ len p (h_b x) ≤ N.of_nat (max_inline p)
  ∧ c = take (N.to_nat (len p (h_b x))) (raw p (h_b x)).

Definition h_ok (p : platform) (m : mem) (x : handle) (c : list N) : Prop :=
  inl_ok p x c ∨ out_ok p m x c.

(** Region [r] is what the program's own [a] points to. *)
Definition a_at (a : arc) (r : region) : bool :=
  match a_t a with
  | ASlice => arc_at (a_base a) (a_len a) r
  | AOf => arct_at (a_base a) r
  | AStab => stab_at (a_base a) (a_base a + a_len a) r
  end.

Definition a_ok (m : mem) (a : arc) (c : list N) : Prop :=
  ∃ i r, m !! i = Some r ∧ c = take (N.to_nat (a_len a)) (r_data r) ∧ a_len a ≤ r_len r
  ∧ a_at a r = true.

Definition cnt_ok (p : platform) (r : region) (hs : list gh) (ars : list ga) : Prop :=
  match r_kind r with
  | KArc n => n = (cnt (owns p VArc (r_base r)) hs + cnt (arc_owns ASlice (r_base r)) ars)%nat
              ∧ (0 < n)%nat
  | KArcT n => n = (cnt (owns p VArcT (r_base r)) hs + cnt (arc_owns AOf (r_base r)) ars)%nat
               ∧ (0 < n)%nat
  | KBox => cnt (owns p VBox (r_base r)) hs = 1%nat
  | KStab n => n = (cnt (owns p VStab (r_base r)) hs + cnt (arc_owns AStab (r_base r)) ars)%nat
               ∧ (0 < n)%nat
  | _ => True
  end.

Record Inv (p : platform) (m : mem) (hs : list gh) (ars : list ga) : Prop := {
  I_reg : ∀ i r, m !! i = Some r → region_ok p r;
  I_sep : ∀ i j r r', i ≠ j → m !! i = Some r → m !! j = Some r' →
            r_live r = true → r_live r' = true → sep p r r';
  I_h : ∀ x c, (x, c) ∈ hs → h_ok p m x c;
  I_a : ∀ a c, (a, c) ∈ ars → a_ok m a c;
  I_cnt : ∀ i r, m !! i = Some r → r_live r = true → cnt_ok p r hs ars;
}.

Lemma Inv_perm p m hs hs' ars ars' :
  hs ≡ₚ hs' → ars ≡ₚ ars' → Inv p m hs ars → Inv p m hs' ars'.
Proof.
  intros Hh Ha [H1 H2 H3 H4 H5]. split; try done.
  - intros x c Hx. apply H3. by rewrite Hh.
  - intros x c Hx. apply H4. by rewrite Ha.
  - intros i r Hi Hl. specialize (H5 i r Hi Hl). unfold cnt_ok in *.
    destruct (r_kind r); try done.
    + by rewrite <- (cnt_perm _ _ _ Hh), <- (cnt_perm _ _ _ Ha).
    + by rewrite <- (cnt_perm _ _ _ Hh), <- (cnt_perm _ _ _ Ha).
    + by rewrite <- (cnt_perm _ _ _ Hh).
    + by rewrite <- (cnt_perm _ _ _ Hh), <- (cnt_perm _ _ _ Ha).
Qed.

Lemma contains_spec a n r :
  contains a n r = true ↔ r_live r = true ∧ r_base r ≤ a ∧ a + n ≤ r_base r + r_len r.
Proof. unfold contains. rewrite !andb_true_iff, !N.leb_le. tauto. Qed.
Lemma arc_at_spec o c r :
  arc_at o c r = true ↔ r_live r = true ∧ r_base r = o ∧ r_len r = c ∧ ∃ n, r_kind r = KArc n.
Proof.
  unfold arc_at. rewrite !andb_true_iff, !N.eqb_eq. destruct (r_kind r); naive_solver.
Qed.
Lemma arct_at_spec o r :
  arct_at o r = true ↔ r_live r = true ∧ r_base r = o ∧ ∃ n, r_kind r = KArcT n.
Proof.
  unfold arct_at. rewrite !andb_true_iff, !N.eqb_eq. destruct (r_kind r); naive_solver.
Qed.
Lemma box_at_spec o c r :
  box_at o c r = true ↔ r_live r = true ∧ r_base r = o ∧ r_len r = c ∧ r_kind r = KBox.
Proof.
  unfold box_at. rewrite !andb_true_iff, !N.eqb_eq. destruct (r_kind r); naive_solver.
Qed.

Lemma stab_at_spec o e r :
  stab_at o e r = true ↔ r_live r = true ∧ r_base r = o ∧ o ≤ e ∧ e ≤ r_base r + r_len r
                         ∧ ∃ n, r_kind r = KStab n.
Proof.
  unfold stab_at. rewrite !andb_true_iff, !N.eqb_eq, !N.leb_le. destruct (r_kind r); naive_solver.
Qed.
Lemma a_at_spec a r :
  a_at a r = true → r_live r = true ∧ r_base r = a_base a.
Proof.
  unfold a_at. destruct (a_t a); rewrite ?arc_at_spec, ?arct_at_spec, ?stab_at_spec; naive_solver.
Qed.

Section Inv.
Context (p : platform) (Hwf : wf_platform p).

Lemma hdr_pos k : match k with KArc _ | KArcT _ | KStab _ => 2 ≤ hdr p k | _ => True end.
Proof. pose proof (wf_wsz p Hwf). destruct k; cbn [hdr]; try done; lia. Qed.

(** Two live regions containing the same non-empty range are the same. *)
Lemma contains_inj m hs ars i j r r' a n :
  Inv p m hs ars → m !! i = Some r → m !! j = Some r' → 0 < n →
  contains a n r = true → contains a n r' = true → i = j.
Proof.
  intros HI Hi Hj Hn Hc Hc'. destruct (decide (i = j)) as [|Hne]; [done|exfalso].
  apply contains_spec in Hc as (Hl & Hc1 & Hc2). apply contains_spec in Hc' as (Hl' & Hc1' & Hc2').
  pose proof (I_sep _ _ _ _ HI i j r r' Hne Hi Hj Hl Hl') as Hs. unfold sep in Hs. lia.
Qed.

Definition shared (k : kind) : bool := match k with KArc _ | KArcT _ | KStab _ => true | _ => false end.

Lemma shared_inj m hs ars i j r r' :
  Inv p m hs ars → m !! i = Some r → m !! j = Some r' →
  r_live r = true → r_live r' = true →
  shared (r_kind r) = true → shared (r_kind r') = true → r_base r = r_base r' → i = j.
Proof.
  intros HI Hi Hj Hl Hl' Hk Hk' Hb. destruct (decide (i = j)) as [|Hne]; [done|exfalso].
  pose proof (I_sep _ _ _ _ HI i j r r' Hne Hi Hj Hl Hl') as Hs. unfold sep in Hs.
  pose proof (I_reg _ _ _ _ HI i r Hi) as (_ & Hr & _ & _).
  pose proof (I_reg _ _ _ _ HI j r' Hj) as (_ & Hr' & _ & _).
  pose proof (hdr_pos (r_kind r)). pose proof (hdr_pos (r_kind r')).
  destruct (r_kind r), (r_kind r'); try done; lia.
Qed.

Lemma box_inj m hs ars i j r r' :
  Inv p m hs ars → m !! i = Some r → m !! j = Some r' →
  r_live r = true → r_live r' = true →
  r_kind r = KBox → r_kind r' = KBox → r_base r = r_base r' → i = j.
Proof.
  intros HI Hi Hj Hl Hl' Hk Hk' Hb. destruct (decide (i = j)) as [|Hne]; [done|exfalso].
  pose proof (I_sep _ _ _ _ HI i j r r' Hne Hi Hj Hl Hl') as Hs. unfold sep in Hs.
  pose proof (I_reg _ _ _ _ HI i r Hi) as (_ & Hr & _ & Hd).
  pose proof (I_reg _ _ _ _ HI j r' Hj) as (_ & Hr' & _ & Hd').
  specialize (Hd Hk). specialize (Hd' Hk').
  unfold r_len in *. rewrite Hk, Hk' in *. simpl in *.
  destruct (r_data r), (r_data r'); try done; simpl in *; lia.
Qed.

(** ** Reading *)
Lemma read_mem_ok m hs ars i r a n :
  Inv p m hs ars → m !! i = Some r → contains a n r = true →
  read_mem m a n = Some (sub_data a n r).
Proof.
  intros HI Hi Hc. unfold read_mem, sub_data.
  destruct (N.eqb_spec n 0) as [->|Hn]; [done|].
  destruct (list_find (λ r, contains a n r = true) m) as [[j r']|] eqn:Hf.
  - apply list_find_Some in Hf as (Hj & Hc' & _).
    assert (i = j) by (eapply (contains_inj m hs ars); eauto; lia).
    by simplify_eq.
  - apply list_find_None in Hf. rewrite Forall_forall in Hf.
    exfalso. eapply Hf; [|done]. by eapply elem_of_list_lookup_2.
Qed.

Lemma sub_data_length a n r : contains a n r = true → N.of_nat (length (sub_data a n r)) = n.
Proof.
  rewrite contains_spec. intros (_ & H1 & H2). unfold sub_data. unfold r_len in *.
  rewrite take_length, drop_length. lia.
Qed.

Lemma h_ok_len m x c : h_ok p m x c → len p (h_b x) = N.of_nat (length c).
Proof.
  intros [(Hin & Hle & ->)|(v & Hv & Hx)].
  - pose proof (max_inline_bounds p Hwf). rewrite take_length, raw_length. lia.
  - unfold len. rewrite (not_inlined p (h_b x) v) by done.
    destruct Hx as [(i & r & Hi & Hb & Hc & ->)|(-> & _ & -> & ->)]; [|done].
    by rewrite sub_data_length.
Qed.

Lemma as_slice_ok m hs ars x c :
  Inv p m hs ars → h_ok p m x c → as_slice p m (h_b x) = Some c.
Proof.
  intros HI Hh. destruct Hh as [(Hin & Hle & ->)|(v & Hv & Hx)].
  - unfold as_slice. rewrite Hin.
    pose proof (max_inline_bounds p Hwf).
    destruct (N.leb_spec (len p (h_b x)) (N.of_nat (size_of_bytes p))); [done|lia].
  - unfold as_slice. rewrite (not_inlined p (h_b x) v) by done.
    destruct Hx as [(i & r & Hi & Hb & Hc & ->)|(-> & _ & -> & ->)]; [|done].
    by eapply read_mem_ok.
Qed.

Lemma h_ok_bytes m hs ars x c : Inv p m hs ars → h_ok p m x c → bytelist c.
Proof.
  intros HI [(Hin & Hle & ->)|(v & Hv & Hx)].
  - apply Forall_take, raw_bytes.
  - destruct Hx as [(i & r & Hi & Hb & Hc & ->)|(-> & _ & _ & ->)]; [|constructor].
    apply Forall_take, Forall_drop. apply (I_reg _ _ _ _ HI i r Hi).
Qed.

Lemma a_ok_read m hs ars a c :
  Inv p m hs ars → a_ok m a c → read_mem m (a_base a) (a_len a) = Some c.
Proof.
  intros HI (i & r & Hi & -> & Hl & Ha).
  apply a_at_spec in Ha as [Hlive Hbase].
  rewrite (read_mem_ok m hs ars i r) by (done || (apply contains_spec; split_and!; [done|lia..])).
  unfold sub_data. rewrite Hbase, N.sub_diag. change (N.to_nat 0) with 0%nat. by rewrite drop_0.
Qed.

(** ** Memory changes *)

(** [m'] keeps base, data, kind (up to counts) and liveness of every region not in [dead]. *)
Definition same_shape (r r' : region) : Prop :=
  r_base r = r_base r' ∧ r_data r = r_data r'
  ∧ match r_kind r, r_kind r' with
    | KStatic, KStatic | KBorrow, KBorrow | KBox, KBox => True
    | KArc _, KArc _ | KArcT _, KArcT _ | KStab _, KStab _ => True
    | _, _ => False
    end.

Definition mono (dead : option nat) (m m' : mem) : Prop :=
  ∀ i r, m !! i = Some r → ∃ r', m' !! i = Some r' ∧ same_shape r r'
     ∧ (Some i ≠ dead → r_live r' = r_live r).

Lemma mono_refl d m : mono d m m.
Proof.
  intros i r Hi. exists r. split_and!; try done. repeat split. by destruct (r_kind r).
Qed.

Lemma mono_app d m l : mono d m (m ++ l).
Proof.
  intros i r Hi. exists r. split_and!; try done.
  - by apply lookup_app_l_Some.
  - repeat split. by destruct (r_kind r).
Qed.

Lemma same_shape_contains r r' a n :
  same_shape r r' → r_live r' = r_live r → contains a n r' = contains a n r.
Proof. intros (Hb & Hd & _) Hl. unfold contains, r_len. by rewrite Hb, Hd, Hl. Qed.

Lemma same_shape_sub r r' a n : same_shape r r' → sub_data a n r' = sub_data a n r.
Proof. intros (Hb & Hd & _). unfold sub_data. by rewrite Hb, Hd. Qed.

Lemma same_shape_backs v b lt i r r' :
  same_shape r r' → r_live r' = r_live r → backs v b lt i r → backs v b lt i r'.
Proof.
  intros (Hb & Hd & Hk) Hl. unfold backs, arc_at, arct_at, box_at, stab_at, r_len.
  rewrite Hb, Hd, Hl.
  destruct v, (r_kind r), (r_kind r'); intuition (try done; try congruence; try lia).
Qed.

(** Does value [x] rely on region [i]? *)
Definition uses (m : mem) (x : handle) (i : nat) : Prop :=
  ∃ v r, b_vt (h_b x) = vt_addr p v ∧ m !! i = Some r ∧ backs v (h_b x) (h_lt x) i r.

Lemma h_ok_mono d m m' x c :
  mono d m m' → (∀ i, d = Some i → ¬ uses m x i) → h_ok p m x c → h_ok p m' x c.
Proof.
  intros Hm Hd [Hin|(v & Hv & Hx)]; [by left|right].
  exists v. split; [done|]. destruct Hx as [(i & r & Hi & Hb & Hc & ->)|?]; [left|by right].
  destruct (Hm i r Hi) as (r' & Hi' & Hsh & Hl).
  assert (Hl' : r_live r' = r_live r).
  { apply Hl. intros Heq. apply (Hd i); [by symmetry|]. exists v, r. done. }
  exists i, r'. split_and!; [done|by eapply same_shape_backs| |].
  - by rewrite (same_shape_contains r r').
  - by rewrite (same_shape_sub r r').
Qed.

Definition a_uses (m : mem) (a : arc) (i : nat) : Prop :=
  ∃ r, m !! i = Some r ∧ a_at a r = true.

Lemma a_ok_mono d m m' a c :
  mono d m m' → (∀ i, d = Some i → ¬ a_uses m a i) → a_ok m a c → a_ok m' a c.
Proof.
  intros Hm Hd (i & r & Hi & -> & Hlen & Ha).
  destruct (Hm i r Hi) as (r' & Hi' & Hsh & Hl).
  assert (Hl' : r_live r' = r_live r).
  { apply Hl. intros Heq. apply (Hd i); [by symmetry|]. by exists r. }
  destruct Hsh as (Hb & Hdat & Hk).
  exists i, r'. split_and!; [done|by rewrite Hdat|unfold r_len in *; by rewrite <- Hdat|].
  unfold a_at, arc_at, arct_at, stab_at, r_len in *. rewrite <- Hb, <- Hdat, Hl'.
  destruct (a_t a), (r_kind r), (r_kind r'); try done; by rewrite ?andb_false_r in Ha.
Qed.

Lemma mono_insert d (m : mem) (i : nat) r r' :
  m !! i = Some r → same_shape r r' → (Some i ≠ d → r_live r' = r_live r) →
  mono d m (<[i := r']> m).
Proof.
  intros Hi Hsh Hl j s Hj. destruct (decide (i = j)) as [<-|Hne].
  - simplify_eq. exists r'. split_and!; [|done|done].
    apply list_lookup_insert. by eapply lookup_lt_Some.
  - exists s. rewrite list_lookup_insert_ne by done. split_and!; try done.
    repeat split. by destruct (r_kind s).
Qed.

Lemma inc_shape r : same_shape r (inc_strong r) ∧ r_live (inc_strong r) = r_live r
  ∧ r_base (inc_strong r) = r_base r ∧ r_data (inc_strong r) = r_data r
  ∧ hdr p (r_kind (inc_strong r)) = hdr p (r_kind r).
Proof. unfold inc_strong, same_shape. destruct r as [b d [] l]; simpl; done. Qed.

Lemma dec_shape r : same_shape r (dec_strong r)
  ∧ r_base (dec_strong r) = r_base r ∧ r_data (dec_strong r) = r_data r
  ∧ hdr p (r_kind (dec_strong r)) = hdr p (r_kind r).
Proof. unfold dec_strong, same_shape. destruct r as [b d [] l]; simpl; done. Qed.

Lemma kill_shape r : same_shape r (kill r).
Proof. unfold kill, same_shape. destruct r as [b d [] l]; simpl; done. Qed.

(** Region facts survive replacing one region by a same-shaped one which is not more alive. *)
Lemma regs_insert (m : mem) (i : nat) r r' :
  (∀ i r, m !! i = Some r → region_ok p r) →
  (∀ i j r r', i ≠ j → m !! i = Some r → m !! j = Some r' →
       r_live r = true → r_live r' = true → sep p r r') →
  m !! i = Some r → same_shape r r' → hdr p (r_kind r') = hdr p (r_kind r) →
  (r_live r' = true → r_live r = true) →
  (∀ j s, <[i := r']> m !! j = Some s → region_ok p s) ∧
  (∀ j k s s', j ≠ k → <[i := r']> m !! j = Some s → <[i := r']> m !! k = Some s' →
       r_live s = true → r_live s' = true → sep p s s').
Proof.
  intros Hreg Hsep Hi Hsh Hh Hl.
  pose proof (lookup_lt_Some _ _ _ Hi) as Hlt.
  pose proof Hsh as (Hb & Hd & Hk).
  split.
  - intros j s Hj. destruct (decide (i = j)) as [<-|Hne].
    + rewrite list_lookup_insert in Hj by done. simplify_eq.
      destruct (Hreg _ _ Hi) as (R1 & R2 & R3 & R4).
      unfold region_ok, r_len in *. rewrite <- Hb, <- Hd, Hh. split_and!; try done.
      intros Hbox. apply R4. destruct (r_kind r), (r_kind s); done.
    + rewrite list_lookup_insert_ne in Hj by done. by eapply Hreg.
  - intros j k s s' Hjk Hj Hk' Hls Hls'.
    destruct (decide (i = j)) as [<-|Hne], (decide (i = k)) as [<-|Hne']; try done.
    + rewrite list_lookup_insert in Hj by done. rewrite list_lookup_insert_ne in Hk' by done.
      simplify_eq. pose proof (Hsep i k r s' Hne' Hi Hk' (Hl Hls) Hls') as Hs.
      unfold sep, r_len in *. by rewrite <- Hb, <- Hd, Hh.
    + rewrite list_lookup_insert in Hk' by done. rewrite list_lookup_insert_ne in Hj by done.
      simplify_eq. pose proof (Hsep j i s r Hjk Hj Hi Hls (Hl Hls')) as Hs.
      unfold sep, r_len in *. by rewrite <- Hb, <- Hd, Hh.
    + rewrite list_lookup_insert_ne in Hj by done. rewrite list_lookup_insert_ne in Hk' by done.
      by eapply (Hsep j k).
Qed.
End Inv.
