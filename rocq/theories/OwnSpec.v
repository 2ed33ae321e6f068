(** Specification of the life of values: which programs the compiler accepts,
    who owns what, and what should happen.

    Nothing here knows of counts, virtual tables or memory: there are the live
    handles, the value each is about, and the accesses in progress. *)

From Coq Require Import List Bool Arith.
From stdpp Require Import base numbers list strings.
From Verif Require Import DynModel OwnModel.

#[global] Instance flavour_eq_dec : EqDecision flavour.
Proof. solve_decision. Defined.
#[global] Instance coercible_eq_dec : EqDecision coercible.
Proof. solve_decision. Defined.

(** The type of a handle: Rust's own pointers and variables, [VirtualPtr],
    [ArcDynFn] with or without [retain], [BoxDynFnMut], [RefDynFnMut]. *)
Inductive akind :=
| AOwn (k : raw)
| AVptr (c : coercible) (t : trait)
| AArcFn (retain : bool)
| ABoxFn
| ARefFn.
(** A handle: its type, the value it is about, that value's type, the handle
    it borrows from and whether mutably. *)
Record ahandle := AH { a_kind : akind; a_addr : nat; a_ty : ty; a_from : option (nat * bool) }.
(** The live handles; how many values there have been; accesses in progress. *)
Record astate := AState { handles : list (option ahandle); next : nat; actives : list (nat * bool) }.
Definition astart : astate := AState [] 0 [].

(** Handles with a share in the ownership of the value. *)
Definition owning (k : akind) : bool :=
  match k with
  | AOwn (PRef _) | AVptr (CRef _) _ | ARefFn => false
  | _ => true
  end.
Definition owns (a : nat) (h : option ahandle) : bool :=
  match h with Some h => owning (a_kind h) && Nat.eqb (a_addr h) a | None => false end.
(** The number of owners. *)
Fixpoint owners (a : nat) (hs : list (option ahandle)) : nat :=
  match hs with [] => 0 | h :: hs => (if owns a h then 1 else 0) + owners a hs end.

(** *** The borrow checker *)

Definition look (A : astate) (i : nat) : option ahandle := mjoin (handles A !! i).
Definition borrows (i : nat) (only_mut : bool) (h : option ahandle) : bool :=
  match h with
  | Some h => match a_from h with Some (j, m) => Nat.eqb j i && (m || negb only_mut) | None => false end
  | None => false
  end.
Definition borrowed (A : astate) (i : nat) (only_mut : bool) : bool := existsb (borrows i only_mut) (handles A).
Definition accessed (A : astate) (i : nat) (only_mut : bool) : bool :=
  existsb (λ x, Nat.eqb x.1 i && (x.2 || negb only_mut)) (actives A).
(** A handle may be used exclusively, or moved, when nothing borrows from it
    and nothing is going on with it; shared, when there is nothing exclusive. *)
Definition can_mut (A : astate) (i : nat) : bool := negb (borrowed A i false) && negb (accessed A i false).
Definition can_share (A : astate) (i : nat) : bool := negb (borrowed A i true) && negb (accessed A i true).
Definition can_use (A : astate) (i : nat) (mut : bool) : bool := if mut then can_mut A i else can_share A i.

(** *** The type checker *)

(** A method through which one may change the value, or only read it. *)
Definition receives (mut : bool) (r : rty) : bool :=
  match r with
  | RRef m RSelf => Bool.eqb m mut
  | RWrap n (RRef m RSelf) => String.eqb n "Pin" && Bool.eqb m mut
  | _ => false
  end.
(** Does the type of the handle give such access? *)
Definition gives (mut : bool) (k : akind) : bool :=
  match k with
  | AOwn (PRc _) | AOwn (PRef false) | AArcFn _ => negb mut
  | AOwn _ => true
  | AVptr _ t => existsb (receives mut) (methods t)
  | ABoxFn | ARefFn => mut
  end.
Definition coerces (t : trait) (f : flavour) (c : coercible) (T : ty) : bool :=
  bool_decide ((f, c) ∈ constructors t) && bounds t f c T.
Definition fn_of (k : raw) (T : ty) : option akind :=
  match k with
  | PRc true => if t_send T && t_sync T then Some (AArcFn true) else None
  | PBox => if t_send T then Some ABoxFn else None
  | PRef true => if t_send T then Some ARefFn else None
  | _ => None
  end.

(** *** Accepted programs *)

Definition add (A : astate) (h : ahandle) : astate := AState (handles A ++ [Some h]) (next A) (actives A).
Definition add_new (A : astate) (k : akind) (T : ty) : astate :=
  AState (handles A ++ [Some (AH k (next A) T None)]) (S (next A)) (actives A).
Definition del (A : astate) (i : nat) : astate := AState (<[i := None]> (handles A)) (next A) (actives A).

(** An access in progress comes to its end. *)
Fixpoint end_one (i : nat) (m : bool) (acts : list (nat * bool)) : option (list (nat * bool)) :=
  match acts with
  | [] => None
  | (j, m') :: acts =>
      if Nat.eqb j i && Bool.eqb m' m then Some acts
      else match end_one i m acts with Some acts => Some ((j, m') :: acts) | None => None end
  end.

Definition astep (A : astate) (o : op) : option astate :=
  match o with
  | ONew k T => match k with PRef _ => None | _ => Some (add_new A (AOwn k) T) end
  | OForeign T => Some (add_new A (AArcFn false) T)
  | OBorrow i m =>
      match look A i with
      | Some h =>
          match a_kind h with
          | AOwn k =>
              match k with
              | PLocal | PBox | PRc _ =>
                  if can_use A i m && gives m (AOwn k)
                  then Some (add A (AH (AOwn (PRef m)) (a_addr h) (a_ty h) (Some (i, m)))) else None
              | PRef _ => None
              end
          | _ => None
          end
      | None => None
      end
  | OCoerce i t f =>
      match look A i with
      | Some h =>
          match a_kind h with
          | AOwn k =>
              match source k with
              | Some c =>
                  if can_mut A i && coerces t f c (a_ty h)
                  then Some (add (del A i) (AH (AVptr c t) (a_addr h) (a_ty h) (a_from h))) else None
              | None => None
              end
          | _ => None
          end
      | None => None
      end
  | OFn i =>
      match look A i with
      | Some h =>
          match a_kind h with
          | AOwn k =>
              match fn_of k (a_ty h) with
              | Some k' =>
                  if can_mut A i then Some (add (del A i) (AH k' (a_addr h) (a_ty h) (a_from h))) else None
              | None => None
              end
          | _ => None
          end
      | None => None
      end
  | OClone i =>
      match look A i with
      | Some h =>
          if can_share A i then
            match a_kind h with
            | AOwn (PRc _) | AArcFn true => Some (add A h)
            | AVptr c t =>
                if vptr_clone t then
                  match c with
                  | CBox => Some (add_new A (a_kind h) (a_ty h))
                  | _ => Some (add A h)
                  end
                else None
            | _ => None
            end
          else None
      | None => None
      end
  | OBegin i m =>
      match look A i with
      | Some h =>
          if can_use A i m && gives m (a_kind h)
          then Some (AState (handles A) (next A) ((i, m) :: actives A)) else None
      | None => None
      end
  | OEnd i m =>
      match end_one i m (actives A) with
      | Some acts => Some (AState (handles A) (next A) acts)
      | None => None
      end
  | ODrop i =>
      match look A i with
      | Some _ => if can_mut A i then Some (del A i) else None
      | None => None
      end
  end.
Fixpoint arun (A : astate) (os : list op) : option astate :=
  match os with
  | [] => Some A
  | o :: os => match astep A o with Some A => arun A os | None => None end
  end.

(** *** What should happen *)

Definition expected (A : astate) (o : op) : list event :=
  match o with
  | ONew _ _ | OForeign _ => [ENew (next A)]
  | OClone i =>
      match look A i with
      | Some (AH (AVptr CBox _) _ _ _) => [ENew (next A)]
      | _ => []
      end
  | OBegin i m => match look A i with Some h => [EBegin (a_addr h) m] | None => [] end
  | OEnd i m => match look A i with Some h => [EEnd (a_addr h) m] | None => [] end
  | ODrop i =>
      match look A i with
      | Some h =>
          (* the last owner *)
          if owning (a_kind h) && Nat.eqb (owners (a_addr h) (handles A)) 1 then [EDestroy (a_addr h)] else []
      | None => []
      end
  | OBorrow _ _ | OCoerce _ _ _ | OFn _ => []
  end.
Fixpoint expected_log (A : astate) (os : list op) : list event :=
  match os with
  | [] => []
  | o :: os => expected A o ++ match astep A o with Some A' => expected_log A' os | None => [] end
  end.

(** *** Readings of what happened *)

(** Counting, with the accesses to value [a]. *)
Definition begins (a : nat) (e : event) : bool := match e with EBegin b _ => Nat.eqb b a | _ => false end.
Definition ends (a : nat) (e : event) : bool := match e with EEnd b _ => Nat.eqb b a | _ => false end.
Fixpoint tally (p : event → bool) (l : list event) : nat :=
  match l with [] => 0 | e :: l => (if p e then 1 else 0) + tally p l end.

(** Every value is destroyed at most once, after it was made, with no access in
    progress, and is never accessed again. *)
Definition sound_life (l : list event) : Prop := ∀ a pre post, l = pre ++ EDestroy a :: post →
  ENew a ∈ pre ∧ EDestroy a ∉ pre ∧ EDestroy a ∉ post ∧ (∀ m, EBegin a m ∉ post) ∧ (∀ m, EEnd a m ∉ post) ∧
  tally (begins a) pre = tally (ends a) pre.
(** Every access finds a value made and not destroyed. *)
Definition sound_access (l : list event) : Prop := ∀ a m pre post, l = pre ++ EBegin a m :: post →
  ENew a ∈ pre ∧ EDestroy a ∉ pre.
(** An exclusive access is alone: none in progress when it begins, and until
    one has ended none other begins. *)
Definition sound_exclusive (l : list event) : Prop := ∀ a pre post, l = pre ++ EBegin a true :: post →
  tally (begins a) pre = tally (ends a) pre ∧
  (∀ m mid post', post = mid ++ EBegin a m :: post' → 0 < tally (ends a) mid).
