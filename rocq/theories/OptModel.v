(** * [TaggedOption]

    option.rs 17-23 (the type and its derives), 45-67 (conversions), 69-116
    (methods).  Its layout and validity are in LayoutModel (C19).

    A payload is a number, as is a closure.  A closure is called with what is
    moved into it and answers, or panics, as an oracle says; what it does with
    its argument is its own business.  The trace says which payloads and
    closures are dropped and which closures are called, in order.  Parameters
    that were not moved are dropped when the function is left, in both ways of
    leaving it. *)
From Coq Require Import NArith List Bool.
From stdpp Require Import base numbers list.
Import stdpp.list.

(** option.rs 20-23 *)
Inductive topt := TNone | TSome (v : N).
#[global] Instance topt_eq : EqDecision topt.
Proof. solve_decision. Defined.

Inductive event :=
| EDrop (v : N)                     (* a payload is dropped *)
| EDropF (f : N)                    (* a closure is dropped without a call *)
| ECall (f : N) (arg : option N)    (* a closure is called; it owns [arg] *)
| EOut (v : N)                      (* a value is handed to the caller *)
| EIn (v : N)                       (* a payload comes into being *)
| ESee (o : option N).              (* what the caller sees by reference *)

(** A function returns, or unwinds. *)
Inductive res (A : Type) := Done (a : A) (tr : list event) | Unw (tr : list event).
Arguments Done {_}. Arguments Unw {_}.

(** ** Conversions *)

(** option.rs 45-52 *)
Definition from_opt (o : option N) : topt :=
  match o with Some v => TSome v | None => TNone end.
(** option.rs 54-61, 113-115 *)
Definition into_rust (t : topt) : option N :=
  match t with TSome v => Some v | TNone => None end.
(** option.rs 63-67 *)
Definition from_val (v : N) : topt := TSome v.

(** ** Methods *)

(** option.rs 71-76 *)
Definition as_ref (t : topt) : option N :=
  match t with TNone => None | TSome v => Some v end.
(** option.rs 78-83: the reference, as what it reads and what [self] becomes
    when it is written to. *)
Definition as_mut (t : topt) : option (N * (N → topt)) :=
  match t with TNone => None | TSome v => Some (v, TSome) end.

(** A call of a closure of type [FnOnce], with the parameters [rest] left. *)
Definition call {A} (run : N → option N → option A) (f : N) (arg : option N) (rest : list event) : res A :=
  match run f arg with
  | Some a => Done a (ECall f arg :: rest)
  | None => Unw (ECall f arg :: rest)
  end.

(** option.rs 85-90 *)
Definition map_or_else {A} (run : N → option N → option A) (t : topt) (default f : N) : res A :=
  match t with
  | TNone => call run default None [EDropF f]
  | TSome v => call run f (Some v) [EDropF default]
  end.

(** option.rs 92-97 *)
Definition unwrap_or_else (run : N → option N → option N) (t : topt) (default : N) : res N :=
  match t with
  | TNone => call run default None []
  | TSome v => Done v [EDropF default]
  end.

(** option.rs 99-101: [map_or_else] with a closure that captures nothing, and
    leaves no trace. *)
Definition and_then (run : N → option N → option topt) (t : topt) (f : N) : res topt :=
  match t with
  | TNone => Done TNone [EDropF f]
  | TSome v => call run f (Some v) []
  end.

(** option.rs 104-106: what is left, and what is returned. *)
Definition take_ (t : topt) : topt * topt := (TNone, t).

(** Glue: the destructor of the enum. *)
Definition drop_topt (t : topt) : list event :=
  match t with TNone => [] | TSome v => [EDrop v] end.

(** ** Derives (option.rs 19): as [derive] writes them, by the discriminant
    (an [u8], for the [repr]) and then by the payloads *)
Definition discr (t : topt) : N := match t with TNone => 0 | TSome _ => 1 end.

Definition teq (eqt : N → N → bool) (a b : topt) : bool :=
  (discr a =? discr b)%N &&
  match a, b with TSome x, TSome y => eqt x y | _, _ => true end.
Definition tpartial_cmp (pcmpt : N → N → option comparison) (a b : topt) : option comparison :=
  match a, b with TSome x, TSome y => pcmpt x y | _, _ => Some (discr a ?= discr b)%N end.
Definition tcmp (cmpt : N → N → comparison) (a b : topt) : comparison :=
  match (discr a ?= discr b)%N with
  | Eq => match a, b with TSome x, TSome y => cmpt x y | _, _ => Eq end
  | c => c
  end.

(** What a hasher is told: bytes, words, and what payloads tell it. *)
Inductive hcall := HU8 (n : N) | HIsize (n : N) | HElem (n : N).
Definition thash (hasht : N → list hcall) (t : topt) : list hcall :=
  HU8 (discr t) :: match t with TNone => [] | TSome v => hasht v end.

(** [Clone::clone] of the payload answers or panics. *)
Definition tclone (clonet : N → option N) (t : topt) : res topt :=
  match t with
  | TNone => Done TNone []
  | TSome v => match clonet v with Some w => Done (TSome w) [EIn w] | None => Unw [] end
  end.

(** ** Programs *)

(** What can be done with variables that hold options. *)
Inductive cmd :=
| Let (x : nat) (v : N)             (* [x = v.into()] *)
| LetOpt (x : nat) (o : option N)   (* [x = o.into()] *)
| Take (x y : nat)                  (* [y = x.take()] *)
| Move (x y : nat)                  (* [y = x] *)
| AndThen (x : nat) (f : N) (y : nat)
| Unwrap (x : nat) (f : N)
| MapOr (x : nat) (d f : N)
| Into (x : nat)
| See (x : nat)                     (* [x.as_ref()] *)
| Put (x : nat) (v : N)            (* [if let Some(p) = x.as_mut() { *p = v }] *)
| DropVar (x : nat).

(** Variables: declared, and moved from ([None]) or not. *)
Notation store T := (list (option T)).

Section Run.
(** An implementation of options, and what closures do. *)
Context {T : Type} (fo : option N → T) (fv : N → T) (ir ar : T → option N)
  (am : T → option (N * (N → T)))
  (moe : (N → option N → option N) → T → N → N → res N)
  (uoe : (N → option N → option N) → T → N → res N)
  (at_ : (N → option N → option T) → T → N → res T)
  (tk : T → T * T) (dr : T → list event)
  (run : N → option N → option N) (runo : N → option N → option (option N)).

(** Assignment drops what the variable held. *)
Definition old (s : store T) (y : nat) : list event :=
  match s !! y with Some (Some t) => dr t | _ => [] end.
Definition born (o : option N) : list event :=
  match o with Some v => [EIn v] | None => [] end.

(** One statement; [None] when the borrow checker refuses it (a variable that
    was moved from or never declared). *)
Definition step (s : store T) (c : cmd) : option (res (store T)) :=
  match c with
  | Let x v =>
      if decide (x < length s) then Some (Done (<[x := Some (fv v)]> s) (EIn v :: old s x)) else None
  | LetOpt x o =>
      if decide (x < length s) then Some (Done (<[x := Some (fo o)]> s) (born o ++ old s x)) else None
  | Take x y =>
      match s !! x with
      | Some (Some t) =>
          if decide (y < length s) then
            let s1 := <[x := Some (tk t).1]> s in
            Some (Done (<[y := Some (tk t).2]> s1) (old s1 y))
          else None
      | _ => None
      end
  | Move x y =>
      match s !! x with
      | Some (Some t) =>
          if decide (y < length s) then
            let s1 := <[x := None]> s in
            Some (Done (<[y := Some t]> s1) (old s1 y))
          else None
      | _ => None
      end
  | AndThen x f y =>
      match s !! x with
      | Some (Some t) =>
          if decide (y < length s) then
            let s1 := <[x := None]> s in
            Some (match at_ (λ f a, o ← runo f a; Some (fo o)) t f with
                  | Done u tr => Done (<[y := Some u]> s1) (tr ++ (if ar t then born (ir u) else []) ++ old s1 y)
                  | Unw tr => Unw (tr ++ concat (imap (λ i _, old s1 i) s1))
                  end)
          else None
      | _ => None
      end
  | Unwrap x f =>
      match s !! x with
      | Some (Some t) =>
          let s1 := <[x := None]> s in
          Some (match uoe run t f with
                | Done v tr => Done s1 (tr ++ (if ar t then [] else [EIn v]) ++ [EOut v])
                | Unw tr => Unw (tr ++ concat (imap (λ i _, old s1 i) s1))
                end)
      | _ => None
      end
  | MapOr x d f =>
      match s !! x with
      | Some (Some t) =>
          let s1 := <[x := None]> s in
          Some (match moe run t d f with
                | Done v tr => Done s1 (tr ++ [EIn v; EOut v])
                | Unw tr => Unw (tr ++ concat (imap (λ i _, old s1 i) s1))
                end)
      | _ => None
      end
  | Into x =>
      match s !! x with
      | Some (Some t) =>
          Some (Done (<[x := None]> s) (match ir t with Some v => [EOut v] | None => [] end))
      | _ => None
      end
  | See x =>
      match s !! x with Some (Some t) => Some (Done s [ESee (ar t)]) | _ => None end
  | Put x v =>
      match s !! x with
      | Some (Some t) =>
          Some (match am t with
                | Some (w, k) => Done (<[x := Some (k v)]> s) [EIn v; EDrop w]
                | None => Done s [EIn v; EDrop v]
                end)
      | _ => None
      end
  | DropVar x =>
      match s !! x with
      | Some (Some t) => Some (Done (<[x := None]> s) (dr t))
      | _ => None
      end
  end.

(** A program, to its end or to where it unwinds; then all variables go. *)
Fixpoint exec (s : store T) (cs : list cmd) : option (list event) :=
  match cs with
  | [] => Some (concat (imap (λ i _, old s i) s))
  | c :: cs =>
      match step s c with
      | Some (Done s tr) => tr' ← exec s cs; Some (tr ++ tr')
      | Some (Unw tr) => Some tr
      | None => None
      end
  end.
End Run.

Definition exec_tagged (run : N → option N → option N) (runo : N → option N → option (option N)) :
  store topt → list cmd → option (list event) :=
  exec from_opt from_val into_rust as_ref as_mut map_or_else unwrap_or_else and_then take_ drop_topt run runo.
