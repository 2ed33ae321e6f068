(** Rust's own [Option], as documented, and what it means that nothing is
    leaked or dropped twice. *)
From Coq Require Import NArith List Bool.
From stdpp Require Import base numbers list list_numbers.
From Verif Require Import OptModel.
Import stdpp.list.

(** [Option::map_or_else], [unwrap_or_else], [and_then], [take], [as_mut]. *)
Definition std_map_or_else {A} (run : N → option N → option A) (o : option N) (d f : N) : res A :=
  let '(called, other) := match o with Some _ => (f, d) | None => (d, f) end in
  match run called o with
  | Some a => Done a [ECall called o; EDropF other]
  | None => Unw [ECall called o; EDropF other]
  end.
Definition std_unwrap_or_else (run : N → option N → option N) (o : option N) (d : N) : res N :=
  match o with
  | Some v => Done v [EDropF d]
  | None => match run d None with Some v => Done v [ECall d None] | None => Unw [ECall d None] end
  end.
Definition std_and_then (run : N → option N → option (option N)) (o : option N) (f : N) : res (option N) :=
  match o with
  | None => Done None [EDropF f]
  | Some v => match run f o with Some u => Done u [ECall f o] | None => Unw [ECall f o] end
  end.
Definition std_as_mut (o : option N) : option (N * (N → option N)) :=
  (λ v, (v, Some)) <$> o.
Definition std_drop (o : option N) : list event := match o with Some v => [EDrop v] | None => [] end.

Definition exec_std (run : N → option N → option N) (runo : N → option N → option (option N)) :
  store (option N) → list cmd → option (list event) :=
  exec (λ o, o) Some (λ o, o) (λ o, o) std_as_mut std_map_or_else std_unwrap_or_else std_and_then
       (λ o, (None, o)) std_drop run runo.

(** The order of [Option]: nothing before something. *)
Definition std_lt (lt : N → N → Prop) (a b : option N) : Prop :=
  match a, b with
  | None, Some _ => True
  | Some x, Some y => lt x y
  | _, None => False
  end.

(** How often [v] comes into being, and how often it ends: dropped, moved into
    a closure, or handed to the caller. *)
Definition count (p : event → bool) (tr : list event) : nat :=
  sum_list_with (λ e, if p e then 1 else 0) tr.
Definition is_in (v : N) (e : event) : bool :=
  match e with EIn w => (v =? w)%N | _ => false end.
Definition is_end (v : N) (e : event) : bool :=
  match e with EDrop w | EOut w | ECall _ (Some w) => (v =? w)%N | _ => false end.
(** What is in the variables to begin with. *)
Definition held (v : N) (s : store topt) : nat :=
  sum_list_with (λ o, match o with Some (TSome w) => if (v =? w)%N then 1 else 0 | _ => 0 end) s.
(** Closures: called or dropped, and given to the statements. *)
Definition is_use (f : N) (e : event) : bool :=
  match e with EDropF g | ECall g _ => (f =? g)%N | _ => false end.
Definition given (f : N) (c : cmd) : nat :=
  match c with
  | AndThen _ g _ | Unwrap _ g => if (f =? g)%N then 1 else 0
  | MapOr _ d g => (if (f =? d)%N then 1 else 0) + (if (f =? g)%N then 1 else 0)
  | _ => 0
  end.

(** [derive(Hash)] of the standard [Option], whose discriminant is an
    [isize]. *)
Definition std_hash (hasht : N → list hcall) (o : option N) : list hcall :=
  match o with None => [HIsize 0] | Some v => HIsize 1 :: hasht v end.
