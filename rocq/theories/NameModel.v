(** Model of the names derived from Rust type names for opaque types.

    Sources (all in /repo/src):
    - _lib.rs 605-669 append_unqualified_name
    - layout/impls.rs 1038-1046 short_name of OpaqueLayout
    - proc_macro/derives/repr_c/struct_.rs 472-492 short_name of repr(opaque) types

    A string is a list of code points.  [alnum] and [ws] are Rust's
    [char::is_alphanumeric] and [char::is_whitespace] (tables of Unicode),
    arbitrary functions here. *)

From Coq Require Import NArith List Bool Lia String Ascii.
From stdpp Require Import base numbers list strings.
Local Open Scope N_scope.

(** A string literal. *)
Fixpoint chars (s : string) : list N :=
  match s with EmptyString => [] | String c s => N_of_ascii c :: chars s end.

(** ** Functions of [str] *)

(** [s.split(c)]: at least one piece. *)
Fixpoint split (c : N) (s : list N) : list (list N) :=
  match s with
  | [] => [[]]
  | x :: s =>
      if x =? c then [] :: split c s
      else match split c s with [] => [[x]] | p :: ps => (x :: p) :: ps end
  end.
(** [s.split_once(c)]. *)
Fixpoint split_once (c : N) (s : list N) : option (list N * list N) :=
  match s with
  | [] => None
  | x :: s =>
      if x =? c then Some ([], s)
      else match split_once c s with Some (l, r) => Some (x :: l, r) | None => None end
  end.
(** [s.rsplit_once(c)]. *)
Fixpoint rsplit_once (c : N) (s : list N) : option (list N * list N) :=
  match s with
  | [] => None
  | x :: s =>
      match rsplit_once c s with
      | Some (l, r) => Some (x :: l, r)
      | None => if x =? c then Some ([], s) else None
      end
  end.
(** [s.strip_prefix(c)], [s.strip_suffix(c)]. *)
Definition strip_prefix (c : N) (s : list N) : option (list N) :=
  match s with x :: s => if x =? c then Some s else None | [] => None end.
Fixpoint strip_suffix (c : N) (s : list N) : option (list N) :=
  match s with
  | [] => None
  | [x] => if x =? c then Some [] else None
  | x :: s => match strip_suffix c s with Some s => Some (x :: s) | None => None end
  end.
(** [s.strip_prefix(p)] for a string [p]. *)
Fixpoint strip_prefix_str (p s : list N) : option (list N) :=
  match p, s with
  | [], _ => Some s
  | x :: p, y :: s => if x =? y then strip_prefix_str p s else None
  | _ :: _, [] => None
  end.
(** [s.trim()]. *)
Fixpoint trim_start (ws : N → bool) (s : list N) : list N :=
  match s with x :: s' => if ws x then trim_start ws s' else s | [] => [] end.
Definition trim (ws : N → bool) (s : list N) : list N := rev (trim_start ws (rev (trim_start ws s))).
(** [s.rsplitn(2, c).next()]: what follows the last [c]. *)
Definition after_last (c : N) (s : list N) : list N :=
  match rsplit_once c s with Some (_, r) => r | None => s end.

(** ** The function *)

Inductive outcome := Name (s : list N) | Panic | NoFuel.
Definition seq (r : outcome) (f : outcome) : outcome :=
  match r with
  | Name s => match f with Name t => Name (s ++ t) | o => o end
  | o => o
  end.
(** [for_each], in order. *)
Fixpoint each (f : list N → outcome) (l : list (list N)) : outcome :=
  match l with [] => Name [] | x :: l => seq (f x) (each f l) end.

Definition ident_char (alnum : N → bool) (c : N) : bool := alnum c || (c =? 95).

(** What is appended; [Panic] is an [unwrap] of [None].  The recursion is on
    strictly shorter strings; [fuel] bounds it. *)
Fixpoint append (alnum ws : N → bool) (fuel : nat) (ty_name : list N) : outcome :=
  match fuel with
  | O => NoFuel
  | S fuel =>
      let rec := append alnum ws fuel in
      let s := trim ws ty_name in
      match strip_prefix 40 s with
      | Some innards =>
          match strip_suffix 41 innards with
          | Some innards => each rec (split 44 innards)
          | None => Panic
          end
      | None =>
          match strip_prefix 91 s with
          | Some innards =>
              match strip_suffix 93 innards with
              | Some innards =>
                  match rsplit_once 59 innards with
                  | Some (elem, len) => seq (rec elem) (rec len)
                  | None => rec innards
                  end
              | None => Panic
              end
          | None =>
              let '(path, generics) :=
                match split_once 60 s with Some (l, r) => (l, Some r) | None => (s, None) end in
              let '(dyn, path) :=
                match strip_prefix_str (chars "dyn ") path with
                | Some p => (chars "dyn_", p)
                | None => ([], path)
                end in
              let name :=
                if forallb (λ c, ident_char alnum c || (c =? 58)) path
                then trim ws (after_last 58 path)
                else map (λ c, if ident_char alnum c then c else 95) path in
              seq (Name ([95] ++ dyn ++ name))
                match generics with
                | None => Name []
                | Some g =>
                    match strip_suffix 62 g with
                    | Some g => each rec (split 44 g)
                    | None => Panic
                    end
                end
          end
      end
  end.

Definition append_unqualified_name (alnum ws : N → bool) (ty_name : list N) : outcome :=
  append alnum ws (S (length ty_name)) ty_name.

(** struct_.rs 472-492: the name of a type followed by those of its type
    arguments. *)
Definition opaque_name (alnum ws : N → bool) (base : list N) (args : list (list N)) : outcome :=
  seq (Name base) (each (append_unqualified_name alnum ws) args).
(** impls.rs 1038-1046. *)
Definition opaque_layout_name (alnum ws : N → bool) (ty_name : list N) : outcome :=
  opaque_name alnum ws (chars "Opaque") [ty_name].
