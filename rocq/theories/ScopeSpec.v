(** What the code generated for an exported function should refer to. *)

From Coq Require Import NArith List Bool String.
From stdpp Require Import base numbers list option strings pretty.
From Verif Require Import ScopeModel.

(** The scopes around the function have items of the user only. *)
Definition user_rib (r : rib) : Prop :=
  match r with Items xs => Forall (λ x, is_user x.2 = true) xs | _ => True end.

(** rustc accepts the function as it is: its name means it, its types are those
    of the program, its parameters bind different identifiers (E0415), its types are
    [ReprC]. *)
Record accepted (P : program) (f : fn) : Prop := {
  a_scope : Forall user_rib (blocks f);
  a_name : resolve (Boundary :: outer f) NValue (of_uid (fname f)) = Some (RItem (DUser 0));
  a_sig : ∃ ts r, sig P 0 = Some (ts, r) ∧ mapM (resolve_ty (Boundary :: outer f)) (map snd (params f)) = Some ts ∧
            resolve_ty (Boundary :: outer f) (ret f) = Some r;
  a_params : NoDup (flat_map (λ p, binds p.1) (params f)) }.

(** The C types of a function with these Rust types. *)
Definition c_types (P : program) (f : fn) : option (list nat * nat) :=
  match sig P 0 with Some (ts, r) => Some (map (clayout P) ts, clayout P r) | None => None end.

(** The body has an item of that name (or imports one). *)
Definition declares (f : fn) (n : ns) (s : string) : Prop := ∃ k, (n, s, k) ∈ body f.
(** A type of the signature has the name in it. *)
Definition mentions (f : fn) (s : string) : Prop :=
  s ∈ tnames (ret f) ∨ ∃ p, p ∈ params f ∧ s ∈ tnames p.2.
(** A parameter binds the identifier. *)
Definition binds_name (f : fn) (x : ident) : Prop := ∃ p, p ∈ params f ∧ x ∈ binds p.1.
(** No parameter is [x @ (..)]. *)
Definition simple_params (f : fn) : Prop := ∀ p x b xs, p ∈ params f → p.1 = PIdent x (Some (b, xs)) → b = true.
