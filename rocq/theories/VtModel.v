(** Model of the calls of methods of dynamic traits: the code that
    [#[derive_ReprC(dyn)]] writes, and what it does when run.

    Sources (all in /repo/src/proc_macro/derives/dyn_trait):
    - vtable_entry.rs 33-82 virtual_forwarding, 101-232 type_and_value,
      234-426 vtable_entries
    - _mod.rs 77-178 generics and the vtable, 180-236 receivers, 261-322
      vtable values, 386-407 dyn_clone, 409-417 impl of the trait, 443-456 CType
    - /repo/src/dyn_traits/_mod.rs 150-187 VirtualPtr, __ptr, __vtable

    What the macro writes is data: fields, functions with their parameters and
    bodies.  An interpreter runs it, with variables looked up by name and every
    use of a value checked against the type it is used at; [None] where rustc
    would complain.  Types are names: the lifetimes in them are C73's.  The
    types of the vtable's fields and of its functions are the layouts of these
    names.  Left out: attributes of methods, default bodies, bounds of generics
    (taken to hold), the reference counts (C35), panics (C60). *)
From Coq Require Import Bool.
From stdpp Require Import base numbers list strings pretty.
From Verif Require DynModel.
Import DynModel (rty, RSelf, RRef, RWrap, kind, KRef, receiver, r_kind, r_pinned).
Local Open Scope string_scope.

(** ** Traits *)

Record method := Method {
  m_name : string;
  m_const : bool; m_async : bool; m_variadic : bool;
  m_recv : option rty;          (** the type of [self], if that is the first parameter *)
  m_args : list string;         (** the types of the others *)
  m_ret : option string
}.
Inductive item := IMethod (m : method) | IType | IOther.

(** Generic parameters in the order they are written. *)
Inductive gparam := GLt (x : string) | GTy (x : string) | GConst (x : string).
(** Supertraits: [Send] and the like; a lifetime; another trait, implemented by
    the [VirtualPtr]s or not. *)
Inductive super := SAuto | SLifetime | STrait (implemented : bool).

Record trait := Trait {
  t_name : string; t_unsafe : bool; t_generics : list gparam; t_supers : list super;
  t_items : list item; t_clone : bool
}.

(** ** Types and code *)

(** [T], [CLayoutOf<T>], [NonNull<Erased>], [NonNullRef|Mut<Erased>],
    [[Pin<]& [mut] impl_Trait[>]]. *)
Inductive xty :=
| XRust (t : string) | XC (t : string)
| XNonNull | XErased (mut : bool) | XSelf (mut pinned : bool).
Inductive val := VAddr (a : nat) | VBits (b : list N).

Inductive atom := Var (x : string) | SelfPtr.           (** [x], [self.__ptr()] *)
Inductive expr := Transmute (a : atom) | FromRaw (a : atom).

(** [fn name(params) -> ret { transmute(QSelf::method(args)) }] *)
Record shim := Shim {
  s_params : list (string * xty); s_ret : xty; s_method : string; s_args : list expr
}.
(** [fn name(self, params) -> ret { transmute((self.__vtable().field)(args)) }] *)
Record forward := Forward {
  w_name : string; w_params : list (string * xty); w_ret : xty; w_field : string; w_args : list expr
}.

(** The fields of the vtable, and their values. *)
Inductive fty := FRelease | FRetain | FFn (params : list xty) (ret : xty) | FPhantom.
Inductive fval := VRelease (c : DynModel.coercible) | VRetain (c : DynModel.coercible) | VShim (s : shim) | VPhantom.

(** ** Entries *)

Record entry := Entry {
  e_name : string; e_recv : receiver; e_mut : bool;
  e_arg_names : list string; e_arg_tys : list string; e_ret : string;
  e_sig : list string           (** [src]: the types in the signature *)
}.

(** vtable_entry.rs 355-366: [__arg1], [__arg2]... *)
Definition arg_names (n : nat) : list string := (λ i, "__arg" +:+ pretty i) <$> seq 1 n.

(** vtable_entry.rs 290-409. *)
Definition entry_of (m : method) : option entry :=
  if m_const m || m_async m || m_variadic m then None
  else match m_recv m with
  | None => None
  | Some t =>
      match DynModel.entry t with
      | Some r =>
          match r_kind r with
          | KRef mut =>
              Some (Entry (m_name m) r mut (arg_names (length (m_args m))) (m_args m) (default "()" (m_ret m)) (m_args m))
          | _ => None
          end
      | None => None
      end
  end.
(** vtable_entry.rs 252-426; [None]: an error. *)
Fixpoint entries_of (is : list item) : option (list entry) :=
  match is with
  | [] => Some []
  | IMethod m :: is =>
      match entry_of m, entries_of is with Some e, Some es => Some (e :: es) | _, _ => None end
  | _ :: _ => None
  end.

(** ** The vtable *)

(** vtable_entry.rs 124-137: the type of the field. *)
Definition entry_ty (e : entry) : fty := FFn (XErased (e_mut e) :: (XC <$> e_arg_tys e)) (XC (e_ret e)).
(** vtable_entry.rs 196-214. *)
Definition entry_shim (e : entry) : shim :=
  Shim (("__this", XErased (e_mut e)) :: zip (e_arg_names e) (XC <$> e_arg_tys e)) (XC (e_ret e))
    (e_name e) (Transmute (Var "__this") :: ((λ x, FromRaw (Var x)) <$> e_arg_names e)).
(** vtable_entry.rs 51-81. *)
Definition entry_forward (e : entry) : forward :=
  Forward (e_name e) (zip (e_arg_names e) (XRust <$> e_sig e)) (XRust (e_ret e))
    (e_name e) (Transmute SelfPtr :: ((λ x, Transmute (Var x)) <$> e_arg_names e)).

(** _mod.rs 140-178. *)
Definition vtable_def (clone : bool) (es : list entry) : list (string * fty) :=
  [("release_vptr", FRelease)] ++ (if clone then [("retain_vptr", FRetain)] else []) ++
  ((λ e, (e_name e, entry_ty e)) <$> es) ++ [("_invariant", FPhantom)].
(** _mod.rs 309-322; coercions.rs 152-228: no [retain_vptr] for [&mut]. *)
Definition vtable_expr (clone : bool) (es : list entry) (c : DynModel.coercible) : list (string * fval) :=
  [("release_vptr", VRelease c)] ++
  (if clone then match c with DynModel.CRef true => [] | _ => [("retain_vptr", VRetain c)] end else []) ++
  ((λ e, (e_name e, VShim (entry_shim e))) <$> es) ++ [("_invariant", VPhantom)].

(** ** Generics *)

Definition is_lt (g : gparam) : bool := match g with GLt _ => true | _ => false end.
Definition is_ty (g : gparam) : bool := match g with GTy _ => true | _ => false end.
Definition is_const (g : gparam) : bool := match g with GConst _ => true | _ => false end.
Definition gp_name (g : gparam) : string := match g with GLt x | GTy x | GConst x => x end.
Definition count (f : gparam → bool) (gs : list gparam) : nat := length (List.filter f gs).

(** _mod.rs 104-108. *)
Definition generics_and_lt (t : trait) : list gparam := GLt "__usability" :: t_generics t.
(** _mod.rs 274-282. *)
Definition all_generics (t : trait) : list gparam :=
  let gs := generics_and_lt t in
  let n := count is_lt gs + count is_ty gs in
  take n gs ++ GTy ("__impl_" +:+ t_name t) :: drop n gs.
(** vtable_entry.rs 163-195: the parameters of the function of an entry (the
    lifetimes are printed first), and those in [name::<..>]. *)
Definition intro_generics (gs : list gparam) : list gparam := List.filter is_lt gs ++ List.filter (negb ∘ is_lt) gs.
Definition fwd_generics (gs : list gparam) : list gparam := List.filter is_ty gs ++ List.filter is_const gs.
(** What rustc makes of [name::<..>] (the lifetimes are inferred): kinds must
    agree; each parameter is given an argument. *)
Definition same_kind (g h : gparam) : bool :=
  match g, h with GLt _, GLt _ | GTy _, GTy _ | GConst _, GConst _ => true | _, _ => false end.
Fixpoint instantiate (params args : list gparam) : option (list (string * string)) :=
  match params, args with
  | [], [] => Some []
  | p :: params, a :: args =>
      if same_kind p a then
        match instantiate params args with Some i => Some ((gp_name p, gp_name a) :: i) | None => None end
      else None
  | _, _ => None
  end.
(** Does it name the function of the very type the vtable is for? *)
Definition turbofish_ok (gs : list gparam) : bool :=
  match instantiate (List.filter (negb ∘ is_lt) (intro_generics gs)) (fwd_generics gs) with
  | Some i => forallb (λ p, String.eqb p.1 p.2) i
  | None => false
  end.

(** ** What rustc accepts *)

Fixpoint distinct (xs : list string) : bool :=
  match xs with [] => true | x :: xs => negb (existsb (String.eqb x) xs) && distinct xs end.
(** The fields of a literal are those of the type. *)
Definition covers (def lit : list string) : bool :=
  forallb (λ x, existsb (String.eqb x) lit) def && forallb (λ x, existsb (String.eqb x) def) lit.

(** [None]: the macro fails. *)
Definition expand (t : trait) : option (list entry) :=
  match entries_of (t_items t) with
  | Some es =>
      let rs := e_recv <$> es in
      (** _mod.rs 195-236. *)
      if DynModel.has_pin rs && DynModel.has_non_pin_non_ref rs then None else Some es
  | None => None
  end.
Definition super_ok (s : super) : bool := match s with SAuto => true | SLifetime => false | STrait b => b end.
(** All the constructors, _mod.rs 241-266 and 323-331. *)
Definition literals_ok (t : trait) (es : list entry) : bool :=
  let rs := e_recv <$> es in
  forallb (λ f, forallb (λ c,
      implb (DynModel.is_eligible c (t_clone t) rs f)
        (covers (vtable_def (t_clone t) es).*1 (vtable_expr (t_clone t) es c).*1))
    DynModel.coercibles) (DynModel.flavours rs).
Definition compiles (t : trait) : bool :=
  match expand t with
  | Some es =>
      distinct (vtable_def (t_clone t) es).*1
      && literals_ok t es
      && forallb (λ e, distinct (s_params (entry_shim e)).*1 && turbofish_ok (all_generics t)) es
      (** _mod.rs 386-391: the impl of [DynClone] introduces one lifetime only. *)
      && implb (t_clone t) (Nat.eqb (length (t_generics t)) 0)
      (** _mod.rs 409-417: an [impl] without [unsafe], for the [VirtualPtr] of
          any ['__usability]. *)
      && negb (t_unsafe t) && forallb super_ok (t_supers t)
  | None => false
  end.

(** ** Running it *)

Definition is_ptr (a : xty) : bool := match a with XNonNull | XErased _ | XSelf _ _ => true | _ => false end.
(** [transmute]: between types of the same bits. *)
Definition transmutable (a b : xty) : bool :=
  match a, b with
  | XRust a, XC b | XC a, XRust b | XRust a, XRust b | XC a, XC b => String.eqb a b
  | _, _ => is_ptr a && is_ptr b
  end.

Definition env : Type := list (string * (xty * val)).
Fixpoint get {A} (x : string) (xs : list (string * A)) : option A :=
  match xs with [] => None | (y, a) :: xs => if String.eqb x y then Some a else get x xs end.

(** [p]: what [self.__ptr()] gives, in a method of a [VirtualPtr]. *)
Definition eval_atom (p : option nat) (ρ : env) (a : atom) : option (xty * val) :=
  match a with
  | Var x => get x ρ
  | SelfPtr => (λ a, (XNonNull, VAddr a)) <$> p
  end.
Definition eval (p : option nat) (ρ : env) (want : xty) (e : expr) : option val :=
  match e with
  | Transmute a =>
      match eval_atom p ρ a with
      | Some (t, v) => if transmutable t want then Some v else None
      | None => None
      end
  | FromRaw a =>
      match eval_atom p ρ a, want with
      | Some (XC t, v), XRust t' => if String.eqb t t' then Some v else None
      | _, _ => None
      end
  end.
Fixpoint eval_list (p : option nat) (ρ : env) (wants : list xty) (es : list expr) : option (list val) :=
  match wants, es with
  | [], [] => Some []
  | w :: wants, e :: es =>
      match eval p ρ w e, eval_list p ρ wants es with Some v, Some vs => Some (v :: vs) | _, _ => None end
  | _, _ => None
  end.
(** Parameters take their values in order. *)
Fixpoint bind (ps : list (string * xty)) (vs : list val) : option env :=
  match ps, vs with
  | [], [] => Some []
  | (x, t) :: ps, v :: vs => match bind ps vs with Some ρ => Some ((x, (t, v)) :: ρ) | None => None end
  | _, _ => None
  end.

(** What the program of the user sees: a method called. *)
Record called := Called { k_method : string; k_self : val; k_mut : bool; k_args : list val }.
(** The implementation: what the methods of a value return. *)
Definition implementation : Type := called → val.

(** The signature of a method of the trait, as implemented. *)
Fixpoint find_entry (x : string) (es : list entry) : option entry :=
  match es with [] => None | e :: es => if String.eqb x (e_name e) then Some e else find_entry x es end.
Definition run_shim (es : list entry) (I : implementation) (s : shim) (vs : list val) : option (called * val) :=
  match bind (s_params s) vs, find_entry (s_method s) es with
  | Some ρ, Some e =>
      match eval_list None ρ (XSelf (e_mut e) (r_pinned (e_recv e)) :: (XRust <$> e_sig e)) (s_args s) with
      | Some (self :: args) =>
          let k := Called (e_name e) self (e_mut e) args in
          if transmutable (XRust (e_ret e)) (s_ret s) then Some (k, I k) else None
      | _ => None
      end
  | _, _ => None
  end.

(** A [VirtualPtr]: the address, and the vtable. *)
Record vptr := VPtr { v_ptr : nat; v_vtable : list (string * fval) }.
Definition make (t : trait) (es : list entry) (c : DynModel.coercible) (a : nat) : vptr :=
  VPtr a (vtable_expr (t_clone t) es c).
(** _mod.rs 386-407: [a'] is what [retain_vptr] returns; [..*vtable] takes every
    field. *)
Definition dyn_clone (v : vptr) (a' : nat) : vptr := VPtr a' (v_vtable v).

(** [v.x(args)] in Rust, with the method of the trait implemented for [VirtualPtr]. *)
Definition rust_call (t : trait) (es : list entry) (I : implementation) (v : vptr) (x : string) (args : list val)
    : option (called * val) :=
  match find_entry x es with
  | Some e =>
      let w := entry_forward e in
      match bind (w_params w) args, get (w_field w) (vtable_def (t_clone t) es), get (w_field w) (v_vtable v) with
      | Some ρ, Some (FFn ps r), Some (VShim s) =>
          if transmutable r (w_ret w) then
            match eval_list (Some (v_ptr v)) ρ ps (w_args w) with
            | Some vs => run_shim es I s vs
            | None => None
            end
          else None
      | _, _, _ => None
      end
  | None => None
  end.

(** The struct that C sees: the fields but the one without size, in order. *)
Definition c_fields (t : trait) (es : list entry) : list (string * fty) :=
  List.filter (λ f, match f.2 with FPhantom => false | _ => true end) (vtable_def (t_clone t) es).
(** C calls field [k] of the vtable with the pointer and the arguments. *)
Definition c_call (t : trait) (es : list entry) (I : implementation) (v : vptr) (k : nat) (args : list val)
    : option (called * val) :=
  match c_fields t es !! k with
  | Some (x, FFn _ _) =>
      match get x (v_vtable v) with
      | Some (VShim s) => run_shim es I s (VAddr (v_ptr v) :: args)
      | _ => None
      end
  | _ => None
  end.
