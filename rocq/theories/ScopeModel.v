(** Model of the names in what [#[ffi_export]] generates for a function: what
    each of them refers to, given the names the user chose.

    Sources (all in /repo/src/proc_macro/ffi_export/fn_):
    - mod.rs 86-137 parameters of the shim, 139-146 its result, 154-191 its name
      and body, 193-345 the function for JavaScript, 347-352 where they go,
      354-411 the header
    - async_fn.rs 129-312 the function for JavaScript, 313-332 that for C

    Rust's rules, as far as they matter here: names of items are looked up by
    text, from the inside to the outside, in blocks, then in the module, then in
    the preludes; an item is in scope in the whole of its block.  Local variables
    and parameters are in scope in their function only (behind the boundary of a
    function a variable of that name is an error, E0434), and are told apart by
    their syntax context also.  [Span::mixed_site()] gives identifiers of the macro
    a context of their own; [quote!] gives them that of the invocation.

    A type is its constructor with the names that occur in it.  A value is a
    number, of a Rust type, of a C type, of a type of JavaScript values; what the
    conversions do to it is in [LayoutModel] and [NapiModel].  That the generated
    code is not accepted by rustc is [None].

    Left out: type parameters of functions; names in macros; lifetimes (they are in
    [RemapModel]); what [js_export] makes of the function for JavaScript; keywords
    written [r#x] as names of type aliases. *)

From Coq Require Import NArith List Bool String.
From stdpp Require Import base numbers list option strings pretty.

(** ** Names and scopes *)

Inductive context := CUser (k : nat) | CMixed.
Global Instance context_eq_dec : EqDecision context.
Proof. solve_decision. Defined.
Record ident := Ident { name : string; ctx : context }.
Global Instance ident_eq_dec : EqDecision ident.
Proof. solve_decision. Defined.
(** What [quote!] makes. *)
Definition call_site (s : string) : ident := Ident s (CUser 0).

Inductive ns := NType | NValue.
Global Instance ns_eq_dec : EqDecision ns.
Proof. solve_decision. Defined.

(** Items: the user's, by number (0 is the function with the attribute), and
    the generated ones. *)
Inductive def := DUser (k : nat) | DShim | DInner | DJs | DAliases | DAlias (i : nat) | DAssertSend.
Global Instance def_eq_dec : EqDecision def.
Proof. solve_decision. Defined.

Record rty := RTy { con : nat; args : list def }.
Global Instance rty_eq_dec : EqDecision rty.
Proof. solve_decision. Defined.
(** Types of values: Rust types, C types, types of JavaScript values, the
    context of a call from JavaScript. *)
Inductive vty := VRust (t : rty) | VC (c : nat) | VNapi (j : nat) | VCtx.
Global Instance vty_eq_dec : EqDecision vty.
Proof. solve_decision. Defined.
Definition value : Type := vty * N.

Inductive rib :=
| Locals (xs : list (ident * value))
| Items (xs : list (ns * string * def))
| Boundary.
Inductive res := RLocal (v : value) | RItem (d : def).

Fixpoint find_local (x : ident) (xs : list (ident * value)) : option value :=
  match xs with
  | [] => None
  | (y, v) :: xs => if decide (x = y) then Some v else find_local x xs
  end.
Fixpoint find_item (n : ns) (s : string) (xs : list (ns * string * def)) : option def :=
  match xs with
  | [] => None
  | (m, t, d) :: xs => if decide ((m, t) = (n, s)) then Some d else find_item n s xs
  end.
(** [past]: behind the boundary of a function. *)
Fixpoint resolve_from (past : bool) (rs : list rib) (n : ns) (x : ident) : option res :=
  match rs with
  | [] => None
  | Boundary :: rs => resolve_from true rs n x
  | Items xs :: rs =>
      match find_item n (name x) xs with
      | Some d => Some (RItem d)
      | None => resolve_from past rs n x
      end
  | Locals xs :: rs =>
      match n, find_local x xs with
      | NValue, Some v => if past then None else Some (RLocal v)
      | _, _ => resolve_from past rs n x
      end
  end.
Definition resolve : list rib → ns → ident → option res := resolve_from false.

(** ** What the user writes *)

(** An identifier: written [r#x]?, its name, the context it comes from. *)
Record uid := Uid { raw : bool; uname : string; from : nat }.
Definition of_uid (x : uid) : ident := Ident (uname x) (CUser (from x)).
(** Patterns: [x @ sub], where [sub] may be more than a binding; all others
    with what they bind. *)
Inductive pat := PIdent (x : uid) (sub : option (bool * list uid)) | POther (xs : list uid).
(** A type: its constructor, and the names in it. *)
Record ty := Ty { tcon : nat; tnames : list string }.

Record fn := Fn {
  fname : uid;
  params : list (pat * ty);
  ret : ty;
  (** the items in the block that is its body, imports among them *)
  body : list (ns * string * nat);
  (** the scopes around the function, inside its module; the module; preludes *)
  blocks : list rib;
  module : list (ns * string * nat);
  prelude : list (ns * string * nat) }.
Definition items (xs : list (ns * string * nat)) : rib := Items (map (λ x, (x.1, DUser x.2)) xs).
Definition outer (f : fn) : list rib := blocks f ++ [items (module f); items (prelude f)].

(** The rest of the program: the types of its functions (of parameters and
    results), what they do, layouts ([CLayout] and its [NapiValue]). *)
Record program := Program {
  sig : nat → option (list rty * rty);
  sem : nat → list N → N;
  clayout : rty → nat;
  napi : nat → nat }.

Definition resolve_ty (rs : list rib) (t : ty) : option rty :=
  ds ← mapM (λ s, match resolve rs NType (call_site s) with Some (RItem d) => Some d | _ => None end) (tnames t);
  Some (RTy (tcon t) ds).
(** [CLayoutOf<T>]: the aliases have none. *)
Definition is_user (d : def) : bool := match d with DUser _ => true | _ => false end.
Definition layout_of (P : program) (rs : list rib) (t : ty) : option nat :=
  t ← resolve_ty rs t; if forallb is_user (args t) then Some (clayout P t) else None.
(** A variable that has a C type, a JavaScript type. *)
Definition c_value (rs : list rib) (x : ident) : option (nat * N) :=
  match resolve rs NValue x with Some (RLocal (VC c, v)) => Some (c, v) | _ => None end.
Definition js_value (rs : list rib) (x : ident) : option (nat * N) :=
  match resolve rs NValue x with Some (RLocal (VNapi j, v)) => Some (j, v) | _ => None end.

(** ** mod.rs 86-137: the parameters of the shim *)

Definition ARG_PREFIX : string := "__arg_".
Definition kept (x : uid) : bool := raw x || negb (String.prefix ARG_PREFIX (uname x)).
Definition each_arg (i : nat) (p : pat) : ident :=
  match p with
  | PIdent x _ => if kept x then of_uid x else Ident (ARG_PREFIX +:+ pretty (N.of_nat i)) CMixed
  | POther _ => Ident (ARG_PREFIX +:+ pretty (N.of_nat i)) CMixed
  end.
(** All that a parameter of the shim binds ([x @ sub] stays one). *)
Definition shim_binds (i : nat) (p : pat) : option (list ident) :=
  match p with
  | PIdent x (Some (simple, xs)) =>
      if kept x then if simple then Some (each_arg i p :: map of_uid xs) else None
      else Some [each_arg i p]
  | _ => Some [each_arg i p]
  end.
Definition each_args (f : fn) : list ident := imap (λ i p, each_arg i p.1) (params f).
(** What the parameters of the function itself bind. *)
Definition binds (p : pat) : list ident :=
  match p with
  | PIdent x None => [of_uid x]
  | PIdent x (Some (_, xs)) => of_uid x :: map of_uid xs
  | POther xs => map of_uid xs
  end.

Definition bind_all {A} (xs : list ident) (v : A) : list (ident * A) := map (λ x, (x, v)) xs.

(** ** mod.rs 139-191: the shim *)

(** mod.rs 347-352: a block at the start of the body. *)
Definition in_body (f : fn) : list rib :=
  items (body f) ::
  Locals (flat_map (λ p, bind_all (binds p.1) (VCtx, 0%N)) (params f)) :: Boundary :: outer f.
Definition shim_name (f : fn) : string := uname (fname f) +:+ "__ffi_export__".
Definition in_block (f : fn) : list rib := Items [(NValue, shim_name f, DShim)] :: in_body f.

(** A call of a user's function by [from_raw_unchecked] of variables, and
    [into_raw] of the result: the types are inferred from those of the function. *)
Definition call_raw (P : program) (rs : list rib) (d : def) (xs : list ident) : option (nat * N) :=
  match d with
  | DUser k =>
      '(ts, r) ← sig P k;
      vs ← mapM (c_value rs) xs;
      if decide (map fst vs = map (clayout P) ts) then Some (clayout P r, sem P k (map snd vs)) else None
  | _ => None
  end.
(** The C types of the shim, and what it does. *)
Definition shim (P : program) (f : fn) (vs : list N) : option (list nat * nat * N) :=
  let rs := Boundary :: in_block f in
  cs ← mapM (layout_of P rs) (map snd (params f));
  r ← layout_of P rs (ret f);
  bs ← mapM (λ x, x) (imap (λ i p, shim_binds i p.1) (params f));
  if decide (NoDup (concat bs) ∧ length vs = length cs) then
    let locals := concat (zip_with bind_all bs (zip_with (λ c v, (VC c, v)) cs vs)) in
    let rs := Locals [(Ident "abort_on_unwind_guard" CMixed, (VCtx, 0%N))] :: Locals locals :: rs in
    match resolve rs NValue (of_uid (fname f)) with
    | Some (RItem d) =>
        '(c, v) ← call_raw P rs d (each_args f);
        if decide (c = r) then Some (cs, r, v) else None
    | _ => None
    end
  else None.

(** mod.rs 354-411: the types in the header. *)
Definition header (P : program) (f : fn) : option (list nat * nat) :=
  let rs := Items [(NValue, "gen_def"%string, DInner)] :: outer f in
  cs ← mapM (layout_of P (Boundary :: rs)) (map snd (params f));
  r ← layout_of P (Boundary :: rs) (ret f);
  Some (cs, r).

(** ** mod.rs 193-345: the function for JavaScript *)

(** The module of aliases sees its module only. *)
Definition alias_items (xs : list ident) : list (ns * string * def) := imap (λ i x, (NType, name x, DAlias i)) xs.
Definition in_aliases (f : fn) (xs : list ident) : list rib :=
  [Items (alias_items xs); items (module f); items (prelude f)].
(** The type of JavaScript values of each parameter. *)
Definition aliases (P : program) (f : fn) (xs : list ident) : option (list nat) :=
  if decide (NoDup (map name xs)) then
    cs ← mapM (layout_of P (in_aliases f xs)) (map snd (params f));
    Some (map (napi P) cs)
  else None.

Definition js_block (rs : list rib) : list rib :=
  Boundary :: Items [(NType, "__ty_aliases"%string, DAliases); (NValue, "__js"%string, DJs)] :: Boundary :: rs.

(** [let x: CLayoutOf<T> = from_napi_value(env, x)?], one after the other. *)
Fixpoint converted (P : program) (rs : list rib) (xs : list (ident * ty)) : option (list rib) :=
  match xs with
  | [] => Some rs
  | (x, t) :: xs =>
      c ← layout_of P rs t;
      '(j, v) ← js_value rs x;
      if decide (j = napi P c) then converted P (Locals [(x, (VC c, v))] :: rs) xs else None
  end.

(** The call of the shim, in which names are looked up again. *)
Definition call_shim (P : program) (f : fn) (rs : list rib) (xs : list ident) : option N :=
  match resolve rs NValue (Ident (shim_name f) CMixed) with
  | Some (RItem DShim) =>
      vs ← mapM (c_value rs) xs;
      '(cs, _, v) ← shim P f (map snd vs);
      if decide (map fst vs = cs) then Some v else None
  | _ => None
  end.
(** [async_worker]: the variables are wrapped one after the other, in a block
    with a function of its own, and unwrapped in a closure. *)
Fixpoint wrapped (rs : list rib) (xs : list ident) : option (list rib) :=
  match xs with
  | [] => Some rs
  | x :: xs => '(c, v) ← c_value rs x; wrapped (Locals [(x, (VC c, v))] :: rs) xs
  end.
Definition js (P : program) (f : fn) (worker : bool) (vs : list N) : option N :=
  let xs := each_args f in
  js ← aliases P f xs;
  if decide (NoDup xs ∧ length vs = length js) then
    let rs := Locals [(Ident "__ctx__" CMixed, (VCtx, 0%N))] ::
              Locals (zip xs (zip_with (λ j v, (VNapi j, v)) js vs)) :: js_block (in_block f) in
    rs ← converted P rs (zip xs (map snd (params f)));
    if worker then
      rs ← wrapped (Items [(NValue, "__assert_send"%string, DAssertSend)] :: rs) xs;
      rs ← wrapped rs xs;
      call_shim P f rs xs
    else call_shim P f rs xs
  else None.

(** ** async_fn.rs *)

(** 165-181: parameters are identifiers. *)
Definition async_args (f : fn) : option (list ident) :=
  mapM (λ p, match p.1 with PIdent x _ => Some (of_uid x) | POther _ => None end) (params f).
(** 282-296: the function inside, with the body the user wrote: where its
    statements look names up, and the types of its parameters.  (The parameters of
    [__js], which are around it, have the names of its own.) *)
Definition async_block (f : fn) : list rib :=
  Items [(NValue, uname (fname f), DInner)] :: js_block (outer f).
Definition async_body (f : fn) (xs : list ident) (vs : list value) : list rib :=
  Locals ((call_site "__env__", (VCtx, 0%N)) :: zip xs vs) :: Boundary :: async_block f.
(** 298-309: each argument in a block of its own. *)
Definition async_arg (P : program) (rs : list rib) (x : ident) (t : ty) (want : rty) : option value :=
  c ← layout_of P rs t;
  '(j, v) ← js_value rs x;
  if decide (j = napi P c ∧ c = clayout P want) then Some (VRust want, v) else None.
Definition async_js (P : program) (f : fn) (vs : list N) : option (list value) :=
  xs ← async_args f;
  js ← aliases P f xs;
  if decide (NoDup (call_site "__env__" :: xs) ∧ length vs = length js) then
    let params' := Locals (zip xs (zip_with (λ j v, (VNapi j, v)) js vs)) in
    let rs := Locals [(call_site "__ctx__", (VCtx, 0%N))] ::
              Items [(NValue, uname (fname f), DInner)] :: params' :: js_block (outer f) in
    ts ← mapM (resolve_ty (Boundary :: async_block f)) (map snd (params f));
    match resolve rs NValue (of_uid (fname f)), resolve rs NValue (call_site "__ctx__") with
    | Some (RItem DInner), Some (RLocal (VCtx, _)) =>
        mapM (λ x, async_arg P rs x.1.1 x.1.2 x.2) (zip (zip xs (map snd (params f))) ts)
    | _, _ => None
    end
  else None.
