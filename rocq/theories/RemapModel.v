(** Model of the lifetimes in the JavaScript glue of an exported function.

    - proc_macro/utils/_mod.rs 136-183 [RemapNonStaticLifetimesTo]
    - proc_macro/ffi_export/fn_/mod.rs 214-251 its use for functions, derives/dyn_trait/_mod.rs 443-456
      [CType], for the entries of a vtable
    - proc_macro/ffi_export/fn_/async_fn.rs 189-222 its use for async functions, 253-312 the glue

    Simplifications: types are paths with lifetimes and types as arguments, references, pointers (also
    slices and arrays), function pointers, [Fn(..) -> ..] with parentheses, trait objects with a bound,
    and tuples.  Type parameters, names of arguments and the conversions around the types are left
    out. *)
From stdpp Require Import base numbers list strings pretty.

(** ** Types *)

(** ['a], ['static], ['_]. *)
Inductive lt := LNamed (x : string) | LStatic | LElided.

Inductive ty :=
  | TPath (x : string) (ls : list lt) (ts : list ty)
  | TRef (l : option lt) (t : ty)
  | TPtr (t : ty)
  | TFn (bs : list lt) (ts : list ty) (r : ty)      (** [for<bs> fn(ts) -> r] *)
  | TSugar (x : string) (ts : list ty) (r : ty)     (** [Fn(ts) -> r] *)
  | TDyn (t : ty) (b : option lt)                   (** [dyn t + b] *)
  | TTuple (ts : list ty).

(** ** Remapping *)

(** [Lifetime { ident }]. *)
Definition lt_of (x : string) : lt := if bool_decide (x = "static") then LStatic else LNamed x.
(** 145-156. *)
Definition remap_lt (new : string) (l : lt) : lt :=
  match l with LStatic => LStatic | _ => lt_of new end.
(** 158-173 references, 175-183 [Fn(..)]: not visited.  The lifetimes bound by a nested [for<..>] are
    visited, and so is what is inside [fn(..)]. *)
Fixpoint remap (new : string) (t : ty) : ty :=
  match t with
  | TPath x ls ts => TPath x (remap_lt new <$> ls) (map (remap new) ts)
  | TRef l t =>
      TRef (Some (match l with Some l => remap_lt new l | None => lt_of new end)) (remap new t)
  | TPtr t => TPtr (remap new t)
  | TFn bs ts r => TFn (remap_lt new <$> bs) (map (remap new) ts) (remap new r)
  | TSugar x ts r => TSugar x ts r
  | TDyn t b => TDyn (remap new t) (remap_lt new <$> b)
  | TTuple ts => TTuple (map (remap new) ts)
  end.

(** ** The glue *)

(** The types in the aliases of a module of their own (fn_/mod.rs 236-255, async_fn.rs 266-292) and in
    the layouts of a vtable: at the level of a module, with no lifetime in scope. *)
Definition aliases (args : list ty) : list ty := remap "static" <$> args.

(** async_fn.rs 195-222: the lifetime parameters and the arguments of the function that makes the
    future. *)
Definition owned_lt (i : nat) : string := "use_stmts_before_ffi_await_to_compute_owned_captures_" +:+ pretty i.
Record glue := Glue { g_aliases : list ty; g_lts : list string; g_args : list ty }.
Definition async_glue (args : list ty) : glue :=
  Glue (aliases args) (owned_lt <$> seq 0 (length args)) (imap (λ i t, remap (owned_lt i) t) args).
