(** Model of [#[ffi_export]] on functions: names of parameters, prototypes,
    the shim that stops unwinding, exported symbols.

    Sources (all in /repo/src):
    - proc_macro/ffi_export/fn_/mod.rs 20-120 handle, 86-137 names of the
      parameters, 159-191 the shim, 193-345 the JS function, 347-410 the header
    - proc_macro/ffi_export/fn_/args.rs 45-102 the attribute
    - proc_macro/ffi_export/fn_/async_fn.rs 12-33, 46-125, 129-150, 314-332
    - headers/languages/c.rs 192-240, csharp.rs 186-238, python.rs 116-156
      emit_function
    - _lib.rs 443-458 [__PanicOnDrop__], [__abort_with_msg__!], 584-601
      [UnwindGuard]
    - layout/_mod.rs 848-900 from_raw_unchecked, into_raw
    - proc_macro/derives/dyn_trait/vtable_entry.rs 192-214 methods in a vtable,
      coercions.rs 85-225 its [release_vptr] and [retain_vptr]
    - closure/boxed.rs 108-134, closure/arc.rs 110-165, closure/borrowed.rs
      86-106 functions of a closure
    - js/closures/node_js.rs 548-577 and wasm.rs 148-166 [call_trampoline]

    Simplifications: texts are lists of tokens, without comments and C#
    attributes.  In the body of [rename = ".."], blanks are trimmed around the
    identifier but Rust comments are not. *)

From Coq Require Import NArith List Bool Lia String Ascii.
From stdpp Require Import base numbers list strings pretty.
From Verif Require Import HeaderModel.

(** ** Identifiers and patterns *)

(** An identifier: written [r#x]?, its name, its syntax context (two
    identifiers of one name but of different contexts are different). *)
Record ident := Ident { raw : bool; name : string; ctx : nat }.
(** [to_string], [stringify!]. *)
Definition ident_text (x : ident) : string := (if raw x then "r#" else "") +:+ name x.

(** [Pat]: identifiers ([ref mut x @ sub]), wildcards, and everything else with
    the patterns in it. *)
Inductive pat :=
| PIdent (by_ref mut : bool) (x : ident) (sub : option pat)
| PWild
| POther (ps : list pat).

(** ** Names of the parameters: mod.rs 86-137 *)

Definition ARG_PREFIX : string := "__arg_".
Definition arg_name (i : nat) (p : pat) : string :=
  match p with
  | PIdent _ _ x _ =>
      if negb (String.prefix ARG_PREFIX (ident_text x)) then ident_text x
      else ARG_PREFIX +:+ pretty (N.of_nat i)
  | _ => ARG_PREFIX +:+ pretty (N.of_nat i)
  end.
Fixpoint arg_names_from (i : nat) (ps : list pat) : list string :=
  match ps with [] => [] | p :: ps => arg_name i p :: arg_names_from (S i) ps end.
Definition arg_names (ps : list pat) : list string := arg_names_from 0 ps.

(** ** Prototypes *)

(** mod.rs 347-410: the item that is registered. *)
Definition export_item (n : string) (ps : list (pat * cty)) (r : cty) : item :=
  IFn n (zip (arg_names (map fst ps)) (map snd ps)) r.

(** csharp.rs 186-238. *)
Definition csharp_fn_text (n : string) (args : list (string * cty)) (r : cty) : list tok :=
  csharp_ty r ++ TkId n :: TkLp :: commas (map (λ a, csharp_ty a.2 ++ [TkId a.1]) args) ++ [TkRp].

(** [name_wrapping_var] in a Python header: layout/_mod.rs 78-85 for types that
    are not legacy ones, as C otherwise. *)
Definition py_var (t : cty) (v : list tok) : list tok :=
  match t with TAlias _ _ => py_ty t ++ v | _ => c_var t v end.
(** python.rs 116-156. *)
Definition py_params_text (args : list (string * cty)) : list tok :=
  match args with [] => [TkId "void"] | _ => commas (map (λ a, py_var a.2 [TkId a.1]) args) end.
Definition py_fn_text (n : string) (args : list (string * cty)) (r : cty) : list tok :=
  py_var r (TkId n :: TkLp :: py_params_text args ++ [TkRp]).

Definition proto_text (l : lang) (i : item) : list tok :=
  match i with
  | IFn n args r =>
      match l with
      | LC => fn_text n args r
      | LCSharp => csharp_fn_text n args r
      | LPython => py_fn_text n args r
      end
  | _ => []
  end.

(** ** The shim *)

(** Programs, as seen from the boundary. *)
Inductive prog :=
| PRet (v : N)
| PPanic
(** an effect *)
| PEmit (e : N) (k : prog)
(** C code calling an exported function, or a pointer to a function of a closure
    or of a virtual table *)
| PCSym (f : string) (args : list N) (k : N → prog)
(** Rust code calling it (the function that was exported and not its shim, or
    the pointer) *)
| PRust (f : string) (args : list N) (k : N → prog)
(** [catch_unwind] *)
| PCatch (p : prog) (k : option N → prog)
(** [p] with a local whose destructor is [d] *)
| PScope (p d : prog).

Inductive res := RRet (v : N) | RUnwind | RAbort | RUB.
(** [EvUnwound f]: [f] unwound into its C caller. *)
Inductive ev := EvOut (e : N) | EvUnwound (f : string).

(** The functions that C may call: exported ones, methods of virtual tables,
    [call] of closures, [free], [release] or [retain] of either, and [call] of JS
    closures. *)
Inductive fkind := KExport | KVirtual | KCall | KFree | KJs.
(** Its kind, validity of each parameter ([ReprC::is_valid]), and the body; that
    of a [KFree] drops (or clones) the object. *)
Record efn := EFn { kind : fkind; valid : list (N → bool); body : list N → prog }.

(** Dropping a local while unwinding. *)
Definition cleanup (drop : res) : res :=
  match drop with RRet _ => RUnwind | RUnwind => RAbort | r => r end.
(** _lib.rs 443-451. *)
Definition drop_PanicOnDrop : res := RUnwind.
(** _lib.rs 453-458: writes the message, panics; either may unwind, with a
    [__PanicOnDrop__] alive. *)
Definition abort_with_msg : res := cleanup drop_PanicOnDrop.
(** _lib.rs 590-601. *)
Definition drop_UnwindGuard : res := abort_with_msg.

(** What is dropped when leaving a function: nothing, an [UnwindGuard], or a
    [scopeguard] that acts on unwinding only. *)
Inductive gkind := GNone | GAlways | GUnwind.
(** node_js.rs 559-574: no guard if the thread is panicking already. *)
Definition js_guard (panicking : bool) : gkind := if panicking then GNone else GUnwind.

(** The parts of the shim, in the order of evaluation.  [SPlain]: a parameter
    with its Rust type. *)
Inductive step := SGuard | SJsGuard | SArg | SPlain | SBody | SRaw | SForget.
Definition shim_steps (k : fkind) (n : nat) : list step :=
  match k with
  (* fn_/mod.rs 159-191 *)
  | KExport => SGuard :: repeat SArg n ++ [SBody; SRaw; SForget]
  (* vtable_entry.rs 192-214 *)
  | KVirtual => repeat SArg n ++ [SBody; SRaw]
  (* boxed.rs 121-132, arc.rs 146-163, borrowed.rs 88-103 *)
  | KCall => repeat SPlain n ++ [SBody]
  (* boxed.rs 118-120, arc.rs 123-145, coercions.rs 94-219 *)
  | KFree => repeat SPlain n ++ [SBody]
  (* node_js.rs 548-760 *)
  | KJs => SJsGuard :: repeat SPlain n ++ [SBody]
  end.

Section eval.
Context (dbg : bool).
(** since Rust 1.81, an [extern "C"] function that unwinds aborts *)
Context (strict : bool).
(** a panic may be caught while the thread is panicking because of another;
    older standard libraries abort at once *)
Context (nested : bool).
Context (env : string → efn).

(** [panic!], while the thread is panicking or not. *)
Definition panic (pk : bool) : res := if pk && negb nested then RAbort else RUnwind.
(** layout/_mod.rs 848-865 *)
Definition from_raw_unchecked (pk : bool) (ok : N → bool) (v : N) : res :=
  if ok v then RRet v else if dbg then panic pk else RUB.

(** Leaving the scope of the shim: the guard is dropped if alive. *)
Definition leave (live : gkind) (r : res) : res :=
  match live with
  | GNone => r
  | GAlways =>
      match r with
      | RRet _ => match drop_UnwindGuard with RRet _ => r | r => r end
      | RUnwind => cleanup drop_UnwindGuard
      | r => r
      end
  | GUnwind => match r with RUnwind => RAbort | r => r end
  end.

(** [oks], [raws]: parameters still to convert; [vs]: those converted; [ret]:
    the result once there. *)
Fixpoint run_steps (pk : bool) (call : list N → option (list ev * res)) (ss : list step) (live : gkind)
    (oks : list (N → bool)) (raws vs : list N) (ret : N) : option (list ev * res) :=
  match ss with
  | [] => Some ([], leave live (RRet ret))
  | SGuard :: ss => run_steps pk call ss GAlways oks raws vs ret
  | SJsGuard :: ss => run_steps pk call ss (js_guard pk) oks raws vs ret
  | SArg :: ss =>
      match oks, raws with
      | ok :: oks, v :: raws =>
          match from_raw_unchecked pk ok v with
          | RRet v => run_steps pk call ss live oks raws (vs ++ [v]) ret
          | r => Some ([], leave live r)
          end
      | _, _ => Some ([], RUB)
      end
  | SPlain :: ss =>
      match oks, raws with
      | ok :: oks, v :: raws =>
          if ok v then run_steps pk call ss live oks raws (vs ++ [v]) ret else Some ([], RUB)
      | _, _ => Some ([], RUB)
      end
  | SBody :: ss =>
      match call vs with
      | Some (t, RRet v) =>
          match run_steps pk call ss live oks raws vs v with
          | Some (t', r) => Some (t ++ t', r)
          | None => None
          end
      | Some (t, r) => Some (t, leave live r)
      | None => None
      end
  | SRaw :: ss => run_steps pk call ss live oks raws vs ret
  | SForget :: ss => run_steps pk call ss GNone oks raws vs ret
  end.

(** Functions with the C calling convention; the function written by the user
    has it too (mod.rs 70-73). *)
Definition extern_c (r : res) : res :=
  match r with RUnwind => if strict then RAbort else RUnwind | r => r end.

(** [pk]: the thread is panicking.  [None]: not finished within [fuel]. *)
Fixpoint eval (fuel : nat) (pk : bool) (p : prog) : option (list ev * res) :=
  match fuel with
  | O => None
  | S fuel =>
      let rust f vs :=
        match eval fuel pk (body (env f) vs) with
        | Some (t, r) =>
            let live := match kind (env f) with KJs => js_guard pk | _ => GNone end in
            Some (t, extern_c (leave live r))
        | None => None
        end in
      let callee f vs :=
        match kind (env f) with KExport => rust f vs | _ => eval fuel pk (body (env f) vs) end in
      let next t p :=
        match eval fuel pk p with Some (t', r) => Some (t ++ t', r) | None => None end in
      match p with
      | PRet v => Some ([], RRet v)
      | PPanic => Some ([], panic pk)
      | PEmit e k => match eval fuel pk k with Some (t, r) => Some (EvOut e :: t, r) | None => None end
      | PCSym f args k =>
          if negb (Nat.eqb (length args) (length (valid (env f)))) then Some ([], RUB)
          else
            match
              run_steps pk (callee f) (shim_steps (kind (env f)) (length (valid (env f)))) GNone
                (valid (env f)) args [] 0
            with
            | Some (t, r) =>
                match extern_c r with
                | RRet v => next t (k v)
                | RUnwind => Some (t ++ [EvUnwound f], RUB)
                | r => Some (t, r)
                end
            | None => None
            end
      | PRust f args k =>
          match rust f args with
          | Some (t, RRet v) => next t (k v)
          | r => r
          end
      | PCatch p k =>
          match eval fuel pk p with
          | Some (t, RRet v) => next t (k (Some v))
          | Some (t, RUnwind) => next t (k None)
          | r => r
          end
      | PScope p d =>
          match eval fuel pk p with
          | Some (t, RRet v) =>
              match eval fuel pk d with
              | Some (t', RRet _) => Some (t ++ t', RRet v)
              | Some (t', r) => Some (t ++ t', r)
              | None => None
              end
          | Some (t, RUnwind) =>
              match eval fuel true d with Some (t', r) => Some (t ++ t', cleanup r) | None => None end
          | r => r
          end
      end
  end.
End eval.

(** ** The attribute: args.rs *)

Record args := Args { a_js : option bool; a_exec : bool; a_rename : option string }.
Definition no_args : args := Args None false None.

(** Tokens, grouped: [executor = expr], [js] or [js(async_worker)],
    [rename = "literal"]. *)
Inductive atok := AExec | AJs (worker : bool) | ARename (lit : string) | AComma | AOther.

Fixpoint trim_left (s : string) : string :=
  match s with String c s' => if is_space c then trim_left s' else s | _ => s end.
Definition trim_right (s : string) : string := string_rev (trim_left (string_rev s)).
Definition trim (s : string) : string := trim_left (trim_right s).

Section export.
(** is this text a Rust identifier? *)
Context (is_ident : string → bool).

(** [LitStr::parse::<Ident>]. *)
Definition lit_ident (s : string) : option string :=
  if is_ident (trim s) then Some (trim s) else None.

(** After each argument comes an optional comma. *)
Fixpoint parse_args (ts : list atok) (comma : bool) (a : args) : option args :=
  match ts with
  | [] => Some a
  | AComma :: ts => if comma then parse_args ts false a else None
  | AExec :: ts => if a_exec a then None else parse_args ts true (Args (a_js a) true (a_rename a))
  | AJs w :: ts =>
      match a_js a with Some _ => None | None => parse_args ts true (Args (Some w) (a_exec a) (a_rename a)) end
  | ARename s :: ts =>
      match a_rename a with
      | Some _ => None
      | None =>
          match lit_ident s with
          | Some _ => parse_args ts true (Args (a_js a) (a_exec a) (Some s))
          | None => None
          end
      end
  | AOther :: _ => None
  end.

Record features := Features { f_js : bool; f_headers : bool; f_async : bool; wasm : bool }.
(** A function: its name, [async]?, does its body end in [ffi_await!(..)]?,
    has it a [self]?, its ABI if written. *)
Record fnitem :=
  FnItem { fname : ident; is_async : bool; awaits : bool; receiver : bool; abi : option string }.

(** Ways to reach a function: a symbol, a JS name, a name in the header. *)
Inductive export := ESym (s : string) | EJs (s : string) | EHeader (s : string).

(** mod.rs 36-410, functions that are not [async]. *)
Definition export_sync (c : features) (a : args) (f : fnitem) : option (list export) :=
  if match abi f with Some s => negb (String.eqb s "C") | None => false end then None
  else if receiver f then None
  else
    let export_name := match a_rename a with Some s => s | None => ident_text (fname f) end in
    let js_name :=
      match a_rename a with
      | Some s => match lit_ident s with Some s => s | None => "" end
      | None => ident_text (fname f)
      end in
    Some ((if wasm c then [] else [ESym export_name]) ++
          (match a_js a with Some _ => if f_js c then [EJs js_name] else [] | None => [] end) ++
          (if f_headers c && negb (wasm c) then [EHeader export_name] else [])).

(** async_fn.rs 12-332; without the feature [js] the result is again a function
    with the attribute [#[ffi_export]], without arguments. *)
Definition export_async (c : features) (a : args) (f : fnitem) : option (list export) :=
  if negb (a_exec a && is_async f) then None
  else if negb (awaits f) then None
  else if f_js c then
    match a_js a with
    | None => Some []
    | Some _ =>
        Some [EJs (match a_rename a with
                   | Some s => match lit_ident s with Some s => s | None => "" end
                   | None => ident_text (fname f)
                   end)]
    end
  else export_sync c no_args (FnItem (fname f) false (awaits f) (receiver f) (abi f)).

(** mod.rs 20-40. *)
Definition handle (c : features) (a : args) (f : fnitem) : option (list export) :=
  if a_exec a || is_async f then if f_async c then export_async c a f else None
  else export_sync c a f.

(** [#[ffi_export(ts)] f]. *)
Definition ffi_export (c : features) (ts : list atok) (f : fnitem) : option (list export) :=
  match parse_args ts false no_args with Some a => handle c a f | None => None end.
End export.
