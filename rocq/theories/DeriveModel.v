(** Model of what [#[derive_ReprC(..)]] does with an item: which of the derives it picks, what it
    rejects and where it panics.

    - proc_macro/derives/_mod.rs 80-135 [derive_ReprC], 20-76 [feed_to_macro_rules]
    - proc_macro/derives/repr_c/_mod.rs 17-63 [repr_c::derive], args.rs 20-50 its arguments
    - proc_macro/derives/repr_c/struct_.rs 13-62, 223-245, 390-420 and enum_.rs 5-68, 279-345
    - proc_macro/derives/dyn_trait/_mod.rs 46-76 [try_handle_trait], args.rs 36-74 its arguments
    - proc_macro/derives/handle_fptr.rs 10-92 [try_handle_fptr], 243-292
    - proc_macro/utils/_mod.rs 27-82 [my_split], used in _mod.rs 53 and c_type/struct_.rs 54-70
    - layout/macros.rs 290-345 the macro [ReprC!] of the legacy mode

    Simplifications: arguments are grouped tokens ([rename = expr] is one); expressions, names, docs and
    the types of fields (other than: is it a function pointer?) are left out; of [c_type::derive] only
    its panic is modelled, nor is the body of a trait; a [repr] attribute is a list of words, of
    which some, as [align(8)], are no identifiers. *)
From Coq Require Import String.
From stdpp Require Import base numbers list.

(** ** The item *)

Definition is_nil {A} (l : list A) : bool := match l with [] => true | _ => false end.

Inductive word := WId (s : string) | WGroup.

(** An attribute: documentation; [#[repr(..)]], [None] if not of that form ([#[repr]]); another. *)
Inductive attr := ADoc | ARepr (ws : option (list word)) | AOther.
(** [pub]; [pub(in ..)]; none. *)
Inductive vis := Pub | PubIn | Priv.
Definition is_pub (v : vis) : bool := match v with Pub => true | _ => false end.

(** A field: is its type written as a function pointer type?  With what ABI ([Some None] is a bare
    [extern]), is it variadic? *)
Record fnptr := FnPtr { fn_abi : option (option string); fn_variadic : bool }.
Record field := Field { f_vis : vis; f_fn : option fnptr }.
(** The fields between braces, between parentheses, or none. *)
Inductive shape := Braces | Parens | Bare.

Inductive data :=
  | DStruct (sh : shape) (fs : list field)
  | DEnum (variants : list bool)     (** has the variant fields? *)
  | DUnion
  | DTrait.

Record item := Item {
  i_attrs : list attr;
  i_vis : vis;
  i_lifetimes : nat;     (** lifetime parameters *)
  i_params : nat;        (** type parameters *)
  i_consts : nat;        (** const parameters *)
  i_where : bool;
  i_data : data;
}.

Definition with_attrs (i : item) (l : list attr) : item :=
  Item l (i_vis i) (i_lifetimes i) (i_params i) (i_consts i) (i_where i) (i_data i).

(** ** Arguments *)

Inductive tok := TRename | TJs | TDyn | TClone | TComma | TOther.

(** repr_c/args.rs 10-17. *)
Record args := Args { a_rename : bool; a_js : bool }.
(** args.rs 20-50: each argument at most once, each followed by an optional comma. *)
Fixpoint parse_args (ts : list tok) (comma : bool) (a : args) : option args :=
  match ts with
  | [] => Some a
  | TComma :: ts => if comma then parse_args ts false a else None
  | TRename :: ts => if a_rename a then None else parse_args ts true (Args true (a_js a))
  | TJs :: ts => if a_js a then None else parse_args ts true (Args (a_rename a) true)
  | _ :: _ => None
  end.
Definition repr_args (ts : list tok) : option args := parse_args ts false (Args false false).

(** dyn_trait/args.rs 49-67: note that the error for a second [Clone] is built and not returned. *)
Fixpoint parse_clone (ts : list tok) (comma : bool) (c : bool) : option bool :=
  match ts with
  | [] => Some c
  | TComma :: ts => if comma then parse_clone ts false c else None
  | TClone :: ts => parse_clone ts true true
  | _ :: _ => None
  end.
(** 36-48: [dyn] first. *)
Definition dyn_args (ts : list tok) : option bool :=
  match ts with TDyn :: ts => parse_clone ts true false | _ => None end.

(** ** Expansions *)

Inductive kind :=
  | KTrait (clone : bool)
  | KFptr
  | KTransparent
  | KOpaque
  | KStruct
  | KEnum (int : string).      (** ["C"]: [c_int] *)
(** What is expanded to, whether under the name given by [rename], whether with the JavaScript part. *)
Record expansion := Expansion { x_kind : kind; x_rename : bool; x_js : bool }.
Inductive outcome := Expand (x : expansion) | Reject | Panic.

(** The first [repr] attribute. *)
Fixpoint first_repr (l : list attr) : option (option (list word)) :=
  match l with
  | [] => None
  | ARepr ws :: _ => Some ws
  | _ :: l => first_repr l
  end.

(** handle_fptr.rs 10-92 and 261-270; [None] stands for its [None].  Note that the visibility of the
    struct is looked at (56-58) before the type of its field (60-68). *)
Definition try_fptr (i : item) : option outcome :=
  match i_data i with
  | DStruct Bare _ => None
  | DStruct sh [f] =>
      match first_repr (i_attrs i) with
      | None => Some Reject
      | Some (Some [WId s]) =>
          if negb (String.eqb s "transparent") then None
          else if negb (is_pub (i_vis i)) then Some Reject
          else
            match f_fn f with
            | None => None
            | Some fn =>
                if negb (is_pub (f_vis f)) then Some Reject
                else if fn_variadic fn then Some Reject
                else
                  match fn_abi fn with
                  | None => Some Reject
                  | Some (Some abi) =>
                      if negb (String.eqb abi "C") then Some Reject
                      else if match sh with Braces => (0 <? i_lifetimes i)%nat | _ => false end
                      then Some Panic          (* 263-271: unreachable!() *)
                      else Some (Expand (Expansion KFptr false false))
                  | Some None =>
                      if match sh with Braces => (0 <? i_lifetimes i)%nat | _ => false end
                      then Some Panic
                      else Some (Expand (Expansion KFptr false false))
                  end
            end
      | Some _ => None
      end
  | _ => None
  end.

(** struct_.rs 23-28, enum_.rs 15-21: the first [repr] attribute that is one identifier. *)
Fixpoint first_ident (l : list attr) : option string :=
  match l with
  | [] => None
  | ARepr (Some [WId s]) :: _ => Some s
  | _ :: l => first_ident l
  end.

(** utils/_mod.rs 27-82 [my_split], as to whether it returns: 69-71 are [unimplemented!()]. *)
Definition splits (i : item) : bool := (i_consts i =? 0)%nat.

(** struct_.rs 23-66, 235-240, 390-.  113: the fields are numbered by [(0_u8 ..)], which, if the macro
    was compiled with overflow checks ([ck]), panics when it is past the 256th.  c_type/struct_.rs
    54-58: with the feature [js] ([sp]) and [js] among the arguments, the generics are split. *)
Definition derive_struct (ck sp : bool) (a : args) (i : item) (fs : list field) : outcome :=
  match first_ident (i_attrs i) with
  | None => Reject
  | Some s =>
      if String.eqb s "transparent" then
        match fs with [] => Reject | _ => Expand (Expansion KTransparent (a_rename a) (a_js a && a_rename a)) end
      else if String.eqb s "opaque" then Expand (Expansion KOpaque (a_rename a) false)
      else if String.eqb s "C" then
        if is_nil fs then Reject
        else if ck && (255 <? length fs)%nat then Panic
        else if sp && a_js a && negb (splits i) then Panic
        else Expand (Expansion KStruct (a_rename a) (a_js a))
      else Reject
  end.

(** enum_.rs 347-372: the words there are. *)
Definition is_int (s : string) : bool :=
  existsb (String.eqb s) ["u8"; "u16"; "u32"; "u64"; "u128"; "i8"; "i16"; "i32"; "i64"; "i128"]%string.
Fixpoint idents (ws : list word) : option (list string) :=
  match ws with
  | [] => Some []
  | WId s :: ws => option_map (cons s) (idents ws)
  | WGroup :: _ => None
  end.
(** The integer to use, among supported words: the first that is not [C]. *)
Fixpoint pick (ss : list string) : string :=
  match ss with
  | [] => "C"
  | s :: ss => if String.eqb s "C" then pick ss else s
  end.
(** enum_.rs 279-345. *)
Definition discriminant_type (l : list attr) : option string :=
  match first_repr l with
  | Some (Some ws) =>
      match idents ws with
      | Some ss =>
          if forallb (λ s, String.eqb s "C" || is_int s) ss && negb (is_nil ss)
          then Some (pick ss) else None
      | None => None
      end
  | _ => None
  end.

(** enum_.rs 5-68. *)
Definition derive_enum (a : args) (i : item) (vs : list bool) : outcome :=
  if match first_ident (i_attrs i) with Some s => String.eqb s "opaque" | None => false end
  then Expand (Expansion KOpaque (a_rename a) false)
  else if existsb id vs then Reject
  else if (0 <? i_lifetimes i + i_params i + i_consts i)%nat then Reject
  else if i_where i then Reject
  else if is_nil vs then Reject
  else match discriminant_type (i_attrs i) with
       | Some int => Expand (Expansion (KEnum int) (a_rename a) (a_js a))
       | None => Reject
       end.

(** repr_c/_mod.rs 17-63: also [#[derive_ReprC2]].  A trait does not parse as a [DeriveInput]. *)
Definition repr_c (ck sp : bool) (ts : list tok) (i : item) : outcome :=
  match repr_args ts with
  | None => Reject
  | Some a =>
      match i_data i with
      | DTrait => Reject
      | _ =>
          match try_fptr i with
          | Some o => o
          | None =>
              match i_data i with
              | DStruct _ fs => derive_struct ck sp a i fs
              | DEnum vs => derive_enum a i vs
              | DUnion => Reject
              | DTrait => Reject
              end
          end
      end
  end.

(** ** The legacy mode *)

(** layout/macros.rs 290-345: the attributes [ReprC!] takes: documentation, then
    [#[repr(word, js)]], then any; the result has [#[repr(word)]] there. *)
Fixpoint legacy_attrs (l : list attr) : option (list attr) :=
  match l with
  | ADoc :: l => option_map (cons ADoc) (legacy_attrs l)
  | ARepr (Some [WId s; WId j]) :: l =>
      if String.eqb j "js" then Some (ARepr (Some [WId s]) :: l) else None
  | _ => None
  end.
(** _mod.rs 18-78 and macros.rs 290-345: [ReprC!] knows structs between braces only (those between
    parentheses end up with their [where] in the wrong place), and hands them to [derive_ReprC2(js)]:
    whatever else was in the arguments is gone.  53: the generics are split ([sp]: there is no legacy
    mode without the feature [js]). *)
Definition legacy (ck sp : bool) (i : item) : outcome :=
  match try_fptr i with
  | Some o => o
  | None =>
      match i_data i with
      | DStruct sh _ =>
          if sp && negb (splits i) then Panic
          else
            match sh, legacy_attrs (i_attrs i) with
            | Braces, Some l => repr_c ck sp [TJs] (with_attrs i l)
            | _, _ => Reject
            end
      | _ => Reject
      end
  end.

(** ** derive_ReprC *)

Record features := Features {
  feat_js : bool;
  feat_dyn : bool;
  checks : bool;     (** not a feature of the crate: overflow checks in the macro *)
}.

(** [Vec::swap_remove]: the last one takes the place of the removed one. *)
Definition swap_remove {A} (n : nat) (l : list A) : list A :=
  match reverse l with
  | [] => []
  | z :: _ => take (length l - 1) (<[n := z]> l)
  end.
Fixpoint position (s : string) (l : list string) : option nat :=
  match l with
  | [] => None
  | x :: l => if String.eqb x s then Some O else option_map S (position s l)
  end.
(** Replacing the first [repr] attribute. *)
Fixpoint set_repr (l : list attr) (ws : list word) : list attr :=
  match l with
  | [] => []
  | ARepr _ :: l => ARepr (Some ws) :: l
  | x :: l => x :: set_repr l ws
  end.

(** _mod.rs 80-135; [sp]: are generics split where [js] asks for it? *)
Definition derive_with (sp : bool) (f : features) (ts : list tok) (i : item) : outcome :=
  match i_data i with
  | DTrait =>
      if feat_dyn f
      then match dyn_args ts with Some c => Expand (Expansion (KTrait c) false false) | None => Reject end
      else match first_repr (i_attrs i) with
           | None => Reject
           | Some ows =>
               match match ows with Some ws => idents ws | None => None end with
               | None => Panic
               | Some _ => Reject
               end
           end
  | _ =>
      match first_repr (i_attrs i) with
      | None => repr_c (checks f) sp ts i
      | Some ows =>
          match match ows with Some ws => idents ws | None => None end with
          | None => Panic               (* 104-109: unwrap() *)
          | Some ss =>
              match position "js" ss with
              | Some n =>
                  if feat_js f
                  then match repr_args ts with Some _ => legacy (checks f) sp i | None => Reject end
                  else repr_c (checks f) sp ts (with_attrs i (set_repr (i_attrs i) (WId <$> swap_remove n ss)))
              | None => repr_c (checks f) sp ts i
              end
          end
      end
  end.

(** They are with the feature [js]. *)
Definition derive_ReprC (f : features) : list tok → item → outcome := derive_with (feat_js f) f.

(** ** rustc *)

(** Does the code expanded to compile, as far as the shape of the item goes?  struct_.rs 77-80 and
    173-178: [is_valid] names the fields of the C struct [0], [1], … for fields between parentheses,
    which are called [_0], [_1], … there (113-117).  handle_fptr.rs 138-145: [Deref] returns
    [&self.0]. *)
Definition compiles (i : item) (x : expansion) : bool :=
  match x_kind x, i_data i with
  | KStruct, DStruct Braces _ => true
  | KStruct, _ => false
  | KFptr, DStruct Parens _ => true
  | KFptr, _ => false
  | _, _ => true
  end.
