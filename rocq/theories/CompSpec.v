(** Specification for C84: what a C compiler makes of a whole header.

    The compiler works on what [TextSpec.read_c] gives: tokens without comments, includes, definitions.  It splits
    them into declarations, reads declarators with [HeaderSpec.parse_decl], looks every type name up among those
    declared before, and gives up on anything C does not allow: a name of the same name space declared twice, a name
    that is not declared, a macro used, members or items of an incomplete type, a struct without members, a parameter
    of type [void].  What is left out: the types of enumerators, and more than the names below in included files. *)

From Coq Require Import NArith ZArith List Bool String Ascii.
From stdpp Require Import base numbers list strings pretty option.
From Verif Require Import LayoutModel NameModel HeaderModel HeaderSpec CsModel TextModel TextSpec.
From Verif Require ConstSpec CsSpec.

(** ** Types, with no names left to look up *)

Inductive rty :=
(** the types of C itself, and those of included files *)
| RBase (s : string)
(** pointer; is the pointee [const]? *)
| RPtr (const : bool) (t : rty)
| RFun (ret : rty) (params : list rty)
| RArr (n : N) (t : rty)
| RStruct (tag : option string) (fs : list (string * rty))
| REnum (tag : string)
(** a struct that is only declared *)
| ROpaque (tag : string).

Definition complete (t : rty) : bool :=
  match t with RBase s => negb (String.eqb s "void") | RFun _ _ | ROpaque _ => false | _ => true end.
Definition not_void (t : rty) : bool := match t with RBase s => negb (String.eqb s "void") | _ => true end.

Fixpoint find {A} (x : string) (l : list (string * A)) : option A :=
  match l with [] => None | (y, a) :: l => if String.eqb x y then Some a else find x l end.

Definition base_types : list string := ["void"; "char"; "int"; "float"; "double"].
Definition in_strings (s : string) (l : list string) : bool := existsb (String.eqb s) l.

(** Type names are looked up. *)
Fixpoint resolve (T : list (string * rty)) (t : ctype) : option rty :=
  match t with
  | CBase s => if in_strings s base_types then Some (RBase s) else find s T
  | CPtr c t => RPtr c <$> resolve T t
  | CArr n t => match resolve T t with Some r => if complete r then Some (RArr n r) else None | None => None end
  | CFun r ps =>
      match resolve T r with
      | None => None
      | Some r =>
          RFun r <$>
          (fix go (l : list (ctype * option string)) : option (list rty) :=
             match l with
             | [] => Some []
             | (t, _) :: l =>
                 match resolve T t, go l with
                 | Some t, Some l => if not_void t then Some (t :: l) else None
                 | _, _ => None
                 end
             end) ps
      end
  end.

(** ** Tokens *)

Definition text_of (w : ntext) : string := string_of_list_ascii (map ascii_of_N w).
Definition digit (c : N) : bool := ((48 <=? c) && (c <=? 57))%N.
Definition number (w : ntext) : option N :=
  match ConstSpec.read_number true (map ascii_of_N w) with Some (ConstSpec.NInt n) => Some n | _ => None end.
(** An identifier. *)
Definition name_of (t : ctok) : option string :=
  match t with
  | Wd (c :: w) => if digit c || negb (is_name (text_of (c :: w))) then None else Some (text_of (c :: w))
  | _ => None
  end.
Definition untok (t : ctok) : option tok :=
  match t with
  | Wd [] | Lt _ => None
  | Wd (c :: w) => if digit c then TkNum <$> number (c :: w) else Some (TkId (text_of (c :: w)))
  | Pn c =>
      match c with
      | 42%N => Some TkStar | 40%N => Some TkLp | 41%N => Some TkRp | 91%N => Some TkLb | 93%N => Some TkRb
      | 44%N => Some TkComma | _ => None
      end
  end.
Fixpoint untoks (ts : list ctok) : option (list tok) :=
  match ts with
  | [] => Some []
  | t :: ts => match untok t, untoks ts with Some t, Some ts => Some (t :: ts) | _, _ => None end
  end.

Definition ctok_eqb (a b : ctok) : bool :=
  match a, b with
  | Wd a, Wd b | Lt a, Lt b => bool_decide (a = b)
  | Pn a, Pn b => (a =? b)%N
  | _, _ => false
  end.

(** ** Declarations: up to a semicolon outside of braces *)

Inductive grp := GInclude (what : ntext) | GDefine (x : ntext) (value : list ctok) | GDecl (ts : list ctok).
Fixpoint group (depth : nat) (cur : list ctok) (es : list ev) : option (list grp) :=
  match es with
  | [] => match depth, cur with 0, [] => Some [] | _, _ => None end
  | ETok t :: es =>
      if ctok_eqb t semi && (depth =? 0)%nat then cons (GDecl cur) <$> group 0 [] es
      else if ctok_eqb t lbrace then group (S depth) (cur ++ [t]) es
      else if ctok_eqb t rbrace then match depth with 0 => None | S d => group d (cur ++ [t]) es end
      else group depth (cur ++ [t]) es
  | EInclude w :: es => match cur with [] => cons (GInclude w) <$> group depth [] es | _ => None end
  | EDefine x v :: es => match cur with [] => cons (GDefine x v) <$> group depth [] es | _ => None end
  end.

(** Up to a token, and after it. *)
Fixpoint cut (sep : ctok) (ts : list ctok) : option (list ctok * list ctok) :=
  match ts with
  | [] => None
  | t :: ts =>
      if ctok_eqb t sep then Some ([], ts)
      else match cut sep ts with Some (a, b) => Some (t :: a, b) | None => None end
  end.
(** Parts that end with a token. *)
Fixpoint parts (sep : ctok) (cur ts : list ctok) : option (list (list ctok)) :=
  match ts with
  | [] => match cur with [] => Some [] | _ => None end
  | t :: ts => if ctok_eqb t sep then cons cur <$> parts sep [] ts else parts sep (cur ++ [t]) ts
  end.

(** ** What is declared *)

Record world := World {
  w_types : list (string * rty);
  w_funs : list (string * (list (string * rty) * rty));
  (** enumerators *)
  w_consts : list (string * Z);
  (** of structs and enums *)
  w_tags : list string;
  w_included : list ntext;
  w_macros : list (ntext * list ctok) }.
Definition nothing : world := World [] [] [] [] [] [].
Definition ordinary (w : world) : list string := map fst (w_types w) ++ map fst (w_funs w) ++ map fst (w_consts w).
Definition distinct (l : list string) : bool := bool_decide (NoDup l).

Definition add_type (x : string) (t : rty) (w : world) : option world :=
  if in_strings x (ordinary w) then None
  else Some (World (w_types w ++ [(x, t)]) (w_funs w) (w_consts w) (w_tags w) (w_included w) (w_macros w)).
Definition add_fun (x : string) (ps : list (string * rty)) (r : rty) (w : world) : option world :=
  if in_strings x (ordinary w) then None
  else Some (World (w_types w) (w_funs w ++ [(x, (ps, r))]) (w_consts w) (w_tags w) (w_included w) (w_macros w)).
Definition add_tag (x : string) (w : world) : option world :=
  if in_strings x (w_tags w) then None
  else Some (World (w_types w) (w_funs w) (w_consts w) (w_tags w ++ [x]) (w_included w) (w_macros w)).
Definition add_const (x : string) (z : Z) (w : world) : option world :=
  if in_strings x (ordinary w) then None
  else Some (World (w_types w) (w_funs w) (w_consts w ++ [(x, z)]) (w_tags w) (w_included w) (w_macros w)).
Fixpoint add_consts (l : list (string * Z)) (w : world) : option world :=
  match l with [] => Some w | (x, z) :: l => match add_const x z w with Some w => add_consts l w | None => None end end.
Definition add_macro (x : ntext) (v : list ctok) (w : world) : option world :=
  if bool_decide (x ∈ map fst (w_macros w)) then None
  else Some (World (w_types w) (w_funs w) (w_consts w) (w_tags w) (w_included w) (w_macros w ++ [(x, v)])).

(** The types in included files that the generator counts on. *)
Definition std (w : ntext) : option (list string) :=
  if is w "<stddef.h>" then Some ["size_t"]
  else if is w "<stdint.h>" then
    Some ["uint8_t"; "uint16_t"; "uint32_t"; "uint64_t"; "int8_t"; "int16_t"; "int32_t"; "int64_t"]
  else if is w "<stdbool.h>" then Some ["bool"]
  else None.
Definition std_names : list string :=
  ["size_t"; "uint8_t"; "uint16_t"; "uint32_t"; "uint64_t"; "int8_t"; "int16_t"; "int32_t"; "int64_t"; "bool"].
Definition include (x : ntext) (w : world) : option world :=
  if bool_decide (x ∈ w_included w) then Some w
  else
    match std x with
    | Some ns =>
        if existsb (λ n, in_strings n (ordinary w)) ns then None
        else Some (World (w_types w ++ map (λ n, (n, RBase n)) ns) (w_funs w) (w_consts w) (w_tags w)
                     (w_included w ++ [x]) (w_macros w))
    | None => None
    end.

(** ** One declaration *)

Definition declared (fuel : nat) (w : world) (ts : list ctok) : option (rty * string) :=
  match untoks ts with
  | Some ts =>
      match parse_decl fuel ts with
      | Some (t, Some x, []) => match resolve (w_types w) t with Some t => Some (t, x) | None => None end
      | _ => None
      end
  | None => None
  end.

Fixpoint members (fuel : nat) (w : world) (ps : list (list ctok)) : option (list (string * rty)) :=
  match ps with
  | [] => Some []
  | p :: ps =>
      match declared fuel w p, members fuel w ps with
      | Some (t, x), Some fs => if complete t then Some ((x, t) :: fs) else None
      | _, _ => None
      end
  end.
(** After [{]: the members, and what follows [}]. *)
Definition struct_body (fuel : nat) (w : world) (ts : list ctok) : option (list (string * rty) * list ctok) :=
  match cut rbrace ts with
  | Some (body, rest) =>
      match parts semi [] body with
      | Some ps =>
          match members fuel w ps with
          | Some fs => match fs with [] => None | _ => if distinct (map fst fs) then Some (fs, rest) else None end
          | None => None
          end
      | None => None
      end
  | None => None
  end.
(** After [typedef struct]. *)
Definition typedef_struct (fuel : nat) (w : world) (ts : list ctok) : option world :=
  match ts with
  | t :: ts =>
      if ctok_eqb t lbrace then
        match struct_body fuel w ts with
        | Some (fs, [x]) => match name_of x with Some x => add_type x (RStruct None fs) w | None => None end
        | _ => None
        end
      else
        match name_of t with
        | None => None
        | Some tag =>
            match add_tag tag w with
            | None => None
            | Some w =>
                match ts with
                | [x] => match name_of x with Some x => add_type x (ROpaque tag) w | None => None end
                | b :: ts =>
                    if ctok_eqb b lbrace then
                      match struct_body fuel w ts with
                      | Some (fs, [x]) =>
                          match name_of x with Some x => add_type x (RStruct (Some tag) fs) w | None => None end
                      | _ => None
                      end
                    else None
                | [] => None
                end
            end
        end
  | [] => None
  end.

(** The value of an enumerator. *)
Definition enum_value (ts : list ctok) : option Z :=
  match ts with
  | [Wd w] => Z.of_N <$> number w
  | [Pn 45%N; Wd w] => (λ n, - Z.of_N n)%Z <$> number w
  | _ => None
  end.
Fixpoint enumerators (next : Z) (ps : list (list ctok)) : option (list (string * Z)) :=
  match ps with
  | [] => Some []
  | p :: ps =>
      match p with
      | [x] => match name_of x, enumerators (next + 1) ps with Some x, Some l => Some ((x, next) :: l) | _, _ => None end
      | x :: Pn 61%N :: v =>
          match name_of x, enum_value v with
          | Some x, Some z => match enumerators (z + 1) ps with Some l => Some ((x, z) :: l) | None => None end
          | _, _ => None
          end
      | _ => None
      end
  end.
(** After [enum]: what is declared, the type, and what follows [}]. *)
Definition enum_spec (w : world) (ts : list ctok) : option (world * rty * list ctok) :=
  match ts with
  | t :: b :: ts =>
      if ctok_eqb b lbrace then
        match name_of t, cut rbrace ts with
        | Some tag, Some (body, rest) =>
            match add_tag tag w, parts (Pn 44%N) [] body with
            | Some w, Some (p :: ps) =>
                match enumerators 0 (p :: ps) with
                | Some l => match add_consts l w with Some w => Some (w, REnum tag, rest) | None => None end
                | None => None
                end
            | _, _ => None
            end
        | _, _ => None
        end
      else None
  | _ => None
  end.

(** A prototype: every parameter has a name, which is not that of a type. *)
Fixpoint param_names (ps : list (ctype * option string)) : option (list string) :=
  match ps with
  | [] => Some []
  | (_, x) :: ps => match x, param_names ps with Some x, Some l => Some (x :: l) | _, _ => None end
  end.
Definition prototype (fuel : nat) (w : world) (ts : list ctok) : option world :=
  match untoks ts with
  | Some ts =>
      match parse_decl fuel ts with
      | Some (CFun r ps, Some x, []) =>
          match resolve (w_types w) (CFun r ps), param_names ps with
          | Some (RFun r ts), Some xs =>
              if distinct xs && negb (existsb (λ x, in_strings x (map fst (w_types w))) xs)
              then add_fun x (zip xs ts) r w else None
          | _, _ => None
          end
      | _ => None
      end
  | None => None
  end.

Definition external (fuel : nat) (w : world) (ts : list ctok) : option world :=
  match ts with
  | t :: ts' =>
      if ctok_eqb t (wd "typedef") then
        match ts' with
        | u :: ts'' =>
            if ctok_eqb u (wd "struct") then typedef_struct fuel w ts''
            else if ctok_eqb u (wd "enum") then
              match enum_spec w ts'' with
              | Some (w, r, [x]) => match name_of x with Some x => add_type x r w | None => None end
              | _ => None
              end
            else match declared fuel w ts' with Some (r, x) => add_type x r w | None => None end
        | [] => None
        end
      else if ctok_eqb t (wd "enum") then
        match enum_spec w ts' with Some (w, _, []) => Some w | _ => None end
      else prototype fuel w ts
  | [] => None
  end.

Definition uses (w : world) (t : ctok) : bool :=
  match t with Wd x => bool_decide (x ∈ map fst (w_macros w)) | _ => false end.
Definition one (fuel : nat) (w : world) (g : grp) : option world :=
  match g with
  | GInclude x => include x w
  | GDefine x v => add_macro x v w
  | GDecl ts => if existsb (uses w) ts then None else external fuel w ts
  end.
Fixpoint all (fuel : nat) (w : world) (gs : list grp) : option world :=
  match gs with [] => Some w | g :: gs => match one fuel w g with Some w => all fuel w gs | None => None end end.

(** [compiles es w]: [w] is what there is after [es]. *)
Definition compile (fuel : nat) (es : list ev) : option world :=
  match group 0 [] es with Some gs => all fuel nothing gs | None => None end.
Definition compiles (es : list ev) (w : world) : Prop := ∃ fuel, ∀ fuel', fuel ≤ fuel' → compile fuel' es = Some w.

(** ** What ought to be there *)

Definition int_view (i : intk) : rty :=
  RBase (match i with
         | U8 => "uint8_t" | U16 => "uint16_t" | U32 => "uint32_t" | U64 => "uint64_t" | Usize => "size_t"
         | I8 => "int8_t" | I16 => "int16_t" | I32 => "int32_t" | I64 => "int64_t" | Isize => "ssize_t"
         end).
(** The C type of a Rust type. *)
Fixpoint view (t : cty) : rty :=
  match t with
  | TInt i => int_view i
  | TFloat d => RBase (if d then "double" else "float")
  | TVoid => RBase "void"
  | TBool => RBase "bool"
  | TCInt => RBase "int"
  | TChar => RBase "char"
  | TPtr c t => RPtr c (view t)
  | TFn r args => RPtr false (RFun (view r) (map view args))
  | TArr t n => RStruct None [("idx", RArr n (view t))]
  | TStruct _ _ fs =>
      RStruct (Some (short t))
        ((fix go (l : list (string * cty)) : list (string * rty) :=
            match l with
            | [] => []
            | (f, u) :: l => if zst u then go l else (f, view u) :: go l
            end) fs)
  | TEnum n i => match i with None => REnum n | Some i => int_view i end
  | TAlias _ t => view t
  | TOpaque n => ROpaque n
  end.

(** The values of the variants of a Rust enum: one more than the one before, if none is written. *)
Fixpoint discriminants (next : Z) (vs : list (docs * ntext * option Z)) : list Z :=
  match vs with
  | [] => []
  | (_, o) :: vs => let z := default next o in z :: discriminants (z + 1) vs
  end.

(** ** Programs *)

(** Starts with no digit. *)
Definition lettered (s : string) : bool :=
  match s with EmptyString => false | String c _ => negb (digit (N_of_ascii c)) end.
(** The names of a struct's members, or a function's parameters. *)
Definition names_ok (l : list string) : Prop := NoDup l ∧ ∀ x, x ∈ l → lettered x = true.
Definition type_ok (t : cty) : Prop :=
  match t with
  | TInt i => i ≠ Isize
  | TArr t _ => zst t = false
  | TFn _ args => ∀ a, a ∈ args → CsSpec.is_void a = false
  | TStruct _ _ fs => names_ok (map fst fs) ∧ is_name (short t) = true ∧ short t ≠ ""
  | TEnum n i => i ≠ Some Isize ∧ is_name n = true ∧ n ≠ ""
  | TOpaque n => is_name n = true ∧ n ≠ ""
  | _ => True
  end.
Record source_ok (is : list item) : Prop := {
  so_clash : no_clash LC is;
  so_items : ∀ i d, i ∈ is → own_decl i = Some d → good_decl d;
  so_types : ∀ t d, occurs t is → own_decl (IType "" t) = Some d → good_decl d;
  so_type : ∀ t, occurs t is → type_ok t;
  (** names of types: not those of included files *)
  so_keys : ∀ t k, occurs t is → type_key LC t = Some k → lettered k = true ∧ k ∉ std_names;
  so_funs : ∀ n args r, IFn n args r ∈ is →
    lettered n = true ∧ n ∉ std_names ∧ names_ok (map fst args) ∧
    ∀ a, a ∈ args → CsSpec.is_void a.2 = false ∧ a.1 ∉ std_names ∧ ∀ t, occurs t is → type_key LC t ≠ Some a.1 }.

(** Enumerators and macros, which [HeaderModel] knows nothing of. *)
Definition enum_names (y : xdecl) : list string :=
  match y with YEnum _ n _ vs => map (λ v, text_of (variant_name n v.1.2)) vs | _ => [] end.
Definition macro_names (y : xdecl) : list ntext := match y with YConst _ n _ _ _ => [chars n] | _ => [] end.
(** [derive(ReprC)] takes no enum without variants (enum_.rs 60-64). *)
Record names_fresh (g : list ntext) (ys : list xdecl) : Prop := {
  nf_enums : ∀ d n i vs, YEnum d n i vs ∈ ys → vs ≠ [];
  nf_names : ∀ d n i vs v, YEnum d n i vs ∈ ys → v ∈ vs →
    ∃ x, variant_name n v.1.2 = chars x ∧ lettered x = true ∧ is_name x = true;
  nf_once : NoDup (flat_map enum_names ys);
  nf_other : ∀ x, x ∈ flat_map enum_names ys → x ∉ std_names ∧ x ∉ flat_map (λ y, declares (erase_decl y)) ys;
  (** each macro once, and used by no declaration *)
  nf_macros : NoDup (g ++ flat_map macro_names ys);
  nf_unused : ∀ x y, x ∈ g ++ flat_map macro_names ys → y ∈ ys → Wd x ∉ decl_toks false LC y }.

(** ** What the compiler passes *)

(** [char] may be signed or not. *)
Definition base_abi (P : platform) (char_signed : bool) (s : string) : CsSpec.abi :=
  default CsSpec.AVoid (find s
    [("uint8_t", CsSpec.AInt false 1); ("uint16_t", CsSpec.AInt false 2); ("uint32_t", CsSpec.AInt false 4);
     ("uint64_t", CsSpec.AInt false 8); ("size_t", CsSpec.AInt false (p_ptr P)); ("int8_t", CsSpec.AInt true 1);
     ("int16_t", CsSpec.AInt true 2); ("int32_t", CsSpec.AInt true 4); ("int64_t", CsSpec.AInt true 8);
     ("int", CsSpec.AInt true 4); ("char", CsSpec.AInt char_signed 1); ("bool", CsSpec.ABool 1);
     ("float", CsSpec.AFloat 4); ("double", CsSpec.AFloat 8)]).
(** A member that is an array is as many items. *)
Fixpoint c_abi (P : platform) (sg : bool) (t : rty) : CsSpec.abi :=
  match t with
  | RBase s => base_abi P sg s
  | RPtr _ (RFun r ps) => CsSpec.AFun CsSpec.Cdecl (c_abi P sg r) (map (c_abi P sg) ps)
  | RPtr _ _ => CsSpec.APtr
  | RFun _ _ => CsSpec.AVoid
  | RArr n t =>
      let l := CsSpec.abi_lay P (c_abi P sg t) in
      CsSpec.AStruct (N.to_nat n * l.1) l.2 (map (λ i, (i * l.1, c_abi P sg t)) (List.seq 0 (N.to_nat n)))
  | RStruct _ fs =>
      let ls := map (λ f, CsSpec.abi_lay P (c_abi P sg f.2)) fs in
      CsSpec.AStruct (seal ls).1 (seal ls).2
        (concat (zip_with (λ o ks, map (λ k : nat * CsSpec.abi, (o + k.1, k.2)) ks) (offsets 0 ls)
           (map (λ f, match f.2, c_abi P sg f.2 with
                      | RArr _ _, CsSpec.AStruct _ _ ks => ks
                      | _, k => [(0, k)]
                      end) fs)))
  | REnum _ => CsSpec.AInt true 4
  | ROpaque _ => CsSpec.AStruct 0 1 []
  end.

(** A call of a function. *)
Definition fn_abi (P : platform) (sg : bool) (p : list (string * rty) * rty) : CsSpec.abi :=
  CsSpec.AFun CsSpec.Cdecl (c_abi P sg p.2) (map (λ a, c_abi P sg a.2) p.1).
(** Types that C and Rust pass alike. *)
Fixpoint c_exact (sg : bool) (t : cty) : Prop :=
  match t with
  | TInt i => i ≠ Isize
  | TEnum _ i => i ≠ Some Isize
  | TChar => sg = false
  | TArr t _ | TAlias _ t => c_exact sg t
  | TFn r args => c_exact sg r ∧ CsSpec.Forall' (c_exact sg) args
  | TStruct _ _ fs => CsSpec.Forall' (λ f, zst f.2 = false → c_exact sg f.2) fs
  | _ => True
  end.

(** ** What the items want *)

(** Enums of a type, with variants. *)
Fixpoint enums_of (t : xty) : list (string * list (docs * ntext * option Z)) :=
  match t with
  | XPtr _ t | XArr t _ | XAlias _ _ t => enums_of t
  | XFn r args => enums_of r ++ flat_map enums_of args
  | XStruct _ _ _ fs => flat_map (λ f : docs * string * xty, enums_of f.2) fs
  | XEnum _ n _ vs => [(n, vs)]
  | _ => []
  end.
Definition item_enums (i : xitem) : list (string * list (docs * ntext * option Z)) :=
  match i with
  | JFn _ _ args r => flat_map (λ a : string * xty, enums_of a.2) args ++ enums_of r
  | JConst _ _ t _ _ | JType _ t => enums_of t
  end.
(** Enums of one name are one. *)
Definition enums_agree (is : list xitem) : Prop :=
  ∀ n vs vs', (n, vs) ∈ flat_map item_enums is → (n, vs') ∈ flat_map item_enums is → vs = vs'.
(** What a constant is defined as: [((type) value)], or its value. *)
Definition const_body (t : xty) (untyped : bool) (v : ntext) : list ctok :=
  if untyped then lex v
  else [Pn 40%N; Pn 40%N] ++ map tk (c_var (erase t) []) ++ [Pn 41%N] ++ lex v ++ [Pn 41%N].

Record delivers (is : list xitem) (w : world) : Prop := {
  (** every function is there, with the right types, and nothing else *)
  d_funs : ∀ n p, find n (w_funs w) = Some p ↔
    ∃ d args r, JFn d n args r ∈ is ∧ p = (map (λ a : string * xty, (a.1, view (erase a.2))) args, view (erase r));
  (** every exported type has its name *)
  d_types : ∀ n t k, JType n t ∈ is → type_key LC (erase t) = Some k → find k (w_types w) = Some (view (erase t));
  (** a name of a type is of that type *)
  d_names : ∀ t k τ, occurs t (map erase_item is) → type_key LC t = Some k → find k (w_types w) = Some τ → τ = view t;
  (** an enum has its variants, with the values of Rust *)
  d_enums : ∀ n vs j v z, (n, vs) ∈ flat_map item_enums is → find (suffixed n) (w_types w) ≠ None →
    vs !! j = Some v → discriminants 0 vs !! j = Some z → find (text_of (variant_name n v.1.2)) (w_consts w) = Some z;
  (** every constant is there *)
  d_consts : ∀ d n t u v, JConst d n t u v ∈ is → (chars n, const_body t u v) ∈ w_macros w }.
