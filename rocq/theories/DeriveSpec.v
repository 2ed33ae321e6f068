(** What [#[derive_ReprC(..)]] is documented to do with an item, written down independently of how it
    finds out. *)
From Coq Require Import String.
From stdpp Require Import base numbers list.
From Verif Require Import DeriveModel.

(** ** Arguments: [rename = ..] and [js], each at most once, separated by optional commas. *)
Definition is_word (t : tok) : bool := match t with TRename | TJs => true | _ => false end.
Definition is_clone (t : tok) : bool := match t with TClone => true | _ => false end.
(** Words, each followed by at most one comma. *)
Inductive separated (w : tok → bool) : list tok → Prop :=
  | sep_nil : separated w []
  | sep_word t ts : w t = true → separated w ts → separated w (t :: ts)
  | sep_comma t ts : w t = true → separated w ts → separated w (t :: TComma :: ts).
Definition is_rename (t : tok) : bool := match t with TRename => true | _ => false end.
Definition is_js (t : tok) : bool := match t with TJs => true | _ => false end.
Definition times (w : tok → bool) (ts : list tok) : nat := List.length (List.filter w ts).
Definition good_args (ts : list tok) : Prop :=
  separated is_word ts ∧ (times is_rename ts ≤ 1)%nat ∧ (times is_js ts ≤ 1)%nat.

(** ** The item *)

(** Its [repr] attributes. *)
Definition reprs (i : item) : list (option (list word)) :=
  omap (λ a, match a with ARepr ws => Some ws | _ => None end) (i_attrs i).
(** They consist of identifiers, as [C] or [u8] and unlike [align(8)]. *)
Definition plain (ws : option (list word)) : Prop := ∃ ss, ws = Some (WId <$> ss).

(** A newtype of a C function: one public field. *)
Definition c_function (fn : fnptr) : Prop :=
  fn_variadic fn = false ∧ (fn_abi fn = Some None ∨ fn_abi fn = Some (Some "C"%string)).
Definition fn_newtype (sh : shape) (i : item) : Prop :=
  i_vis i = Pub ∧ ∃ f fn, i_data i = DStruct sh [f] ∧ f_vis f = Pub ∧ f_fn f = Some fn ∧ c_function fn.

(** The words without [js], which only asks for the JavaScript part. *)
Definition without_js (ss : list string) : list string := List.filter (λ s, negb (String.eqb s "js")) ss.

(** The integer types of a fixed width. *)
Definition an_int (s : string) : bool :=
  existsb (λ w, String.eqb s ("u" ++ w) || String.eqb s ("i" ++ w)) ["8"; "16"; "32"; "64"; "128"]%string.

(** What an item with the one attribute [#[repr(ss)]] is to be: [None], none of it. *)
Definition wanted (ss : list string) (i : item) : option kind :=
  match i_data i, without_js ss with
  | DStruct sh fs, [s] =>
      if String.eqb s "transparent" then
        match sh, fs with
        | _, [] => None
        | (Braces | Parens), [Field _ (Some _)] => Some KFptr
        | _, _ => Some KTransparent
        end
      else if String.eqb s "C" then match fs with [] => None | _ => Some KStruct end
      else if String.eqb s "opaque" then Some KOpaque
      else None
  | DEnum vs, ss =>
      if match ss with [s] => String.eqb s "opaque" | _ => false end then Some KOpaque
      else match List.filter an_int ss with
           | [] => if existsb (String.eqb "C") ss then Some (KEnum "C") else None
           | int :: _ => Some (KEnum int)
           end
  | _, _ => None
  end.

(** What else is asked of the item. *)
Definition allowed (ss : list string) (i : item) : Prop :=
  match i_data i with
  | DStruct sh fs =>
      match sh, fs, without_js ss with
      | (Braces | Parens), [f], [s] =>
          s = "transparent"%string →
          i_vis i = Pub ∧
          match f_fn f with
          | Some fn => f_vis f = Pub ∧ c_function fn ∧ (sh = Braces → i_lifetimes i = O)
          | None => True
          end
      | _, _, _ => True
      end
  | DEnum vs =>
      without_js ss = ["opaque"%string] ∨
      Forall (λ v, v = false) vs ∧ vs ≠ [] ∧ i_lifetimes i = O ∧ i_params i = O ∧ i_consts i = O ∧ i_where i = false ∧
      Forall (λ s, s = "C"%string ∨ an_int s = true) (without_js ss)
  | _ => False
  end.
(** [js] at most once, as rustc wants it of a word, and at most one integer type. *)
Definition coherent (ss : list string) : Prop :=
  (List.length (List.filter (String.eqb "js") ss) ≤ 1)%nat ∧ (List.length (List.filter an_int ss) ≤ 1)%nat.

(** [js] is among the words of the first [repr] attribute. *)
Definition asks_js (i : item) : Prop :=
  ∃ ss, head (reprs i) = Some (Some (WId <$> ss)) ∧ "js"%string ∈ ss.
(** What the old macro understands: documentation, then [#[repr(word, js)]] and a struct between
    braces. *)
Definition old_style (i : item) : Prop :=
  (∃ fs, i_data i = DStruct Braces fs) ∧
  ∃ docs s rest, Forall (λ a, a = ADoc) docs ∧
    i_attrs i = docs ++ ARepr (Some [WId s; WId "js"]) :: rest.

(** The same but for its visibility. *)
Definition with_vis (i : item) (v : vis) : item :=
  Item (i_attrs i) v (i_lifetimes i) (i_params i) (i_consts i) (i_where i) (i_data i).

(** More fields than a [u8] counts. *)
Definition many_fields (i : item) : Prop := ∃ sh fs, i_data i = DStruct sh fs ∧ (256 ≤ List.length fs)%nat.
(** The macro compiled without overflow checks. *)
Definition unchecked (f : features) : features := Features (feat_js f) (feat_dyn f) false.

(** The same but for its const parameters. *)
Definition without_consts (i : item) : item :=
  Item (i_attrs i) (i_vis i) (i_lifetimes i) (i_params i) O (i_where i) (i_data i).
Definition struct_item (i : item) : Prop := ∃ sh fs, i_data i = DStruct sh fs.
