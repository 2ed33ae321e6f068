(** What the builder of headers is to do, said apart from how it writes. *)

From Coq Require Import NArith List Bool String Ascii.
From stdpp Require Import base numbers list strings.
From Verif Require Import NameModel DocModel HeaderModel CsModel TextModel BuildModel.
From Verif Require FrameModel.

(** ** Options *)

(** The last value an option was given, [None] if it never was. *)
Fixpoint last_of {A} (f : call → option A) (cs : list call) : option A :=
  match cs with
  | [] => None
  | c :: cs => match last_of f cs with Some a => Some a | None => f c end
  end.
Definition guard_in (c : call) := match c with WithGuard s => Some s | _ => None end.
Definition after_in (c : call) := match c with WithTextAfterGuard s => Some s | _ => None end.
Definition banner_in (c : call) := match c with WithBanner s => Some s | _ => None end.
Definition language_in (c : call) := match c with WithLanguage l => Some l | _ => None end.
Definition stable_in (c : call) := match c with WithStable b => Some b | _ => None end.
Definition is_naming (c : call) : bool := match c with WithNaming _ => true | _ => false end.

(** ** The text *)

(** The items in the order they are written: by name, or the last registered first. *)
Definition ordered (b : builder) (is : list xitem) : list xitem := if stable b then xbtree is else rev is.

(** The file for these options, if the items can be written and the name of the library is known where needed. *)
Definition whole P ws fn_style (b : builder) (e : FrameModel.vars) (is : list xitem) : option (list N) :=
  match lib_of b e, xwrite_body (language b) (stable b) is with
  | Some lib, XOk s => Some (utf8_text (file_text (language b) (frame b) lib (body_text P ws fn_style (xout s))))
  | _, _ => None
  end.

(** ** Writers *)

(** An answer that is no failure. *)
Definition fine (a : answer) : Prop := match a with Take n => n ≠ 0%nat | Interrupted => True | Fails _ => False end.
Definition taking (a : answer) : Prop := match a with Take _ => True | _ => False end.
Global Instance taking_dec a : Decision (taking a).
Proof. destruct a; cbn; apply _. Defined.
(** So many [write]s of at least one byte each. *)
Definition writes (ans : list answer) : nat := length (filter taking ans).
(** The first failure among the answers. *)
Definition first_failure (ans : list answer) (o : stop) : Prop :=
  ∃ pre post a, ans = pre ++ a :: post ∧ Forall fine pre ∧
    match a with Fails e => o = SIo e | Take n => n = 0%nat ∧ o = SZero | Interrupted => False end.

(** ** Bytes *)

(** RFC 3629: the characters the bytes stand for. *)
Fixpoint utf8_read (l : list N) : option (list N) :=
  match l with
  | [] => Some []
  | a :: r1 =>
      if (a <? 0x80)%N then cons a <$> utf8_read r1
      else match r1 with
      | [] => None
      | b :: r2 =>
          if (a <? 0xE0)%N then cons ((a - 0xC0) * 64 + (b - 0x80))%N <$> utf8_read r2
          else match r2 with
          | [] => None
          | c :: r3 =>
              if (a <? 0xF0)%N then cons (((a - 0xE0) * 64 + (b - 0x80)) * 64 + (c - 0x80))%N <$> utf8_read r3
              else match r3 with
              | [] => None
              | d :: r4 => cons ((((a - 0xF0) * 64 + (b - 0x80)) * 64 + (c - 0x80)) * 64 + (d - 0x80))%N <$> utf8_read r4
              end
          end
      end
  end.
(** A [char]. *)
Definition scalar (c : N) : Prop := (c < 0xD800 ∨ 0xDFFF < c)%N ∧ (c < 0x110000)%N.
