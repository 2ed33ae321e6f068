(** What [safer_ffi::libc] is for, without name resolution: each name is the
    type of [::libc] where there is one, and its replacement where not. *)
From stdpp Require Import base strings list.
From Verif Require Import LibcModel.
Import stdpp.list.
Open Scope string_scope.

(** The replacement, read as a type from anywhere. *)
Definition plain (f : fty) : ty :=
  match f with FName s => TPrim s | FCore s => TCore s end.

Definition chosen (has_type : string → bool) (e : entry) : ty :=
  if has_type e.1 then TLibc e.1 else plain e.2.

(** No replacement is a bare identifier that the list defines as well. *)
Definition outside (l : list entry) : Prop :=
  Forall (λ e : entry, match e.2 with FName s => s ∉ l.*1 | FCore _ => True end) l.

(** The names that the macro uses for its own modules. *)
Definition reserved : list string := ["helper"; "real_libc"; "fallback"].

(** The primitive that a name of the crate's list is on a platform. *)
Definition want (p : platform) (n : string) (fb : string) : string :=
  if libc_has p NT n then libc_def p n else fb.
