(** C59: the constants of a header have the values they have in Rust.

    The property fails for some values: the [_exact] theorems say for which,
    for every value of the modelled types, and the [_refuted] ones show a
    constant of each kind that is wrong. *)

From Coq Require Import ZArith NArith QArith List Bool Lia String Ascii.
From Coq.Floats Require Import SpecFloat.
From stdpp Require Import base numbers list strings.
From Verif Require Import HeaderModel ConstModel ConstSpec ConstProofs.
Local Open Scope Z_scope.

(** No name but those of the constants stands for a number. *)
Definition no_names : text -> option Z := fun _ => None.

(** ** C *)

(** Every integer, but for [i64::MIN] and the [u64] from [2^63] on, is in a C
    header a constant of its type with its value. *)
Theorem C59_c_integers_partial env w name i z :
  ident name -> in_range w i z = true -> - 2 ^ 63 < z < 2 ^ 63 ->
  read_c env w (emit_c name false (VInt i z)) = Some (name, CI (ROf i) z).
Proof.
  intros Hn Hz Hb. destruct (c_declares_iff env w name (VInt i z) Hn Hz) as [_ H].
  destruct (H Hb) as (c & Hr & ->). exact Hr.
Qed.

Example C59_c_integers_ex :
  ident (tx "ANSWER") /\ in_range 64 I8 (-42) = true /\ - 2 ^ 63 < -42 < 2 ^ 63 /\
  string_of_list_ascii (emit_c (tx "ANSWER") false (VInt I8 (-42))) = "#define ANSWER ((int8_t) -42)"%string.
Proof. split_and!; done. Qed.

(** The exact set of the constants that a C header gets right, with the type;
    for [f32]: those that come back from the [double] that their shortest
    decimal denotes. *)
Theorem C59_c_exact env w name v : ident name -> wf w v ->
  c_declares env w (emit_c name false v) name v <-> c_right env v.
Proof. apply c_declares_iff. Qed.

Example C59_c_exact_ex :
  let half := VFloat true (S754_finite true 4503599627370496 (-53)) (FDec true false [5%N] 0) in
  ident (tx "HALF") /\ wf 64 half /\ c_right no_names half /\
  string_of_list_ascii (emit_c (tx "HALF") false half) = "#define HALF ((double) -0.5)"%string /\
  wf 64 (VNull true (TStruct "Foo" [] [])) /\
  string_of_list_ascii (emit_c (tx "NO_FOO") false (VNull true (TStruct "Foo" [] [])))
    = "#define NO_FOO ((Foo_t const *) 0x0)"%string.
Proof.
  cbn zeta. split_and!; try done.
  - cbn [wf wf_float]. split_and!; [done|by repeat constructor|vm_compute; done].
  - by left.
Qed.

(** … and without the type, [#[ffi_export(untyped)]]: as numbers. *)
Theorem C59_c_untyped_exact env w name v : ident name -> wf w v ->
  c_declares_number env w (emit_c name true v) name v <-> c_number_right env v.
Proof. apply c_declares_number_iff. Qed.

Example C59_c_untyped_ex :
  ident (tx "N") /\ wf 64 (VInt U16 300) /\ c_number_right no_names (VInt U16 300) /\
  read_c no_names 64 (emit_c (tx "N") true (VInt U16 300)) = Some (tx "N", CI RCInt 300).
Proof. split_and!; try done; vm_compute; done. Qed.

(** [u64::MAX] and [i64::MIN] are not C constants. *)
Theorem C59_c_large_refuted : exists name i z,
  ident name /\ in_range 64 i z = true /\ read_c no_names 64 (emit_c name false (VInt i z)) = None.
Proof. exists (tx "MAX"), U64, (2 ^ 64 - 1). split_and!; vm_compute; done. Qed.
Theorem C59_c_smallest_refuted : exists name i z,
  ident name /\ in_range 64 i z = true /\ read_c no_names 64 (emit_c name false (VInt i z)) = None.
Proof. exists (tx "MIN"), I64, (- 2 ^ 63). split_and!; vm_compute; done. Qed.

(** [7.038531e-26_f32] is another float in C: the decimal is rounded to a
    [double] first. *)
Theorem C59_c_float_refuted : exists name f g form,
  ident name /\ wf 64 (VFloat false f form) /\ f <> g /\
  read_c no_names 64 (emit_c name false (VFloat false f form)) = Some (name, CF false g).
Proof.
  exists (tx "TINY"), (S754_finite false 11420669 (-107)), (S754_finite false 11420670 (-107)),
    (FDec false true [7;0;3;8;5;3;1]%N (-25)).
  split_and!; [done| |done|vm_compute; done].
  cbn [wf wf_float]. split_and!; [done|by repeat constructor|vm_compute; done].
Qed.

(** [0.1_f32] without its type is another number. *)
Theorem C59_c_untyped_float_refuted : exists name f form,
  ident name /\ wf 64 (VFloat false f form) /\
  ~ c_declares_number no_names 64 (emit_c name true (VFloat false f form)) name (VFloat false f form).
Proof.
  exists (tx "TENTH"), (S754_finite false 13421773 (-27)), (FDec false false [1%N] 0).
  assert (Hw : wf 64 (VFloat false (S754_finite false 13421773 (-27)) (FDec false false [1%N] 0))).
  { cbn [wf wf_float]. split_and!; [done|by repeat constructor|vm_compute; done]. }
  split; [done|]. split; [exact Hw|]. rewrite c_declares_number_iff by done.
  cbn [c_number_right]. intros H. vm_compute in H. discriminate H.
Qed.

(** No infinity and no NaN is a C constant, whatever the names around. *)
Theorem C59_c_non_finite_refuted env w name d f form :
  ident name -> wf w (VFloat d f form) -> (f = S754_nan \/ exists s, f = S754_infinity s) ->
  match form with FDec _ _ _ _ => False | _ => True end ->
  ~ c_declares env w (emit_c name false (VFloat d f form)) name (VFloat d f form).
Proof.
  intros Hn Hw Hf Hform. rewrite c_declares_iff by done. cbn [c_right]. intros HR.
  destruct form as [|s|s|]; try done. cbn [wf wf_float] in Hw. subst f.
  destruct Hf as [Hf|[? Hf]]; try done; discriminate Hf.
Qed.
Example C59_c_non_finite_ex :
  wf 64 (VFloat true (S754_infinity true) (FInf true)) /\
  string_of_list_ascii (emit_c (tx "MINUS_INF") false (VFloat true (S754_infinity true) (FInf true)))
    = "#define MINUS_INF ((double) -inf)"%string /\
  read_c no_names 64 (emit_c (tx "MINUS_INF") false (VFloat true (S754_infinity true) (FInf true))) = None.
Proof. split_and!; vm_compute; done. Qed.

(** No [c_char] is. *)
Theorem C59_c_char_refuted env w name n : ident name -> (n < 256)%N ->
  ~ c_declares env w (emit_c name false (VCChar n)) name (VCChar n).
Proof. intros Hn Hc. rewrite c_declares_iff by done. intros []. Qed.
Example C59_c_char_ex :
  (65 < 256)%N /\ string_of_list_ascii (emit_c (tx "A") false (VCChar 65)) = "#define A ((char) c_char(65))"%string.
Proof. split; done. Qed.

(** A variant is printed with its name in Rust, which is not that of the
    enumerator in the same header. *)
Theorem C59_c_enum_refuted : exists env name v,
  ident name /\ wf 64 v /\ env (tx "COLOR_RED") = Some 1 /\
  string_of_list_ascii (emit_c name false v) = "#define DEFAULT ((Color_t) Red)"%string /\
  ~ c_declares env 64 (emit_c name false v) name v.
Proof.
  exists (fun x => if bool_decide (x = tx "COLOR_RED") then Some 1 else None), (tx "DEFAULT"),
    (VEnum "Color" (Some U8) "Red" 1).
  assert (Hw : wf 64 (VEnum "Color" (Some U8) "Red" 1)) by (cbn [wf]; split_and!; done).
  split; [done|]. split; [exact Hw|]. split; [done|]. split; [done|].
  rewrite c_declares_iff by done. cbn [c_right]. done.
Qed.

(** A reference to [5] is the address [5]. *)
Theorem C59_c_reference_refuted : exists name v,
  ident name /\ wf 64 v /\
  string_of_list_ascii (emit_c name false v) = "#define FIVE ((uint8_t const *) 5)"%string /\
  read_c no_names 64 (emit_c name false v) = Some (name, CP 5).
Proof. exists (tx "FIVE"), (VRef (VInt U8 5)). split_and!; try done; vm_compute; done. Qed.

(** ** C# *)

(** The exact set of the constants that a C# header gets right: the integers
    (those of the size of a pointer only from C# 11 on and within 32 bits),
    [bool], [c_int], and the finite [f64]. *)
Theorem C59_csharp_exact native name v : ident name -> wf 64 v ->
  (exists line, emit_cs name false v = Some line /\ cs_declares native line name v) <-> cs_right native v.
Proof. apply cs_declares_iff. Qed.

Example C59_csharp_exact_ex :
  ident (tx "MIN") /\ wf 64 (VInt I64 (- 2 ^ 63)) /\ cs_right false (VInt I64 (- 2 ^ 63)) /\
  option_map string_of_list_ascii (emit_cs (tx "MIN") false (VInt I64 (- 2 ^ 63)))
    = Some "public const Int64 MIN = -9223372036854775808;"%string.
Proof. split_and!; try done; vm_compute; done. Qed.

(** No [f32] constant compiles. *)
Theorem C59_csharp_float_refuted native name f form : ident name -> wf 64 (VFloat false f form) ->
  ~ exists line, emit_cs name false (VFloat false f form) = Some line
      /\ cs_declares native line name (VFloat false f form).
Proof. intros Hn Hw. rewrite cs_declares_iff by done. by intros [? _]. Qed.
Example C59_csharp_float_ex :
  wf 64 (VFloat false (S754_finite false 12582912 (-23)) (FDec false false [1;5]%N 1)) /\
  option_map string_of_list_ascii
    (emit_cs (tx "X") false (VFloat false (S754_finite false 12582912 (-23)) (FDec false false [1;5]%N 1)))
    = Some "public const float X = 1.5;"%string.
Proof. split; [|done]. cbn [wf wf_float]. split_and!; [done|by repeat constructor|vm_compute; done]. Qed.

(** Nor does a [usize] that needs more than 32 bits, in any version. *)
Theorem C59_csharp_usize_refuted : exists name z, ident name /\ in_range 64 Usize z = true /\
  forall native, ~ exists line, emit_cs name false (VInt Usize z) = Some line
      /\ cs_declares native line name (VInt Usize z).
Proof.
  exists (tx "BIG"), (2 ^ 32). split; [done|]. split; [done|]. intros native.
  rewrite cs_declares_iff by done. intros [_ H]. vm_compute in H. discriminate H.
Qed.

(** An untyped constant is missing, whatever its value. *)
Theorem C59_csharp_untyped_refuted name v : emit_cs name true v = None.
Proof. done. Qed.

Print Assumptions C59_c_integers_partial.
Print Assumptions C59_c_exact.
Print Assumptions C59_c_untyped_exact.
Print Assumptions C59_csharp_exact.
