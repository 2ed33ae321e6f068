(** Model of [safer_ffi::headers::builder()]: its options, what is written where, errors and panics.

    - headers/_mod.rs 108-215 the options and [with_..], 217-312 [to_file], [to_writer], [generate],
      316-446 [generate_with_definer] and its parts, 467-477 lib_name
    - headers/definer.rs 1-110 [Definer], [HashSetDefiner]
    - proc_macro/ffi_export/fn_/mod.rs 361-376, the error for a name that is taken
    - of std: [Write::write_all], [Write::write_fmt], [BufWriter], [OpenOptions::truncate]

    The texts are those of [TextModel] and [FrameModel]; here they are written while the items are
    traversed, and writing may fail at any point.  [write!] writes its text in pieces, one per argument and
    per literal: here in any pieces ([cut]).  Left out: the allocation of the set; directories and permissions
    (opening a file may fail). *)

From Coq Require Import NArith List Bool String Ascii.
From stdpp Require Import base numbers list strings.
From Verif Require Import NameModel DocModel HeaderModel CsModel TextModel.
From Verif Require FrameModel.
Local Open Scope N_scope.

(** ** Options *)

(** headers/_mod.rs 523-529 *)
Inductive naming := NDefault | NSuffix (s : string) | NPrefix (s : string) | NCustom (f : string → string).

(** headers/_mod.rs 185-191, the fields of [match_!] *)
Record builder := Builder {
  b_guard : option FrameModel.text;
  b_text_after_guard : option FrameModel.text;
  b_banner : option FrameModel.text;
  b_language : option lang;
  b_naming : option naming;
  b_stable : option bool;
}.
Definition new_builder : builder := Builder None None None None None None.

(** headers/_mod.rs 205-214: a call of [with_..]. *)
Inductive call :=
| WithGuard (s : FrameModel.text) | WithTextAfterGuard (s : FrameModel.text) | WithBanner (s : FrameModel.text)
| WithLanguage (l : lang) | WithNaming (n : naming) | WithStable (b : bool).
Definition with_ (b : builder) (c : call) : builder :=
  match c with
  | WithGuard s => Builder (Some s) (b_text_after_guard b) (b_banner b) (b_language b) (b_naming b) (b_stable b)
  | WithTextAfterGuard s => Builder (b_guard b) (Some s) (b_banner b) (b_language b) (b_naming b) (b_stable b)
  | WithBanner s => Builder (b_guard b) (b_text_after_guard b) (Some s) (b_language b) (b_naming b) (b_stable b)
  | WithLanguage l => Builder (b_guard b) (b_text_after_guard b) (b_banner b) (Some l) (b_naming b) (b_stable b)
  | WithNaming n => Builder (b_guard b) (b_text_after_guard b) (b_banner b) (b_language b) (Some n) (b_stable b)
  | WithStable s => Builder (b_guard b) (b_text_after_guard b) (b_banner b) (b_language b) (b_naming b) (Some s)
  end.
Definition build (cs : list call) : builder := fold_left with_ cs new_builder.

(** headers/_mod.rs 365, 393 *)
Definition language (b : builder) : lang := default LC (b_language b).
(** headers/_mod.rs 392 *)
Definition stable (b : builder) : bool := default true (b_stable b).
Definition frame (b : builder) : FrameModel.options :=
  FrameModel.Options (b_guard b) (b_text_after_guard b) (b_banner b).

(** ** Writers *)

(** [char::encode_utf8] *)
Definition utf8_char (c : N) : list N :=
  if c <? 0x80 then [c]
  else if c <? 0x800 then [0xC0 + c / 64; 0x80 + c mod 64]
  else if c <? 0x10000 then [0xE0 + c / 4096; 0x80 + (c / 64) mod 64; 0x80 + c mod 64]
  else [0xF0 + c / 262144; 0x80 + (c / 4096) mod 64; 0x80 + (c / 64) mod 64; 0x80 + c mod 64].
Definition utf8_text (t : ntext) : list N := flat_map utf8_char t.

(** Why nothing more is written: the error [e] of a write; a write that wrote nothing
    ([ErrorKind::WriteZero]); a name that is taken ([AlreadyExists]); a panic; or the writer does not answer. *)
Inductive stop := SIo (e : N) | SZero | SDup (n : string) | SPanic | SHang.

(** What a writer answers to one [write]: so many bytes (at most all) are taken; [Interrupted]; an error. *)
Inductive answer := Take (n : nat) | Interrupted | Fails (e : N).

(** A writer of answers to come and the bytes it has taken. *)
Record raw := Raw { answers : list answer; sunk : list N }.

(** [Write::write_all] of std: calls of [write] until all is taken. *)
Fixpoint write_all (buf : list N) (ans : list answer) (got : list N) : raw * option stop :=
  match buf with
  | [] => (Raw ans got, None)
  | _ =>
      match ans with
      | [] => (Raw [] got, Some SHang)
      | Take n :: ans =>
          match take n buf with
          | [] => (Raw ans got, Some SZero)
          | _ => write_all (drop n buf) ans (got ++ take n buf)
          end
      | Interrupted :: ans => write_all buf ans got
      | Fails e :: ans => (Raw ans got, Some (SIo e))
      end
  end.
Definition raw_write (buf : list N) (r : raw) : raw * option stop := write_all buf (answers r) (sunk r).

(** [BufWriter] of std: what is not yet written, and its capacity. *)
Record buffered := Buffered { b_inner : raw; b_buf : list N; b_cap : nat }.
(** [BufWriter::flush_buf]: what the writer did not take stays in the buffer. *)
Definition flush_buf (b : buffered) : buffered * option stop :=
  let (r, o) := raw_write (b_buf b) (b_inner b) in
  (Buffered r (drop (length (sunk r) - length (sunk (b_inner b))) (b_buf b)) (b_cap b), o).
(** [BufWriter::write_all] *)
Definition buffered_write (t : list N) (b : buffered) : buffered * option stop :=
  if (length t <? b_cap b - length (b_buf b))%nat then (Buffered (b_inner b) (b_buf b ++ t) (b_cap b), None)
  else
    let (b, o) :=
      if (b_cap b - length (b_buf b) <? length t)%nat then flush_buf b else (b, None) in
    match o with
    | Some e => (b, Some e)
    | None =>
        if (b_cap b <=? length t)%nat then
          let (r, o) := raw_write t (b_inner b) in (Buffered r (b_buf b) (b_cap b), o)
        else (Buffered (b_inner b) (b_buf b ++ t) (b_cap b), None)
    end.
(** [Drop for BufWriter]: an error of the last flush is ignored. *)
Definition buffered_drop (b : buffered) : raw := b_inner (flush_buf b).1.

(** ** Writing a header *)

Section Run.
Context (P : platform) (ws : N → bool) (fn_style : bool) (cut : list N → list (list N)).
Context {W : Type} (wr : list N → W → W * option stop).

(** The definer: definer.rs 78-110. *)
Record state := State { seen : list string; out : W }.
Definition res := (state * option stop)%type.
Definition then_ (r : res) (f : state → res) : res := match r with (s, None) => f s | (s, Some e) => (s, Some e) end.

Fixpoint pieces (ts : list (list N)) (w : W) : W * option stop :=
  match ts with
  | [] => (w, None)
  | t :: ts => match wr t w with (w, None) => pieces ts w | (w, Some e) => (w, Some e) end
  end.
(** [write!]: an error ends it. *)
Definition puts (t : ntext) (s : state) : res :=
  let (w, o) := pieces (cut (utf8_text t)) (out s) in (State (seen s) w, o).
(** definer.rs 51-65 *)
Definition once (k : string) (body : state → res) (s : state) : res :=
  if bool_decide (k ∈ seen s) then (s, None) else body (State (k :: seen s) (out s)).
Definition emit (l : lang) (d : xdecl) : state → res := puts (render P ws fn_style l d).

Definition define_int (l : lang) : state → res :=
  match l with LCSharp => λ s, (s, None) | _ => once int_headers (emit l YInts) end.
(** As [TextModel.xdefine], writing. *)
Fixpoint define (l : lang) (t : xty) : state → res :=
  match t with
  | XInt _ => define_int l
  | XFloat _ | XVoid | XCInt | XChar => λ s, (s, None)
  | XBool => match l with LCSharp => λ s, (s, None) | _ => once "bool" (emit l YBool) end
  | XPtr _ t => define (legacy l) t
  | XArr t' n =>
      match l with
      | LCSharp => λ s,
          then_ (define LCSharp t' s)
            (once (suffixed (xshort t)) (emit LCSharp (YArr (suffixed (xshort t)) t' n)))
      | _ =>
          once (suffixed (xshort t)) (λ s,
            then_ (define LC t' s) (emit LC (YArr (suffixed (xshort t)) t' n)))
      end
  | XFn r args => λ s,
      then_ (define (legacy l) r s) (λ s,
        then_ ((fix go (ts : list xty) (s : state) : res :=
                  match ts with [] => (s, None) | t :: ts => then_ (define (legacy l) t s) (go ts) end) args s)
          (match l with
           | LCSharp => once (xshort t) (emit LCSharp (YDelegate (xshort t) r args))
           | _ => λ s, (s, None)
           end))
  | XStruct d _ _ fs =>
      once (suffixed (xshort t)) (λ s,
        then_ ((fix go (ts : list (docs * string * xty)) (s : state) : res :=
                  match ts with [] => (s, None) | (_, t) :: ts => then_ (define l t s) (go ts) end) fs s)
          (λ s,
             if zst (erase t) then (s, Some SPanic)
             else emit l (YStruct d (xshort t) (filter (λ f, zst (erase f.2) = false) fs)) s))
  | XEnum d n i vs =>
      once (suffixed n) (λ s, then_ (define_int l s) (emit l (YEnum d n i vs)))
  | XAlias d n t =>
      once (suffixed n) (λ s,
        then_ (define l t s) (match l with LC => emit LC (YAlias d (suffixed n) t) | _ => λ s, (s, None) end))
  | XOpaque d n => once (suffixed n) (emit l (YOpaque d n))
  end.

Fixpoint define_all (l : lang) (ts : list xty) (s : state) : res :=
  match ts with [] => (s, None) | t :: ts => then_ (define l t s) (define_all l ts) end.
(** fn_/mod.rs 350-405: the name is asked for before anything is written. *)
Definition gen_def (l : lang) (i : xitem) (s : state) : res :=
  match i with
  | JFn d n args r =>
      if bool_decide (n ∈ seen s) then (s, Some (SDup n))
      else
        then_ (define_all l (map snd args) (State (n :: seen s) (out s))) (λ s,
          then_ (define l r s) (emit l (YFn d n args r)))
  | JConst d n t u v =>
      then_ (define l t s) (λ s,
        match l, u with LCSharp, true => (s, None) | _, _ => emit l (YConst d n t u v) s end)
  | JType _ t => define l t s
  end.
(** headers/_mod.rs 421: [try_for_each] *)
Fixpoint gen_all (l : lang) (is : list xitem) (s : state) : res :=
  match is with [] => (s, None) | i :: is => then_ (gen_def l i s) (gen_all l is) end.

(** headers/_mod.rs 389-423: [_naming_convention] is computed and not used. *)
Definition write_body (b : builder) (is : list xitem) : state → res :=
  gen_all (language b) (if stable b then xbtree is else rev is).

(** headers/_mod.rs 362-387, 425-446: the guard asks for the name of the library unless it is given
    (also when it is not printed), C# always does. *)
Definition asks (b : builder) : bool :=
  match language b, b_guard b with LCSharp, _ | _, None => true | _, Some _ => false end.
Definition lib_of (b : builder) (e : FrameModel.vars) : option FrameModel.text :=
  if asks b then FrameModel.lib_name e else Some [].

(** headers/_mod.rs 326-344 *)
Definition generate_with (b : builder) (e : FrameModel.vars) (is : list xitem) (s : state) : res :=
  then_ (puts (of_text (FrameModel.write_banner (frame b))) s) (λ s,
  match lib_of b e with
  | None => (s, Some SPanic)
  | Some lib =>
      then_ (puts (of_text (FrameModel.write_prelude (language b) (frame b) lib)) s) (λ s,
      then_ (write_body b is s) (puts (of_text (FrameModel.write_epilogue (language b) (frame b) lib))))
  end).
(** headers/_mod.rs 285-298: a new set; the writer is dropped at the end. *)
Definition generate (b : builder) (e : FrameModel.vars) (is : list xitem) (w : W) : W * option stop :=
  let (s, o) := generate_with b e is (State [] w) in (out s, o).
End Run.

(** ** Files *)

(** headers/_mod.rs 240-251: the file is created or emptied when the builder is given its path, before
    anything is generated.  [None]: it cannot be opened.  A [File] is not buffered. *)
Definition files := string → option (list N).
Definition set_file (fs : files) (p : string) (c : list N) : files :=
  λ q, if String.eqb q p then Some c else fs q.
Definition to_file_generate P ws fn_style cut (opens : bool) (fs : files) (p : string)
    (b : builder) (e : FrameModel.vars) (is : list xitem) (ans : list answer) : files * option (option stop) :=
  if opens then
    let (r, o) := generate P ws fn_style cut raw_write b e is (Raw ans []) in (set_file fs p (sunk r), Some o)
  else (fs, None).
(** [to_writer(BufWriter::with_capacity(cap, ..))] *)
Definition to_buffered_generate P ws fn_style cut (cap : nat)
    (b : builder) (e : FrameModel.vars) (is : list xitem) (ans : list answer) : raw * option stop :=
  let (w, o) := generate P ws fn_style cut buffered_write b e is (Buffered (Raw ans []) [] cap) in
  (buffered_drop w, o).
