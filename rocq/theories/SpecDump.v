(** Vocabulary of the properties about printed texts. *)
From Verif Require Import GoBase BinUtil MFilter MTdtCore MSubs MList MPatricia MSplay Spec SpecSubs SpecRun.

(** A text without a line break. *)
Definition one_line (s : gostring) : Prop := ~ In (ascii_of_N 10) s.

(** Subscriptions whose report URIs have no line break and whose patterns become
    bit strings. *)
Definition printable (E : env) (sub : subscriptions) : Prop :=
  Forall is_bitstring (mkeys (to_byte_subs E sub)) /\ Forall one_line (map fst sub).
Definition printable_op (E : env) (op : update) : Prop :=
  match op with Add sub | Del sub => printable E sub end.
Definition printable_call (E : env) (c : scall) : Prop := match c with SSearch _ => True | SUpdate op => printable_op E op end.

(** Nested byte subscriptions that can be told apart in print: prefixes are bit
    strings and report URIs have no line break, at every level. *)
Inductive printable_psub : psub -> Prop :=
| printable_PSub o u l : one_line u -> Forall (fun kv => is_bitstring (fst kv) /\ printable_psub (snd kv)) l ->
    printable_psub (PSub o u l).
Definition printable_bsubs (b : bsubs) : Prop :=
  Forall (fun kv => is_bitstring (fst kv) /\ printable_psub (snd kv)) b.

(** The bytes on which the verb %q is modelled exactly. *)
Definition low_ascii (s : gostring) : Prop := Forall (fun c => (N_of_ascii c < 127)%N) s.
