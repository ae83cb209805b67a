(** Specification side of the ISO 17363 / ISO 17365 properties. *)
From Verif Require Import GoBase.

(** Characters of the 6-bit code: codes 0x20 (space) to 0x5F; the space also
    serves as padding. *)
Definition six_bit (c : ascii) : Prop := (32 <= N_of_ascii c < 96)%N.
Definition space : ascii := " "%char.
Definition six_bit_text (s : gostring) : Prop := Forall (fun c => six_bit c /\ c <> space) s.
(** The text without its spaces. *)
Definition without_spaces (s : gostring) : gostring := filter (fun c => negb (Ascii.eqb c space)) s.

(** ISO 6346: the value of a digit is the digit; letters count from A = 10 on,
    leaving out the multiples of 11. *)
Definition is_upper (c : ascii) : bool := let n := N_of_ascii c in ((65 <=? n) && (n <=? 90))%N.
Definition code_char (c : ascii) : Prop := is_digit c = true \/ is_upper c = true.
Definition iso6346_value (c : ascii) : Z :=
  let n := Z.of_N (N_of_ascii c) in
  if is_digit c then n - 48 else 10 + (n - 65) + (n - 65 + 9) / 10.
(** Every position has twice the weight of the one before it. *)
Fixpoint weighted_sum (w : Z) (s : gostring) : Z :=
  match s with [] => 0 | c :: s' => w * iso6346_value c + weighted_sum (2 * w) s' end.
Definition check_digit (s : gostring) : Z := (weighted_sum 1 s mod 11) mod 10.
(** A digit as a character. *)
Definition digit_char (z : Z) : ascii := ascii_of_N (48 + Z.to_N z).

(** A container code: owner code and equipment category (four characters in
    all), serial number of six. *)
Definition container_code (oc ei csn : gostring) : Prop :=
  oc <> [] /\ ei <> [] /\ length oc + length ei = 4 /\ length csn = 6 /\ Forall code_char (oc ++ ei ++ csn).

(** The fields a pattern gives: those before the first empty one. *)
Fixpoint given (l : list gostring) : list gostring :=
  match l with [] => [] | s :: l' => match s with [] => [] | _ => s :: given l' end end.
(** A field text that survives in a pattern: upper case, without separators. *)
Definition clean (s : gostring) : Prop := to_upper s = s /\ ~ In "."%char s /\ ~ In ":"%char s.
