(** The functions of the external package github.com/iomz/go-llrp/binutil that
    the code calls.  Its source is not in /repo: these definitions are the
    recorded assumptions about it.  They are consistent with every expected
    value in the repository's own tests (see [TestVectors.v]). *)
From Verif Require Import GoBase.

(** What the model leaves open: the random generator (used for empty fields),
    and the decimal parser on strings that are not decimal numerals below 2^63.
    Every theorem holds for every [env]. *)
Record env : Type := {
  (** [GenerateNLengthRandomBinRuneSlice(n, max)]: the slice returned for
      length [n]; simplification: it depends on the length only. *)
  e_rand : nat -> gostring;
  (** [GenerateNLengthAlphabetString], [...DigitString], [...HexString] *)
  e_rand_text : nat -> gostring;
  (** [ParseDecimalStringToBinRuneSlice] on other strings *)
  e_dec_bad : gostring -> gostring
}.

Definition is_int63 (s : gostring) : bool :=
  match s with
  | [] => false
  | _ => all_digits s && (dec_value s <? 2 ^ 63)%N
  end.

(** [ParseDecimalStringToBinRuneSlice(s)]: minimal binary numeral of a decimal
    numeral. *)
Definition dec_to_bin (E : env) (s : gostring) : gostring :=
  if is_int63 s then bin_string (dec_value s) else e_dec_bad E s.

(** [GenerateNLengthZeroPaddingRuneSlice(n)] *)
Definition zero_padding (n : nat) : gostring := repeat c0 n.

(** [ParseRuneTo6BinRuneSlice(r)]: the six low bits of the character code. *)
Definition bits_to_str (l : list bool) : gostring :=
  map (fun b : bool => if b then c1 else c0) l.
Definition rune_to_6bin (c : ascii) : gostring :=
  bits_to_str (map (N.testbit (N_of_ascii c)) [5; 4; 3; 2; 1; 0]%N).
(** [ParseRuneSliceTo6BinRuneSlice(rs)] *)
Definition runes_to_6bin (s : gostring) : gostring := flat_map rune_to_6bin s.

(** [ParseByteSliceToBinString(bs)]: eight characters per byte. *)
Definition bytes_to_binstr (l : list N) : gostring := bits_to_str (bits_of_bytes l).

(** [ParseBinRuneSliceToUint8Slice(bs)]: eight binary digits per byte; an error
    when the length is not a multiple of eight or a rune is not a digit. *)
Definition bit_of_char (c : ascii) : option bool :=
  if Ascii.eqb c c0 then Some false else if Ascii.eqb c c1 then Some true else None.
Fixpoint chars_to_bits (s : gostring) : option (list bool) :=
  match s with
  | [] => Some []
  | c :: s' =>
      match bit_of_char c, chars_to_bits s' with
      | Some b, Some bs => Some (b :: bs)
      | _, _ => None
      end
  end.
Fixpoint bytes_of_bits (l : list bool) : option (list N) :=
  match l with
  | [] => Some []
  | b7 :: b6 :: b5 :: b4 :: b3 :: b2 :: b1 :: b0 :: l' =>
      match bytes_of_bits l' with
      | Some bs => Some (N_of_bits [b7; b6; b5; b4; b3; b2; b1; b0] :: bs)
      | None => None
      end
  | _ => None
  end.
Definition binstr_to_bytes (s : gostring) : result (list N) :=
  match chars_to_bits s with
  | Some bs => match bytes_of_bits bs with Some l => Ok l | None => Err end
  | None => Err
  end.

(** The value of a hexadecimal digit, in either case. *)
Definition hex_value (c : ascii) : option N :=
  let n := N_of_ascii c in
  if ((48 <=? n) && (n <=? 57))%N then Some (n - 48)%N
  else if ((97 <=? n) && (n <=? 102))%N then Some (n - 87)%N
  else if ((65 <=? n) && (n <=? 70))%N then Some (n - 55)%N
  else None.
(** [ParseHexStringToBinString(s)]: four binary digits per hexadecimal digit; an
    error for any other character. *)
Fixpoint hex_to_binstr (s : gostring) : result gostring :=
  match s with
  | [] => Ok []
  | c :: s' =>
      match hex_value c with
      | None => Err
      | Some v => let! r := hex_to_binstr s' in Ok (bits_to_str (map (N.testbit v) [3; 2; 1; 0]%N) ++ r)
      end
  end.
