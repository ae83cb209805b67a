(** Go values used by the model: strings, bytes, results, maps, and the
    standard-library string functions that the code calls.  Definitions only. *)
From Coq Require Export Ascii String Arith NArith ZArith Bool List.
Export ListNotations.
Open Scope list_scope.

(** A Go [string] is a sequence of bytes; an [ascii] is one byte.
    Simplification: [[]rune(s)] and [string(runes)] are the identity, which is
    exact for ASCII text. *)
Definition gostring := list ascii.

(** String literals. *)
Definition str (s : string) : gostring := list_ascii_of_string s.

(** Outcome of a Go call: a value, an error return (the other results are the
    zero values unless a model definition says otherwise), or a panic. *)
Inductive result (A : Type) : Type :=
| Ok (a : A)
| Err
| Panic.
Arguments Ok {A} a.
Arguments Err {A}.
Arguments Panic {A}.

Definition bind {A B} (r : result A) (f : A -> result B) : result B :=
  match r with Ok a => f a | Err => Err | Panic => Panic end.
Notation "'let!' x ':=' r 'in' k" := (bind r (fun x => k))
  (at level 200, x pattern, r at level 100, k at level 200, right associativity).

(** Slice indexing [s[i]]: panics when out of range. *)
Definition index {A} (s : list A) (i : nat) : result A :=
  match nth_error s i with Some a => Ok a | None => Panic end.

(** ** Characters *)
Definition c0 : ascii := "0"%char.
Definition c1 : ascii := "1"%char.
Definition cx : ascii := "x"%char.
Definition cdot : ascii := "."%char.
Definition ccolon : ascii := ":"%char.

(** ** Comparison, as Go's [==] and [<] on strings (bytewise lexicographic) *)
Fixpoint seqb (a b : gostring) : bool :=
  match a, b with
  | [], [] => true
  | x :: a', y :: b' => Ascii.eqb x y && seqb a' b'
  | _, _ => false
  end.

Fixpoint sltb (a b : gostring) : bool :=
  match a, b with
  | _, [] => false
  | [], _ :: _ => true
  | x :: a', y :: b' =>
      if (N_of_ascii x <? N_of_ascii y)%N then true
      else if (N_of_ascii y <? N_of_ascii x)%N then false
      else sltb a' b'
  end.

(** ** Package strings *)
(** [strings.HasPrefix(s, p)] *)
Fixpoint has_prefix (s p : gostring) : bool :=
  match p, s with
  | [], _ => true
  | x :: p', y :: s' => Ascii.eqb x y && has_prefix s' p'
  | _ :: _, [] => false
  end.

(** [strings.TrimPrefix(s, p)] *)
Definition trim_prefix (s p : gostring) : gostring :=
  if has_prefix s p then skipn (List.length p) s else s.

(** [strings.Split(s, sep)] for a one-byte separator; never empty. *)
Fixpoint split_on (sep : ascii) (s : gostring) : list gostring :=
  match s with
  | [] => [[]]
  | c :: s' =>
      if Ascii.eqb c sep then [] :: split_on sep s'
      else match split_on sep s' with
           | [] => [[c]]
           | f :: fs => (c :: f) :: fs
           end
  end.

(** [strings.Join(l, sep)] *)
Fixpoint join (sep : gostring) (l : list gostring) : gostring :=
  match l with
  | [] => []
  | [x] => x
  | x :: l' => x ++ sep ++ join sep l'
  end.

(** [strings.Replace(s, old, "", -1)] for a one-byte [old]. *)
Definition remove_char (c : ascii) (s : gostring) : gostring :=
  filter (fun x => negb (Ascii.eqb x c)) s.

(** [strings.ToUpper], [strings.ToLower]; ASCII letters only. *)
Definition upper_char (c : ascii) : ascii :=
  let n := N_of_ascii c in
  if ((97 <=? n) && (n <=? 122))%N then ascii_of_N (n - 32) else c.
Definition lower_char (c : ascii) : ascii :=
  let n := N_of_ascii c in
  if ((65 <=? n) && (n <=? 90))%N then ascii_of_N (n + 32) else c.
Definition to_upper (s : gostring) : gostring := map upper_char s.
Definition to_lower (s : gostring) : gostring := map lower_char s.

(** [strings.Index(s, string(c))], with -1 when absent. *)
Fixpoint index_char_from (i : Z) (s : gostring) (c : ascii) : Z :=
  match s with
  | [] => (-1)%Z
  | x :: s' => if Ascii.eqb x c then i else index_char_from (i + 1)%Z s' c
  end.
Definition index_char (s : gostring) (c : ascii) : Z := index_char_from 0%Z s c.

(** [strings.Repeat("c", n)] with [n = a - b] computed in Go [int]: panics when
    negative. *)
Definition repeat_sub (c : ascii) (a b : nat) : result gostring :=
  if Nat.ltb a b then Panic else Ok (repeat c (a - b)).

(** ** Package sort *)
(** [sort.Strings]: Go guarantees an ascending permutation; on strings that
    determines the result, so insertion sort computes it. *)
Fixpoint insert_string (x : gostring) (l : list gostring) : list gostring :=
  match l with
  | [] => [x]
  | y :: l' => if sltb y x then y :: insert_string x l' else x :: l
  end.
Fixpoint sort_strings (l : list gostring) : list gostring :=
  match l with
  | [] => []
  | x :: l' => insert_string x (sort_strings l')
  end.

(** ** Decimal and binary numerals *)
Definition digit_of_N (n : N) : ascii := ascii_of_N (48 + n).

(** Minimal numeral of [n] in base [b], most significant digit first.  The fuel
    is the number of bits of [n], always at least the number of digits. *)
Fixpoint numeral_aux (fuel : nat) (b n : N) (acc : gostring) : gostring :=
  match fuel with
  | O => acc
  | S fuel' =>
      let acc' := digit_of_N (n mod b) :: acc in
      if (n <? b)%N then acc' else numeral_aux fuel' b (n / b) acc'
  end.
Definition numeral (b n : N) : gostring := numeral_aux (S (N.to_nat (N.log2 n))) b n [].

(** [big.Int.String()], [strconv.Itoa], [fmt "%v"] for a non-negative integer. *)
Definition dec_string (n : N) : gostring := numeral 10 n.
(** [fmt "%b"] for a non-negative integer. *)
Definition bin_string (n : N) : gostring := numeral 2 n.

Definition is_digit (c : ascii) : bool :=
  let n := N_of_ascii c in ((48 <=? n) && (n <=? 57))%N.
Definition all_digits (s : gostring) : bool := forallb is_digit s.
(** Value of a decimal numeral (meaningful when [all_digits s]). *)
Definition dec_value (s : gostring) : N :=
  fold_left (fun acc c => 10 * acc + (N_of_ascii c - 48))%N s 0%N.

(** [fmt "%.nb"]: binary numeral padded with zeros to [n] digits. *)
Definition pad_left (c : ascii) (n : nat) (s : gostring) : gostring :=
  repeat c (n - List.length s) ++ s.

(** ** Bytes and bits *)
Definition wf_bytes (l : list N) : Prop := Forall (fun b => (b < 256)%N) l.

(** Bits of a byte, most significant first. *)
Definition bits_of_byte (b : N) : list bool :=
  map (N.testbit b) [7; 6; 5; 4; 3; 2; 1; 0]%N.
Definition bits_of_bytes (l : list N) : list bool := flat_map bits_of_byte l.

(** Number written by a list of bits, most significant first. *)
Definition N_of_bits (l : list bool) : N :=
  fold_left (fun acc b => 2 * acc + N.b2n b)%N l 0%N.

(** [big.Int.SetBytes]: big-endian bytes to integer. *)
Definition N_of_bytes (l : list N) : N :=
  fold_left (fun acc b => 256 * acc + b)%N l 0%N.

(** uint8 shift left *)
Definition shl8 (b : N) (k : N) : N := (N.shiftl b k mod 256)%N.

(** ** Maps with string keys, as strictly sorted association lists *)
Section Smap.
  Context {V : Type}.
  Definition smap := list (gostring * V).
  Fixpoint mget (k : gostring) (m : smap) : option V :=
    match m with
    | [] => None
    | (k', v) :: m' => if seqb k k' then Some v else mget k m'
    end.
  Fixpoint mset (k : gostring) (v : V) (m : smap) : smap :=
    match m with
    | [] => [(k, v)]
    | (k', v') :: m' =>
        if seqb k k' then (k, v) :: m'
        else if sltb k k' then (k, v) :: m
        else (k', v') :: mset k v m'
    end.
  Fixpoint mdel (k : gostring) (m : smap) : smap :=
    match m with
    | [] => []
    | (k', v') :: m' => if seqb k k' then m' else (k', v') :: mdel k m'
    end.
  Definition mkeys (m : smap) : list gostring := map fst m.
End Smap.
Arguments smap : clear implicits.
