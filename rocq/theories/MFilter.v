(** Model of filtering/filter_object.go. *)
From Verif Require Import GoBase BinUtil.

(** filtering/filter_object.go:17-20 [ByteLength] *)
Definition byte_length : nat := 8.

(** filtering/filter_object.go:22-31 [FilterObject] *)
Record filter_object : Type := {
  fo_string : gostring;   (* String *)
  fo_size : nat;          (* Size *)
  fo_offset : nat;        (* Offset *)
  fo_filter : list N;     (* ByteFilter *)
  fo_mask : list N;       (* ByteMask *)
  fo_byte_offset : nat;   (* ByteOffset *)
  fo_byte_size : nat      (* ByteSize *)
}.

(** filtering/filter_object.go:48-55 [HasByteAt].  [bo] is a Go int, hence [Z]. *)
Definition has_byte_at (f : filter_object) (bo : Z) : bool :=
  if (bo <? Z.of_nat (fo_byte_offset f))%Z then false
  else if (Z.of_nat (fo_byte_offset f) + Z.of_nat (fo_byte_size f) <=? bo)%Z then false
  else true.

(** filtering/filter_object.go:35-44 [GetByteAt]; the loop of lines 37-41. *)
Fixpoint get_byte_loop (f : filter_object) (bo : Z) (i n : nat) : result (N * N) :=
  match n with
  | O => Err
  | S n' =>
      if (bo =? Z.of_nat (fo_byte_offset f) + Z.of_nat i)%Z then
        let! a := index (fo_filter f) i in
        let! m := index (fo_mask f) i in
        Ok (a, m)
      else get_byte_loop f bo (S i) n'
  end.
Definition get_byte_at (f : filter_object) (bo : Z) : result (N * N) :=
  if has_byte_at f bo then get_byte_loop f bo 0 (fo_byte_size f) else Err.

(** filtering/filter_object.go:58-65 [Match]: [i] is the loop index, [n] the
    number of iterations left.  Reading past the end of the id panics. *)
Fixpoint match_loop (f : filter_object) (id : list N) (i n : nat) : result bool :=
  match n with
  | O => Ok true
  | S n' =>
      let! b := index id (fo_byte_offset f + i) in
      let! m := index (fo_mask f) i in
      let! a := index (fo_filter f) i in
      if N.eqb (N.lxor (N.lor b m) a) 0 then match_loop f id (S i) n' else Ok false
  end.
Definition match_filter (f : filter_object) (id : list N) : result bool :=
  match_loop f id 0 (fo_byte_size f).

(** Equality of byte slices, as [reflect.DeepEqual] on non-nil slices. *)
Fixpoint bytes_eqb (a b : list N) : bool :=
  match a, b with
  | [], [] => true
  | x :: a', y :: b' => N.eqb x y && bytes_eqb a' b'
  | _, _ => false
  end.

(** filtering/filter_object.go:74-84 [IsTransparent] *)
Definition is_transparent (f : filter_object) : bool :=
  let check := repeat 255%N (fo_byte_size f) in
  bytes_eqb (fo_filter f) check && bytes_eqb (fo_mask f) check.

(** filtering/filter_object.go:113-119: wildcard handling on one (filter, mask)
    rune pair. *)
Definition wild_f (c : ascii) : ascii := if Ascii.eqb c cx then c1 else c.
Definition wild_m (c m : ascii) : ascii := if Ascii.eqb c cx then c1 else m.
Fixpoint map2 {A B C} (g : A -> B -> C) (l : list A) (r : list B) : list C :=
  match l, r with
  | a :: l', b :: r' => g a b :: map2 g l' r'
  | _, _ => []
  end.

(** filtering/filter_object.go:87-130 [makeFilter].  The Go function recurses on
    a strictly shorter slice (line 124); [fuel] bounds that recursion and
    [make_filter] supplies enough (see [PFilter.make_filter_eq], the fuel-free
    recursion equation). *)
Fixpoint make_filter_fuel (fuel : nat) (bs : gostring) (offset : nat)
  : nat * gostring * gostring :=
  match fuel with
  | O => (0, [], [])
  | S fuel' =>
      let left := offset mod byte_length in
      let f := repeat c1 left in
      let m := repeat c1 left in
      let body :=
        if Nat.ltb (byte_length - left) (List.length bs) then byte_length - left
        else List.length bs in
      let f := f ++ firstn body bs in
      let m := m ++ repeat c0 body in
      let right := byte_length - List.length f in
      let f' := if Nat.ltb (List.length f) byte_length then f ++ repeat c1 right else f in
      let m' := if Nat.ltb (List.length f) byte_length then m ++ repeat c1 right else m in
      let f'' := map wild_f f' in
      let m'' := map2 wild_m f' m' in
      if Nat.ltb byte_length (List.length bs + left) then
        let next := (offset / byte_length + 1) * byte_length in
        let '(_, fc, mc) := make_filter_fuel fuel' (skipn body bs) next in
        (offset / byte_length, f'' ++ fc, m'' ++ mc)
      else (offset / byte_length, f'', m'')
  end.
Definition make_filter (bs : gostring) (offset : nat) : nat * gostring * gostring :=
  make_filter_fuel (S (List.length bs)) bs offset.

(** filtering/filter_object.go:133-147 [NewFilter].  The parse errors of lines
    135-136 are discarded by the code; they only arise for characters outside
    {0,1,x}, where the slices are taken to be empty. *)
Definition or_empty (r : result (list N)) : list N :=
  match r with Ok l => l | _ => [] end.
Definition new_filter (s : gostring) (o : nat) : filter_object :=
  let '(bo, f, m) := make_filter s o in
  let bf := or_empty (binstr_to_bytes f) in
  let bm := or_empty (binstr_to_bytes m) in
  {| fo_string := s; fo_size := List.length s; fo_offset := o;
     fo_filter := bf; fo_mask := bm; fo_byte_offset := bo;
     fo_byte_size := List.length bf |}.

(** filtering/filter_object.go:68-70 [ToString] *)
Definition fo_to_string (f : filter_object) : gostring :=
  fo_string f ++ str "(" ++ dec_string (N.of_nat (fo_offset f)) ++ str " "
    ++ dec_string (N.of_nat (fo_size f)) ++ str ")".

(** [reflect.DeepEqual] on two *FilterObject *)
Definition fo_eqb (a b : filter_object) : bool :=
  seqb (fo_string a) (fo_string b) && Nat.eqb (fo_size a) (fo_size b)
  && Nat.eqb (fo_offset a) (fo_offset b) && bytes_eqb (fo_filter a) (fo_filter b)
  && bytes_eqb (fo_mask a) (fo_mask b) && Nat.eqb (fo_byte_offset a) (fo_byte_offset b)
  && Nat.eqb (fo_byte_size a) (fo_byte_size b).
