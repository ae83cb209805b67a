(** Model of filtering/composition.go.  The elements grouped by groupSequential
    are unbounded integers here: the wrap-around of [+1] at the largest Go int is
    not modelled. *)
From Verif Require Import GoBase BinUtil MFilter.

(** filtering/composition.go:16-20 [Composition], 24 [ChildFilters] *)
Record composition : Type := {
  co_filter : gostring;
  co_offset : nat;
  co_children : smap filter_object
}.

(** filtering/composition.go:31-40: the edges; [None] is the initial -1.  Byte
    offsets are never negative, so -1 cannot come back. *)
Definition edge (hd tl : option nat) (f : filter_object) : option nat * option nat :=
  let a := fo_byte_offset f in
  let z := fo_byte_offset f + fo_byte_size f in
  (match hd with None => Some a | Some h => Some (if Nat.ltb h a then a else h) end,
   match tl with None => Some z | Some t => Some (if Nat.ltb z t then z else t) end).
Definition edges (fs : list filter_object) : option nat * option nat :=
  fold_left (fun ht f => edge (fst ht) (snd ht) f) fs (None, None).

(** [l[i]], ..., [l[i+n-1]] *)
Fixpoint read_range {A} (l : list A) (i n : nat) : result (list A) :=
  match n with
  | O => Ok []
  | S n' =>
      let! x := index l i in
      let! r := read_range l (S i) n' in
      Ok (x :: r)
  end.

(** filtering/composition.go:47-52: OR the masks and the filters of all members
    over the common range of [n] bytes from [head]. *)
Fixpoint or_members (fs : list filter_object) (head n : nat) (pmask disjunct : list N) : result (list N * list N) :=
  match fs with
  | [] => Ok (pmask, disjunct)
  | f :: fs' =>
      let! m := read_range (fo_mask f) (head - fo_byte_offset f) n in
      let! a := read_range (fo_filter f) (head - fo_byte_offset f) n in
      or_members fs' head n (map2 N.lor pmask m) (map2 N.lor disjunct a)
  end.
(** filtering/composition.go:58-64: the bits in which some member differs from
    the first. *)
Fixpoint xor_members (f : filter_object) (fs : list filter_object) (head n : nat) (xmask : list N) : result (list N) :=
  match fs with
  | [] => Ok xmask
  | ff :: fs' =>
      let! a := read_range (fo_filter f) (head - fo_byte_offset f) n in
      let! b := read_range (fo_filter ff) (head - fo_byte_offset ff) n in
      xor_members f fs' head n (map2 N.lor xmask (map2 N.lxor a b))
  end.

(** filtering/composition.go:71-79: eight pattern characters for one byte. *)
Definition star (m c : ascii) : ascii := if Ascii.eqb m c1 then cx else c.
Definition byte_pattern (mask d : N) : gostring :=
  map2 star (bytes_to_binstr [mask]) (bytes_to_binstr [d]).
(** filtering/composition.go:126-135 [processWildcard] *)
Definition process_wildcard (b m : N) : gostring :=
  map2 star (bytes_to_binstr [N.land b m]) (bytes_to_binstr [b]).

(** filtering/composition.go:94-112: the pattern and the offset of a child.
    [bs] are the bytes of the member from index [i] on. *)
Fixpoint child_loop (cf f : filter_object) (head tail i : nat) (bs : list N) (s : gostring) (off : nat)
  : result (gostring * nat) :=
  match bs with
  | [] => Ok (s, off)
  | b :: bs' =>
      let o := fo_byte_offset f + i in
      if Nat.ltb o head then
        let off' := if Nat.eqb (List.length s) 0 then fo_byte_offset f * byte_length else off in
        let! m := index (fo_mask f) i in
        child_loop cf f head tail (S i) bs' (s ++ process_wildcard b m) off'
      else if Nat.ltb o tail then
        let off' := if Nat.eqb (List.length s) 0 then o * byte_length else off in
        let! ca := index (fo_filter cf) (o - head) in
        let! same :=
          (if N.eqb (N.lxor ca b) 0 then
             let! cm := index (fo_mask cf) (o - head) in
             let! m := index (fo_mask f) i in
             Ok (N.eqb (N.lxor cm m) 0)
           else Ok false) in
        if (same : bool) then
          child_loop cf f head tail (S i) bs' (s ++ repeat cx byte_length) off'
        else
          let! m := index (fo_mask f) i in
          child_loop cf f head tail (S i) bs' (s ++ process_wildcard b m) off'
      else
        let! m := index (fo_mask f) i in
        child_loop cf f head tail (S i) bs' (s ++ process_wildcard b m) off
  end.
(** filtering/composition.go:90-114 *)
Fixpoint children_of (cf : filter_object) (head tail : nat) (fs : list filter_object) (acc : smap filter_object)
  : result (smap filter_object) :=
  match fs with
  | [] => Ok acc
  | f :: fs' =>
      let! (s, off) := child_loop cf f head tail 0 (fo_filter f) [] 0 in
      children_of cf head tail fs' (mset (fo_string f) (new_filter s off) acc)
  end.

(** filtering/composition.go:27-122 [NewComposition].  Without filters line 58
    panics; with [tail < head] the allocation of line 45 does. *)
Definition new_composition (fs : list filter_object) : result composition :=
  match fs, edges fs with
  | f0 :: rest, (Some head, Some tail) =>
      if Nat.ltb tail head then Panic
      else
        let n := tail - head in
        let! (pmask, disjunct) := or_members fs head n (repeat 0%N n) (repeat 0%N n) in
        let! xmask := xor_members f0 rest head n (repeat 0%N n) in
        let cf_string := List.concat (map2 byte_pattern (map2 N.lor pmask xmask) disjunct) in
        let cf := new_filter cf_string (head * byte_length) in
        let! children := children_of cf head tail fs [] in
        Ok {| co_filter := cf_string; co_offset := head * byte_length; co_children := children |}
  | _, _ => Panic
  end.

(** filtering/composition.go:139-154 [groupSequentialSlice]; Go ints are [Z].
    [g] is the current group. *)
Fixpoint group_loop (g : list Z) (gs : list (list Z)) (rs : list Z) : list (list Z) :=
  match rs with
  | [] => gs ++ [g]
  | r :: rs' =>
      if Nat.eqb (List.length g) 0 then group_loop [r] gs rs'
      else if (last g 0 + 1 =? r)%Z then group_loop (g ++ [r]) gs rs'
      else group_loop [r] (gs ++ [g]) rs'
  end.
Definition group_sequential (rs : list Z) : list (list Z) := group_loop [] [] rs.
