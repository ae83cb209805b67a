(** Go slices of strings: headers that point into backing arrays on a heap, so
    that sharing between a caller's map and an engine's map is visible.
    Definitions only. *)
From Verif Require Import GoBase.

(** Backing arrays; the location of an array is its position. *)
Definition heap := list (list gostring).
Definition arr (h : heap) (l : nat) : list gostring := nth l h [].
(** A slice header.  The nil slice and the empty literal have capacity 0. *)
Record slice : Type := { sl_arr : nat; sl_off : nat; sl_len : nat; sl_cap : nat }.
Definition nil_slice : slice := {| sl_arr := 0; sl_off := 0; sl_len := 0; sl_cap := 0 |}.
Definition with_len (s : slice) (n : nat) : slice :=
  {| sl_arr := sl_arr s; sl_off := sl_off s; sl_len := n; sl_cap := sl_cap s |}.
(** The elements of a slice. *)
Definition view (h : heap) (s : slice) : list gostring :=
  firstn (sl_len s) (skipn (sl_off s) (arr h (sl_arr s))).
(** A header as the runtime produces it. *)
Definition slice_ok (h : heap) (s : slice) : Prop :=
  sl_len s <= sl_cap s /\
  (sl_cap s = 0 \/ (sl_arr s < List.length h /\ sl_off s + sl_cap s <= List.length (arr h (sl_arr s)))).

(** Overwrite array elements from position [i] on. *)
Definition overwrite (a : list gostring) (i : nat) (xs : list gostring) : list gostring :=
  firstn i a ++ xs ++ skipn (i + List.length xs) a.
Fixpoint update {A} (l : list A) (i : nat) (x : A) : list A :=
  match l, i with
  | [], _ => []
  | _ :: l', O => x :: l'
  | y :: l', S i' => y :: update l' i' x
  end.
Definition write (h : heap) (l i : nat) (xs : list gostring) : heap :=
  update h l (overwrite (arr h l) i xs).

(** [append(s, x)]: in place while there is capacity, else into a new array with
    room for [grow n] more elements than the [n] it needs (Go leaves the growth
    open, so [grow] is a parameter everywhere). *)
Definition append1 (grow : nat -> nat) (h : heap) (s : slice) (x : gostring) : heap * slice :=
  let n := S (sl_len s) in
  if Nat.ltb (sl_len s) (sl_cap s) then
    (write h (sl_arr s) (sl_off s + sl_len s) [x], with_len s n)
  else
    (h ++ [view h s ++ x :: repeat [] (grow n)],
     {| sl_arr := List.length h; sl_off := 0; sl_len := n; sl_cap := n + grow n |}).

(** [append(s[:i], s[i+1:]...)] for [i] below the length: the result always fits
    the capacity, so the elements move down inside the array. *)
Definition cut (h : heap) (s : slice) (i : nat) : heap * slice :=
  (write h (sl_arr s) (sl_off s + i) (skipn (S i) (view h s)), with_len s (sl_len s - 1)).

(** filtering/legacy_engine.go:197-204 [stringIndexInSlice]; [None] for -1. *)
Fixpoint string_index (a : gostring) (l : list gostring) : option nat :=
  match l with
  | [] => None
  | b :: l' => if seqb b a then Some 0
               else match string_index a l' with Some i => Some (S i) | None => None end
  end.
