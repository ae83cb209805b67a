(** Where changes of the subscriptions of a Patricia trie are well placed, in terms
    of the prefixes alone.  Nothing here refers to the model of the code. *)
From Verif Require Import GoBase Spec.

(** [a] and [b] part after [p]; two equal prefixes part at their end. *)
Definition parts (p a b : gostring) : Prop := longest_common_prefix p [a; b].
(** The places of a fresh trie: where two subscribed prefixes part, which includes
    the prefixes themselves; the empty prefix if nothing is subscribed. *)
Definition first_places (ks : list gostring) (p : gostring) : Prop :=
  (ks = [] /\ p = []) \/ exists a b, In a ks /\ In b ks /\ parts p a b.
(** Both bits follow [k] among the places. *)
Definition forks (N : gostring -> Prop) (k : gostring) : Prop :=
  forall c, c = "0"%char \/ c = "1"%char -> exists q, N q /\ is_prefix (k ++ [c]) q.
(** Subscribing makes the prefix a place, and the points where it parts from the
    places there are.  Unsubscribing removes the place unless both bits follow it or
    it is the only one. *)
Definition places_after (N : gostring -> Prop) (c : change) (p : gostring) : Prop :=
  match c with
  | Subscribe k _ => N p \/ p = k \/ exists q, N q /\ parts p k q
  | Unsubscribe k => N p /\ (p <> k \/ forks N k \/ forall q, N q -> q = k)
  end.
(** A prefix may be subscribed at a place or where no place is below it; it may be
    unsubscribed unless it is subscribed and the only place. *)
Definition may (N : gostring -> Prop) (m : prefix_subs) (c : change) : Prop :=
  match c with
  | Subscribe k u => N k \/ forall q, N q -> ~ strictly_extends q k
  | Unsubscribe k => ~ ((forall q, N q -> q = k) /\ In k (map fst m))
  end.
(** Prefixes are of bits, report URIs not empty. *)
Definition sound (c : change) : Prop :=
  match c with Subscribe k u => is_bitstring k /\ u <> [] | Unsubscribe k => is_bitstring k end.
(** A history each of whose changes may be made when it is made. *)
Inductive placed : (gostring -> Prop) -> prefix_subs -> list change -> Prop :=
| placed_nil N m : placed N m []
| placed_cons N m c cs : sound c -> may N m c -> placed (places_after N c) (apply_change m c) cs -> placed N m (c :: cs).
(** The places after a history. *)
Definition places_of (ks : list gostring) (cs : list change) : gostring -> Prop := fold_left places_after cs (first_places ks).
