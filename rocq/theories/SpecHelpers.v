(** Vocabulary for C78 and C79. *)
From Verif Require Import GoBase Spec MFilter MPatricia MSplay.

(** Every node of the first trie is present, with the same contents, at the same
    place of the second. *)
Inductive trie_within : ptree -> ptree -> Prop :=
| tw_nil t : trie_within PNil t
| tw_node u f o z o' z' : trie_within o o' -> trie_within z z' ->
    trie_within (PNode u f o z) (PNode u f o' z').
Inductive tree_within : stree -> stree -> Prop :=
| sw_nil t : tree_within SNil t
| sw_node u f m n m' n' : tree_within m m' -> tree_within n n' ->
    tree_within (SNode u f m n) (SNode u f m' n').

(** The two tries differ at their root. *)
Definition trie_root_differs (got want : ptree) : Prop :=
  match got, want with
  | PNil, PNode _ _ _ _ => True
  | PNode u f _ _, PNode u' f' _ _ => u <> u' \/ f <> f'
  | _, PNil => False
  end.
Definition tree_root_differs (got want : stree) : Prop :=
  match got, want with
  | SNil, SNode _ _ _ _ => True
  | SNode u f _ _, SNode u' f' _ _ => u <> u' \/ f <> f'
  | _, SNil => False
  end.
(** The same path from the root leads to [a'] in [a] and to [b'] in [b]. *)
Inductive trie_at : ptree -> ptree -> ptree -> ptree -> Prop :=
| ta_root a b : trie_at a b a b
| ta_one u f o z u' f' o' z' a b : trie_at o o' a b -> trie_at (PNode u f o z) (PNode u' f' o' z') a b
| ta_zero u f o z u' f' o' z' a b : trie_at z z' a b -> trie_at (PNode u f o z) (PNode u' f' o' z') a b.
Inductive tree_at : stree -> stree -> stree -> stree -> Prop :=
| sa_root a b : tree_at a b a b
| sa_match u f m n u' f' m' n' a b : tree_at m m' a b -> tree_at (SNode u f m n) (SNode u' f' m' n') a b
| sa_mismatch u f m n u' f' m' n' a b : tree_at n n' a b -> tree_at (SNode u f m n) (SNode u' f' m' n') a b.

(** The six low bits of a character code, most significant first. *)
Definition six_bits (c : ascii) : gostring :=
  map (fun i => if N.testbit (N_of_ascii c) i then "1"%char else "0"%char) [5; 4; 3; 2; 1; 0]%N.
(** The text from which the six-bit codes come, for characters 64 to 95 and 32 to
    63 (upper case letters, digits and most punctuation). *)
Definition six_bit_char (c : ascii) : Prop := (32 <= N_of_ascii c < 96)%N.
