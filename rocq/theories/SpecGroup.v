(** Vocabulary for the grouping of bit strings by a common start (C76, C77). *)
From Verif Require Import GoBase Spec.

(** The strings of [l] that start with [q], in their order and with repetitions. *)
Fixpoint starts (q s : gostring) : bool :=
  match q, s with
  | [], _ => true
  | c :: q', d :: s' => Ascii.eqb c d && starts q' s'
  | _ :: _, [] => false
  end.
Definition members (q : gostring) (l : list gostring) : list gostring := filter (starts q) l.
(** At least two strings start with [q], and all that do go on with the same
    character. *)
Definition group (l : list gostring) (q : gostring) : Prop :=
  2 <= List.length (members q l) /\ exists c, forall s, In s (members q l) -> is_prefix (q ++ [c]) s.
(** [q] is the first group of [l] in dictionary order. *)
Definition first_group (l : list gostring) (q : gostring) : Prop :=
  is_bitstring q /\ group l q /\
  forall q', is_bitstring q' -> group l q' -> q' = q \/ string_lt q q'.
(** [p] is a prefix that [n] strings share, at least two, and no prefix is shared by
    more. *)
Definition most_shared (l : list gostring) (p : gostring) (n : nat) : Prop :=
  2 <= n /\ p <> [] /\ n = List.length (members p l) /\
  forall q, is_bitstring q -> q <> [] -> List.length (members q l) <= n.
(** No two strings share a prefix. *)
Definition none_shared (l : list gostring) : Prop :=
  forall q, is_bitstring q -> q <> [] -> List.length (members q l) < 2.
