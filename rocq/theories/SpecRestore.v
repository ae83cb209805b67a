(** When restoring over a tree leaves nothing of it behind. *)
From Verif Require Import GoBase MFilter MPatricia MSplay MGob.

(** Every field of [new] that has the zero value (empty, 0) has it in [old] too. *)
Definition no_residue (old new : filter_object) : Prop :=
  (fo_string new = [] -> fo_string old = []) /\
  (fo_size new = 0 -> fo_size old = 0) /\
  (fo_offset new = 0 -> fo_offset old = 0) /\
  (fo_filter new = [] -> fo_filter old = []) /\
  (fo_mask new = [] -> fo_mask old = []) /\
  (fo_byte_offset new = 0 -> fo_byte_offset old = 0) /\
  (fo_byte_size new = 0 -> fo_byte_size old = 0).

(** The parts of a node that may not be there. *)
Definition filter_of (t : gtree) : option filter_object := match t with GNil => None | GNode _ f _ _ => f end.
Definition first_of (t : gtree) : gtree := match t with GNil => GNil | GNode _ _ a _ => a end.
Definition second_of (t : gtree) : gtree := match t with GNil => GNil | GNode _ _ _ b => b end.

(** At every place where both trees have a filter, nothing of the old one stays. *)
Fixpoint no_residues (old : gtree) (new : gtree) : Prop :=
  match new with
  | GNil => True
  | GNode _ f a b =>
      (forall fo fn, filter_of old = Some fo -> f = Some fn -> no_residue fo fn) /\
      no_residues (first_of old) a /\ no_residues (second_of old) b
  end.
(** At every place where the new tree has a node without a filter, the old one has
    no filter either. *)
Fixpoint no_old_filters (old : gtree) (new : gtree) : Prop :=
  match new with
  | GNil => True
  | GNode _ f a b =>
      (f = None -> filter_of old = None) /\ no_old_filters (first_of old) a /\ no_old_filters (second_of old) b
  end.
(** At every place where the new tree has a first child only, the old one has no
    second child. *)
Fixpoint no_old_seconds (old : gtree) (new : gtree) : Prop :=
  match new with
  | GNil => True
  | GNode _ _ a b =>
      (a <> GNil -> b = GNil -> second_of old = GNil) /\
      no_old_seconds (first_of old) a /\ no_old_seconds (second_of old) b
  end.
