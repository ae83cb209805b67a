(** Specification side of compositions and groupings. *)
From Verif Require Import GoBase Spec.

(** A filter as it is written: pattern and bit offset. *)
Definition written := (gostring * nat)%type.
(** Some identifier byte is covered by all of them. *)
Definition overlapping (ws : list written) : Prop :=
  exists k, forall pat off, In (pat, off) ws -> off / 8 <= k < bytes_needed pat off.

(** A pattern at two offsets: they are equal, or the pattern prescribes no bit and
    both reach equally far. *)
Definition same_selection (pat : gostring) (o1 o2 : nat) : Prop :=
  o1 = o2 \/ (Forall (fun c => c = "x"%char) pat /\ bytes_needed pat o1 = bytes_needed pat o2).

(** Integers that follow each other. *)
Fixpoint consecutive (l : list Z) : Prop :=
  match l with
  | a :: (b :: _) as t => b = (a + 1)%Z /\ consecutive t
  | _ => True
  end.
(** Two groups that could be one. *)
Definition mergeable (g g' : list Z) : Prop := consecutive (g ++ g').
