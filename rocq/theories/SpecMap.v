(** Prefixes of strings, and maps with sorted keys, as the statements use them. *)
From Verif Require Import GoBase.
From Coq Require Import Sorted.

(** [p] is a prefix of [s]. *)
Definition prefix_of (p s : gostring) : Prop := exists r, s = p ++ r.
(** Strings in increasing order, without repetition. *)
Definition ssorted (l : list gostring) : Prop := StronglySorted (fun a b => sltb a b = true) l.
(** A map: its keys are distinct and kept in order. *)
Definition wf_map {V} (m : smap V) : Prop := ssorted (mkeys m).
