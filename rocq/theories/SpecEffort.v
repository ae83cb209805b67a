(** What the effort of searches is compared with. *)
From Verif Require Import GoBase MFilter MSplay MEffort Spec.

(** The entries of the splay tree's outer chain, in the order in which a search
    compares them; what hangs below an entry is compared only when it matches. *)
Fixpoint branches (t : stree) : list taken :=
  match t with
  | SNil => []
  | SNode u fo m mm => {| tk_uri := u; tk_fo := fo; tk_match := m |} :: branches mm
  end.

(** Comparisons of a sequence of searches, each in the tree the one before left. *)
Fixpoint effort (t : stree) (ids : list (list N)) : result nat :=
  match ids with
  | [] => Ok 0
  | id :: ids' =>
      let! (_, t', n) := splay_step_n t id in
      let! k := effort t' ids' in
      Ok (n + k)
  end.
(** The same, were the tree never rearranged. *)
Fixpoint fixed_effort (t : stree) (ids : list (list N)) : result nat :=
  match ids with
  | [] => Ok 0
  | id :: ids' =>
      let! (_, _, n) := splay_step_n t id in
      let! k := fixed_effort t ids' in
      Ok (n + k)
  end.

(** The nodes of a tree. *)
Fixpoint nodes (t : stree) : nat :=
  match t with SNil => 0 | SNode _ _ m mm => S (nodes m + nodes mm) end.
(** The prefix a change is about. *)
Definition about (c : change) : gostring := match c with Subscribe k _ => k | Unsubscribe k => k end.
