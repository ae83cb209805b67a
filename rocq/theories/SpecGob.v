(** Small definitions used to state what saving and restoring does. *)
From Coq Require Import Permutation.
From Verif Require Import GoBase MFilter MSubs MPatricia MSplay MGob SpecMap.

(** Every node has both children or none. *)
Fixpoint full (t : ptree) : Prop :=
  match t with
  | PNil => True
  | PNode _ _ o z => (o = PNil <-> z = PNil) /\ full o /\ full z
  end.
(** No node has a zero child without a one child. *)
Fixpoint no_lone_zero (t : ptree) : Prop :=
  match t with
  | PNil => True
  | PNode _ _ o z => (o = PNil -> z = PNil) /\ no_lone_zero o /\ no_lone_zero z
  end.
(** The trie without the subtrees below a lone zero. *)
Fixpoint without_lone_zeros (t : ptree) : ptree :=
  match t with
  | PNil => PNil
  | PNode u f o z => PNode u f (without_lone_zeros o) (match o with PNil => PNil | _ => without_lone_zeros z end)
  end.
(** Following zero children from the root as long as there is a one child too,
    one comes to a node with a one child only. *)
Fixpoint zero_path_ends_in_lone_one (t : ptree) : Prop :=
  match t with
  | PNil => False
  | PNode _ _ PNil _ => False
  | PNode _ _ _ PNil => True
  | PNode _ _ _ z => zero_path_ends_in_lone_one z
  end.

(** The same partial subscription, with the map entries in any order at every
    level. *)
Inductive reordered : psub -> psub -> Prop :=
| Reordered o u s s' s'' :
    Forall2 (fun a b => fst a = fst b /\ reordered (snd a) (snd b)) s s' ->
    Permutation s' s'' ->
    reordered (PSub o u s) (PSub o u s'').
(** Maps have each key once, at every level; [s] lists the entries by key. *)
Inductive well_keyed : psub -> Prop :=
| WellKeyed o u s : wf_map s -> Forall (fun kv => well_keyed (snd kv)) s -> well_keyed (PSub o u s).

(** [a] is the beginning of [b] and something is missing. *)
Definition cut_off {A} (a b : list A) : Prop := exists rest, rest <> [] /\ b = a ++ rest.

(** Decoded nodes read as the trees they are part of: the first child is the one
    child, or what matches, the second the zero child, or what does not match.  Nodes
    of a trie have a filter. *)
Fixpoint read_ptree (g : gtree) : option ptree :=
  match g with
  | GNil => Some PNil
  | GNode u (Some f) a b => match read_ptree a, read_ptree b with Some o, Some z => Some (PNode u f o z) | _, _ => None end
  | GNode _ None _ _ => None
  end.
Fixpoint read_stree (g : gtree) : stree :=
  match g with GNil => SNil | GNode u f a b => SNode u f (read_stree a) (read_stree b) end.
