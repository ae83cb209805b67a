(** Which updates a Patricia trie performs rightly: vocabulary of C10 and C11. *)
From Verif Require Import GoBase MFilter MPatricia Spec.

(** The prefixes at which a trie has a node (the lines of its Dump). *)
Inductive has_node : ptree -> gostring -> Prop :=
| node_here u fo one zero : has_node (PNode u fo one zero) (fo_string fo)
| node_one u fo one zero q : has_node one q -> has_node (PNode u fo one zero) (fo_string fo ++ q)
| node_zero u fo one zero q : has_node zero q -> has_node (PNode u fo one zero) (fo_string fo ++ q).

(** One subscription added or removed. *)
Definition perform (t : ptree) (c : change) : result ptree :=
  match c with Subscribe k u => padd t k u | Unsubscribe k => pdelete t k end.

(** A prefix may be added where the trie has a node already, or where it has no
    node below; it may be removed unless it is subscribed and has the only node.
    [m] are the current subscriptions. *)
Definition well_placed (t : ptree) (m : prefix_subs) (c : change) : Prop :=
  match c with
  | Subscribe k u => has_node t k \/ forall q, has_node t q -> ~ strictly_extends q k
  | Unsubscribe k => ~ ((forall q, has_node t q -> q = k) /\ In k (map fst m))
  end.
(** Prefixes are of bits, report URIs not empty. *)
Definition proper (c : change) : Prop :=
  match c with Subscribe k u => is_bitstring k /\ u <> [] | Unsubscribe k => is_bitstring k end.

(** A history each of whose changes is well placed when it is made. *)
Inductive careful : ptree -> prefix_subs -> list change -> Prop :=
| careful_nil t m : careful t m []
| careful_cons t m c t' cs :
    proper c -> well_placed t m c -> perform t c = Ok t' ->
    careful t' (apply_change m c) cs -> careful t m (c :: cs).

(** What a fresh trie holds: all but the longest common prefix (C09). *)
Definition initially (b : prefix_subs) (m : prefix_subs) : Prop :=
  ascending (map fst m) /\
  forall k u, In (k, u) m <-> In (k, u) b /\ ~ longest_common_prefix k (map fst b).
