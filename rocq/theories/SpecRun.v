(** Histories of calls on the List, Patricia and splay engines, and views of what
    they hold and answer, used in the statements. *)
From Verif Require Import GoBase BinUtil MFilter MEngine MTdtCore MSubs MList MPatricia MSplay Spec SpecSubs.

(** The content of a List engine: its (filter string, URI) pairs, as Dump shows. *)
Definition list_pairs (l : list_engine) : prefix_subs :=
  map (fun em => (fo_string (em_filter em), em_uri em)) l.
Inductive update : Type := Add (sub : subscriptions) | Del (sub : subscriptions).
Definition list_update (E : env) (l : list_engine) (op : update) : list_engine :=
  match op with Add sub => list_add E l sub | Del sub => list_del E l sub end.
Definition list_run (E : env) (sub0 : subscriptions) (ops : list update) : list_engine :=
  fold_left (list_update E) ops (new_list E sub0).
(** AddSubscription / DeleteSubscription calls and the single changes they make. *)
Definition update_changes (E : env) (op : update) : list change :=
  match op with
  | Add sub => map (fun p => Subscribe (fst p) (snd p)) (entries (to_byte_subs E sub))
  | Del sub => map (fun p => Unsubscribe (fst p)) (entries (to_byte_subs E sub))
  end.
Definition changes_of (E : env) (ops : list update) : list change := flat_map (update_changes E) ops.
Definition patricia_update (E : env) (r : result ptree) (op : update) : result ptree :=
  let! t := r in match op with Add sub => patricia_add E t sub | Del sub => patricia_del E t sub end.
(** The trie after a history of calls on a fresh engine. *)
Definition patricia_run (E : env) (sub0 : subscriptions) (ops : list update) : result ptree :=
  match new_patricia E sub0 with
  | Some t => fold_left (patricia_update E) ops (Ok t)
  | None => Err
  end.
(** The starting points for which histories are covered. *)
Definition good_start (b : bsubs) : Prop :=
  Forall is_bitstring (mkeys b) /\ (forall k, In k (mkeys b) -> k <> []) /\
  (forall k u, In (k, u) (entries b) -> u <> []) /\
  (forall k, In k (mkeys b) -> ~ longest_common_prefix k (mkeys b)).
Definition drop_tree {A} (r : result (A * stree)) : result A := let! (a, _) := r in Ok a.
(** Search / AddSubscription / DeleteSubscription calls. *)
Inductive scall : Type := SSearch (id : list N) | SUpdate (op : update).
Definition call_events (E : env) (c : scall) : list event :=
  match c with
  | SSearch id => [Read id]
  | SUpdate op => map Change (update_changes E op)
  end.
Definition events_of (E : env) (cs : list scall) : list event := flat_map (call_events E) cs.
Definition splay_call (E : env) (r : result stree) (c : scall) : result stree :=
  let! t := r in
  match c with
  | SSearch id => let! (_, t') := splay_step t id in Ok t'
  | SUpdate (Add sub) => splay_add E t sub
  | SUpdate (Del sub) => splay_del E t sub
  end.
(** The tree after a history of calls on a fresh engine. *)
Definition splay_run (E : env) (sub0 : subscriptions) (cs : list scall) : result stree :=
  fold_left (splay_call E) cs (new_splay E sub0).
Definition after (m : prefix_subs) (es : list event) : prefix_subs := fold_left event_subs es m.
