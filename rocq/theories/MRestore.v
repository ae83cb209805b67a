(** Model of UnmarshalBinary on a tree engine that already holds subscriptions
    (filtering/patricia_trie.go, splay_tree.go).  [MGob] models the same methods
    on an engine whose root is still nil.

    What is assumed of encoding/gob, beyond [MGob]: a field that has the zero value
    (empty string, 0, slice without elements) is not sent, and decoding into a
    struct that exists leaves the fields that were not sent as they are; decoding
    into a pointer that is not nil writes into what it points to. *)
From Verif Require Import GoBase BinUtil MFilter MTdtCore MSubs MList MPatricia MSplay MGob.

(** Decode of the filter object [new] over [old] (filtering/filter_object.go:23-31,
    the fields). *)
Definition fo_over (old new : filter_object) : filter_object := {|
  fo_string := match fo_string new with [] => fo_string old | s => s end;
  fo_size := match fo_size new with O => fo_size old | n => n end;
  fo_offset := match fo_offset new with O => fo_offset old | n => n end;
  fo_filter := match fo_filter new with [] => fo_filter old | b => b end;
  fo_mask := match fo_mask new with [] => fo_mask old | b => b end;
  fo_byte_offset := match fo_byte_offset new with O => fo_byte_offset old | n => n end;
  fo_byte_size := match fo_byte_size new with O => fo_byte_size old | n => n end
|}.
(** dec.Decode(&ptn.filterObject): a nil pointer gets a new struct. *)
Definition pop_fo_over {N} (old : option filter_object) (l : list (dtok N))
  : option filter_object * list (dtok N) :=
  match pop_fo l with
  | (Some f, l') => (Some (match old with Some o => fo_over o f | None => f end), l')
  | (None, l') => (old, l')
  end.
(** What decoding a nested node does to the node that is there ([GNil]: none). *)
Definition over := gtree -> gtree * bool.
(** dec.Decode(&ptn.one) and the like. *)
Definition pop_node_over (old : gtree) (l : list (dtok over)) : gtree * bool * list (dtok over) :=
  match l with
  | DBin g _ :: l' => let '(n, e) := g old in (n, e, l')
  | _ :: l' => (old, true, l')
  | [] => (old, true, [])
  end.

(** filtering/patricia_trie.go:139-181 on the node [old]; for [GNil] the decoder
    makes an empty node first.  Line 174 asks [hasOne] again where [hasZero] is
    meant. *)
Definition pnode_over (l : list (dtok over)) : over := fun old =>
  let '(u0, f0, one0, zero0) :=
    match old with GNil => ([], None, GNil, GNil) | GNode u f a b => (u, f, a, b) end in
  match pop_str l with
  | (None, _) => (GNode u0 f0 one0 zero0, true)
  | (Some u, l1) =>
  match pop_bool l1 with
  | (None, _) => (GNode u f0 one0 zero0, true)
  | (Some has_filter, l2) =>
      let '(f, l3) := if has_filter then pop_fo_over f0 l2 else (None, l2) in
      match pop_bool l3 with
      | (None, _) => (GNode u f one0 zero0, true)
      | (Some has_one, l4) =>
          let '(one, _, l5) := if has_one then pop_node_over one0 l4 else (GNil, false, l4) in
          match pop_bool l5 with
          | (None, _) => (GNode u f one zero0, true)
          | (Some has_zero, l6) =>
              let '(zero, err, _) := if has_one then pop_node_over zero0 l6 else (GNil, false, l6) in
              (GNode u f one zero, err)
          end
      end
  end
  end.
(** filtering/splay_tree.go:139-179 on the node [old]: without a filter in the data
    the old filter stays (lines 152-154 have no else). *)
Definition snode_over (l : list (dtok over)) : over := fun old =>
  let '(u0, f0, match0, mismatch0) :=
    match old with GNil => ([], None, GNil, GNil) | GNode u f a b => (u, f, a, b) end in
  match pop_str l with
  | (None, _) => (GNode u0 f0 match0 mismatch0, true)
  | (Some u, l1) =>
  match pop_bool l1 with
  | (None, _) => (GNode u f0 match0 mismatch0, true)
  | (Some has_filter, l2) =>
      let '(f, l3) := if has_filter then pop_fo_over f0 l2 else (f0, l2) in
      match pop_bool l3 with
      | (None, _) => (GNode u f match0 mismatch0, true)
      | (Some has_match, l4) =>
          let '(m, _, l5) := if has_match then pop_node_over match0 l4 else (GNil, false, l4) in
          match pop_bool l5 with
          | (None, _) => (GNode u f m mismatch0, true)
          | (Some has_mismatch, l6) =>
              let '(n, err, _) := if has_mismatch then pop_node_over mismatch0 l6 else (GNil, false, l6) in
              (GNode u f m n, err)
          end
      end
  end
  end.

(** filtering/patricia_trie.go:88-104 and filtering/splay_tree.go:88-104
    [UnmarshalBinary] on an engine with the root [old]: the root afterwards and
    whether an error is returned. *)
Definition tree_restore_over (load : list (dtok over) -> over) (tag : gostring) (old : gtree) (data : list tok)
  : gtree * bool :=
  match pop_str (map (decode_nested (fun l => (load l, false))) data) with
  | (None, _) => (old, true)
  | (Some t, l1) =>
      if seqb t tag then let '(root, err, _) := pop_node_over old l1 in (root, err) else (old, true)
  end.
Definition patricia_restore_over (old : gtree) (data : list tok) : gtree * bool :=
  tree_restore_over pnode_over patricia_tag old data.
Definition splay_restore_over (old : gtree) (data : list tok) : gtree * bool :=
  tree_restore_over snode_over splay_tag old data.
