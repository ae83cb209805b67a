(** Right answers of a Patricia trie and of a splay tree after updates: vocabulary of
    the exact forms of C10, C11, C14 and C15. *)
From Verif Require Import GoBase BinUtil MFilter MEngine MTdtEpc MTdtCore MScheme MSubs MList MPatricia MSplay.
From Verif Require Import Spec SpecSubs SpecRun.

(** Every search after the updates [ops] is answered with what is subscribed. *)
Definition exact_after (E : env) (sub0 : subscriptions) (m0 : prefix_subs) (ops : list update) : Prop :=
  forall pc id, wf_bytes id -> id <> [] -> decides id (mkeys (to_byte_subs E sub0) ++ subscribed_keys (changes_of E ops)) ->
  exists t uris, patricia_run E sub0 ops = Ok t /\ reported id (apply_changes m0 (changes_of E ops)) uris
    /\ answers (translate pc id) uris (patricia_search t pc id).
(** Every update is of one subscription. *)
Definition one_by_one (E : env) (ops : list update) : Prop := Forall (fun op => exists c, update_changes E op = [c]) ops.
(** No report URI is subscribed while another prefix has it. *)
Definition own_uris (m0 : prefix_subs) (cs : list change) : Prop :=
  forall cs1 k u cs2 k', cs = cs1 ++ Subscribe k u :: cs2 -> In (k', u) (apply_changes m0 cs1) -> k' = k.

(** Every search after the calls [cs] is answered with what is subscribed. *)
Definition splay_exact_after (E : env) (sub0 : subscriptions) (cs : list scall) : Prop :=
  let m := after (entries (to_byte_subs E sub0)) (events_of E cs) in
  forall pc id, wf_bytes id -> decides id (map fst m) ->
  exists t uris, splay_run E sub0 cs = Ok t /\ reported id m uris /\ answers (translate pc id) uris (drop_tree (splay_search t pc id)).
(** The prefixes are of bits. *)
Definition bit_change (c : change) : Prop := match c with Subscribe k _ | Unsubscribe k => is_bitstring k end.
