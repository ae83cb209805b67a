(** filtering/subscriptions.go:120-141 [ToByteSubscriptions] and the methods that call
    it, with every random draw on its own.  [MSubs.to_byte_subs] and the engines take
    one [env], that is, the same random bits wherever a field of the same width is
    empty; here the [n]-th pattern of a call has the draws [D n], and every call its
    own [D].  Within one pattern the widths of the drawn fields differ (3 bits; the
    reference, at most 24 bits in the schemes with a serial number; 38 bits). *)
From Verif Require Import GoBase BinUtil MFilter MTdtCore MSubs MList MPatricia MSplay.

Definition draws := nat -> env.
(** The (report URI, pattern) pairs in the order of the loops, lines 122-123. *)
Definition pattern_list (sub : subscriptions) : list (gostring * gostring) :=
  flat_map (fun e => map (pair (fst e)) (snd e)) sub.
Fixpoint convert (D : draws) (n : nat) (l : list (gostring * gostring)) (m : bsubs) : bsubs :=
  match l with
  | [] => m
  | (uri, pat) :: l' => convert D (S n) l' (add_pattern (D n) uri m pat)
  end.
Definition to_byte_subs_drawn (D : draws) (sub : subscriptions) : bsubs := convert D 0 (pattern_list sub) [].

(** filtering/list.go:157-174, 34-46, 49-61 *)
Definition new_list_drawn (D : draws) (sub : subscriptions) : list_engine :=
  map (fun kv => {| em_filter := new_filter (fst kv) 0; em_uri := ps_uri (snd kv) |}) (to_byte_subs_drawn D sub).
Definition list_add_drawn (D : draws) (l : list_engine) (sub : subscriptions) : list_engine :=
  fold_left list_add1 (to_byte_subs_drawn D sub) l.
Definition list_del_drawn (D : draws) (l : list_engine) (sub : subscriptions) : list_engine :=
  fold_left list_del1 (to_byte_subs_drawn D sub) l.
(** filtering/patricia_trie.go:36-57, 433-445 *)
Definition new_patricia_drawn (D : draws) (sub : subscriptions) : option ptree := new_patricia_b (to_byte_subs_drawn D sub).
Definition patricia_add_drawn (D : draws) (t : ptree) (sub : subscriptions) : result ptree :=
  fold_left (fun r kv => let! t' := r in padd t' (fst kv) (ps_uri (snd kv))) (to_byte_subs_drawn D sub) (Ok t).
Definition patricia_del_drawn (D : draws) (t : ptree) (sub : subscriptions) : result ptree :=
  fold_left (fun r kv => let! t' := r in pdelete t' (fst kv)) (to_byte_subs_drawn D sub) (Ok t).
(** filtering/splay_tree.go:36-57, 346-362 *)
Definition new_splay_drawn (D : draws) (sub : subscriptions) : result stree := new_splay_b (to_byte_subs_drawn D sub).
Definition splay_add_drawn (D : draws) (t : stree) (sub : subscriptions) : result stree :=
  fold_left (fun r kv => let! t' := r in sadd t' (fst kv) (ps_uri (snd kv))) (to_byte_subs_drawn D sub) (Ok t).
Definition splay_del_drawn (D : draws) (t : stree) (sub : subscriptions) : result stree :=
  fold_left (fun r kv => let! t' := r in sdelete t' (fst kv)) (to_byte_subs_drawn D sub) (Ok t).
