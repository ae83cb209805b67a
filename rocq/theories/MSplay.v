(** Model of filtering/splay_tree.go. *)
From Verif Require Import GoBase BinUtil MFilter MTdtCore MSubs MList.

(** filtering/splay_tree.go:27-32 [SplayTreeNode]; [SNil] is the nil pointer and
    the filter pointer is nil only in the tree built from no subscription. *)
Inductive stree : Type :=
| SNil
| SNode (uri : gostring) (fo : option filter_object) (mtch mism : stree).

(** filtering/splay_tree.go:212-233 [build]; the entries are in Keys() order. *)
Fixpoint sbuild_match (p : psub) : stree :=
  match p with
  | PSub _ _ subset =>
      (fix go (l : list (gostring * psub)) : stree :=
         match l with
         | [] => SNil
         | (fs, q) :: l' =>
             SNode (ps_uri q) (Some (new_filter fs (ps_offset q))) (sbuild_match q) (go l')
         end) subset
  end.
Fixpoint sbuild_chain (l : bsubs) : stree :=
  match l with
  | [] => SNil
  | (fs, q) :: l' =>
      SNode (ps_uri q) (Some (new_filter fs (ps_offset q))) (sbuild_match q) (sbuild_chain l')
  end.
(** filtering/splay_tree.go:346-362 [NewSplayTree].  Without subscriptions the
    root stays an empty node. *)
Definition new_splay_b (b : bsubs) : result stree :=
  let! linked := link_subset b in
  Ok (match linked with [] => SNode [] None SNil SNil | _ => sbuild_chain linked end).
Definition new_splay (E : env) (sub : subscriptions) : result stree :=
  new_splay_b (to_byte_subs E sub).

(** filtering/splay_tree.go:319-342 [splaySearch].  The Go function mutates the
    tree through pointers.  Here [ssearch n has_parent id] returns the URIs, the
    subtree that replaces [n] where [n] hung, and the nodes taken out of the tree
    ("Do Splay", lines 328-334), in the order they were made the root.  Their
    mismatchNext is the root at that moment, filled in by [splay_root]. *)
Record taken : Type := { tk_uri : gostring; tk_fo : option filter_object; tk_match : stree }.
Fixpoint ssearch (n : stree) (has_parent : bool) (id : list N)
  : result (list gostring * stree * list taken) :=
  match n with
  | SNil => Panic
  | SNode uri fo mtch mism =>
      match fo with
      | None => Panic
      | Some f =>
          let! m := match_filter f id in
          if m then
            let! (inner, mtch', ex) :=
              match mtch with
              | SNil => Ok ([], SNil, [])
              | _ => ssearch mtch false id
              end in
            if has_parent then
              Ok (uri :: inner, mism, ex ++ [{| tk_uri := uri; tk_fo := fo; tk_match := mtch' |}])
            else Ok (uri :: inner, SNode uri fo mtch' mism, ex)
          else
            match mism with
            | SNil => Ok ([], n, [])
            | _ => let! (uris, mism', ex) := ssearch mism true id in
                   Ok (uris, SNode uri fo mtch mism', ex)
            end
      end
  end.
(** The root after the search: each node taken out gets the current root as its
    mismatchNext and becomes the root.  (The old root is the same node object
    before and after its own subtree was updated.) *)
Definition splay_root (root : stree) (ex : list taken) : stree :=
  fold_left (fun r t => SNode (tk_uri t) (tk_fo t) (tk_match t) r) ex root.
(** filtering/splay_tree.go:78-85 [Search]: result and tree afterwards. *)
Definition splay_step (root : stree) (id : list N) : result (list gostring * stree) :=
  let! (uris, root', ex) := ssearch root false id in
  Ok (uris, splay_root root' ex).
Definition splay_search (root : stree) (pc id : list N) : result (search_result * stree) :=
  let! (uris, root') := splay_step root id in
  let! r := finish_search pc id uris in
  Ok (r, root').

(** filtering/splay_tree.go:184-210 [add] *)
Definition sleaf (s : gostring) (o : nat) (uri : gostring) : stree :=
  SNode uri (Some (new_filter s o)) SNil SNil.
Fixpoint sadd (t : stree) (fs uri : gostring) : result stree :=
  match t with
  | SNil => Panic
  | SNode u None _ _ => Panic
  | SNode u (Some f) mtch mism =>
      if has_prefix fs (fo_string f) then
        if seqb fs (fo_string f) then Ok (SNode uri (Some f) mtch mism)
        else
          let rest := skipn (fo_size f) fs in
          match mtch with
          | SNil => Ok (SNode u (Some f) (sleaf rest (fo_offset f + fo_size f) uri) mism)
          | _ => let! mtch' := sadd mtch rest uri in Ok (SNode u (Some f) mtch' mism)
          end
      else
        match mism with
        | SNil => Ok (SNode u (Some f) mtch (sleaf fs (fo_offset f) uri))
        | _ => let! mism' := sadd mism fs uri in Ok (SNode u (Some f) mtch mism')
        end
  end.
(** filtering/splay_tree.go:36-41 [AddSubscription] *)
Definition splay_add (E : env) (t : stree) (sub : subscriptions) : result stree :=
  fold_left (fun r kv => let! t' := r in sadd t' (fst kv) (ps_uri (snd kv)))
            (to_byte_subs E sub) (Ok t).

(** filtering/splay_tree.go:236-275 [delete].  A nil filter in a child never
    occurs (children always get a filter); reading it would be a panic. *)
Definition snil (t : stree) : bool := match t with SNil => true | _ => false end.
Fixpoint sdelete (t : stree) (fs : gostring) : result stree :=
  match t with
  | SNil => Panic
  | SNode u None _ _ => Panic
  | SNode u (Some f) mtch mism =>
      if has_prefix fs (fo_string f) then
        if seqb fs (fo_string f) then
          match mtch, mism with
          | SNil, SNil => Ok t
          | SNode mu mf mm SNil, _ =>
              match mf with
              | None => Panic
              | Some g => Ok (SNode mu (Some (new_filter (fs ++ fo_string g) (fo_offset f))) mm mism)
              end
          | SNode _ _ _ _, _ => Ok (SNode [] (Some f) mtch mism)
          | SNil, SNode nu nf nm nn => Ok (SNode nu nf nm nn)
          end
        else
          let rest := skipn (fo_size f) fs in
          match mtch with
          | SNil => Ok t
          | SNode _ None _ _ => Panic
          | SNode _ (Some g) mm mn =>
              if seqb rest (fo_string g) && snil mm && snil mn
              then Ok (SNode u (Some f) SNil mism)
              else let! mtch' := sdelete mtch rest in Ok (SNode u (Some f) mtch' mism)
          end
      else
        match mism with
        | SNil => Ok t
        | SNode _ None _ _ => Panic
        | SNode _ (Some g) mm mn =>
            if seqb fs (fo_string g) && snil mm && snil mn
            then Ok (SNode u (Some f) mtch SNil)
            else let! mism' := sdelete mism fs in Ok (SNode u (Some f) mtch mism')
        end
  end.
(** filtering/splay_tree.go:44-49 [DeleteSubscription] *)
Definition splay_del (E : env) (t : stree) (sub : subscriptions) : result stree :=
  fold_left (fun r kv => let! t' := r in sdelete t' (fst kv)) (to_byte_subs E sub) (Ok t).
