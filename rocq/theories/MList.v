(** Model of filtering/list.go. *)
From Verif Require Import GoBase BinUtil MFilter MTdtCore MSubs.

(** What an engine's Search returns: pure identity, report URIs, and whether the
    error is non-nil. *)
Definition search_result := (gostring * list gostring * bool)%type.

(** The end of List.Search (filtering/list.go:115-119), PatriciaTrie.Search
    (filtering/patricia_trie.go:80-84) and SplayTree.Search
    (filtering/splay_tree.go:80-84). *)
Definition finish_search (pc id : list N) (uris : list gostring) : result search_result :=
  match uris with
  | [] => Ok ([], [], true)
  | _ => match translate pc id with
         | Ok u => Ok (u, uris, false)
         | Err => Ok ([], uris, true)
         | Panic => Panic
         end
  end.

(** filtering/list.go:27-31 [ExactMatch]; filtering/list.go:18-24 [List] *)
Record exact_match : Type := { em_filter : filter_object; em_uri : gostring }.
Definition list_engine := list exact_match.

(** filtering/list.go:110-114: the loop of Search *)
Fixpoint list_matches (l : list_engine) (id : list N) : result (list gostring) :=
  match l with
  | [] => Ok []
  | em :: l' =>
      let! m := match_filter (em_filter em) id in
      let! rest := list_matches l' id in
      Ok (if m then em_uri em :: rest else rest)
  end.
(** filtering/list.go:109-120 [Search] *)
Definition list_search (l : list_engine) (pc id : list N) : result search_result :=
  let! uris := list_matches l id in finish_search pc id uris.

(** filtering/list.go:65-72 [IndexOf], as the position or [None] for -1. *)
Definition em_eqb (a b : exact_match) : bool :=
  fo_eqb (em_filter a) (em_filter b) && seqb (em_uri a) (em_uri b).
Fixpoint index_of (l : list_engine) (em : exact_match) : option nat :=
  match l with
  | [] => None
  | a :: l' => if em_eqb a em then Some 0
               else match index_of l' em with Some i => Some (S i) | None => None end
  end.

(** The ExactMatch built for one entry (filtering/list.go:38-41, :53-56). *)
Definition em_of (kv : gostring * psub) : exact_match :=
  {| em_filter := new_filter (fst kv) (ps_offset (snd kv)); em_uri := ps_uri (snd kv) |}.

(** The map entries in Keys() order; the representation is already sorted. *)
Definition list_add1 (l : list_engine) (kv : gostring * psub) : list_engine :=
  match index_of l (em_of kv) with None => l ++ [em_of kv] | Some _ => l end.
(** filtering/list.go:34-46 [AddSubscription] *)
Definition list_add (E : env) (l : list_engine) (sub : subscriptions) : list_engine :=
  fold_left list_add1 (to_byte_subs E sub) l.

Definition list_del1 (l : list_engine) (kv : gostring * psub) : list_engine :=
  match index_of l (em_of kv) with
  | Some i => firstn i l ++ skipn (S i) l
  | None => l
  end.
(** filtering/list.go:49-61 [DeleteSubscription] *)
Definition list_del (E : env) (l : list_engine) (sub : subscriptions) : list_engine :=
  fold_left list_del1 (to_byte_subs E sub) l.

(** filtering/list.go:157-174 [NewList] *)
Definition new_list (E : env) (sub : subscriptions) : list_engine :=
  map (fun kv => {| em_filter := new_filter (fst kv) 0; em_uri := ps_uri (snd kv) |})
      (to_byte_subs E sub).
