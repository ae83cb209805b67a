(** The searches of the binary engines once more, counting the filters they
    compare with the identifier, i.e. the calls of FilterObject.Match
    (filtering/filter_object.go:58-71).  [PropsEffort] shows that without the
    count these are the functions of [MList], [MPatricia] and [MSplay]. *)
From Verif Require Import GoBase BinUtil MFilter MEngine MList MPatricia MSplay.

(** filtering/list.go:110-114: the loop of Search *)
Fixpoint list_matches_n (l : list_engine) (id : list N) : result (list gostring * nat) :=
  match l with
  | [] => Ok ([], 0)
  | em :: l' =>
      let! m := match_filter (em_filter em) id in
      let! (rest, n) := list_matches_n l' id in
      Ok (if m then em_uri em :: rest else rest, S n)
  end.

(** filtering/patricia_trie.go:401-424 [search]: one comparison at line 403 *)
Fixpoint psearch_n (t : ptree) (id : list N) : result (list gostring * nat) :=
  match t with
  | PNil => Panic
  | PNode uri fo one zero =>
      let! m := match_filter fo id in
      if m then
        let here := match uri with [] => [] | _ => [uri] end in
        match get_next_bit id (fo_offset fo + fo_size fo) with
        | Ok nb =>
            let! (rest, n) :=
              if Ascii.eqb nb c1 then match one with PNil => Ok ([], 0) | _ => psearch_n one id end
              else if Ascii.eqb nb c0 then match zero with PNil => Ok ([], 0) | _ => psearch_n zero id end
              else Ok ([], 0) in
            Ok (here ++ rest, S n)
        | _ => Panic
        end
      else Ok ([], 1)
  end.

(** filtering/splay_tree.go:319-342 [splaySearch]: one comparison at line 321 *)
Fixpoint ssearch_n (n : stree) (has_parent : bool) (id : list N)
  : result (list gostring * stree * list taken * nat) :=
  match n with
  | SNil => Panic
  | SNode uri fo mtch mism =>
      match fo with
      | None => Panic
      | Some f =>
          let! m := match_filter f id in
          if m then
            let! (inner, mtch', ex, k) :=
              match mtch with
              | SNil => Ok ([], SNil, [], 0)
              | _ => ssearch_n mtch false id
              end in
            if has_parent then
              Ok (uri :: inner, mism, ex ++ [{| tk_uri := uri; tk_fo := fo; tk_match := mtch' |}], S k)
            else Ok (uri :: inner, SNode uri fo mtch' mism, ex, S k)
          else
            match mism with
            | SNil => Ok ([], n, [], 1)
            | _ => let! (uris, mism', ex, k) := ssearch_n mism true id in
                   Ok (uris, SNode uri fo mtch mism', ex, S k)
            end
      end
  end.
(** filtering/splay_tree.go:78-79: URIs, tree afterwards, comparisons *)
Definition splay_step_n (root : stree) (id : list N) : result (list gostring * stree * nat) :=
  let! (uris, root', ex, k) := ssearch_n root false id in
  Ok (uris, splay_root root' ex, k).
