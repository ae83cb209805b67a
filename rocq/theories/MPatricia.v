(** Model of filtering/patricia_trie.go. *)
From Verif Require Import GoBase BinUtil MFilter MEngine MTdtCore MSubs MList.

(** filtering/patricia_trie.go:28-33 [PatriciaTrieNode]; [PNil] is the nil
    pointer. *)
Inductive ptree : Type :=
| PNil
| PNode (uri : gostring) (fo : filter_object) (one zero : ptree).

(** filtering/patricia_trie.go:252-283: the common prefix of the remainders that
    begin with [c]. *)
Definition branch_step (c : ascii) (prefix : gostring) (acc fk : gostring) : gostring :=
  if Nat.ltb (List.length fk) (List.length prefix) then acc
  else if negb (has_prefix fk prefix) then acc
  else
    let p := skipn (List.length prefix) fk in
    match p with
    | [] => acc
    | _ => if has_prefix p [c] then
             match acc with [] => p | _ => lcp [p; acc] end
           else acc
    end.
Definition branch (c : ascii) (prefix : gostring) (keys : list gostring) : gostring :=
  fold_left (branch_step c prefix) keys [].

(** [bsub[p].ReportURI] if present (filtering/patricia_trie.go:290-292, :301-303) *)
Definition uri_at (b : bsubs) (p : gostring) : gostring :=
  match mget p b with Some ps => ps_uri ps | None => [] end.

(** filtering/patricia_trie.go:249-306 [build]: the two children of a node whose
    path is [prefix].  Each recursive call has a strictly longer prefix that is
    a prefix of some key; [None] is "out of fuel" ([PPatricia] shows the fuel
    of [new_patricia] is always enough). *)
Fixpoint pbuild (fuel : nat) (prefix : gostring) (b : bsubs) : option (ptree * ptree) :=
  match fuel with
  | O => None
  | S fuel' =>
      let child c :=
        match branch c prefix (bsub_keys b) with
        | [] => Some PNil
        | br =>
            match pbuild fuel' (prefix ++ br) b with
            | Some (o, z) =>
                Some (PNode (uri_at b (prefix ++ br)) (new_filter br (List.length prefix)) o z)
            | None => None
            end
        end in
      match child c1, child c0 with
      | Some o, Some z => Some (o, z)
      | _, _ => None
      end
  end.

(** filtering/patricia_trie.go:428-447 [NewPatriciaTrie], from the byte
    subscriptions.  The root's reportURI is never assigned. *)
Definition new_patricia_b (b : bsubs) : option ptree :=
  let p1 := lcp (bsub_keys b) in
  match pbuild (S (max_length (bsub_keys b))) p1 b with
  | Some (o, z) => Some (PNode [] (new_filter p1 0) o z)
  | None => None
  end.
Definition new_patricia (E : env) (sub : subscriptions) : option ptree :=
  new_patricia_b (to_byte_subs E sub).

(** filtering/patricia_trie.go:401-424 [search] *)
Fixpoint psearch (t : ptree) (id : list N) : result (list gostring) :=
  match t with
  | PNil => Panic   (* nil pointer dereference: only for a nil root *)
  | PNode uri fo one zero =>
      let! m := match_filter fo id in
      if m then
        let here := match uri with [] => [] | _ => [uri] end in
        match get_next_bit id (fo_offset fo + fo_size fo) with
        | Ok nb =>
            let! rest :=
              if Ascii.eqb nb c1 then match one with PNil => Ok [] | _ => psearch one id end
              else if Ascii.eqb nb c0 then match zero with PNil => Ok [] | _ => psearch zero id end
              else Ok [] in
            Ok (here ++ rest)
        | _ => Panic
        end
      else Ok []
  end.
(** filtering/patricia_trie.go:78-85 [Search] *)
Definition patricia_search (t : ptree) (pc id : list N) : result search_result :=
  let! uris := psearch t id in finish_search pc id uris.

(** filtering/patricia_trie.go:186-246 [add] *)
Definition pleaf (s : gostring) (o : nat) (uri : gostring) : ptree :=
  PNode uri (new_filter s o) PNil PNil.
Fixpoint padd (t : ptree) (fs uri : gostring) : result ptree :=
  match t with
  | PNil => Panic
  | PNode u fo one zero =>
      if has_prefix fs (fo_string fo) then
        if seqb fs (fo_string fo) then Ok (PNode uri fo one zero)
        else
          (* lines 225-245 *)
          let n := fo_size fo in
          let rest := skipn n fs in
          match rest with
          | [] => Ok t
          | c :: _ =>
              if Ascii.eqb c c1 then
                match one with
                | PNil => Ok (PNode u fo (pleaf rest (fo_offset fo + n) uri) zero)
                | _ => let! one' := padd one rest uri in Ok (PNode u fo one' zero)
                end
              else if Ascii.eqb c c0 then
                match zero with
                | PNil => Ok (PNode u fo one (pleaf rest (fo_offset fo + n) uri))
                | _ => let! zero' := padd zero rest uri in Ok (PNode u fo one zero')
                end
              else Ok t
          end
      else
        (* lines 196-222 *)
        let ncp := lcp [fs; fo_string fo] in
        let n := List.length ncp in
        let o := fo_offset fo in
        let new_node := PNode u (new_filter (skipn n (fo_string fo)) (o + n)) one zero in
        let fo' := new_filter ncp o in
        match skipn n fs with
        | [] => Ok (PNode [] fo' one zero)
        | c :: _ =>
            if Ascii.eqb c c1 then Ok (PNode [] fo' (pleaf (skipn n fs) (o + n) uri) new_node)
            else if Ascii.eqb c c0 then Ok (PNode [] fo' new_node (pleaf (skipn n fs) (o + n) uri))
            else Ok (PNode [] fo' one zero)
        end
  end.
(** filtering/patricia_trie.go:36-41 [AddSubscription] *)
Definition patricia_add (E : env) (t : ptree) (sub : subscriptions) : result ptree :=
  fold_left (fun r kv => let! t' := r in padd t' (fst kv) (ps_uri (snd kv)))
            (to_byte_subs E sub) (Ok t).

(** filtering/patricia_trie.go:309-359 [delete] *)
Definition is_pleaf (t : ptree) : bool :=
  match t with PNode _ _ PNil PNil => true | _ => false end.
Definition pstring (t : ptree) : gostring :=
  match t with PNode _ fo _ _ => fo_string fo | PNil => [] end.
Fixpoint pdelete (t : ptree) (fs : gostring) : result ptree :=
  match t with
  | PNil => Panic
  | PNode u fo one zero =>
      if negb (has_prefix fs (fo_string fo)) then Ok t
      else if seqb fs (fo_string fo) then
        match one, zero with
        | PNode _ _ _ _, PNode _ _ _ _ => Ok (PNode [] fo one zero)
        | PNode u1 fo1 o1 z1, PNil =>
            Ok (PNode u1 (new_filter (fo_string fo ++ fo_string fo1) (fo_offset fo)) o1 z1)
        | PNil, PNode u1 fo1 o1 z1 =>
            Ok (PNode u1 (new_filter (fo_string fo ++ fo_string fo1) (fo_offset fo)) o1 z1)
        | PNil, PNil => Ok t
        end
      else
        let rest := skipn (fo_size fo) fs in
        match rest with
        | [] => Ok t
        | c :: _ =>
            if Ascii.eqb c c1 then
              match one with
              | PNil => Ok t
              | _ => if seqb rest (pstring one) && is_pleaf one then Ok (PNode u fo PNil zero)
                     else let! one' := pdelete one rest in Ok (PNode u fo one' zero)
              end
            else if Ascii.eqb c c0 then
              match zero with
              | PNil => Ok t
              | _ => if seqb rest (pstring zero) && is_pleaf zero then Ok (PNode u fo one PNil)
                     else let! zero' := pdelete zero rest in Ok (PNode u fo one zero')
              end
            else Ok t
        end
  end.
(** filtering/patricia_trie.go:44-49 [DeleteSubscription] *)
Definition patricia_del (E : env) (t : ptree) (sub : subscriptions) : result ptree :=
  fold_left (fun r kv => let! t' := r in pdelete t' (fst kv)) (to_byte_subs E sub) (Ok t).
