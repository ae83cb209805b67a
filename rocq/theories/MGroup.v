(** Model of the grouping of byte subscriptions by common prefix
    (filtering/subscriptions.go, filtering/engine.go).  No code in the repository
    calls makePatriciaSubset; it is modelled because it edits the subscriptions. *)
From Verif Require Import GoBase MEngine MSubs.

(** filtering/engine.go:50-87 [findPartialLCP].  Every call is on strings one
    character shorter, so this fuel is enough ([None] does not occur: C76). *)
Definition find_partial_lcp (l : list gostring) : option (gostring * nat) :=
  find_partial_lcp_fuel (S (max_length l)) l.

(** filtering/subscriptions.go:308-337: the body of the loop over the keys, for
    the common prefix [p] and the offset [cur] of the first key.  The state is
    the map, the superset found so far and the subset under construction.  The
    keys are read before the loop and every key is deleted at most in its own
    turn, so a missing entry would be a nil dereference. *)
Definition group_step (p : gostring) (cur : nat) (r : result (bsubs * option psub * bsubs)) (fs : gostring)
  : result (bsubs * option psub * bsubs) :=
  let! st := r in
  match st with
  | (b, sup, sb) =>
      match mget fs b with
      | None => Panic
      | Some q =>
          if seqb fs p then Ok (mdel fs b, Some (PSub cur (ps_uri q) (ps_subset q)), sb)
          else if has_prefix fs p then
            Ok (mdel fs b, sup,
                mset (skipn (List.length p) fs) (PSub (cur + List.length p) (ps_uri q) (ps_subset q)) sb)
          else Ok (b, sup, sb)
      end
  end.

(** filtering/subscriptions.go:296-347: one turn of the outer loop.  The superset
    gets the collected subset in place of the one it had. *)
Definition group_round (p : gostring) (b : bsubs) : result bsubs :=
  match bsub_keys b with
  | [] => Panic
  | k0 :: _ =>
      match mget k0 b with
      | None => Panic
      | Some q0 =>
          let cur := ps_offset q0 in
          let! st := fold_left (group_step p cur) (bsub_keys b) (Ok (b, None, [])) in
          match st with
          | (b', sup, sb) =>
              Ok (mset p (match sup with
                          | Some q => PSub (ps_offset q) (ps_uri q) sb
                          | None => PSub cur [] sb
                          end) b')
          end
      end
  end.

(** filtering/subscriptions.go:295-348: the outer loop.  Every turn replaces at
    least two entries by one; running out of fuel is the outcome [Panic], which
    C77 excludes. *)
Fixpoint group_loop (fuel : nat) (b : bsubs) : result bsubs :=
  match fuel with
  | O => Panic
  | S fuel' =>
      match find_partial_lcp (bsub_keys b) with
      | None => Panic
      | Some (p, n) =>
          if Nat.ltb n 1 then Ok b
          else let! b' := group_round p b in group_loop fuel' b'
      end
  end.

(** filtering/subscriptions.go:351-355: the subsets are linked in key order. *)
Definition link_groups (b : bsubs) : result bsubs :=
  fold_left
    (fun r fs =>
       let! b' := r in
       match mget fs b' with
       | None => Panic
       | Some (PSub o u s) =>
           match s with
           | [] => Ok b'
           | _ :: _ => let! s' := link_subset s in Ok (mset fs (PSub o u s') b')
           end
       end)
    (bsub_keys b) (Ok b).

(** filtering/subscriptions.go:290-357 [makePatriciaSubset] *)
Definition make_patricia_subset (b : bsubs) : result bsubs :=
  let! b' := group_loop (S (List.length b)) b in link_groups b'.
