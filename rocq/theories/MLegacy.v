(** Model of filtering/legacy_engine.go. *)
From Verif Require Import GoBase BinUtil MTdtCore MSubs MList MSlice.

(** A [Subscriptions] value in memory: report URI to slice of patterns. *)
Definition slice_map := smap slice.
(** What such a map says. *)
Definition contents (h : heap) (m : slice_map) : smap (list gostring) :=
  map (fun e => (fst e, view h (snd e))) m.

(** filtering/subscriptions.go:37-46 [Clone] on memory: every list is copied
    into a slice that starts out as the empty literal. *)
Definition clone_list (grow : nat -> nat) (h : heap) (l : list gostring) : heap * slice :=
  fold_left (fun hs x => append1 grow (fst hs) (snd hs) x) l (h, nil_slice).
Fixpoint clone_slices (grow : nat -> nat) (h : heap) (m : slice_map) : heap * slice_map :=
  match m with
  | [] => (h, [])
  | (f, s) :: m' =>
      let '(h1, s') := clone_list grow h (view h s) in
      let '(h2, r) := clone_slices grow h1 m' in
      (h2, (f, s') :: r)
  end.

(** filtering/legacy_engine.go:14-17 [LegacyEngine], and 181-192
    [NewLegacyEngine]; the translator has no state. *)
Definition legacy := slice_map.
Definition new_legacy (grow : nat -> nat) (h : heap) (sub : slice_map) : heap * legacy :=
  clone_slices grow h sub.

(** filtering/legacy_engine.go:25-29: [range sub[f]] takes the slice header once
    and then reads the array element by element.  [n] elements are left, [j] is
    the position; [stale] is the variable [reportURIs]. *)
Fixpoint legacy_add_loop (grow : nat -> nat) (h : heap) (e : legacy) (f : gostring) (stale src : slice) (j n : nat)
  : result (heap * legacy) :=
  match n with
  | O => Ok (h, e)
  | S n' =>
      let! dest := index (view h src) j in
      match string_index dest (view h stale) with
      | Some _ => legacy_add_loop grow h e f stale src (S j) n'
      | None =>
          match mget f e with
          | None => Panic
          | Some cur =>
              let '(h', cur') := append1 grow h cur dest in
              legacy_add_loop grow h' (mset f cur' e) f stale src (S j) n'
          end
      end
  end.
(** filtering/legacy_engine.go:20-32 [AddSubscription]; line 23 stores the
    caller's slice itself.  [None] from the engine's map in the loop cannot
    happen (line 22 found the key) and is reported as [Panic]. *)
Definition legacy_add1 (grow : nat -> nat) (st : result (heap * legacy)) (kv : gostring * slice) : result (heap * legacy) :=
  let! (h, e) := st in
  match mget (fst kv) e with
  | None => Ok (h, mset (fst kv) (snd kv) e)
  | Some stale => legacy_add_loop grow h e (fst kv) stale (snd kv) 0 (sl_len (snd kv))
  end.
Definition legacy_add (grow : nat -> nat) (h : heap) (e : legacy) (sub : slice_map) : result (heap * legacy) :=
  fold_left (legacy_add1 grow) sub (Ok (h, e)).

(** filtering/legacy_engine.go:40-44 *)
Fixpoint legacy_del_loop (h : heap) (e : legacy) (f : gostring) (stale src : slice) (j n : nat)
  : result (heap * legacy) :=
  match n with
  | O => Ok (h, e)
  | S n' =>
      let! dest := index (view h src) j in
      match string_index dest (view h stale) with
      | None => legacy_del_loop h e f stale src (S j) n'
      | Some i =>
          let '(h', cur') := cut h stale i in
          legacy_del_loop h' (mset f cur' e) f stale src (S j) n'
      end
  end.
(** filtering/legacy_engine.go:35-50 [DeleteSubscription] *)
Definition legacy_del1 (st : result (heap * legacy)) (kv : gostring * slice) : result (heap * legacy) :=
  let! (h, e) := st in
  match mget (fst kv) e with
  | None => Ok (h, e)
  | Some stale =>
      let! (h', e') := legacy_del_loop h e (fst kv) stale (snd kv) 0 (sl_len (snd kv)) in
      match mget (fst kv) e' with
      | Some cur => Ok (h', if Nat.eqb (sl_len cur) 0 then mdel (fst kv) e' else e')
      | None => Ok (h', mdel (fst kv) e')
      end
  end.
Definition legacy_del (h : heap) (e : legacy) (sub : slice_map) : result (heap * legacy) :=
  fold_left legacy_del1 sub (Ok (h, e)).

(** filtering/legacy_engine.go:99-127: the text a pattern is compared as; [None]
    when the pattern is skipped (line 100). *)
Definition legacy_text (pat : gostring) : option gostring :=
  match split_on ccolon pat with
  | [_; _; _; t; p] =>
      let tail := join (str ".") (tl (split_on cdot p)) in
      Some (if seqb t (str "giai-96") then str "giai:" ++ tail
            else if seqb t (str "grai-96") then str "grai:" ++ tail
            else if seqb t (str "sgtin-96") then str "sgtin:" ++ tail
            else if seqb t (str "sscc-96") then str "sscc:" ++ tail
            else if seqb t (str "iso17363") then t ++ str ":" ++ remove_char cdot p
            else if seqb t (str "iso17365") then t ++ str ":" ++ remove_char cdot p
            else p)
  | _ => None
  end.
(** filtering/legacy_engine.go:97-132: the map in its iteration order. *)
Definition legacy_matches (pure : gostring) (order : list (gostring * list gostring)) : list gostring :=
  flat_map (fun e =>
    flat_map (fun pat =>
      match legacy_text pat with
      | Some t => if has_prefix (trim_prefix pure (str "urn:epc:id:")) t then [fst e] else []
      | None => []
      end) (snd e)) order.
(** filtering/legacy_engine.go:90-137 [Search].  On a translation error the pure
    identity is the empty string Translate returns with it; without a match the
    pure identity is returned together with the error. *)
Definition legacy_search (order : list (gostring * list gostring)) (pc id : list N) : result search_result :=
  match translate pc id with
  | Panic => Panic
  | Err => Ok ([], [], true)
  | Ok pure =>
      match legacy_matches pure order with
      | [] => Ok (pure, [], true)
      | uris => Ok (pure, uris, false)
      end
  end.
