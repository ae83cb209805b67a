(** Model of filtering/subscriptions.go. *)
From Verif Require Import GoBase BinUtil MTdtCore.

(** filtering/subscriptions.go:34 [Subscriptions]: a Go map from report URI to
    patterns.  The list order stands for the (unspecified) iteration order of
    the map, so a statement about the map quantifies over permutations of the
    list; keys are distinct ([NoDup] is a hypothesis where it matters). *)
Definition subscriptions := list (gostring * list gostring).

(** filtering/subscriptions.go:24-31 [ByteSubscriptions], [PartialSubscription].
    The code only reads the map by key and iterates it through Keys(), which is
    sorted, so a strictly sorted association list represents it. *)
Inductive psub : Type := PSub (offset : nat) (uri : gostring) (subset : list (gostring * psub)).
Definition bsubs := smap psub.

Definition ps_offset (p : psub) : nat := match p with PSub o _ _ => o end.
Definition ps_uri (p : psub) : gostring := match p with PSub _ u _ => u end.
Definition ps_subset (p : psub) : bsubs := match p with PSub _ _ s => s end.

(** Read of a Go map held as an association list with distinct keys. *)
Fixpoint sub_get (k : gostring) (sub : subscriptions) : option (list gostring) :=
  match sub with
  | [] => None
  | (k', v) :: sub' => if seqb k k' then Some v else sub_get k sub'
  end.

(** filtering/subscriptions.go:49-58 [Subscriptions.Keys] *)
Definition sub_keys (sub : subscriptions) : list gostring := sort_strings (map fst sub).

(** filtering/subscriptions.go:37-46 [Clone]: a new map filled in key order; a
    missing key reads as the nil slice. *)
Definition sub_clone (sub : subscriptions) : subscriptions :=
  map (fun k => (k, match sub_get k sub with Some v => v | None => [] end)) (sub_keys sub).

(** filtering/subscriptions.go:124-132: what one pattern contributes: [None]
    when the pattern is skipped, else the prefix filter string.  The error of
    MakePrefixFilterString is only logged, and the string it returns with an
    error is empty. *)
Definition urn_pat : gostring := str "urn:epc:pat:".
Definition pattern_prefix (E : env) (pat : gostring) : option gostring :=
  match split_on ccolon (trim_prefix pat urn_pat) with
  | [t; fs] =>
      let fields := split_on cdot (to_upper fs) in
      Some (match make_prefix_filter_string E t fields with Ok s => s | _ => [] end)
  | _ => None
  end.

(** filtering/subscriptions.go:120-141 [ToByteSubscriptions] *)
Definition add_pattern (E : env) (uri : gostring) (m : bsubs) (pat : gostring) : bsubs :=
  match pattern_prefix E pat with
  | Some s => mset s (PSub 0 uri []) m
  | None => m
  end.
Definition to_byte_subs (E : env) (sub : subscriptions) : bsubs :=
  fold_left (fun m e => fold_left (add_pattern E (fst e)) (snd e) m) sub [].

(** filtering/subscriptions.go:231-240 [ByteSubscriptions.Keys] *)
Definition bsub_keys (b : bsubs) : list gostring := sort_strings (mkeys b).

(** filtering/subscriptions.go:243-287 [linkSubset].  [None] entries read from the
    map would be nil dereferences: [Panic].  The recursion of line 280 is bounded
    by fuel; running out is also reported as [Panic], and [PLink] proves the
    result is always [Ok]. *)
Definition link_step (rec : bsubs -> result bsubs) (e : gostring) (r : result bsubs) (fs : gostring)
  : result bsubs :=
  let! b := r in
  match mget fs b with
  | None => Panic
  | Some psub =>
      if has_prefix fs e && negb (seqb fs e) then
        match mget e b with
        | None => Panic
        | Some (PSub o u sub) =>
            let rest := skipn (List.length e) fs in
            let entry := PSub (ps_offset psub + List.length e) (ps_uri psub) [] in
            let! sub' := rec (mset rest entry sub) in
            Ok (mdel fs (mset e (PSub o u sub') b))
        end
      else Ok b
  end.
Fixpoint link_subset_fuel (fuel : nat) (b : bsubs) : result bsubs :=
  match fuel with
  | O => Panic
  | S fuel' =>
      fold_left
        (fun r e =>
           let! b' := r in
           fold_left (link_step (link_subset_fuel fuel') e) (bsub_keys b') (Ok b'))
        (bsub_keys b) (Ok b)
  end.
(** Every level of the recursion handles strictly shorter keys (after a possible
    empty key), so this fuel is enough. *)
Definition max_length (l : list gostring) : nat :=
  fold_right (fun s n => Nat.max (List.length s) n) 0 l.
Definition link_subset (b : bsubs) : result bsubs :=
  link_subset_fuel (S (S (max_length (mkeys b)))) b.

(** filtering/subscriptions.go:144-181 [LoadSubscriptionsFromCSVFile], from the
    records that encoding/csv returns ([MCsv] models the reading of the file's text;
    csv.Reader never returns an empty record). *)
Definition load_pattern (uri : gostring) (sub : smap (list gostring)) (pat : gostring)
  : smap (list gostring) :=
  if has_prefix (to_lower pat) urn_pat then
    mset uri (match mget uri sub with Some l => l ++ [pat] | None => [pat] end) sub
  else sub.
Definition load_record (sub : smap (list gostring)) (record : list gostring)
  : smap (list gostring) :=
  match record with
  | [] => sub
  | r0 :: pats =>
      let uri := to_lower r0 in
      if has_prefix uri (str "http") then fold_left (load_pattern uri) pats sub else sub
  end.
Definition load_csv (records : list (list gostring)) : smap (list gostring) :=
  fold_left load_record records [].
