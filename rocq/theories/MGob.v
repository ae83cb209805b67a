(** Model of the MarshalBinary and UnmarshalBinary methods of the engines and of
    the subscriptions (filtering/list.go, patricia_trie.go, splay_tree.go,
    legacy_engine.go, subscriptions.go).

    Simplification: the bytes written by encoding/gob are modelled as the sequence
    of values passed to Encode, each with its type; a nested value with its own
    MarshalBinary is one value that holds a whole sequence.  Decode takes the next
    value: it fails at the end of the data or when the type is not the one asked
    for, and the value is consumed in both cases (encoding/gob decoder.go: Decode
    resets its error and reads one whole message).  So what is assumed of
    encoding/gob is that it reads back single strings, ints, bools, filter objects
    and byte slices as written. *)
From Verif Require Import GoBase BinUtil MFilter MTdtCore MSubs MList MPatricia MSplay.

(** One encoded value.  [TBin] is a value written by its own MarshalBinary,
    [TMap] a map with string keys. *)
Inductive tok : Type :=
| TStr (s : gostring)
| TInt (z : Z)
| TBool (b : bool)
| TFo (f : filter_object)
| TBin (l : list tok)
| TMap (l : list (gostring * tok)).

(** The same with the nested values already decoded: [N] is what a nested value
    decodes to, with the flag that its UnmarshalBinary returned an error. *)
Inductive dtok (N : Type) : Type :=
| DStr (s : gostring)
| DInt (z : Z)
| DBool (b : bool)
| DFo (f : filter_object)
| DBin (n : N) (err : bool)
| DMap (l : list (gostring * dtok N)).
Arguments DStr {N}. Arguments DInt {N}. Arguments DBool {N}. Arguments DFo {N}. Arguments DBin {N}. Arguments DMap {N}.

(** Decode nested values with [f], inside out. *)
Fixpoint decode_nested {N} (f : list (dtok N) -> N * bool) (t : tok) : dtok N :=
  match t with
  | TStr s => DStr s
  | TInt z => DInt z
  | TBool b => DBool b
  | TFo x => DFo x
  | TBin l => let '(n, e) := f (map (decode_nested f) l) in DBin n e
  | TMap l => DMap (map (fun kv => (fst kv, decode_nested f (snd kv))) l)
  end.

(** dec.Decode into a variable of the given type: [None] is an error. *)
Section Pops.
  Context {N : Type}.
  Definition pop_str (l : list (dtok N)) : option gostring * list (dtok N) :=
    match l with DStr s :: l' => (Some s, l') | _ :: l' => (None, l') | [] => (None, []) end.
  Definition pop_int (l : list (dtok N)) : option Z * list (dtok N) :=
    match l with DInt z :: l' => (Some z, l') | _ :: l' => (None, l') | [] => (None, []) end.
  Definition pop_bool (l : list (dtok N)) : option bool * list (dtok N) :=
    match l with DBool b :: l' => (Some b, l') | _ :: l' => (None, l') | [] => (None, []) end.
  Definition pop_fo (l : list (dtok N)) : option filter_object * list (dtok N) :=
    match l with DFo f :: l' => (Some f, l') | _ :: l' => (None, l') | [] => (None, []) end.
  (** Into a nil pointer: the node is allocated only when a nested value is
      there; it is then kept even when its UnmarshalBinary fails. *)
  Definition pop_node (nil : N) (l : list (dtok N)) : N * bool * list (dtok N) :=
    match l with
    | DBin n e :: l' => (n, e, l')
    | _ :: l' => (nil, true, l')
    | [] => (nil, true, [])
    end.
End Pops.

(** Values without nested values. *)
Definition plain (data : list tok) : list (dtok unit) := map (decode_nested (fun _ => (tt, false))) data.

(** *** List (filtering/list.go) *)
Definition list_tag : gostring := str "Engine:filtering.List".
(** filtering/list.go:84-101 [MarshalBinary] *)
Definition list_save (l : list_engine) : list tok :=
  TStr list_tag :: TInt (Z.of_nat (length l)) :: flat_map (fun em => [TStr (em_uri em); TFo (em_filter em)]) l.
(** An ExactMatch after decoding: the filter pointer can be nil. *)
Definition loaded := (gostring * option filter_object)%type.
(** filtering/list.go:137-147: [n] more rounds; [err] is the error of the last
    Decode. *)
Fixpoint list_load (n : nat) (l : list (dtok unit)) (acc : list loaded) (err : bool) : list loaded * bool :=
  match n with
  | O => (acc, err)
  | S n' =>
      match pop_str l with
      | (None, _) => (acc, true)
      | (Some uri, l1) =>
          let '(f, l2) := pop_fo l1 in
          list_load n' l2 (acc ++ [(uri, f)]) (match f with Some _ => false | None => true end)
      end
  end.
(** filtering/list.go:123-153 [UnmarshalBinary] on a List that holds [old]; the
    flag is the returned error. *)
Definition list_restore (old : list loaded) (data : list tok) : list loaded * bool :=
  match pop_str (plain data) with
  | (None, _) => (old, true)
  | (Some tag, l1) =>
      if seqb tag list_tag then
        match pop_int l1 with
        | (None, _) => (old, true)
        | (Some n, l2) => list_load (Z.to_nat n) l2 old false
        end
      else (old, true)
  end.

(** *** Trees *)
(** A node of either tree, as the decoder makes it; [GNil] is the nil pointer. *)
Inductive gtree : Type :=
| GNil
| GNode (uri : gostring) (fo : option filter_object) (first second : gtree).
Fixpoint of_ptree (t : ptree) : gtree :=
  match t with PNil => GNil | PNode u f o z => GNode u (Some f) (of_ptree o) (of_ptree z) end.
Fixpoint of_stree (t : stree) : gtree :=
  match t with SNil => GNil | SNode u f m n => GNode u f (of_stree m) (of_stree n) end.
Definition gnil (t : gtree) : bool := match t with GNil => true | _ => false end.

(** filtering/patricia_trie.go:107-136 and filtering/splay_tree.go:107-136: the
    MarshalBinary of a node ([one]/[zero] and [matchNext]/[mismatchNext]).  The
    nil node is never reached. *)
Fixpoint node_save (t : gtree) : list tok :=
  match t with
  | GNil => []
  | GNode u f a b =>
      TStr u
      :: (match f with Some x => [TBool true; TFo x] | None => [TBool false] end)
      ++ (match a with GNil => [TBool false] | _ => [TBool true; TBin (node_save a)] end)
      ++ (match b with GNil => [TBool false] | _ => [TBool true; TBin (node_save b)] end)
  end.

(** filtering/patricia_trie.go:139-181: the UnmarshalBinary of a fresh node.  Line
    174 asks [hasOne] again where [hasZero] is meant. *)
Definition pnode_load (l : list (dtok gtree)) : gtree * bool :=
  match pop_str l with
  | (None, _) => (GNode [] None GNil GNil, true)
  | (Some u, l1) =>
  match pop_bool l1 with
  | (None, _) => (GNode u None GNil GNil, true)
  | (Some has_filter, l2) =>
      let '(f, l3) := if has_filter then pop_fo l2 else (None, l2) in
      match pop_bool l3 with
      | (None, _) => (GNode u f GNil GNil, true)
      | (Some has_one, l4) =>
          let '(one, _, l5) := if has_one then pop_node GNil l4 else (GNil, false, l4) in
          match pop_bool l5 with
          | (None, _) => (GNode u f one GNil, true)
          | (Some has_zero, l6) =>
              let '(zero, err, _) := if has_one then pop_node GNil l6 else (GNil, false, l6) in
              (GNode u f one zero, err)
          end
      end
  end
  end.
(** filtering/splay_tree.go:139-179: the UnmarshalBinary of a fresh node. *)
Definition snode_load (l : list (dtok gtree)) : gtree * bool :=
  match pop_str l with
  | (None, _) => (GNode [] None GNil GNil, true)
  | (Some u, l1) =>
  match pop_bool l1 with
  | (None, _) => (GNode u None GNil GNil, true)
  | (Some has_filter, l2) =>
      let '(f, l3) := if has_filter then pop_fo l2 else (None, l2) in
      match pop_bool l3 with
      | (None, _) => (GNode u f GNil GNil, true)
      | (Some has_match, l4) =>
          let '(m, _, l5) := if has_match then pop_node GNil l4 else (GNil, false, l4) in
          match pop_bool l5 with
          | (None, _) => (GNode u f m GNil, true)
          | (Some has_mismatch, l6) =>
              let '(n, err, _) := if has_mismatch then pop_node GNil l6 else (GNil, false, l6) in
              (GNode u f m n, err)
          end
      end
  end
  end.

Definition patricia_tag : gostring := str "Engine:filtering.PatriciaTrie".
Definition splay_tag : gostring := str "Engine:filtering.SplayTree".
(** filtering/patricia_trie.go:59-70 and filtering/splay_tree.go:59-70
    [MarshalBinary].  gob panics on a nil pointer; NewPatriciaTrie and
    NewSplayTree never leave the root nil. *)
Definition tree_save (tag : gostring) (root : gtree) : result (list tok) :=
  match root with
  | GNil => Panic
  | _ => Ok [TStr tag; TBin (node_save root)]
  end.
Definition patricia_save (t : ptree) : result (list tok) := tree_save patricia_tag (of_ptree t).
Definition splay_save (t : stree) : result (list tok) := tree_save splay_tag (of_stree t).
(** filtering/patricia_trie.go:88-104 and filtering/splay_tree.go:88-104
    [UnmarshalBinary] into an engine whose root is still nil: the root and
    whether an error is returned.  Simplification: decoding over an engine that
    already has a root is not modelled. *)
Definition tree_restore (load : list (dtok gtree) -> gtree * bool) (tag : gostring) (data : list tok) : gtree * bool :=
  match pop_str (map (decode_nested load) data) with
  | (None, _) => (GNil, true)
  | (Some t, l1) =>
      if seqb t tag then let '(root, err, _) := pop_node GNil l1 in (root, err) else (GNil, true)
  end.
Definition patricia_restore (data : list tok) : gtree * bool := tree_restore pnode_load patricia_tag data.
Definition splay_restore (data : list tok) : gtree * bool := tree_restore snode_load splay_tag data.

(** *** Legacy (filtering/legacy_engine.go) *)
Definition legacy_tag : gostring := str "Engine:filtering.LegacyEngine".
Definition entry_toks (kv : gostring * list gostring) : list tok :=
  TStr (fst kv) :: TInt (Z.of_nat (length (snd kv))) :: map TStr (snd kv).
(** filtering/legacy_engine.go:62-82 [MarshalBinary]; the entries in Keys() order,
    which is the order of the representation. *)
Definition legacy_save (m : smap (list gostring)) : list tok :=
  TStr legacy_tag :: TInt (Z.of_nat (length m)) :: flat_map entry_toks m.
(** filtering/legacy_engine.go:166-171: [n] strings are read whatever the data
    said; an error only survives in the last round. *)
Fixpoint legacy_inner (n : nat) (l : list (dtok unit)) (err : bool) : list (dtok unit) * bool :=
  match n with
  | O => (l, err)
  | S n' => let '(s, l1) := pop_str l in legacy_inner n' l1 (match s with Some _ => false | None => true end)
  end.
(** filtering/legacy_engine.go:155-172: the outer loop; what is read is put into a
    local slice and dropped. *)
Fixpoint legacy_outer (size n : nat) (l : list (dtok unit)) (err : bool) : bool :=
  match n with
  | O => err
  | S n' =>
      match pop_str l with
      | (None, _) => true
      | (Some _, l1) =>
          match pop_int l1 with
          | (None, _) => true
          | (Some _, l2) => let '(l3, e) := legacy_inner size l2 false in legacy_outer size n' l3 e
          end
      end
  end.
(** filtering/legacy_engine.go:140-178 [UnmarshalBinary] on an engine that holds
    [old]: the subscriptions afterwards and whether an error is returned. *)
Definition legacy_restore (old : smap (list gostring)) (data : list tok) : smap (list gostring) * bool :=
  match pop_str (plain data) with
  | (None, _) => (old, true)
  | (Some tag, l1) =>
      if seqb tag legacy_tag then
        match pop_int l1 with
        | (None, _) => (old, true)
        | (Some n, l2) => (old, legacy_outer (Z.to_nat n) (Z.to_nat n) l2 false)
        end
      else (old, true)
  end.

(** *** Subscriptions (filtering/subscriptions.go) *)
(** filtering/subscriptions.go:61-82 [MarshalBinary]; a missing key reads as the
    nil slice. *)
Definition subs_save (sub : subscriptions) : list tok :=
  TInt (Z.of_nat (length sub))
  :: flat_map (fun k => entry_toks (k, match sub_get k sub with Some v => v | None => [] end)) (sub_keys sub).
(** filtering/subscriptions.go:105-112: [n] more strings *)
Fixpoint read_strings (n : nat) (l : list (dtok unit)) : option (list gostring) * list (dtok unit) :=
  match n with
  | O => (Some [], l)
  | S n' =>
      match pop_str l with
      | (None, l1) => (None, l1)
      | (Some s, l1) =>
          let '(r, l2) := read_strings n' l1 in
          (match r with Some r => Some (s :: r) | None => None end, l2)
      end
  end.
(** filtering/subscriptions.go:94-114: [n] more entries into the map; [None] is
    the nil map, on which the assignment of line 113 panics. *)
Fixpoint subs_load (n : nat) (l : list (dtok unit)) (m : option (smap (list gostring)))
  : result (option (smap (list gostring)) * bool) :=
  match n with
  | O => Ok (m, false)
  | S n' =>
      match pop_str l with
      | (None, _) => Ok (m, true)
      | (Some k, l1) =>
          match pop_int l1 with
          | (None, _) => Ok (m, true)
          | (Some sz, l2) =>
              match read_strings (Z.to_nat sz) l2 with
              | (None, _) => Ok (m, true)
              | (Some v, l3) =>
                  match m with
                  | None => Panic
                  | Some m => subs_load n' l3 (Some (mset k v m))
                  end
              end
          end
      end
  end.
(** filtering/subscriptions.go:85-117 [UnmarshalBinary] into the map [m]: the map
    and whether an error is returned.  A pattern list read back empty is nil
    where an empty slice may have been saved; the model does not tell them
    apart, and neither does any code that reads the map. *)
Definition subs_restore (m : option (smap (list gostring))) (data : list tok)
  : result (option (smap (list gostring)) * bool) :=
  match pop_int (plain data) with
  | (None, _) => Ok (m, true)
  | (Some n, l1) => subs_load (Z.to_nat n) l1 m
  end.

(** filtering/subscriptions.go:184-199 [PartialSubscription.MarshalBinary]; the
    subset is a map of values that marshal themselves. *)
Fixpoint psub_save (p : psub) : list tok :=
  match p with
  | PSub o u s => [TInt (Z.of_nat o); TStr u; TMap (map (fun kv => (fst kv, TBin (psub_save (snd kv)))) s)]
  end.
(** A decoded PartialSubscription; the offset is any int. *)
Inductive rsub : Type := RSub (offset : Z) (uri : gostring) (subset : list (gostring * rsub)).
Fixpoint of_psub (p : psub) : rsub :=
  match p with PSub o u s => RSub (Z.of_nat o) u (map (fun kv => (fst kv, of_psub (snd kv))) s) end.
(** The entries of an encoded map, in the order they were written; decoding
    stops at the first entry that fails. *)
Fixpoint map_load (l : list (gostring * dtok rsub)) (acc : smap rsub) : smap rsub * bool :=
  match l with
  | [] => (acc, false)
  | (k, DBin p false) :: l' => map_load l' (mset k p acc)
  | _ => (acc, true)
  end.
(** filtering/subscriptions.go:202-221 [PartialSubscription.UnmarshalBinary] of a
    fresh value *)
Definition psub_load (l : list (dtok rsub)) : rsub * bool :=
  match pop_int l with
  | (None, _) => (RSub 0 [] [], true)
  | (Some o, l1) =>
      match pop_str l1 with
      | (None, _) => (RSub o [] [], true)
      | (Some u, l2) =>
          match l2 with
          | DMap s :: _ => let '(m, err) := map_load s [] in (RSub o u m, err)
          | _ => (RSub o u [], true)
          end
      end
  end.
Definition psub_restore (data : list tok) : rsub * bool := psub_load (map (decode_nested psub_load) data).
