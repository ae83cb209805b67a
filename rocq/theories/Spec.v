(** Specifications used by the property theorems.  Nothing here refers to the
    model of the code: only to bits, bytes, strings and lists. *)
From Verif Require Import GoBase.

(** ** Identifiers and patterns as bits *)

(** A filter pattern is written with 0, 1 and x. *)
Definition is_pattern (pat : gostring) : Prop :=
  Forall (fun c => c = "0"%char \/ c = "1"%char \/ c = "x"%char) pat.
(** A filter key (prefix filter) is written with 0 and 1. *)
Definition is_bitstring (s : gostring) : Prop :=
  Forall (fun c => c = "0"%char \/ c = "1"%char) s.

(** A pattern character against one bit of the identifier. *)
Definition agrees (c : ascii) (b : bool) : Prop :=
  c = "x"%char \/ (c = "1"%char /\ b = true) \/ (c = "0"%char /\ b = false).

(** The identifier's bits, from bit [off] on, are those the pattern prescribes. *)
Definition matches_at (pat : gostring) (off : nat) (id : list N) : Prop :=
  forall i c, nth_error pat i = Some c ->
    exists b, nth_error (bits_of_bytes id) (off + i) = Some b /\ agrees c b.

(** The bits that the identifier does have agree with the pattern. *)
Definition compatible_at (pat : gostring) (off : nat) (id : list N) : Prop :=
  forall i c b, nth_error pat i = Some c ->
    nth_error (bits_of_bytes id) (off + i) = Some b -> agrees c b.

(** Number of identifier bytes covered by a pattern at bit offset [off]; an
    empty pattern still covers the byte it starts in. *)
Definition bytes_needed (pat : gostring) (off : nat) : nat :=
  Nat.max (off / 8 + 1) ((off + List.length pat + 7) / 8).

(** The identifier starts with these bits. *)
Definition id_has_prefix (id : list N) (key : gostring) : Prop := matches_at key 0 id.

(** ** Prefixes of strings *)
Definition is_prefix (p s : gostring) : Prop := exists r, s = p ++ r.
Definition longest_common_prefix (p : gostring) (l : list gostring) : Prop :=
  (forall s, In s l -> is_prefix p s) /\
  (forall q, (forall s, In s l -> is_prefix q s) -> is_prefix q p).

(** ** What a filtering engine must report *)

(** Prefix subscriptions: pairs of a bit prefix and a report URI, in ascending
    order of the prefixes. *)
Definition prefix_subs := list (gostring * gostring).

(** [reported id subs uris]: [uris] are the URIs of the subscriptions whose
    prefix the identifier has, in the order of [subs], one per subscription. *)
Inductive reported (id : list N) : prefix_subs -> list gostring -> Prop :=
| reported_nil : reported id [] []
| reported_yes k u subs uris :
    id_has_prefix id k -> reported id subs uris -> reported id ((k, u) :: subs) (u :: uris)
| reported_no k u subs uris :
    ~ id_has_prefix id k -> reported id subs uris -> reported id ((k, u) :: subs) uris.

(** The identifier ends inside the bytes of [key] and agrees with it that far. *)
Definition runs_out (id : list N) (key : gostring) : Prop :=
  List.length id < bytes_needed key 0 /\ compatible_at key 0 id.

(** The identifier is long enough to decide every subscription. *)
Definition decides (id : list N) (keys : list gostring) : Prop :=
  forall k, In k keys -> ~ runs_out id k.

(** Strictly ascending byte order, as sort.Strings produces on distinct keys. *)
Fixpoint string_lt (a b : gostring) : Prop :=
  match a, b with
  | _, [] => False
  | [], _ :: _ => True
  | x :: a', y :: b' =>
      (N_of_ascii x < N_of_ascii y)%N \/ (x = y /\ string_lt a' b')
  end.
Inductive ascending : list gostring -> Prop :=
| asc_nil : ascending []
| asc_one a : ascending [a]
| asc_cons a b l : string_lt a b -> ascending (b :: l) -> ascending (a :: b :: l).

(** What Search returns (pure identity, report URIs, error flag) when [uris] are
    to be reported and [tr] is the outcome of translating the identifier:
    an error without URIs when there is none; otherwise the URIs together with
    the translation, whose error or crash is that of Search. *)
Definition answers (tr : result gostring) (uris : list gostring)
    (r : result (gostring * list gostring * bool)) : Prop :=
  (uris = [] /\ r = Ok ([], [], true))
  \/ (uris <> [] /\
      match tr with
      | Ok u => r = Ok (u, uris, false)
      | Err => r = Ok ([], uris, true)
      | Panic => r = Panic
      end).

(** ** Changing subscriptions at run time *)
(** Subscriptions form a map from prefix to URI. *)
Inductive change : Type := Subscribe (k u : gostring) | Unsubscribe (k : gostring).
Definition apply_change (m : prefix_subs) (c : change) : prefix_subs :=
  match c with Subscribe k u => mset k u m | Unsubscribe k => mdel k m end.
Definition apply_changes (m : prefix_subs) (cs : list change) : prefix_subs :=
  fold_left apply_change cs m.
Definition strictly_extends (k' k : gostring) : Prop := is_prefix k k' /\ k' <> k.
(** Histories in which a prefix is subscribed only while no strictly longer
    extension of it has ever been used, and an unsubscribed prefix is subscribed
    or has no extension in use.  [used] are the prefixes used so far, [m] the
    current subscriptions. *)
Inductive top_down : list gostring -> prefix_subs -> list change -> Prop :=
| top_down_nil used m : top_down used m []
| top_down_sub used m k u cs :
    is_bitstring k -> k <> [] -> u <> [] ->
    (forall k', In k' used -> ~ strictly_extends k' k) ->
    top_down (k :: used) (apply_change m (Subscribe k u)) cs ->
    top_down used m (Subscribe k u :: cs)
| top_down_unsub used m k cs :
    is_bitstring k ->
    (In k (map fst m) \/ forall k', In k' used -> ~ strictly_extends k' k) ->
    top_down used (apply_change m (Unsubscribe k)) cs ->
    top_down used m (Unsubscribe k :: cs).
(** All prefixes subscribed in a history. *)
Definition subscribed_keys (cs : list change) : list gostring :=
  flat_map (fun c => match c with Subscribe k _ => [k] | Unsubscribe _ => [] end) cs.

(** Search and update histories of a self-adjusting engine. *)
Inductive event : Type := Read (id : list N) | Change (c : change).
Definition event_subs (m : prefix_subs) (e : event) : prefix_subs :=
  match e with Read _ => m | Change c => apply_change m c end.
Definition comparable (a b : gostring) : Prop := is_prefix a b \/ is_prefix b a.
(** The extensions of [k] among the keys are pairwise comparable. *)
Definition one_chain_above (keys : list gostring) (k : gostring) : Prop :=
  forall a b, In a keys -> In b keys -> strictly_extends a k -> strictly_extends b k -> comparable a b.
(** Any two extensions of [k] among the keys have a common start that extends [k]
    and is itself a key. *)
Definition one_branch_above (keys : list gostring) (k : gostring) : Prop :=
  forall a b, In a keys -> In b keys -> strictly_extends a k -> strictly_extends b k ->
  exists g, In g keys /\ strictly_extends g k /\ is_prefix g a /\ is_prefix g b.
(** Histories that avoid the three known defects: a tag is searched only while
    no subscription has two incomparable extensions; a prefix is subscribed only
    if it is subscribed already or no extension of it is; a subscribed prefix is
    unsubscribed only if its extensions lie above one of them and it is not the
    only subscription. *)
Inductive calm : prefix_subs -> list event -> Prop :=
| calm_nil m : calm m []
| calm_read m id es :
    wf_bytes id -> decides id (map fst m) ->
    (forall k, In k (map fst m) -> one_chain_above (map fst m) k) ->
    calm m es -> calm m (Read id :: es)
| calm_sub m k u es :
    is_bitstring k ->
    (In k (map fst m) \/ forall k', In k' (map fst m) -> ~ strictly_extends k' k) ->
    calm (apply_change m (Subscribe k u)) es -> calm m (Change (Subscribe k u) :: es)
| calm_unsub m k es :
    is_bitstring k ->
    (In k (map fst m) -> one_branch_above (map fst m) k /\ exists k', In k' (map fst m) /\ k' <> k) ->
    calm (apply_change m (Unsubscribe k)) es -> calm m (Change (Unsubscribe k) :: es).
