(** Subscriptions and tags for which the four engines are expected to work. *)
From Verif Require Import GoBase BinUtil MFilter MEngine MTdtCore MScheme MSubs MList Spec SpecEpc SpecSubs SpecEncode MSystem.

(** Subscriptions inside the limits of all engines: distinct URIs, none of them
    empty; no two URIs ask for the same prefix; some prefix; prefixes of bits, none
    of which is the longest common prefix of all (the Patricia trie loses that
    one), and each of which is extended along one chain only (the splay tree loses
    others). *)
Record fit (E : env) (sub : subscriptions) : Prop := {
  fit_distinct : NoDup (map fst sub);
  fit_unshared : unshared E sub;
  fit_some : to_byte_subs E sub <> [];
  fit_bits : Forall is_bitstring (mkeys (to_byte_subs E sub));
  fit_uris : forall k u, In (k, u) (entries (to_byte_subs E sub)) -> u <> [];
  fit_lcp : forall k, In k (mkeys (to_byte_subs E sub)) -> ~ longest_common_prefix k (mkeys (to_byte_subs E sub));
  fit_chain : forall k, In k (mkeys (to_byte_subs E sub)) -> one_chain_above (mkeys (to_byte_subs E sub)) k }.
(** Tags long enough to decide every prefix, which the translator does not crash on. *)
Definition fit_tag (E : env) (sub : subscriptions) (t : tag) : Prop :=
  wf_bytes (snd t) /\ snd t <> [] /\ decides (snd t) (mkeys (to_byte_subs E sub)) /\ translate (fst t) (snd t) <> Panic.


(** EPC patterns.  [covers p q]: [p] names leading fields of what [q] names, so
    that every tag [q] selects is selected by [p]. *)
Definition covers (p q : epc_pattern) : Prop := p_count p <= p_count q /\ leads p (p_scheme q) (p_fields q).
(** The same limits in terms of patterns. *)
Record epc_fit (s : epc_subs) : Prop := {
  ef_distinct : NoDup (map fst s);
  ef_some : exists u p, subscribed s u p;
  ef_uris : forall u p, subscribed s u p -> u <> [];
  ef_ok : forall u p, subscribed s u p -> pattern_ok p;
  ef_unshared : forall u u' p q, subscribed s u p -> subscribed s u' q -> same_pattern p q -> u = u';
  ef_apart : forall u p, subscribed s u p -> exists u' q, subscribed s u' q /\ ~ covers p q;
  ef_chain : forall u p u1 q1 u2 q2, subscribed s u p -> subscribed s u1 q1 -> subscribed s u2 q2 ->
    covers p q1 -> covers p q2 -> covers q1 q2 \/ covers q2 q1 }.
(** A tag the encoder made, with the protocol control bits of an EPC tag. *)
Definition epc_tag (k : scheme) (f : epc_fields) (t : tag) : Prop :=
  epc_pc (fst t) /\ urn_fields k f /\ exists E, encode k E f = Ok (snd t, [], []).
