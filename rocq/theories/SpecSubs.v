(** Reading subscriptions: what patterns ask for, and views of converted
    subscriptions, used in the statements. *)
From Verif Require Import GoBase BinUtil MTdtEpc MTdtIso MTdtCore MSubs SpecMap Spec.

Definition flat_entry (kv : gostring * psub) : Prop :=
  ps_offset (snd kv) = 0 /\ ps_subset (snd kv) = [].
(** Byte subscriptions as ToByteSubscriptions produces them. *)
Definition flat (b : bsubs) : Prop := wf_map b /\ Forall flat_entry b.
(** Their (prefix, URI) pairs. *)
Definition entries (b : bsubs) : prefix_subs := map (fun kv => (fst kv, ps_uri (snd kv))) b.
(** URI [u] asks for the tags with prefix [s]: one of its patterns converts to [s]. *)
Definition wants (E : env) (sub : subscriptions) (s u : gostring) : Prop :=
  exists pats pat, In (u, pats) sub /\ In pat pats /\ pattern_prefix E pat = Some s.
(** No prefix is asked for by two different URIs. *)
Definition unshared (E : env) (sub : subscriptions) : Prop :=
  forall s u u', wants E sub s u -> wants E sub s u' -> u = u'.
(** A pattern has the right shape when exactly one colon is left after the
    scheme prefix; its type and fields are then handed to the prefix filter
    construction. *)
Definition pattern_parts (pat : gostring) : option (gostring * list gostring) :=
  match split_on ccolon (trim_prefix pat (str "urn:epc:pat:")) with
  | [t; fs] => Some (t, split_on cdot (to_upper fs))
  | _ => None
  end.
(** Patterns that cannot be turned into a prefix filter. *)
Definition rejected (E : env) (pat : gostring) : Prop :=
  match pattern_parts pat with
  | Some (t, fields) => make_prefix_filter_string E t fields = Err
  | None => True
  end.
(** Case-insensitive tests of the property, on the lower-cased field. *)
Definition is_http (s : gostring) : bool := has_prefix (to_lower s) (str "http").
Definition is_epc_pat (s : gostring) : bool := has_prefix (to_lower s) (str "urn:epc:pat:").
(** The patterns the file gives to [uri], in file order. *)
Definition csv_patterns (uri : gostring) (records : list (list gostring)) : list gostring :=
  flat_map (fun r => match r with
                     | r0 :: fields => if is_http r0 && seqb (to_lower r0) uri then filter is_epc_pat fields else []
                     | [] => []
                     end) records.
(** An accepted ISO pattern asks for nothing: every field is empty. *)
Definition asks_nothing (pat : gostring) : Prop :=
  exists t fields, pattern_parts pat = Some (t, fields) /\
    ((t = str "iso17363" /\ (length fields <= 3)%nat) \/ (t = str "iso17365" /\ (length fields <= 4)%nat)) /\
    Forall (fun f => f = []) fields.
