(** Properties C26-C28 and C30: subscriptions. *)
From Verif Require Import GoBase BinUtil MFilter MTdtCore MSubs MList TestVectors.
From Verif Require Import PBase Spec PFilter PSubs PList PMatch PSubs2 PSubs3 PExamples.
From Coq Require Import Lia Permutation.

(** ** C26 *)
(** [sub] lists a Go map in some iteration order, so its keys are distinct. *)
Theorem C26_keys_sorted : forall sub : subscriptions, NoDup (map fst sub) ->
  ascending (sub_keys sub) /\ (forall k, In k (sub_keys sub) <-> In k (map fst sub)).
Proof. exact sub_keys_spec. Qed.
Print Assumptions C26_keys_sorted.

Theorem C26_keys_order_independent : forall sub sub' : subscriptions,
  Permutation sub sub' -> sub_keys sub = sub_keys sub'.
Proof. exact sub_keys_perm. Qed.
Print Assumptions C26_keys_order_independent.

(** The same for the keys of converted subscriptions. *)
Theorem C26_byte_keys : forall (l : list (gostring * psub)), NoDup (map fst l) ->
  ascending (bsub_keys l) /\ (forall k, In k (bsub_keys l) <-> In k (map fst l))
  /\ (forall l', Permutation l l' -> bsub_keys l' = bsub_keys l).
Proof. exact bsub_keys_spec. Qed.
Print Assumptions C26_byte_keys.

Example C26_case : let sub := [(str "b", [str "x"]); (str "B", []); (str "ab", []); (str "a", [])] in
  NoDup (map fst sub) /\ sub_keys sub = [str "B"; str "a"; str "ab"; str "b"].
Proof. split; [repeat constructor; cbn; intuition discriminate|reflexivity]. Qed.

(** ** C27 *)
(** What is stored was asked for, and every prefix asked for is stored with one
    of the URIs asking for it. *)
Theorem C27_conversion_sound : forall E sub s u,
  In (s, u) (entries (to_byte_subs E sub)) -> wants E sub s u.
Proof. exact to_byte_sound. Qed.
Print Assumptions C27_conversion_sound.
Theorem C27_conversion_keeps_prefixes : forall E sub s u,
  wants E sub s u -> exists u', In (s, u') (entries (to_byte_subs E sub)).
Proof. exact to_byte_keeps_prefix. Qed.
Print Assumptions C27_conversion_keeps_prefixes.

(** When no prefix is asked for by two URIs, nothing is lost and the iteration
    order does not matter.  Missing: shared prefixes, where both claims are
    false ([C27_refuted_loss], [C27_refuted_order]). *)
Theorem C27_conversion_partial : forall E sub, unshared E sub ->
  (forall s u, In (s, u) (entries (to_byte_subs E sub)) <-> wants E sub s u)
  /\ (forall sub', Permutation sub sub' -> to_byte_subs E sub' = to_byte_subs E sub).
Proof.
  intros E sub H. split; [apply to_byte_unshared; auto|]. intros sub' HP. symmetry. apply to_byte_order; auto.
Qed.
Print Assumptions C27_conversion_partial.

Example C27_hypotheses : unshared E0
  [(str "http://a", [str "urn:epc:pat:sgtin-96:3.12345678"]);
   (str "http://b", [str "urn:epc:pat:sgtin-96:3.12345678.00001"; str "urn:epc:pat:sscc-96:3.12345678"])].
Proof.
  apply unshared_b. vm_compute. reflexivity.
Qed.

Theorem C27_refuted_loss : exists sub s u,
  NoDup (map fst sub) /\ wants E0 sub s u /\ ~ In (s, u) (entries (to_byte_subs E0 sub)).
Proof.
  set (p := str "urn:epc:pat:sgtin-96:3.12345678").
  exists [(str "http://a", [p]); (str "http://b", [p])], (str "00110000011100000101111000110000101001110"), (str "http://a").
  split; [repeat constructor; cbn; intuition discriminate|]. split.
  - exists [p], p. split; [left; auto|]. split; [left; auto|]. vm_compute. reflexivity.
  - vm_compute. intros [H|[]]. discriminate.
Qed.
Print Assumptions C27_refuted_loss.
Theorem C27_refuted_order : exists sub sub',
  NoDup (map fst sub) /\ Permutation sub sub' /\ to_byte_subs E0 sub <> to_byte_subs E0 sub'.
Proof.
  set (p := str "urn:epc:pat:sgtin-96:3.12345678").
  exists [(str "http://a", [p]); (str "http://b", [p])], [(str "http://b", [p]); (str "http://a", [p])].
  split; [repeat constructor; cbn; intuition discriminate|]. split; [apply perm_swap|].
  vm_compute. discriminate.
Qed.
Print Assumptions C27_refuted_order.

(** Exactly what is stored: the last subscription asking for a prefix wins. *)
Theorem C27_last_wins : forall E sub s u,
  In (s, u) (entries (to_byte_subs E sub)) <->
  exists sub1 pats sub2, sub = sub1 ++ (u, pats) :: sub2 /\
    (exists pat, In pat pats /\ pattern_prefix E pat = Some s) /\ forall u', ~ wants E sub2 s u'.
Proof. exact to_byte_last. Qed.
Print Assumptions C27_last_wins.

(** The exact boundary of both claims: every pair is kept, and the iteration order
    does not matter, exactly when no prefix is asked for by two URIs. *)
Theorem C27_exactly : forall E sub,
  ((forall s u, wants E sub s u -> In (s, u) (entries (to_byte_subs E sub))) <-> unshared E sub) /\
  ((forall sub', Permutation sub sub' -> to_byte_subs E sub' = to_byte_subs E sub) <-> unshared E sub).
Proof. intros E sub. split; [apply nothing_lost|apply order_matters]. Qed.
Print Assumptions C27_exactly.

Example C27_last_case :
  entries (to_byte_subs E0 [(str "http://a", [str "urn:epc:pat:sgtin-96:3.12345678"]);
                            (str "http://b", [str "urn:epc:pat:sgtin-96:3.12345678"])])
  = [(str "00110000011100000101111000110000101001110", str "http://b")].
Proof. vm_compute. reflexivity. Qed.

(** ** C28 *)
(** Patterns without exactly one colon after the scheme are ignored. *)
Theorem C28_misshapen_ignored_partial : forall E sub1 sub2 u pats1 pat pats2,
  pattern_parts pat = None ->
  to_byte_subs E (sub1 ++ (u, pats1 ++ pat :: pats2) :: sub2)
  = to_byte_subs E (sub1 ++ (u, pats1 ++ pats2) :: sub2).
Proof. exact ignored_pattern. Qed.
Print Assumptions C28_misshapen_ignored_partial.

(** Every other rejected pattern subscribes to every tag. *)
Theorem C28_rejected_catches_all_refuted : forall E u pat pc id,
  rejected E pat -> pattern_parts pat <> None -> wf_bytes id -> id <> [] ->
  answers (translate pc id) [u] (list_search (new_list E [(u, [pat])]) pc id).
Proof. exact rejected_catches_all. Qed.
Print Assumptions C28_rejected_catches_all_refuted.

Theorem C28_refuted : exists pat id uri,
  rejected E0 pat /\
  list_search (new_list E0 [(str "http://a", [pat])]) pcgs1 id = Ok (uri, [str "http://a"], false).
Proof.
  exists (str "urn:epc:pat:sgtin-198:3.12345678.00001.1"), [48;112;94;48;167;0;0;64;0;0;0;1]%N.
  eexists. split; vm_compute; reflexivity.
Qed.
Print Assumptions C28_refuted.

Example C28_cases : pattern_parts (str "urn:epc:pat:sgtin-96") = None
  /\ pattern_parts (str "urn:epc:pat:gid-96:1.2.3") <> None /\ rejected E0 (str "urn:epc:pat:gid-96:1.2.3").
Proof. split; [reflexivity|]. split; [discriminate|]. vm_compute. reflexivity. Qed.

(** Exactly the patterns stored as the empty prefix, which every tag matches: those
    of the right shape that are rejected, and the ISO patterns whose fields are all
    empty. *)
Theorem C28_catches_all_exactly : forall E u pat,
  entries (to_byte_subs E [(u, [pat])]) = [([], u)] <->
  (pattern_parts pat <> None /\ rejected E pat) \/ asks_nothing pat.
Proof.
  intros E u pat. rewrite <- empty_prefix. unfold to_byte_subs. cbn [fold_left fst snd]. unfold add_pattern.
  destruct (pattern_prefix E pat) as [s|]; cbn; split; intros H; inversion H; auto.
Qed.
Print Assumptions C28_catches_all_exactly.

Example C28_asks_nothing_case : asks_nothing (str "urn:epc:pat:iso17365:..")
  /\ entries (to_byte_subs E0 [(str "http://a", [str "urn:epc:pat:iso17365:.."])]) = [([], str "http://a")].
Proof.
  split; [|vm_compute; reflexivity]. exists (str "iso17365"), [[]; []; []].
  split; [vm_compute; reflexivity|]. split; [right; split; [reflexivity|cbn; lia]|repeat constructor].
Qed.

(** ** C30 *)
Theorem C30_csv : forall records uri,
  mget uri (load_csv records) = match csv_patterns uri records with [] => None | l => Some l end.
Proof. exact load_csv_spec. Qed.
Print Assumptions C30_csv.

Example C30_case :
  load_csv [[str "HTTP://A"; str "urn:epc:pat:x"; str "junk"]; [str "ftp://a"; str "urn:epc:pat:y"];
            [str "http://a"; str "URN:EPC:PAT:z"]; [str "http://b"; str "no"]]
  = [(str "http://a", [str "urn:epc:pat:x"; str "URN:EPC:PAT:z"])].
Proof. vm_compute. reflexivity. Qed.
