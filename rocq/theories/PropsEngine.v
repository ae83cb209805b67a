(** Properties C07-C11: the List and Patricia engines. *)
From Verif Require Import GoBase BinUtil MFilter MEngine MTdtCore MSubs MList MPatricia TestVectors.
From Verif Require Import PBase Spec PFilter PEngine PSubs PList PMatch PPatricia PPatriciaHist PExamples SpecTrie PPatriciaExact PSplayExact PAgree.
From Coq Require Import Lia.

(** Reading guide: [to_byte_subs E sub] is what ToByteSubscriptions makes of the
    subscriptions [sub]; [entries] lists it as (prefix, URI) pairs in ascending
    order of the prefixes; [list_pairs l] lists the (prefix, URI) pairs stored in
    a List engine in its order.  [list_run] / [patricia_run] build an engine from
    [sub0] and then perform a history of AddSubscription / DeleteSubscription
    calls. *)

(** Data for the examples: an SGTIN prefix, a longer one inside it, an SSCC prefix. *)
Definition ex_sub : subscriptions :=
  [(str "http://a", [str "urn:epc:pat:sgtin-96:3.12345678"]);
   (str "http://b", [str "urn:epc:pat:sgtin-96:3.12345678.00001"; str "urn:epc:pat:sscc-96:3.12345678"])].
Definition ex_more : subscriptions :=
  [(str "http://c", [str "urn:epc:pat:sgtin-96:3.12345678.00001.1"])].
Definition ex_ops : list update :=
  [Add ex_more; Del [(str "http://b", [str "urn:epc:pat:sgtin-96:3.12345678.00001"])]].
Definition ex_id : list N := [48;112;94;48;167;0;0;64;0;0;0;1]%N.
Definition ex_uri : gostring := str "urn:epc:id:sgtin:12345678.00001.1".

(** ** C07 *)
(** After any history, Search reports one URI per stored pair whose prefix the
    identifier has, in list order. *)
Theorem C07_list_search : forall E sub0 ops pc id, let l := list_run E sub0 ops in
  Forall is_bitstring (map fst (list_pairs l)) -> wf_bytes id -> decides id (map fst (list_pairs l)) ->
  exists uris, reported id (list_pairs l) uris /\ answers (translate pc id) uris (list_search l pc id).
Proof. exact list_run_search. Qed.
Print Assumptions C07_list_search.

(** A fresh engine stores exactly the converted subscriptions. *)
Theorem C07_list_fresh : forall E sub, list_pairs (new_list E sub) = entries (to_byte_subs E sub).
Proof. intros. rewrite new_list_of. apply list_pairs_of. Qed.
Print Assumptions C07_list_fresh.

(** The remaining identifiers: too short for some stored prefix that they do not
    contradict; Search then crashes. *)
Theorem C07_list_search_short : forall E sub0 ops pc id, let l := list_run E sub0 ops in
  Forall is_bitstring (map fst (list_pairs l)) -> wf_bytes id ->
  (exists k, In k (map fst (list_pairs l)) /\ runs_out id k) -> list_search l pc id = Panic.
Proof. exact list_run_search_panic. Qed.
Print Assumptions C07_list_search_short.

Example C07_hypotheses : let l := list_run E0 ex_sub ex_ops in
  Forall is_bitstring (map fst (list_pairs l)) /\ wf_bytes ex_id
  /\ decides ex_id (map fst (list_pairs l))
  /\ list_search l pcgs1 ex_id = Ok (ex_uri, [str "http://a"; str "http://c"], false)
  /\ list_search l pcgs1 [48]%N = Panic.
Proof.
  split; [apply bitstrings_b; vm_compute; reflexivity|]. split; [forall_concrete|].
  split; [apply long_decides; vm_compute; reflexivity|]. split; vm_compute; reflexivity.
Qed.

(** ** C08 *)
Theorem C08_list_set : forall E sub0 ops sub, let l := list_run E sub0 ops in
  NoDup (list_pairs l)
  /\ NoDup (list_pairs (list_add E l sub)) /\ NoDup (list_pairs (list_del E l sub))
  /\ (forall p, In p (list_pairs (list_add E l sub)) <->
                In p (list_pairs l) \/ In p (entries (to_byte_subs E sub)))
  /\ (forall p, In p (list_pairs (list_del E l sub)) <->
                In p (list_pairs l) /\ ~ In p (entries (to_byte_subs E sub))).
Proof.
  intros E sub0 ops sub l.
  assert (forall ops', NoDup (list_pairs (list_run E sub0 ops'))) as HN.
  { intros ops'. apply (list_update_spec E sub0 ops' []). }
  assert (list_add E l sub = list_run E sub0 (ops ++ [Add sub])) as HA.
  { unfold list_run. rewrite fold_left_app. reflexivity. }
  assert (list_del E l sub = list_run E sub0 (ops ++ [Del sub])) as HD.
  { unfold list_run. rewrite fold_left_app. reflexivity. }
  destruct (list_update_spec E sub0 ops sub) as (_ & H1 & H2). fold l in H1, H2.
  split; [apply HN|]. split; [rewrite HA; apply HN|]. split; [rewrite HD; apply HN|].
  rewrite H1, H2. split; intros p.
  - rewrite in_app_iff, filter_In, negb_true_iff. split; [tauto|]. intros [H|H]; auto.
    destruct (pair_mem p (list_pairs l)) eqn:EM; auto. apply pair_mem_In in EM. auto.
  - rewrite filter_In, negb_true_iff. split; intros [H H']; split; auto.
    + intros HI. apply pair_mem_In in HI. congruence.
    + destruct (pair_mem p _) eqn:EM; auto. apply pair_mem_In in EM. tauto.
Qed.
Print Assumptions C08_list_set.

(** The surviving pairs keep their order; new ones are appended in ascending order. *)
Theorem C08_list_order : forall E sub0 ops sub, let l := list_run E sub0 ops in
  (exists new, list_pairs (list_add E l sub) = list_pairs l ++ new /\ ascending (map fst new))
  /\ (exists keep, list_pairs (list_del E l sub) = filter keep (list_pairs l)).
Proof.
  intros E sub0 ops sub l. destruct (list_update_spec E sub0 ops sub) as (_ & H1 & H2). fold l in H1, H2.
  split; [|eauto]. eexists. split; [exact H1|]. apply ascending_ssorted.
  apply ssorted_filter_fst. rewrite entries_keys. apply to_byte_subs_flat.
Qed.
Print Assumptions C08_list_order.

Theorem C08_list_add_idempotent : forall E sub0 ops sub, let l := list_run E sub0 ops in
  list_add E (list_add E l sub) sub = list_add E l sub.
Proof. exact list_add_idem. Qed.
Print Assumptions C08_list_add_idempotent.

Theorem C08_list_delete_absent : forall E sub0 ops sub, let l := list_run E sub0 ops in
  (forall p, In p (entries (to_byte_subs E sub)) -> ~ In p (list_pairs l)) -> list_del E l sub = l.
Proof. exact list_del_absent. Qed.
Print Assumptions C08_list_delete_absent.

Example C08_cases : let l := list_run E0 ex_sub ex_ops in
  length (list_pairs l) = 3 /\ length (list_pairs (list_add E0 l ex_sub)) = 4
  /\ length (list_pairs (list_del E0 l ex_more)) = 2
  /\ (forall p, In p (entries (to_byte_subs E0 [(str "http://z", [str "urn:epc:pat:sscc-96:3.12345678"])])) ->
        ~ In p (list_pairs l)).
Proof.
  split; [vm_compute; reflexivity|]. split; [vm_compute; reflexivity|]. split; [vm_compute; reflexivity|].
  intros p Hp. vm_compute in Hp. destruct Hp as [<-|[]]. intros Hp. vm_compute in Hp.
  repeat destruct Hp as [Hp|Hp]; discriminate || auto.
Qed.

(** ** C09 *)
(** Exact description of a fresh trie: it reports the matching subscriptions
    except the one whose prefix is the longest common prefix of all prefixes. *)
Theorem C09_patricia_exact : forall E sub pc id, let b := to_byte_subs E sub in
  Forall is_bitstring (mkeys b) -> (forall k u, In (k, u) (entries b) -> u <> []) ->
  wf_bytes id -> id <> [] -> decides id (mkeys b) ->
  exists t subs uris, new_patricia E sub = Some t /\
    ascending (map fst subs) /\
    (forall k u, In (k, u) subs <-> In (k, u) (entries b) /\ ~ longest_common_prefix k (mkeys b)) /\
    reported id subs uris /\ answers (translate pc id) uris (patricia_search t pc id).
Proof. exact patricia_fresh_search. Qed.
Print Assumptions C09_patricia_exact.

(** The property itself, when no subscription's prefix is a prefix of all others.
    Missing: that case, which is false ([C09_refuted]). *)
Theorem C09_patricia_search_partial : forall E sub pc id, let b := to_byte_subs E sub in
  Forall is_bitstring (mkeys b) -> (forall k u, In (k, u) (entries b) -> u <> []) ->
  (forall k, In k (mkeys b) -> ~ longest_common_prefix k (mkeys b)) ->
  wf_bytes id -> id <> [] -> decides id (mkeys b) ->
  exists t uris, new_patricia E sub = Some t /\
    reported id (entries b) uris /\ answers (translate pc id) uris (patricia_search t pc id).
Proof.
  intros E sub pc id b HB HU HL Hw Hn HD.
  destruct (patricia_fresh_search E sub pc id HB HU Hw Hn HD) as (t & subs & uris & H1 & H2 & H3 & H4 & H5).
  exists t, uris. split; auto. split; auto. replace (entries b) with subs; auto.
  apply sorted_pairs_ext.
  - apply ascending_ssorted; auto.
  - rewrite entries_keys. apply to_byte_subs_flat.
  - intros [k u]. rewrite H3. fold b. split; [tauto|]. intros H. split; auto. apply HL.
    rewrite <- entries_keys. apply in_map with (f := fst) in H. auto.
Qed.
Print Assumptions C09_patricia_search_partial.

(** The exact boundary: a fresh trie reports exactly the matching subscriptions for
    all tags if and only if the common prefix of all prefixes is not subscribed. *)
Theorem C09_exactly_partial : forall E sub, let b := to_byte_subs E sub in
  Forall is_bitstring (mkeys b) -> (forall k u, In (k, u) (entries b) -> u <> []) ->
  (forall k, In k (mkeys b) -> ~ longest_common_prefix k (mkeys b)) <->
  (forall pc id, wf_bytes id -> id <> [] -> decides id (mkeys b) ->
     exists t uris, new_patricia E sub = Some t /\
       reported id (entries b) uris /\ answers (translate pc id) uris (patricia_search t pc id)).
Proof.
  intros E sub b HB HU. split; [intros HL pc id; apply C09_patricia_search_partial; auto|].
  intros H k Hk L. destruct (patricia_loses E sub k HB HU Hk L) as (id & Hw & Hne & HD & HF).
  destruct (HF []) as (t & us & us' & Et & R & A & Lt). destruct (H [] id Hw Hne HD) as (t' & us2 & Et' & R2 & A2).
  rewrite Et in Et'. injection Et' as <-. rewrite (reported_fun _ _ _ _ R2 R) in A2.
  rewrite (answers_fun _ _ _ _ A A2) in Lt; [lia|discriminate].
Qed.
Print Assumptions C09_exactly_partial.

Example C09_hypotheses : let b := to_byte_subs E0 ex_sub in
  Forall is_bitstring (mkeys b) /\ (forall k u, In (k, u) (entries b) -> u <> [])
  /\ (forall k, In k (mkeys b) -> ~ longest_common_prefix k (mkeys b))
  /\ wf_bytes ex_id /\ ex_id <> [] /\ decides ex_id (mkeys b)
  /\ match new_patricia E0 ex_sub with
     | Some t => patricia_search t pcgs1 ex_id = Ok (ex_uri, [str "http://a"; str "http://b"], false)
     | None => False
     end.
Proof.
  split; [apply bitstrings_b; vm_compute; reflexivity|].
  split; [apply nonempty_snd_b; vm_compute; reflexivity|].
  split; [apply no_lcp_b; vm_compute; reflexivity|].
  split; [forall_concrete|]. split; [discriminate|].
  split; [apply long_decides; vm_compute; reflexivity|]. vm_compute; reflexivity.
Qed.

(** A single subscription is never reported by a fresh trie, whatever it is. *)
Theorem C09_single_refuted : forall E sub k u pc id,
  entries (to_byte_subs E sub) = [(k, u)] -> is_bitstring k -> u <> [] ->
  wf_bytes id -> id <> [] -> ~ runs_out id k ->
  exists t, new_patricia E sub = Some t /\ patricia_search t pc id = Ok ([], [], true).
Proof.
  intros E sub k u pc id HE HB Hu Hw Hn HR.
  assert (mkeys (to_byte_subs E sub) = [k]) as HK by (rewrite <- entries_keys, HE; reflexivity).
  destruct (patricia_fresh_search E sub pc id) as (t & subs & uris & H1 & H2 & H3 & H4 & H5); auto.
  - rewrite HK. constructor; auto.
  - rewrite HE. intros k' u' [H|[]]. congruence.
  - rewrite HK. intros k' [<-|[]]; auto.
  - exists t. split; auto.
    assert (subs = []) as ->.
    { destruct subs as [|[k' u'] subs]; auto. exfalso.
      assert (In (k', u') (entries (to_byte_subs E sub)) /\ ~ longest_common_prefix k' (mkeys (to_byte_subs E sub))) as [Hi Hl].
      { apply H3. cbn; auto. }
      rewrite HE in Hi. destruct Hi as [Hi|[]]. injection Hi as <- <-. apply Hl. rewrite HK.
      split; [intros s [<-|[]]; exists []; rewrite app_nil_r; auto|]. intros q Hq. apply Hq. cbn; auto. }
    inversion H4; subst. destruct H5 as [[_ H5]|[H5 _]]; [auto|congruence].
Qed.
Print Assumptions C09_single_refuted.

Theorem C09_refuted : exists sub id uri t,
  wf_bytes id /\ length id = 12
  /\ list_search (new_list E0 sub) pcgs1 id = Ok (uri, [str "http://a"], false)
  /\ new_patricia E0 sub = Some t /\ patricia_search t pcgs1 id = Ok ([], [], true).
Proof.
  exists [(str "http://a", [str "urn:epc:pat:sgtin-96:3.12345678"])], ex_id, ex_uri.
  eexists. split; [forall_concrete|]. split; [reflexivity|]. split; [vm_compute; reflexivity|].
  split; [vm_compute; reflexivity|]. vm_compute. reflexivity.
Qed.
Print Assumptions C09_refuted.

(** ** C10 and C11 *)
(** After a history that adds prefixes top-down (a prefix is never subscribed
    after a strictly longer extension of it) and deletes what is subscribed, the
    trie answers as the map of current subscriptions.  Missing: bottom-up
    additions ([C10_refuted]), and tries whose common prefix is itself
    subscribed ([C11_refuted]). *)
Theorem C10_patricia_history_partial : forall E sub0 ops pc id, let b := to_byte_subs E sub0 in
  good_start b ->
  top_down (mkeys b) (entries b) (changes_of E ops) ->
  wf_bytes id -> id <> [] -> decides id (mkeys b ++ subscribed_keys (changes_of E ops)) ->
  exists t uris, patricia_run E sub0 ops = Ok t /\
    reported id (apply_changes (entries b) (changes_of E ops)) uris /\
    answers (translate pc id) uris (patricia_search t pc id).
Proof. intros E sub0 ops pc id b (H1 & H2 & H3 & H4). apply patricia_history; auto. Qed.
Print Assumptions C10_patricia_history_partial.

Example C10_hypotheses : let b := to_byte_subs E0 ex_sub in
  good_start b
  /\ top_down (mkeys b) (entries b) (changes_of E0 ex_ops)
  /\ decides ex_id (mkeys b ++ subscribed_keys (changes_of E0 ex_ops))
  /\ match patricia_run E0 ex_sub ex_ops with
     | Ok t => patricia_search t pcgs1 ex_id = Ok (ex_uri, [str "http://a"; str "http://c"], false)
     | _ => False
     end.
Proof.
  split; [split; [|split; [|split]];
    [apply bitstrings_b|apply nonempty_b|apply nonempty_snd_b|apply no_lcp_b]; vm_compute; reflexivity|].
  split; [apply top_down_b_spec; vm_compute; reflexivity|].
  split; [apply long_decides; vm_compute; reflexivity|]. vm_compute; reflexivity.
Qed.

(** One more call on a trie reached by such a history: adding reports exactly the
    new subscriptions in addition (a prefix added again gets the new URI). *)
Theorem C10_patricia_add_partial : forall E sub0 ops sub pc id,
  let b := to_byte_subs E sub0 in let all := changes_of E (ops ++ [Add sub]) in
  good_start b -> top_down (mkeys b) (entries b) all ->
  wf_bytes id -> id <> [] -> decides id (mkeys b ++ subscribed_keys all) ->
  exists t t' m m' uris uris',
    patricia_run E sub0 ops = Ok t /\ patricia_add E t sub = Ok t' /\
    ascending (map fst m) /\ ascending (map fst m') /\
    reported id m uris /\ answers (translate pc id) uris (patricia_search t pc id) /\
    reported id m' uris' /\ answers (translate pc id) uris' (patricia_search t' pc id) /\
    (forall k u, In (k, u) m' <->
       In (k, u) (entries (to_byte_subs E sub))
       \/ (~ In k (mkeys (to_byte_subs E sub)) /\ In (k, u) m)).
Proof. intros E sub0 ops sub pc id. exact (patricia_step E sub0 ops (Add sub) pc id). Qed.
Print Assumptions C10_patricia_add_partial.

(** Adding a prefix above an existing one loses the new subscription and an old one. *)
Theorem C10_refuted : exists sub0 sub id t t',
  new_patricia E0 sub0 = Some t /\ patricia_add E0 t sub = Ok t'
  /\ (exists uri, patricia_search t pcgs1 id = Ok (uri, [str "http://c"], false))
  /\ (exists uri, list_search (list_add E0 (new_list E0 sub0) sub) pcgs1 id
                  = Ok (uri, [str "http://c"; str "http://a"], false))
  /\ patricia_search t' pcgs1 id = Ok ([], [], true).
Proof.
  exists (ex_more ++ [(str "http://b", [str "urn:epc:pat:sscc-96:3.12345678"])]),
         [(str "http://a", [str "urn:epc:pat:sgtin-96:3.12345678"])], ex_id.
  eexists. eexists. split; [vm_compute; reflexivity|]. split; [vm_compute; reflexivity|].
  split; [eexists; vm_compute; reflexivity|]. split; [eexists; vm_compute; reflexivity|].
  vm_compute. reflexivity.
Qed.
Print Assumptions C10_refuted.

(** The exact boundary.  Any starting subscriptions; a history is followed as long
    as each change is well placed (SpecTrie): the trie then answers as the map of
    current subscriptions. *)
Theorem C10_careful_history_partial : forall E sub0 ops t0 m0 pc id, let b := to_byte_subs E sub0 in
  Forall is_bitstring (mkeys b) -> (forall k u, In (k, u) (entries b) -> u <> []) ->
  new_patricia E sub0 = Some t0 -> initially (entries b) m0 -> careful t0 m0 (changes_of E ops) ->
  wf_bytes id -> id <> [] -> decides id (mkeys b ++ subscribed_keys (changes_of E ops)) ->
  exists t uris, patricia_run E sub0 ops = Ok t /\
    reported id (apply_changes m0 (changes_of E ops)) uris /\
    answers (translate pc id) uris (patricia_search t pc id).
Proof. exact careful_history. Qed.
Print Assumptions C10_careful_history_partial.

(** The first badly placed addition always goes wrong: no answer names the new
    report URI (when no other subscription has it). *)
Theorem C10_misplaced_refuted : forall E sub0 ops t0 m0 t sub k u, let b := to_byte_subs E sub0 in
  Forall is_bitstring (mkeys b) -> (forall k u, In (k, u) (entries b) -> u <> []) ->
  new_patricia E sub0 = Some t0 -> initially (entries b) m0 -> careful t0 m0 (changes_of E ops) ->
  patricia_run E sub0 ops = Ok t -> let m := apply_changes m0 (changes_of E ops) in
  entries (to_byte_subs E sub) = [(k, u)] -> proper (Subscribe k u) -> ~ well_placed t m (Subscribe k u) ->
  ~ In u (map snd m) ->
  exists t', patricia_add E t sub = Ok t' /\
    forall pc id uri uris silent, patricia_search t' pc id = Ok (uri, uris, silent) -> ~ In u uris.
Proof. exact misplaced_add. Qed.
Print Assumptions C10_misplaced_refuted.

(** A history that is not top-down but careful: a prefix is added where two
    subscriptions below it part.  And one that is badly placed. *)
Definition ex_fork : subscriptions :=
  [(str "http://b", [str "urn:epc:pat:sgtin-96:3.12345678.00001"]);
   (str "http://c", [str "urn:epc:pat:sgtin-96:3.12345678.99999"; str "urn:epc:pat:sscc-96:3.12345678"])].
Definition ex_above : list update :=
  [Add [(str "http://a", [str "urn:epc:pat:sgtin-96:3.12345678"])];
   Del [(str "http://b", [str "urn:epc:pat:sgtin-96:3.12345678.00001"])];
   Add [(str "http://d", [str "urn:epc:pat:sgtin-96:3.12345678.00001.1"])]].
Definition ex_too_late : subscriptions := [(str "http://e", [str "urn:epc:pat:sgtin-96:3.12345678.00001"])].
Example C10_careful_hypotheses : let b := to_byte_subs E0 ex_fork in
  Forall is_bitstring (mkeys b) /\ (forall k u, In (k, u) (entries b) -> u <> [])
  /\ decides ex_id (mkeys b ++ subscribed_keys (changes_of E0 ex_above))
  /\ exists t0 m0 t k u, new_patricia E0 ex_fork = Some t0 /\ initially (entries b) m0
     /\ careful t0 m0 (changes_of E0 ex_above)
     /\ patricia_run E0 ex_fork ex_above = Ok t
     /\ patricia_search t pcgs1 ex_id = Ok (ex_uri, [str "http://a"; str "http://d"], false)
     /\ entries (to_byte_subs E0 ex_too_late) = [(k, u)] /\ proper (Subscribe k u)
     /\ ~ well_placed t (apply_changes m0 (changes_of E0 ex_above)) (Subscribe k u)
     /\ ~ In u (map snd (apply_changes m0 (changes_of E0 ex_above))).
Proof.
  split; [apply bitstrings_b; vm_compute; reflexivity|].
  split; [apply nonempty_snd_b; vm_compute; reflexivity|].
  split; [apply long_decides; vm_compute; reflexivity|].
  eexists. exists (patricia_content (to_byte_subs E0 ex_fork)). eexists. eexists. eexists.
  split; [vm_compute; reflexivity|].
  split; [apply initially_b; [apply to_byte_subs_flat|vm_compute; reflexivity|reflexivity]|].
  split; [apply careful_b_spec; vm_compute; reflexivity|].
  split; [vm_compute; reflexivity|]. split; [vm_compute; reflexivity|]. split; [vm_compute; reflexivity|].
  split; [split; [apply bits_b; vm_compute; reflexivity|discriminate]|].
  split.
  - intros H. apply placed_b_complete in H. vm_compute in H. discriminate.
  - intros H. vm_compute in H. repeat destruct H as [H|H]; discriminate || auto.
Qed.

(** Deleting removes exactly the given prefixes. *)
Theorem C11_patricia_delete_partial : forall E sub0 ops sub pc id,
  let b := to_byte_subs E sub0 in let all := changes_of E (ops ++ [Del sub]) in
  good_start b -> top_down (mkeys b) (entries b) all ->
  wf_bytes id -> id <> [] -> decides id (mkeys b ++ subscribed_keys all) ->
  exists t t' m m' uris uris',
    patricia_run E sub0 ops = Ok t /\ patricia_del E t sub = Ok t' /\
    ascending (map fst m) /\ ascending (map fst m') /\
    reported id m uris /\ answers (translate pc id) uris (patricia_search t pc id) /\
    reported id m' uris' /\ answers (translate pc id) uris' (patricia_search t' pc id) /\
    (forall k u, In (k, u) m' <-> ~ In k (mkeys (to_byte_subs E sub)) /\ In (k, u) m).
Proof. intros E sub0 ops sub pc id. exact (patricia_step E sub0 ops (Del sub) pc id). Qed.
Print Assumptions C11_patricia_delete_partial.

Example C11_hypotheses : let b := to_byte_subs E0 ex_sub in
  let all := changes_of E0 (ex_ops ++ [Del ex_more]) in
  good_start b /\ top_down (mkeys b) (entries b) all
  /\ decides ex_id (mkeys b ++ subscribed_keys all).
Proof.
  split; [split; [|split; [|split]];
    [apply bitstrings_b|apply nonempty_b|apply nonempty_snd_b|apply no_lcp_b]; vm_compute; reflexivity|].
  split; [apply top_down_b_spec; vm_compute; reflexivity|].
  apply long_decides; vm_compute; reflexivity.
Qed.

(** A subscription added to the engine built from the same single subscription
    cannot be deleted any more. *)
Theorem C11_refuted : exists sub id uri t,
  patricia_run E0 sub [Add sub] = Ok t
  /\ patricia_search t pcgs1 id = Ok (uri, [str "http://a"], false)
  /\ patricia_del E0 t sub = Ok t.
Proof.
  exists [(str "http://a", [str "urn:epc:pat:sgtin-96:3.12345678"])], ex_id, ex_uri.
  eexists. split; [vm_compute; reflexivity|]. split; [vm_compute; reflexivity|].
  vm_compute. reflexivity.
Qed.
Print Assumptions C11_refuted.

(** The first badly placed deletion (the only node, subscribed) does nothing. *)
Theorem C11_misplaced_refuted : forall E sub0 ops t0 m0 t sub k u, let b := to_byte_subs E sub0 in
  Forall is_bitstring (mkeys b) -> (forall k u, In (k, u) (entries b) -> u <> []) ->
  new_patricia E sub0 = Some t0 -> initially (entries b) m0 -> careful t0 m0 (changes_of E ops) ->
  patricia_run E sub0 ops = Ok t -> let m := apply_changes m0 (changes_of E ops) in
  entries (to_byte_subs E sub) = [(k, u)] -> ~ well_placed t m (Unsubscribe k) ->
  patricia_del E t sub = Ok t /\ In k (map fst m).
Proof. exact misplaced_del. Qed.
Print Assumptions C11_misplaced_refuted.

Definition ex_lone : subscriptions := [(str "http://a", [str "urn:epc:pat:sgtin-96:3.12345678"])].
Example C11_misplaced_hypotheses : let b := to_byte_subs E0 ex_lone in
  Forall is_bitstring (mkeys b) /\ (forall k u, In (k, u) (entries b) -> u <> [])
  /\ exists t0 m0 t k u, new_patricia E0 ex_lone = Some t0 /\ initially (entries b) m0
     /\ careful t0 m0 (changes_of E0 [Add ex_lone])
     /\ patricia_run E0 ex_lone [Add ex_lone] = Ok t
     /\ entries (to_byte_subs E0 ex_lone) = [(k, u)]
     /\ ~ well_placed t (apply_changes m0 (changes_of E0 [Add ex_lone])) (Unsubscribe k).
Proof.
  split; [apply bitstrings_b; vm_compute; reflexivity|].
  split; [apply nonempty_snd_b; vm_compute; reflexivity|].
  eexists. exists (patricia_content (to_byte_subs E0 ex_lone)). eexists. eexists. eexists.
  split; [vm_compute; reflexivity|].
  split; [apply initially_b; [apply to_byte_subs_flat|vm_compute; reflexivity|reflexivity]|].
  split; [apply careful_b_spec; vm_compute; reflexivity|].
  split; [vm_compute; reflexivity|]. split; [vm_compute; reflexivity|].
  intros H. apply placed_b_complete in H. vm_compute in H. discriminate.
Qed.
