(** Properties C95 and C96: how many filters a search compares with the tag. *)
From Verif Require Import GoBase BinUtil MFilter MEngine MTdtCore MSubs MList MPatricia MSplay MEffort TestVectors.
From Verif Require Import PBase Spec PFilter PEngine PSubs PList PMatch PPatricia PPatriciaHist PExamples PLink PSplay PSplayHist PSplayExact SpecEffort PEffort PEffort2.
From Verif Require Import MScheme PropsEngine PropsSplay.
From Coq Require Import Lia Permutation.

(** Reading guide: the functions ending in [_n] are the searches of the engines
    together with the number of FilterObject.Match calls they make;
    [C95_counted] says that they are the same searches. *)

(** ** C95 *)
Theorem C95_counted : forall l t s id,
  list_matches l id = (let! (us, _) := list_matches_n l id in Ok us) /\
  psearch t id = (let! (us, _) := psearch_n t id in Ok us) /\
  splay_step s id = (let! (us, s', _) := splay_step_n s id in Ok (us, s')).
Proof. intros. split; [apply list_matches_counted|]. split; [apply psearch_counted|apply splay_step_counted]. Qed.
Print Assumptions C95_counted.

(** List: every stored subscription once, after any history. *)
Theorem C95_list : forall E sub0 ops id us n, let l := list_run E sub0 ops in
  list_matches_n l id = Ok (us, n) -> n = List.length (list_pairs l).
Proof. intros E sub0 ops id us n l H. unfold list_pairs. rewrite map_length. eapply list_effort; eauto. Qed.
Print Assumptions C95_list.

(** Patricia trie: after any history, at most one filter for every bit of the
    identifier and one more, however many subscriptions there are. *)
Theorem C95_patricia : forall E sub0 ops t id us n,
  Forall is_bitstring (mkeys (to_byte_subs E sub0)) -> Forall is_bitstring (map about (changes_of E ops)) ->
  patricia_run E sub0 ops = Ok t -> psearch_n t id = Ok (us, n) -> n <= 8 * List.length id + 1.
Proof. exact patricia_run_effort. Qed.
Print Assumptions C95_patricia.

(** A trie just built: never more than there are subscriptions (one if there are none). *)
Theorem C95_patricia_fresh : forall E sub t id us n,
  new_patricia E sub = Some t -> psearch_n t id = Ok (us, n) -> n <= Nat.max 1 (List.length (to_byte_subs E sub)).
Proof.
  intros E sub t id us n HT HS. pose proof (fresh_effort _ _ _ _ _ HT HS) as L.
  rewrite bsub_keys_wf in L by apply to_byte_subs_flat. unfold mkeys in L. rewrite map_length in L. exact L.
Qed.
Print Assumptions C95_patricia_fresh.

(** Splay tree: never more than it has nodes, in any state. *)
Theorem C95_splay : forall t id us t' n, splay_step_n t id = Ok (us, t', n) -> 1 <= n <= nodes t.
Proof.
  intros t id us t' n H. unfold splay_step_n in H.
  destruct (ssearch_n t false id) as [[[[u r] ex] k]| |] eqn:E; cbn [bind] in H; try discriminate. injection H as <- <- <-.
  apply splay_size in E. rewrite nodes_entries in E. exact E.
Qed.
Print Assumptions C95_splay.

(** ... and in calm histories never more than there are subscriptions. *)
Theorem C95_splay_subscriptions : forall E sub0 cs id, let b := to_byte_subs E sub0 in
  b <> [] -> Forall is_bitstring (mkeys b) -> calm (entries b) (events_of E cs) ->
  let m := after (entries b) (events_of E cs) in
  wf_bytes id -> decides id (map fst m) ->
  exists t us t' n, splay_run E sub0 cs = Ok t /\ splay_step_n t id = Ok (us, t', n) /\ n <= List.length m.
Proof.
  intros E sub0 cs id b Hn HB HC m Hw HD.
  destruct (calm_tree E sub0 cs Hn HB HC) as (t & ET & HI). fold b m in HI.
  pose proof HI as [I1 I2 I3 I4]. destruct (ssearch_spec id Hw t false [] I1) as (t' & ex & HS); auto.
  { constructor. } { apply prefix_nil. } { intros x Hx. apply HD. apply I4 in Hx. apply (in_map fst _ _ Hx). }
  rewrite ssearch_counted in HS. destruct (ssearch_n t false id) as [[[[u r] ex'] k]| |] eqn:EN; cbn [bind] in HS; try discriminate.
  exists t, u, (splay_root r ex'), k. split; auto. split; [unfold splay_step_n; rewrite EN; reflexivity|].
  apply splay_size in EN. rewrite (sinv_size m t HI) in EN. lia.
Qed.
Print Assumptions C95_splay_subscriptions.

Example C95_case : let b := to_byte_subs E0 ex_chain in
  b <> [] /\ Forall is_bitstring (mkeys b) /\ calm (entries b) (events_of E0 []) /\ wf_bytes ex_id /\ decides ex_id (mkeys b)
  /\ Forall is_bitstring (map about (changes_of E0 [Add ex_a]))
  /\ (let! (_, n) := list_matches_n (new_list E0 ex_chain) ex_id in Ok n) = Ok 3
  /\ match patricia_run E0 ex_chain [Add ex_a] with Ok t => (let! (_, n) := psearch_n t ex_id in Ok n) = Ok 3 | _ => False end
  /\ match new_splay E0 ex_chain with Ok t => (let! (_, n) := splay_step_n t ex_id in Ok n) = Ok 2 | _ => False end.
Proof.
  split; [vm_compute; discriminate|]. split; [apply bitstrings_b; vm_compute; reflexivity|]. split; [constructor|].
  split; [forall_concrete|]. split; [apply long_decides; vm_compute; reflexivity|].
  split; [apply bitstrings_b; vm_compute; reflexivity|]. split; [vm_compute; reflexivity|].
  split; vm_compute; reflexivity.
Qed.

(** ** C96 *)
(** Let [order] be any tree with the same outer entries in another order.  Any
    sequence of searches costs at most twice what it costs in [order] left as it
    is, plus half the square of the number of outer entries: the splay tree is as
    good, up to a factor of two, as the arrangement that would have been best for
    the tags that came.  Left out: prefixes with two incomparable extensions, for
    which the tree forgets subscriptions (C13) and the claim is false
    (C96_adapts_refuted, C96_again_refuted). *)
Theorem C96_adapts_partial : forall E sub0 cs ids order, let b := to_byte_subs E sub0 in
  b <> [] -> Forall is_bitstring (mkeys b) -> calm (entries b) (events_of E cs) ->
  let m := after (entries b) (events_of E cs) in
  (forall k, In k (map fst m) -> one_chain_above (map fst m) k) ->
  (forall i, In i ids -> wf_bytes i /\ decides i (map fst m)) ->
  exists t, splay_run E sub0 cs = Ok t /\
    (Permutation (branches order) (branches t) ->
     exists n k, effort t ids = Ok n /\ fixed_effort order ids = Ok k /\
       n <= 2 * k + List.length (branches t) * (List.length (branches t) - 1) / 2).
Proof.
  intros E sub0 cs ids order b Hn HB HC m HO HI.
  destruct (calm_tree E sub0 cs Hn HB HC) as (t & ET & IT). fold b m in IT. exists t. split; auto.
  intros HP. eapply splay_effort; eauto.
Qed.
Print Assumptions C96_adapts_partial.

(** With a prefix that has several incomparable extensions the bound fails by any
    amount: a search that meets such an extension makes it an outer entry, and tags
    of other companies are from then on compared with it as well. *)
Definition ex_three : subscriptions :=
  [(str "http://a", [str "urn:epc:pat:sgtin-96:3.12345678"]); (str "http://b", [str "urn:epc:pat:sgtin-96:3.12345678.00001"]);
   (str "http://c", [str "urn:epc:pat:sgtin-96:3.12345678.00002"]); (str "http://d", [str "urn:epc:pat:sgtin-96:3.12345678.00003"])].
Definition tag_of (s : String.string) : list N :=
  match make_sgtin96 E0 false (str "3") (str "12345678") (str s) (str "7") with Ok (id, _, _) => id | _ => [] end.
Definition ex_stranger : list N := [226; 0; 0; 0; 0; 0; 0; 0; 0; 0; 0; 0]%N.
Lemma effort_same t id us n : splay_step_n t id = Ok (us, t, n) -> forall c, effort t (repeat id c) = Ok (n * c).
Proof.
  intros H c. induction c as [|c IH]; cbn [repeat effort]; [f_equal; lia|]. rewrite H. cbn [bind]. rewrite IH. cbn [bind]. f_equal. lia.
Qed.
Lemma fixed_same t id us t' n : splay_step_n t id = Ok (us, t', n) -> forall c, fixed_effort t (repeat id c) = Ok (n * c).
Proof.
  intros H c. induction c as [|c IH]; cbn [repeat fixed_effort]; [f_equal; lia|]. rewrite H. cbn [bind]. rewrite IH. cbn [bind]. f_equal. lia.
Qed.
Theorem C96_adapts_refuted : let b := to_byte_subs E0 ex_three in
  b <> [] /\ Forall is_bitstring (mkeys b) /\
  exists t, new_splay E0 ex_three = Ok t /\ List.length (branches t) = 1 /\
    forall c, exists ids n k, (forall i, In i ids -> wf_bytes i /\ decides i (mkeys b)) /\
      effort t ids = Ok n /\ fixed_effort t ids = Ok k /\ 2 * k + c < n.
Proof.
  cbv zeta. split; [vm_compute; discriminate|]. split; [apply bitstrings_b; vm_compute; reflexivity|].
  eexists. split; [vm_compute; reflexivity|]. split; [reflexivity|]. intros c.
  exists ([tag_of "00002"; tag_of "00003"] ++ repeat ex_stranger (c + 20)). eexists. eexists. split; [|split; [|split]].
  - intros i Hi. apply in_app_or in Hi. destruct Hi as [[<-|[<-|[]]]|Hi]; [| |apply repeat_spec in Hi; subst i];
      (split; [vm_compute; forall_concrete|apply long_decides; vm_compute; reflexivity]).
  - cbn [app effort].
    match goal with |- bind (splay_step_n ?t0 ?i) _ = _ => let v := eval vm_compute in (splay_step_n t0 i) in replace (splay_step_n t0 i) with v by (vm_compute; reflexivity) end. cbn [bind].
    match goal with |- context [splay_step_n ?t0 ?i] => let v := eval vm_compute in (splay_step_n t0 i) in replace (splay_step_n t0 i) with v by (vm_compute; reflexivity) end. cbn [bind].
    erewrite effort_same by (vm_compute; reflexivity). cbn [bind]. reflexivity.
  - cbn [app fixed_effort].
    match goal with |- bind (splay_step_n ?t0 ?i) _ = _ => let v := eval vm_compute in (splay_step_n t0 i) in replace (splay_step_n t0 i) with v by (vm_compute; reflexivity) end. cbn [bind].
    match goal with |- context [splay_step_n ?t0 ?i] => let v := eval vm_compute in (splay_step_n t0 i) in replace (splay_step_n t0 i) with v by (vm_compute; reflexivity) end. cbn [bind].
    erewrite fixed_same by (vm_compute; reflexivity). cbn [bind]. reflexivity.
  - lia.
Qed.
Print Assumptions C96_adapts_refuted.

(** A tag searched a second time right away costs one comparison for every URI
    reported and at most one more. *)
Theorem C96_again_partial : forall E sub0 cs id, let b := to_byte_subs E sub0 in
  b <> [] -> Forall is_bitstring (mkeys b) -> calm (entries b) (events_of E cs) ->
  let m := after (entries b) (events_of E cs) in
  (forall k, In k (map fst m) -> one_chain_above (map fst m) k) ->
  wf_bytes id -> decides id (map fst m) ->
  exists t us t1 n1 t2 n2, splay_run E sub0 cs = Ok t /\ reported id m us /\
    splay_step_n t id = Ok (us, t1, n1) /\ splay_step_n t1 id = Ok (us, t2, n2) /\
    (us <> [] -> n2 <= List.length us + 1).
Proof.
  intros E sub0 cs id b Hn HB HC m HO Hw HD.
  destruct (calm_tree E sub0 cs Hn HB HC) as (t & ET & IT). fold b m in IT.
  destruct (again_effort m t id IT HO Hw HD) as (us & t1 & n1 & t2 & n2 & H1 & H2 & H3 & H4).
  exists t, us, t1, n1, t2, n2. auto.
Qed.
Print Assumptions C96_again_partial.

(** With incomparable extensions the second search may cost more: the tree found the
    subscriber of the product before, and now compares the other products in vain. *)
Definition ex_four : subscriptions :=
  (str "http://x", [str "urn:epc:pat:sgtin-96:0.12345678"]) :: ex_three ++ [(str "http://e", [str "urn:epc:pat:sgtin-96:3.12345678.00004"])].
Theorem C96_again_refuted : let b := to_byte_subs E0 ex_four in let id := tag_of "00004" in
  b <> [] /\ Forall is_bitstring (mkeys b) /\ wf_bytes id /\ decides id (mkeys b) /\
  exists t t1 t2, new_splay E0 ex_four = Ok t /\
    splay_step_n t id = Ok ([str "http://a"; str "http://e"], t1, 6) /\
    splay_step_n t1 id = Ok ([str "http://a"], t2, 4).
Proof.
  cbv zeta. split; [vm_compute; discriminate|]. split; [apply bitstrings_b; vm_compute; reflexivity|].
  split; [vm_compute; forall_concrete|]. split; [apply long_decides; vm_compute; reflexivity|].
  eexists. eexists. eexists. split; [vm_compute; reflexivity|]. split; [vm_compute; reflexivity|]. vm_compute. reflexivity.
Qed.
Print Assumptions C96_again_refuted.

(** The tag of the last outer entry five times: six comparisons, ten if the tree
    were left alone. *)
Definition ex_last : list N := [49; 112; 94; 48; 167; 0; 0; 0; 0; 0; 0; 0]%N.
Example C96_case : let b := to_byte_subs E0 ex_chain in let m := after (entries b) (events_of E0 []) in
  b <> [] /\ Forall is_bitstring (mkeys b) /\ calm (entries b) (events_of E0 [])
  /\ (forall k, In k (map fst m) -> one_chain_above (map fst m) k)
  /\ (forall i, In i (repeat ex_last 5) -> wf_bytes i /\ decides i (map fst m))
  /\ match new_splay E0 ex_chain with
     | Ok t => List.length (branches t) = 2 /\ effort t (repeat ex_last 5) = Ok 6 /\ fixed_effort t (repeat ex_last 5) = Ok 10
     | _ => False
     end.
Proof.
  split; [vm_compute; discriminate|]. split; [apply bitstrings_b; vm_compute; reflexivity|]. split; [constructor|].
  split; [apply all_one_chain_b; vm_compute; reflexivity|].
  split; [intros i Hi; apply repeat_spec in Hi; subst i; split; [forall_concrete|apply long_decides; vm_compute; reflexivity]|].
  vm_compute. auto.
Qed.
