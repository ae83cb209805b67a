(** Properties C12-C16 and C29: the splay tree engine, agreement of the binary
    engines, and the nesting of subscriptions. *)
From Verif Require Import GoBase BinUtil MFilter MEngine MTdtCore MSubs MList MPatricia MSplay TestVectors.
From Verif Require Import PBase Spec PFilter PEngine PSubs PList PMatch PPatricia PPatriciaHist PExamples PLink PSplay PSplayHist PSplayExact PAgree.
From Verif Require Import PropsEngine.
From Coq Require Import Lia.

(** Reading guide: [splay_search t pc id] is the answer together with the tree
    afterwards, [drop_tree] keeps the answer.  [splay_run] builds an engine and
    performs a history of Search, AddSubscription and DeleteSubscription calls;
    [events_of] lists the searches and single changes of such a history, [after]
    the subscriptions in force at its end. *)

(** ** C29 *)
(** [fflat [] F] lists the subscriptions of the nested structure [F] with their
    full prefixes; [forest 0 F]: sorted distinct keys at every level, no key next
    to one that is its prefix, every nested entry has the offset at which its
    remainder starts, and no remainder is empty.  [flat b]: not nested yet, all
    offsets 0. *)
Theorem C29_link_subset : forall b, flat b ->
  exists F, link_subset b = Ok F /\ forest 0 F /\ fflat [] F = entries b.
Proof. exact link_subset_spec. Qed.
Print Assumptions C29_link_subset.
Theorem C29_link_subset_subs : forall E sub,
  exists F, link_subset (to_byte_subs E sub) = Ok F /\ forest 0 F /\ fflat [] F = entries (to_byte_subs E sub).
Proof. intros. apply link_subset_spec, to_byte_subs_flat. Qed.
Print Assumptions C29_link_subset_subs.

Definition ex_nested : subscriptions :=
  [(str "http://a", [str "urn:epc:pat:sgtin-96:3.12345678"]);
   (str "http://b", [str "urn:epc:pat:sgtin-96:3.12345678.00001"]);
   (str "http://c", [str "urn:epc:pat:sgtin-96:3.12345678.00002"])].
Example C29_nests : flat (to_byte_subs E0 ex_nested) /\
  match link_subset (to_byte_subs E0 ex_nested) with
  | Ok [(_, p)] => ps_uri p = str "http://a" /\ map (fun q => ps_uri (snd q)) (ps_subset p) = [str "http://b"; str "http://c"]
                   /\ map (fun q => ps_offset (snd q)) (ps_subset p) = [41; 41]
  | _ => False
  end.
Proof. split; [apply to_byte_subs_flat|]. vm_compute. auto. Qed.

(** ** C12 *)
(** Missing: an engine without any subscription, whose search crashes ([C12_refuted]). *)
Theorem C12_splay_first_search_partial : forall E sub pc id, let b := to_byte_subs E sub in
  b <> [] -> Forall is_bitstring (mkeys b) -> wf_bytes id -> decides id (mkeys b) ->
  exists t uris, new_splay E sub = Ok t /\ reported id (entries b) uris /\
    answers (translate pc id) uris (drop_tree (splay_search t pc id)).
Proof.
  intros E sub pc id b Hn HB Hw HD. apply (splay_history E sub [] pc id); auto; [constructor|].
  cbn. rewrite entries_keys. auto.
Qed.
Print Assumptions C12_splay_first_search_partial.

Example C12_hypotheses : let b := to_byte_subs E0 ex_nested in
  b <> [] /\ Forall is_bitstring (mkeys b) /\ wf_bytes ex_id /\ decides ex_id (mkeys b)
  /\ match new_splay E0 ex_nested with
     | Ok t => drop_tree (splay_search t pcgs1 ex_id) = Ok (ex_uri, [str "http://a"; str "http://b"], false)
     | _ => False
     end.
Proof.
  split; [vm_compute; discriminate|].
  split; [apply bitstrings_b; vm_compute; reflexivity|]. split; [forall_concrete|].
  split; [apply long_decides; vm_compute; reflexivity|]. vm_compute. reflexivity.
Qed.

(** Without subscriptions every search crashes. *)
Theorem C12_refuted : forall E pc id,
  exists t, new_splay E [] = Ok t /\ splay_search t pc id = Panic
  /\ list_search (new_list E []) pc id = Ok ([], [], true).
Proof. intros. eexists. split; [reflexivity|]. split; reflexivity. Qed.
Print Assumptions C12_refuted.
(** The boundary: the first searches are right if and only if something is subscribed. *)
Theorem C12_exactly_partial : forall E sub, let b := to_byte_subs E sub in Forall is_bitstring (mkeys b) ->
  b <> [] <-> (forall pc id, wf_bytes id -> decides id (mkeys b) ->
    exists t uris, new_splay E sub = Ok t /\ reported id (entries b) uris /\ answers (translate pc id) uris (drop_tree (splay_search t pc id))).
Proof.
  intros E sub b HB. split; [intros Hn pc id; apply C12_splay_first_search_partial; auto|].
  intros H Z. unfold b in *. clear b. destruct (H [] []) as (t & us & N & R & A); [constructor|rewrite Z; intros k []|].
  unfold new_splay in N. rewrite Z in *. cbn in N. injection N as <-. inversion R; subst. destruct A as [[_ A]|[A _]]; [discriminate A|congruence].
Qed.
Print Assumptions C12_exactly_partial.

(** ** C13 *)
(** When the extensions of every subscribed prefix form a chain, no history of
    searches changes any answer.  Missing: prefixes with two incomparable
    extensions, for which the property fails ([C13_refuted]). *)
Theorem C13_splay_search_history_partial : forall E sub ids pc id, let b := to_byte_subs E sub in
  b <> [] -> Forall is_bitstring (mkeys b) ->
  (forall k, In k (mkeys b) -> one_chain_above (mkeys b) k) ->
  (forall i, In i (id :: ids) -> wf_bytes i /\ decides i (mkeys b)) ->
  exists t0 t uris, new_splay E sub = Ok t0 /\ splay_run E sub (map SSearch ids) = Ok t /\
    reported id (entries b) uris /\
    answers (translate pc id) uris (drop_tree (splay_search t pc id)) /\
    drop_tree (splay_search t pc id) = drop_tree (splay_search t0 pc id).
Proof.
  intros E sub ids pc id b Hn HB HO HI.
  destruct (C12_splay_first_search_partial E sub pc id Hn HB) as (t0 & uris0 & N0 & R0 & A0); try (apply HI; left; auto).
  destruct (splay_history E sub (map SSearch ids) pc id Hn HB) as (t & uris & Et & R & A).
  - fold b. assert (forall i, In i ids -> wf_bytes i /\ decides i (mkeys b)) as HI' by (intros; apply HI; right; auto).
    clear - HO HI'. induction ids as [|i ids IH]; [constructor|]. cbn. apply calm_read.
    + apply HI'; left; auto.
    + rewrite entries_keys. apply HI'; left; auto.
    + rewrite entries_keys. auto.
    + apply IH. intros; apply HI'; right; auto.
  - apply HI; left; auto.
  - assert (forall l m, after m (events_of E (map SSearch l)) = m) as HA by (induction l; cbn; auto).
    rewrite HA, entries_keys. apply HI; left; auto.
  - assert (forall l m, after m (events_of E (map SSearch l)) = m) as HA by (induction l; cbn; auto).
    rewrite HA in R. fold b in R, R0. rewrite (reported_fun _ _ _ _ R0 R) in A0.
    exists t0, t, uris. do 3 (split; [auto|]). split; auto.
    destruct A as [[E1 ->]|[E1 A]], A0 as [[E2 ->]|[E2 A0]]; try congruence.
    destruct (translate pc id); congruence.
Qed.
Print Assumptions C13_splay_search_history_partial.

Definition ex_other : list N := [48;112;94;48;167;0;0;128;0;0;0;1]%N.
Definition ex_chain : subscriptions :=
  [(str "http://a", [str "urn:epc:pat:sgtin-96:3.12345678"]);
   (str "http://b", [str "urn:epc:pat:sgtin-96:3.12345678.00001"]);
   (str "http://c", [str "urn:epc:pat:sscc-96:3.12345678"])].
Example C13_hypotheses : let b := to_byte_subs E0 ex_chain in
  b <> [] /\ Forall is_bitstring (mkeys b) /\ (forall k, In k (mkeys b) -> one_chain_above (mkeys b) k)
  /\ (forall i, In i [ex_id; ex_other; ex_id] -> wf_bytes i /\ decides i (mkeys b))
  /\ match splay_run E0 ex_chain [SSearch ex_other; SSearch ex_id], new_splay E0 ex_chain with
     | Ok t, Ok t0 => drop_tree (splay_search t pcgs1 ex_id) = Ok (ex_uri, [str "http://a"; str "http://b"], false)
     | _, _ => False
     end.
Proof.
  split; [vm_compute; discriminate|].
  split; [apply bitstrings_b; vm_compute; reflexivity|].
  split; [apply all_one_chain_b; vm_compute; reflexivity|].
  split; [|vm_compute; auto].
  intros i [<-|[<-|[<-|[]]]]; (split; [forall_concrete|apply long_decides; vm_compute; reflexivity]).
Qed.

(** Searching the same tag twice: the second time one URI is missing. *)
Theorem C13_refuted : exists sub id t t' uri uri' u1 u2,
  wf_bytes id /\ new_splay E0 sub = Ok t
  /\ splay_search t pcgs1 id = Ok (uri, [u1; u2], false, t')
  /\ drop_tree (splay_search t' pcgs1 id) = Ok (uri', [u2], false) /\ u1 <> u2.
Proof.
  exists ex_nested, ex_other. do 6 eexists.
  split; [forall_concrete|]. split; [vm_compute; reflexivity|].
  split; [vm_compute; reflexivity|]. split; [vm_compute; reflexivity|]. discriminate.
Qed.
Print Assumptions C13_refuted.

(** The exact boundary: searches leave all answers alone if and only if the
    extensions of every subscribed prefix form a chain. *)
Theorem C13_exactly_partial : forall E sub, let b := to_byte_subs E sub in
  b <> [] -> Forall is_bitstring (mkeys b) ->
  (forall k, In k (mkeys b) -> one_chain_above (mkeys b) k) <->
  (forall ids id pc, (forall i, In i (id :: ids) -> wf_bytes i /\ decides i (mkeys b)) ->
     exists t uris, splay_run E sub (map SSearch ids) = Ok t /\ reported id (entries b) uris /\
       answers (translate pc id) uris (drop_tree (splay_search t pc id))).
Proof. exact splay_exactly. Qed.
Print Assumptions C13_exactly_partial.

(** Whenever some subscribed prefix [k] has two incomparable extensions there is
    a tag for which the next search reports all URIs and the one after it fewer. *)
Theorem C13_fork_refuted : forall E sub0 cs k x y, let b := to_byte_subs E sub0 in
  b <> [] -> Forall is_bitstring (mkeys b) -> calm (entries b) (events_of E cs) ->
  let m := after (entries b) (events_of E cs) in
  In k (map fst m) -> In x (map fst m) -> In y (map fst m) ->
  strictly_extends x k -> strictly_extends y k -> ~ comparable x y ->
  exists t id t1, splay_run E sub0 cs = Ok t /\ wf_bytes id /\ decides id (map fst m) /\
    splay_run E sub0 (cs ++ [SSearch id]) = Ok t1 /\ forall pc,
    exists uris uris', reported id m uris /\
      answers (translate pc id) uris (drop_tree (splay_search t pc id)) /\
      answers (translate pc id) uris' (drop_tree (splay_search t1 pc id)) /\ length uris' < length uris.
Proof. exact splay_fork. Qed.
Print Assumptions C13_fork_refuted.

Definition ex_a : subscriptions := [(str "http://a", [str "urn:epc:pat:sgtin-96:3.12345678"])].
Definition ex_a_key : gostring := hd [] (mkeys (to_byte_subs E0 ex_a)).
Definition one_key (s : String.string) : gostring := hd [] (mkeys (to_byte_subs E0 [(str "http://x", [str s])])).
Example C13_fork_hypotheses : let b := to_byte_subs E0 ex_nested in let m := after (entries b) (events_of E0 []) in
  b <> [] /\ Forall is_bitstring (mkeys b) /\ calm (entries b) (events_of E0 [])
  /\ exists x y, In ex_a_key (map fst m) /\ In x (map fst m) /\ In y (map fst m)
    /\ strictly_extends x ex_a_key /\ strictly_extends y ex_a_key /\ ~ comparable x y.
Proof.
  split; [vm_compute; discriminate|].
  split; [apply bitstrings_b; vm_compute; reflexivity|]. split; [constructor|].
  exists (one_key "urn:epc:pat:sgtin-96:3.12345678.00001"), (one_key "urn:epc:pat:sgtin-96:3.12345678.00002").
  split; [vm_compute; auto|]. split; [vm_compute; auto|]. split; [vm_compute; auto|].
  split; [apply ext_b_spec; vm_compute; reflexivity|]. split; [apply ext_b_spec; vm_compute; reflexivity|].
  intros [H|H]; apply has_prefix_spec in H; revert H; vm_compute; discriminate.
Qed.

(** ** C14 and C15 *)
(** After any calm history (searches while the extensions of every prefix form a
    chain, additions of prefixes that are subscribed already or that no
    subscribed prefix extends, deletions of prefixes that are not subscribed or
    whose extensions have a least one and which are not the last one) the tree
    answers as the map of current subscriptions. *)
Theorem C14_splay_history_partial : forall E sub0 cs pc id, let b := to_byte_subs E sub0 in
  b <> [] -> Forall is_bitstring (mkeys b) -> calm (entries b) (events_of E cs) ->
  let m := after (entries b) (events_of E cs) in
  wf_bytes id -> decides id (map fst m) ->
  exists t uris, splay_run E sub0 cs = Ok t /\ reported id m uris /\
    answers (translate pc id) uris (drop_tree (splay_search t pc id)).
Proof. exact splay_history. Qed.
Print Assumptions C14_splay_history_partial.

(** One more call on a tree reached by such a history. *)
Theorem C14_splay_add_partial : forall E sub0 cs sub pc id, let b := to_byte_subs E sub0 in
  b <> [] -> Forall is_bitstring (mkeys b) -> calm (entries b) (events_of E (cs ++ [SUpdate (Add sub)])) ->
  wf_bytes id ->
  exists t t' m m', splay_run E sub0 cs = Ok t /\ splay_add E t sub = Ok t' /\
    ascending (map fst m) /\ ascending (map fst m') /\
    (forall k u, In (k, u) m' <->
       In (k, u) (entries (to_byte_subs E sub))
       \/ (~ In k (mkeys (to_byte_subs E sub)) /\ In (k, u) m)) /\
    (decides id (map fst m) -> exists uris, reported id m uris /\
       answers (translate pc id) uris (drop_tree (splay_search t pc id))) /\
    (decides id (map fst m') -> exists uris', reported id m' uris' /\
       answers (translate pc id) uris' (drop_tree (splay_search t' pc id))).
Proof. intros E sub0 cs sub pc id. exact (splay_update E sub0 cs (Add sub) pc id). Qed.
Print Assumptions C14_splay_add_partial.

Theorem C15_splay_delete_partial : forall E sub0 cs sub pc id, let b := to_byte_subs E sub0 in
  b <> [] -> Forall is_bitstring (mkeys b) -> calm (entries b) (events_of E (cs ++ [SUpdate (Del sub)])) ->
  wf_bytes id ->
  exists t t' m m', splay_run E sub0 cs = Ok t /\ splay_del E t sub = Ok t' /\
    ascending (map fst m) /\ ascending (map fst m') /\
    (forall k u, In (k, u) m' <-> ~ In k (mkeys (to_byte_subs E sub)) /\ In (k, u) m) /\
    (decides id (map fst m) -> exists uris, reported id m uris /\
       answers (translate pc id) uris (drop_tree (splay_search t pc id))) /\
    (decides id (map fst m') -> exists uris', reported id m' uris' /\
       answers (translate pc id) uris' (drop_tree (splay_search t' pc id))).
Proof. intros E sub0 cs sub pc id. exact (splay_update E sub0 cs (Del sub) pc id). Qed.
Print Assumptions C15_splay_delete_partial.

Definition ex_calls : list scall :=
  [SSearch ex_id; SUpdate (Add ex_more); SSearch ex_other;
   SUpdate (Del [(str "http://b", [str "urn:epc:pat:sgtin-96:3.12345678.00001"])]); SSearch ex_id].
Example C14_hypotheses : let b := to_byte_subs E0 ex_chain in
  b <> [] /\ Forall is_bitstring (mkeys b)
  /\ calm (entries b) (events_of E0 (ex_calls ++ [SUpdate (Add [(str "http://d", [str "urn:epc:pat:sgtin-96:3.12345678.00001.1"])])]))
  /\ calm (entries b) (events_of E0 (ex_calls ++ [SUpdate (Del ex_more)]))
  /\ match splay_run E0 ex_chain ex_calls with
     | Ok t => drop_tree (splay_search t pcgs1 ex_id) = Ok (ex_uri, [str "http://a"; str "http://c"], false)
     | _ => False
     end.
Proof.
  split; [vm_compute; discriminate|].
  split; [apply bitstrings_b; vm_compute; reflexivity|].
  split; [apply calm_b_spec; vm_compute; reflexivity|].
  split; [apply calm_b_spec; vm_compute; reflexivity|].
  vm_compute. reflexivity.
Qed.

(** A prefix added while an extension of it is subscribed is not reported. *)
Theorem C14_refuted : exists sub0 sub id t t' uri,
  wf_bytes id /\ new_splay E0 sub0 = Ok t /\ splay_add E0 t sub = Ok t'
  /\ list_search (list_add E0 (new_list E0 sub0) sub) pcgs1 id = Ok (uri, [str "http://c"; str "http://a"], false)
  /\ drop_tree (splay_search t' pcgs1 id) = Ok (uri, [str "http://c"], false).
Proof.
  exists ex_more, [(str "http://a", [str "urn:epc:pat:sgtin-96:3.12345678"])], ex_id. do 3 eexists.
  split; [forall_concrete|]. split; [vm_compute; reflexivity|]. split; [vm_compute; reflexivity|].
  split; vm_compute; reflexivity.
Qed.
Print Assumptions C14_refuted.

(** What one more AddSubscription of a new prefix does after any calm history,
    whether or not extensions of it are subscribed: the tags that have a
    subscribed extension of [k] get the answer they got before, all others the
    right one.  So the property fails for every such [k] and every such tag. *)
Theorem C14_new_prefix_partial : forall E sub0 cs sub k u, let b := to_byte_subs E sub0 in
  b <> [] -> Forall is_bitstring (mkeys b) -> calm (entries b) (events_of E cs) ->
  let m := after (entries b) (events_of E cs) in
  entries (to_byte_subs E sub) = [(k, u)] -> is_bitstring k -> ~ In k (map fst m) ->
  exists t t', splay_run E sub0 cs = Ok t /\ splay_add E t sub = Ok t' /\
    forall pc id, wf_bytes id -> decides id (k :: map fst m) ->
    exists uris, answers (translate pc id) uris (drop_tree (splay_search t' pc id)) /\
      ((exists e, In e (map fst m) /\ strictly_extends e k /\ id_has_prefix id e) -> reported id m uris) /\
      (~ (exists e, In e (map fst m) /\ strictly_extends e k /\ id_has_prefix id e) ->
         reported id (apply_change m (Subscribe k u)) uris).
Proof. exact splay_misplaced. Qed.
Print Assumptions C14_new_prefix_partial.

Example C14_new_prefix_hypotheses : let b := to_byte_subs E0 ex_more in let m := after (entries b) (events_of E0 []) in
  b <> [] /\ Forall is_bitstring (mkeys b) /\ calm (entries b) (events_of E0 [])
  /\ entries (to_byte_subs E0 ex_a) = [(ex_a_key, str "http://a")] /\ is_bitstring ex_a_key /\ ~ In ex_a_key (map fst m)
  /\ wf_bytes ex_id /\ decides ex_id (ex_a_key :: map fst m)
  /\ exists e, In e (map fst m) /\ strictly_extends e ex_a_key /\ id_has_prefix ex_id e.
Proof.
  split; [vm_compute; discriminate|].
  split; [apply bitstrings_b; vm_compute; reflexivity|]. split; [constructor|]. split; [vm_compute; reflexivity|].
  split; [apply is_bitstring_b; vm_compute; reflexivity|].
  split. { intros H. revert H. vm_compute. intros [H|[]]. discriminate. }
  split; [forall_concrete|]. split; [apply long_decides; vm_compute; reflexivity|].
  exists (hd [] (mkeys (to_byte_subs E0 ex_more))). split; [vm_compute; auto|].
  split; [apply ext_b_spec; vm_compute; reflexivity|].
  apply id_has_prefix_str; [apply is_bitstring_b; vm_compute; reflexivity|]. apply has_prefix_spec. vm_compute. reflexivity.
Qed.

(** Deleting a prefix above which there are several branches always leaves it
    subscribed, with the empty URI. *)
Theorem C15_branches_refuted : forall E sub0 cs sub k, let b := to_byte_subs E sub0 in
  b <> [] -> Forall is_bitstring (mkeys b) -> calm (entries b) (events_of E cs) ->
  let m := after (entries b) (events_of E cs) in
  mkeys (to_byte_subs E sub) = [k] -> In k (map fst m) -> ~ one_branch_above (map fst m) k ->
  exists t t', splay_run E sub0 cs = Ok t /\ splay_del E t sub = Ok t' /\
    forall pc id, wf_bytes id -> decides id (map fst m) ->
    exists uris, reported id (apply_change m (Subscribe k [])) uris /\
      answers (translate pc id) uris (drop_tree (splay_search t' pc id)).
Proof. exact splay_forked_delete. Qed.
Print Assumptions C15_branches_refuted.

Example C15_branches_hypotheses : let b := to_byte_subs E0 ex_nested in let m := after (entries b) (events_of E0 []) in
  b <> [] /\ Forall is_bitstring (mkeys b) /\ calm (entries b) (events_of E0 [])
  /\ mkeys (to_byte_subs E0 ex_a) = [ex_a_key] /\ In ex_a_key (map fst m) /\ ~ one_branch_above (map fst m) ex_a_key.
Proof.
  split; [vm_compute; discriminate|].
  split; [apply bitstrings_b; vm_compute; reflexivity|]. split; [constructor|]. split; [vm_compute; reflexivity|].
  split; [vm_compute; auto|]. intros H.
  destruct (H (one_key "urn:epc:pat:sgtin-96:3.12345678.00001") (one_key "urn:epc:pat:sgtin-96:3.12345678.00002"))
    as (g & G1 & G2 & G3 & G4); try (apply ext_b_spec; vm_compute; reflexivity); try (vm_compute; auto; fail).
  apply ext_b_spec in G2. apply has_prefix_spec in G3, G4. revert G1 G2 G3 G4.
  change (after _ _) with (entries (to_byte_subs E0 ex_nested)).
  rewrite entries_keys. intros G1 G2 G3 G4.
  assert (forallb (fun g => negb (ext_b g ex_a_key && has_prefix (one_key "urn:epc:pat:sgtin-96:3.12345678.00001") g
    && has_prefix (one_key "urn:epc:pat:sgtin-96:3.12345678.00002") g)) (mkeys (to_byte_subs E0 ex_nested)) = true) as F
    by (vm_compute; reflexivity).
  rewrite forallb_forall in F. apply F in G1. rewrite G2, G3, G4 in G1. discriminate.
Qed.

(** The only subscription cannot be deleted. *)
Theorem C15_only_refuted : forall E sub0 cs sub k u, let b := to_byte_subs E sub0 in
  b <> [] -> Forall is_bitstring (mkeys b) -> calm (entries b) (events_of E cs) ->
  after (entries b) (events_of E cs) = [(k, u)] -> mkeys (to_byte_subs E sub) = [k] ->
  exists t, splay_run E sub0 cs = Ok t /\ splay_del E t sub = Ok t /\
    forall pc id, wf_bytes id -> decides id [k] ->
    exists uris, reported id [(k, u)] uris /\ answers (translate pc id) uris (drop_tree (splay_search t pc id)).
Proof. exact splay_last_delete. Qed.
Print Assumptions C15_only_refuted.

Example C15_only_hypotheses : let b := to_byte_subs E0 ex_a in
  b <> [] /\ Forall is_bitstring (mkeys b) /\ calm (entries b) (events_of E0 [SSearch ex_id])
  /\ after (entries b) (events_of E0 [SSearch ex_id]) = [(ex_a_key, str "http://a")]
  /\ mkeys (to_byte_subs E0 ex_a) = [ex_a_key].
Proof.
  split; [vm_compute; discriminate|].
  split; [apply bitstrings_b; vm_compute; reflexivity|]. split; [apply calm_b_spec; vm_compute; reflexivity|].
  split; vm_compute; reflexivity.
Qed.

(** Deleting a prefix with two incomparable extensions leaves an empty URI in the
    reports, and the last subscription cannot be deleted. *)
Theorem C15_refuted : exists sub0 sub id t t' uri,
  wf_bytes id /\ new_splay E0 sub0 = Ok t /\ splay_del E0 t sub = Ok t'
  /\ drop_tree (splay_search t' pcgs1 id) = Ok (uri, [[]; str "http://b"], false).
Proof.
  exists ex_nested, [(str "http://a", [str "urn:epc:pat:sgtin-96:3.12345678"])], ex_id. do 3 eexists.
  split; [forall_concrete|]. split; [vm_compute; reflexivity|]. split; vm_compute; reflexivity.
Qed.
Print Assumptions C15_refuted.
Theorem C15_last_refuted : forall k u o, sdelete (SNode u (Some (new_filter k o)) SNil SNil) k
  = Ok (SNode u (Some (new_filter k o)) SNil SNil).
Proof.
  intros. cbn [sdelete]. rewrite new_filter_string, has_prefix_refl, seqb_refl. reflexivity.
Qed.
Print Assumptions C15_last_refuted.

(** ** C16 *)
(** Engines built from the same subscriptions give the same answer, URIs and
    order included, the splay tree also after earlier searches.  Missing: a
    subscription whose prefix is the longest common prefix of all (Patricia
    loses it), no subscription at all (splay crashes), searches while a prefix
    has incomparable extensions (splay loses it). *)
Theorem C16_engines_agree_partial : forall E sub ids pc id, let b := to_byte_subs E sub in
  b <> [] -> Forall is_bitstring (mkeys b) -> (forall k u, In (k, u) (entries b) -> u <> []) ->
  (forall k, In k (mkeys b) -> ~ longest_common_prefix k (mkeys b)) ->
  (forall i, In i (id :: ids) -> wf_bytes i /\ decides i (mkeys b)) -> id <> [] ->
  (ids = [] \/ forall k, In k (mkeys b) -> one_chain_above (mkeys b) k) ->
  exists p s, new_patricia E sub = Some p /\ splay_run E sub (map SSearch ids) = Ok s /\
    patricia_search p pc id = list_search (new_list E sub) pc id /\
    drop_tree (splay_search s pc id) = list_search (new_list E sub) pc id.
Proof.
  intros E sub ids pc id b Hn HB HU HL HI Hne HO.
  destruct (HI id (or_introl eq_refl)) as [Hw HD].
  assert (forall us r r', answers (translate pc id) us r -> answers (translate pc id) us r' -> r = r') as Fun.
  { intros us r r' [[E1 ->]|[E1 A]] [[E2 ->]|[E2 A0]]; try congruence. destruct (translate pc id); congruence. }
  destruct (C07_list_search E sub [] pc id) as (ul & Rl & Al).
  { cbn [list_run fold_left]. rewrite C07_list_fresh, entries_keys. auto. } { auto. }
  { cbn [list_run fold_left]. rewrite C07_list_fresh, entries_keys. auto. }
  change (list_run E sub []) with (new_list E sub) in Rl, Al. rewrite C07_list_fresh in Rl. fold b in Rl.
  destruct (C09_patricia_search_partial E sub pc id HB HU HL Hw Hne HD) as (p & up & Np & Rp & Ap). fold b in Rp.
  assert (exists s us, splay_run E sub (map SSearch ids) = Ok s /\ reported id (entries b) us /\
            answers (translate pc id) us (drop_tree (splay_search s pc id))) as (s & us & Ns & Rs & As).
  { destruct HO as [->|HO].
    - apply C12_splay_first_search_partial; auto.
    - destruct (C13_splay_search_history_partial E sub ids pc id Hn HB HO HI) as (t0 & t & us & _ & H1 & H2 & H3 & _). eauto. }
  exists p, s. do 2 (split; [auto|]).
  rewrite (reported_fun _ _ _ _ Rp Rl) in Ap. rewrite (reported_fun _ _ _ _ Rs Rl) in As. split; eapply Fun; eauto.
Qed.
Print Assumptions C16_engines_agree_partial.

Example C16_hypotheses : let b := to_byte_subs E0 ex_chain in
  b <> [] /\ Forall is_bitstring (mkeys b) /\ (forall k u, In (k, u) (entries b) -> u <> [])
  /\ (forall k, In k (mkeys b) -> ~ longest_common_prefix k (mkeys b))
  /\ (forall i, In i [ex_id; ex_other] -> wf_bytes i /\ decides i (mkeys b)) /\ ex_id <> []
  /\ (forall k, In k (mkeys b) -> one_chain_above (mkeys b) k)
  /\ list_search (new_list E0 ex_chain) pcgs1 ex_id = Ok (ex_uri, [str "http://a"; str "http://b"], false).
Proof.
  split; [vm_compute; discriminate|].
  split; [apply bitstrings_b; vm_compute; reflexivity|].
  split; [apply nonempty_snd_b; vm_compute; reflexivity|].
  split; [apply no_lcp_b; vm_compute; reflexivity|].
  split; [intros i [<-|[<-|[]]]; (split; [forall_concrete|apply long_decides; vm_compute; reflexivity])|].
  split; [discriminate|]. split; [apply all_one_chain_b; vm_compute; reflexivity|]. vm_compute. reflexivity.
Qed.

(** One tag, one subscription set, three different answers (List, Patricia, splay
    after one search). *)
Theorem C16_refuted : exists sub id uri p s,
  wf_bytes id /\ new_patricia E0 sub = Some p /\ splay_run E0 sub [SSearch id] = Ok s
  /\ list_search (new_list E0 sub) pcgs1 id = Ok (uri, [str "http://a"; str "http://c"], false)
  /\ patricia_search p pcgs1 id = Ok (uri, [str "http://c"], false)
  /\ drop_tree (splay_search s pcgs1 id) = Ok (uri, [str "http://c"], false)
  /\ patricia_search p pcgs1 id <> list_search (new_list E0 sub) pcgs1 id.
Proof.
  exists ex_nested, ex_other. do 3 eexists.
  split; [forall_concrete|]. split; [vm_compute; reflexivity|]. split; [vm_compute; reflexivity|].
  split; [vm_compute; reflexivity|]. split; [vm_compute; reflexivity|]. split; [vm_compute; reflexivity|].
  vm_compute. discriminate.
Qed.
Print Assumptions C16_refuted.

(** The exact boundary: the three engines agree after all searches and for all tags
    if and only if the common prefix of the subscriptions is not itself subscribed
    and the extensions of every subscribed prefix form a chain. *)
Theorem C16_exactly_partial : forall E sub, let b := to_byte_subs E sub in
  b <> [] -> Forall is_bitstring (mkeys b) -> (forall k u, In (k, u) (entries b) -> u <> []) ->
  ((forall k, In k (mkeys b) -> ~ longest_common_prefix k (mkeys b)) /\
   (forall k, In k (mkeys b) -> one_chain_above (mkeys b) k)) <->
  (forall ids pc id, (forall i, In i (id :: ids) -> wf_bytes i /\ decides i (mkeys b)) -> id <> [] ->
     exists p s, new_patricia E sub = Some p /\ splay_run E sub (map SSearch ids) = Ok s /\
       patricia_search p pc id = list_search (new_list E sub) pc id /\
       drop_tree (splay_search s pc id) = list_search (new_list E sub) pc id).
Proof.
  intros E sub b Hn HB HU. split.
  - intros [HL HO] ids pc id HI Hne. apply C16_engines_agree_partial; auto.
  - intros H.
    assert (forall id, wf_bytes id -> decides id (mkeys b) -> exists ul, reported id (entries b) ul /\ answers (translate [] id) ul (list_search (new_list E sub) [] id)) as HL.
    { intros id Hw HD. destruct (C07_list_search E sub [] [] id) as (ul & Rl & Al).
      { cbn [list_run fold_left]. rewrite C07_list_fresh, entries_keys. auto. } { auto. }
      { cbn [list_run fold_left]. rewrite C07_list_fresh, entries_keys. auto. }
      change (list_run E sub []) with (new_list E sub) in Rl, Al. rewrite C07_list_fresh in Rl. eauto. }
    split.
    + intros k Hk L. destruct (patricia_loses E sub k HB HU Hk L) as (id & Hw & Hne & HD & HF).
      destruct (HF []) as (t & us & us' & Et & R & A & Lt). destruct (HL id Hw HD) as (ul & Rl & Al).
      destruct (H [] [] id) as (p & s & Ep & _ & EA & _); auto. { intros i [<-|[]]; auto. }
      rewrite Et in Ep. injection Ep as <-. rewrite EA in A. rewrite (reported_fun _ _ _ _ Rl R) in Al.
      rewrite (answers_fun _ _ _ _ A Al) in Lt; [lia|discriminate].
    + destruct (splay_loses E sub Hn HB) as [HO|(id & t1 & Hw & Hne & HD & Et & HF)]; auto. exfalso.
      destruct (HF []) as (us & us' & R & A & Lt). destruct (HL id Hw HD) as (ul & Rl & Al).
      destruct (H [id] [] id) as (p & s & _ & Es & _ & EA); auto. { intros i [<-|[<-|[]]]; auto. }
      cbn [map] in Es. rewrite Et in Es. injection Es as <-. rewrite EA in A. rewrite (reported_fun _ _ _ _ Rl R) in Al.
      rewrite (answers_fun _ _ _ _ A Al) in Lt; [lia|discriminate].
Qed.
Print Assumptions C16_exactly_partial.
