(** C14, C15: the limits on updates of a splay tree are exact. *)
From Verif Require Import GoBase BinUtil MFilter MEngine MTdtCore MSubs MList MPatricia MSplay TestVectors.
From Verif Require Import PBase Spec PFilter PEngine PSubs PList PMatch PPatricia PPatriciaHist PExamples PLink PSplay PSplayHist PSplayExact PAgree.
From Verif Require Import PropsEngine PropsSplay SpecAnswers PSplayCalm.
From Coq Require Import Lia.

(** After a calm history of searches and updates, one more subscription is answered
    rightly if and only if its prefix is subscribed or no extension of it is. *)
Theorem C14_add_exactly_partial : forall E sub0 cs sub k u, let b := to_byte_subs E sub0 in
  b <> [] -> Forall is_bitstring (mkeys b) -> calm (entries b) (events_of E cs) ->
  let m := after (entries b) (events_of E cs) in
  entries (to_byte_subs E sub) = [(k, u)] -> is_bitstring k ->
  (splay_exact_after E sub0 (cs ++ [SUpdate (Add sub)]) <->
   In k (map fst m) \/ forall k', In k' (map fst m) -> ~ strictly_extends k' k).
Proof. intros E sub0 cs sub k u b Hn HB. exact (add_exact E sub0 Hn HB cs sub k u). Qed.
Print Assumptions C14_add_exactly_partial.

(** After a calm history, one subscription less is answered rightly if and only if
    the prefix was not subscribed, or its extensions lie above one of them and it is
    not the only subscription. *)
Theorem C15_delete_exactly_partial : forall E sub0 cs sub k u, let b := to_byte_subs E sub0 in
  b <> [] -> Forall is_bitstring (mkeys b) -> calm (entries b) (events_of E cs) ->
  let m := after (entries b) (events_of E cs) in
  entries (to_byte_subs E sub) = [(k, u)] -> is_bitstring k ->
  (splay_exact_after E sub0 (cs ++ [SUpdate (Del sub)]) <->
   (In k (map fst m) -> one_branch_above (map fst m) k /\ exists k', In k' (map fst m) /\ k' <> k)).
Proof. intros E sub0 cs sub k u b Hn HB. exact (delete_exact E sub0 Hn HB cs sub k u). Qed.
Print Assumptions C15_delete_exactly_partial.

(** Histories of updates of one subscription each: the answers are right throughout
    if and only if the history is calm. *)
Theorem C14_exactly_partial : forall E sub0 ops, let b := to_byte_subs E sub0 in
  b <> [] -> Forall is_bitstring (mkeys b) -> one_by_one E ops -> Forall bit_change (changes_of E ops) ->
  ((forall done rest, ops = done ++ rest -> splay_exact_after E sub0 (map SUpdate done)) <->
   calm (entries b) (map Change (changes_of E ops))).
Proof. intros E sub0 ops b Hn HB. exact (updates_exactly E sub0 Hn HB ops). Qed.
Print Assumptions C14_exactly_partial.

(** A calm history and an addition after it that is answered wrongly; and a removal. *)
Definition ex_updates : list update :=
  [Add ex_more; Del [(str "http://b", [str "urn:epc:pat:sgtin-96:3.12345678.00001"])]; Add [(str "http://f", [str "urn:epc:pat:sgtin-96:3.12345678.00001.1"])]].
Definition ex_late : subscriptions := [(str "http://g", [str "urn:epc:pat:sgtin-96:3.12345678.00001"])].
Example C14_exactly_hypotheses : let b := to_byte_subs E0 ex_chain in
  b <> [] /\ Forall is_bitstring (mkeys b) /\ one_by_one E0 ex_updates /\ Forall bit_change (changes_of E0 ex_updates)
  /\ calm (entries b) (map Change (changes_of E0 ex_updates)) /\ calm (entries b) (events_of E0 ex_calls)
  /\ exists k u, entries (to_byte_subs E0 ex_late) = [(k, u)] /\ is_bitstring k
     /\ ~ splay_exact_after E0 ex_chain (map SUpdate ex_updates ++ [SUpdate (Add ex_late)]).
Proof.
  assert (HN : to_byte_subs E0 ex_chain <> []) by (vm_compute; discriminate).
  assert (HB : Forall is_bitstring (mkeys (to_byte_subs E0 ex_chain))) by (apply bitstrings_b; vm_compute; reflexivity).
  split; [exact HN|]. split; [exact HB|]. split; [repeat constructor; eexists; vm_compute; reflexivity|].
  assert (HC : calm (entries (to_byte_subs E0 ex_chain)) (map Change (changes_of E0 ex_updates))) by (apply calm_b_spec; vm_compute; reflexivity).
  split; [eapply calm_bit_changes; exact HC|].
  split; [exact HC|]. split; [apply calm_b_spec; vm_compute; reflexivity|].
  exists (one_key "urn:epc:pat:sgtin-96:3.12345678.00001"), (str "http://g"). split; [vm_compute; reflexivity|].
  split; [apply is_bitstring_b; vm_compute; reflexivity|]. intros H.
  apply (add_exact E0 ex_chain HN HB _ ex_late (one_key "urn:epc:pat:sgtin-96:3.12345678.00001") (str "http://g")) in H;
    [|apply calm_b_spec; vm_compute; reflexivity|vm_compute; reflexivity|apply is_bitstring_b; vm_compute; reflexivity].
  destruct H as [H|H].
  - revert H. apply (not_in_b (one_key "urn:epc:pat:sgtin-96:3.12345678.00001")). vm_compute. reflexivity.
  - apply (H (one_key "urn:epc:pat:sgtin-96:3.12345678.00001.1")); [apply in_b; vm_compute; reflexivity|apply ext_b_spec; vm_compute; reflexivity].
Qed.
Example C15_delete_hypotheses : let b := to_byte_subs E0 ex_nested in
  b <> [] /\ Forall is_bitstring (mkeys b) /\ calm (entries b) (events_of E0 [])
  /\ entries (to_byte_subs E0 ex_a) = [(ex_a_key, str "http://a")] /\ is_bitstring ex_a_key
  /\ ~ splay_exact_after E0 ex_nested ([] ++ [SUpdate (Del ex_a)]).
Proof.
  assert (HN : to_byte_subs E0 ex_nested <> []) by (vm_compute; discriminate).
  assert (HB : Forall is_bitstring (mkeys (to_byte_subs E0 ex_nested))) by (apply bitstrings_b; vm_compute; reflexivity).
  split; [exact HN|]. split; [exact HB|]. split; [constructor|]. split; [vm_compute; reflexivity|]. split; [apply is_bitstring_b; vm_compute; reflexivity|].
  assert (HE : entries (to_byte_subs E0 ex_a) = [(ex_a_key, str "http://a")]) by (vm_compute; reflexivity).
  assert (HK : is_bitstring ex_a_key) by (apply is_bitstring_b; vm_compute; reflexivity).
  assert (HC : calm (entries (to_byte_subs E0 ex_nested)) (events_of E0 [])) by constructor.
  assert (HI : In ex_a_key (map fst (after (entries (to_byte_subs E0 ex_nested)) (events_of E0 [])))) by (apply in_b; vm_compute; reflexivity).
  intros H. pose proof (proj1 (delete_exact E0 ex_nested HN HB [] ex_a ex_a_key (str "http://a") HC HE HK) H HI) as H1. clear H. rename H1 into H.
  destruct H as [H _]. apply branch_dec in H. vm_compute in H. discriminate.
Qed.
