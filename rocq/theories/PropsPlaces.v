(** C10, C11: which updates of a Patricia trie are performed rightly, told from the
    prefixes of the subscriptions and the updates alone. *)
From Verif Require Import GoBase BinUtil MFilter MEngine MTdtEpc MTdtCore MScheme MSubs MList MPatricia TestVectors.
From Verif Require Import PBase Spec PEngine PSubs PList PPatricia PPatriciaHist PExamples SpecTrie PPatriciaExact PropsEngine SpecPlaces SpecAnswers PPlaces.

(** After a history each of whose changes is made where it may be made, every search
    is answered with the subscriptions there are. *)
Theorem C10_places_partial : forall E sub0 m0 ops pc id, let b := to_byte_subs E sub0 in
  Forall is_bitstring (mkeys b) -> (forall k u, In (k, u) (entries b) -> u <> []) -> initially (entries b) m0 ->
  placed (first_places (mkeys b)) m0 (changes_of E ops) ->
  wf_bytes id -> id <> [] -> decides id (mkeys b ++ subscribed_keys (changes_of E ops)) ->
  exists t uris, patricia_run E sub0 ops = Ok t /\ reported id (apply_changes m0 (changes_of E ops)) uris
    /\ answers (translate pc id) uris (patricia_search t pc id).
Proof. intros E sub0 m0 ops pc id b HB HU HI HP. exact (placed_exact E sub0 m0 HB HU HI ops HP pc id). Qed.
Print Assumptions C10_places_partial.

(** After such a history, one more subscription is answered rightly if and only if it
    is made where it may be made. *)
Theorem C10_add_exactly_partial : forall E sub0 m0 ops sub k u, let b := to_byte_subs E sub0 in
  Forall is_bitstring (mkeys b) -> (forall k u, In (k, u) (entries b) -> u <> []) -> initially (entries b) m0 ->
  let cs := changes_of E ops in let m := apply_changes m0 cs in let N := places_of (mkeys b) cs in
  placed (first_places (mkeys b)) m0 cs -> entries (to_byte_subs E sub) = [(k, u)] -> is_bitstring k -> u <> [] ->
  (forall k', In (k', u) m -> k' = k) ->
  (exact_after E sub0 m0 (ops ++ [Add sub]) <-> N k \/ forall q, N q -> ~ strictly_extends q k).
Proof.
  intros E sub0 m0 ops sub k u b HB HU HI cs m N HP HE Hk Hu Own.
  apply (exact_step E sub0 m0 HB HU HI ops (Add sub) (Subscribe k u) HP); [cbn [update_changes]; rewrite HE; reflexivity|split; auto|].
  intros k0 u0 k' Ec. injection Ec as <- <-. apply Own.
Qed.
Print Assumptions C10_add_exactly_partial.

(** After such a history, one subscription less is answered rightly if and only if it
    does not have the only place. *)
Theorem C11_delete_exactly_partial : forall E sub0 m0 ops sub k u, let b := to_byte_subs E sub0 in
  Forall is_bitstring (mkeys b) -> (forall k u, In (k, u) (entries b) -> u <> []) -> initially (entries b) m0 ->
  let cs := changes_of E ops in let m := apply_changes m0 cs in let N := places_of (mkeys b) cs in
  placed (first_places (mkeys b)) m0 cs -> entries (to_byte_subs E sub) = [(k, u)] -> is_bitstring k ->
  (exact_after E sub0 m0 (ops ++ [Del sub]) <-> ~ ((forall q, N q -> q = k) /\ In k (map fst m))).
Proof.
  intros E sub0 m0 ops sub k u b HB HU HI cs m N HP HE Hk.
  apply (exact_step E sub0 m0 HB HU HI ops (Del sub) (Unsubscribe k) HP); [cbn [update_changes]; rewrite HE; reflexivity|exact Hk|discriminate].
Qed.
Print Assumptions C11_delete_exactly_partial.

(** Histories of updates of one subscription each: the answers are right throughout
    if and only if every change is made where it may be made. *)
Theorem C10_exactly_partial : forall E sub0 m0 ops, let b := to_byte_subs E sub0 in
  Forall is_bitstring (mkeys b) -> (forall k u, In (k, u) (entries b) -> u <> []) -> initially (entries b) m0 ->
  one_by_one E ops -> Forall sound (changes_of E ops) -> own_uris m0 (changes_of E ops) ->
  ((forall done rest, ops = done ++ rest -> exact_after E sub0 m0 done) <-> placed (first_places (mkeys b)) m0 (changes_of E ops)).
Proof. intros E sub0 m0 ops b HB HU HI. exact (exactly E sub0 m0 HB HU HI ops). Qed.
Print Assumptions C10_exactly_partial.

(** The history of [ex_above] on [ex_fork] is not top-down, but each of its changes is
    made where it may be made; [ex_too_late] after it is not. *)
Example C10_places_hypotheses : let b := to_byte_subs E0 ex_fork in
  Forall is_bitstring (mkeys b) /\ (forall k u, In (k, u) (entries b) -> u <> [])
  /\ decides ex_id (mkeys b ++ subscribed_keys (changes_of E0 ex_above))
  /\ exists m0, initially (entries b) m0 /\ placed (first_places (mkeys b)) m0 (changes_of E0 ex_above)
     /\ one_by_one E0 ex_above /\ Forall sound (changes_of E0 ex_above) /\ own_uris m0 (changes_of E0 ex_above)
     /\ exists k u, entries (to_byte_subs E0 ex_too_late) = [(k, u)] /\ is_bitstring k /\ u <> []
        /\ (forall k', In (k', u) (apply_changes m0 (changes_of E0 ex_above)) -> k' = k)
        /\ ~ exact_after E0 ex_fork m0 (ex_above ++ [Add ex_too_late]).
Proof.
  assert (HB : Forall is_bitstring (mkeys (to_byte_subs E0 ex_fork))) by (apply bitstrings_b; vm_compute; reflexivity).
  assert (HU : forall k u, In (k, u) (entries (to_byte_subs E0 ex_fork)) -> u <> []) by (apply nonempty_snd_b; vm_compute; reflexivity).
  assert (HI : initially (entries (to_byte_subs E0 ex_fork)) (patricia_content (to_byte_subs E0 ex_fork)))
    by (apply initially_b; [apply to_byte_subs_flat|vm_compute; reflexivity|reflexivity]).
  assert (HP : placed (first_places (mkeys (to_byte_subs E0 ex_fork))) (patricia_content (to_byte_subs E0 ex_fork)) (changes_of E0 ex_above)).
  { destruct (start_places E0 ex_fork _ HB HU HI) as (t0 & Et & I & S). eapply placed_ext; [exact S|].
    apply (careful_placed _ _ _ _ I), careful_b_spec. revert Et.
    match goal with |- ?r = Some t0 -> _ => let v := eval vm_compute in r in change r with v end. intros Et. injection Et as <-. vm_compute. reflexivity. }
  split; [exact HB|]. split; [exact HU|]. split; [apply long_decides; vm_compute; reflexivity|].
  exists (patricia_content (to_byte_subs E0 ex_fork)). split; [exact HI|]. split; [exact HP|].
  split; [repeat constructor; eexists; vm_compute; reflexivity|].
  split; [eapply placed_sound; exact HP|].
  split; [apply own_b_spec; vm_compute; reflexivity|].
  eexists. eexists. split; [vm_compute; reflexivity|]. split; [apply bits_b; vm_compute; reflexivity|]. split; [discriminate|].
  assert (forall k' : gostring, In (k', str "http://e") (apply_changes (patricia_content (to_byte_subs E0 ex_fork)) (changes_of E0 ex_above)) -> False) as HN.
  { intros k' H. vm_compute in H. repeat destruct H as [H|H]; discriminate || auto. }
  split; [intros k' H; destruct (HN k' H)|].
  intros HX. destruct (placed_run E0 ex_fork _ HB HU HI ex_above HP) as (t0 & t & used & _ & _ & Et & _ & S).
  eapply exact_step in HX; [|exact HB|exact HU|exact HI|exact HP|vm_compute; reflexivity|split; [apply bits_b; vm_compute; reflexivity|discriminate]|].
  2: { intros k u k' Ec Hin. assert (u = str "http://e") as -> by (injection Ec; intros; subst; reflexivity). destruct (HN k' Hin). }
  apply (may_ext _ _ _ _ S) in HX. apply may_well, placed_b_complete in HX. revert HX. revert Et.
  match goal with |- ?r = Ok t -> _ => let v := eval vm_compute in r in change r with v end. intros Et. injection Et as <-. vm_compute. discriminate.
Qed.

(** A sole subscription, made again so that it is stored, can not be removed. *)
Definition ex_sole : subscriptions := [(str "http://a", [str "urn:epc:pat:sgtin-96:3.12345678"])].
Example C11_delete_hypotheses : let b := to_byte_subs E0 ex_sole in
  Forall is_bitstring (mkeys b) /\ (forall k u, In (k, u) (entries b) -> u <> [])
  /\ initially (entries b) [] /\ placed (first_places (mkeys b)) [] (changes_of E0 [Add ex_sole])
  /\ exists k u, entries (to_byte_subs E0 ex_sole) = [(k, u)] /\ is_bitstring k
     /\ ~ exact_after E0 ex_sole [] ([Add ex_sole] ++ [Del ex_sole]).
Proof.
  assert (HB : Forall is_bitstring (mkeys (to_byte_subs E0 ex_sole))) by (apply bitstrings_b; vm_compute; reflexivity).
  assert (HU : forall k u, In (k, u) (entries (to_byte_subs E0 ex_sole)) -> u <> []) by (apply nonempty_snd_b; vm_compute; reflexivity).
  assert (HI : initially (entries (to_byte_subs E0 ex_sole)) []) by (apply initially_b; [apply to_byte_subs_flat|vm_compute; reflexivity|reflexivity]).
  assert (HP : placed (first_places (mkeys (to_byte_subs E0 ex_sole))) [] (changes_of E0 [Add ex_sole])).
  { destruct (start_places E0 ex_sole _ HB HU HI) as (t0 & Et & I & S). eapply placed_ext; [exact S|].
    apply (careful_placed _ _ _ _ I), careful_b_spec. revert Et.
    match goal with |- ?r = Some t0 -> _ => let v := eval vm_compute in r in change r with v end. intros Et. injection Et as <-. vm_compute. reflexivity. }
  split; [exact HB|]. split; [exact HU|]. split; [exact HI|]. split; [exact HP|].
  eexists. eexists. split; [vm_compute; reflexivity|]. split; [apply bits_b; vm_compute; reflexivity|].
  intros HX. destruct (placed_run E0 ex_sole _ HB HU HI _ HP) as (t0 & t & used & _ & _ & Et & _ & S).
  eapply exact_step in HX; [|exact HB|exact HU|exact HI|exact HP|vm_compute; reflexivity|apply bits_b; vm_compute; reflexivity|discriminate].
  apply (may_ext _ _ _ _ S) in HX. apply may_well, placed_b_complete in HX. revert HX. revert Et.
  match goal with |- ?r = Ok t -> _ => let v := eval vm_compute in r in change r with v end. intros Et. injection Et as <-. vm_compute. discriminate.
Qed.
