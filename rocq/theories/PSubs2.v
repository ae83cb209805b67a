(** ToByteSubscriptions and CSV loading: specification-level facts. *)
From Verif Require Import GoBase BinUtil MFilter MTdtEpc MTdtIso MTdtCore MSubs MList.
From Verif Require Import PBase Spec PFilter PSubs PList PMatch.
From Verif Require Export SpecSubs.
From Coq Require Import Lia Permutation.

Lemma stored_pairs_wants E sub s u : In (s, u) (stored_pairs E sub) <-> wants E sub s u.
Proof.
  unfold stored_pairs, wants. rewrite in_flat_map. split.
  - intros ([u' pats] & H1 & H2). cbn [fst snd] in H2. apply in_flat_map in H2. destruct H2 as (pat & H3 & H4).
    destruct (pattern_prefix E pat) as [s'|] eqn:EP; [|destruct H4]. destruct H4 as [H4|[]]. injection H4 as -> ->. eauto.
  - intros (pats & pat & H1 & H2 & H3). exists (u, pats). split; auto. cbn [fst snd]. apply in_flat_map.
    exists pat. rewrite H3. cbn; auto.
Qed.
Lemma last_uri_some s ps : In s (map fst ps) -> exists u, last_uri s ps = Some u.
Proof.
  intros H. destruct (last_uri s ps) eqn:E; eauto. apply last_uri_none in E. tauto.
Qed.

Lemma to_byte_sound E sub s u : In (s, u) (entries (to_byte_subs E sub)) -> wants E sub s u.
Proof.
  rewrite entries_In by apply to_byte_subs_flat. rewrite to_byte_subs_get.
  destruct (last_uri s (stored_pairs E sub)) as [u'|] eqn:EL; [|discriminate].
  intros H. injection H as ->. apply stored_pairs_wants. apply last_uri_In; auto.
Qed.
Lemma to_byte_keeps_prefix E sub s u : wants E sub s u -> exists u', In (s, u') (entries (to_byte_subs E sub)).
Proof.
  intros H. apply stored_pairs_wants in H. destruct (last_uri_some s (stored_pairs E sub)) as [u' Hu'].
  { apply in_map with (f := fst) in H. auto. }
  exists u'. rewrite entries_In by apply to_byte_subs_flat. rewrite to_byte_subs_get, Hu'. reflexivity.
Qed.
Lemma to_byte_unshared E sub : unshared E sub ->
  forall s u, In (s, u) (entries (to_byte_subs E sub)) <-> wants E sub s u.
Proof.
  intros HU s u. split; [apply to_byte_sound|]. intros H.
  destruct (to_byte_keeps_prefix _ _ _ _ H) as [u' Hu']. rewrite (HU s u u'); auto. apply to_byte_sound; auto.
Qed.
Lemma wants_perm E sub sub' s u : Permutation sub sub' -> wants E sub s u -> wants E sub' s u.
Proof.
  intros HP (pats & pat & H1 & H2 & H3). exists pats, pat. split; auto. eapply Permutation_in; eauto.
Qed.
Lemma to_byte_order E sub sub' : unshared E sub -> Permutation sub sub' -> to_byte_subs E sub = to_byte_subs E sub'.
Proof.
  intros HU HP. apply flat_ext; try apply to_byte_subs_flat. intros [s u].
  assert (unshared E sub') as HU'.
  { intros s' u1 u2 H1 H2. apply Permutation_sym in HP. apply (HU s'); eapply wants_perm; eauto. }
  rewrite !to_byte_unshared by auto. split; apply wants_perm; [|apply Permutation_sym]; auto.
Qed.

(** make_prefix_filter_string never crashes. *)
Lemma make_prefix_no_panic E t fields : make_prefix_filter_string E t fields <> Panic.
Proof.
  unfold make_prefix_filter_string.
  destruct (seqb t _); [destruct fields as [|? [|? [|? [|? ?]]]]; discriminate|].
  destruct (seqb t _); [destruct fields as [|? [|? [|? [|? [|? ?]]]]]; discriminate|].
  destruct (seqb t _); [destruct fields as [|? [|? [|? [|? [|? ?]]]]]; discriminate|].
  destruct (seqb t _); [destruct fields as [|? [|? [|? [|? ?]]]]; discriminate|].
  destruct (seqb t _).
  { destruct fields as [|? [|? [|? [|? r]]]]; try discriminate. unfold new_prefix_filter_iso17363.
    destruct (Nat.ltb 6 _); [discriminate|]. unfold get_iso6346_cd. destruct (negb _); [discriminate|].
    cbn [bind]. destruct r; discriminate. }
  destruct (seqb t _); [destruct fields as [|? [|? [|? [|? [|? ?]]]]]; discriminate|discriminate].
Qed.
Lemma rejected_prefix E pat : rejected E pat ->
  pattern_prefix E pat = match pattern_parts pat with Some _ => Some [] | None => None end.
Proof.
  unfold rejected, pattern_prefix, pattern_parts. unfold urn_pat.
  destruct (split_on _ _) as [|t [|fs [|? ?]]]; auto. intros ->. reflexivity.
Qed.

Lemma flat_map_remove {A B} (f : A -> list B) l1 a l2 : f a = [] -> flat_map f (l1 ++ a :: l2) = flat_map f (l1 ++ l2).
Proof. intros H. rewrite !flat_map_app. cbn. rewrite H. reflexivity. Qed.
Lemma ignored_pattern E sub1 sub2 u pats1 pat pats2 : pattern_parts pat = None ->
  to_byte_subs E (sub1 ++ (u, pats1 ++ pat :: pats2) :: sub2) = to_byte_subs E (sub1 ++ (u, pats1 ++ pats2) :: sub2).
Proof.
  intros H. rewrite !to_byte_subs_pairs. f_equal. unfold stored_pairs. rewrite !flat_map_app. cbn [flat_map fst snd].
  rewrite (flat_map_remove _ pats1 pat pats2); auto. unfold pattern_prefix, pattern_parts in *. unfold urn_pat.
  destruct (split_on _ _) as [|? [|? [|? ?]]]; auto. discriminate.
Qed.

(** A rejected pattern of the right shape catches every tag. *)
Lemma rejected_catches_all E u pat pc id : rejected E pat -> pattern_parts pat <> None ->
  wf_bytes id -> id <> [] ->
  answers (translate pc id) [u] (list_search (new_list E [(u, [pat])]) pc id).
Proof.
  intros HR HP Hw Hid.
  assert (entries (to_byte_subs E [(u, [pat])]) = [([], u)]) as HE.
  { rewrite to_byte_subs_pairs. unfold stored_pairs. cbn [flat_map fst snd].
    rewrite (rejected_prefix E pat HR). destruct (pattern_parts pat); [reflexivity|congruence]. }
  pose proof (list_run_search E [(u, [pat])] [] pc id) as H. cbn zeta in H.
  unfold list_run in H. cbn [fold_left] in H. rewrite new_list_of, HE in H. rewrite list_pairs_of in H.
  destruct H as (uris & HRp & HA); auto.
  - repeat constructor.
  - intros k [<-|[]] HX. apply runs_out_str in HX; [|constructor]. destruct HX as [|[HX _]]; [congruence|cbn in HX; lia].
  - assert (uris = [u]) as ->.
    { inversion HRp as [|? ? ? ? H1 H2|? ? ? ? H1 H2]; subst.
      - inversion H2; subst. reflexivity.
      - exfalso. apply H1. intros i c Hi. destruct i; discriminate. }
    rewrite new_list_of, HE. auto.
Qed.

(** ** CSV *)

Lemma load_pattern_eq uri m p : load_pattern uri m p =
  if is_epc_pat p then mset uri (match mget uri m with Some l => l ++ [p] | None => [p] end) m else m.
Proof. reflexivity. Qed.
Lemma load_pattern_get uri pats : forall m k, wf_map m ->
  wf_map (fold_left (load_pattern uri) pats m) /\
  mget k (fold_left (load_pattern uri) pats m) =
    if seqb k uri then
      match filter is_epc_pat pats with
      | [] => mget k m
      | l => Some (match mget k m with Some l0 => l0 ++ l | None => l end)
      end
    else mget k m.
Proof.
  induction pats as [|p pats IH]; intros m k W; cbn [fold_left filter].
  - split; auto. destruct (seqb k uri); auto.
  - rewrite load_pattern_eq. destruct (is_epc_pat p) eqn:EP.
    + match goal with |- context [fold_left _ pats ?m'] => destruct (IH m' k) as [W1 G1]; [apply mset_wf; auto|] end.
      split; auto. rewrite G1, mget_mset.
      destruct (seqb_spec k uri) as [->|]; auto.
      destruct (mget uri m) as [l0|]; destruct (filter is_epc_pat pats) as [|x l]; auto;
        cbn zeta; rewrite <- ?app_assoc; reflexivity.
    + destruct (IH m k W) as [W1 G1]. split; auto.
Qed.
Lemma load_csv_from records : forall m k, wf_map m ->
  wf_map (fold_left load_record records m) /\
  mget k (fold_left load_record records m) =
    match csv_patterns k records with
    | [] => mget k m
    | l => Some (match mget k m with Some l0 => l0 ++ l | None => l end)
    end.
Proof.
  induction records as [|r records IH]; intros m k W; cbn [fold_left csv_patterns flat_map]; auto.
  fold (csv_patterns k records).
  destruct r as [|r0 fields]; cbn [load_record]; [apply IH; auto|].
  unfold is_http. destruct (has_prefix (to_lower r0) (str "http")) eqn:EH; cbn [andb]; [|apply IH; auto].
  destruct (load_pattern_get (to_lower r0) fields m k W) as [W1 G1].
  destruct (IH _ k W1) as [W2 G2]. split; auto. rewrite G2, G1.
  destruct (seqb_spec k (to_lower r0)) as [->|Hn].
  - rewrite seqb_refl. destruct (filter is_epc_pat fields) as [|x l]; cbn [app]; auto.
    destruct (csv_patterns (to_lower r0) records) as [|y l']; rewrite ?app_nil_r; auto.
    cbn zeta. destruct (mget (to_lower r0) m); rewrite <- ?app_assoc; reflexivity.
  - destruct (seqb_spec (to_lower r0) k); [congruence|]. reflexivity.
Qed.
Lemma load_csv_spec records uri :
  mget uri (load_csv records) = match csv_patterns uri records with [] => None | l => Some l end.
Proof.
  destruct (load_csv_from records [] uri) as [_ H]; [constructor|].
  unfold load_csv. rewrite H. destruct (csv_patterns uri records); reflexivity.
Qed.

Lemma unshared_b E sub :
  (let l := stored_pairs E sub in
   forallb (fun p => forallb (fun q => negb (seqb (fst p) (fst q)) || seqb (snd p) (snd q)) l) l) = true ->
  unshared E sub.
Proof.
  cbn zeta. intros H s u u' H1 H2. apply stored_pairs_wants in H1. apply stored_pairs_wants in H2.
  rewrite forallb_forall in H. apply H in H1. rewrite forallb_forall in H1. apply H1 in H2. cbn [fst snd] in H2.
  rewrite seqb_refl in H2. cbn in H2. apply seqb_eq; auto.
Qed.