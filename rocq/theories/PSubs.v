(** Proofs about filtering/subscriptions.go (without linkSubset). *)
From Verif Require Import GoBase BinUtil MTdtCore MSubs PBase Spec.
From Verif Require Export SpecSubs.
From Coq Require Import Lia Permutation Sorted.

(** ** The spec's order is the model's order *)
Lemma string_lt_sltb a b : string_lt a b <-> sltb a b = true.
Proof.
  revert b; induction a as [|x a IH]; intros [|y b]; cbn; try (split; congruence || tauto).
  destruct (N.ltb_spec (N_of_ascii x) (N_of_ascii y)), (N.ltb_spec (N_of_ascii y) (N_of_ascii x)).
  - lia.
  - tauto.
  - split; [|discriminate]. intros [|[-> _]]; lia.
  - rewrite IH. split; [intros [|[_ ?]]; auto; lia|].
    intros. right. split; auto.
    rewrite <- (ascii_N_embedding x), <- (ascii_N_embedding y). f_equal; lia.
Qed.
Lemma ascending_ssorted l : ascending l <-> ssorted l.
Proof.
  split.
  - induction 1 as [|a|a b l Hab Hl IH]; [constructor|repeat constructor|].
    constructor; auto. inversion IH as [|? ? Hs Hf]; subst. apply string_lt_sltb in Hab.
    constructor; auto. rewrite Forall_forall in *. intros y Hy. apply (sltb_trans a b y); auto.
  - induction 1 as [|a l Hs IH Hf]; [constructor|].
    destruct l as [|b l]; [constructor|]. constructor; auto.
    apply string_lt_sltb. inversion Hf; auto.
Qed.

(** ** Keys *)
Lemma sub_keys_spec sub : NoDup (map fst sub) ->
  ascending (sub_keys sub) /\ (forall k, In k (sub_keys sub) <-> In k (map fst sub)) .
Proof.
  intros HN. unfold sub_keys. split.
  - apply ascending_ssorted. apply sle_sorted_strict; [apply sort_strings_sorted|].
    eapply Permutation_NoDup; [apply sort_strings_perm|auto].
  - intros k. split; apply Permutation_in; [apply Permutation_sym|]; apply sort_strings_perm.
Qed.
Lemma sort_strings_perm_eq l l' : Permutation l l' -> sort_strings l = sort_strings l'.
Proof.
  intros H. apply sle_sorted_unique; auto using sort_strings_sorted.
  rewrite <- !sort_strings_perm. auto.
Qed.
Lemma sub_keys_perm sub sub' : Permutation sub sub' -> sub_keys sub = sub_keys sub'.
Proof. intros H. apply sort_strings_perm_eq. apply Permutation_map; auto. Qed.

(** ** sub_get *)
Lemma sub_get_In k v sub : NoDup (map fst sub) -> sub_get k sub = Some v <-> In (k, v) sub.
Proof.
  induction sub as [|[k' v'] sub IH]; cbn; intros HN; [split; [discriminate|tauto]|].
  inversion HN; subst. destruct (seqb_spec k k').
  - subst. split; [intros H; injection H as ->; auto|].
    intros [H|H]; [congruence|]. exfalso. apply H1. apply in_map with (f := fst) in H. auto.
  - rewrite IH by auto. split; auto. intros [|]; auto. congruence.
Qed.
Lemma sub_get_perm k sub sub' : NoDup (map fst sub) -> Permutation sub sub' -> sub_get k sub = sub_get k sub'.
Proof.
  intros HN HP.
  assert (NoDup (map fst sub')) as HN' by (eapply Permutation_NoDup; [apply Permutation_map, HP|auto]).
  destruct (sub_get k sub) as [v|] eqn:E.
  - symmetry. apply sub_get_In; auto. apply sub_get_In in E; auto.
    eapply Permutation_in; eauto.
  - destruct (sub_get k sub') as [v|] eqn:E'; auto.
    apply sub_get_In in E'; auto. apply Permutation_sym in HP. apply (Permutation_in _ HP) in E'.
    apply sub_get_In in E'; auto. congruence.
Qed.
Lemma sub_get_none k sub : sub_get k sub = None <-> ~ In k (map fst sub).
Proof.
  induction sub as [|[k' v'] sub IH]; cbn; [tauto|].
  destruct (seqb_spec k k'); [subst; split; [discriminate|tauto]|]. rewrite IH. intuition.
Qed.

Lemma sub_clone_get sub k : NoDup (map fst sub) -> sub_get k (sub_clone sub) = sub_get k sub.
Proof.
  intros HN. unfold sub_clone.
  destruct (sub_get k sub) as [v|] eqn:E.
  - assert (In k (sub_keys sub)) as Hk.
    { apply (sub_keys_spec sub HN). apply sub_get_In in E; auto. apply in_map with (f := fst) in E. auto. }
    assert (NoDup (sub_keys sub)) as HK.
    { apply ssorted_NoDup. apply ascending_ssorted. apply sub_keys_spec; auto. }
    apply sub_get_In.
    + rewrite map_map. cbn. rewrite map_id. auto.
    + apply in_map_iff. exists k. rewrite E. auto.
  - apply sub_get_none. rewrite map_map. cbn. rewrite map_id. intros Hk.
    apply (sub_keys_spec sub HN) in Hk. apply sub_get_none in E. auto.
Qed.
Lemma sub_clone_keys sub : map fst (sub_clone sub) = sub_keys sub.
Proof. unfold sub_clone. rewrite map_map. apply map_id. Qed.

(** ** ToByteSubscriptions *)
(** The (prefix, URI) pairs in the order in which the code stores them. *)
Definition stored_pairs (E : env) (sub : subscriptions) : list (gostring * gostring) :=
  flat_map (fun e => flat_map (fun pat => match pattern_prefix E pat with
                                           | Some s => [(s, fst e)] | None => [] end) (snd e)) sub.
Definition set_pair (m : bsubs) (p : gostring * gostring) : bsubs := mset (fst p) (PSub 0 (snd p) []) m.

Lemma to_byte_subs_pairs_from E sub m :
  fold_left (fun m e => fold_left (add_pattern E (fst e)) (snd e) m) sub m
  = fold_left set_pair (stored_pairs E sub) m.
Proof.
  revert m; induction sub as [|[u pats] sub IH]; intros m; cbn; auto.
  rewrite fold_left_app, IH. f_equal. clear.
  revert m; induction pats as [|p pats IH]; intros m; cbn; auto.
  rewrite fold_left_app, IH. f_equal. unfold add_pattern.
  destruct (pattern_prefix E p); reflexivity.
Qed.
Lemma to_byte_subs_pairs E sub : to_byte_subs E sub = fold_left set_pair (stored_pairs E sub) [].
Proof. apply to_byte_subs_pairs_from. Qed.

Lemma mset_In {V} k (v : V) m x : In x (mset k v m) -> x = (k, v) \/ In x m.
Proof.
  induction m as [|[k2 v2] m IH]; cbn.
  - intuition.
  - destruct (seqb_spec k k2); [subst; cbn; intuition|].
    destruct (sltb k k2); cbn; intuition.
Qed.
Lemma set_pair_flat m p : flat m -> flat (set_pair m p).
Proof.
  intros [W F]. split; [apply mset_wf; auto|].
  rewrite Forall_forall in *. intros x Hx. apply mset_In in Hx.
  destruct Hx as [->|]; auto. split; reflexivity.
Qed.
Lemma fold_set_pair_flat ps m : flat m -> flat (fold_left set_pair ps m).
Proof. revert m; induction ps; cbn; auto using set_pair_flat. Qed.
Lemma flat_nil : flat [].
Proof. split; constructor. Qed.
Lemma to_byte_subs_flat E sub : flat (to_byte_subs E sub).
Proof. rewrite to_byte_subs_pairs. apply fold_set_pair_flat, flat_nil. Qed.

Lemma flat_entry_eq k p : flat_entry (k, p) -> p = PSub 0 (ps_uri p) [].
Proof. destruct p as [o u s]. intros [H1 H2]. cbn in *. congruence. Qed.

(** The last stored pair for a prefix wins. *)
Fixpoint last_uri (s : gostring) (ps : list (gostring * gostring)) : option gostring :=
  match ps with
  | [] => None
  | (k, u) :: ps' => match last_uri s ps' with
                     | Some v => Some v
                     | None => if seqb s k then Some u else None
                     end
  end.
Lemma fold_set_pair_get ps m s :
  mget s (fold_left set_pair ps m)
  = match last_uri s ps with Some u => Some (PSub 0 u []) | None => mget s m end.
Proof.
  revert m; induction ps as [|[k u] ps IH]; intros m; cbn [fold_left last_uri]; auto.
  rewrite IH. destruct (last_uri s ps); auto.
  unfold set_pair. cbn [fst snd]. rewrite mget_mset. destruct (seqb s k); auto.
Qed.
Lemma to_byte_subs_get E sub s :
  mget s (to_byte_subs E sub)
  = match last_uri s (stored_pairs E sub) with Some u => Some (PSub 0 u []) | None => None end.
Proof. rewrite to_byte_subs_pairs, fold_set_pair_get. cbn. destruct (last_uri _ _); auto. Qed.

Lemma last_uri_In s ps u : last_uri s ps = Some u -> In (s, u) ps.
Proof.
  induction ps as [|[k v] ps IH]; cbn; [discriminate|].
  destruct (last_uri s ps); [auto|]. destruct (seqb_spec s k); [|discriminate].
  intros H; injection H as ->. subst; auto.
Qed.
Lemma last_uri_none s ps : last_uri s ps = None <-> ~ In s (map fst ps).
Proof.
  induction ps as [|[k v] ps IH]; cbn; [tauto|].
  destruct (last_uri s ps) as [w|] eqn:E.
  - split; [discriminate|]. intros H. exfalso. apply H. right.
    apply last_uri_In in E. apply in_map with (f := fst) in E; auto.
  - destruct (seqb_spec s k).
    + subst. split; [discriminate|tauto].
    + rewrite IH. intuition.
Qed.

Lemma entries_In b k u : flat b -> In (k, u) (entries b) <-> mget k b = Some (PSub 0 u []).
Proof.
  intros [W F]. unfold entries. rewrite in_map_iff. split.
  - intros [[k' p] [H1 H2]]. cbn in H1. injection H1 as <- <-.
    rewrite Forall_forall in F. pose proof (flat_entry_eq _ _ (F _ H2)) as Hp.
    rewrite <- Hp. apply In_mget; auto.
  - intros H. exists (k, PSub 0 u []). split; auto. apply mget_In; auto.
Qed.
Lemma entries_keys b : map fst (entries b) = mkeys b.
Proof. unfold entries, mkeys. rewrite map_map. reflexivity. Qed.

(** Distinct prefixes: nothing is lost and the order is irrelevant. *)
Lemma to_byte_subs_complete E sub : NoDup (map fst (stored_pairs E sub)) ->
  forall k u, In (k, u) (entries (to_byte_subs E sub)) <-> In (k, u) (stored_pairs E sub).
Proof.
  intros HN k u. rewrite entries_In by apply to_byte_subs_flat. rewrite to_byte_subs_get.
  assert (forall u', last_uri k (stored_pairs E sub) = Some u' <-> In (k, u') (stored_pairs E sub)) as H.
  { generalize dependent (stored_pairs E sub). clear. intros ps HN u'. split; [apply last_uri_In|].
    induction ps as [|[k' v] ps IH]; cbn; [tauto|]. inversion HN; subst. intros [H|H].
    - injection H as -> ->. destruct (last_uri k ps) eqn:E.
      + exfalso. apply H1. apply last_uri_In in E. apply in_map with (f := fst) in E; auto.
      + rewrite seqb_refl; auto.
    - rewrite IH; auto. }
  rewrite <- H. destruct (last_uri k (stored_pairs E sub)); split; intros Hx; congruence.
Qed.
Lemma flat_ext b b' : flat b -> flat b' ->
  (forall p, In p (entries b) <-> In p (entries b')) -> b = b'.
Proof.
  intros F F' H. apply wf_map_ext; [apply F|apply F'|]. intros k.
  assert (forall b u, flat b -> mget k b = Some u -> u = PSub 0 (ps_uri u) []) as HF.
  { intros b0 u [W0 F0] Hu. apply mget_In in Hu. rewrite Forall_forall in F0.
    apply (flat_entry_eq k), (F0 _ Hu). }
  destruct (mget k b) as [p|] eqn:E.
  - rewrite (HF b p F E) in E |- *. apply entries_In in E; auto. apply H in E.
    apply entries_In in E; auto.
  - destruct (mget k b') as [p|] eqn:E'; auto.
    rewrite (HF b' p F' E') in E'. apply entries_In in E'; auto. apply H in E'.
    apply entries_In in E'; auto. congruence.
Qed.
Lemma stored_pairs_perm E sub sub' : Permutation sub sub' -> Permutation (stored_pairs E sub) (stored_pairs E sub').
Proof. intros H. unfold stored_pairs. apply Permutation_flat_map; auto. Qed.
Lemma to_byte_subs_perm E sub sub' : NoDup (map fst (stored_pairs E sub)) -> Permutation sub sub' ->
  to_byte_subs E sub = to_byte_subs E sub'.
Proof.
  intros HN HP. apply flat_ext; try apply to_byte_subs_flat.
  pose proof (stored_pairs_perm E _ _ HP) as HQ.
  assert (NoDup (map fst (stored_pairs E sub'))) as HN'
    by (eapply Permutation_NoDup; [apply Permutation_map, HQ|auto]).
  intros [k u]. rewrite !to_byte_subs_complete by auto. split; apply Permutation_in; auto.
  apply Permutation_sym; auto.
Qed.

Lemma ssorted_filter_fst {V} (f : gostring * V -> bool) (l : list (gostring * V)) :
  ssorted (map fst l) -> ssorted (map fst (filter f l)).
Proof.
  induction l as [|[k v] l IH]; cbn; auto. intros H. inversion H as [|? ? Hs Hf]; subst.
  destruct (f (k, v)); auto. cbn. constructor; [apply IH; auto|].
  rewrite Forall_forall in *. intros x Hx. apply Hf. apply in_map_iff in Hx. destruct Hx as (p & <- & Hp).
  apply filter_In in Hp. apply in_map. tauto.
Qed.
Lemma sorted_pairs_ext {V} (l l' : list (gostring * V)) :
  ssorted (map fst l) -> ssorted (map fst l') -> (forall p, In p l <-> In p l') -> l = l'.
Proof.
  intros W W' H. apply wf_map_ext; auto. intros k.
  destruct (mget k l) as [v|] eqn:E1, (mget k l') as [v'|] eqn:E2; auto.
  - apply mget_In in E1. apply H in E1. apply (In_mget _ _ _ W') in E1. congruence.
  - apply mget_In in E1. apply H in E1. apply (In_mget _ _ _ W') in E1. congruence.
  - apply mget_In in E2. apply H in E2. apply (In_mget _ _ _ W) in E2. congruence.
Qed.
Lemma bsub_keys_spec (l : list (gostring * psub)) : NoDup (map fst l) ->
  ascending (bsub_keys l) /\ (forall k, In k (bsub_keys l) <-> In k (map fst l))
  /\ (forall l', Permutation l l' -> bsub_keys l' = bsub_keys l).
Proof.
  intros HN. unfold bsub_keys, mkeys. split; [|split].
  - apply ascending_ssorted. apply sle_sorted_strict; [apply sort_strings_sorted|].
    eapply Permutation_NoDup; [apply sort_strings_perm|auto].
  - intros k. split; apply Permutation_in; [apply Permutation_sym|]; apply sort_strings_perm.
  - intros l' HP. symmetry. apply sort_strings_perm_eq. apply Permutation_map; auto.
Qed.