(** Proofs about filtering/list.go. *)
From Verif Require Import GoBase BinUtil MFilter MTdtCore MSubs MList PBase Spec PFilter PSubs.
From Verif Require Export SpecRun.
From Coq Require Import Lia Permutation.
(** The engine with a given content. *)
Definition list_of (ps : prefix_subs) : list_engine :=
  map (fun p => {| em_filter := new_filter (fst p) 0; em_uri := snd p |}) ps.

Lemma new_filter_string s o : fo_string (new_filter s o) = s.
Proof. unfold new_filter. destruct (make_filter s o) as [[? ?] ?]. reflexivity. Qed.
Lemma list_pairs_of ps : list_pairs (list_of ps) = ps.
Proof.
  unfold list_pairs, list_of. rewrite map_map. cbn. erewrite map_ext; [apply map_id|].
  intros [k u]. cbn. rewrite new_filter_string. reflexivity.
Qed.

Lemma fo_eqb_refl f : fo_eqb f f = true.
Proof.
  unfold fo_eqb. rewrite !seqb_refl, !Nat.eqb_refl.
  rewrite (proj2 (bytes_eqb_eq _ _) eq_refl), (proj2 (bytes_eqb_eq (fo_mask f) _) eq_refl). reflexivity.
Qed.
Lemma fo_eqb_eq f g : fo_eqb f g = true <-> f = g.
Proof.
  split; [|intros ->; apply fo_eqb_refl].
  unfold fo_eqb. rewrite !andb_true_iff, !Nat.eqb_eq, !bytes_eqb_eq, seqb_eq.
  destruct f, g; cbn. intuition congruence.
Qed.
Lemma em_eqb_eq a b : em_eqb a b = true <-> a = b.
Proof.
  unfold em_eqb. rewrite andb_true_iff, fo_eqb_eq, seqb_eq. destruct a, b; cbn.
  split; [intros [-> ->]; auto|intros H; injection H; auto].
Qed.
Lemma list_of_inj p q :
  {| em_filter := new_filter (fst p) 0; em_uri := snd p |}
  = {| em_filter := new_filter (fst q) 0; em_uri := snd q |} -> p = q.
Proof.
  intros H. injection H as H1 H2. apply (f_equal fo_string) in H1. rewrite !new_filter_string in H1.
  destruct p, q; cbn in *; congruence.
Qed.

Lemma index_of_none l em : index_of l em = None <-> ~ In em l.
Proof.
  induction l as [|a l IH]; cbn; [tauto|].
  destruct (em_eqb a em) eqn:E.
  - apply em_eqb_eq in E. split; [discriminate|]. intros H; exfalso; auto.
  - assert (a <> em) by (intros Ha; apply em_eqb_eq in Ha; congruence).
    destruct (index_of l em); [split; [discriminate|]|]; intuition congruence.
Qed.
Lemma index_of_some l em i : index_of l em = Some i ->
  exists l1 l2, l = l1 ++ em :: l2 /\ length l1 = i /\ ~ In em l1.
Proof.
  revert i; induction l as [|a l IH]; intros i; cbn; [discriminate|].
  destruct (em_eqb a em) eqn:E.
  - apply em_eqb_eq in E. intros H. injection H as <-. subst. exists [], l. auto.
  - destruct (index_of l em) as [j|]; [|discriminate]. intros H; injection H as <-.
    destruct (IH j eq_refl) as (l1 & l2 & -> & HL & HN). exists (a :: l1), l2. cbn. repeat split; auto.
    intros [Ha|]; auto. apply em_eqb_eq in Ha. congruence.
Qed.

(** ** Set semantics of the updates *)
Definition pair_eqb (p q : gostring * gostring) : bool := seqb (fst p) (fst q) && seqb (snd p) (snd q).
Lemma pair_eqb_eq p q : pair_eqb p q = true <-> p = q.
Proof.
  unfold pair_eqb. rewrite andb_true_iff, !seqb_eq. destruct p, q; cbn.
  split; [intros [-> ->]; auto|intros H; injection H; auto].
Qed.
Definition pair_mem (p : gostring * gostring) (l : prefix_subs) : bool := existsb (pair_eqb p) l.
Lemma pair_mem_In p l : pair_mem p l = true <-> In p l.
Proof.
  unfold pair_mem. rewrite existsb_exists. split.
  - intros [q [Hq E]]. apply pair_eqb_eq in E. subst; auto.
  - intros H. exists p. split; auto. apply pair_eqb_eq; auto.
Qed.
Definition padd1 (l : prefix_subs) p := if pair_mem p l then l else l ++ [p].
Definition pdel1 (l : prefix_subs) p := filter (fun q => negb (pair_eqb q p)) l.

Lemma list_of_In p ps : In {| em_filter := new_filter (fst p) 0; em_uri := snd p |} (list_of ps) <-> In p ps.
Proof.
  unfold list_of. rewrite in_map_iff. split.
  - intros [q [E H]]. apply list_of_inj in E. subst; auto.
  - intros H. exists p; auto.
Qed.
Lemma list_add1_of ps kv : flat_entry kv ->
  list_add1 (list_of ps) kv = list_of (padd1 ps (fst kv, ps_uri (snd kv))).
Proof.
  destruct kv as [k [o u s]]. intros [H1 H2]. cbn in *. subst. unfold list_add1, padd1, em_of. cbn [fst snd ps_offset ps_uri].
  pose proof (list_of_In (k, u) ps) as HI. cbn [fst snd] in HI.
  destruct (index_of _ _) eqn:E.
  - destruct (pair_mem (k, u) ps) eqn:EM; auto. exfalso.
    apply index_of_some in E. destruct E as (l1 & l2 & E & _).
    assert (In (k, u) ps) by (apply HI; rewrite E; apply in_elt).
    apply pair_mem_In in H. congruence.
  - apply index_of_none in E. destruct (pair_mem (k, u) ps) eqn:EM.
    + apply pair_mem_In in EM. tauto.
    + unfold list_of. rewrite map_app. reflexivity.
Qed.
Lemma filter_all {A} (f : A -> bool) l : (forall a, In a l -> f a = true) -> filter f l = l.
Proof. induction l as [|a l IH]; cbn; intros H; auto. rewrite H, IH; auto. Qed.
Lemma list_del1_of ps kv : flat_entry kv -> NoDup ps ->
  list_del1 (list_of ps) kv = list_of (pdel1 ps (fst kv, ps_uri (snd kv))).
Proof.
  destruct kv as [k [o u s]]. intros [H1 H2] HN. cbn in *. subst.
  unfold list_del1, pdel1, em_of. cbn [fst snd ps_offset ps_uri].
  pose proof (list_of_In (k, u) ps) as HI. cbn [fst snd] in HI.
  assert (forall l, ~ In (k, u) l -> filter (fun q => negb (pair_eqb q (k, u))) l = l) as HF.
  { intros l Hl. apply filter_all. intros a Ha. destruct (pair_eqb a (k, u)) eqn:E; auto.
    apply pair_eqb_eq in E. congruence. }
  destruct (index_of _ _) as [i|] eqn:E.
  - apply index_of_some in E. destruct E as (l1 & l2 & E & HL & HN1).
    unfold list_of in E. apply map_eq_app in E. destruct E as (p1 & p2 & -> & <- & E2).
    destruct p2 as [|p p2]; [discriminate|]. cbn in E2. injection E2 as E2 E3 E4.
    assert (p = (k, u)) as ->.
    { apply list_of_inj. cbn [fst snd]. congruence. }
    rewrite map_length in HL. subst i.
    apply NoDup_remove_2 in HN. rewrite in_app_iff in HN.
    rewrite filter_app. cbn [filter]. rewrite (proj2 (pair_eqb_eq _ _) eq_refl). cbn [negb].
    rewrite !HF by tauto.
    unfold list_of. rewrite !map_app. cbn [map fst snd].
    rewrite firstn_app, map_length, Nat.sub_diag, firstn_O, app_nil_r.
    rewrite firstn_all2 by (rewrite map_length; lia).
    rewrite skipn_app, map_length, skipn_all2 by (rewrite map_length; lia).
    replace (S (length p1) - length p1) with 1 by lia. reflexivity.
  - apply index_of_none in E. rewrite HF by tauto. reflexivity.
Qed.

Definition pkeys_add (ps qs : prefix_subs) := fold_left padd1 qs ps.
Lemma pkeys_add_eq ps qs : NoDup qs ->
  pkeys_add ps qs = ps ++ filter (fun q => negb (pair_mem q ps)) qs.
Proof.
  unfold pkeys_add. revert ps; induction qs as [|q qs IH]; intros ps HN; cbn [fold_left filter].
  - rewrite app_nil_r; auto.
  - inversion HN; subst. rewrite IH by auto. unfold padd1.
    destruct (pair_mem q ps) eqn:E; cbn [negb]; auto.
    rewrite <- app_assoc. cbn. f_equal. f_equal.
    apply filter_ext_in. intros a Ha. f_equal. unfold pair_mem. rewrite existsb_app. cbn.
    rewrite orb_false_r. destruct (pair_eqb a q) eqn:Ea; [|rewrite orb_false_r; auto].
    apply pair_eqb_eq in Ea. subst. tauto.
Qed.
Definition pkeys_del (ps qs : prefix_subs) := fold_left pdel1 qs ps.
Lemma pkeys_del_eq ps qs : pkeys_del ps qs = filter (fun p => negb (pair_mem p qs)) ps.
Proof.
  unfold pkeys_del. revert ps; induction qs as [|q qs IH]; intros ps; cbn [fold_left].
  - symmetry. apply filter_all. auto.
  - rewrite IH. unfold pdel1.
    induction ps as [|p ps IHp]; cbn [filter pair_mem existsb]; auto.
    destruct (pair_eqb p q) eqn:E; cbn [negb filter orb]; auto.
    unfold pair_mem in *. destruct (existsb (pair_eqb p) qs); cbn [negb]; rewrite IHp; auto.
Qed.
Lemma NoDup_filter {A} (f : A -> bool) l : NoDup l -> NoDup (filter f l).
Proof.
  induction 1 as [|a l Ha _ IH]; cbn; [constructor|]. destruct (f a); auto.
  constructor; auto. rewrite filter_In. tauto.
Qed.
Lemma NoDup_app {A} (l r : list A) : NoDup l -> NoDup r -> (forall a, In a l -> ~ In a r) -> NoDup (l ++ r).
Proof.
  induction 1 as [|a l Ha _ IH]; cbn; intros Hr HD; auto. constructor.
  - rewrite in_app_iff. intros [|]; auto. apply (HD a); auto.
  - apply IH; auto.
Qed.
Lemma entries_NoDup b : flat b -> NoDup (entries b).
Proof.
  intros [W _]. apply ssorted_NoDup in W. fold (mkeys b) in W. rewrite <- entries_keys in W.
  eapply NoDup_map_inv; eauto.
Qed.
Lemma pkeys_add_NoDup ps qs : NoDup ps -> NoDup qs -> NoDup (pkeys_add ps qs).
Proof.
  intros H1 H2. rewrite pkeys_add_eq by auto. apply NoDup_app; auto using NoDup_filter.
  intros a Ha. rewrite filter_In. intros [_ H]. apply negb_true_iff in H.
  apply pair_mem_In in Ha. congruence.
Qed.
Lemma pkeys_del_NoDup ps qs : NoDup ps -> NoDup (pkeys_del ps qs).
Proof. intros. rewrite pkeys_del_eq. apply NoDup_filter; auto. Qed.

Lemma fold_list_add1 b ps : Forall flat_entry b ->
  fold_left list_add1 b (list_of ps) = list_of (pkeys_add ps (entries b)).
Proof.
  unfold pkeys_add. revert ps; induction b as [|kv b IH]; intros ps HF; cbn; auto.
  inversion HF; subst. rewrite list_add1_of, IH by auto. reflexivity.
Qed.
Lemma fold_list_del1 b ps : Forall flat_entry b -> NoDup ps ->
  fold_left list_del1 b (list_of ps) = list_of (pkeys_del ps (entries b)).
Proof.
  unfold pkeys_del. revert ps; induction b as [|kv b IH]; intros ps HF HN; cbn; auto.
  inversion HF; subst. rewrite list_del1_of, IH by (auto; apply NoDup_filter; auto). reflexivity.
Qed.
Lemma list_add_of E ps sub : list_add E (list_of ps) sub = list_of (pkeys_add ps (entries (to_byte_subs E sub))).
Proof. apply fold_list_add1, to_byte_subs_flat. Qed.
Lemma list_del_of E ps sub : NoDup ps ->
  list_del E (list_of ps) sub = list_of (pkeys_del ps (entries (to_byte_subs E sub))).
Proof. apply fold_list_del1, to_byte_subs_flat. Qed.
Lemma new_list_of E sub : new_list E sub = list_of (entries (to_byte_subs E sub)).
Proof. unfold new_list, list_of, entries. rewrite map_map. reflexivity. Qed.

(** ** Histories *)

Lemma list_run_of E sub0 ops : exists ps, NoDup ps /\ list_run E sub0 ops = list_of ps.
Proof.
  unfold list_run. rewrite new_list_of.
  pose proof (entries_NoDup _ (to_byte_subs_flat E sub0)) as HN.
  revert HN. generalize (entries (to_byte_subs E sub0)).
  induction ops as [|[s|s] ops IH]; intros ps HN; cbn [fold_left list_update].
  - eauto.
  - rewrite list_add_of. apply IH. apply pkeys_add_NoDup; auto using entries_NoDup, to_byte_subs_flat.
  - rewrite list_del_of by auto. apply IH. apply pkeys_del_NoDup; auto.
Qed.

Lemma list_update_spec E sub0 ops sub : let l := list_run E sub0 ops in
  NoDup (list_pairs l)
  /\ list_pairs (list_add E l sub)
     = list_pairs l ++ filter (fun q => negb (pair_mem q (list_pairs l))) (entries (to_byte_subs E sub))
  /\ list_pairs (list_del E l sub)
     = filter (fun q => negb (pair_mem q (entries (to_byte_subs E sub)))) (list_pairs l).
Proof.
  intros l. unfold l. destruct (list_run_of E sub0 ops) as (ps & HN & ->).
  rewrite list_add_of, list_del_of, !list_pairs_of by auto.
  rewrite pkeys_add_eq, pkeys_del_eq by auto using entries_NoDup, to_byte_subs_flat. auto.
Qed.
Lemma list_add_idem E sub0 ops sub : let l := list_run E sub0 ops in
  list_add E (list_add E l sub) sub = list_add E l sub.
Proof.
  intros l. unfold l. destruct (list_run_of E sub0 ops) as (ps & HN & ->).
  rewrite !list_add_of. f_equal. set (qs := entries _).
  assert (NoDup qs) by (apply entries_NoDup, to_byte_subs_flat).
  rewrite (pkeys_add_eq (pkeys_add ps qs)) by auto.
  replace (filter _ qs) with (@nil (gostring * gostring)); [apply app_nil_r|].
  symmetry. rewrite pkeys_add_eq by auto.
  assert (forall (f : gostring * gostring -> bool) l, (forall a, In a l -> f a = false) -> filter f l = []) as HF.
  { clear. intros f l. induction l as [|a l IH]; cbn; intros H; auto. rewrite H; auto. }
  apply HF. intros a Ha. apply negb_false_iff, pair_mem_In. rewrite in_app_iff.
  destruct (pair_mem a ps) eqn:E'; [left; apply pair_mem_In; auto|].
  right. apply filter_In. split; auto. rewrite E'. reflexivity.
Qed.
Lemma list_del_absent E sub0 ops sub : let l := list_run E sub0 ops in
  (forall p, In p (entries (to_byte_subs E sub)) -> ~ In p (list_pairs l)) -> list_del E l sub = l.
Proof.
  intros l. unfold l. destruct (list_run_of E sub0 ops) as (ps & HN & ->).
  rewrite list_pairs_of. intros H. rewrite list_del_of by auto. f_equal.
  rewrite pkeys_del_eq. apply filter_all. intros a Ha. apply negb_true_iff.
  destruct (pair_mem a _) eqn:E'; auto. apply pair_mem_In in E'. exfalso. eapply H; eauto.
Qed.

(** ** Search *)
Lemma is_bitstring_pattern s : is_bitstring s -> is_pattern s.
Proof. apply Forall_impl. intros c [->| ->]; auto. Qed.

Lemma list_matches_of ps id : Forall is_bitstring (map fst ps) -> wf_bytes id ->
  decides id (map fst ps) ->
  exists uris, reported id ps uris /\ list_matches (list_of ps) id = Ok uris.
Proof.
  induction ps as [|[k u] ps IH]; intros HB Hw HD; cbn in *.
  - exists []. split; [constructor|auto].
  - inversion HB; subst.
    destruct IH as (uris & HR & HM); auto. { intros x Hx. apply HD. cbn; auto. }
    assert (~ runs_out id k) as Hk by (apply HD; cbn; auto).
    apply is_bitstring_pattern in H1.
    unfold list_of in HM |- *. cbn [map list_matches em_filter em_uri fst snd].
    destruct (match_filter (new_filter k 0) id) as [m| |] eqn:E.
    + destruct m.
      * exists (u :: uris). apply match_filter_true in E; auto. split; [constructor; [apply E|auto]|].
        cbn. rewrite HM. reflexivity.
      * exists uris. split; [|cbn; rewrite HM; reflexivity]. apply reported_no; auto.
        intros Hp. assert (bytes_needed k 0 <= length id) as HN.
        { destruct (Nat.le_gt_cases (bytes_needed k 0) (length id)); auto. exfalso. apply Hk.
          split; auto. intros i c b Hc Hb. destruct (Hp _ _ Hc) as [b' [Hb' Ha]]. congruence. }
        assert (match_filter (new_filter k 0) id = Ok true) by (apply match_filter_true; auto).
        congruence.
    + exfalso. eapply match_filter_not_err; eauto.
    + exfalso. apply match_filter_panic in E; auto.
Qed.
Lemma list_matches_panic ps id : Forall is_bitstring (map fst ps) -> wf_bytes id ->
  list_matches (list_of ps) id = Panic <-> exists k, In k (map fst ps) /\ runs_out id k.
Proof.
  intros HB Hw. split.
  - induction ps as [|[k u] ps IH]; cbn in *; [discriminate|]. inversion HB; subst.
    unfold list_of in *. cbn [map list_matches em_filter em_uri fst snd].
    destruct (match_filter (new_filter k 0) id) as [m| |] eqn:E; cbn.
    + destruct (list_matches _ id) eqn:E2; cbn; try discriminate. intros _.
      destruct IH as (x & ? & ?); eauto.
    + discriminate.
    + intros _. apply match_filter_panic in E; auto using is_bitstring_pattern. exists k; split; auto.
  - induction ps as [|[k u] ps IH]; cbn in *; [intros (? & [] & _)|]. inversion HB; subst.
    unfold list_of in *. cbn [map list_matches em_filter em_uri fst snd].
    intros (x & [<-|Hx] & Hr).
    + apply match_filter_panic in Hr; auto using is_bitstring_pattern. cbn [fst snd] in *.
      rewrite Hr. reflexivity.
    + rewrite IH by eauto.
      destruct (match_filter (new_filter k 0) id) as [m| |] eqn:E; cbn; auto.
      exfalso. eapply match_filter_not_err; [| |eauto]; auto using is_bitstring_pattern.
Qed.
Lemma finish_search_answers pc id uris : answers (translate pc id) uris (finish_search pc id uris).
Proof.
  destruct uris as [|u uris]; [left; auto|right]. split; [discriminate|]. unfold finish_search.
  destruct (translate pc id); auto.
Qed.
Lemma list_search_of ps pc id : Forall is_bitstring (map fst ps) -> wf_bytes id -> decides id (map fst ps) ->
  exists uris, reported id ps uris /\ answers (translate pc id) uris (list_search (list_of ps) pc id).
Proof.
  intros HB Hw HD. destruct (list_matches_of ps id HB Hw HD) as (uris & HR & HM).
  exists uris. split; auto. unfold list_search. rewrite HM. cbn. apply finish_search_answers.
Qed.
Lemma list_search_panic ps pc id : Forall is_bitstring (map fst ps) -> wf_bytes id ->
  (exists k, In k (map fst ps) /\ runs_out id k) -> list_search (list_of ps) pc id = Panic.
Proof. intros HB Hw H. apply list_matches_panic in H; auto. unfold list_search. rewrite H. reflexivity. Qed.

Lemma list_run_search E sub0 ops pc id : let l := list_run E sub0 ops in
  Forall is_bitstring (map fst (list_pairs l)) -> wf_bytes id -> decides id (map fst (list_pairs l)) ->
  exists uris, reported id (list_pairs l) uris /\ answers (translate pc id) uris (list_search l pc id).
Proof.
  intros l. unfold l. destruct (list_run_of E sub0 ops) as (ps & _ & ->). rewrite list_pairs_of.
  apply list_search_of.
Qed.
Lemma list_run_search_panic E sub0 ops pc id : let l := list_run E sub0 ops in
  Forall is_bitstring (map fst (list_pairs l)) -> wf_bytes id ->
  (exists k, In k (map fst (list_pairs l)) /\ runs_out id k) -> list_search l pc id = Panic.
Proof.
  intros l. unfold l. destruct (list_run_of E sub0 ops) as (ps & _ & ->). rewrite list_pairs_of.
  apply list_search_panic.
Qed.