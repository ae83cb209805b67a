(** ToByteSubscriptions: the last request for a prefix wins; when the order matters. *)
From Verif Require Import GoBase BinUtil MFilter MTdtEpc MTdtIso MTdtCore MSubs MList.
From Verif Require Import PBase Spec PFilter PSubs PList PMatch PSubs2.
From Verif Require Export SpecSubs.
From Coq Require Import Lia Permutation.

Lemma stored_pairs_app E a b : stored_pairs E (a ++ b) = stored_pairs E a ++ stored_pairs E b.
Proof. apply flat_map_app. Qed.
Lemma last_uri_app s a b : last_uri s (a ++ b) = match last_uri s b with Some u => Some u | None => last_uri s a end.
Proof.
  induction a as [|[k u] a IH]; cbn [app last_uri]; [destruct (last_uri s b); auto|].
  rewrite IH. destruct (last_uri s b); auto.
Qed.
Lemma last_uri_wants E sub s : last_uri s (stored_pairs E sub) = None <-> forall u, ~ wants E sub s u.
Proof.
  rewrite last_uri_none. split.
  - intros H u W. apply H. apply stored_pairs_wants in W. apply in_map with (f := fst) in W. auto.
  - intros H Hi. apply in_map_iff in Hi. destruct Hi as ([k u] & X & Hi). cbn in X. subst k. apply (H u). apply stored_pairs_wants; auto.
Qed.
Lemma wants_one E u pats s v : wants E [(u, pats)] s v <-> v = u /\ exists pat, In pat pats /\ pattern_prefix E pat = Some s.
Proof.
  unfold wants. split.
  - intros (ps & pat & [X|[]] & H). injection X as <- <-. eauto.
  - intros (-> & pat & H). exists pats, pat. split; [left; auto|auto].
Qed.

Lemma to_byte_last E sub s u : In (s, u) (entries (to_byte_subs E sub)) <->
  exists sub1 pats sub2, sub = sub1 ++ (u, pats) :: sub2 /\
    (exists pat, In pat pats /\ pattern_prefix E pat = Some s) /\ forall u', ~ wants E sub2 s u'.
Proof.
  rewrite entries_In by apply to_byte_subs_flat. rewrite to_byte_subs_get.
  transitivity (last_uri s (stored_pairs E sub) = Some u).
  { destruct (last_uri s (stored_pairs E sub)); split; congruence. }
  split.
  - induction sub as [|[v pats] sub IH]; [discriminate|]. change ((v, pats) :: sub) with ([(v, pats)] ++ sub).
    rewrite stored_pairs_app, last_uri_app. destruct (last_uri s (stored_pairs E sub)) as [w|] eqn:EL.
    + intros H. injection H as ->. destruct (IH eq_refl) as (s1 & ps & s2 & -> & H2 & H3). exists ((v, pats) :: s1), ps, s2. auto.
    + intros H. apply last_uri_In in H. apply stored_pairs_wants, wants_one in H. destruct H as [-> H].
      exists [], pats, sub. split; auto. split; auto. apply last_uri_wants; auto.
  - intros (s1 & pats & s2 & -> & H2 & H3). change ((u, pats) :: s2) with ([(u, pats)] ++ s2).
    rewrite !stored_pairs_app, !last_uri_app. apply last_uri_wants in H3. rewrite H3.
    destruct (last_uri s (stored_pairs E [(u, pats)])) as [w|] eqn:EL.
    + apply last_uri_In, stored_pairs_wants, wants_one in EL. destruct EL as [-> _]. reflexivity.
    + exfalso. apply (proj1 (last_uri_wants E [(u, pats)] s) EL u). apply wants_one. auto.
Qed.

Lemma wants_last E sub s u : wants E sub s u ->
  exists sub', Permutation sub sub' /\ In (s, u) (entries (to_byte_subs E sub')).
Proof.
  intros (pats & pat & H1 & H2 & H3). apply in_split in H1. destruct H1 as (s1 & s2 & ->).
  exists ((s1 ++ s2) ++ [(u, pats)]). split.
  - rewrite <- Permutation_middle. apply Permutation_cons_append.
  - apply to_byte_last. exists (s1 ++ s2), pats, []. split; auto. split; [eauto|]. intros u' (ps & p & [] & _).
Qed.
Lemma entries_fun b s u u' : flat b -> In (s, u) (entries b) -> In (s, u') (entries b) -> u = u'.
Proof. intros F H1 H2. apply entries_In in H1, H2; auto. congruence. Qed.

Lemma order_matters E sub :
  (forall sub', Permutation sub sub' -> to_byte_subs E sub' = to_byte_subs E sub) <-> unshared E sub.
Proof.
  split; [|intros H sub' HP; symmetry; apply to_byte_order; auto].
  intros H s u u' W W'. apply wants_last in W, W'. destruct W as (s1 & P1 & I1). destruct W' as (s2 & P2 & I2).
  rewrite (H s1 P1) in I1. rewrite (H s2 P2) in I2. eapply entries_fun; eauto using to_byte_subs_flat.
Qed.
Lemma nothing_lost E sub :
  (forall s u, wants E sub s u -> In (s, u) (entries (to_byte_subs E sub))) <-> unshared E sub.
Proof.
  split; [|intros H s u W; apply to_byte_unshared; auto].
  intros H s u u' W W'. eapply entries_fun; eauto using to_byte_subs_flat.
Qed.

(** ** Which patterns stand for the empty prefix *)
Lemma runes_nil l : runes_to_6bin l = [] <-> l = [].
Proof. destruct l; cbn; split; auto; discriminate. Qed.

Lemma app_nil_iff (a b : gostring) : a ++ b = [] <-> a = [] /\ b = [].
Proof. split; [apply app_eq_nil|]. intros [-> ->]. reflexivity. Qed.

Lemma split_on_cons c s : split_on c s <> [].
Proof. destruct s; cbn; try discriminate. destruct (Ascii.eqb a c); [discriminate|]. destruct (split_on c s); discriminate. Qed.

Lemma prefix_string_nil E t fields : fields <> [] ->
  make_prefix_filter_string E t fields = Ok [] <->
  ((t = str "iso17363" /\ (length fields <= 3)%nat) \/ (t = str "iso17365" /\ (length fields <= 4)%nat)) /\
    Forall (fun f => f = []) fields.
Proof.
  intros NE. unfold make_prefix_filter_string.
  assert (forall x y, seqb x y = true <-> x = y) as SE by (intros; apply seqb_eq).
  destruct (seqb t (str "giai-96")) eqn:E1.
  { apply SE in E1. subst t. split; [|intros [[[H _]|[H _]] _]; discriminate].
    destruct fields as [|? [|? [|? [|? ?]]]]; cbn; discriminate. }
  destruct (seqb t (str "grai-96")) eqn:E2.
  { apply SE in E2. subst t. split; [|intros [[[H _]|[H _]] _]; discriminate].
    destruct fields as [|? [|? [|? [|? [|? ?]]]]]; cbn; discriminate. }
  destruct (seqb t (str "sgtin-96")) eqn:E3.
  { apply SE in E3. subst t. split; [|intros [[[H _]|[H _]] _]; discriminate].
    destruct fields as [|? [|? [|? [|? [|? ?]]]]]; cbn; discriminate. }
  destruct (seqb t (str "sscc-96")) eqn:E4.
  { apply SE in E4. subst t. split; [|intros [[[H _]|[H _]] _]; discriminate].
    destruct fields as [|? [|? [|? [|? ?]]]]; cbn; discriminate. }
  destruct (seqb t (str "iso17363")) eqn:E5.
  { apply SE in E5. subst t. transitivity ((length fields <= 3)%nat /\ Forall (fun f => f = []) fields).
    2:{ split; [intros [H1 H2]; auto|]. intros [[[_ H]|[H _]] H2]; [auto|discriminate]. }
    destruct fields as [|a [|b [|c [|d r]]]]; [congruence| | | |]; cbn [new_prefix_filter_iso17363 length].
    - rewrite Forall_cons_iff. rewrite <- (runes_nil a). split; [intros H; injection H as H; auto|intros (_ & H & _); rewrite H; auto].
    - rewrite !Forall_cons_iff. rewrite <- (runes_nil a), <- (runes_nil b). split.
      + intros H. injection H as H. apply app_nil_iff in H. intuition.
      + intros (_ & H & H2 & _). rewrite H, H2. auto.
    - rewrite !Forall_cons_iff. rewrite <- (runes_nil a), <- (runes_nil b), <- (runes_nil c). split.
      + intros H. injection H as H. rewrite !app_nil_iff in H. intuition.
      + intros (_ & H & H2 & H3 & _). rewrite H, H2, H3. auto.
    - split; [|intros [H _]; lia]. destruct (Nat.ltb 6 _); [discriminate|].
      unfold get_iso6346_cd. destruct (negb _) eqn:EN; cbn [bind]; [discriminate|].
      destruct r; [|discriminate]. intros H. exfalso. injection H as H. apply app_nil_iff in H. destruct H as [_ H]. apply app_nil_iff in H. destruct H as [_ H].
      apply app_nil_iff in H. destruct H as [_ H]. apply (proj1 (runes_nil _)) in H. apply app_nil_iff in H. destruct H as [H _].
      destruct (Nat.ltb (length d) 6) eqn:EL; [|apply Nat.ltb_ge in EL; subst d; cbn in EL; lia].
      apply app_nil_iff in H. destruct H as [H ->]. cbn in H. discriminate. }
  destruct (seqb t (str "iso17365")) eqn:E6.
  { apply SE in E6. subst t. transitivity ((length fields <= 4)%nat /\ Forall (fun f => f = []) fields).
    2:{ split; [intros [H1 H2]; auto|]. intros [[[H _]|[_ H]] H2]; [discriminate|auto]. }
    destruct fields as [|a [|b [|c [|d [|e r]]]]]; [congruence| | | | |]; cbn [new_prefix_filter_iso17365 length].
    - rewrite Forall_cons_iff. rewrite <- (runes_nil a). split; [intros H; injection H as H; auto|intros (_ & H & _); rewrite H; auto].
    - rewrite !Forall_cons_iff. rewrite <- (runes_nil a), <- (runes_nil b). split.
      + intros H. injection H as H. apply app_nil_iff in H. intuition.
      + intros (_ & H & H2 & _). rewrite H, H2. auto.
    - rewrite !Forall_cons_iff. rewrite <- (runes_nil a), <- (runes_nil b), <- (runes_nil c). split.
      + intros H. injection H as H. rewrite !app_nil_iff in H. intuition.
      + intros (_ & H & H2 & H3 & _). rewrite H, H2, H3. auto.
    - rewrite !Forall_cons_iff. rewrite <- (runes_nil a), <- (runes_nil b), <- (runes_nil c), <- (runes_nil d). split.
      + intros H. injection H as H. rewrite !app_nil_iff in H. intuition.
      + intros (_ & H & H2 & H3 & H4 & _). rewrite H, H2, H3, H4. auto.
    - split; [discriminate|intros [H _]; lia]. }
  split; [discriminate|]. intros [[[H _]|[H _]] _]; subst t; discriminate.
Qed.

Lemma empty_prefix E pat : pattern_prefix E pat = Some [] <->
  (pattern_parts pat <> None /\ rejected E pat) \/ asks_nothing pat.
Proof.
  unfold asks_nothing, rejected, pattern_prefix, pattern_parts. unfold urn_pat.
  destruct (split_on ccolon _) as [|t [|fs [|? ?]]].
  1,2,4: split; [discriminate|]; intros [[H _]|(? & ? & H & _)]; congruence.
  pose proof (split_on_cons cdot (to_upper fs)) as NE. pose proof (prefix_string_nil E t _ NE) as HP.
  pose proof (make_prefix_no_panic E t (split_on cdot (to_upper fs))) as NP.
  set (fields := split_on cdot (to_upper fs)) in *. split.
  - intros H. destruct (make_prefix_filter_string E t fields) as [s| |] eqn:EM; [|left; split; [discriminate|auto]|congruence].
    right. injection H as ->. exists t, fields. split; auto. apply HP; auto.
  - intros [[_ H]|(t' & f' & H & H2)]; [rewrite H; auto|]. injection H as <- <-. apply HP in H2. rewrite H2. auto.
Qed.