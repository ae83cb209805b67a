(** The limits on updates of a splay tree are exact. *)
From Verif Require Import GoBase BinUtil MFilter MEngine MTdtCore MSubs MList MPatricia MSplay.
From Verif Require Import PBase Spec PFilter PEngine PSubs PList PMatch PPatricia PPatriciaHist PExamples PLink PSplay PSplayHist PSplayExact SpecAnswers.
From Coq Require Import Lia.

Lemma calm_snoc es es' : forall m, calm m (es ++ es') <-> calm m es /\ calm (after m es) es'.
Proof.
  induction es as [|e es IH]; intros m; cbn [app].
  - split; [intros H; split; [constructor|exact H]|intros [_ H]; exact H].
  - split.
    + intros H. inversion H; subst; match goal with X : calm _ (_ ++ _) |- _ => apply IH in X; destruct X as [X1 X2] end; (split; [|exact X2]); [apply calm_read|apply calm_sub|apply calm_unsub]; auto.
    + intros [H1 H2]. inversion H1; subst; [apply calm_read|apply calm_sub|apply calm_unsub]; auto; apply IH; split; auto.
Qed.

Definition nhits (id : list N) (m : prefix_subs) : nat := length (filter (hit id) m).
Lemma nhits_cons id x m : nhits id (x :: m) = (if hit id x then 1 else 0) + nhits id m.
Proof. unfold nhits. cbn [filter]. destruct (hit id x); reflexivity. Qed.
Lemma hit_fst id k u u' : hit id (k, u) = hit id (k, u').
Proof. reflexivity. Qed.
Lemma nhits_new id k u m : ~ In k (map fst m) -> hit id (k, u) = true -> nhits id (mset k u m) = S (nhits id m).
Proof.
  induction m as [|[k' v] m IH]; intros N H; cbn [mset].
  - rewrite nhits_cons, H. reflexivity.
  - destruct (seqb_spec k k') as [->|]; [cbn in N; tauto|]. destruct (sltb k k'); [rewrite nhits_cons, H; reflexivity|].
    rewrite !nhits_cons, IH; auto; cbn in N; tauto || lia.
Qed.
Lemma nhits_old id k u m : ssorted (map fst m) -> In k (map fst m) -> nhits id (mset k u m) = nhits id m.
Proof.
  induction m as [|[k' v] m IH]; intros S H; [destruct H|]. cbn [mset]. destruct (seqb_spec k k') as [->|Hn]; [rewrite !nhits_cons; reflexivity|].
  cbn in H. destruct H as [H|H]; [congruence|]. cbn [map fst] in S. apply Sorted.StronglySorted_inv in S. destruct S as [S HL].
  destruct (sltb k k') eqn:E; [|rewrite !nhits_cons, IH; auto].
  exfalso. rewrite Forall_forall in HL. specialize (HL k H). apply sltb_asym in HL. congruence.
Qed.
Lemma nhits_del id k m : In k (map fst m) -> hit id (k, []) = true -> S (nhits id (mdel k m)) = nhits id m.
Proof.
  induction m as [|[k' v] m IH]; intros H Hh; [destruct H|]. cbn [mdel]. destruct (seqb_spec k k') as [->|Hn].
  - rewrite nhits_cons. change (hit id (k', v)) with (hit id (k', [])). rewrite Hh. reflexivity.
  - cbn in H. destruct H as [H|H]; [congruence|]. rewrite !nhits_cons, <- IH by auto. lia.
Qed.
Lemma reported_count id m uris : Forall is_bitstring (map fst m) -> reported id m uris -> length uris = nhits id m.
Proof. intros HB H. rewrite (reported_fun _ _ _ _ H (reported_hits id m HB)). apply map_length. Qed.
Lemma answers_same id uris uris' r : answers (translate [] id) uris r -> answers (translate [] id) uris' r -> uris = uris'.
Proof. intros [[-> A]|[N A]] [[-> B]|[M B]]; cbn [translate] in *; congruence. Qed.

Definition branch_dec_b (keys : list gostring) (k : gostring) : bool :=
  forallb (fun a => forallb (fun c => negb (ext_b a k && ext_b c k) || existsb (fun g => ext_b g k && has_prefix a g && has_prefix c g) keys) keys) keys.
Lemma branch_dec keys k : one_branch_above keys k <-> branch_dec_b keys k = true.
Proof.
  unfold one_branch_above, branch_dec_b. rewrite forallb_forall. split.
  - intros H a Ha. apply forallb_forall. intros c Hc. destruct (ext_b a k) eqn:E1; [|reflexivity]. destruct (ext_b c k) eqn:E2; [|reflexivity]. cbn [andb negb orb].
    apply ext_b_spec in E1, E2. destruct (H a c Ha Hc E1 E2) as (g & G1 & G2 & G3 & G4). apply existsb_exists. exists g. split; auto.
    rewrite !andb_true_iff. split; [split|]; [apply ext_b_spec|apply has_prefix_spec|apply has_prefix_spec]; auto.
  - intros H a c Ha Hc E1 E2. specialize (H a Ha). rewrite forallb_forall in H. specialize (H c Hc).
    apply ext_b_spec in E1, E2. rewrite E1, E2 in H. cbn [andb negb orb] in H. apply existsb_exists in H. destruct H as (g & G1 & H).
    rewrite !andb_true_iff in H. destruct H as [[G2 G3] G4]. exists g. split; auto. split; [apply ext_b_spec; auto|]. split; apply has_prefix_spec; auto.
Qed.

Lemma in_b k keys : existsb (seqb k) keys = true -> In k keys.
Proof. intros H. apply existsb_exists in H. destruct H as (x & Hx & E). destruct (seqb_spec k x); [subst; auto|discriminate]. Qed.
Lemma not_in_b k keys : existsb (seqb k) keys = false -> ~ In k keys.
Proof. intros H HI. assert (existsb (seqb k) keys = true); [|congruence]. apply existsb_exists. exists k. rewrite seqb_refl. auto. Qed.

Lemma calm_bit_changes cs : forall m, calm m (map Change cs) -> Forall bit_change cs.
Proof. induction cs as [|c cs IH]; intros m H; [constructor|]. cbn [map] in H. inversion H; subst; constructor; eauto. Qed.

Section Exact.
  Context (E : env) (sub0 : subscriptions).
  Let b := to_byte_subs E sub0.
  Context (Hn : b <> []) (HB : Forall is_bitstring (mkeys b)).

  Lemma calm_run cs : calm (entries b) (events_of E cs) -> exists t, splay_run E sub0 cs = Ok t /\ sinv (after (entries b) (events_of E cs)) t.
  Proof.
    intros HC. destruct (new_splay_b_spec b (to_byte_subs_flat E sub0) Hn HB) as (t0 & E0 & I0).
    destruct (sinv_history _ _ _ I0 HC) as (t & Et & It). exists t. split; auto.
    unfold splay_run, new_splay. fold b. rewrite E0, fold_splay_call by discriminate. exact Et.
  Qed.
  Lemma calm_exact cs : calm (entries b) (events_of E cs) -> splay_exact_after E sub0 cs.
  Proof. intros HC pc id Hw HD. exact (splay_history E sub0 cs pc id Hn HB HC Hw HD). Qed.
  Lemma calm_bits cs : calm (entries b) (events_of E cs) -> ssorted (map fst (after (entries b) (events_of E cs))) /\ Forall is_bitstring (map fst (after (entries b) (events_of E cs))).
  Proof.
    intros HC. destruct (calm_run cs HC) as (t & _ & I). split; [apply I|]. apply Forall_forall. intros k Hk.
    apply in_map_iff in Hk. destruct Hk as (x & <- & Hx). apply I in Hx. eapply sentries_bits; eauto. apply I.
  Qed.
  Lemma witness k keys : is_bitstring k -> exists id, wf_bytes id /\ decides id keys /\ has_prefix (idstr id) k = true.
  Proof.
    intros Hk. destruct (long_enough keys) as (n & Hl). destruct (long_id k n Hk) as (id & Hw & HL & Hp). exists id.
    split; auto. split; [apply Hl; auto|apply has_prefix_spec; exact Hp].
  Qed.

  Lemma add_exact cs sub k u : calm (entries b) (events_of E cs) -> let m := after (entries b) (events_of E cs) in
    entries (to_byte_subs E sub) = [(k, u)] -> is_bitstring k ->
    (splay_exact_after E sub0 (cs ++ [SUpdate (Add sub)]) <-> In k (map fst m) \/ forall k', In k' (map fst m) -> ~ strictly_extends k' k).
  Proof.
    intros HC m HE Hk.
    assert (EV : events_of E (cs ++ [SUpdate (Add sub)]) = events_of E cs ++ [Change (Subscribe k u)]).
    { rewrite events_of_app. f_equal. cbn. rewrite HE. reflexivity. }
    split.
    - intros HX. destruct (in_dec gostring_eq_dec k (map fst m)) as [|NI]; [auto|right]. intros e He Hx.
      destruct (calm_bits cs HC) as [Srt Bits]. fold m in Srt, Bits.
      destruct (splay_misplaced E sub0 cs sub k u Hn HB HC HE Hk NI) as (t & t' & Et & Et' & A). fold b m in A.
      assert (is_bitstring e) as HBe by (rewrite Forall_forall in Bits; auto).
      destruct (witness e ((k :: map fst m) ++ map fst (mset k u m)) HBe) as (id & Hw & HD & Hp).
      destruct (A [] id Hw) as (uris & HA & HR & _); [intros x Hx'; apply HD; apply in_or_app; auto|].
      assert (reported id m uris) as HR1 by (apply HR; exists e; split; auto; split; auto; apply id_has_prefix_str; auto; apply has_prefix_spec; auto).
      unfold splay_exact_after in HX. rewrite EV, after_app in HX. fold b m in HX. cbn [after fold_left event_subs apply_change] in HX.
      destruct (HX [] id Hw) as (t2 & uris2 & Et2 & HR2 & HA2); [intros x Hx'; apply HD; apply in_or_app; auto|].
      assert (t2 = t') as ->.
      { unfold splay_run in *. rewrite fold_left_app, Et in Et2. cbn [fold_left splay_call bind] in Et2. congruence. }
      rewrite (answers_same id uris uris2 _ HA HA2) in HR1. apply reported_count in HR1; auto. apply reported_count in HR2.
      + rewrite nhits_new in HR2; auto; [lia|]. unfold hit. cbn [fst]. apply has_prefix_spec in Hp. apply has_prefix_spec. eapply prefix_trans; [apply Hx|exact Hp].
      + apply Forall_forall. intros x Hx'. apply keys_mset in Hx'. destruct Hx' as [->|Hx']; auto. rewrite Forall_forall in Bits. auto.
    - intros HM. apply calm_exact. rewrite EV. apply calm_snoc. split; auto. apply calm_sub; auto. constructor.
  Qed.
  Lemma delete_exact cs sub k u : calm (entries b) (events_of E cs) -> let m := after (entries b) (events_of E cs) in
    entries (to_byte_subs E sub) = [(k, u)] -> is_bitstring k ->
    (splay_exact_after E sub0 (cs ++ [SUpdate (Del sub)]) <->
     (In k (map fst m) -> one_branch_above (map fst m) k /\ exists k', In k' (map fst m) /\ k' <> k)).
  Proof.
    intros HC m HE Hk.
    assert (EV : events_of E (cs ++ [SUpdate (Del sub)]) = events_of E cs ++ [Change (Unsubscribe k)]).
    { rewrite events_of_app. f_equal. cbn. rewrite HE. reflexivity. }
    assert (MK : mkeys (to_byte_subs E sub) = [k]) by (rewrite <- entries_keys, HE; reflexivity).
    split.
    - intros HX HI. destruct (calm_bits cs HC) as [Srt Bits]. fold m in Srt, Bits.
      destruct (witness k (map fst m ++ map fst (mdel k m) ++ [k]) Hk) as (id & Hw & HD & Hp).
      assert (HIT : hit id (k, []) = true) by exact Hp.
      unfold splay_exact_after in HX. rewrite EV, after_app in HX. fold b m in HX. cbn [after fold_left event_subs apply_change] in HX.
      destruct (HX [] id Hw) as (t2 & uris2 & Et2 & HR2 & HA2); [intros x Hx'; apply HD; apply in_or_app; right; apply in_or_app; auto|].
      apply reported_count in HR2.
      2: { apply Forall_forall. intros x Hx'. apply in_map_iff in Hx'. destruct Hx' as ([x1 x2] & <- & Hx'). apply mdel_pairs in Hx'; auto. rewrite Forall_forall in Bits. apply Bits. apply in_map_iff. exists (x1, x2). tauto. }
      pose proof (nhits_del id k m HI HIT) as ND.
      assert (forall t t' uris m', splay_run E sub0 cs = Ok t -> splay_del E t sub = Ok t' -> reported id m' uris -> nhits id m' = nhits id m -> Forall is_bitstring (map fst m') ->
        answers (translate [] id) uris (drop_tree (splay_search t' [] id)) -> False) as NO.
      { intros t t' uris m' Et Et' HR EN HBm HA. assert (t2 = t') as ->.
        { unfold splay_run in *. rewrite fold_left_app, Et in Et2. cbn [fold_left splay_call bind] in Et2. congruence. }
        apply reported_count in HR; auto. rewrite (answers_same id uris uris2 _ HA HA2) in HR. lia. }
      split.
      + destruct (branch_dec_b (map fst m) k) eqn:EB; [apply branch_dec; auto|]. exfalso.
        destruct (splay_forked_delete E sub0 cs sub k Hn HB HC MK HI) as (t & t' & Et & Et' & A); [intros H; apply branch_dec in H; fold b m in H; congruence|].
        fold b m in A. destruct (A [] id Hw) as (uris & HR & HA); [intros x Hx'; apply HD; apply in_or_app; auto|].
        apply (NO t t' uris _ Et Et' HR); auto; [apply nhits_old; auto|].
        apply Forall_forall. intros x Hx'. apply keys_mset in Hx'. destruct Hx' as [->|Hx']; auto. rewrite Forall_forall in Bits. auto.
      + destruct m as [|[k1 u1] [|[k2 u2] m']] eqn:Em; [destruct HI| |].
        * exfalso. cbn in HI. destruct HI as [->|[]]. destruct (splay_last_delete E sub0 cs sub k u1 Hn HB HC Em MK) as (t & Et & Et' & A).
          destruct (A [] id Hw) as (uris & HR & HA); [intros x Hx'; apply HD; apply in_or_app; auto|].
          apply (NO t t uris _ Et Et' HR); auto.
        * apply ssorted_NoDup in Srt. cbn in Srt. inversion Srt as [|? ? N1 _]; subst. cbn in N1.
          destruct (gostring_eq_dec k1 k) as [->|]; [exists k2; cbn; split; auto; intros ->; tauto|exists k1; cbn; auto].
    - intros HM. apply calm_exact. rewrite EV. apply calm_snoc. split; auto. apply calm_unsub; auto. constructor.
  Qed.
  Lemma updates_exactly ops : one_by_one E ops -> Forall bit_change (changes_of E ops) ->
    ((forall done rest, ops = done ++ rest -> splay_exact_after E sub0 (map SUpdate done)) <-> calm (entries b) (map Change (changes_of E ops))).
  Proof.
    intros O S.
    assert (forall l, events_of E (map SUpdate l) = map Change (changes_of E l)) as EM.
    { induction l as [|op l IH]; [reflexivity|]. cbn. unfold events_of in IH. rewrite IH, map_app. reflexivity. }
    split.
    - induction ops as [|op ops IH] using rev_ind; intros HX; [constructor|].
      rewrite changes_of_app in S. apply Forall_app in S. destruct S as [S1 S2]. apply Forall_app in O. destruct O as [O1 O2].
      assert (calm (entries b) (events_of E (map SUpdate ops))) as HC.
      { rewrite EM. apply IH; auto. intros done rest ->. apply (HX done (rest ++ [op])). rewrite app_assoc. reflexivity. }
      inversion O2 as [|? ? [c Hc] _]; subst. rewrite changes_of_one, Hc in S2. inversion S2 as [|? ? Sc _]; subst.
      rewrite changes_of_app, changes_of_one, Hc, map_app. apply calm_snoc. split; [rewrite <- EM; exact HC|].
      specialize (HX (ops ++ [op]) [] (eq_sym (app_nil_r _))). rewrite map_app in HX. cbn [map] in HX. rewrite <- EM. cbn [map].
      destruct op as [s|s]; cbn [update_changes] in Hc; destruct (entries (to_byte_subs E s)) as [|[k u] [|]] eqn:EE; try discriminate; cbn [map fst snd] in Hc; injection Hc as <-.
      + apply calm_sub; [exact Sc| |constructor]. apply (add_exact _ s k u HC EE Sc). exact HX.
      + apply calm_unsub; [exact Sc| |constructor]. apply (delete_exact _ s k u HC EE Sc). exact HX.
    - intros HP done rest ->. rewrite changes_of_app, map_app in HP. apply calm_snoc in HP. destruct HP as [HP _]. rewrite <- EM in HP. apply calm_exact, HP.
  Qed.
End Exact.
