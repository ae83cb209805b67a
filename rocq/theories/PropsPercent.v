(** Property C91: the matching probability in the statistics. *)
From Verif Require Import GoBase MFloat MGenerator MFactory MSystem MStat TestVectors SpecFactory SpecStat PFactory PFloat3 PFactory10.
From Verif Require Import BinUtil MFilter MEngine MTdtCore MSubs MList PBase PStat PExamples PropsEngine PropsSplay PropsFactory PropsStat.
From Coq Require Import Lia.

(** The value that is recorded for [k] matches among [n] events is a percentage, a
    hundred for all of them. *)
Theorem C91_percentage : forall n k, (0 < n < 2 ^ 63)%N -> (k <= n)%N ->
  let p := percent (Z.of_N k) (Z.of_N n) in SFleb (f64 0) p = true /\ SFleb p (f64 100) = true /\ (k = n -> p = f64 100).
Proof.
  intros n k [N0 N1] L p. destruct (percent_bounds k n N1 ltac:(lia) L) as [A B]. split; [exact A|]. split; [exact B|].
  intros ->. apply percent_full; auto. lia.
Qed.
Print Assumptions C91_percentage.
(** And only for all of them, for counts below 2^53. *)
Theorem C91_hundred : forall n k, (0 < n < 2 ^ 53)%N -> (k <= n)%N -> percent (Z.of_N k) (Z.of_N n) = f64 100 <-> k = n.
Proof.
  intros n k [N0 N1] L. split.
  - intros E. destruct (N.eq_dec k n) as [|NE]; auto. destruct (percent_not_full k n N1 ltac:(lia)); auto.
  - intros ->. apply percent_full; [|lia]. unfold int64. eapply N.lt_trans; [exact N1|]. reflexivity.
Qed.
Print Assumptions C91_hundred.
Example C91_numbers : percent 1 4 = f64 25 /\ percent 3 3 = f64 100 /\ percent 0 7 = f64 0 /\ percent 2 1 = f64 200.
Proof. vm_compute. auto. Qed.

(** In the running system: if no search by an engine is being counted while that
    engine's monitor publishes, every recorded matching probability is a
    percentage.  Missing: the other schedules, where it is false
    ([C91_refuted]). *)
Theorem C91_recorded_partial : forall E ls s o, system_run E system0 ls = Ok (s, o) -> (effort ls < 2 ^ 63)%N ->
  (forall e ls1 ls2 s1 o1, ls = ls1 ++ ls2 -> system_run E system0 ls1 = Ok (s1, o1) -> apart e s1) ->
  forall sm t pt p, In sm (stats_of o) -> stat_point t sm = Ok (Some pt) -> In (str "matching_probability", SFloat p) (pt_fields pt) ->
  SFleb (f64 0) p = true /\ SFleb p (f64 100) = true.
Proof.
  intros E ls s o R B A sm t pt p I SP F. unfold stats_of in I. apply in_flat_map in I. destruct I as (x & I & J). destruct x as [| | | | | | |m]; try destruct J as [].
  destruct (main_stat m) as [sm'|] eqn:M; [|destruct J]. destruct J as [<-|[]].
  destruct m as [| |e|e n k|e x|c]; cbn in M; try discriminate; injection M as <-.
  - assert (k <= n)%N as L.
    { destruct (fewer_run (build_engine E) engine_search queue_size e ls s o) as [_ P]; auto; [intros; eapply A; eauto|].
      apply P. pose proof (C62_counts_reach_main (build_engine E) engine_search queue_size ls s o R) as D.
      assert (In (e, n, k) (traffic_received o)) as T.
      { clear - I. induction o as [|x o IH]; [destruct I|]. destruct I as [->|I]; [left; auto|]. destruct x as [| | | | | | |[]]; cbn; auto. }
      assert (In (e, n, k) (traffic_published o)) as T'.
      { eapply Permutation.Permutation_in; [apply Permutation.Permutation_sym; exact D|]. apply in_app_iff. auto. }
      clear - T'. induction o as [|x o IH]; [destruct T'|]. destruct x; cbn in T'; try (right; auto; fail). destruct T' as [T'|T']; [injection T' as -> -> ->; left; auto|right; auto]. }
    assert (n < 2 ^ 63)%N as N1.
    { pose proof (wi_seen _ _ _ (within_run _ _ _ _ _ _ R)) as W. rewrite Forall_forall in W. specialize (W _ I). cbn in W. destruct W. eapply N.le_lt_trans; eauto. }
    apply point_records in SP. inversion SP; subst; cbn [pt_fields] in F.
    + destruct F as [F|[F|[F|[]]]]; try discriminate. injection F as <-. destruct (C91_percentage n k) as (P1 & P2 & _); auto. split; [lia|auto].
    + destruct F as [F|[F|[]]]; discriminate.
  - apply point_records in SP. inversion SP; subst; cbn [pt_fields] in F. destruct F as [F|[]]. discriminate.
  - apply point_records in SP. inversion SP; subst; cbn [pt_fields] in F. destruct F as [F|[]]. discriminate.
Qed.
Print Assumptions C91_recorded_partial.
(** In every interleaving (counters below 2^53) a recorded matching probability was made
    of the two counts of one publication; it is never negative, and it is a percentage
    exactly when not more matches than events were published. *)
Theorem C91_exactly_partial : forall E ls s o, system_run E system0 ls = Ok (s, o) -> (effort ls < 2 ^ 53)%N ->
  forall sm t pt p, In sm (stats_of o) -> stat_point t sm = Ok (Some pt) -> In (str "matching_probability", SFloat p) (pt_fields pt) ->
  exists e n k, In (OPublished e n k) o /\ p = percent (Z.of_N k) (Z.of_N n) /\ SFleb (f64 0) p = true /\
    (SFleb p (f64 100) = true <-> (k <= n)%N) /\ (p = f64 100 <-> k = n).
Proof.
  intros E ls s o R B sm t pt p I SP F. unfold stats_of in I. apply in_flat_map in I. destruct I as (x & I & J). destruct x as [| | | | | | |m]; try destruct J as [].
  destruct (main_stat m) as [sm'|] eqn:M; [|destruct J]. destruct J as [<-|[]].
  destruct m as [| |e|e n k|e x|c]; cbn in M; try discriminate; injection M as <-.
  - assert (In (OPublished e n k) o) as PB.
    { pose proof (C62_counts_reach_main (build_engine E) engine_search queue_size ls s o R) as D.
      assert (In (e, n, k) (traffic_received o)) as T.
      { clear - I. induction o as [|x o IH]; [destruct I|]. destruct I as [->|I]; [left; auto|]. destruct x as [| | | | | | |[]]; cbn; auto. }
      assert (In (e, n, k) (traffic_published o)) as T'.
      { eapply Permutation.Permutation_in; [apply Permutation.Permutation_sym; exact D|]. apply in_app_iff. auto. }
      clear - T'. induction o as [|x o IH]; [destruct T'|]. destruct x; cbn in T'; try (right; auto; fail). destruct T' as [T'|T']; [injection T' as -> -> ->; left; auto|right; auto]. }
    assert (n < 2 ^ 53 /\ k < 2 ^ 53)%N as [N1 K1].
    { pose proof (wi_seen _ _ _ (within_run _ _ _ _ _ _ R)) as W. rewrite Forall_forall in W. specialize (W _ I). cbn in W. destruct W. split; eapply N.le_lt_trans; eauto. }
    apply point_records in SP. inversion SP; subst; cbn [pt_fields] in F.
    + destruct F as [F|[F|[F|[]]]]; try discriminate. injection F as <-. exists e, n, k. split; auto. split; auto.
      assert (0 < n)%N as N0 by lia. assert (n < 2 ^ 63)%N as N2 by (eapply N.lt_trans; [exact N1|reflexivity]).
      destruct (N.le_gt_cases k n) as [L|L].
      * destruct (C91_percentage n k) as (P1 & P2 & _); auto. split; auto. split; [tauto|]. apply C91_hundred; auto.
      * pose proof (percent_over k n K1 ltac:(lia)) as O. split; [apply percent_nonneg; auto; unfold int64; [eapply N.lt_trans; [exact K1|reflexivity]|lia]|].
        split; [rewrite O; split; [discriminate|lia]|]. split; [|lia]. intros X. rewrite X in O. vm_compute in O. discriminate.
    + destruct F as [F|[F|[]]]; discriminate.
  - apply point_records in SP. inversion SP; subst; cbn [pt_fields] in F. destruct F as [F|[]]. discriminate.
  - apply point_records in SP. inversion SP; subst; cbn [pt_fields] in F. destruct F as [F|[]]. discriminate.
Qed.
Print Assumptions C91_exactly_partial.
Definition apart_b (s : @sys subscriptions engine tag search_result) : bool :=
  forallb (fun e => match c_mon (y_cnt s e) with MoWait => true | _ => negb (uncounted e s) end) all_names.
Example C91_case : let ls := ex_counted ++ repeat LMainRecv 5 in let r := system_run E0 system0 ls in
  r = Ok (state_of r, seen_of r) /\ effort ls = 45%N /\
  (forall e ls1 ls2 s1 o1, ls = ls1 ++ ls2 -> system_run E0 system0 ls1 = Ok (s1, o1) -> apart e s1) /\
  exists sm pt, In sm (stats_of (seen_of r)) /\ stat_point 0 sm = Ok (Some pt) /\ In (str "matching_probability", SFloat (f64 100)) (pt_fields pt).
Proof.
  cbv zeta. split; [vm_compute; reflexivity|]. split; [vm_compute; reflexivity|]. split.
  - intros e ls1 ls2 s1 o1 EQ R.
    assert (forallb (fun ls => apart_b (state_of (system_run E0 system0 ls))) (prefixes (ex_counted ++ repeat LMainRecv 5)) = true) as A by (vm_compute; reflexivity).
    rewrite forallb_forall in A. specialize (A ls1). rewrite EQ, R in A. specialize (A (prefixes_all _ _)). cbn [state_of] in A.
    unfold apart_b in A. rewrite forallb_forall in A. specialize (A e ltac:(destruct e; cbn; auto)).
    unfold apart. destruct (c_mon (y_cnt s1 e)); auto; apply negb_true_iff in A; auto.
  - exists {| sm_type := StTraffic; sm_values := [SInt 1; SInt 1]; sm_name := name_of EList |}. eexists. split; [vm_compute; auto|]. split; [vm_compute; reflexivity|].
    vm_compute. auto.
Qed.
(** A search is counted as a match before it is counted as an event.  When the
    monitor publishes in between, two hundred percent are recorded, and no counter
    was read or written at the wrong time ([quiet]). *)
Definition ex_early : list (@label subscriptions tag (list nat)) :=
  ex_one ++ find ++ [LRead; LWrite; LReport 1] ++ find ++ [LRead; LWrite] ++ report EList ++ repeat LMainRecv 2.
Theorem C91_refuted : exists s o sm pt, system_run E0 system0 ex_early = Ok (s, o) /\
  (forall ls1 ls2 s1 o1, ex_early = ls1 ++ ls2 -> system_run E0 system0 ls1 = Ok (s1, o1) -> quiet EList s1) /\
  In sm (stats_of o) /\ stat_point 0 sm = Ok (Some pt) /\ In (str "matching_probability", SFloat (f64 200)) (pt_fields pt).
Proof.
  exists (state_of (system_run E0 system0 ex_early)), (seen_of (system_run E0 system0 ex_early)).
  exists {| sm_type := StTraffic; sm_values := [SInt 1; SInt 2]; sm_name := name_of EList |}. eexists.
  split; [vm_compute; reflexivity|]. split; [|split; [vm_compute; auto|split; [vm_compute; reflexivity|vm_compute; auto]]].
  intros ls1 ls2 s1 o1 EQ R.
  assert (forallb (fun ls => quiet_b EList (state_of (system_run E0 system0 ls))) (prefixes ex_early) = true) as A by (vm_compute; reflexivity).
  rewrite forallb_forall in A. specialize (A ls1). rewrite EQ, R in A. specialize (A (prefixes_all _ _)). unfold quiet_b in A. cbn [state_of] in A.
  unfold quiet. destruct (c_mon (y_cnt s1 EList)); auto; apply negb_true_iff in A; auto.
Qed.
Print Assumptions C91_refuted.
