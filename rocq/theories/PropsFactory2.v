(** Properties C62, C64, C65 and C67 in runs in which the listener does not take
    out of the channel to main what was meant for main. *)
From Verif Require Import GoBase MFloat MEngine MGenerator MFactory MSystem MStat TestVectors SpecFactory PFactory PFactory2 PFactory4 PFactory7 PFactory9.
From Verif Require Import PBase PExamples PropsEngine PropsSplay PropsFactory PropsStat.
From Coq Require Import Lia.

Section Runs.
  Context {Sub Eng Tag Orc Ans : Type} (build : ename -> Sub -> result Eng)
    (esearch : Orc -> Eng -> Tag -> result (Ans * bool * Eng)) (cap : nat).
  Notation run := (run build esearch cap).
  Notation sys := (@sys Sub Eng Tag Ans).
  Notation leaves := (leaves build esearch cap).

  (** ** C62 *)
  (** Main receives the counts in the order in which they were published: what it
      has received and what waits in the channel and in the listener's hand. *)
  Theorem C62_in_order_partial : forall ls (s : sys) o, leaves is_traffic ls -> run sys0 ls = Ok (s, o) ->
    traffic_published o = traffic_received o ++ flat_map traffic_of (y_mc s) ++ match y_listener s with Some m => traffic_of m | None => [] end.
  Proof. exact (ordered_run build esearch cap). Qed.

  (** ** C64 *)
  (** The monitor of [e] has reported [n] events last and has nothing more to send.
      Then what is recorded for [e] is the throughput of that report, unless there
      is none (nothing happened, or a value that rounds to zero): then the record is
      what it was before the report.  Missing: runs in which the listener takes a
      throughput of [e] back out of the channel, for which it is false
      ([C64_refuted]). *)
  Theorem C64_latest_partial : forall e ls (s : sys) o1 n m o2, leaves (is_status e) ls ->
    run sys0 ls = Ok (s, o1 ++ OPublished e n m :: o2) ->
    (forall n' m', ~ In (OPublished e n' m') o2) -> (forall t, c_mon (y_cnt s e) <> MoStatus t) ->
    (exists t, th_events t = n /\ recorded e (o1 ++ OPublished e n m :: o2) = Some t) \/
    (recorded e (o1 ++ OPublished e n m :: o2) = recorded e o1 /\ exists us, th_publish (Thr n us) = false).
  Proof. exact (recorded_is_last build esearch cap). Qed.

  (** ** C65 *)
  (** Whenever a step changes the selected engine, main is told of the new one
      later, or the message is still on its way.  Missing: runs in which the
      listener takes the message ([C65_refuted]). *)
  Theorem C65_told_partial : forall ls1 l ls2 (s1 : sys) o1 s2 q s3 o3,
    run sys0 ls1 = Ok (s1, o1) -> run s1 [l] = Ok (s2, q) -> y_cur s2 <> y_cur s1 -> run s2 ls2 = Ok (s3, o3) ->
    leaves (eq (MSelected (y_cur s2))) (ls1 ++ l :: ls2) ->
    In (OMain (MSelected (y_cur s2))) o3 \/ y_listener s3 = Some (MSelected (y_cur s2)) \/
    y_ticker s3 = TiSend (MSelected (y_cur s2)) \/ In (MSelected (y_cur s2)) (y_mc s3).
  Proof.
    intros ls1 l ls2 s1 o1 s2 q s3 o3 R1 RL N R LV. cbn [MFactory.run] in RL.
    destruct (step build esearch cap s1 l) as [[s2' q']| |] eqn:ST; cbn [bind] in RL; try discriminate. injection RL as -> <-.
    destruct (selection_told build esearch cap ls1 l ls2 s1 o1 s2 q' s3 o3 R1 ST N R LV) as [F|I]; auto.
  Qed.
  (** In particular main has been told of the engine that is selected when nothing
      is on its way any more. *)
  Theorem C65_up_to_date_partial : forall ls (s : sys) o, run sys0 ls = Ok (s, o) -> leaves (eq (MSelected (y_cur s))) ls ->
    y_cur s <> None -> y_mc s = [] -> y_listener s = None -> (forall m, y_ticker s <> TiSend m) -> In (OMain (MSelected (y_cur s))) o.
  Proof.
    intros ls s o R LV C M L T.
    assert (exists ls1 l ls2 s1 o1 s2 q o3, ls = ls1 ++ l :: ls2 /\ run sys0 ls1 = Ok (s1, o1) /\ run s1 [l] = Ok (s2, q) /\ y_cur s2 <> y_cur s1 /\
      y_cur s2 = y_cur s /\ run s2 ls2 = Ok (s, o3) /\ o = o1 ++ q ++ o3) as (ls1 & l & ls2 & s1 & o1 & s2 & q & o3 & -> & R1 & RL & N & EQ & R3 & ->).
    { clear LV M L T. revert s o R C. induction ls as [|l ls IH] using rev_ind; intros s o R C.
      - cbn in R. injection R as <- <-. cbn in C. congruence.
      - rewrite (run_app build esearch cap) in R. destruct (run sys0 ls) as [[s1 o1]| |] eqn:E; cbn [bind] in R; try discriminate.
        destruct (run s1 [l]) as [[s2 q]| |] eqn:E2; cbn [bind] in R; try discriminate. injection R as <- <-.
        assert ({y_cur s2 = y_cur s1} + {y_cur s2 <> y_cur s1}) as [Q|Q] by (repeat decide equality).
        + destruct (IH s1 o1 eq_refl) as (a & l' & b & s3 & o3 & s4 & q4 & o5 & -> & X1 & X2 & X3 & X4 & X5 & ->); [congruence|].
          exists a, l', (b ++ [l]), s3, o3, s4, q4, (o5 ++ q). rewrite <- !app_assoc. split; auto. split; auto. split; auto. split; auto. split; [congruence|]. split; auto.
          rewrite (run_app build esearch cap), X5. cbn [bind]. rewrite E2. reflexivity.
        + exists ls, l, [], s1, o1, s2, q, []. rewrite app_nil_r. auto 10. }
    destruct (C65_told_partial ls1 l ls2 s1 o1 s2 q s o3 R1 RL N R3) as [I|[I|[I|I]]]; rewrite EQ in *; auto.
    - rewrite !in_app_iff. auto.
    - congruence.
    - destruct (T _ I).
    - rewrite M in I. destruct I.
  Qed.
End Runs.
Print Assumptions C62_in_order_partial.
Print Assumptions C64_latest_partial.
Print Assumptions C65_told_partial.
Print Assumptions C65_up_to_date_partial.

(** ** C67 *)
(** If the ticker fires only after the first announcement, every selection that is
    recorded is the number of an engine that was generated.  Missing: ticks before
    that ([C67_refuted]). *)
Theorem C67_named_partial : forall E ls s o, system_run E system0 ls = Ok (s, o) ->
  (forall ls1 ls2 s1 o1, ls = ls1 ++ LTickPick :: ls2 -> system_run E system0 ls1 = Ok (s1, o1) -> exists e, In (ONotified e) o1) ->
  forall sm t, In sm (stats_of o) -> sm_type sm = StSelected ->
  exists e, In (OGenerated e) o /\
    stat_point t sm = Ok (Some {| pt_measure := str "engine"; pt_engine := None; pt_time := t;
      pt_fields := [(str "selected", SInt match e with ELegacy => 0 | EList => 1 | EPatricia => 2 | ESplay => 3 end)] |}).
Proof.
  intros E ls s o R A sm t I TY. unfold stats_of in I. apply in_flat_map in I. destruct I as (x & I & J). destruct x as [| | | | | | |m]; try destruct J as [].
  destruct (main_stat m) as [sm'|] eqn:M; [|destruct J]. destruct J as [<-|[]].
  destruct m as [| |e|e n k|e x|c]; cbn in M; try discriminate; injection M as <-; cbn in TY; try discriminate.
  destruct c as [e|].
  - exists e. split; [|destruct e; reflexivity]. apply in_split in I. destruct I as (o1 & o2 & ->). apply in_app_iff. left.
    exact (selected_generated _ _ _ _ _ _ _ _ R).
  - exfalso. assert (named s o) as [_ N]; [|auto].
    apply (named_run (build_engine E) engine_search queue_size ls); auto. intros ls1 ls2 s1 o1 -> R1.
    apply (notified_active (build_engine E) engine_search queue_size ls1 s1 o1 R1). eapply A; eauto.
Qed.
Print Assumptions C67_named_partial.
(** Without any condition: the number recorded is that of the engine that was selected
    at some moment before, or 0 if none was; only the Legacy engine cannot be told
    from no engine. *)
Theorem C67_moment : forall E ls s o, system_run E system0 ls = Ok (s, o) -> forall sm t, In sm (stats_of o) -> sm_type sm = StSelected ->
  exists ls1 ls2 s1 o1 n, ls = ls1 ++ ls2 /\ system_run E system0 ls1 = Ok (s1, o1) /\
    stat_point t sm = Ok (Some {| pt_measure := str "engine"; pt_engine := None; pt_time := t; pt_fields := [(str "selected", SInt n)] |}) /\
    n = match y_cur s1 with Some ELegacy | None => 0 | Some EList => 1 | Some EPatricia => 2 | Some ESplay => 3 end%Z.
Proof.
  intros E ls s o R sm t I TY. unfold stats_of in I. apply in_flat_map in I. destruct I as (x & I & J). destruct x as [| | | | | | |m]; try destruct J as [].
  destruct (main_stat m) as [sm'|] eqn:M; [|destruct J]. destruct J as [<-|[]].
  destruct m as [| |e|e n k|e x|c]; cbn in M; try discriminate; injection M as <-; cbn in TY; try discriminate.
  destruct (place_run (build_engine E) engine_search queue_size ls s o R c (or_intror I)) as (ls1 & ls2 & s1 & o1 & -> & R1 & Y).
  exists ls1, ls2, s1, o1. rewrite Y. destruct c as [[]|]; eexists; (split; [reflexivity|]); (split; [exact R1|]); (split; reflexivity).
Qed.
Print Assumptions C67_moment.

(** *** Cases *)
(** The listener of these runs takes nothing out of the channel. *)
Lemma no_listen_leaves E K ls : ~ In LListenMc ls -> leaves (build_engine E) engine_search queue_size K ls.
Proof. intros N ls1 ls2 s1 o1 m q ->. destruct N. apply in_app_iff. right. left. auto. Qed.
Definition ex_left := ex_counted ++ repeat LMainRecv 3.
Example C62_C64_C65_case : let r := system_run E0 system0 ex_left in
  (forall K, leaves (build_engine E0) engine_search queue_size K ex_left) /\ r = Ok (state_of r, seen_of r) /\
  traffic_published (seen_of r) = [(EList, 1, 1); (EList, 1, 1)]%N /\ traffic_received (seen_of r) = [(EList, 1, 1)]%N /\
  c_mon (y_cnt (state_of r) EList) = MoWait /\ recorded EList (seen_of r) = Some (Thr 1 1) /\
  y_cur (state_of r) = Some EList /\ In (OMain (MSelected (Some EList))) (seen_of r).
Proof.
  cbv zeta. split; [|vm_compute; intuition]. intros K. apply no_listen_leaves. vm_compute. intuition discriminate.
Qed.
(** A tick after the announcement. *)
Example C67_named_case : let ls := ex_one ++ tick ex_order ++ [LTickSend; LMainRecv; LMainRecv] in
  let r := system_run E0 system0 ls in r = Ok (state_of r, seen_of r) /\ length (stats_of (seen_of r)) = 2 /\
  forall ls1 ls2 s1 o1, ls = ls1 ++ LTickPick :: ls2 -> system_run E0 system0 ls1 = Ok (s1, o1) -> exists e, In (ONotified e) o1.
Proof.
  cbv zeta. split; [vm_compute; reflexivity|]. split; [vm_compute; reflexivity|]. intros ls1 ls2 s1 o1 EQ R. exists EList.
  assert (ls1 = ex_one ++ firstn 5 (tick ex_order)) as ->.
  { vm_compute in EQ. do 11 (destruct ls1 as [|? ls1]; [discriminate EQ|]; injection EQ as <- EQ).
    destruct ls1 as [|? ls1]; [reflexivity|]. injection EQ as <- EQ. do 3 (destruct ls1 as [|? ls1]; [discriminate EQ|]; injection EQ as <- EQ). destruct ls1; discriminate EQ. }
  vm_compute in R. injection R as <- <-. cbn. auto.
Qed.
