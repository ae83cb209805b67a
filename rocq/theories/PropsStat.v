(** Properties C54, C66 and C67: statistics. *)
From Verif Require Import GoBase BinUtil MFilter MEngine MTdtCore MSubs MList MGenerator MFactory MSystem MStat TestVectors SpecFactory SpecStat.
From Verif Require Import MFloat PBase PFloat PFloat3 PStat PFactory PFactory8 PFactory10 PropsEngine PropsSplay PropsFactory.
From Coq Require Import Lia ZArith.

(** Reading guide: [stat_run [] ms = Ok ws]: the stat manager receives the
    messages [ms] (with the times of their points, and whether the database took
    the write), and sends the batches [ws] to the database.  [stat_points ms ps]:
    [ps] are the points that record the messages, one each, malformed ones
    skipped. *)
Definition taken (ms : list (N * smsg)) : list (N * smsg * bool) := map (fun tm => (fst tm, snd tm, true)) ms.

(** ** C54 *)
(** What is sent: after each message all points so far. *)
Theorem C54_sent_exact : forall ms ps, stat_points ms ps -> stat_run [] (taken ms) = Ok (growing ps).
Proof. intros ms ps S. unfold taken. rewrite (run_sent ms [] ps S). f_equal. cbn. apply map_id. Qed.
Print Assumptions C54_sent_exact.
(** So a point is sent once for itself and once more for each later one. *)
Theorem C54_times_sent : forall ms a p b, stat_points ms (a ++ p :: b) -> ~ In p a -> ~ In p b ->
  exists ws, stat_run [] (taken ms) = Ok ws /\ times p ws = S (length b).
Proof. intros ms a p b S NA NB. eexists. split; [apply C54_sent_exact; eauto|]. apply times_growing; auto. Qed.
Print Assumptions C54_times_sent.
(** The database nevertheless holds what it would hold had each point been sent
    once: for every measurement, tag, time and field. *)
Theorem C54_content : forall ms ps ws, stat_points ms ps -> stat_run [] (taken ms) = Ok ws ->
  forall k f, write_all empty_db (concat ws) k f = write_all empty_db ps k f.
Proof.
  intros ms ps ws S R k f. rewrite (C54_sent_exact ms ps S) in R. injection R as <-. rewrite !write_all_last, last_growing. reflexivity.
Qed.
Print Assumptions C54_content.
(** With distinct points (no two of the same engine and kind at the same
    nanosecond) every statistic is there, complete, and nothing else is. *)
Theorem C54_each_kept_partial : forall ms ps ws, stat_points ms ps -> NoDup (map series ps) -> stat_run [] (taken ms) = Ok ws ->
  (forall p, In p ps -> forall f, write_all empty_db (concat ws) (series p) f = field_value (pt_fields p) f) /\
  (forall k f, ~ In k (map series ps) -> write_all empty_db (concat ws) k f = None).
Proof.
  intros ms ps ws S ND R. split.
  - intros p I f. rewrite (C54_content ms ps ws S R), write_all_last, (last_write_own ps p ND I f). destruct (field_value (pt_fields p) f); auto.
  - intros k f N. rewrite (C54_content ms ps ws S R), write_all_last, (last_write_other ps k f N). auto.
Qed.
Print Assumptions C54_each_kept_partial.
Definition ex_stats : list (N * smsg) :=
  [(1%N, {| sm_type := StTraffic; sm_values := [SInt 4; SInt 1]; sm_name := str "List" |});
   (2%N, {| sm_type := StTraffic; sm_values := [SOther; SInt 1]; sm_name := str "List" |});
   (3%N, {| sm_type := StSelected; sm_values := []; sm_name := str "List" |})].
Definition ex_points : list point :=
  [{| pt_measure := str "traffic"; pt_engine := Some (str "List"); pt_time := 1;
      pt_fields := [(str "incoming_events", SInt 4); (str "matched_events", SInt 1); (str "matching_probability", SFloat (f64 25))] |};
   {| pt_measure := str "engine"; pt_engine := None; pt_time := 3; pt_fields := [(str "selected", SInt 1)] |}].
Example C54_case : stat_points ex_stats ex_points /\ NoDup (map series ex_points) /\
  exists p q, ex_points = [p; q] /\ stat_run [] (taken ex_stats) = Ok [[p]; [p; q]].
Proof.
  split; [|split].
  - apply sp_point; [apply (rec_traffic 1 (str "List") 4 1 []); [discriminate|vm_compute; reflexivity]|]. apply sp_skip; [split; [reflexivity|left; do 2 eexists; split; [reflexivity|discriminate]]|].
    apply sp_point; [apply (rec_selected 3 (str "List") [])|constructor].
  - repeat constructor; cbn; intuition discriminate.
  - do 2 eexists. split; [reflexivity|]. vm_compute. reflexivity.
Qed.
(** Hence not exactly once. *)
Theorem C54_refuted : exists p ws, In p ex_points /\ stat_run [] (taken ex_stats) = Ok ws /\ times p ws = 2.
Proof. do 2 eexists. split; [left; reflexivity|]. split; [vm_compute; reflexivity|]. vm_compute. reflexivity. Qed.
Print Assumptions C54_refuted.

(** ** C66 *)
(** A statistic that main passes on has a point, unless it is a throughput
    measured over no time at all.  The counters are below 2^63, as in the program. *)
Theorem C66_recordable_partial : forall m sm t, main_stat m = Some sm ->
  (forall e n k, m = MTraffic e n k -> (n < 2 ^ 63 /\ k < 2 ^ 63)%N) ->
  (forall e x, m = MStatus e x -> (th_events x < 2 ^ 63 /\ th_time x < 2 ^ 63 /\ th_time x <> 0)%N) -> exists p, records (t, sm) p.
Proof.
  intros m sm t M B H. destruct m as [| |e|e n k|e x|e]; cbn in M; try discriminate; injection M as <-.
  - destruct (N.eq_dec n 0) as [->|NZ]; [eexists; apply (rec_no_traffic t (name_of e))|]. destruct (B e n k eq_refl). eexists. constructor; [lia|]. apply percent_good; auto.
  - destruct (H e x eq_refl) as (H1 & H2 & H3). eexists. apply (rec_throughput t (name_of e) _ []). apply throughput_good; auto.
  - eexists. apply (rec_selected t _ []).
Qed.
Print Assumptions C66_recordable_partial.
(** The exception ends the program. *)
Theorem C66_fatal : forall e x bp t ok, th_time x = 0%N -> exists sm, main_stat (MStatus e x) = Some sm /\ stat_step bp t sm ok = Panic.
Proof.
  intros e x bp t ok Z. eexists. split; [reflexivity|]. unfold stat_step, stat_point. cbn [sm_type sm_values].
  assert (bad_value (SFloat (th_value x)) = true) as B.
  { unfold th_value. rewrite Z. pose proof (f64_plus (th_events x)) as P. destruct (f64 (Z.of_N (th_events x))) as [[]|[]| |[] m k]; try contradiction; reflexivity. }
  unfold new_point. cbn [existsb snd]. rewrite B. reflexivity.
Qed.
Print Assumptions C66_fatal.
(** All messages main has received, as statistics. *)
Definition stats_of (o : list (@obs tag search_result)) : list smsg :=
  flat_map (fun x => match x with OMain m => match main_stat m with Some sm => [sm] | None => [] end | _ => [] end) o.
(** If every search takes a microsecond or more, no statistic of the running system,
    in any interleaving, stops the stat manager.  The number of steps and the time
    that searches take (in microseconds) stay below 2^63. *)
Theorem C66_no_crash_partial : forall E ls s o (ts : list N), system_run E system0 ls = Ok (s, o) -> length ts = length (stats_of o) ->
  (forall us, In (LReport us) ls -> us <> 0%N) -> (effort ls < 2 ^ 63)%N ->
  exists ws, stat_run [] (taken (combine ts (stats_of o))) = Ok ws /\ length ws = length (stats_of o).
Proof.
  intros E ls s o ts R L T B.
  assert (forall m, In (OMain m) o -> mwithin (effort ls) m) as W.
  { intros m I. pose proof (wi_seen _ _ _ (within_run _ _ _ _ _ _ R)) as F. rewrite Forall_forall in F. exact (F _ I). }
  assert (forall e x, In (OMain (MStatus e x)) o -> th_time x <> 0%N) as H.
  { intros e x. unfold system_run in R. eapply timed_run; [|exact R]. apply Forall_forall. intros l I us ->. auto. }
  assert (forall (sms : list smsg) ts, length ts = length sms -> (forall sm, In sm sms -> forall t, exists p, records (t, sm) p) -> exists ps, stat_points (combine ts sms) ps /\ length ps = length sms) as A.
  { induction sms as [|sm sms IH]; intros [|t ts'] LT HS; try discriminate.
    - exists []. split; [constructor|auto].
    - cbn in LT. injection LT as LT. destruct (IH ts' LT) as (ps & P & LP); [intros; apply HS; right; auto|].
      destruct (HS sm (or_introl eq_refl) t) as (p & RP). exists (p :: ps). split; [apply sp_point; auto|cbn; auto]. }
  destruct (A (stats_of o) ts L) as (ps & P & LP).
  - intros sm I t. unfold stats_of in I. apply in_flat_map in I. destruct I as (x & I & J). destruct x; try destruct J as [].
    destruct (main_stat m) as [sm'|] eqn:M; [|destruct J]. destruct J as [<-|[]]. eapply C66_recordable_partial; eauto.
    + intros e n k ->. specialize (W _ I). cbn in W. destruct W. split; eapply N.le_lt_trans; eauto.
    + intros e x ->. specialize (H _ _ I). specialize (W _ I). cbn in W. destruct W. repeat split; auto; eapply N.le_lt_trans; eauto.
  - exists (growing ps). split; [apply C54_sent_exact; auto|]. unfold growing. rewrite map_length, seq_length. auto.
Qed.
Print Assumptions C66_no_crash_partial.
(** Exactly: the stat manager stops the program when a throughput over no time
    reaches main, and otherwise stores everything. *)
Theorem C66_exactly_partial : forall E ls s o (ts : list N), system_run E system0 ls = Ok (s, o) -> length ts = length (stats_of o) -> (effort ls < 2 ^ 63)%N ->
  let r := stat_run [] (taken (combine ts (stats_of o))) in
  ((exists e x, In (OMain (MStatus e x)) o /\ th_time x = 0%N) -> r = Panic) /\
  (~ (exists e x, In (OMain (MStatus e x)) o /\ th_time x = 0%N) -> exists ws, r = Ok ws /\ length ws = length (stats_of o)).
Proof.
  intros E ls s o ts R L B.
  assert (forall m, In (OMain m) o -> mwithin (effort ls) m) as W.
  { intros m I. pose proof (wi_seen _ _ _ (within_run _ _ _ _ _ _ R)) as F. rewrite Forall_forall in F. exact (F _ I). }
  assert (forall m sm t, In (OMain m) o -> main_stat m = Some sm -> ~ (exists e x, m = MStatus e x /\ th_time x = 0%N) -> exists p, records (t, sm) p) as REC.
  { intros m sm t I M N. eapply C66_recordable_partial; eauto.
    - intros e n k ->. specialize (W _ I). cbn in W. destruct W. split; eapply N.le_lt_trans; eauto.
    - intros e x ->. specialize (W _ I). cbn in W. destruct W. repeat split; [eapply N.le_lt_trans; eauto|eapply N.le_lt_trans; eauto|]. intros Z. apply N. eauto. }
  cbv zeta. split.
  - intros H. clear B R W.
    assert (forall o' bp ts, (forall x, In x o' -> In x o) -> length ts = length (stats_of o') -> (exists e x, In (OMain (MStatus e x)) o' /\ th_time x = 0%N) ->
      stat_run bp (taken (combine ts (stats_of o'))) = Panic) as A; [|apply A; auto].
    clear - REC. induction o' as [|y o' IH]; intros bp ts SUB L (e & x & I & Z); [destruct I|].
    assert (forall z, In z o' -> In z o) as SUB' by (intros z J; apply SUB; right; auto).
    assert (stats_of (y :: o') = stats_of o' /\ (forall e x, y <> OMain (MStatus e x)) \/
      exists m sm, y = OMain m /\ main_stat m = Some sm /\ stats_of (y :: o') = sm :: stats_of o') as [[ES NY]|(m & sm & EY & M & ES)].
    { destruct y; try (left; split; [reflexivity|intros ? ?; discriminate]). destruct (main_stat m) as [sm|] eqn:M.
      - right. exists m, sm. unfold stats_of. cbn [flat_map]. rewrite M. auto.
      - left. unfold stats_of. cbn [flat_map]. rewrite M. split; auto. intros e1 x1 Q. injection Q as ->. discriminate. }
    + rewrite ES in *. apply (IH bp ts SUB' L). destruct I as [I|I]; [destruct (NY e x I)|eauto].
    + rewrite ES in *. destruct ts as [|t ts]; [discriminate|]. cbn [length] in L. injection L as L. cbn [combine taken map fst snd stat_run].
      assert ((exists e x, m = MStatus e x /\ th_time x = 0%N) \/ ~ (exists e x, m = MStatus e x /\ th_time x = 0%N)) as [(e' & x' & -> & Z')|NS].
      { destruct m as [| |e1|e1 n k|e1 x1|e1]; try (right; intros (? & ? & ? & ?); discriminate). destruct (N.eq_dec (th_time x1) 0); [left; eauto|right; intros (? & ? & Q & ?); congruence]. }
      * destruct (C66_fatal e' x' bp t true Z') as (sm' & M' & F). rewrite M in M'. injection M' as <-. rewrite F. reflexivity.
      * destruct (REC m sm t (SUB _ (or_introl EY)) M NS) as (p & P). unfold stat_step. apply point_records in P. rewrite P. cbn [bind].
        change (map (fun tm : N * smsg => (fst tm, snd tm, true)) (combine ts (stats_of o'))) with (taken (combine ts (stats_of o'))).
        rewrite (IH (bp ++ [p]) ts SUB' L); auto. destruct I as [I|I]; [rewrite EY in I; injection I as ->; destruct NS; eauto|eauto].
  - intros N.
    assert (forall (sms : list smsg) ts, length ts = length sms -> (forall sm, In sm sms -> forall t, exists p, records (t, sm) p) -> exists ps, stat_points (combine ts sms) ps /\ length ps = length sms) as A.
    { induction sms as [|sm sms IH]; intros [|t ts'] LT HS; try discriminate.
      - exists []. split; [constructor|auto].
      - cbn in LT. injection LT as LT. destruct (IH ts' LT) as (ps & P & LP); [intros; apply HS; right; auto|].
        destruct (HS sm (or_introl eq_refl) t) as (p & RP). exists (p :: ps). split; [apply sp_point; auto|cbn; auto]. }
    destruct (A (stats_of o) ts L) as (ps & P & LP).
    + intros sm I t. unfold stats_of in I. apply in_flat_map in I. destruct I as (x & I & J). destruct x; try destruct J as [].
      destruct (main_stat m) as [sm'|] eqn:M; [|destruct J]. destruct J as [<-|[]]. eapply REC; eauto. intros (e & x & -> & Z). apply N. eauto.
    + exists (growing ps). split; [apply C54_sent_exact; auto|]. unfold growing. rewrite map_length, seq_length. auto.
Qed.
Print Assumptions C66_exactly_partial.
Example C66_case : exists s o, system_run E0 system0 (ex_counted ++ repeat LMainRecv 5) = Ok (s, o) /\
  In (OMain (MStatus EList (Thr 1 1))) o /\ length (stats_of o) = 5 /\ effort (ex_counted ++ repeat LMainRecv 5) = 45%N /\ (forall us, In (LReport us) ex_counted -> us <> 0%N).
Proof.
  eexists _, _. split; [vm_compute; reflexivity|]. split; [vm_compute; intuition|]. split; [vm_compute; reflexivity|]. split; [vm_compute; reflexivity|].
  intros us I. vm_compute in I. repeat (destruct I as [I|I]; [try discriminate I; injection I as <-; discriminate|]). destruct I.
Qed.
(** In the running system: a search that takes less than a microsecond, a report,
    and the stat manager ends the program. *)
Theorem C66_refuted : exists ls s o, system_run E0 system0 ls = Ok (s, o) /\ stat_run [] (taken (map (pair 0%N) (stats_of o))) = Panic.
Proof.
  exists (ex_one ++ find ++ [LRead; LWrite; LReport 0] ++ report EList ++ repeat LMainRecv 3). eexists _, _.
  split; vm_compute; reflexivity.
Qed.
Print Assumptions C66_refuted.

(** ** C67 *)
(** The number recorded for a selection tells the engine. *)
Theorem C67_engine_number_partial : forall e, engine_number (name_of e) = match e with ELegacy => 0 | EList => 1 | EPatricia => 2 | ESplay => 3 end%Z.
Proof. intros []; vm_compute; reflexivity. Qed.
Print Assumptions C67_engine_number_partial.
(** But a message that no engine is selected is recorded as a selection of the text
    engine: the ticker sends one when it fires before the first announcement. *)
Theorem C67_refuted : exists ls s o p q, system_run E0 system0 ls = Ok (s, o) /\ y_cur s = None /\
  map (stat_point 0) (stats_of o) = [Ok (Some p)] /\
  stat_point 0 {| sm_type := StSelected; sm_values := []; sm_name := name_of ELegacy |} = Ok (Some q) /\ p = q.
Proof.
  exists (tick ex_order ++ [LTickSend; LMainRecv]). do 4 eexists. split; [vm_compute; reflexivity|]. split; [reflexivity|].
  split; [vm_compute; reflexivity|]. split; [vm_compute; reflexivity|]. reflexivity.
Qed.
Print Assumptions C67_refuted.
