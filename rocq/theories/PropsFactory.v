(** Properties C48-C51, C53 and C60-C65: the engine factory at work. *)
From Verif Require Import GoBase BinUtil MFilter MEngine MTdtCore MSubs MList MPatricia MSplay MSlice MLegacy MGenerator MFactory MSystem TestVectors.
From Verif Require Import PBase Spec SpecEpc SpecLegacy SpecFactory PFilter PSubs PSubs2 PList PMatch PExamples PSplay PSplayHist PEpc PEpc2 PEpc3 PEpc4.
From Verif Require Import PFactory PFactory2 PFactory3 PFactory4 PFactory5 PFactory6 PFactory7 SpecSystem PSystem PSystem2 PropsEngine PropsSplay PropsTdt PropsEpc PropsLegacy.
From Coq Require Import Lia Permutation.

(** Reading guide: [run sys0 ls = Ok (s, o)]: the interleaving [ls] of the
    goroutines' steps, from the start, leads to the state [s]; [o] lists what could
    be seen, in order (see [obs] in MFactory: engines generated, announced,
    searching, counts published, throughputs recorded, answers, messages to main).
    The theorems about [run] hold for any four engines and any capacity of the
    management channel; those about [system_run] are about the project's own. *)

(** Schedules for the examples: build an engine; let it be announced; a search by
    one engine that finds something, or nothing, as far as MatchedCount; the same
    to its end. *)
Definition boot (e : ename) (sub : subscriptions) : list (@label subscriptions tag (list nat)) := [LInit e sub; LTask e 0; LTask e 0].
Definition announce (e : ename) : list (@label subscriptions tag (list nat)) := [LNotify e 0; LListenSend].
Definition hit (us : N) : list (@label subscriptions tag (list nat)) := [LVisit; LRun []; LRead; LWrite; LReport us].
Definition miss (us : N) : list (@label subscriptions tag (list nat)) := [LVisit; LRun []; LReport us].
Definition ex_order : list ename := [ELegacy; EList; EPatricia; ESplay].
(** All four engines, announced in the order of their priorities. *)
Definition boot_all (sub : subscriptions) : list (@label subscriptions tag (list nat)) :=
  flat_map (fun e => boot e sub ++ announce e) [ELegacy; EList; ESplay; EPatricia].
(** Main starts and searches a tag that all engines report. *)
Definition all_hit (t : tag) : list (@label subscriptions tag (list nat)) :=
  LSearch t ex_order :: hit 5 ++ hit 4 ++ [LVisit] ++ hit 3 ++ hit 2.
Definition seen_of (r : result (@sys subscriptions engine tag search_result * list (@obs tag search_result))) : list obs :=
  match r with Ok (_, o) => o | _ => [] end.
Definition state_of (r : result (@sys subscriptions engine tag search_result * list (@obs tag search_result))) : sys :=
  match r with Ok (s, _) => s | _ => sys0 end.

(** ** C48 *)
Section AnyEngines.
  Context {Sub Eng Tag Orc Ans : Type} (build : ename -> Sub -> result Eng)
    (esearch : Orc -> Eng -> Tag -> result (Ans * bool * Eng)) (cap : nat).
  Notation run := (run build esearch cap).
  Notation sys := (@sys Sub Eng Tag Ans).
  Notation obs := (@obs Tag Ans).

  Theorem C48_stays_active : forall ls1 ls2 (s1 s2 : sys) o1 o2,
    run sys0 ls1 = Ok (s1, o1) -> run s1 ls2 = Ok (s2, o2) -> is_active s1 = true -> is_active s2 = true.
  Proof.
    intros ls1 ls2 s1 s2 o1 o2 R1 R2 A. pose proof (inv_run build esearch cap _ _ _ R1) as V.
    pose proof (stays_active build esearch cap _ _ _ _ _ V R2) as N. unfold is_active in *. destruct (y_cur s1); [|discriminate].
    destruct (y_cur s2); auto. destruct N; congruence.
  Qed.
  (** It becomes active with the first announcement. *)
  Theorem C48_becomes_active : forall ls (s : sys) o e, run sys0 ls = Ok (s, o) -> In (ONotified e) o -> is_active s = true.
  Proof.
    intros ls s o e R I. unfold is_active. destruct (y_cur s) eqn:E; auto. exfalso. eapply (notified_active build esearch cap); eauto.
  Qed.
  (** Whatever announces, searches or answers has been generated before. *)
  Theorem C48_engine_generated : forall ls (s : sys) o1 x o2 e,
    run sys0 ls = Ok (s, o1 ++ x :: o2) -> uses e x -> In (OGenerated e) o1.
  Proof. intros ls s o1 x o2 e R U. exact (used_after build esearch cap ls sys0 [] s _ (inv0 build) R o1 x o2 e eq_refl U). Qed.
  Theorem C48_selected_generated : forall ls (s : sys) o e,
    run sys0 ls = Ok (s, o) -> y_cur s = Some e -> In (OGenerated e) o /\ g_engine (y_gen s e) <> None.
  Proof.
    intros ls s o e R C. pose proof (inv_run build esearch cap _ _ _ R) as V. pose proof (i_cur _ _ V _ C) as H. split; [apply (i_seen _ _ V); auto|exact H].
  Qed.
  (** The factory itself never crashes: not if the engines' constructors and
      searches do not.  [P] is what holds of every engine. *)
  Theorem C48_no_crash : forall P : ename -> Eng -> Prop,
    (forall e sub, exists eng, build e sub = Ok eng /\ P e eng) ->
    (forall e x eng t, P e eng -> exists a f eng', esearch x eng t = Ok (a, f, eng') /\ P e eng') ->
    forall ls, run sys0 ls <> Panic.
  Proof.
    intros P HB HS ls. apply (good_no_panic build esearch cap (fun _ _ => True) (fun _ => True) P (fun _ _ _ => True)).
    - intros e sub _. apply HB.
    - intros e x eng t HP _. destruct (HS e x eng t HP) as (a & f & eng' & H1 & H2). eauto 10.
    - apply Forall_forall. intros [] _; exact I.
  Qed.
  (** Once a generator has been initialised, the goroutines' own steps can make
      the factory active: nothing they have done by then stands in the way. *)
  Theorem C48_can_become_active : forall ls (s : sys) o e, 0 < cap ->
    (forall e sub, exists eng, build e sub = Ok eng) -> run sys0 ls = Ok (s, o) -> g_fsm (y_gen s e) <> Unavailable ->
    exists ls' s' o', forallb internal ls' = true /\ run s ls' = Ok (s', o') /\ is_active s' = true.
  Proof.
    intros ls s o e C B R N. destruct (can_activate build esearch cap _ _ _ _ C B R N) as (s' & o' & (ls' & I' & R') & A).
    exists ls', s', o'. split; auto. split; auto. unfold is_active. destruct (y_cur s'); congruence.
  Qed.

  (** ** C49 *)
  Theorem C49_best_announced : forall ls (s : sys) o e, run sys0 ls = Ok (s, o) -> no_measurement o ->
    y_cur s = Some e <-> best_announced e o.
  Proof.
    intros ls s o e R U. destruct (sel_run build esearch cap _ _ _ R) as [_ S]. destruct (S U) as (_ & _ & B). unfold best in B. unfold best_announced.
    split.
    - intros E. rewrite E in B. exact B.
    - intros [I M]. destruct (y_cur s) as [c|].
      + destruct B as [B1 B2]. f_equal. specialize (B2 _ I). specialize (M _ B1). assert (priority c = priority e) by lia. destruct c, e; auto; discriminate.
      + destruct (B e I).
  Qed.
  (** Once every generator that was initialised has finished, whatever the order:
      the one with the highest priority among those generated. *)
  Theorem C49_best_generated : forall ls (s : sys) o e, run sys0 ls = Ok (s, o) -> no_measurement o ->
    (forall e', g_fsm (y_gen s e') = Unavailable \/ (g_fsm (y_gen s e') = Ready /\ g_todo (y_gen s e') = [])) ->
    y_cur s = Some e <-> In (OGenerated e) o /\ forall e', In (OGenerated e') o -> (priority e' <= priority e)%N.
  Proof.
    intros ls s o e R U Q. rewrite (C49_best_announced ls s o e R U). unfold best_announced.
    pose proof (inv_run build esearch cap _ _ _ R) as V.
    assert (forall e', In (OGenerated e') o <-> In (ONotified e') o) as EQ.
    { intros e'. split.
      - intros I. apply (i_seen _ _ V) in I. destruct (Q e') as [H|[H1 H2]]; [|eapply (notified_run build esearch cap); eauto].
        pose proof (i_gen _ _ V e') as G. unfold gen_ok, has in *. rewrite H in G. destruct I. tauto.
      - intros I. apply in_split in I. destruct I as (o1 & o2 & ->). apply in_app_iff. left.
        eapply C48_engine_generated; eauto. left; auto. }
    split; intros [H1 H2]; (split; [apply EQ; auto|]); intros e' I; apply H2, EQ; auto.
  Qed.

  (** ** C50 *)
  (** A tick during which nothing is recorded. *)
  Theorem C50_tick_selects_fastest : forall ls0 (s : sys) o0 order ls s' o,
    run sys0 ls0 = Ok (s, o0) -> run s (LTick order :: ls ++ [LTickPick]) = Ok (s', o) -> ~ In LTickPick ls -> no_measurement o ->
    (exists e t, recorded e o0 = Some t) ->
    exists c, y_cur s' = Some c /\ fastest (fun e => recorded e o0) c.
  Proof.
    intros ls0 s o0 order ls s' o R0 R NP U X. destruct (tick_selects_any build esearch cap _ _ _ _ _ _ _ R0 R NP) as (rd & RD & S).
    assert (forall e, rd e = recorded e o0) as EQ.
    { intros e. destruct (RD e) as (o1 & o2 & -> & ->). unfold recorded. rewrite recorded_from_app. apply recorded_none. intros e' t I. apply (U e' t), in_app_iff; auto. }
    destruct S as (c & C & t & F1 & F2). { destruct X as (e & t & X). exists e, t. rewrite EQ. auto. }
    exists c. split; auto. exists t. rewrite <- EQ. split; auto. intros e t' Q. rewrite <- EQ in Q. eauto.
  Qed.
  (** Any tick: the fastest according to what was recorded of each engine at some
      moment of the tick. *)
  Theorem C50_tick_any : forall ls0 (s : sys) o0 order ls s' o,
    run sys0 ls0 = Ok (s, o0) -> run s (LTick order :: ls ++ [LTickPick]) = Ok (s', o) -> ~ In LTickPick ls ->
    exists readings : ename -> option thr,
      (forall e, exists o1 o2, o = o1 ++ o2 /\ readings e = recorded e (o0 ++ o1)) /\
      ((exists e t, readings e = Some t) -> exists c, y_cur s' = Some c /\ fastest readings c).
  Proof. exact (tick_selects_any build esearch cap). Qed.

  (** ** C53 *)
  Theorem C53_published_events : forall ls (s : sys) e n m o1 o2,
    run sys0 ls = Ok (s, o1 ++ OPublished e n m :: o2) -> n = since_published e o1.
  Proof. intros. eapply published_counts; eauto. Qed.
  Theorem C53_events_sum : forall ls (s : sys) o e, run sys0 ls = Ok (s, o) ->
    ended e o = (published e o + since_published e o)%N.
  Proof.
    intros ls s o e R. apply (totals build). intros o1 n m o2 ->. eapply published_counts; eauto.
  Qed.
  (** The number of matching searches, provided that no search of [e] is between
      finding something and having counted it while the monitor of [e] publishes.
      Missing: the other schedules, where the claim is false ([C53_refuted]). *)
  Theorem C53_published_matches_partial : forall ls (s : sys) e n m o1 o2,
    (forall ls1 ls2 s1 o1, ls = ls1 ++ ls2 -> run sys0 ls1 = Ok (s1, o1) -> quiet e s1) ->
    run sys0 ls = Ok (s, o1 ++ OPublished e n m :: o2) -> m = matches_since_published e o1.
  Proof. exact (published_matches build esearch cap). Qed.

  (** ** C62 *)
  (** Published counts are, each once, what main has received, what waits in the
      management channel and what the listener is sending. *)
  Theorem C62_counts_reach_main : forall ls (s : sys) o, run sys0 ls = Ok (s, o) ->
    Permutation (traffic_published o) (traffic_received o ++ under_way s).
  Proof. intros ls s o R. apply (delivered_run build esearch cap _ _ _ R). Qed.
  (** Nothing waits: all of them have arrived. *)
  Theorem C62_counts_all_received : forall ls (s : sys) o, run sys0 ls = Ok (s, o) -> y_mc s = [] -> y_listener s = None ->
    Permutation (traffic_published o) (traffic_received o).
  Proof.
    intros ls s o R M L. pose proof (C62_counts_reach_main ls s o R) as P. unfold under_way in P. rewrite M, L in P. cbn in P. rewrite app_nil_r in P. auto.
  Qed.

  (** ** C63 *)
  (** A search that has begun can always be completed by the goroutines' own
      steps, and it gets an answer. *)
  Theorem C63_search_completes : forall P : ename -> Eng -> Prop,
    (forall e sub, exists eng, build e sub = Ok eng /\ P e eng) ->
    (forall e x eng t, P e eng -> exists a f eng', esearch x eng t = Ok (a, f, eng') /\ P e eng') ->
    forall (x0 : Orc), 0 < cap -> forall ls (s : sys) o t, run sys0 ls = Ok (s, o) -> tag_of s = Some t ->
    exists ls' s' o' e a, forallb internal ls' = true /\ run s ls' = Ok (s', o') /\ y_search s' = SIdle /\ In (OAnswer e t a) o'.
  Proof.
    intros P HB HS x0 C ls s o t R T.
    assert (forall e sub, True -> exists eng, build e sub = Ok eng /\ P e eng) as HB' by (intros; apply HB).
    assert (forall e x eng t, P e eng -> True -> exists a f eng', esearch x eng t = Ok (a, f, eng') /\ P e eng' /\ True) as HS'.
    { intros e x eng t' HP _. destruct (HS e x eng t' HP) as (a & f & eng' & H1 & H2). eauto 10. }
    assert (good (fun _ _ => True) (fun _ => True) P (fun _ _ _ => True) s o) as G.
    { refine (good_run build esearch cap (fun _ _ => True) (fun _ => True) P (fun _ _ _ => True) HB' HS' ls s o _ R).
      apply Forall_forall. intros [] _; exact I. }
    destruct (finish build esearch cap (fun _ _ => True) (fun _ => True) P (fun _ _ _ => True) HB' HS' x0 C s o t G T) as (s' & o' & e & a & (ls' & I' & R') & S' & A').
    exists ls', s', o', e, a. auto.
  Qed.
End AnyEngines.
Print Assumptions C48_stays_active.
Print Assumptions C48_becomes_active.
Print Assumptions C48_engine_generated.
Print Assumptions C48_selected_generated.
Print Assumptions C48_no_crash.
Print Assumptions C48_can_become_active.
Print Assumptions C49_best_announced.
Print Assumptions C49_best_generated.
Print Assumptions C50_tick_selects_fastest.
Print Assumptions C50_tick_any.
Print Assumptions C53_published_events.
Print Assumptions C53_events_sum.
Print Assumptions C53_published_matches_partial.
Print Assumptions C62_counts_reach_main.
Print Assumptions C62_counts_all_received.
Print Assumptions C63_search_completes.

(** *** Cases of C48 and C49 *)
Definition ex_tag : tag := (pcgs1, ex_id).
Definition ex_begin : list (@label subscriptions tag (list nat)) := boot_all ex_chain ++ [LStart].
Example C48_case :
  let r1 := system_run E0 system0 (boot EList ex_chain ++ announce EList) in
  let r2 := system_run E0 system0 (ex_begin ++ all_hit ex_tag) in
  is_active (state_of r1) = true /\ is_active (state_of r2) = true /\
  In (ONotified EList) (seen_of r1) /\ length (seen_of r2) = 17 /\
  nth 15 (seen_of r2) (OGenerated ELegacy) = OSearched EPatricia /\
  nth 16 (seen_of r2) (OGenerated ELegacy) = OAnswer EPatricia ex_tag (ex_uri, [str "http://a"; str "http://b"], false).
Proof. vm_compute. intuition. Qed.
(** No engine has been announced and nothing is measured; then one of lower
    priority is announced after one of higher priority. *)
Example C49_case :
  let r := system_run E0 system0 (boot EList ex_chain ++ boot ESplay ex_chain ++ announce ESplay ++ [LNotify EList 0]) in
  no_measurement (seen_of r) /\ y_cur (state_of r) = Some ESplay /\ In (ONotified EList) (seen_of r) /\
  (forall e', g_fsm (y_gen (state_of r) e') = Unavailable \/ (g_fsm (y_gen (state_of r) e') = Ready /\ g_todo (y_gen (state_of r) e') = [])).
Proof.
  split; [|split; [|split]].
  - intros e t. vm_compute. intuition discriminate.
  - vm_compute. reflexivity.
  - vm_compute. intuition.
  - intros []; vm_compute; auto.
Qed.

(** *** Cases of C50 *)
(** A monitor publishes its counts and its throughput. *)
Definition report (e : ename) : list (@label subscriptions tag (list nat)) :=
  [LMonTick e; LTraffic e; LListenSend; LStatus e; LListenSend; LMonReset e].
Definition tick (order : list ename) : list (@label subscriptions tag (list nat)) :=
  LTick order :: [LTickRead; LTickRead; LTickRead; LTickRead] ++ [LTickPick].
(** Patricia is selected by priority; then the throughputs of the text engine and
    the list are recorded (1/5 and 1/4), and the list replaces it. *)
Example C50_case :
  let r0 := system_run E0 system0 (ex_begin ++ all_hit ex_tag ++ report ELegacy ++ report EList) in
  let r := system_run E0 (state_of r0) (tick [ESplay; ELegacy; EPatricia; EList]) in
  r0 = Ok (state_of r0, seen_of r0) /\ y_cur (state_of r0) = Some EPatricia /\
  recorded ELegacy (seen_of r0) = Some (Thr 1 5) /\ recorded EList (seen_of r0) = Some (Thr 1 4) /\
  r = Ok (state_of r, []) /\ y_cur (state_of r) = Some EList.
Proof. vm_compute. intuition. Qed.

(** *** C53: the counts of matching searches *)
(** One engine, main running, and a search up to the point where something was
    found. *)
Definition ex_one : list (@label subscriptions tag (list nat)) := boot EList ex_chain ++ announce EList ++ [LStart].
Definition find : list (@label subscriptions tag (list nat)) :=
  [LSearch ex_tag ex_order; LVisit; LVisit; LVisit; LVisit; LVisit; LRun []].
(** Counting while the monitor is publishing: the match is lost.  Reading the
    counter before the reset and writing it afterwards: matches are published
    twice.  In both runs nothing is left to publish. *)
Definition ex_lost : list (@label subscriptions tag (list nat)) :=
  ex_one ++ find ++ [LMonTick EList; LTraffic EList; LListenSend; LRead; LWrite; LMonReset EList; LReport 1] ++ report EList.
Definition ex_twice : list (@label subscriptions tag (list nat)) :=
  ex_one ++ find ++ [LRead; LWrite; LReport 1] ++ find ++ [LRead] ++ report EList ++ [LWrite; LReport 1] ++ report EList.
Theorem C53_refuted :
  (exists s o, system_run E0 system0 ex_lost = Ok (s, o) /\ y_search s = SIdle /\ y_cnt s EList = counters0 /\
     matched EList o = 1%N /\ published_matched EList o = 0%N /\ ended EList o = 1%N /\ published EList o = 1%N) /\
  (exists s o, system_run E0 system0 ex_twice = Ok (s, o) /\ y_search s = SIdle /\ y_cnt s EList = counters0 /\
     matched EList o = 2%N /\ published_matched EList o = 3%N /\ ended EList o = 2%N /\ published EList o = 2%N).
Proof.
  split.
  - exists (state_of (system_run E0 system0 ex_lost)), (seen_of (system_run E0 system0 ex_lost)). vm_compute. intuition.
  - exists (state_of (system_run E0 system0 ex_twice)), (seen_of (system_run E0 system0 ex_twice)). vm_compute. intuition.
Qed.
Print Assumptions C53_refuted.
(** Two searches, one report between them and one after: one match each. *)
Definition ex_counted : list (@label subscriptions tag (list nat)) :=
  ex_one ++ find ++ [LRead; LWrite; LReport 1] ++ report EList ++ find ++ [LRead; LWrite; LReport 1] ++ report EList.
Fixpoint prefixes {A} (l : list A) : list (list A) :=
  match l with [] => [[]] | x :: l' => [] :: map (cons x) (prefixes l') end.
Lemma prefixes_all {A} : forall l1 l2 : list A, In l1 (prefixes (l1 ++ l2)).
Proof. induction l1 as [|x l1 IH]; intros l2; [destruct l2; left; auto|]. right. cbn. apply in_map; auto. Qed.
Definition quiet_b (e : ename) (s : @sys subscriptions engine tag search_result) : bool :=
  match c_mon (y_cnt s e) with MoWait => true | _ => negb (counting e s) end.
Example C53_case :
  (forall ls1 ls2 s1 o1, ex_counted = ls1 ++ ls2 -> system_run E0 system0 ls1 = Ok (s1, o1) -> quiet EList s1) /\
  (let o := seen_of (system_run E0 system0 ex_counted) in
   matched EList o = 2%N /\ traffic_published o = [(EList, 1, 1); (EList, 1, 1)]%N).
Proof.
  split; [|vm_compute; auto]. intros ls1 ls2 s1 o1 EQ R.
  assert (forallb (fun ls => quiet_b EList (state_of (system_run E0 system0 ls))) (prefixes ex_counted) = true) as A by (vm_compute; reflexivity).
  rewrite forallb_forall in A. specialize (A ls1). rewrite EQ, R in A. specialize (A (prefixes_all _ _)). unfold quiet_b in A. cbn [state_of] in A.
  unfold quiet. destruct (c_mon (y_cnt s1 EList)); auto; apply negb_true_iff in A; auto.
Qed.

(** *** Cases of C62 and C63 *)
(** Two reports, the first received by main. *)
Example C62_case : let r := system_run E0 system0 (ex_counted ++ [LMainRecv; LMainRecv]) in
  r = Ok (state_of r, seen_of r) /\ traffic_published (seen_of r) = [(EList, 1, 1); (EList, 1, 1)]%N /\
  traffic_received (seen_of r) = [(EList, 1, 1)]%N /\ under_way (state_of r) = [(EList, 1, 1)]%N.
Proof. vm_compute. intuition. Qed.
(** The order in which they arrive is not that in which they were published: the
    listener takes a message out of the channel it forwards to. *)
Theorem C62_order_refuted : exists ls, let o := seen_of (system_run E0 system0 ls) in
  traffic_published o = [(EList, 0, 0); (EList, 1, 1)]%N /\ traffic_received o = [(EList, 1, 1); (EList, 0, 0)]%N.
Proof.
  exists (ex_one ++ [LMainRecv; LMonTick EList; LTraffic EList; LListenSend; LMonReset EList] ++
          find ++ [LRead; LWrite; LReport 1] ++ [LMonTick EList; LTraffic EList; LListenSend; LListenMc; LMainRecv; LListenSend; LMainRecv]).
  vm_compute. auto.
Qed.
Print Assumptions C62_order_refuted.
Example C63_case : let r := system_run E0 system0 (ex_one ++ find) in
  r = Ok (state_of r, seen_of r) /\ tag_of (state_of r) = Some ex_tag.
Proof. vm_compute. intuition. Qed.

(** ** C64 *)
(** What is recorded was measured: it is the throughput of an interval whose
    counts had been published.  Missing: that it is the latest, which is false. *)
Theorem C64_recorded_measured_partial : forall {Sub Eng Tag Orc Ans} (build : ename -> Sub -> result Eng) (esearch : Orc -> Eng -> Tag -> result (Ans * bool * Eng)) cap ls s o1 e t o2,
  run build esearch cap sys0 ls = Ok (s, o1 ++ OStored e t :: o2) -> exists m, In (OPublished e (th_events t) m) o1.
Proof. intros. eapply stored_published; eauto. Qed.
Print Assumptions C64_recorded_measured_partial.
(** The engine got slower (2 events, then 1 event, in the same time); both reports
    are recorded, and then the first is recorded again, as the listener takes it out
    of the channel to main. *)
Theorem C64_refuted : exists ls s o, system_run E0 system0 ls = Ok (s, o) /\
  traffic_published o = [(EList, 2, 2); (EList, 1, 1)]%N /\
  (exists o1 o2, o = o1 ++ OStored EList (Thr 1 2) :: o2) /\ recorded EList o = Some (Thr 2 2).
Proof.
  set (search us := find ++ [LRead; LWrite; LReport us]).
  set (ls := ex_one ++ [LMainRecv] ++ search 1%N ++ search 1%N ++ [LMonTick EList; LTraffic EList; LListenSend; LMainRecv; LStatus EList; LListenSend; LMonReset EList] ++
             search 2%N ++ [LMonTick EList; LTraffic EList; LListenSend; LStatus EList; LListenSend; LMonReset EList; LListenMc]).
  exists ls, (state_of (system_run E0 system0 ls)), (seen_of (system_run E0 system0 ls)).
  split; [vm_compute; reflexivity|]. split; [vm_compute; reflexivity|]. split; [|vm_compute; reflexivity].
  set (o := seen_of (system_run E0 system0 ls)). exists (firstn (length o - 2) o), (skipn (length o - 1) o). vm_compute. reflexivity.
Qed.
Print Assumptions C64_refuted.

(** ** C65 *)
(** A selection main hears of is that of an engine generated before.  Missing:
    that main hears of every selection, which is false. *)
Theorem C65_selection_sound_partial : forall {Sub Eng Tag Orc Ans} (build : ename -> Sub -> result Eng) (esearch : Orc -> Eng -> Tag -> result (Ans * bool * Eng)) cap ls s o1 e o2,
  run build esearch cap sys0 ls = Ok (s, o1 ++ OMain (MSelected (Some e)) :: o2) -> In (OGenerated e) o1.
Proof. intros. eapply selected_generated; eauto. Qed.
Print Assumptions C65_selection_sound_partial.
(** All goroutines are at rest, the channel is empty, an engine is selected, and
    main has received nothing: the listener has taken the message. *)
Theorem C65_refuted : exists ls s o, system_run E0 system0 ls = Ok (s, o) /\
  y_cur s = Some EList /\ y_mc s = [] /\ y_listener s = None /\ (forall m, ~ In (OMain m) o).
Proof.
  exists (boot EList ex_chain ++ announce EList ++ [LListenMc]). eexists _, _. split; [vm_compute; reflexivity|].
  split; [reflexivity|]. split; [reflexivity|]. split; [reflexivity|]. intros m. cbn. intuition discriminate.
Qed.
Print Assumptions C65_refuted.
Example C65_case : let r := system_run E0 system0 (ex_one ++ [LMainRecv]) in
  seen_of r = [OGenerated EList; ONotified EList; OMain (MSelected (Some EList))].
Proof. vm_compute. reflexivity. Qed.

(** ** C60 *)
(** Every generator is given the same subscriptions, in some order of the map, and
    every searched tag is one the engines can decide. *)
Definition fit_run (E : env) (sub : subscriptions) (ls : list (@label subscriptions tag (list nat))) : Prop :=
  (forall e sub', In (LInit e sub') ls -> Permutation sub sub') /\
  (forall t order, In (LSearch t order) ls -> fit_tag E sub t).
Lemma fit_good E sub ls : fit_run E sub ls ->
  Forall (good_label (Orc := list nat) (fun _ sub' => Permutation sub sub') (fit_tag E sub)) ls.
Proof.
  intros [H1 H2]. apply Forall_forall. intros l I. destruct l; cbn [good_label]; auto; eauto.
Qed.
Lemma fit_answers E sub ls s o : fit E sub -> fit_run E sub ls -> system_run E system0 ls = Ok (s, o) ->
  forall e t a, In (OAnswer e t a) o -> fit_tag E sub t /\ right_answer E sub e t a.
Proof.
  intros F FR R e t a I.
  pose proof (good_run (build_engine E) engine_search queue_size (fun _ sub' => Permutation sub sub') (fit_tag E sub) (derived E sub) (right_answer E sub)
    (fun e sub' => build_derived E sub F e sub') (fun e x eng t => search_derived E sub F e x eng t) ls s o (fit_good E sub ls FR) R) as G.
  exact (gd_answers _ _ _ _ _ _ G e t a I).
Qed.
(** The factory does not crash, whatever the interleaving ... *)
Theorem C60_no_crash_partial : forall E sub ls, fit E sub -> fit_run E sub ls -> system_run E system0 ls <> Panic.
Proof.
  intros E sub ls F FR.
  exact (good_no_panic (build_engine E) engine_search queue_size (fun _ sub' => Permutation sub sub') (fit_tag E sub) (derived E sub) (right_answer E sub)
    (fun e sub' => build_derived E sub F e sub') (fun e x eng t => search_derived E sub F e x eng t) ls (fit_good E sub ls FR)).
Qed.
Print Assumptions C60_no_crash_partial.
(** ... and whichever engine was selected, the answer is the one the subscriptions
    call for: the URIs that ask for a prefix of the tag's identifier. *)
Theorem C60_answers_partial : forall E sub ls s o, fit E sub -> fit_run E sub ls -> system_run E system0 ls = Ok (s, o) ->
  forall e t a, In (OAnswer e t a) o -> e <> ELegacy ->
  exists uris, (forall u, In u uris <-> exists k, wants E sub k u /\ id_has_prefix (snd t) k) /\
    answers (translate (fst t) (snd t)) uris (Ok a).
Proof.
  intros E sub ls s o F FR R e t a I NL. destruct (fit_answers E sub ls s o F FR R e t a I) as ((W & NE & D & T) & A).
  assert (list_search (new_list E sub) (fst t) (snd t) = Ok a) as A' by (destruct e; auto; congruence). clear A.
  destruct (C07_list_search E sub [] (fst t) (snd t)) as (us & RE & AN); cbn [list_run fold_left] in *.
  - rewrite C07_list_fresh, entries_keys. apply F.
  - auto.
  - rewrite C07_list_fresh, entries_keys. auto.
  - rewrite C07_list_fresh in RE. rewrite A' in AN. exists us. split; auto. intros u. rewrite (reported_In _ _ _ _ RE).
    split; intros (k & H1 & H2); exists k; (split; [|auto]); apply (to_byte_unshared E sub); auto; apply F.
Qed.
Print Assumptions C60_answers_partial.
(** The text engine, by its own rule (C17). *)
Theorem C60_legacy_answers_partial : forall E sub ls s o, fit E sub -> fit_run E sub ls -> system_run E system0 ls = Ok (s, o) ->
  forall t pure uris failed, In (OAnswer ELegacy t (pure, uris, failed)) o -> forall u,
  In u uris <-> exists local pats pat, translate (fst t) (snd t) = Ok pure /\ local_part pure local /\
    In (u, pats) sub /\ In pat pats /\ selects pat local.
Proof.
  intros E sub ls s o F FR R t pure uris failed I u. destruct (fit_answers E sub ls s o F FR R ELegacy t _ I) as (_ & A). cbn in A.
  inversion A as [|p us us' fl PU E1 E2]. subst.
  rewrite <- (C17_reported sub (fst t) (snd t) pure us failed (eq_sym E1) u). split; apply Permutation_in; auto using Permutation_sym.
Qed.
Print Assumptions C60_legacy_answers_partial.
(** A change of the selected engine cannot be seen: two answers to the same tag are
    the same, in one run or in two. *)
Theorem C60_selection_invisible_partial : forall E sub ls1 s1 o1 ls2 s2 o2, fit E sub -> fit_run E sub ls1 -> fit_run E sub ls2 ->
  system_run E system0 ls1 = Ok (s1, o1) -> system_run E system0 ls2 = Ok (s2, o2) ->
  forall e1 e2 t a1 a2, In (OAnswer e1 t a1) o1 -> In (OAnswer e2 t a2) o2 -> e1 <> ELegacy -> e2 <> ELegacy -> a1 = a2.
Proof.
  intros E sub ls1 s1 o1 ls2 s2 o2 F FR1 FR2 R1 R2 e1 e2 t a1 a2 I1 I2 N1 N2.
  destruct (fit_answers E sub ls1 s1 o1 F FR1 R1 e1 t a1 I1) as (_ & A1). destruct (fit_answers E sub ls2 s2 o2 F FR2 R2 e2 t a2 I2) as (_ & A2).
  assert (Ok a1 = Ok a2 :> result search_result) as X; [|congruence].
  rewrite <- (match e1 return e1 <> ELegacy -> right_answer E sub e1 t a1 -> list_search (new_list E sub) (fst t) (snd t) = Ok a1 with
    ELegacy => fun N _ => False_ind _ (N eq_refl) | _ => fun _ H => H end N1 A1).
  destruct e2; auto; congruence.
Qed.
Print Assumptions C60_selection_invisible_partial.
Lemma ex_chain_fit : fit E0 ex_chain.
Proof.
  pose proof C16_hypotheses as (H1 & H2 & H3 & H4 & _ & _ & H7 & _). constructor; auto.
  - unfold ex_chain. cbn [map fst]. repeat apply NoDup_cons; try apply NoDup_nil; intros I; cbn in I; repeat (destruct I as [I|I]; [discriminate I|]); destruct I.
  - apply unshared_b. vm_compute. reflexivity.
Qed.
Lemma ex_tag_fit : fit_tag E0 ex_chain ex_tag.
Proof.
  pose proof C16_hypotheses as (_ & _ & _ & _ & H5 & H6 & _). destruct (H5 ex_id ltac:(left; reflexivity)) as [W D].
  split; [exact W|]. split; [exact H6|]. split; [exact D|]. vm_compute. discriminate.
Qed.
(** Four engines, two searches; the second after the selection has changed, with a
    subscription message in between. *)
Definition ex_change : list (@label subscriptions tag (list nat)) :=
  ex_begin ++ all_hit ex_tag ++ report ELegacy ++ report EList ++ tick ex_order ++ [LTickSend; LMainRecv; LMainRecv; LMainRecv] ++
  [LSearch ex_tag ex_order] ++ hit 5 ++ [LVisit] ++ hit 3 ++ hit 2 ++ hit 4.
Example C60_case : fit_run E0 ex_chain ex_change /\
  (exists s o, system_run E0 system0 ex_change = Ok (s, o) /\
    In (OAnswer EPatricia ex_tag (ex_uri, [str "http://a"; str "http://b"], false)) o /\
    In (OAnswer EList ex_tag (ex_uri, [str "http://a"; str "http://b"], false)) o).
Proof.
  split.
  - split; intros.
    + cbn in H. repeat (destruct H as [H|H]; [try discriminate H; injection H as <- <-; reflexivity|]). destruct H.
    + cbn in H. repeat (destruct H as [H|H]; [try discriminate H; injection H as <- <-; apply ex_tag_fit|]). destruct H.
  - eexists _, _. split; [vm_compute; reflexivity|]. split; cbn; intuition.
Qed.
(** Outside those limits answers depend on the selected engine: with a single
    subscription the list answers, and the trie, which has the higher priority,
    does not. *)
Definition ex_single : subscriptions := [(str "http://a", [str "urn:epc:pat:sgtin-96:3.12345678"])].
Theorem C60_refuted : exists ls1 ls2 s1 s2 o1 o2,
  system_run E0 system0 ls1 = Ok (s1, o1) /\ system_run E0 system0 ls2 = Ok (s2, o2) /\
  (forall e sub, In (LInit e sub) (ls1 ++ ls2) -> sub = ex_single) /\ fit_tag E0 ex_single ex_tag /\
  In (OAnswer EList ex_tag (ex_uri, [str "http://a"], false)) o1 /\
  In (OAnswer EPatricia ex_tag ([], [], true)) o2.
Proof.
  exists (boot EList ex_single ++ announce EList ++ [LStart] ++ find ++ [LRead; LWrite; LReport 1]).
  exists (boot EList ex_single ++ announce EList ++ boot EPatricia ex_single ++ announce EPatricia ++ [LStart; LSearch ex_tag ex_order; LVisit] ++ hit 1 ++ [LVisit; LVisit] ++ miss 1).
  do 4 eexists. split; [vm_compute; reflexivity|]. split; [vm_compute; reflexivity|]. split; [|split; [|split]].
  - intros e sub I. cbn in I. repeat (destruct I as [I|I]; [try discriminate I; injection I as _ <-; reflexivity|]). destruct I.
  - split; [apply ex_tag_fit|]. split; [apply ex_tag_fit|]. split; [apply long_decides; vm_compute; reflexivity|]. vm_compute. discriminate.
  - cbn; intuition.
  - cbn; intuition.
Qed.
Print Assumptions C60_refuted.

(** ** C61 *)
(** From patterns and encoded tags to the factory's answers: the URIs with a
    pattern that names leading fields of the tag, and the tag's URN. *)
Theorem C61_end_to_end_partial : forall E s ls, epc_fit s ->
  (forall e sub, In (LInit e sub) ls -> Permutation (sub_texts s) sub) ->
  (forall t order, In (LSearch t order) ls -> exists k f, epc_tag k f t) ->
  system_run E system0 ls <> Panic /\
  forall st o, system_run E system0 ls = Ok (st, o) ->
  forall e t a k f, In (OAnswer e t a) o -> e <> ELegacy -> epc_tag k f t ->
  exists uris, (forall u, In u uris <-> exists p, subscribed s u p /\ leads p k f) /\
    a = match uris with [] => ([], [], true) | _ => (urn_of k f, uris, false) end.
Proof.
  intros E s ls F HI HT. pose proof (epc_fit_fit E s F) as F'. pose proof (ef_ok s F) as OK.
  assert (fit_run E (sub_texts s) ls) as FR.
  { split; auto. intros t order I. destruct (HT t order I) as (k & f & ET). eapply epc_tag_fit; eauto. }
  split; [eapply C60_no_crash_partial; eauto|].
  intros st o R e t a k f I NL ET. destruct (fit_answers E _ ls st o F' FR R e t a I) as (_ & A).
  assert (list_search (new_list E (sub_texts s)) (fst t) (snd t) = Ok a) as A' by (destruct e; auto; congruence). clear A.
  destruct ET as (HP & U & E' & EN).
  destruct (C47_end_to_end_partial E' E s k f (fst t) HP U OK (ef_unshared s F)) as (id & uris & EN' & S1 & S2).
  assert (id = snd t) as -> by congruence. rewrite A' in S2. exists uris. split; auto. destruct uris; congruence.
Qed.
Print Assumptions C61_end_to_end_partial.
(** The text engine reports the URIs with a pattern whose text, filter value
    apart, the tag's URN begins with; the first part of C61 applies to it as well
    under the conditions of C18. *)
Theorem C61_legacy_partial : forall E s ls st o, epc_fit s ->
  (forall e sub, In (LInit e sub) ls -> Permutation (sub_texts s) sub) ->
  (forall t order, In (LSearch t order) ls -> exists k f, epc_tag k f t) ->
  system_run E system0 ls = Ok (st, o) ->
  forall t a k f, In (OAnswer ELegacy t a) o -> epc_tag k f t ->
  exists uris, (forall u, In u uris <-> exists p, subscribed s u p /\ p_scheme p = k /\
      is_prefix (dotted (tl (firstn (p_count p) (field_texts (p_fields p))))) (dotted (id_texts k f))) /\
    a = (urn_of k f, uris, match uris with [] => true | _ => false end).
Proof.
  intros E s ls st o F HI HT R t a k f I ET. pose proof (epc_fit_fit E s F) as F'. pose proof (ef_ok s F) as OK.
  assert (fit_run E (sub_texts s) ls) as FR.
  { split; auto. intros t' order I'. destruct (HT t' order I') as (k' & f' & ET'). eapply epc_tag_fit; eauto. }
  destruct (fit_answers E _ ls st o F' FR R ELegacy t a I) as (_ & A). cbn in A.
  destruct ET as (HP & U & E' & EN).
  destruct (C18_legacy_exact E' s k f (fst t) (sub_texts s) HP U OK (Permutation_refl _)) as (id & uris & EN' & S1 & S2).
  assert (id = snd t) as -> by congruence. rewrite S2 in A. inversion A as [|p us us' fl PU E1 E2].
  exists us'. assert (us = uris /\ p = urn_of k f /\ fl = match uris with [] => true | _ => false end) as (-> & -> & ->) by (destruct uris; injection E1 as -> -> ->; auto).
  split.
  - intros u. rewrite <- S1. split; apply Permutation_in; auto using Permutation_sym.
  - destruct uris as [|x us]; [apply Permutation_nil in PU; subst; auto|]. destruct us'; auto. apply Permutation_sym, Permutation_nil in PU. discriminate.
Qed.
Print Assumptions C61_legacy_partial.
(** Three URIs, four patterns, one of which covers another; a tag selected by two. *)
Definition covers_b (p q : epc_pattern) : bool :=
  let f := p_fields p in let g := p_fields q in
  Nat.leb (p_count p) (p_count q) && (header (p_scheme p) =? header (p_scheme q))%N && (dec_value (f_filter g) =? dec_value (f_filter f))%N &&
  (Nat.leb (p_count p) 1 || (Nat.eqb (fields_partition g) (fields_partition f) && (dec_value (f_cp g) =? dec_value (f_cp f))%N)) &&
  (Nat.leb (p_count p) 2 || (dec_value (f_ref g) =? dec_value (f_ref f))%N) &&
  (Nat.leb (p_count p) 3 || (dec_value (f_ser g) =? dec_value (f_ser f))%N).
Lemma covers_b_ok p q : covers_b p q = true <-> covers p q.
Proof.
  unfold covers_b, covers, leads. rewrite !andb_true_iff, !orb_true_iff, andb_true_iff, !N.eqb_eq, !Nat.leb_le, Nat.eqb_eq. split.
  - intros (((((H1 & H2) & H3) & H4) & H5) & H6). split; auto. split; [apply header_inj; auto|]. split; auto. split; [|split]; intros L.
    + destruct H4; [lia|auto].
    + destruct H5; [lia|auto].
    + destruct H6; [lia|auto].
  - intros (H1 & H2 & H3 & H4 & H5 & H6). rewrite H2. repeat split; auto.
    + destruct (Nat.le_gt_cases (p_count p) 1); auto.
    + destruct (Nat.le_gt_cases (p_count p) 2); auto.
    + destruct (Nat.le_gt_cases (p_count p) 3); auto.
Qed.
Example C61_case : epc_fit ex_epc_subs /\
  (forall id, encode Sgtin E0 ex_f1 = Ok (id, [], []) ->
   let ls := boot EPatricia (sub_texts ex_epc_subs) ++ announce EPatricia ++ [LStart; LSearch (pcgs1, id) ex_order; LVisit; LVisit; LVisit; LVisit; LVisit; LRun []; LRead; LWrite; LReport 1] in
   epc_tag Sgtin ex_f1 (pcgs1, id) /\
   exists s o, system_run E0 system0 ls = Ok (s, o) /\
     In (OAnswer EPatricia (pcgs1, id) (urn_of Sgtin ex_f1, [str "http://a"; str "http://c"], false)) o).
Proof.
  assert (forall u p, subscribed ex_epc_subs u p -> In (u, p) (flat_map (fun e => map (pair (fst e)) (snd e)) ex_epc_subs)) as FL.
  { intros u p (ps & I & J). apply in_flat_map. exists (u, ps). split; auto. apply in_map; auto. }
  assert (forall u p, In (u, p) (flat_map (fun e => map (pair (fst e)) (snd e)) ex_epc_subs) -> subscribed ex_epc_subs u p) as LF.
  { intros u p I. apply in_flat_map in I. destruct I as ((v & ps) & I & J). cbn [fst snd] in J. apply in_map_iff in J. destruct J as (q & X & J). injection X as -> ->. exists ps. auto. }
  split.
  - constructor; try apply C47_hypotheses.
    + unfold ex_epc_subs. cbn [map fst]. repeat apply NoDup_cons; try apply NoDup_nil; intros I; cbn in I; repeat (destruct I as [I|I]; [discriminate I|]); destruct I.
    + do 2 eexists. apply LF. left. reflexivity.
    + intros u p S. apply FL in S. cbn in S. repeat (destruct S as [S|S]; [injection S as <- <-; discriminate|]). destruct S.
    + intros u p S. apply FL in S.
      assert (forallb (fun x => existsb (fun y => negb (covers_b (snd x) (snd y))) (flat_map (fun e => map (pair (fst e)) (snd e)) ex_epc_subs))
        (flat_map (fun e => map (pair (fst e)) (snd e)) ex_epc_subs) = true) as A by (vm_compute; reflexivity).
      rewrite forallb_forall in A. specialize (A (u, p) S). apply existsb_exists in A. destruct A as ((u' & q) & I & A). exists u', q. split; auto.
      cbn [snd] in A. apply negb_true_iff in A. rewrite <- covers_b_ok. congruence.
    + intros u p u1 q1 u2 q2 S S1 S2 C1 C2. apply FL in S, S1, S2.
      set (all := flat_map (fun e => map (pair (fst e)) (snd e)) ex_epc_subs) in *.
      assert (forallb (fun x => forallb (fun y => forallb (fun z => negb (covers_b (snd x) (snd y)) || negb (covers_b (snd x) (snd z)) ||
        covers_b (snd y) (snd z) || covers_b (snd z) (snd y)) all) all) all = true) as A by (vm_compute; reflexivity).
      rewrite forallb_forall in A. specialize (A _ S). rewrite forallb_forall in A. specialize (A _ S1). rewrite forallb_forall in A. specialize (A _ S2).
      cbn [snd] in A. apply covers_b_ok in C1, C2. rewrite C1, C2 in A. cbn in A. apply orb_true_iff in A. rewrite !covers_b_ok in A. exact A.
  - intros id EN ls. split.
    + split; [exists 48%N, 0%N; split; reflexivity|]. split; [apply C40_hypotheses|]. exists E0. exact EN.
    + vm_compute in EN. injection EN as <-. eexists _, _. split; [vm_compute; reflexivity|]. cbn. intuition.
Qed.

(** ** C51 *)
(** Management messages change nothing: the listener discards them
    (filtering/engine_factory.go:138-165 are commented out).  After the messages an
    added subscription is not reported and a deleted one still is. *)
Theorem C51_refuted : exists ls s o,
  let add := MAdd (str "urn:epc:pat:sgtin-96:3.12345678.00001.1") (str "http://d") in
  let delete := MDelete (str "urn:epc:pat:sgtin-96:3.12345678.00001") (str "http://b") in
  ls = ex_begin ++ repeat LMainRecv 4 ++ [LEnv add; LListenMc; LEnv delete; LListenMc] ++ all_hit ex_tag /\
  system_run E0 system0 ls = Ok (s, o) /\
  In (OAnswer EPatricia ex_tag (ex_uri, [str "http://a"; str "http://b"], false)) o /\
  list_search (new_list E0 [(str "http://a", [str "urn:epc:pat:sgtin-96:3.12345678"]); (str "http://c", [str "urn:epc:pat:sscc-96:3.12345678"]);
    (str "http://d", [str "urn:epc:pat:sgtin-96:3.12345678.00001.1"])]) pcgs1 ex_id = Ok (ex_uri, [str "http://a"; str "http://d"], false).
Proof.
  eexists _, _, _. split; [reflexivity|]. split; [vm_compute; reflexivity|]. split; [|vm_compute; reflexivity]. cbn. intuition.
Qed.
Print Assumptions C51_refuted.
(** For every run: a management message, when the listener takes it, is gone and
    nothing else has changed; in particular no engine, no state of a generator and
    no answer depends on it. *)
Theorem C51_messages_ignored : forall {Sub Eng Tag Orc Ans} (build : ename -> Sub -> result Eng) (esearch : Orc -> Eng -> Tag -> result (Ans * bool * Eng)) cap
    (s : @sys Sub Eng Tag Ans) m q, (exists p u, m = MAdd p u \/ m = MDelete p u) -> y_listener s = None -> y_mc s = m :: q ->
  step build esearch cap s LListenMc = Ok (set_mc s q, []).
Proof. intros Sub Eng Tag Orc Ans build esearch cap s m q (p & u & [-> | ->]) L M; unfold step, listening; rewrite L, M; reflexivity. Qed.
Print Assumptions C51_messages_ignored.
(** The management message of C51_refuted is in the channel when the listener takes it. *)
Example C51_case : let add := MAdd (str "urn:epc:pat:sgtin-96:3.12345678.00001.1") (str "http://d") in
  let s := state_of (system_run E0 system0 (ex_begin ++ repeat LMainRecv 4 ++ [LEnv add])) in
  y_listener s = None /\ y_mc s = [add].
Proof. split; vm_compute; reflexivity. Qed.
