(** Runs in which the listener leaves main's messages to main. *)
From Verif Require Import GoBase MFloat MGenerator MFactory SpecFactory PFloat PFactory PFactory2 PFactory3 PFactory4 PFactory5 PFactory6 PFactory7.
From Coq Require Import Lia.

Section Runs.
  Context {Sub Eng Tag Orc Ans : Type} (build : ename -> Sub -> result Eng)
    (esearch : Orc -> Eng -> Tag -> result (Ans * bool * Eng)) (cap : nat).
  Notation step := (step build esearch cap).
  Notation run := (run build esearch cap).
  Notation sys := (@sys Sub Eng Tag Ans).
  Notation obs := (@obs Tag Ans).
  Notation label := (@label Sub Tag Orc).
  Notation leaves := (leaves build esearch cap).

  Ltac simp := cbn [set_gen set_cnt set_listener set_cur set_perf set_ticker set_mc set_main set_search
    y_gen y_cnt y_cur y_perf y_listener y_ticker y_mc y_main y_search c_events c_matched c_time c_mon counters0 g_fsm g_engine g_todo th_events th_time] in *.
  Ltac crunch H := repeat (cbn [bind handle fst snd] in H; unfold put, goes_on in H;
    first [discriminate H | match type of H with
      | context [handle ?m _] => is_var m; destruct m
      | context [match ?x with _ => _ end] => destruct x eqn:?
      | context [bind ?x _] => destruct x eqn:? end]).
  Ltac cases_of l H := destruct l as [? ?|? ?|? ?|?|?|?|?| | |?| | | | |?| |? ?| |?| | |?]; cbn [MFactory.step] in H; crunch H; injection H as <- <-;
    try match goal with E : match ?k with Some _ => _ | None => _ end = (_, _) |- _ => destruct k; injection E as <- <- end.

  (** An invariant of runs in which the listener takes no message of kind [K]. *)
  Definition spares (K : msg -> Prop) (s : sys) (l : label) : Prop := l = LListenMc -> forall m q, y_mc s = m :: q -> ~ K m.
  Lemma leaves_inv (K : msg -> Prop) (I : sys -> list obs -> Prop) : I sys0 [] ->
    (forall s o l s' o', I s o -> spares K s l -> step s l = Ok (s', o') -> I s' (o ++ o')) ->
    forall ls s o, leaves K ls -> run sys0 ls = Ok (s, o) -> I s o.
  Proof.
    intros I0 ST. induction ls as [|l ls IH] using rev_ind; intros s o LV R.
    - cbn in R. injection R as <- <-. auto.
    - rewrite run_app in R. destruct (run sys0 ls) as [[s1 o1]| |] eqn:E; cbn [bind] in R; try discriminate.
      cbn [MFactory.run] in R. destruct (step s1 l) as [[s2 o2]| |] eqn:E2; cbn [bind] in R; try discriminate. injection R as <- <-. rewrite app_nil_r.
      eapply ST; [apply IH; auto| |exact E2].
      + intros ls1 ls2 s3 o3 m q -> R3. apply (LV ls1 (ls2 ++ [l]) s3 o3); auto. rewrite <- app_assoc. reflexivity.
      + intros -> m q Q. eapply (LV ls []); eauto.
  Qed.

  (** *** The last throughput *)
  (** The last report of [e], what was recorded before it. *)
  Fixpoint last_report (e : ename) (r : option (N * option thr)) (rec : option thr) (o : list obs) : option (N * option thr) :=
    match o with
    | [] => r
    | OPublished e' n _ :: o' => last_report e (if ename_eqb e' e then Some (n, rec) else r) rec o'
    | OStored e' t :: o' => last_report e r (if ename_eqb e' e then Some t else rec) o'
    | _ :: o' => last_report e r rec o'
    end.
  Lemma last_report_app e : forall o r rec o', last_report e r rec (o ++ o') = last_report e (last_report e r rec o) (recorded_from e rec o) o'.
  Proof. induction o as [|x o IH]; intros r rec o'; cbn [app last_report recorded_from]; auto. destruct x; auto. Qed.
  Definition reported_ok (e : ename) (s : sys) (o : list obs) : Prop :=
    (match c_mon (y_cnt s e) with MoTraffic n _ => n = c_events (y_cnt s e) | _ => True end) /\
    match last_report e None None o with
    | None => recorded e o = None /\ match c_mon (y_cnt s e) with MoStatus _ => False | _ => True end
    | Some (n, r) =>
        match c_mon (y_cnt s e) with
        | MoStatus t => th_events t = n /\ recorded e o = r
        | _ => (exists t, th_events t = n /\ recorded e o = Some t) \/ (recorded e o = r /\ exists us, th_publish (Thr n us) = false)
        end
    end.
  Lemma reported_step e s o l s' o' : reported_ok e s o -> spares (is_status e) s l -> step s l = Ok (s', o') -> reported_ok e s' (o ++ o').
  Proof.
    unfold reported_ok, recorded. intros [MT V] SP H. rewrite last_report_app, recorded_from_app.
    set (lr := last_report e None None o) in *. set (rc := recorded_from e None o) in *. clearbody lr rc.
    cases_of l H; simp; cbn [last_report recorded_from] in *; auto;
      try (unfold upd; match goal with |- context [ename_eqb e ?x] => destruct (ename_eqb_spec e x) as [<-|NE] end;
           rewrite ?ename_eqb_refl, ?(ename_neq _ e) by congruence; simp; auto).
    all: repeat match goal with E : c_mon (y_cnt _ _) = _ |- _ => rewrite E in *; clear E end.
    all: try (split; [exact I|]). all: auto.
    all: try (destruct (ename_eqb_spec e0 e) as [->|NE']; auto).
    all: try (exfalso; eapply (SP eq_refl); [eassumption|reflexivity]).
    - right. split; auto. rewrite MT. eauto.
    - destruct lr as [[n r]|]; [|tauto]. destruct V as [V _]. left. eauto.
  Qed.
  (** When the monitor has sent what it had to, the last report is what is recorded,
      unless it gave no throughput. *)
  Lemma last_report_none e : forall o r rec, (forall n m, ~ In (OPublished e n m) o) -> last_report e r rec o = r.
  Proof.
    induction o as [|x o IH]; intros r rec N; cbn [last_report]; auto.
    assert (forall n m, ~ In (OPublished e n m) o) as N' by (intros n m J; apply (N n m); right; auto).
    destruct x; auto. destruct (ename_eqb_spec e0 e) as [->|NE]; auto. destruct (N events matched). left; auto.
  Qed.
  Lemma recorded_is_last e ls s o1 n m o2 : leaves (is_status e) ls -> run sys0 ls = Ok (s, o1 ++ OPublished e n m :: o2) ->
    (forall n' m', ~ In (OPublished e n' m') o2) -> (forall t, c_mon (y_cnt s e) <> MoStatus t) ->
    (exists t, th_events t = n /\ recorded e (o1 ++ OPublished e n m :: o2) = Some t) \/
    (recorded e (o1 ++ OPublished e n m :: o2) = recorded e o1 /\ exists us, th_publish (Thr n us) = false).
  Proof.
    intros LV R LA NS.
    assert (reported_ok e s (o1 ++ OPublished e n m :: o2)) as [_ V].
    { refine (leaves_inv (is_status e) (reported_ok e) _ _ ls s _ LV R); [split; cbn; auto|]. intros. eapply reported_step; eauto. }
    rewrite last_report_app in V. cbn [last_report] in V. rewrite ename_eqb_refl, last_report_none in V by auto.
    destruct (c_mon (y_cnt s e)); auto. destruct (NS t eq_refl).
  Qed.

  (** *** Counts in order *)
  Definition queued (s : sys) : list (ename * N * N) :=
    flat_map traffic_of (y_mc s) ++ match y_listener s with Some m => traffic_of m | None => [] end.
  Definition ordered (s : sys) (o : list obs) : Prop :=
    traffic_published o = traffic_received o ++ queued s /\ match y_ticker s with TiSend m => traffic_of m = [] | _ => True end.
  Lemma ordered_step s o l s' o' : ordered s o -> spares is_traffic s l -> step s l = Ok (s', o') -> ordered s' (o ++ o').
  Proof.
    intros [D T] SP H. unfold ordered. rewrite (traffic_received_app), (traffic_published_app), D, <- app_assoc. clear D.
    assert (queued s ++ traffic_published o' = traffic_received o' ++ queued s' /\ match y_ticker s' with TiSend m => traffic_of m = [] | _ => True end) as [-> T'].
    { unfold queued, listening in *. cases_of l H; simp; cbn [traffic_published traffic_received traffic_of app flat_map] in *; auto.
      all: rewrite ?flat_map_app; cbn [traffic_of flat_map app]; rewrite ?app_nil_r; auto.
      all: try match goal with E : listening ?s0 = true |- _ => assert (y_listener s0 = None) as LN by (unfold listening in E; destruct (y_listener s0); [discriminate|auto]); rewrite LN; cbn [app] end.
      all: rewrite ?app_nil_r; auto.
      - exfalso. eapply (SP eq_refl); [eassumption|exact I].
      - rewrite T, app_nil_r. auto.
      - rewrite <- app_assoc. auto. }
    split; [apply app_assoc|auto].
  Qed.
  Lemma ordered_run ls s o : leaves is_traffic ls -> run sys0 ls = Ok (s, o) -> traffic_published o = traffic_received o ++ queued s.
  Proof.
    intros LV R. assert (ordered s o) as [D _]; auto.
    refine (leaves_inv is_traffic ordered _ _ ls s _ LV R); [split; cbn; auto|]. intros. eapply ordered_step; eauto.
  Qed.

  (** *** Selections *)
  Definition in_flight (m : msg) (s : sys) : Prop := y_listener s = Some m \/ y_ticker s = TiSend m \/ In m (y_mc s).
  Lemma flight_step m s l s' o' : in_flight m s -> spares (eq m) s l -> step s l = Ok (s', o') -> in_flight m s' \/ In (OMain m) o'.
  Proof.
    unfold in_flight. intros F SP H. cases_of l H; simp; auto;
      try (unfold listening in *; match goal with E : match y_listener s with Some _ => _ | None => _ end = _ |- _ => destruct (y_listener s) eqn:?; try discriminate E end);
      rewrite ?in_app_iff; cbn [In]; try (left; intuition congruence).
    all: try (pose proof (SP eq_refl _ _ Heql) as NE; cbn [In] in F; left; intuition congruence).
    cbn [In] in F. intuition congruence.
  Qed.
  Lemma flight_run m : forall ls2 ls1 s1 o1 s2 o2, run sys0 ls1 = Ok (s1, o1) -> leaves (eq m) (ls1 ++ ls2) -> run s1 ls2 = Ok (s2, o2) ->
    in_flight m s1 -> in_flight m s2 \/ In (OMain m) o2.
  Proof.
    induction ls2 as [|l ls2 IH]; intros ls1 s1 o1 s2 o2 R1 LV R F; cbn [MFactory.run] in R.
    - injection R as <- <-. auto.
    - destruct (step s1 l) as [[s3 o3]| |] eqn:E; cbn [bind] in R; try discriminate.
      destruct (run s3 ls2) as [[s4 o4]| |] eqn:E2; cbn [bind] in R; try discriminate. injection R as <- <-. rewrite in_app_iff.
      destruct (flight_step m s1 l s3 o3 F) as [F'|F']; auto.
      + intros -> m' q Q. eapply LV; eauto.
      + destruct (IH (ls1 ++ [l]) s3 (o1 ++ o3) s4 o4) as [G|G]; auto.
        * rewrite run_app, R1. cbn [bind MFactory.run]. rewrite E. cbn [bind]. rewrite app_nil_r. reflexivity.
        * rewrite <- app_assoc. auto.
  Qed.
  Lemma selection_sent s l s' o' : step s l = Ok (s', o') -> y_cur s' <> y_cur s -> in_flight (MSelected (y_cur s')) s'.
  Proof. intros H N. unfold in_flight. cases_of l H; simp; try congruence; auto. Qed.
  Lemma selection_told ls1 l ls2 s1 o1 s2 q s3 o3 : run sys0 ls1 = Ok (s1, o1) -> step s1 l = Ok (s2, q) -> y_cur s2 <> y_cur s1 ->
    run s2 ls2 = Ok (s3, o3) -> leaves (eq (MSelected (y_cur s2))) (ls1 ++ l :: ls2) ->
    in_flight (MSelected (y_cur s2)) s3 \/ In (OMain (MSelected (y_cur s2))) o3.
  Proof.
    intros R1 ST N R LV. apply (flight_run (MSelected (y_cur s2)) ls2 (ls1 ++ [l]) s2 (o1 ++ q) s3 o3); auto.
    - rewrite run_app, R1. cbn [bind MFactory.run]. rewrite ST. cbn [bind]. rewrite app_nil_r. reflexivity.
    - rewrite <- app_assoc. auto.
    - eapply selection_sent; eauto.
  Qed.

  (** *** No message without a name *)
  Definition named (s : sys) (o : list obs) : Prop := ~ in_flight (MSelected None) s /\ ~ In (OMain (MSelected None)) o.
  Lemma named_step s o l s' o' : named s o -> (l = LTickPick -> y_cur s <> None) -> step s l = Ok (s', o') -> named s' (o ++ o').
  Proof.
    unfold named, in_flight. intros [F O] A H. rewrite in_app_iff.
    cases_of l H; simp; rewrite ?in_app_iff; cbn [In] in *.
    all: intuition congruence.
  Qed.
  Lemma named_run ls : forall s o, (forall ls1 ls2 s1 o1, ls = ls1 ++ LTickPick :: ls2 -> run sys0 ls1 = Ok (s1, o1) -> y_cur s1 <> None) ->
    run sys0 ls = Ok (s, o) -> named s o.
  Proof.
    induction ls as [|l ls IH] using rev_ind; intros s o A R.
    - cbn in R. injection R as <- <-. unfold named, in_flight. cbn. intuition discriminate.
    - rewrite run_app in R. destruct (run sys0 ls) as [[s1 o1]| |] eqn:E; cbn [bind] in R; try discriminate.
      cbn [MFactory.run] in R. destruct (step s1 l) as [[s2 o2]| |] eqn:E2; cbn [bind] in R; try discriminate. injection R as <- <-. rewrite app_nil_r.
      eapply named_step; [apply IH; auto| |exact E2].
      + intros ls1 ls2 s3 o3 -> R3. apply (A ls1 (ls2 ++ [l]) s3 o3); auto. rewrite <- app_assoc. reflexivity.
      + intros ->. eapply (A ls []); eauto.
  Qed.
  (** *** A selection that is told of was in place *)
  Definition in_place (ls : list label) (c : option ename) : Prop :=
    exists ls1 ls2 s1 o1, ls = ls1 ++ ls2 /\ run sys0 ls1 = Ok (s1, o1) /\ y_cur s1 = c.
  Definition all_in_place (W : option ename -> Prop) (s : sys) (o : list obs) : Prop :=
    forall c, in_flight (MSelected c) s \/ In (OMain (MSelected c)) o -> W c.
  Lemma place_step (W : option ename -> Prop) s o l s' o' : all_in_place W s o -> W (y_cur s') -> step s l = Ok (s', o') -> all_in_place W s' (o ++ o').
  Proof.
    unfold all_in_place, in_flight. intros F A H c. specialize (F c). rewrite in_app_iff.
    cases_of l H; simp; rewrite ?in_app_iff; cbn [In] in *.
    all: try (intuition congruence).
    all: intros X; repeat match type of X with _ \/ _ => destruct X as [X|X] end; try (injection X as <-; exact A); try discriminate; try tauto; apply F; intuition congruence.
  Qed.
  Lemma place_run ls : forall s o, run sys0 ls = Ok (s, o) -> all_in_place (in_place ls) s o.
  Proof.
    induction ls as [|l ls IH] using rev_ind; intros s o R.
    - cbn in R. injection R as <- <-. unfold all_in_place, in_flight. cbn. intros c. intuition discriminate.
    - pose proof R as R0. rewrite run_app in R. destruct (run sys0 ls) as [[s1 o1]| |] eqn:E; cbn [bind] in R; try discriminate.
      cbn [MFactory.run] in R. destruct (step s1 l) as [[s2 o2]| |] eqn:E2; cbn [bind] in R; try discriminate. injection R as <- <-. rewrite app_nil_r in *.
      eapply place_step; [|exists (ls ++ [l]), [], s2, (o1 ++ o2); rewrite app_nil_r; auto|exact E2].
      intros c H. destruct (IH _ _ eq_refl c H) as (a & b & s3 & o3 & -> & X & Y). exists a, (b ++ [l]), s3, o3. rewrite <- app_assoc. auto.
  Qed.
End Runs.
