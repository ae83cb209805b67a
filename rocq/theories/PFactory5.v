(** Match counts, delivery of counts, and progress. *)
From Coq Require Import Permutation Lia ZifyBool ZifyNat ZifyN.
From Verif Require Import GoBase MGenerator MFactory SpecFactory PFactory PFactory2 PFactory3 PFactory4.

Section Runs.
  Context {Sub Eng Tag Orc Ans : Type} (build : ename -> Sub -> result Eng)
    (esearch : Orc -> Eng -> Tag -> result (Ans * bool * Eng)) (cap : nat).
  Notation step := (step build esearch cap).
  Notation run := (run build esearch cap).
  Notation sys := (@sys Sub Eng Tag Ans).
  Notation obs := (@obs Tag Ans).
  Notation label := (@label Sub Tag Orc).
  Notation inv := (@inv Sub Eng Tag Ans).

  Ltac simp := cbn [set_gen set_cnt set_listener set_cur set_perf set_ticker set_mc set_main set_search
    y_gen y_cnt y_cur y_perf y_listener y_ticker y_mc y_main y_search c_events c_matched c_time c_mon counters0 g_fsm g_engine g_todo th_events th_time] in *.
  Ltac crunch H := repeat (cbn [bind handle fst snd] in H; unfold put, goes_on in H;
    first [discriminate H | match type of H with
      | context [handle ?m _] => is_var m; destruct m
      | context [match ?x with _ => _ end] => destruct x eqn:?
      | context [bind ?x _] => destruct x eqn:? end]).
  Ltac cases_of l H := destruct l as [? ?|? ?|? ?|?|?|?|?| | |?| | | | |?| |? ?| |?| | |?]; cbn [MFactory.step] in H; crunch H; injection H as <- <-;
    try match goal with E : match ?k with Some _ => _ | None => _ end = (_, _) |- _ => destruct k; injection E as <- <- end.

  (** *** Match counts *)
  Definition mcounted (e : ename) (s : sys) (o : list obs) : Prop :=
    (match c_mon (y_cnt s e) with
     | MoWait => (c_matched (y_cnt s e) + (if counting e s then 1 else 0) = matches_since_published e o)%N
     | MoTraffic _ m => m = c_matched (y_cnt s e) /\ m = matches_since_published e o
     | MoStatus _ | MoReset => matches_since_published e o = 0%N
     end) /\
    (match y_search s with SWrite _ _ e' _ m => e' = e -> m = c_matched (y_cnt s e) | _ => True end).
  Lemma mcounted_step e s o l s' o' : quiet e s -> quiet e s' -> mcounted e s o -> step s l = Ok (s', o') -> mcounted e s' (o ++ o').
  Proof.
    unfold mcounted, matches_since_published, quiet, counting. intros Q Q' [C W] H. rewrite !matches_from_app.
    cases_of l H; simp; cbn [matches_from] in *; auto.
    all: try match goal with |- context [upd (y_cnt ?s0) ?e0 ?c0 ?e1] => destruct (upd_cases (y_cnt s0) e0 c0 e1) as [[EQ UE]|[NE UE]]; rewrite UE in *; clear UE end; simp.
    all: try (subst; rewrite ?ename_eqb_refl in * ); try (rewrite ename_neq in * by congruence).
    all: try (auto; fail).
    all: repeat match goal with E : c_mon (y_cnt _ _) = _ |- _ => rewrite E in *; clear E end.
    all: try (split; [|destruct (y_search _); auto; fail]).
    all: try (intuition (try lia; try congruence); fail).
    - destruct Q' as [Q'|Q']; [discriminate|]. rewrite Q' in C. split; auto. lia.
    - destruct Q as [Q|Q]; [discriminate|]. rewrite Q. split; [lia|]. destruct (y_search s); auto. intros ->. rewrite ename_eqb_refl in Q. discriminate.
    - destruct (ename_eqb_spec e0 e) as [->|NE]; [|destruct (c_mon (y_cnt s e)); auto; lia].
      destruct Q' as [Q'|Q']; [|discriminate]. rewrite Q' in *. lia.
    - destruct Q as [Q|Q]; [|discriminate]. rewrite Q in *. specialize (W eq_refl). lia.
  Qed.
  Lemma mcounted_run e ls s o : (forall ls1 ls2 s1 o1, ls = ls1 ++ ls2 -> run sys0 ls1 = Ok (s1, o1) -> quiet e s1) ->
    run sys0 ls = Ok (s, o) -> mcounted e s o.
  Proof.
    revert s o. induction ls as [|l ls IH] using rev_ind; intros s o QA R.
    - cbn in R. injection R as <- <-. split; [reflexivity|exact I].
    - pose proof R as R0. rewrite run_app in R. destruct (run sys0 ls) as [[s1 o1]| |] eqn:E; cbn [bind] in R; try discriminate.
      cbn [MFactory.run] in R. destruct (step s1 l) as [[s2 o2]| |] eqn:E2; cbn [bind] in R; try discriminate. injection R as <- <-. rewrite app_nil_r.
      eapply mcounted_step; [| | |exact E2].
      + eapply (QA ls [l]); eauto.
      + eapply (QA (ls ++ [l]) []); eauto. rewrite app_nil_r. reflexivity.
      + eapply IH; eauto. intros ls1 ls2 s3 o3 -> R. eapply (QA ls1 (ls2 ++ [l])); eauto. rewrite app_assoc. reflexivity.
  Qed.
  Lemma published_matches ls s e n m o1 o2 : (forall ls1 ls2 s1 o1, ls = ls1 ++ ls2 -> run sys0 ls1 = Ok (s1, o1) -> quiet e s1) ->
    run sys0 ls = Ok (s, o1 ++ OPublished e n m :: o2) -> m = matches_since_published e o1.
  Proof.
    intros QA R. destruct (run_split _ _ _ _ _ _ _ _ _ R) as (ls1 & l & ls2 & s1 & p1 & s2 & q1 & q2 & -> & R1 & ST & -> & _).
    assert (mcounted e s1 p1) as [C _].
    { apply (mcounted_run e ls1); auto. intros a b s3 o3 -> RR. eapply (QA a (b ++ l :: ls2)); eauto. rewrite <- app_assoc. reflexivity. }
    assert (q1 = [] /\ c_mon (y_cnt s1 e) = MoTraffic n m) as [-> M].
    { assert (forall A (x y : A) l1 l2, l1 ++ x :: l2 = [y] -> l1 = [] /\ x = y) as ONE.
      { intros A x y l1 l2 E. destruct l1 as [|z [|]]; cbn in E; try discriminate. injection E as -> _. auto. }
      assert (In (OPublished e n m) (q1 ++ OPublished e n m :: q2)) as J by (apply in_app_iff; right; left; auto).
      remember (q1 ++ OPublished e n m :: q2) as q eqn:Q. clear - ST J Q ONE. cases_of l ST; cbn in J; try tauto;
        repeat match goal with J : _ \/ _ |- _ => destruct J as [J|J] end; try discriminate; try tauto.
      all: injection J as -> -> ->; symmetry in Q; apply ONE in Q; destruct Q; split; auto. }
    rewrite M in C. rewrite app_nil_r. tauto.
  Qed.

  (** *** Every published count reaches main once *)
  Lemma traffic_received_app (o o' : list obs) : traffic_received (o ++ o') = traffic_received o ++ traffic_received o'.
  Proof. induction o as [|x o IH]; cbn [app]; auto. destruct x as [| | | | | | |m]; cbn [traffic_received]; auto. destruct m; cbn [app]; congruence. Qed.
  Lemma traffic_published_app (o o' : list obs) : traffic_published (o ++ o') = traffic_published o ++ traffic_published o'.
  Proof. induction o as [|x o IH]; cbn [app]; auto. destruct x; cbn [traffic_published app]; congruence. Qed.
  Definition delivered (s : sys) (o : list obs) : Prop :=
    Permutation (traffic_published o) (traffic_received o ++ under_way s) /\
    match y_ticker s with TiSend m => traffic_of m = [] | _ => True end.
  Lemma delivered_step s o l s' o' : delivered s o -> step s l = Ok (s', o') -> delivered s' (o ++ o').
  Proof.
    intros [D T] H. unfold delivered in *. rewrite traffic_received_app, traffic_published_app.
    assert (Permutation (traffic_published o' ++ under_way s) (traffic_received o' ++ under_way s') /\ match y_ticker s' with TiSend m => traffic_of m = [] | _ => True end) as [P T'].
    { clear D. unfold under_way, listening in *. cases_of l H; simp; cbn [traffic_published traffic_received traffic_of app flat_map] in *; auto.
      all: rewrite ?flat_map_app; cbn [traffic_of flat_map app]; rewrite ?app_nil_r; auto.
      all: try match goal with E : listening ?s0 = true |- _ => assert (y_listener s0 = None) as LN by (unfold listening in E; destruct (y_listener s0); [discriminate|auto]); rewrite LN; cbn [app] end.
      all: try (split; [reflexivity|auto; fail]).
      - split; [apply Permutation_app_comm|auto].
      - rewrite T, app_nil_r. auto.
      - split; [|auto]. change (match m with MTraffic e n m0 => [(e, n, m0)] | _ => [] end) with (traffic_of m).
        rewrite !app_assoc. apply Permutation_app_tail, Permutation_app_comm. }
    split; auto. rewrite D, <- !app_assoc. apply Permutation_app_head.
    etransitivity; [apply Permutation_app_comm|]. auto.
  Qed.
  Lemma delivered_run ls s o : run sys0 ls = Ok (s, o) -> delivered s o.
  Proof.
    intros R. refine (run_inv build esearch cap delivered _ ls sys0 [] s o _ R); [|split; [constructor|exact I]]. intros ? ? ? ? ?. apply delivered_step.
  Qed.

  (** *** A notification follows every generation *)
  Lemma notified_run ls s o e : run sys0 ls = Ok (s, o) -> g_fsm (y_gen s e) = Ready -> g_todo (y_gen s e) = [] -> In (ONotified e) o.
  Proof.
    intros R. revert e. refine (proj2 (run_inv build esearch cap (fun s o => inv s o /\ forall e, g_fsm (y_gen s e) = Ready -> g_todo (y_gen s e) = [] -> In (ONotified e) o) _ ls sys0 [] s o _ R)).
    - clear. intros s o l s' o' [V A] H. split; [eapply inv_step; eauto|]. intros e.
      assert (y_gen s' e = y_gen s e -> g_fsm (y_gen s' e) = Ready -> g_todo (y_gen s' e) = [] -> In (ONotified e) (o ++ o')) as KEEP.
      { intros -> F T. apply in_app_iff. left. auto. }
      destruct (silent l) eqn:SL.
      { destruct (silent_step _ _ _ _ _ _ _ SL H) as (G & _). apply KEEP. congruence. }
      destruct l as [e0 sub|e0 i|e0 i|e0|e0|e0|e0| | |order| | | | |m| |t order| |y| | |us]; try discriminate; cbn [MFactory.step] in H.
      + injection H as <- <-. simp. destruct (upd_cases (y_gen s) e0 (fst (fire EvInit (Some sub) (y_gen s e0))) e) as [[-> UE]|[NE UE]]; [|auto].
        rewrite UE. unfold fire. pose proof (A e0) as A0. destruct (g_fsm (y_gen s e0)) eqn:F; cbn [fsm_next fst g_fsm g_todo]; try discriminate; rewrite F; try discriminate. rewrite app_nil_r. auto.
      + destruct (take_out i (g_todo (y_gen s e0))) as [[t r]|] eqn:TO; [|discriminate].
        assert ((let! (g, _) := do_task (build e0) t r (y_gen s e0) in Ok (set_gen s e0 g, match t with TBuild _ => [OGenerated e0] | _ => [] end)) = Ok (s', o')) as H'
            by (destruct t; auto; discriminate).
        destruct (do_task (build e0) t r (y_gen s e0)) as [[g b]| |] eqn:D; cbn [bind] in H'; try discriminate. injection H' as <- <-.
        simp. destruct (upd_cases (y_gen s) e0 g e) as [[-> UE]|[NE UE]]; [|auto].
        rewrite UE. pose proof (i_gen _ _ V e0) as GO. unfold gen_ok in GO. destruct (g_fsm (y_gen s e0)) eqn:F; try tauto.
        * destruct GO as [_ GO]. rewrite GO in TO. destruct i; discriminate.
        * destruct GO as [[_ (sub & GO)]|[_ GO]]; rewrite GO in TO; apply take_out_one in TO; destruct TO as [-> ->]; cbn [do_task] in D.
          -- destruct (build e0 sub); cbn [bind] in D; try discriminate. injection D as <- <-. simp. discriminate.
          -- injection D as <- <-. unfold fire. simp. rewrite F. cbn [fsm_next fst g_fsm g_todo enter app]. discriminate.
        * destruct GO as [_ [GO|GO]]; rewrite GO in TO; [|destruct i; discriminate]. apply take_out_one in TO; destruct TO as [-> ->]. discriminate.
      + destruct (listening s); [|discriminate]. destruct (take_out i (g_todo (y_gen s e0))) as [[[]r]|] eqn:TO; try discriminate.
        cbn [do_task bind handle] in H. simp. rewrite upd_same in H. simp. destruct (g_engine (y_gen s e0)) eqn:E; [|discriminate].
        assert (o' = [ONotified e0] /\ y_gen s' = upd (y_gen s) e0 {| g_fsm := g_fsm (y_gen s e0); g_engine := Some e1; g_todo := r |}) as [-> G].
        { injection H as <- <-. split; auto. destruct (match y_cur s with Some c => _ | None => _ end); reflexivity. }
        destruct (ename_eqb_spec e e0) as [->|NE]; [intros; apply in_app_iff; right; left; auto|]. apply KEEP. rewrite G. unfold upd. rewrite ename_neq by auto. reflexivity.
      + destruct (y_search s); try discriminate. destruct (_ && _); [|discriminate]. injection H as <- <-. auto.
      + destruct (y_search s) as [|t [|e1 rest]| | | |] eqn:SS; try discriminate.
        * destruct (y_cur s); [|discriminate]. injection H as <- <-. auto.
        * injection H as <- <-. auto.
      + destruct (y_search s) as [| |t e1 k| | |]; try discriminate. destruct (g_engine (y_gen s e1)) as [eng|] eqn:E; [|discriminate].
        destruct (esearch y eng t) as [[[a f] eng']| |]; cbn [bind] in H; try discriminate. injection H as <- <-. simp.
        destruct (upd_cases (y_gen s) e1 {| g_fsm := g_fsm (y_gen s e1); g_engine := Some eng'; g_todo := g_todo (y_gen s e1) |} e) as [[-> UE]|[NE UE]]; [|auto].
        rewrite UE. simp. intros. apply in_app_iff. left. auto.
      + destruct (y_search s); try discriminate. injection H as <- <-. auto.
      + destruct (y_search s); try discriminate. injection H as <- <-. auto.
      + destruct (y_search s) as [| | | | |a t e1 k]; try discriminate. destruct (c_mon _); try discriminate. unfold goes_on in H.
        destruct k; injection H as <- <-; auto.
    - split; [exact (inv0 build)|]. discriminate.
  Qed.

  (** *** Progress *)
  Definition reach (s s' : sys) (o : list obs) : Prop := exists ls, forallb internal ls = true /\ run s ls = Ok (s', o).
  Lemma reach_refl s : reach s s [].
  Proof. exists []. auto. Qed.
  Lemma reach_trans s s1 s2 o1 o2 : reach s s1 o1 -> reach s1 s2 o2 -> reach s s2 (o1 ++ o2).
  Proof.
    intros (l1 & A1 & B1) (l2 & A2 & B2). exists (l1 ++ l2). rewrite forallb_app, A1, A2, run_app, B1. cbn [bind]. rewrite B2. auto.
  Qed.
  Lemma reach_step s l s' o : internal l = true -> step s l = Ok (s', o) -> reach s s' o.
  Proof. intros A B. exists [l]. cbn [forallb MFactory.run]. rewrite A, B. cbn [bind]. rewrite app_nil_r. auto. Qed.
  Definition alike (s s' : sys) : Prop := y_gen s' = y_gen s /\ y_cur s' = y_cur s /\ y_main s' = y_main s /\ y_search s' = y_search s.

  Lemma drain : forall q s, y_mc s = q -> exists o, reach s (set_mc s []) o.
  Proof.
    induction q as [|m q IH]; intros s Q.
    - exists []. replace (set_mc s []) with s; [apply reach_refl|]. destruct s. cbn in *. subst. reflexivity.
    - destruct (IH (set_mc s q) eq_refl) as (o & R). eexists. eapply reach_trans; [eapply reach_step with (l := LMainRecv); [reflexivity|]|exact R].
      cbn [MFactory.step]. rewrite Q. reflexivity.
  Qed.
  Lemma free_listener s : 0 < cap -> exists s' o, reach s s' o /\ y_listener s' = None /\ y_cnt s' = y_cnt s /\ alike s s'.
  Proof.
    intros C. destruct (y_listener s) as [m|] eqn:L; [|exists s, []; split; [apply reach_refl|]; unfold alike; auto 10].
    destruct (drain _ s eq_refl) as (o & R). eexists _, _. split; [eapply reach_trans; [exact R|]; eapply reach_step with (l := LListenSend); [reflexivity|]|].
    - cbn [MFactory.step]. simp. rewrite L. unfold put. simp. cbn [length]. apply Nat.ltb_lt in C. rewrite C. cbn [bind]. reflexivity.
    - unfold alike. simp. auto 10.
  Qed.
  Lemma alike_trans s s1 s2 : alike s s1 -> alike s1 s2 -> alike s s2.
  Proof. unfold alike. intros (A1 & A2 & A3 & A4) (B1 & B2 & B3 & B4). repeat split; congruence. Qed.
  Lemma free_monitor_reset e s : c_mon (y_cnt s e) = MoReset -> exists s' o, reach s s' o /\ c_mon (y_cnt s' e) = MoWait /\ alike s s'.
  Proof.
    intros M. eexists _, _. split; [eapply reach_step with (l := LMonReset e); [reflexivity|]; cbn [MFactory.step]; rewrite M; reflexivity|].
    unfold alike. simp. rewrite upd_same. auto 10.
  Qed.
  Lemma free_monitor_status e s t : 0 < cap -> c_mon (y_cnt s e) = MoStatus t -> exists s' o, reach s s' o /\ c_mon (y_cnt s' e) = MoWait /\ alike s s'.
  Proof.
    intros C M. destruct (free_listener s C) as (s1 & o1 & R1 & L1 & C1 & A1).
    edestruct (free_monitor_reset e) as (s3 & o3 & R3 & M3 & A3).
    2: { eexists _, _. split; [eapply reach_trans; [exact R1|]; eapply reach_trans; [eapply reach_step with (l := LStatus e); [reflexivity|]|exact R3]|].
         - cbn [MFactory.step]. rewrite C1, M. unfold listening. rewrite L1. cbn [handle]. reflexivity.
         - split; [auto|]. eapply alike_trans; [|exact A3]. unfold alike in *. simp. auto. }
    simp. rewrite upd_same. reflexivity.
  Qed.
  Lemma free_monitor e s : 0 < cap -> exists s' o, reach s s' o /\ c_mon (y_cnt s' e) = MoWait /\ alike s s'.
  Proof.
    intros C. destruct (c_mon (y_cnt s e)) as [|n m|t|] eqn:M.
    - exists s, []. split; [apply reach_refl|]. unfold alike. auto 10.
    - destruct (free_listener s C) as (s1 & o1 & R1 & L1 & C1 & A1).
      assert (exists s2 o2, reach s1 s2 o2 /\ (c_mon (y_cnt s2 e) = MoReset \/ exists t, c_mon (y_cnt s2 e) = MoStatus t) /\ alike s1 s2) as (s2 & o2 & R2 & M2 & A2).
      { eexists _, _. split; [eapply reach_step with (l := LTraffic e); [reflexivity|]|].
        - cbn [MFactory.step]. rewrite C1, M. unfold listening. rewrite L1. cbn [handle bind]. reflexivity.
        - unfold alike. simp. rewrite upd_same. simp. destruct (th_publish _); eauto 10. }
      assert (exists s3 o3, reach s2 s3 o3 /\ c_mon (y_cnt s3 e) = MoWait /\ alike s2 s3) as (s3 & o3 & R3 & M3 & A3).
      { destruct M2 as [M2|(t & M2)]; [apply free_monitor_reset; auto|eapply free_monitor_status; eauto]. }
      exists s3, (o1 ++ o2 ++ o3). split; [eauto using reach_trans|]. split; auto. eauto using alike_trans.
    - eapply free_monitor_status; eauto.
    - apply free_monitor_reset; auto.
  Qed.

  (** An initialised generator can always get its engine selected, or a better
      one is already. *)
  Lemma can_activate ls s o e : 0 < cap -> (forall e sub, exists eng, build e sub = Ok eng) -> run sys0 ls = Ok (s, o) -> g_fsm (y_gen s e) <> Unavailable ->
    exists s' o', reach s s' o' /\ y_cur s' <> None.
  Proof.
    intros C HB R F. pose proof (inv_run build esearch cap _ _ _ R) as V. pose proof (i_gen _ _ V e) as GO. unfold gen_ok in GO.
    assert (forall s, g_fsm (y_gen s e) = Ready -> g_engine (y_gen s e) <> None -> g_todo (y_gen s e) = [TNotify] -> exists s' o', reach s s' o' /\ y_cur s' <> None) as READY.
    { clear - C. intros s F E T. destruct (free_listener s C) as (s1 & o1 & R1 & L1 & C1 & A1 & A2 & A3 & A4).
      destruct (g_engine (y_gen s e)) as [eng|] eqn:GE; [|congruence].
      eexists _, _. split; [eapply reach_trans; [exact R1|]; eapply reach_step with (l := LNotify e 0); [reflexivity|]|].
      - cbn [MFactory.step]. unfold listening. rewrite L1, A1, T. cbn [take_out do_task bind handle]. simp. rewrite upd_same. simp. rewrite GE. reflexivity.
      - simp. destruct (y_cur s1) as [c|] eqn:CU; simp; [destruct (_ <? _)%N; simp; congruence|discriminate]. }
    assert (forall s, g_fsm (y_gen s e) = Generating -> g_engine (y_gen s e) <> None -> g_todo (y_gen s e) = [TDeploy] -> exists s' o', reach s s' o' /\ y_cur s' <> None) as DEPLOY.
    { clear - READY. intros s F E T.
      edestruct (READY (set_gen s e {| g_fsm := Ready; g_engine := g_engine (y_gen s e); g_todo := [TNotify] |})) as (s2 & o2 & R2 & CU);
        try (simp; rewrite upd_same; auto; fail).
      eexists _, _. split; [eapply reach_trans; [eapply reach_step with (l := LTask e 0); [reflexivity|]|exact R2]|auto].
      cbn [MFactory.step]. rewrite T. cbn [take_out do_task bind]. unfold fire. simp. rewrite F. cbn [fsm_next fst g_fsm g_engine g_todo enter app]. reflexivity. }
    destruct (g_fsm (y_gen s e)) eqn:FS; try tauto.
    - destruct GO as [[E (sub & T)]|[E T]]; [|eapply DEPLOY; eauto].
      destruct (HB e sub) as (eng & BE).
      edestruct (DEPLOY (set_gen s e {| g_fsm := Generating; g_engine := Some eng; g_todo := [TDeploy] |})) as (s2 & o2 & R2 & CU);
        try (simp; rewrite upd_same; auto; discriminate).
      eexists _, _. split; [eapply reach_trans; [eapply reach_step with (l := LTask e 0); [reflexivity|]|exact R2]|auto].
      cbn [MFactory.step]. rewrite T. cbn [take_out do_task]. rewrite BE. cbn [bind app]. rewrite FS. reflexivity.
    - destruct GO as [E [T|T]]; [eapply READY; eauto|].
      exists s, []. split; [apply reach_refl|]. eapply notified_active; eauto. exists e. eapply notified_run; eauto.
  Qed.

  (** A search under way can always be finished. *)
  Section Finish.
    Context (S : ename -> Sub -> Prop) (T : Tag -> Prop) (P : ename -> Eng -> Prop) (R : ename -> Tag -> Ans -> Prop).
    Context (HB : forall e sub, S e sub -> exists eng, build e sub = Ok eng /\ P e eng).
    Context (HS : forall e x eng t, P e eng -> T t -> exists a f eng', esearch x eng t = Ok (a, f, eng') /\ P e eng' /\ R e t a).
    Context (x0 : Orc) (C : 0 < cap).
    Notation good := (good S T P R).
    Lemma reach_good s o s' o' : good s o -> reach s s' o' -> good s' (o ++ o').
    Proof.
      intros G (ls & IL & RR). refine (run_inv_l build esearch cap (good_label S T) good _ ls s o s' o' _ G RR).
      - intros. eapply good_step; eauto.
      - apply Forall_forall. intros l J. rewrite forallb_forall in IL. specialize (IL l J). destruct l; try discriminate; exact I.
    Qed.
    Definition after (t : Tag) (e : ename) (k : option (list ename)) (s' : sys) (o' : list obs) : Prop :=
      match k with Some rest => y_search s' = SLoop t rest | None => y_search s' = SIdle /\ exists a, In (OAnswer e t a) o' end.
    Lemma finish_report s a t e k : y_search s = SReport a t e k -> exists s' o', reach s s' o' /\ after t e k s' o'.
    Proof.
      intros SS. destruct (free_monitor e s C) as (s1 & o1 & R1 & M1 & _ & _ & _ & A1).
      destruct (goes_on a t e k) as [x p] eqn:G. eexists _, _. split; [eapply reach_trans; [exact R1|]; eapply reach_step with (l := LReport 0); [reflexivity|]|].
      - cbn [MFactory.step]. rewrite A1, SS, M1, G. reflexivity.
      - unfold after. unfold goes_on in G. destruct k; injection G as <- <-; simp; auto. split; auto. exists a. apply in_app_iff. right. right. left. auto.
    Qed.
    Lemma finish_write s a t e k m : y_search s = SWrite a t e k m -> exists s' o', reach s s' o' /\ after t e k s' o'.
    Proof.
      intros SS. edestruct (finish_report) as (s1 & o1 & R1 & A1).
      2: { exists s1, o1. split; [change o1 with ([] ++ o1); eapply reach_trans; [eapply reach_step with (l := LWrite); [reflexivity|]|exact R1]|exact A1].
           cbn [MFactory.step]. rewrite SS. reflexivity. }
      simp. reflexivity.
    Qed.
    Lemma finish_read s a t e k : y_search s = SRead a t e k -> exists s' o', reach s s' o' /\ after t e k s' o'.
    Proof.
      intros SS. edestruct (finish_write) as (s1 & o1 & R1 & A1).
      2: { exists s1, o1. split; [change o1 with ([] ++ o1); eapply reach_trans; [eapply reach_step with (l := LRead); [reflexivity|]|exact R1]|exact A1].
           cbn [MFactory.step]. rewrite SS. reflexivity. }
      simp. reflexivity.
    Qed.
    Lemma after_app t e k s' o o' : after t e k s' o' -> after t e k s' (o ++ o').
    Proof. unfold after. destruct k; auto. intros [A (a & B)]. split; auto. exists a. apply in_app_iff. auto. Qed.
    Lemma finish_run s o t e k : good s o -> y_search s = SRun t e k -> exists s' o', reach s s' o' /\ after t e k s' o'.
    Proof.
      intros G SS. pose proof (i_search _ _ (gd_inv _ _ _ _ _ _ G)) as SO. unfold search_ok in SO. rewrite SS in SO. destruct SO as [_ SO]. unfold has in SO.
      destruct (g_engine (y_gen s e)) as [eng|] eqn:E; [|congruence].
      pose proof (gd_search _ _ _ _ _ _ G) as GT. rewrite SS in GT.
      destruct (HS e x0 eng t (gd_eng _ _ _ _ _ _ G _ _ E) GT) as (a & f & eng' & ES & _).
      assert (exists s1 o1, reach s s1 o1 /\ (y_search s1 = SRead a t e k \/ y_search s1 = SReport a t e k)) as (s1 & o1 & R1 & S1).
      { eexists _, _. split; [eapply reach_step with (l := LRun x0); [reflexivity|]; cbn [MFactory.step]; rewrite SS, E, ES; cbn [bind]; reflexivity|].
        simp. destruct f; auto. }
      assert (exists s2 o2, reach s1 s2 o2 /\ after t e k s2 o2) as (s2 & o2 & R2 & A2) by (destruct S1; [eapply finish_read|eapply finish_report]; eauto).
      exists s2, (o1 ++ o2). split; [eauto using reach_trans|apply after_app; auto].
    Qed.
    Lemma finish_loop t : forall rest s o, good s o -> y_search s = SLoop t rest -> exists s' o' e a, reach s s' o' /\ y_search s' = SIdle /\ In (OAnswer e t a) o'.
    Proof.
      induction rest as [|e rest IH]; intros s o G SS.
      - pose proof (i_search _ _ (gd_inv _ _ _ _ _ _ G)) as SO. unfold search_ok in SO. rewrite SS in SO.
        destruct (y_cur s) as [c|] eqn:CU; [|congruence].
        assert (reach s (set_search s (SRun t c None)) []) as R1.
        { eapply reach_step with (l := LVisit); [reflexivity|]. cbn [MFactory.step]. rewrite SS, CU. reflexivity. }
        pose proof (reach_good _ _ _ _ G R1) as G1. destruct (finish_run _ _ t c None G1 eq_refl) as (s2 & o2 & R2 & A2 & a & A3).
        exists s2, o2, c, a. split; auto. change o2 with ([] ++ o2). eauto using reach_trans.
      - assert (exists s1, reach s s1 [] /\ (y_search s1 = SLoop t rest \/ y_search s1 = SRun t e (Some rest))) as (s1 & R1 & S1).
        { eexists. split; [eapply reach_step with (l := LVisit); [reflexivity|]; cbn [MFactory.step]; rewrite SS; reflexivity|].
          simp. destruct (_ && _); auto. }
        pose proof (reach_good _ _ _ _ G R1) as G1.
        assert (exists s2 o2, reach s1 s2 o2 /\ y_search s2 = SLoop t rest) as (s2 & o2 & R2 & S2).
        { destruct S1 as [S1|S1]; [exists s1, []; split; [apply reach_refl|auto]|].
          destruct (finish_run _ _ _ _ _ G1 S1) as (s2 & o2 & R2 & A2). eauto. }
        pose proof (reach_good _ _ _ _ G1 R2) as G2.
        destruct (IH _ _ G2 S2) as (s3 & o3 & e3 & a3 & R3 & S3 & A3). exists s3, ([] ++ o2 ++ o3), e3, a3. split; [eauto using reach_trans|]. split; auto.
        cbn. apply in_app_iff. auto.
    Qed.
    Lemma finish s o t : good s o -> tag_of s = Some t -> exists s' o' e a, reach s s' o' /\ y_search s' = SIdle /\ In (OAnswer e t a) o'.
    Proof.
      intros G TG. unfold tag_of in TG.
      assert (forall e k s1 o1, reach s s1 o1 -> after t e k s1 o1 -> exists s' o' e a, reach s s' o' /\ y_search s' = SIdle /\ In (OAnswer e t a) o') as K.
      { intros e k s1 o1 R1 A1. unfold after in A1. destruct k as [rest|].
        - destruct (finish_loop t rest _ _ (reach_good _ _ _ _ G R1) A1) as (s2 & o2 & e2 & a2 & R2 & S2 & A2).
          exists s2, (o1 ++ o2), e2, a2. split; [eauto using reach_trans|]. split; auto. apply in_app_iff. auto.
        - destruct A1 as [A1 (a & A2)]. eauto 10. }
      destruct (y_search s) eqn:SS; try discriminate; injection TG as ->.
      - eapply finish_loop; eauto.
      - destruct (finish_run _ _ _ _ _ G SS) as (s1 & o1 & R1 & A1). eauto.
      - destruct (finish_read _ _ _ _ _ SS) as (s1 & o1 & R1 & A1). eauto.
      - destruct (finish_write _ _ _ _ _ _ SS) as (s1 & o1 & R1 & A1). eauto.
      - destruct (finish_report _ _ _ _ _ SS) as (s1 & o1 & R1 & A1). eauto.
    Qed.
  End Finish.
End Runs.
