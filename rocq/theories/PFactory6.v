(** Recorded throughputs, and what a tick selects while they change. *)
From Verif Require Import GoBase MGenerator MFactory SpecFactory PFactory PFactory2 PFactory3 PFactory4.
From Coq Require Import Lia.

Lemma is_order_NoDup order : is_order order = true -> NoDup order.
Proof.
  destruct order as [|a [|b [|c [|d [|]]]]]; try discriminate. intros H.
  assert (a <> b /\ a <> c /\ a <> d /\ b <> c /\ b <> d /\ c <> d) as (H1 & H2 & H3 & H4 & H5 & H6)
    by (destruct a, b, c, d; try discriminate H; repeat split; discriminate).
  repeat constructor; cbn; intuition congruence.
Qed.

Section Runs.
  Context {Sub Eng Tag Orc Ans : Type} (build : ename -> Sub -> result Eng)
    (esearch : Orc -> Eng -> Tag -> result (Ans * bool * Eng)) (cap : nat).
  Notation step := (step build esearch cap).
  Notation run := (run build esearch cap).
  Notation sys := (@sys Sub Eng Tag Ans).
  Notation obs := (@obs Tag Ans).

  Ltac simp := cbn [set_gen set_cnt set_listener set_cur set_perf set_ticker set_mc set_main set_search
    y_gen y_cnt y_cur y_perf y_listener y_ticker y_mc y_main y_search c_events c_matched c_time c_mon counters0 g_fsm g_engine g_todo th_events th_time] in *.
  Ltac crunch H := repeat (cbn [bind handle fst snd] in H; unfold put, goes_on in H;
    first [discriminate H | match type of H with
      | context [handle ?m _] => is_var m; destruct m
      | context [match ?x with _ => _ end] => destruct x eqn:?
      | context [bind ?x _] => destruct x eqn:? end]).
  Ltac cases_of l H := destruct l as [? ?|? ?|? ?|?|?|?|?| | |?| | | | |?| |? ?| |?| | |?]; cbn [MFactory.step] in H; crunch H; injection H as <- <-;
    try match goal with E : match ?k with Some _ => _ | None => _ end = (_, _) |- _ => destruct k; injection E as <- <- end.

  Lemma stored_sound (s : sys) l s' e t : snd_inv s -> step s l = Ok (s', [OStored e t]) -> positive t.
  Proof.
    intros [V1 V2 V3 V4 V5] H. destruct l as [? ?|? ?|? ?|?|?|?|?| | |?| | | | |?| |? ?| |?| | |?]; cbn [MFactory.step] in H; crunch H; try discriminate H;
      try (match goal with E : match ?k with Some _ => _ | None => _ end = (_, _) |- _ => destruct k; injection E as <- <- end; discriminate H).
    all: injection H as ? ? ?; subst.
    - eauto.
    - inversion V2; subst. auto.
  Qed.
  Lemma recorded_from_app e (o : list obs) : forall r o', recorded_from e r (o ++ o') = recorded_from e (recorded_from e r o) o'.
  Proof. induction o as [|x o IH]; intros r o'; cbn [app]; auto. destruct x; cbn [recorded_from]; auto. Qed.
  Lemma recorded_none e (o : list obs) : (forall e t, ~ In (OStored e t) o) -> forall r, recorded_from e r o = r.
  Proof.
    induction o as [|x o IH]; intros N r; auto. assert (forall e t, ~ In (OStored e t) o) as N' by (intros ? ? J; eapply N; right; eauto).
    destruct x; cbn [recorded_from]; auto. exfalso. eapply N. left. reflexivity.
  Qed.
  Lemma stored_positive e t' : forall ls (s s' : sys) o, snd_inv s -> run s ls = Ok (s', o) -> In (OStored e t') o -> positive t'.
  Proof.
    induction ls as [|l ls IH]; intros s s' o V R J; cbn [MFactory.run] in R; [injection R as <- <-; destruct J|].
    destruct (step s l) as [[s1 q1]| |] eqn:E; cbn [bind] in R; try discriminate.
    destruct (run s1 ls) as [[s2 q2]| |] eqn:E2; cbn [bind] in R; try discriminate. injection R as <- <-.
    apply in_app_iff in J. destruct J as [J|J].
    - destruct (step_perf _ _ _ _ _ _ _ E) as [[_ N]|(e' & t & -> & _)]; [destruct (N _ _ J)|]. destruct J as [J|[]]. injection J as -> ->. exact (stored_sound _ _ _ _ _ V E).
    - eapply (IH s1); eauto. eapply snd_step; eauto.
  Qed.
  Definition val (r : option thr) : thr := match r with Some t => t | None => thr0 end.
  Definition perf_ok (s : sys) (o : list obs) : Prop :=
    snd_inv s /\ forall e, y_perf s e = val (recorded e o) /\ forall t, recorded e o = Some t -> positive t.
  Lemma perf_step s o l s' o' : perf_ok s o -> step s l = Ok (s', o') -> perf_ok s' (o ++ o').
  Proof.
    intros [V P] H. assert (snd_inv s') as V' by (eapply snd_step; eauto). split; auto. intros e. unfold recorded in *. rewrite recorded_from_app.
    destruct (step_perf _ _ _ _ _ _ _ H) as [[-> N]|(e' & t & -> & Q)].
    - rewrite recorded_none by auto. apply P.
    - cbn [recorded_from]. rewrite Q. unfold upd. destruct (ename_eqb_spec e e').
      + subst e'. rewrite ename_eqb_refl. split; auto. intros t' X. injection X as <-.
        exact (stored_sound _ _ _ _ _ V H).
      + rewrite ename_neq by congruence. apply P.
  Qed.
  Lemma perf_run ls s o : run sys0 ls = Ok (s, o) -> perf_ok s o.
  Proof.
    intros R. refine (run_inv build esearch cap perf_ok _ ls sys0 [] s o _ R); [intros; eapply perf_step; eauto|].
    split; [apply snd0|]. intros e. split; auto. intros t X. discriminate.
  Qed.

  Lemma tick_reads_any order o0 : forall ls s o s' o',
    run s ls = Ok (s', o') -> ~ In LTickPick ls -> perf_ok s (o0 ++ o) ->
    (exists rest read, y_ticker s = TiRange rest read /\ order = map fst read ++ rest /\
       forall e t, In (e, t) read -> exists o1 o2, o = o1 ++ o2 /\ t = val (recorded e (o0 ++ o1))) ->
    exists rest read, y_ticker s' = TiRange rest read /\ order = map fst read ++ rest /\
       forall e t, In (e, t) read -> exists o1 o2, o ++ o' = o1 ++ o2 /\ t = val (recorded e (o0 ++ o1)).
  Proof.
    induction ls as [|l ls IH]; intros s o s' o' R NP P (rest & read & T & O & A); cbn [MFactory.run] in R.
    - injection R as <- <-. rewrite app_nil_r. eauto.
    - destruct (step s l) as [[s1 q1]| |] eqn:E; cbn [bind] in R; try discriminate.
      destruct (run s1 ls) as [[s2 q2]| |] eqn:E2; cbn [bind] in R; try discriminate. injection R as <- <-.
      assert (l <> LTickPick /\ ~ In LTickPick ls) as [N1 N2] by (cbn in NP; intuition).
      rewrite app_assoc. apply (IH s1 (o ++ q1) s2 q2 E2 N2).
      + rewrite app_assoc. eapply perf_step; eauto.
      + destruct (step_ticker_range _ _ _ _ _ _ _ _ _ E T N1) as [T1|(e & rest' & -> & T1)].
        * exists rest, read. split; auto. split; auto. intros e t J. destruct (A e t J) as (o1 & o2 & -> & X). exists o1, (o2 ++ q1). rewrite app_assoc. auto.
        * exists rest', (read ++ [(e, y_perf s e)]). split; auto. split; [rewrite map_app, <- app_assoc; exact O|].
          intros e' t J. apply in_app_iff in J. destruct J as [J|[J|[]]].
          -- destruct (A e' t J) as (o1 & o2 & -> & X). exists o1, (o2 ++ q1). rewrite app_assoc. auto.
          -- injection J as <- <-. exists o, q1. split; auto. apply P.
  Qed.
  (** What is selected at the end of a tick is the fastest according to readings
      that were made in its course. *)
  Lemma tick_selects_any ls0 s o0 order ls s' o : run sys0 ls0 = Ok (s, o0) -> run s (LTick order :: ls ++ [LTickPick]) = Ok (s', o) -> ~ In LTickPick ls ->
    exists readings : ename -> option thr,
      (forall e, exists o1 o2, o = o1 ++ o2 /\ readings e = recorded e (o0 ++ o1)) /\
      ((exists e t, readings e = Some t) -> exists c, y_cur s' = Some c /\ fastest readings c).
  Proof.
    intros R0 R NP. pose proof (perf_run _ _ _ R0) as P0. change (LTick order :: ls ++ [LTickPick]) with ([LTick order] ++ ls ++ [LTickPick]) in R.
    rewrite run_app in R. cbn [MFactory.run] in R. destruct (step s (LTick order)) as [[s1 o1]| |] eqn:E1; cbn [bind] in R; try discriminate.
    rewrite run_app in R. destruct (run s1 ls) as [[s2 o2]| |] eqn:E2; cbn [bind] in R; try discriminate. cbn [MFactory.run] in R.
    destruct (step s2 LTickPick) as [[s3 o3]| |] eqn:E3; cbn [bind] in R; try discriminate. injection R as <- <-.
    assert (perf_ok s1 (o0 ++ o1)) as P1 by (eapply perf_step; eauto).
    cbn [MFactory.step] in E1. destruct (y_ticker s) eqn:T; try discriminate. destruct (is_order order) eqn:OO; [|discriminate]. injection E1 as <- <-.
    destruct (tick_reads_any order o0 ls _ [] s2 o2 E2 NP) as (rest & read & T2 & O2 & A2); auto.
    { exists order, []. simp. repeat split; auto. intros ? ? []. }
    cbn [MFactory.step] in E3. rewrite T2 in E3. destruct rest as [|]; [|discriminate]. injection E3 as <- <-. simp.
    rewrite app_nil_r in O2. cbn [app] in *. rewrite app_nil_r.
    assert (forall e, exists t, In (e, t) read) as ALL.
    { intros e. pose proof (is_order_In _ e OO) as J. rewrite O2 in J. apply in_map_iff in J. destruct J as ([e' t] & <- & J). cbn. eauto. }
    assert (exists readings : ename -> option thr, forall e, (exists t, In (e, t) read /\ t = val (readings e)) /\ exists o1 o4, o2 = o1 ++ o4 /\ readings e = recorded e (o0 ++ o1)) as (rd & RD).
    { assert (forall e, exists r, (exists t, In (e, t) read /\ t = val r) /\ exists o1 o4, o2 = o1 ++ o4 /\ r = recorded e (o0 ++ o1)) as X.
      { intros e. destruct (ALL e) as (t & J). destruct (A2 e t J) as (q1 & q2 & Q & ->). eauto 10. }
      destruct (X ELegacy) as (r1 & X1), (X EList) as (r2 & X2), (X EPatricia) as (r3 & X3), (X ESplay) as (r4 & X4).
      exists (fun e => match e with ELegacy => r1 | EList => r2 | EPatricia => r3 | ESplay => r4 end). intros []; auto. }
    exists rd. split; [intros e; destruct (RD e) as (_ & q1 & q2 & Q & X); eauto|].
    assert (forall q1 q2 e t, o2 = q1 ++ q2 -> recorded e (o0 ++ q1) = Some t -> positive t) as NZ.
    { intros q1 q2 e t Q RE. clear - R0 E2 Q RE.
      assert (forall o : list obs, (forall t, In (OStored e t) o -> positive t) -> forall r t, (forall t, r = Some t -> positive t) -> recorded_from e r o = Some t -> positive t) as G.
      { induction o as [|x o IH]; intros N r t' RN; cbn [recorded_from]; [apply RN|]. 
        assert (forall t, In (OStored e t) o -> positive t) as N' by (intros; apply N; right; auto).
        destruct x; try (apply (IH N' r t' RN)). destruct (ename_eqb_spec e0 e); [|apply (IH N' r t' RN)]. subst.
        apply IH; auto. intros t1 X. injection X as <-. apply N; left; auto. }
      refine (G _ _ None t _ RE); [|discriminate]. intros t' J.
      pose proof (stored_positive e t') as K.
      apply in_app_iff in J. destruct J as [J|J]; [apply (K _ _ _ _ (snd0) R0 J)|].
      eapply (K _ _ _ _ _ E2). subst o2. apply in_app_iff; auto. Unshelve.
      pose proof (snd_run _ _ _ _ _ _ R0) as [V1 V2 V3 V4 V5]. constructor; simp; auto. intros ? ? []. }
    assert (forall e t, In (e, t) read -> sound t) as SO.
    { intros e t J. destruct (A2 e t J) as (q1 & q2 & Q & ->). destruct (recorded e (o0 ++ q1)) eqn:RE; cbn [val]; [left; eapply NZ; eauto|right; auto]. }
    pose proof (pick_spec build read SO) as PS. intros (e1 & t1 & RE1).
    destruct (pick read) as [c|].
    - exists c. split; auto. destruct PS as (t & J & NZt & F).
      assert (NoDup (map fst read)) as ND by (rewrite <- O2; apply is_order_NoDup; auto).
      assert (forall e a b, In (e, a) read -> In (e, b) read -> a = b) as UN.
      { clear - ND. induction read as [|[x y] l IH]; intros e a b J K; [destruct J|]. cbn in ND. inversion ND; subst.
        destruct J as [J|J], K as [K|K].
        - congruence.
        - injection J as -> ->. destruct H1. apply in_map_iff. exists (e, b). auto.
        - injection K as -> ->. destruct H1. apply in_map_iff. exists (e, a). auto.
        - eauto. }
      destruct (RD c) as ((tc & Jc & Xc) & _). rewrite (UN _ _ _ Jc J) in *. subst t.
      destruct (rd c) as [tt|] eqn:TT; [|discriminate NZt]. exists tt. split; auto. intros e t' RE.
      destruct (RD e) as ((te & Je & Xe) & _). rewrite RE in Xe. cbn [val] in *. subst te. apply (F _ _ Je).
    - exfalso. destruct (RD e1) as ((te & Je & Xe) & q1 & q2 & Q & X). rewrite RE1 in *. cbn [val] in Xe. subst te.
      apply (PS _ _ Je). apply (NZ q1 q2 e1 t1 Q). congruence.
  Qed.
End Runs.
