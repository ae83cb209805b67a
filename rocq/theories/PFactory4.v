(** Counting, order of use and progress in runs of the engine factory. *)
From Coq Require Import Permutation Lia ZifyBool ZifyNat ZifyN.
From Verif Require Import GoBase MGenerator MFactory SpecFactory PFactory PFactory2 PFactory3.

Lemma ename_neq a b : a <> b -> ename_eqb a b = false.
Proof. destruct (ename_eqb_spec a b); congruence. Qed.

Section Runs.
  Context {Sub Eng Tag Orc Ans : Type} (build : ename -> Sub -> result Eng)
    (esearch : Orc -> Eng -> Tag -> result (Ans * bool * Eng)) (cap : nat).
  Notation step := (step build esearch cap).
  Notation run := (run build esearch cap).
  Notation sys := (@sys Sub Eng Tag Ans).
  Notation obs := (@obs Tag Ans).
  Notation label := (@label Sub Tag Orc).
  Notation inv := (@inv Sub Eng Tag Ans).

  Ltac simp := cbn [set_gen set_cnt set_listener set_cur set_perf set_ticker set_mc set_main set_search
    y_gen y_cnt y_cur y_perf y_listener y_ticker y_mc y_main y_search c_events c_matched c_time c_mon counters0 g_fsm g_engine g_todo th_events th_time] in *.
  Ltac crunch H := repeat (cbn [bind handle fst snd] in H; unfold put, goes_on in H;
    first [discriminate H | match type of H with
      | context [handle ?m _] => is_var m; destruct m
      | context [match ?x with _ => _ end] => destruct x eqn:?
      | context [bind ?x _] => destruct x eqn:? end]).
  Ltac cases_of l H := destruct l as [? ?|? ?|? ?|?|?|?|?| | |?| | | | |?| |? ?| |?| | |?]; cbn [MFactory.step] in H; crunch H; injection H as <- <-;
    try match goal with E : match ?k with Some _ => _ | None => _ end = (_, _) |- _ => destruct k; injection E as <- <- end.

  (** *** Engines are used only after they have been generated *)
  Lemma step_uses s o l s' o' e x : inv s o -> step s l = Ok (s', o') -> In x o' -> uses e x -> has (y_gen s) e.
  Proof.
    intros V H J U. pose proof (i_search _ _ V) as SO. unfold search_ok in SO.
    unfold uses in U. destruct (silent l) eqn:SL.
    - destruct (silent_step _ _ _ _ _ _ _ SL H) as (_ & _ & N1 & N2 & N3 & _).
      destruct U as [->|[->|[->|(t & a & ->)]]]; [|destruct (N3 _ J)|destruct (N2 _ J)|destruct (N1 _ _ _ J)].
      pose proof (i_mc _ _ V) as MC. cases_of l H; cbn in J; intuition try discriminate.
      all: apply Forall_inv in MC; destruct MC.
    - destruct l as [e0 sub|e0 i|e0 i|e0|e0|e0|e0| | |order| | | | |m| |t order| |y| | |us]; try discriminate; cbn [MFactory.step] in H.
      + injection H as <- <-. destruct J.
      + destruct (take_out i (g_todo (y_gen s e0))) as [[t r]|] eqn:TO; [|discriminate].
        assert ((let! (g, _) := do_task (build e0) t r (y_gen s e0) in Ok (set_gen s e0 g, match t with TBuild _ => [OGenerated e0] | _ => [] end)) = Ok (s', o')) as H'
            by (destruct t; auto; discriminate). clear H.
        destruct (do_task (build e0) t r (y_gen s e0)) as [[g b]| |] eqn:D; cbn [bind] in H'; try discriminate. injection H' as <- <-.
        destruct t; cbn in J; try tauto. destruct J as [<-|[]]. destruct U as [U|[U|[U|(? & ? & U)]]]; discriminate.
      + destruct (listening s); [|discriminate]. destruct (take_out i (g_todo (y_gen s e0))) as [[[]r]|] eqn:TO; try discriminate.
        cbn [do_task bind handle] in H. simp. rewrite upd_same in H. simp. unfold has. destruct (g_engine (y_gen s e0)) eqn:E; [|discriminate]. injection H as <- <-.
        destruct J as [<-|[]]. destruct U as [U|[U|[U|(? & ? & U)]]]; try discriminate. injection U as <-. congruence.
      + destruct (y_search s); try discriminate. destruct (_ && _); [|discriminate]. injection H as <- <-. destruct J.
      + destruct (y_search s) as [|t [|e1 rest]| | | |] eqn:SS; try discriminate.
        * destruct (y_cur s); [|discriminate]. injection H as <- <-. destruct J.
        * injection H as <- <-. destruct J.
      + destruct (y_search s) as [| |t e1 k| | |]; try discriminate. destruct (g_engine (y_gen s e1)) as [eng|] eqn:E; [|discriminate].
        destruct (esearch y eng t) as [[[a f] eng']| |]; cbn [bind] in H; try discriminate. injection H as <- <-.
        destruct f; [|destruct J]. destruct J as [<-|[]]. destruct U as [U|[U|[U|(? & ? & U)]]]; try discriminate. injection U as <-. tauto.
      + destruct (y_search s); try discriminate. injection H as <- <-. destruct J.
      + destruct (y_search s); try discriminate. injection H as <- <-. destruct J.
      + destruct (y_search s) as [| | | | |a t e1 k]; try discriminate. destruct (c_mon _); try discriminate. unfold goes_on in H.
        destruct k; injection H as <- <-; cbn in J.
        * destruct J as [<-|[]]. destruct U as [U|[U|[U|(? & ? & U)]]]; try discriminate. injection U as <-. tauto.
        * destruct J as [<-|[<-|[]]]; destruct U as [U|[U|[U|(? & ? & U)]]]; try discriminate; [injection U as <-; tauto|]. injection U as <- <- <-. tauto.
  Qed.
  Lemma used_after ls : forall s o s' o', inv s o -> run s ls = Ok (s', o') ->
    forall o1 x o2 e, o' = o1 ++ x :: o2 -> uses e x -> In (OGenerated e) (o ++ o1).
  Proof.
    induction ls as [|l ls IH]; intros s o s' o' V R o1 x o2 e S U; cbn [MFactory.run] in R.
    - injection R as <- <-. destruct o1; discriminate.
    - destruct (step s l) as [[s1 p1]| |] eqn:E; cbn [bind] in R; try discriminate.
      destruct (run s1 ls) as [[s2 p2]| |] eqn:E2; cbn [bind] in R; try discriminate. injection R as <- <-.
      pose proof (inv_step build esearch cap _ _ _ _ _ V E) as V1.
      assert ((exists q, p1 = o1 ++ x :: q) \/ exists q, o1 = p1 ++ q /\ p2 = q ++ x :: o2) as [(q & P)|(q & -> & P)].
      { clear - S. revert p1 S. induction o1 as [|y o1 IH]; intros p1 S; destruct p1 as [|z p1]; cbn in S.
        - right. exists []. auto.
        - injection S as -> <-. left. exists p1. reflexivity.
        - right. exists (y :: o1). auto.
        - injection S as -> S. destruct (IH _ S) as [(q & ->)|(q & -> & ->)]; [left; exists q; reflexivity|right; exists q; auto]. }
      + apply in_app_iff. left. apply (i_seen _ _ V). eapply step_uses; eauto. rewrite P. apply in_app_iff. right. left. auto.
      + rewrite app_assoc. eapply IH; eauto.
  Qed.
  Lemma stays_active ls : forall s o s' o', inv s o -> run s ls = Ok (s', o') -> y_cur s <> None -> y_cur s' <> None.
  Proof.
    induction ls as [|l ls IH]; intros s o s' o' V R A; cbn [MFactory.run] in R.
    - injection R as <- <-. auto.
    - destruct (step s l) as [[s1 p1]| |] eqn:E; cbn [bind] in R; try discriminate.
      destruct (run s1 ls) as [[s2 p2]| |] eqn:E2; cbn [bind] in R; try discriminate. injection R as <- <-.
      eapply IH; [eapply inv_step; eauto|eauto|].
      destruct (step_cur _ _ _ _ _ _ _ _ V E) as [[-> _]|[(e & _ & ->)|(read & e & _ & _ & _ & ->)]]; auto; try congruence.
      destruct (match y_cur s with Some c => _ | None => _ end); [congruence|auto].
  Qed.
  Lemma notified_active ls s o : run sys0 ls = Ok (s, o) -> (exists e, In (ONotified e) o) -> y_cur s <> None.
  Proof.
    intros R. refine (proj2 (run_inv build esearch cap (fun s o => inv s o /\ ((exists e, In (ONotified e) o) -> y_cur s <> None)) _ ls sys0 [] s o _ R)).
    - clear. intros s o l s' o' [V A] H. split; [eapply inv_step; eauto|]. intros (e & J).
      destruct (step_cur _ _ _ _ _ _ _ _ V H) as [[-> N]|[(e' & _ & ->)|(read & e' & _ & _ & _ & ->)]]; try congruence.
      + apply A. exists e. apply in_app_iff in J. destruct J as [J|J]; [auto|destruct (N _ J)].
      + destruct (y_cur s) as [c|]; [destruct (_ <? _)%N|]; congruence.
    - split; [exact (inv0 build)|]. intros (e & []).
  Qed.

  (** *** Event counts *)
  Lemma count_from_app e o : forall n o', count_from e n (o ++ o' : list obs) = count_from e (count_from e n o) o'.
  Proof. induction o as [|x o IH]; intros n o'; cbn [app]; auto. destruct x; cbn [count_from]; auto. Qed.
  Lemma matches_from_app e o : forall n o', matches_from e n (o ++ o' : list obs) = matches_from e (matches_from e n o) o'.
  Proof. induction o as [|x o IH]; intros n o'; cbn [app]; auto. destruct x; cbn [matches_from]; auto. Qed.
  Definition counted (e : ename) (s : sys) (o : list obs) : Prop :=
    match c_mon (y_cnt s e) with
    | MoWait => c_events (y_cnt s e) = since_published e o
    | MoTraffic n _ => n = c_events (y_cnt s e) /\ n = since_published e o
    | MoStatus _ | MoReset => since_published e o = 0%N
    end.
  (** What a step does to the counters of [e]. *)
  Lemma step_counted e s l s' o' : step s l = Ok (s', o') ->
    let c := y_cnt s e in let c' := y_cnt s' e in
    (c_mon c' = c_mon c /\ c_events c' = c_events c /\ (forall n, count_from e n o' = n)) \/
    (c_mon c = MoWait /\ c_mon c' = MoTraffic (c_events c) (c_matched c) /\ c_events c' = c_events c /\ o' = []) \/
    (exists n m, c_mon c = MoTraffic n m /\ (c_mon c' = MoReset \/ exists t, c_mon c' = MoStatus t) /\ o' = [OPublished e n m]) \/
    ((exists t, c_mon c = MoStatus t) /\ c_mon c' = MoReset /\ (forall n, count_from e n o' = n)) \/
    (c_mon c = MoReset /\ c' = counters0 /\ o' = []) \/
    (c_mon c = MoWait /\ c_mon c' = MoWait /\ c_events c' = (c_events c + 1)%N /\ (forall n, count_from e n o' = n + 1)%N).
  Proof.
    intros H. cbn zeta. cases_of l H; simp; try (left; auto 10; fail); try (left; repeat split; intros; reflexivity).
    all: match goal with |- context [upd (y_cnt ?s0) ?e0 ?c0 ?e1] => destruct (upd_cases (y_cnt s0) e0 c0 e1) as [[-> ->]|[NE ->]] end; simp.
    all: try (left; auto 10; fail).
    all: try (left; split; [reflexivity|]; split; [reflexivity|]; intros; cbn [count_from]; rewrite ename_neq by congruence; reflexivity).
    - right; left. repeat split; auto.
    - right; right; left. eauto 10.
    - right; right; left. eauto 10.
    - right; right; right; left. eauto 10.
    - right; right; right; right; left. auto.
    - right; right; right; right; right. repeat split; auto. intros n. cbn [count_from]. rewrite ename_eqb_refl. reflexivity.
    - right; right; right; right; right. repeat split; auto. intros n. cbn [count_from]. rewrite ename_eqb_refl. reflexivity.
  Qed.
  Lemma counted_step e s o l s' o' : counted e s o -> step s l = Ok (s', o') -> counted e s' (o ++ o').
  Proof.
    unfold counted, since_published. intros C H. rewrite !count_from_app.
    destruct (step_counted e _ _ _ _ H) as [(M & E & N)|[(M & M' & E & ->)|[(n & m & M & M' & ->)|[((t & M) & M' & N)|[(M & -> & ->)|(M & M' & E & N)]]]]].
    - rewrite M, E, N. auto.
    - rewrite M in C. rewrite M', E. cbn. auto.
    - rewrite M in C. cbn [count_from]. rewrite ename_eqb_refl. destruct M' as [->|(t & ->)]; auto.
    - rewrite M in C. rewrite M', N. auto.
    - rewrite M in C. cbn. auto.
    - rewrite M in C. rewrite M', E, N. congruence.
  Qed.
  Lemma counted_run e ls s o : run sys0 ls = Ok (s, o) -> counted e s o.
  Proof.
    intros R. refine (run_inv build esearch cap (counted e) _ ls sys0 [] s o _ R); [|reflexivity]. intros ? ? ? ? ?. apply counted_step.
  Qed.
  (** Where something is seen, a step was made in a state that was reached with
      what was seen before. *)
  Lemma run_split ls : forall s s' o1 x o2, run s ls = Ok (s', o1 ++ x :: o2) ->
    exists ls1 l ls2 s1 p1 s2 q1 q2, ls = ls1 ++ l :: ls2 /\ run s ls1 = Ok (s1, p1) /\ step s1 l = Ok (s2, q1 ++ x :: q2) /\ o1 = p1 ++ q1 /\
      exists o3, run s2 ls2 = Ok (s', o3) /\ o2 = q2 ++ o3.
  Proof.
    induction ls as [|l ls IH]; intros s s' o1 x o2 R; cbn [MFactory.run] in R.
    - injection R as _ R. destruct o1; discriminate.
    - destruct (step s l) as [[s1 p1]| |] eqn:E; cbn [bind] in R; try discriminate.
      destruct (run s1 ls) as [[s2 p2]| |] eqn:E2; cbn [bind] in R; try discriminate. injection R as <- S.
      assert ((exists q, p1 = o1 ++ x :: q /\ o2 = q ++ p2) \/ exists q, o1 = p1 ++ q /\ p2 = q ++ x :: o2) as [(q & -> & ->)|(q & -> & ->)].
      { clear - S. revert p1 S. induction o1 as [|y o1 IH]; intros p1 S; destruct p1 as [|z p1]; cbn in S.
        - right. exists []. auto.
        - injection S as -> <-. left. exists p1. auto.
        - right. exists (y :: o1). auto.
        - injection S as -> S. destruct (IH _ S) as [(q & -> & ->)|(q & -> & ->)]; [left; exists q; auto|right; exists q; auto]. }
      + exists [], l, ls, s, [], s1, o1, q. repeat split; auto. exists p2. auto.
      + destruct (IH _ _ _ _ _ E2) as (ls1 & l' & ls2 & s3 & p3 & s4 & q1 & q2 & -> & R1 & ST & -> & R2).
        exists (l :: ls1), l', ls2, s3, (p1 ++ p3), s4, q1, q2. repeat split; auto.
        * cbn [MFactory.run]. rewrite E. cbn [bind]. rewrite R1. reflexivity.
        * rewrite <- app_assoc. reflexivity.
  Qed.
  Lemma published_counts ls s e n m o1 o2 : run sys0 ls = Ok (s, o1 ++ OPublished e n m :: o2) -> n = since_published e o1.
  Proof.
    intros R. destruct (run_split _ _ _ _ _ _ R) as (ls1 & l & ls2 & s1 & p1 & s2 & q1 & q2 & _ & R1 & ST & -> & _).
    pose proof (counted_run e _ _ _ R1) as C. unfold counted in C.
    assert (q1 = [] /\ c_mon (y_cnt s1 e) = MoTraffic n m) as [-> M].
    { assert (forall A (x y : A) l1 l2, l1 ++ x :: l2 = [y] -> l1 = [] /\ x = y) as ONE.
      { intros A x y l1 l2 E. destruct l1 as [|z [|]]; cbn in E; try discriminate. injection E as -> _. auto. }
      assert (In (OPublished e n m) (q1 ++ OPublished e n m :: q2)) as J by (apply in_app_iff; right; left; auto).
      remember (q1 ++ OPublished e n m :: q2) as q eqn:Q. clear - ST J Q ONE. cases_of l ST; cbn in J; try tauto;
        repeat match goal with J : _ \/ _ |- _ => destruct J as [J|J] end; try discriminate; try tauto.
      all: injection J as -> -> ->; symmetry in Q; apply ONE in Q; destruct Q; split; auto. }
    rewrite M in C. rewrite app_nil_r. tauto.
  Qed.
  Lemma ended_app e o o' : ended e (o ++ o' : list obs) = (ended e o + ended e o')%N.
  Proof. induction o as [|x o IH]; cbn [app]; auto. destruct x; cbn [ended]; auto. rewrite IH. lia. Qed.
  Lemma published_app e o o' : published e (o ++ o' : list obs) = (published e o + published e o')%N.
  Proof. induction o as [|x o IH]; cbn [app]; auto. destruct x; cbn [published]; auto. rewrite IH. lia. Qed.
  Lemma totals e : forall o : list obs, (forall o1 n m o2, o = o1 ++ OPublished e n m :: o2 -> n = since_published e o1) ->
    ended e o = (published e o + since_published e o)%N.
  Proof.
    induction o as [|x o IH] using rev_ind; intros H; [reflexivity|].
    rewrite ended_app, published_app. unfold since_published in *. rewrite count_from_app.
    rewrite IH by (intros o1 n m o2 ->; apply (H o1 n m (o2 ++ [x])); rewrite <- app_assoc; reflexivity).
    destruct x; cbn [ended published count_from]; try lia.
    - destruct (ename_eqb_spec e0 e) as [->|]; [|lia]. rewrite (H o events matched []) by reflexivity. lia.
    - destruct (ename_eqb_spec e0 e); lia.
  Qed.
End Runs.
