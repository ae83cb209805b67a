(** More invariants of runs of the engine factory: answers, selection, counts. *)
From Coq Require Import Permutation Lia ZifyBool ZifyNat ZifyN.
From Verif Require Import GoBase MGenerator MFactory PFactory.

Section Runs.
  Context {Sub Eng Tag Orc Ans : Type} (build : ename -> Sub -> result Eng)
    (esearch : Orc -> Eng -> Tag -> result (Ans * bool * Eng)) (cap : nat).
  Notation step := (step build esearch cap).
  Notation run := (run build esearch cap).
  Notation sys := (@sys Sub Eng Tag Ans).
  Notation obs := (@obs Tag Ans).
  Notation label := (@label Sub Tag Orc).
  Notation inv := (@inv Sub Eng Tag Ans).

  (** Invariants that may look at the labels. *)
  Lemma run_inv_l (L : label -> Prop) (I : sys -> list obs -> Prop) :
    (forall s o l s' o', L l -> I s o -> step s l = Ok (s', o') -> I s' (o ++ o')) ->
    forall ls s o s' o', Forall L ls -> I s o -> run s ls = Ok (s', o') -> I s' (o ++ o').
  Proof.
    intros ST. induction ls as [|l ls IH]; intros s o s' o' FL HI R; cbn [MFactory.run] in R.
    - injection R as <- <-. rewrite app_nil_r. auto.
    - apply Forall_cons_iff in FL. destruct FL as [FL1 FL2].
      destruct (step s l) as [[s1 o1]| |] eqn:E; cbn [bind] in R; try discriminate.
      destruct (run s1 ls) as [[s2 o2]| |] eqn:E2; cbn [bind] in R; try discriminate. injection R as <- <-.
      rewrite app_assoc. eapply IH; eauto.
  Qed.
  Lemma run_no_panic_l (L : label -> Prop) (I : sys -> list obs -> Prop) :
    (forall s o l s' o', L l -> I s o -> step s l = Ok (s', o') -> I s' (o ++ o')) ->
    (forall s o l, L l -> I s o -> step s l <> Panic) ->
    forall ls s o, Forall L ls -> I s o -> run s ls <> Panic.
  Proof.
    intros ST NP. induction ls as [|l ls IH]; intros s o FL HI; cbn [MFactory.run]; [discriminate|].
    apply Forall_cons_iff in FL. destruct FL as [FL1 FL2].
    specialize (NP s o l FL1 HI). destruct (step s l) as [[s1 o1]| |] eqn:E; cbn [bind]; try congruence.
    specialize (IH s1 (o ++ o1) FL2 (ST _ _ _ _ _ FL1 HI E)).
    destruct (run s1 ls) as [[s2 o2]| |] eqn:E2; cbn [bind]; congruence.
  Qed.

  Ltac simp := cbn [set_gen set_cnt set_listener set_cur set_perf set_ticker set_mc set_main set_search
    y_gen y_cnt y_cur y_perf y_listener y_ticker y_mc y_main y_search c_events c_matched c_time c_mon counters0 g_fsm g_engine g_todo th_events th_time] in *.

  (** *** What a step can do, seen by its parts *)
  Lemma handle_spec m (s s' : sys) o' : handle m s = Ok (s', o') ->
    y_gen s' = y_gen s /\ y_cnt s' = y_cnt s /\ y_ticker s' = y_ticker s /\ y_mc s' = y_mc s /\ y_main s' = y_main s /\ y_search s' = y_search s.
  Proof.
    intros H. destruct m; cbn [handle] in H; try (injection H as <- <-; simp; auto 10; fail).
    destruct (g_engine (y_gen s e)); [|discriminate]. injection H as <- <-.
    destruct (match y_cur s with Some c => _ | None => _ end); simp; auto 10.
  Qed.
  Lemma put_spec m (s s' : sys) : put cap m s = Ok s' -> s' = set_mc s (y_mc s ++ [m]).
  Proof. unfold put. destruct (Nat.ltb _ _); [|discriminate]. intros H. injection H as <-. reflexivity. Qed.

  (** The labels that can touch the generators or the searcher; every other step
      leaves both alone. *)
  Definition silent (l : label) : bool :=
    match l with LInit _ _ | LTask _ _ | LNotify _ _ | LSearch _ _ | LVisit | LRun _ | LRead | LWrite | LReport _ => false | _ => true end.
  Lemma silent_step l (s s' : sys) o' : silent l = true -> step s l = Ok (s', o') ->
    y_gen s' = y_gen s /\ y_search s' = y_search s /\ (forall e t a, ~ In (OAnswer e t a) o') /\ (forall e, ~ In (OSearched e) o') /\ (forall e, ~ In (OMatched e) o') /\
    (forall e, ~ In (OGenerated e) o').
  Proof.
    assert (forall m (s s' : sys) o', handle m s = Ok (s', o') -> forall x, In x o' -> (exists e, x = ONotified e) \/ exists e t, x = OStored e t) as HO.
    { intros m s0 s1 o1 H x I. destruct m; cbn [handle] in H; try (injection H as <- <-; cbn in I; intuition eauto; fail).
      destruct (g_engine (y_gen s0 e)); [|discriminate]. injection H as <- <-. cbn in I. intuition eauto. }
    intros SI H. destruct l as [e sub|e i|e i|e|e|e|e| | |order| | | | |m| |t order| |x| | |us]; try discriminate; cbn [MFactory.step] in H.
    - destruct (c_mon _); try discriminate. injection H as <- <-. simp. cbn. intuition.
    - destruct (c_mon _); try discriminate. destruct (listening s); [|discriminate].
      cbn [handle bind] in H. injection H as <- <-. simp. cbn. intuition discriminate.
    - destruct (c_mon _); try discriminate. destruct (listening s); [|discriminate]. cbn [handle] in H. injection H as <- <-. simp. cbn. intuition discriminate.
    - destruct (c_mon _); try discriminate. injection H as <- <-. simp. cbn. intuition.
    - destruct (listening s); [|discriminate]. destruct (y_mc s) as [|m q]; [discriminate|]. pose proof (HO _ _ _ _ H) as HO'.
      apply handle_spec in H. simp. destruct H as (-> & _ & _ & _ & _ & ->).
      split; auto. split; auto. repeat split; intros; intro I; apply HO' in I; destruct I as [(? & I)|(? & ? & I)]; discriminate.
    - destruct (y_listener s) as [m|]; [|discriminate]. destruct (put cap m s) as [s1| |] eqn:P; cbn [bind] in H; try discriminate.
      injection H as <- <-. apply put_spec in P. subst s1. simp. cbn. intuition.
    - destruct (y_ticker s); try discriminate. destruct (is_order order); [|discriminate]. injection H as <- <-. simp. cbn. intuition.
    - destruct (y_ticker s) as [|[|e rest] read|]; try discriminate. injection H as <- <-. simp. cbn. intuition.
    - destruct (y_ticker s) as [|[|e rest] read|]; try discriminate. injection H as <- <-. simp. cbn. intuition.
    - destruct (y_ticker s) as [| |m]; try discriminate. destruct (put cap m s) as [s1| |] eqn:P; cbn [bind] in H; try discriminate.
      injection H as <- <-. apply put_spec in P. subst s1. simp. cbn. intuition.
    - destruct (y_mc s) as [|m q]; [discriminate|]. injection H as <- <-. simp. cbn. intuition discriminate.
    - destruct m; try discriminate; destruct (put cap _ s) as [s1| |] eqn:P; cbn [bind] in H; try discriminate; injection H as <- <-; apply put_spec in P; subst s1; simp; cbn; intuition.
    - destruct (y_cur s); [|discriminate]. injection H as <- <-. simp. cbn. intuition.
  Qed.
  Lemma do_task_cases e i g t r g' b : take_out i (g_todo g) = Some (t, r) -> do_task (build e) t r g = Ok (g', b) ->
    (g_engine g' = g_engine g \/ exists sub eng, t = TBuild (Some sub) /\ build e sub = Ok eng /\ g_engine g' = Some eng) /\
    (forall sub, In (TBuild (Some sub)) (g_todo g') -> In (TBuild (Some sub)) (g_todo g)).
  Proof.
    intros T D.
    assert (forall x, In x r -> In x (g_todo g)) as RI.
    { clear D. revert i r T. generalize (g_todo g). induction l as [|y l IH]; intros i r T; [destruct i; discriminate|]. destruct i as [|i]; cbn [take_out] in T.
      - injection T as -> ->. intros x I. right; auto.
      - destruct (take_out i l) as [[z q]|] eqn:E; [|discriminate]. injection T as -> <-. intros x [->|I]; [left; auto|right; eapply IH; eauto]. }
    destruct t as [[sub|]| | |]; cbn [do_task] in D; try discriminate.
    - destruct (build e sub) as [eng| |] eqn:B; cbn [bind] in D; try discriminate. injection D as <- <-. simp. split; [right; eauto|].
      intros x I. apply in_app_iff in I. destruct I as [I|[I|[]]]; [auto|discriminate].
    - injection D as <- <-. unfold fire. simp. destruct (g_fsm g); cbn [fsm_next fst g_engine g_todo enter]; split; auto; intros x I; auto;
        apply in_app_iff in I; destruct I as [I|[I|[]]]; auto; discriminate.
    - injection D as <- <-. unfold fire. simp. destruct (g_fsm g); cbn [fsm_next fst g_engine g_todo enter]; split; auto; intros x I; auto;
        apply in_app_iff in I; destruct I as [I|[I|[]]]; auto; discriminate.
    - injection D as <- <-. simp. auto.
  Qed.

  (** *** Right answers: whatever holds of freshly built engines, is kept by
      searches and makes the answers right, makes all answers right. *)
  Section Kept.
    Context (S : ename -> Sub -> Prop) (T : Tag -> Prop) (P : ename -> Eng -> Prop) (R : ename -> Tag -> Ans -> Prop).
    Context (HB : forall e sub eng, S e sub -> build e sub = Ok eng -> P e eng).
    Context (HS : forall e x eng t a f eng', P e eng -> T t -> esearch x eng t = Ok (a, f, eng') -> P e eng' /\ R e t a).
    Definition good_label (l : label) : Prop :=
      match l with LInit e sub => S e sub | LSearch t _ => T t | _ => True end.
    Record good (s : sys) (o : list obs) : Prop := {
      gd_inv : inv s o;
      gd_todo : forall e sub, In (TBuild (Some sub)) (g_todo (y_gen s e)) -> S e sub;
      gd_eng : forall e eng, g_engine (y_gen s e) = Some eng -> P e eng;
      gd_search : match y_search s with
                  | SIdle => True
                  | SLoop t _ | SRun t _ _ => T t
                  | SRead a t e _ | SWrite a t e _ _ | SReport a t e _ => T t /\ R e t a
                  end;
      gd_answers : forall e t a, In (OAnswer e t a) o -> T t /\ R e t a }.
    Lemma good0 : good sys0 [].
    Proof. constructor; try exact (inv0 build); cbn; intros; try tauto; try discriminate. Qed.
    Lemma kept_step s o l s' o' : good_label l -> good s o -> step s l = Ok (s', o') -> good s' (o ++ o').
    Proof.
      intros GL V H. pose proof (inv_step build esearch cap _ _ _ _ _ (gd_inv _ _ V) H) as V'.
      destruct V as [V1 V2 V3 V4 V5]. destruct (silent l) eqn:SL.
      - destruct (silent_step _ _ _ _ SL H) as (G & SE & NA & _). constructor; auto; rewrite ?G, ?SE; auto.
        intros e t a I. apply in_app_iff in I. destruct I as [I|I]; [eauto|destruct (NA _ _ _ I)].
      - assert (forall e g, (forall sub, In (TBuild (Some sub)) (g_todo g) -> S e sub) -> (forall eng, g_engine g = Some eng -> P e eng) ->
          (forall e' sub, In (TBuild (Some sub)) (g_todo (upd (y_gen s) e g e')) -> S e' sub) /\
          (forall e' eng, g_engine (upd (y_gen s) e g e') = Some eng -> P e' eng)) as UPD.
        { intros e g A B. split; intros e' y; destruct (upd_cases (y_gen s) e g e') as [[-> ->]|[_ ->]]; eauto. }
        destruct l as [e sub|e i|e i|e|e|e|e| | |order| | | | |m| |t order| |x| | |us]; try discriminate; cbn [MFactory.step good_label] in *.
        + injection H as <- <-. destruct (UPD e (fst (fire EvInit (Some sub) (y_gen s e)))) as [A B].
          * intros y. unfold fire. destruct (g_fsm (y_gen s e)); cbn [fsm_next fst g_todo enter]; intros I; eauto.
            apply in_app_iff in I. destruct I as [I|[I|[]]]; eauto. injection I as <-. auto.
          * intros eng. rewrite fire_engine. auto.
          * constructor; simp; auto. rewrite app_nil_r. auto.
        + destruct (take_out i (g_todo (y_gen s e))) as [[t r]|] eqn:TO; [|discriminate].
          assert ((let! (g, _) := do_task (build e) t r (y_gen s e) in Ok (set_gen s e g, match t with TBuild _ => [OGenerated e] | _ => [] end)) = Ok (s', o')) as H'
            by (destruct t; auto; discriminate). clear H.
          destruct (do_task (build e) t r (y_gen s e)) as [[g b]| |] eqn:D; cbn [bind] in H'; try discriminate. injection H' as <- <-.
          destruct (do_task_cases _ _ _ _ _ _ _ TO D) as [DE DT]. destruct (UPD e g) as [A B].
          * intros sub I. eauto.
          * intros eng E. destruct DE as [DE|(sub & eng' & -> & BE & DE)]; rewrite DE in E; [eauto|]. injection E as <-.
            apply (HB e sub); [apply V2; eapply take_out_In; eauto|auto].
          * constructor; simp; auto. intros e' t' a I. apply in_app_iff in I. destruct I as [I|I]; [eauto|]. destruct t; cbn in I; intuition discriminate.
        + destruct (listening s); [|discriminate]. destruct (take_out i (g_todo (y_gen s e))) as [[[]r]|] eqn:TO; try discriminate.
          destruct (do_task (build e) TNotify r (y_gen s e)) as [[g b]| |] eqn:D; cbn [bind] in H; try discriminate.
          destruct (do_task_cases _ _ _ _ _ _ _ TO D) as [DE DT]. destruct (UPD e g) as [A B].
          * intros sub I. eauto.
          * intros eng E. destruct DE as [DE|(sub & eng' & TE & _)]; [rewrite DE in E; eauto|discriminate].
          * assert (o' = [ONotified e]) as ->. { cbn [handle] in H. destruct (g_engine _); [|discriminate]. injection H as <- <-. reflexivity. }
            pose proof (handle_spec _ _ _ _ H) as (HG & _ & _ & _ & _ & HSE). constructor; auto; rewrite ?HG, ?HSE; simp; auto.
            intros e' t' a I. apply in_app_iff in I. destruct I as [I|I]; [eauto|]. cbn in I. intuition discriminate.
        + destruct (y_search s) eqn:SS; try discriminate. destruct (_ && _); [|discriminate]. injection H as <- <-. constructor; simp; auto. rewrite app_nil_r. auto.
        + destruct (y_search s) as [|t [|e rest]| | | |] eqn:SS; try discriminate.
          * destruct (y_cur s); [|discriminate]. injection H as <- <-. constructor; simp; auto. rewrite app_nil_r. auto.
          * injection H as <- <-. constructor; simp; auto; [destruct (_ && _); auto|]. rewrite app_nil_r. auto.
        + destruct (y_search s) as [| |t e k| | |] eqn:SS; try discriminate. destruct (g_engine (y_gen s e)) as [eng|] eqn:E; [|discriminate].
          destruct (esearch x eng t) as [[[a f] eng']| |] eqn:ES; cbn [bind] in H; try discriminate. injection H as <- <-.
          destruct (HS e x eng t a f eng' (V3 _ _ E) V4 ES) as (PE & RA).
          destruct (UPD e {| g_fsm := g_fsm (y_gen s e); g_engine := Some eng'; g_todo := g_todo (y_gen s e) |}) as [A B]; simp; eauto; [congruence|].
          constructor; simp; auto; [destruct f; auto|]. intros e' t' a' I. apply in_app_iff in I. destruct I as [I|I]; [eauto|]. destruct f; cbn in I; intuition discriminate.
        + destruct (y_search s) eqn:SS; try discriminate. injection H as <- <-. constructor; simp; auto. rewrite app_nil_r. auto.
        + destruct (y_search s) eqn:SS; try discriminate. injection H as <- <-. constructor; simp; auto. rewrite app_nil_r. auto.
        + destruct (y_search s) as [| | | | |a t e k] eqn:SS; try discriminate. destruct (c_mon _); try discriminate.
          destruct (goes_on a t e k) as [x o1] eqn:G. injection H as <- <-. unfold goes_on in G. constructor; simp; auto.
          * destruct k; injection G as <- <-; tauto.
          * intros e' t' a' I. apply in_app_iff in I. destruct I as [I|I]; [eauto|]. destruct k; injection G as <- <-; cbn in I; [intuition discriminate|].
            destruct I as [I|[I|[]]]; [discriminate|]. injection I as <- <- <-. auto.
    Qed.
    Lemma kept_run ls s o : Forall good_label ls -> run sys0 ls = Ok (s, o) -> good s o.
    Proof. intros FL R'. apply (run_inv_l good_label good kept_step ls sys0 [] s o FL good0 R'). Qed.
  End Kept.
  Section Good.
    Context (S : ename -> Sub -> Prop) (T : Tag -> Prop) (P : ename -> Eng -> Prop) (R : ename -> Tag -> Ans -> Prop).
    Context (HB : forall e sub, S e sub -> exists eng, build e sub = Ok eng /\ P e eng).
    Context (HS : forall e x eng t, P e eng -> T t -> exists a f eng', esearch x eng t = Ok (a, f, eng') /\ P e eng' /\ R e t a).
    Notation good := (good S T P R).
    Notation good_label := (good_label S T).
    Lemma good_step s o l s' o' : good_label l -> good s o -> step s l = Ok (s', o') -> good s' (o ++ o').
    Proof.
      apply kept_step.
      - intros e sub eng H B. destruct (HB e sub H) as (eng' & B' & PE). congruence.
      - intros e x eng t a f eng' H HT B. destruct (HS e x eng t H HT) as (a' & f' & eng2 & B' & PE & RA). rewrite B in B'. injection B' as <- <- <-. auto.
    Qed.
    Lemma good_run ls s o : Forall good_label ls -> run sys0 ls = Ok (s, o) -> good s o.
    Proof. intros FL R'. apply (run_inv_l good_label good good_step ls sys0 [] s o FL (good0 S T P R) R'). Qed.
    Lemma good_no_panic ls : Forall good_label ls -> run sys0 ls <> Panic.
    Proof.
      intros FL. apply (run_no_panic_l good_label good good_step) with (o := []); auto; [|exact (good0 S T P R)].
      intros s o l GL V. eapply step_total; [| |apply V].
      - intros e sub I. destruct (HB e sub) as (eng & -> & _); [eapply gd_todo; eauto|discriminate].
      - intros x e eng t k SS E. pose proof (gd_search _ _ _ _ _ _ V) as G. rewrite SS in G.
        destruct (HS e x eng t) as (a & f & eng' & -> & _); [eapply gd_eng; eauto|auto|discriminate].
    Qed.
  End Good.
End Runs.
