(** Searches while main does not receive: lemmas. *)
From Coq Require Import Permutation Lia.
From Verif Require Import GoBase MGenerator MFactory SpecFactory PFactory PFactory2 PFactory3 PFactory4 PFactory5 SpecJam.

Section Runs.
  Context {Sub Eng Tag Orc Ans : Type} (build : ename -> Sub -> result Eng)
    (esearch : Orc -> Eng -> Tag -> result (Ans * bool * Eng)) (cap : nat).
  Notation step := (step build esearch cap).
  Notation run := (run build esearch cap).
  Notation sys := (@sys Sub Eng Tag Ans).
  Notation obs := (@obs Tag Ans).
  Notation label := (@label Sub Tag Orc).
  Notation reach0 := (reach build esearch cap).

  Ltac simp := cbn [set_gen set_cnt set_listener set_cur set_perf set_ticker set_mc set_main set_search
    y_gen y_cnt y_cur y_perf y_listener y_ticker y_mc y_main y_search c_events c_matched c_time c_mon counters0 g_fsm g_engine g_todo th_events th_time] in *.
  Ltac crunch H := repeat (cbn [bind handle fst snd] in H; unfold put, goes_on in H;
    first [discriminate H | match type of H with
      | context [handle ?m _] => is_var m; destruct m
      | context [match ?x with _ => _ end] => destruct x eqn:?
      | context [bind ?x _] => destruct x eqn:? end]).
  Ltac cases_of l H := destruct l as [? ?|? ?|? ?|?|?|?|?| | |?| | | | |?| |? ?| |?| | |?]; cbn [MFactory.step] in H; crunch H; injection H as <- <-;
    try match goal with E : match ?k with Some _ => _ | None => _ end = (_, _) |- _ => destruct k; injection E as <- <- end.

  (** *** Counting messages *)
  Lemma owed_upd (f : ename -> counters) e c :
    owed_by (c_mon c) + (owed_by (c_mon (f ELegacy)) + owed_by (c_mon (f EList)) + owed_by (c_mon (f EPatricia)) + owed_by (c_mon (f ESplay))) =
    owed_by (c_mon (f e)) + (owed_by (c_mon (upd f e c ELegacy)) + owed_by (c_mon (upd f e c EList)) + owed_by (c_mon (upd f e c EPatricia)) + owed_by (c_mon (upd f e c ESplay))).
  Proof. destruct e; unfold upd; cbn; lia. Qed.
  Lemma pending_step s l s' o : step s l = Ok (s', o) -> pending s' + received [l] <= pending s + sent [l].
  Proof.
    intros H. unfold pending.
    cases_of l H; simp; cbn [length received sent taking] in *; unfold listening in *;
      repeat match goal with E : y_mc _ = _ |- _ => rewrite E; clear E end;
      repeat match goal with E : y_listener ?s = _ |- _ => rewrite E in *; clear E end;
      repeat match goal with E : y_ticker ?s = _ |- _ => rewrite E in *; clear E end;
      repeat match goal with E : match y_listener ?s with Some _ => false | None => true end = true |- _ => destruct (y_listener s); [discriminate E|] end;
      repeat match goal with |- context [upd (y_cnt ?s) ?e ?c] => let U := fresh in pose proof (owed_upd (y_cnt s) e c) as U; simp;
        generalize dependent (upd (y_cnt s) e c); intros end;
      repeat match goal with E : c_mon (y_cnt _ _) = _ |- _ => rewrite E in *; clear E end;
      cbn [owed_by due_of length app] in *; rewrite ?app_length; cbn [length]; try lia.
    all: repeat match goal with |- context [if ?b then _ else _] => destruct b end; cbn in *; try lia.
  Qed.
  Lemma sent_app (a b : list label) : sent (a ++ b) = sent a + sent b /\ received (a ++ b) = received a + received b.
  Proof. induction a as [|l a [IH1 IH2]]; cbn; auto. destruct l; rewrite ?IH1, ?IH2; split; lia. Qed.
  Lemma pending_run ls : forall s s' o, run s ls = Ok (s', o) -> pending s' + received ls <= pending s + sent ls.
  Proof.
    induction ls as [|l ls IH]; intros s s' o R; cbn [MFactory.run] in R.
    - injection R as <- <-. cbn. lia.
    - destruct (step s l) as [[s1 o1]| |] eqn:E1; cbn [bind] in R; try discriminate R.
      destruct (run s1 ls) as [[s2 o2]| |] eqn:E2; cbn [bind] in R; try discriminate R. injection R as <- <-.
      pose proof (pending_step _ _ _ _ E1). specialize (IH _ _ _ E2).
      destruct (sent_app [l] ls) as [S1 S2]. change (l :: ls) with ([l] ++ ls). lia.
  Qed.

  (** *** Finishing a search without main *)
  Definition own (l : label) : bool :=
    match l with LTraffic _ | LStatus _ | LMonReset _ | LListenSend | LVisit | LRun _ | LRead | LWrite | LReport _ => true | _ => false end.
  Definition reach (s s' : sys) (o : list obs) : Prop := exists ls, forallb own ls = true /\ run s ls = Ok (s', o).
  Lemma reach_refl s : reach s s [].
  Proof. exists []. auto. Qed.
  Lemma reach_trans s s1 s2 o1 o2 : reach s s1 o1 -> reach s1 s2 o2 -> reach s s2 (o1 ++ o2).
  Proof.
    intros (l1 & A1 & B1) (l2 & A2 & B2). exists (l1 ++ l2). rewrite forallb_app, A1, A2, run_app, B1. cbn [bind]. rewrite B2. auto.
  Qed.
  Lemma reach_step s l s' o : own l = true -> step s l = Ok (s', o) -> reach s s' o.
  Proof. intros A B. exists [l]. cbn [forallb MFactory.run]. rewrite A, B. cbn [bind]. rewrite app_nil_r. auto. Qed.
  Lemma own_internal ls : forallb own ls = true -> forallb internal ls = true /\ sent ls = 0 /\ ~ In LMainRecv ls.
  Proof.
    induction ls as [|l ls IH]; cbn; [auto|]. intros H. apply andb_true_iff in H as [H1 H2]. destruct (IH H2) as (A & B & C).
    destruct l; try discriminate H1; cbn; repeat split; auto; intros [N|N]; auto; discriminate N.
  Qed.
  Lemma reach_reach0 s s' o : reach s s' o -> reach0 s s' o.
  Proof. intros (ls & A & B). exists ls. split; [apply own_internal, A|exact B]. Qed.
  Lemma reach_pending s s' o : reach s s' o -> pending s' <= pending s.
  Proof. intros (ls & A & B). apply own_internal in A as (_ & A & _). pose proof (pending_run _ _ _ _ B). lia. Qed.

  Notation alike := (@alike Sub Eng Tag Ans).
  Lemma free_listener e s : pending s <= cap + 1 -> owed_by (c_mon (y_cnt s e)) <> 0 -> exists s' o, reach s s' o /\ y_listener s' = None /\ y_cnt s' = y_cnt s /\ alike s s'.
  Proof.
    intros C O. destruct (y_listener s) as [m|] eqn:L; [|exists s, []; split; [apply reach_refl|]; unfold PFactory5.alike; auto 10].
    assert (N : length (y_mc s) < cap) by (unfold pending in C; rewrite L in C; cbn in C; destruct e; lia). apply Nat.ltb_lt in N.
    eexists _, _. split; [eapply reach_step with (l := LListenSend); [reflexivity|]|].
    - cbn [MFactory.step]. rewrite L. unfold put. rewrite N. cbn [bind]. reflexivity.
    - unfold PFactory5.alike. simp. auto 10.
  Qed.
  Lemma free_monitor_reset e s : c_mon (y_cnt s e) = MoReset -> exists s' o, reach s s' o /\ c_mon (y_cnt s' e) = MoWait /\ alike s s'.
  Proof.
    intros M. eexists _, _. split; [eapply reach_step with (l := LMonReset e); [reflexivity|]; cbn [MFactory.step]; rewrite M; reflexivity|].
    unfold PFactory5.alike. simp. rewrite upd_same. auto 10.
  Qed.
  Lemma free_monitor_status e s t : pending s <= cap + 1 -> c_mon (y_cnt s e) = MoStatus t -> exists s' o, reach s s' o /\ c_mon (y_cnt s' e) = MoWait /\ alike s s'.
  Proof.
    intros C M. destruct (free_listener e s C ltac:(rewrite M; discriminate)) as (s1 & o1 & R1 & L1 & C1 & A1).
    edestruct (free_monitor_reset e) as (s3 & o3 & R3 & M3 & A3).
    2: { eexists _, _. split; [eapply reach_trans; [exact R1|]; eapply reach_trans; [eapply reach_step with (l := LStatus e); [reflexivity|]|exact R3]|].
         - cbn [MFactory.step]. rewrite C1, M. unfold listening. rewrite L1. cbn [handle]. reflexivity.
         - split; [auto|]. eapply alike_trans; [|exact A3]. unfold PFactory5.alike in *. simp. auto. }
    simp. rewrite upd_same. reflexivity.
  Qed.
  Lemma free_monitor e s : pending s <= cap + 1 -> exists s' o, reach s s' o /\ c_mon (y_cnt s' e) = MoWait /\ alike s s'.
  Proof.
    intros C. destruct (c_mon (y_cnt s e)) as [|n m|t|] eqn:M.
    - exists s, []. split; [apply reach_refl|]. unfold PFactory5.alike. auto 10.
    - destruct (free_listener e s C ltac:(rewrite M; discriminate)) as (s1 & o1 & R1 & L1 & C1 & A1).
      assert (exists s2 o2, reach s1 s2 o2 /\ (c_mon (y_cnt s2 e) = MoReset \/ exists t, c_mon (y_cnt s2 e) = MoStatus t) /\ alike s1 s2) as (s2 & o2 & R2 & M2 & A2).
      { eexists _, _. split; [eapply reach_step with (l := LTraffic e); [reflexivity|]|].
        - cbn [MFactory.step]. rewrite C1, M. unfold listening. rewrite L1. cbn [handle bind]. reflexivity.
        - unfold PFactory5.alike. simp. rewrite upd_same. simp. destruct (th_publish _); eauto 10. }
      pose proof (reach_pending _ _ _ R1). pose proof (reach_pending _ _ _ R2).
      assert (exists s3 o3, reach s2 s3 o3 /\ c_mon (y_cnt s3 e) = MoWait /\ alike s2 s3) as (s3 & o3 & R3 & M3 & A3).
      { destruct M2 as [M2|(t & M2)]; [apply free_monitor_reset; auto|eapply free_monitor_status; eauto; lia]. }
      exists s3, (o1 ++ o2 ++ o3). split; [eauto using reach_trans|]. split; auto. eauto using alike_trans.
    - eapply free_monitor_status; eauto.
    - apply free_monitor_reset; auto.
  Qed.

  Section Finish.
    Context (S : ename -> Sub -> Prop) (T : Tag -> Prop) (P : ename -> Eng -> Prop) (R : ename -> Tag -> Ans -> Prop).
    Context (HB : forall e sub, S e sub -> exists eng, build e sub = Ok eng /\ P e eng).
    Context (HS : forall e x eng t, P e eng -> T t -> exists a f eng', esearch x eng t = Ok (a, f, eng') /\ P e eng' /\ R e t a).
    Context (x0 : Orc).
    Notation good := (good S T P R).
    Lemma reach_good s o s' o' : good s o -> reach s s' o' -> good s' (o ++ o').
    Proof. intros G RR. eapply PFactory5.reach_good; eauto using reach_reach0. Qed.
    Notation after := (@after Sub Eng Tag Ans).
    Lemma finish_report s a t e k : pending s <= cap + 1 -> y_search s = SReport a t e k -> exists s' o', reach s s' o' /\ after t e k s' o'.
    Proof.
      intros C SS. destruct (free_monitor e s C) as (s1 & o1 & R1 & M1 & _ & _ & _ & A1).
      destruct (goes_on a t e k) as [x p] eqn:G. eexists _, _. split; [eapply reach_trans; [exact R1|]; eapply reach_step with (l := LReport 0); [reflexivity|]|].
      - cbn [MFactory.step]. rewrite A1, SS, M1, G. reflexivity.
      - unfold PFactory5.after. unfold goes_on in G. destruct k; injection G as <- <-; simp; auto. split; auto. exists a. apply in_app_iff. right. right. left. auto.
    Qed.
    Lemma finish_write s a t e k m : pending s <= cap + 1 -> y_search s = SWrite a t e k m -> exists s' o', reach s s' o' /\ after t e k s' o'.
    Proof.
      intros C SS.
      assert (exists s1, reach s s1 [] /\ y_search s1 = SReport a t e k) as (s1 & R1 & S1).
      { eexists. split; [eapply reach_step with (l := LWrite); [reflexivity|]; cbn [MFactory.step]; rewrite SS; reflexivity|reflexivity]. }
      pose proof (reach_pending _ _ _ R1). destruct (finish_report s1 a t e k ltac:(lia) S1) as (s2 & o2 & R2 & A2).
      exists s2, o2. split; [change o2 with ([] ++ o2); eauto using reach_trans|exact A2].
    Qed.
    Lemma finish_read s a t e k : pending s <= cap + 1 -> y_search s = SRead a t e k -> exists s' o', reach s s' o' /\ after t e k s' o'.
    Proof.
      intros C SS.
      assert (exists s1 m, reach s s1 [] /\ y_search s1 = SWrite a t e k m) as (s1 & m & R1 & S1).
      { eexists _, _. split; [eapply reach_step with (l := LRead); [reflexivity|]; cbn [MFactory.step]; rewrite SS; reflexivity|reflexivity]. }
      pose proof (reach_pending _ _ _ R1). destruct (finish_write s1 a t e k m ltac:(lia) S1) as (s2 & o2 & R2 & A2).
      exists s2, o2. split; [change o2 with ([] ++ o2); eauto using reach_trans|exact A2].
    Qed.
    Lemma finish_run s o t e k : pending s <= cap + 1 -> good s o -> y_search s = SRun t e k -> exists s' o', reach s s' o' /\ after t e k s' o'.
    Proof.
      intros C G SS. pose proof (i_search _ _ (gd_inv _ _ _ _ _ _ G)) as SO. unfold search_ok in SO. rewrite SS in SO. destruct SO as [_ SO]. unfold has in SO.
      destruct (g_engine (y_gen s e)) as [eng|] eqn:E; [|congruence].
      pose proof (gd_search _ _ _ _ _ _ G) as GT. rewrite SS in GT.
      destruct (HS e x0 eng t (gd_eng _ _ _ _ _ _ G _ _ E) GT) as (a & f & eng' & ES & _).
      assert (exists s1 o1, reach s s1 o1 /\ (y_search s1 = SRead a t e k \/ y_search s1 = SReport a t e k)) as (s1 & o1 & R1 & S1).
      { eexists _, _. split; [eapply reach_step with (l := LRun x0); [reflexivity|]; cbn [MFactory.step]; rewrite SS, E, ES; cbn [bind]; reflexivity|].
        simp. destruct f; auto. }
      pose proof (reach_pending _ _ _ R1).
      assert (exists s2 o2, reach s1 s2 o2 /\ after t e k s2 o2) as (s2 & o2 & R2 & A2) by (destruct S1; [eapply finish_read|eapply finish_report]; eauto; lia).
      exists s2, (o1 ++ o2). split; [eauto using reach_trans|apply after_app; auto].
    Qed.
    Lemma finish_loop t : forall rest s o, pending s <= cap + 1 -> good s o -> y_search s = SLoop t rest -> exists s' o' e a, reach s s' o' /\ y_search s' = SIdle /\ In (OAnswer e t a) o'.
    Proof.
      induction rest as [|e rest IH]; intros s o C G SS.
      - pose proof (i_search _ _ (gd_inv _ _ _ _ _ _ G)) as SO. unfold search_ok in SO. rewrite SS in SO.
        destruct (y_cur s) as [c|] eqn:CU; [|congruence].
        assert (reach s (set_search s (SRun t c None)) []) as R1.
        { eapply reach_step with (l := LVisit); [reflexivity|]. cbn [MFactory.step]. rewrite SS, CU. reflexivity. }
        pose proof (reach_good _ _ _ _ G R1) as G1. pose proof (Nat.le_trans _ _ _ (reach_pending _ _ _ R1) C) as C1.
        destruct (finish_run (set_search s (SRun t c None)) _ t c None C1 G1 eq_refl) as (s2 & o2 & R2 & A2 & a & A3).
        exists s2, o2, c, a. split; auto. change o2 with ([] ++ o2). eauto using reach_trans.
      - assert (exists s1, reach s s1 [] /\ (y_search s1 = SLoop t rest \/ y_search s1 = SRun t e (Some rest))) as (s1 & R1 & S1).
        { eexists. split; [eapply reach_step with (l := LVisit); [reflexivity|]; cbn [MFactory.step]; rewrite SS; reflexivity|].
          simp. destruct (_ && _); auto. }
        pose proof (reach_good _ _ _ _ G R1) as G1. pose proof (reach_pending _ _ _ R1).
        assert (exists s2 o2, reach s1 s2 o2 /\ y_search s2 = SLoop t rest) as (s2 & o2 & R2 & S2).
        { destruct S1 as [S1|S1]; [exists s1, []; split; [apply reach_refl|auto]|].
          destruct (finish_run s1 _ t e (Some rest) ltac:(lia) G1 S1) as (s2 & o2 & R2 & A2). eauto. }
        pose proof (reach_good _ _ _ _ G1 R2) as G2. pose proof (reach_pending _ _ _ R2).
        destruct (IH s2 _ ltac:(lia) G2 S2) as (s3 & o3 & e3 & a3 & R3 & S3 & A3). exists s3, ([] ++ o2 ++ o3), e3, a3. split; [eauto using reach_trans|]. split; auto.
        cbn. apply in_app_iff. auto.
    Qed.
    Lemma finish s o t : pending s <= cap + 1 -> good s o -> tag_of s = Some t -> exists s' o' e a, reach s s' o' /\ y_search s' = SIdle /\ In (OAnswer e t a) o'.
    Proof.
      intros C G TG. unfold tag_of in TG.
      assert (forall e k s1 o1, reach s s1 o1 -> after t e k s1 o1 -> exists s' o' e a, reach s s' o' /\ y_search s' = SIdle /\ In (OAnswer e t a) o') as K.
      { intros e k s1 o1 R1 A1. unfold PFactory5.after in A1. pose proof (reach_pending _ _ _ R1). destruct k as [rest|].
        - destruct (finish_loop t rest s1 _ ltac:(lia) (reach_good _ _ _ _ G R1) A1) as (s2 & o2 & e2 & a2 & R2 & S2 & A2).
          exists s2, (o1 ++ o2), e2, a2. split; [eauto using reach_trans|]. split; auto. apply in_app_iff. auto.
        - destruct A1 as [A1 (a & A2)]. eauto 10. }
      destruct (y_search s) eqn:SS; try discriminate; injection TG as ->.
      - eapply finish_loop; eauto.
      - destruct (finish_run _ _ _ _ _ C G SS) as (s1 & o1 & R1 & A1). eauto.
      - destruct (finish_read _ _ _ _ _ C SS) as (s1 & o1 & R1 & A1). eauto.
      - destruct (finish_write _ _ _ _ _ _ C SS) as (s1 & o1 & R1 & A1). eauto.
      - destruct (finish_report _ _ _ _ _ C SS) as (s1 & o1 & R1 & A1). eauto.
    Qed.
  End Finish.

  (** *** A jam *)
  Definition held (s : sys) : Prop :=
    jammed cap s /\ exists a t e k, y_search s = SReport a t e k /\ owed_by (c_mon (y_cnt s e)) <> 0.
  Lemma held_step s l s' o : held s -> l <> LMainRecv -> step s l = Ok (s', o) -> held s' /\ forall e t a, ~ In (OAnswer e t a) o.
  Proof.
    intros ((L & F) & a & t & e & k & SS & M) NM H. unfold held, jammed.
    assert (NL : listening s = false) by (unfold listening; destruct (y_listener s); [reflexivity|destruct L; reflexivity]).
    apply Nat.ltb_ge in F.
    enough (K : y_listener s' <> None /\ y_mc s' = y_mc s /\ y_search s' = y_search s /\ (owed_by (c_mon (y_cnt s e)) <> 0 -> owed_by (c_mon (y_cnt s' e)) <> 0) /\ forall e t a, ~ In (OAnswer e t a) o).
    { destruct K as (K1 & K2 & K3 & K4 & K5). apply Nat.ltb_ge in F. split; [|exact K5]. split; [rewrite K2; auto|].
      exists a, t, e, k. rewrite K3. auto. }
    cases_of l H; simp; try congruence.
    all: try (exfalso; match goal with E2 : c_mon (y_cnt _ ?x) = MoWait, M2 : owed_by (c_mon (y_cnt _ ?y)) <> 0 |- _ =>
      assert (x = y) by congruence; subst; rewrite E2 in M2; apply M2; reflexivity end).
    all: clear M.
    all: split; [first [assumption|congruence]|]; split; [congruence|]; split; [congruence|]; split;
      [|intros e1 t1 a1 I; cbn in I; repeat destruct I as [I|I]; try discriminate I; try exact I; exfalso].
    all: try (intros M; exact M).
    all: try match goal with |- context [upd (y_cnt ?s0) ?e0 ?c0 ?e1] => destruct (upd_cases (y_cnt s0) e0 c0 e1) as [[EQ UE]|[NE UE]]; rewrite UE in *; clear UE end; simp.
    all: try (intros M; exact M).
    all: subst; repeat match goal with E : c_mon (y_cnt _ _) = _ |- _ => rewrite E in *; clear E end; cbn [owed_by]; auto; try lia; try congruence.
  Qed.
  Lemma held_run : forall ls s s' o, held s -> ~ In LMainRecv ls -> run s ls = Ok (s', o) -> held s' /\ forall e t a, ~ In (OAnswer e t a) o.
  Proof.
    induction ls as [|l ls IH]; intros s s' o HL NI H; cbn [MFactory.run] in H.
    - injection H as <- <-. split; auto.
    - destruct (step s l) as [[s1 o1]| |] eqn:E1; cbn [bind] in H; try discriminate. destruct (run s1 ls) as [[s2 o2]| |] eqn:E2; cbn [bind] in H; try discriminate.
      injection H as <- <-. destruct (held_step _ _ _ _ HL (fun E => NI (or_introl (eq_sym (eq_sym E)))) E1) as [H1 A1].
      destruct (IH _ _ _ H1 (fun I => NI (or_intror I)) E2) as [H2 A2]. split; auto.
      intros e t a I. apply in_app_iff in I as [I|I]; [eapply A1|eapply A2]; eauto.
  Qed.
End Runs.
