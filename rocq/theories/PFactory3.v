(** Selection and counting in runs of the engine factory. *)
From Coq Require Import Permutation Lia ZifyBool ZifyNat ZifyN.
From Verif Require Import GoBase MFloat MGenerator MFactory PFloat PFactory PFactory2.

Section Runs.
  Context {Sub Eng Tag Orc Ans : Type} (build : ename -> Sub -> result Eng)
    (esearch : Orc -> Eng -> Tag -> result (Ans * bool * Eng)) (cap : nat).
  Notation step := (step build esearch cap).
  Notation run := (run build esearch cap).
  Notation sys := (@sys Sub Eng Tag Ans).
  Notation obs := (@obs Tag Ans).
  Notation label := (@label Sub Tag Orc).
  Notation inv := (@inv Sub Eng Tag Ans).

  Ltac simp := cbn [set_gen set_cnt set_listener set_cur set_perf set_ticker set_mc set_main set_search
    y_gen y_cnt y_cur y_perf y_listener y_ticker y_mc y_main y_search c_events c_matched c_time c_mon counters0 g_fsm g_engine g_todo th_events th_time] in *.
  (** Take a step apart, case by case. *)
  Ltac crunch H := repeat (cbn [bind handle fst snd] in H; unfold put, goes_on in H;
    first [discriminate H | match type of H with
      | context [handle ?m _] => is_var m; destruct m
      | context [match ?x with _ => _ end] => destruct x eqn:?
      | context [bind ?x _] => destruct x eqn:? end]).
  Ltac cases_of l H := destruct l as [e sub|e i|e i|e|e|e|e| | |order| | | | |m| |t order| |x| | |us]; cbn [MFactory.step] in H; crunch H; injection H as <- <-;
    try match goal with E : match ?k with Some _ => _ | None => _ end = (_, _) |- _ => destruct k; injection E as <- <- end.

  Lemma step_perf s l s' o' : step s l = Ok (s', o') ->
    (y_perf s' = y_perf s /\ forall e t, ~ In (OStored e t) o') \/ exists e t, o' = [OStored e t] /\ y_perf s' = upd (y_perf s) e t.
  Proof.
    intros H. cases_of l H; simp; cbn [In]; eauto; left; (split; [reflexivity|intros ? ? J; cbn in J; try (intuition discriminate)]).
  Qed.
  Lemma step_cur s o l s' o' : inv s o -> step s l = Ok (s', o') ->
    (y_cur s' = y_cur s /\ forall e, ~ In (ONotified e) o') \/
    (exists e, o' = [ONotified e] /\ y_cur s' = if (match y_cur s with None => true | Some c => (priority c <? priority e)%N end) then Some e else y_cur s) \/
    (exists read e, o' = [] /\ y_ticker s = TiRange [] read /\ pick read = Some e /\ y_cur s' = Some e).
  Proof.
    intros V H. cases_of l H; simp; cbn [In] in *; try (left; split; [congruence|intros ? J; cbn in J; intuition discriminate]);
      try (right; left; eexists; split; [reflexivity|]; match goal with E : match y_cur s with Some _ => _ | None => _ end = _ |- _ => rewrite E end; reflexivity); eauto 10.
  Qed.
  Lemma step_ticker s l s' o' : step s l = Ok (s', o') ->
    match y_ticker s' with
    | TiRange rest read =>
        (y_ticker s' = y_ticker s) \/ (l = LTick rest /\ is_order rest = true /\ read = []) \/
        (exists e read0, o' = [] /\ y_perf s' = y_perf s /\ y_ticker s = TiRange (e :: rest) read0 /\ read = read0 ++ [(e, y_perf s e)])
    | _ => True
    end.
  Proof.
    intros H. cases_of l H; simp; try (destruct (y_ticker s); auto; fail); eauto 10.
  Qed.

  (** *** Selection without performance data *)
  Definition unmeasured (o : list obs) : Prop := forall e t, ~ In (OStored e t) o.
  Definition best (o : list obs) (c : option ename) : Prop :=
    match c with
    | None => forall e, ~ In (ONotified e) o
    | Some c => In (ONotified c) o /\ forall e, In (ONotified e) o -> (priority e <= priority c)%N
    end.
  Definition sel (s : sys) (o : list obs) : Prop := inv s o /\ (unmeasured o ->
    (forall e, y_perf s e = thr0) /\
    (match y_ticker s with TiRange _ read => forall e t, In (e, t) read -> t = thr0 | _ => True end) /\
    best o (y_cur s)).
  Lemma pick_zero read : (forall e t, In (e, t) read -> t = thr0) -> pick read = None.
  Proof.
    intros Z. unfold pick. assert (forall l a, (forall e t, In (e, t) l -> t = thr0) -> fold_left (fun acc kv => if thr_gtb (snd kv) (snd acc) then (Some (fst kv), snd kv) else acc) l (a, thr0) = (a : option ename, thr0)) as F.
    { induction l as [|[e t] l IH]; intros a ZL; cbn [fold_left]; auto. rewrite (ZL e t) by (left; auto). cbn. apply IH. intros; eapply ZL; right; eauto. }
    rewrite F; auto.
  Qed.
  Lemma sel_step s o l s' o' : sel s o -> step s l = Ok (s', o') -> sel s' (o ++ o').
  Proof.
    intros [V VS] H. split; [eapply inv_step; eauto|]. intros U.
    assert (unmeasured o) as UO by (intros e t I; apply (U e t), in_app_iff; auto).
    assert (unmeasured o') as UO' by (intros e t I; apply (U e t), in_app_iff; auto).
    destruct (VS UO) as (P & T & B). clear VS.
    pose proof (step_perf _ _ _ _ H) as SP. destruct SP as [[SP _]|(e & t & -> & _)]; [|destruct (UO' e t); left; auto].
    split; [|split].
    - intros e. rewrite SP. auto.
    - pose proof (step_ticker _ _ _ _ H) as ST. destruct (y_ticker s') as [|rest read|]; auto.
      destruct ST as [ST|[(_ & _ & ->)|(e & read0 & _ & _ & ST & ->)]].
      + rewrite <- ST in T. auto.
      + intros e t [].
      + rewrite ST in T. intros e' t I. apply in_app_iff in I. destruct I as [I|[I|[]]]; [eauto|]. injection I as <- <-. auto.
    - destruct (step_cur _ _ _ _ _ V H) as [[-> N]|[(e & -> & ->)|(read & e & -> & TI & PI & _)]].
      + unfold best in *. destruct (y_cur s) as [c|].
        * split; [apply in_app_iff; tauto|]. intros e I. apply in_app_iff in I. destruct I as [I|I]; [apply B; auto|destruct (N _ I)].
        * intros e I. apply in_app_iff in I. destruct I as [I|I]; [eapply B; eauto|destruct (N _ I)].
      + destruct (y_cur s) as [c|]; unfold best in *.
        * destruct B as [B1 B2]. destruct (priority c <? priority e)%N eqn:L; (split; [apply in_app_iff; cbn; auto|]); intros e' I; apply in_app_iff in I;
            destruct I as [I|[I|[]]]; try (injection I as <-); try specialize (B2 _ I); lia.
        * split; [apply in_app_iff; cbn; auto|]. intros e' I. apply in_app_iff in I. destruct I as [I|[I|[]]]; [destruct (B _ I)|injection I as <-; lia].
      + rewrite TI in T. rewrite pick_zero in PI; [discriminate|auto].
  Qed.
  Lemma sel_run ls s o : run sys0 ls = Ok (s, o) -> sel s o.
  Proof.
    intros R. refine (run_inv build esearch cap sel sel_step ls sys0 [] s o _ R). split; [exact (inv0 build)|]. intros _. cbn. repeat split; auto.
  Qed.

  (** *** Selection by performance *)
  Definition sound (t : thr) : Prop := positive t \/ t = thr0.
  Definition msg_sound (m : msg) : Prop := match m with MStatus _ t => positive t | _ => True end.
  Record snd_inv (s : sys) : Prop := {
    sn_perf : forall e, sound (y_perf s e);
    sn_mc : Forall msg_sound (y_mc s);
    sn_listener : forall m, y_listener s = Some m -> msg_sound m;
    sn_mon : forall e t, c_mon (y_cnt s e) = MoStatus t -> positive t;
    sn_ticker : match y_ticker s with TiSend m => match m with MSelected _ => True | _ => False end | TiRange _ read => forall e t, In (e, t) read -> sound t | _ => True end }.
  Lemma snd0 : snd_inv sys0.
  Proof. constructor; cbn; intros; try discriminate; auto. right; auto. Qed.
  Lemma snd_step s l s' o' : snd_inv s -> step s l = Ok (s', o') -> snd_inv s'.
  Proof.
    intros [V1 V2 V3 V4 V5] H.
    assert (forall e c, (forall t, c_mon c = MoStatus t -> positive t) -> forall e' t, c_mon (upd (y_cnt s) e c e') = MoStatus t -> positive t) as UC.
    { intros e c C e' t. destruct (upd_cases (y_cnt s) e c e') as [[-> ->]|[_ ->]]; eauto. }
    assert (forall e t, positive t -> forall e', sound (upd (y_perf s) e t e')) as UP.
    { intros e t C e'. destruct (upd_cases (y_perf s) e t e') as [[-> ->]|[_ ->]]; [left; auto|auto]. }
    cases_of l H; constructor; simp; auto;
      try (match goal with E : y_ticker s = _ |- _ => rewrite E in V5 end);
      try (apply UP; eauto; fail); try (apply Forall_app; split; [auto|apply Forall_cons; [|constructor]]; try exact I; eauto; fail);
      try (intros m' E; injection E as <-; try exact I; cbn; eauto; fail); try discriminate; auto; try exact I.
    all: try (apply UC; cbn [c_mon]; eauto; intros t' E; try discriminate E; injection E as <-; unfold positive; assumption).
    all: try (intros e' t' [] ; fail).
    all: try (match goal with E : y_mc _ = _ :: _ |- _ => pose proof (Forall_inv V2) as W1; pose proof (Forall_inv_tail V2) as W2; cbn [msg_sound] in W1; clear V2 end).
    all: try (apply UP; assumption). all: try assumption.
    - intros m' E. injection E as <-. assumption.
    - intros e' t' J. apply in_app_iff in J. destruct J as [J|[J|[]]]; [eauto|]. injection J as <- <-. auto.
    - apply Forall_app; split; auto. apply Forall_cons; [|constructor]. destruct m; try tauto; exact I.
  Qed.
  Lemma snd_run ls s o : run sys0 ls = Ok (s, o) -> snd_inv s.
  Proof.
    intros R. refine (run_inv build esearch cap (fun s _ => snd_inv s) _ ls sys0 [] s o snd0 R). intros ? ? ? ? ?. apply snd_step.
  Qed.
  (** [a] is at least as fast as [b]. *)
  Definition fast (a b : thr) : Prop := SFleb (th_value b) (th_value a) = true.
  Lemma sound_number t : sound t -> th_value t <> S754_nan.
  Proof. intros [P| ->]; [|discriminate]. intros N. unfold positive, th_publish in P. rewrite N in P. discriminate. Qed.
  Lemma fast_gtb a b : sound a -> sound b -> thr_gtb b a = false <-> fast a b.
  Proof. intros A B. apply ltb_leb; try apply value_plus; apply sound_number; auto. Qed.
  Lemma fast_refl t : sound t -> fast t t.
  Proof. intros S. apply leb_refl; [apply value_plus|apply sound_number; auto]. Qed.
  Lemma fast_trans t b t2 : fast b t -> thr_gtb t2 b = true -> fast t2 t.
  Proof. intros A B. eapply leb_ltb_trans; try apply value_plus; eauto. Qed.
  Lemma fast_zero t t' : sound t -> sound t' -> ~ positive t' -> fast t t'.
  Proof. intros S [P| ->] N; [destruct (N P)|]. apply leb_zero; [apply value_plus|apply sound_number; auto]. Qed.
  Lemma pick_spec read : (forall e t, In (e, t) read -> sound t) ->
    match pick read with
    | None => forall e t, In (e, t) read -> ~ positive t
    | Some e => exists t, In (e, t) read /\ positive t /\ forall e' t', In (e', t') read -> fast t t'
    end.
  Proof.
    intros SO. unfold pick.
    assert (forall l pre a b, (forall e t, In (e, t) (pre ++ l) -> sound t) ->
      (match a with None => b = thr0 /\ forall e t, In (e, t) pre -> ~ positive t
       | Some e => In (e, b) pre /\ positive b /\ forall e' t', In (e', t') pre -> fast b t' end) ->
      let '(a', b') := fold_left (fun acc kv => if thr_gtb (snd kv) (snd acc) then (Some (fst kv), snd kv) else acc) l (a : option ename, b) in
      match a' with None => forall e t, In (e, t) (pre ++ l) -> ~ positive t
       | Some e => In (e, b') (pre ++ l) /\ positive b' /\ forall e' t', In (e', t') (pre ++ l) -> fast b' t' end) as F.
    { induction l as [|[e t] l IH]; intros pre a b SL HI; cbn [fold_left fst snd].
      - rewrite app_nil_r. destruct a; tauto.
      - replace (pre ++ (e, t) :: l) with ((pre ++ [(e, t)]) ++ l) in * by (rewrite <- app_assoc; reflexivity).
        assert (sound t) as St by (eapply SL; rewrite !in_app_iff; cbn; eauto).
        destruct (thr_gtb t b) eqn:G; cbn [fst snd]; apply IH; auto.
        + assert (positive t) as NZ by (eapply gtb_positive; eauto).
          split; [apply in_app_iff; cbn; auto|]. split; [exact NZ|]. intros e' t' J. apply in_app_iff in J. destruct J as [J|[J|[]]].
          * destruct a as [a|]; [destruct HI as (H1 & H2 & H3); apply (fast_trans _ b); eauto|]. destruct HI as [-> H3]. specialize (H3 _ _ J). apply fast_zero; auto. eapply SL. rewrite !in_app_iff. eauto.
          * injection J as <- <-. apply fast_refl; auto.
        + destruct a as [a|].
          * destruct HI as (H1 & H2 & H3). apply fast_gtb in G; [|left; auto|auto]. split; [apply in_app_iff; auto|]. split; auto. intros e' t' J. apply in_app_iff in J. destruct J as [J|[J|[]]]; [eauto|]. injection J as <- <-. auto.
          * destruct HI as [-> H3]. split; auto. intros e' t' J. apply in_app_iff in J. destruct J as [J|[J|[]]]; [eauto|]. injection J as <- <-. rewrite gtb_zero in G. unfold positive. congruence. }
    specialize (F read [] None thr0). cbn [app] in F. specialize (F SO). assert (thr0 = thr0 /\ forall (e : ename) (t : thr), In (e, t) [] -> ~ positive t) as Z by (split; [auto|intros ? ? []]). specialize (F Z).
    destruct (fold_left _ read (None, thr0)) as [a' b']. cbn [fst]. destruct a'; [|auto]. exists b'. tauto.
  Qed.
  Lemma step_ticker_range s l s' o' rest read : step s l = Ok (s', o') -> y_ticker s = TiRange rest read -> l <> LTickPick ->
    y_ticker s' = TiRange rest read \/ exists e rest', rest = e :: rest' /\ y_ticker s' = TiRange rest' (read ++ [(e, y_perf s e)]).
  Proof.
    intros H T N. cases_of l H; simp; try congruence; auto.
    right. injection T as <- <-. eauto.
  Qed.
  Lemma is_order_In order e : is_order order = true -> In e order.
  Proof.
    unfold is_order. intros H. apply andb_prop in H. destruct H as [_ H]. rewrite forallb_forall in H.
    assert (In e all_names) as J by (destruct e; cbn; tauto). specialize (H e J). apply existsb_exists in H. destruct H as (e' & J' & E).
    destruct (ename_eqb_spec e e'); [congruence|discriminate].
  Qed.
  Lemma tick_reads order s0 : forall ls s pre s' o',
    run s ls = Ok (s', o') -> ~ In LTickPick ls -> unmeasured o' -> y_perf s = s0 ->
    (exists rest read, y_ticker s = TiRange rest read /\ order = map fst read ++ rest /\ pre = read /\ forall e t, In (e, t) read -> t = s0 e) ->
    y_perf s' = s0 /\ exists rest read, y_ticker s' = TiRange rest read /\ order = map fst read ++ rest /\ forall e t, In (e, t) read -> t = s0 e.
  Proof.
    induction ls as [|l ls IH]; intros s pre s' o' R NP U P (rest & read & T & O & _ & A); cbn [MFactory.run] in R.
    - injection R as <- <-. split; eauto.
    - destruct (step s l) as [[s1 o1]| |] eqn:E; cbn [bind] in R; try discriminate.
      destruct (run s1 ls) as [[s2 o2]| |] eqn:E2; cbn [bind] in R; try discriminate. injection R as <- <-.
      assert (y_perf s1 = s0) as P1.
      { destruct (step_perf _ _ _ _ E) as [[-> _]|(e & t & -> & _)]; auto. destruct (U e t). left; auto. }
      assert (l <> LTickPick /\ ~ In LTickPick ls) as [N1 N2] by (cbn in NP; intuition).
      destruct (step_ticker_range _ _ _ _ _ _ E T N1) as [T1|(e & rest' & -> & T1)].
      + eapply IH; eauto. intros ? ? J. eapply U, in_app_iff; eauto. exists rest, read. eauto.
      + eapply IH; eauto. intros ? ? J. eapply U, in_app_iff; eauto. exists rest', (read ++ [(e, y_perf s e)]). split; auto. split; [|split; auto].
        * rewrite map_app, <- app_assoc. exact O.
        * intros e' t J. apply in_app_iff in J. destruct J as [J|[J|[]]]; [eauto|]. injection J as <- <-. congruence.
  Qed.
  Lemma tick_selects s order ls s' o : snd_inv s -> run s (LTick order :: ls ++ [LTickPick]) = Ok (s', o) -> ~ In LTickPick ls -> unmeasured o ->
    match y_cur s' with
    | Some c => (positive (y_perf s c) /\ forall e, fast (y_perf s c) (y_perf s e)) \/ (forall e, ~ positive (y_perf s e))
    | None => forall e, ~ positive (y_perf s e)
    end.
  Proof.
    intros V R NP U. change (LTick order :: ls ++ [LTickPick]) with ([LTick order] ++ ls ++ [LTickPick]) in R.
    rewrite run_app in R. cbn [MFactory.run] in R. destruct (step s (LTick order)) as [[s1 o1]| |] eqn:E1; cbn [bind] in R; try discriminate.
    rewrite run_app in R. destruct (run s1 ls) as [[s2 o2]| |] eqn:E2; cbn [bind] in R; try discriminate. cbn [MFactory.run] in R.
    destruct (step s2 LTickPick) as [[s3 o3]| |] eqn:E3; cbn [bind] in R; try discriminate. injection R as <- <-.
    cbn [MFactory.step] in E1. destruct (y_ticker s) eqn:T; try discriminate. destruct (is_order order) eqn:OO; [|discriminate]. injection E1 as <- <-.
    destruct (tick_reads order (y_perf s) ls _ [] s2 o2 E2) as [P2 (rest & read & T2 & O2 & A2)]; auto.
    { intros e t J. apply (U e t). rewrite !in_app_iff. auto. }
    { exists order, []. simp. repeat split; auto. intros ? ? []. }
    cbn [MFactory.step] in E3. rewrite T2 in E3. destruct rest as [|]; [|discriminate]. injection E3 as <- <-. simp.
    rewrite app_nil_r in O2.
    assert (forall e, In (e, y_perf s e) read) as ALL.
    { intros e. pose proof (is_order_In _ e OO) as J. rewrite O2 in J. apply in_map_iff in J. destruct J as ([e' t] & <- & J). cbn. rewrite <- (A2 _ _ J). auto. }
    pose proof (pick_spec read) as PS. destruct (pick read) as [c|].
    - left. destruct PS as (t & J & NZ & F). { intros e t J. rewrite (A2 _ _ J). apply V. } rewrite (A2 _ _ J) in *. split; eauto.
    - assert (forall e, ~ positive (y_perf s e)) as Z. { intros e. eapply PS; eauto. intros e' t J. rewrite (A2 _ _ J). apply V. }
      destruct (y_cur s2); auto.
  Qed.
End Runs.
