(** Proofs about runs of the engine factory. *)
From Coq Require Import Permutation Lia ZifyBool ZifyNat ZifyN.
From Verif Require Import GoBase MFloat MGenerator MFactory PFloat.

Lemma ename_eqb_spec a b : reflect (a = b) (ename_eqb a b).
Proof. destruct a, b; cbn; constructor; congruence. Qed.
Lemma ename_eqb_refl a : ename_eqb a a = true.
Proof. destruct a; reflexivity. Qed.
Lemma take_out_In {A} i (l : list A) x r : take_out i l = Some (x, r) -> In x l.
Proof.
  revert i r. induction l as [|y l IH]; intros i r H; [destruct i; discriminate|]. destruct i as [|i]; cbn [take_out] in H.
  - injection H as -> ->. left; auto.
  - destruct (take_out i l) as [[z q]|] eqn:E; [|discriminate]. injection H as -> <-. right. eapply IH; eauto.
Qed.
Lemma take_out_one {A} i (a : A) x r : take_out i [a] = Some (x, r) -> x = a /\ r = [].
Proof. destruct i as [|i]; cbn; [intros H; injection H as -> ->; auto|]. destruct i; discriminate. Qed.

(** *** Throughputs *)
Definition positive (t : thr) : Prop := th_publish t = true.
Lemma value_plus t : plus (th_value t).
Proof. apply div_plus; apply f64_plus. Qed.
Lemma positive_events t : positive t -> th_events t <> 0%N.
Proof.
  unfold positive, th_publish, th_value. intros P Z. rewrite Z in P.
  destruct (zero_div _ (f64_plus (th_time t)) _ eq_refl) as [E|E]; cbn [Z.of_N] in P; rewrite E in P; discriminate.
Qed.
Lemma gtb_positive a b : thr_gtb a b = true -> positive a.
Proof. intros G. apply (ltb_above _ _ (value_plus b) (value_plus a)) in G. exact G. Qed.
Lemma gtb_zero t : thr_gtb t thr0 = th_publish t.
Proof. apply (above_ltb _ (value_plus t)). Qed.

Section Runs.
  Context {Sub Eng Tag Orc Ans : Type} (build : ename -> Sub -> result Eng)
    (esearch : Orc -> Eng -> Tag -> result (Ans * bool * Eng)) (cap : nat).
  Notation step := (step build esearch cap).
  Notation run := (run build esearch cap).
  Notation sys := (@sys Sub Eng Tag Ans).
  Notation obs := (@obs Tag Ans).
  Notation label := (@label Sub Tag Orc).

  Lemma run_app ls1 : forall ls2 (s : sys), run s (ls1 ++ ls2) =
    (let! (s1, o1) := run s ls1 in let! (s2, o2) := run s1 ls2 in Ok (s2, o1 ++ o2)).
  Proof.
    induction ls1 as [|l ls1 IH]; intros ls2 s; cbn [MFactory.run app bind].
    - destruct (run s ls2) as [[s2 o2]| |]; reflexivity.
    - destruct (step s l) as [[s1 o1]| |]; cbn [bind]; try reflexivity. rewrite IH.
      destruct (run s1 ls1) as [[s2 o2]| |]; cbn [bind]; try reflexivity.
      destruct (run s2 ls2) as [[s3 o3]| |]; cbn [bind]; try reflexivity. rewrite app_assoc. reflexivity.
  Qed.
  (** Invariants over the state and everything seen so far. *)
  Lemma run_inv (I : sys -> list obs -> Prop) :
    (forall s o l s' o', I s o -> step s l = Ok (s', o') -> I s' (o ++ o')) ->
    forall ls s o s' o', I s o -> run s ls = Ok (s', o') -> I s' (o ++ o').
  Proof.
    intros ST. induction ls as [|l ls IH]; intros s o s' o' HI R; cbn [MFactory.run] in R.
    - injection R as <- <-. rewrite app_nil_r. auto.
    - destruct (step s l) as [[s1 o1]| |] eqn:E; cbn [bind] in R; try discriminate.
      destruct (run s1 ls) as [[s2 o2]| |] eqn:E2; cbn [bind] in R; try discriminate. injection R as <- <-.
      rewrite app_assoc. eapply IH; eauto.
  Qed.
  Lemma run_no_panic (I : sys -> list obs -> Prop) :
    (forall s o l s' o', I s o -> step s l = Ok (s', o') -> I s' (o ++ o')) ->
    (forall s o l, I s o -> step s l <> Panic) ->
    forall ls s o, I s o -> run s ls <> Panic.
  Proof.
    intros ST NP. induction ls as [|l ls IH]; intros s o HI; cbn [MFactory.run]; [discriminate|].
    specialize (NP s o l HI). destruct (step s l) as [[s1 o1]| |] eqn:E; cbn [bind]; try congruence.
    specialize (IH s1 (o ++ o1) (ST _ _ _ _ _ HI E)).
    destruct (run s1 ls) as [[s2 o2]| |] eqn:E2; cbn [bind]; congruence.
  Qed.

  (** *** Engines are never lost *)
  Definition has (G : ename -> gen Sub Eng) (e : ename) : Prop := g_engine (G e) <> None.

  Lemma upd_same {V} (f : ename -> V) e v : upd f e v e = v.
  Proof. unfold upd. rewrite ename_eqb_refl. reflexivity. Qed.
  Lemma upd_cases {V} (f : ename -> V) e v e' : (e' = e /\ upd f e v e' = v) \/ (e' <> e /\ upd f e v e' = f e').
  Proof. unfold upd. destruct (ename_eqb_spec e' e); auto. Qed.

  Lemma fire_engine (e : gevent) (a : option Sub) (g : gen Sub Eng) : g_engine (fst (fire e a g)) = g_engine g.
  Proof. unfold fire. destruct (fsm_next e (g_fsm g)); reflexivity. Qed.

  Definition gen_ok (g : gen Sub Eng) : Prop :=
    match g_fsm g with
    | Unavailable => g_engine g = None /\ g_todo g = []
    | Generating => (g_engine g = None /\ exists sub, g_todo g = [TBuild (Some sub)]) \/ (g_engine g <> None /\ g_todo g = [TDeploy])
    | Ready => g_engine g <> None /\ (g_todo g = [TNotify] \/ g_todo g = [])
    | _ => False
    end.
  Lemma fire_init_ok a g : gen_ok g -> gen_ok (fst (fire EvInit (Some a) g)).
  Proof.
    unfold gen_ok, fire. destruct g as [f en td]. destruct f; cbn [g_fsm g_engine g_todo fsm_next fst enter]; auto.
    intros [-> ->]. left. split; auto. exists a. reflexivity.
  Qed.
  Lemma do_task_ok e i g t r g' b : gen_ok g -> take_out i (g_todo g) = Some (t, r) -> do_task (build e) t r g = Ok (g', b) ->
    gen_ok g' /\ (g_engine g <> None -> g_engine g' = g_engine g) /\
    (match t with TBuild _ => g_engine g' <> None | _ => g_engine g' = g_engine g end).
  Proof.
    unfold gen_ok. destruct g as [f en td]. cbn [g_fsm g_engine g_todo]. intros OK T D.
    destruct f; try tauto.
    - destruct OK as [_ ->]. destruct i; discriminate.
    - destruct OK as [[-> (sub & ->)]|[NE ->]]; apply take_out_one in T; destruct T as [-> ->]; cbn in D.
      + destruct (build e sub) as [eng| |]; cbn in D; try discriminate. injection D as <- <-. cbn.
        split; [right; split; [discriminate|reflexivity]|]. split; [congruence|discriminate].
      + injection D as <- <-. cbn. auto.
    - destruct OK as [NE [-> | ->]]; [|destruct i; discriminate]. apply take_out_one in T. destruct T as [-> ->].
      cbn in D. injection D as <- <-. cbn. auto.
  Qed.

  (** *** The invariant *)
  Definition msg_ok (G : ename -> gen Sub Eng) (m : msg) : Prop :=
    match m with MGenerated _ => False | MStatus e _ => has G e | _ => True end.
  Definition search_ok (s : sys) : Prop :=
    match y_search s with
    | SIdle => True
    | SLoop _ _ => y_cur s <> None
    | SRun _ e _ | SRead _ _ e _ | SWrite _ _ e _ _ | SReport _ _ e _ => y_cur s <> None /\ has (y_gen s) e
    end.
  Record inv (s : sys) (o : list obs) : Prop := {
    i_gen : forall e, gen_ok (y_gen s e);
    i_seen : forall e, has (y_gen s) e <-> In (OGenerated e) o;
    i_cur : forall e, y_cur s = Some e -> has (y_gen s) e;
    i_mc : Forall (msg_ok (y_gen s)) (y_mc s);
    i_listener : forall m, y_listener s = Some m -> msg_ok (y_gen s) m;
    i_mon : forall e t, c_mon (y_cnt s e) = MoStatus t -> has (y_gen s) e;
    i_events : forall e, c_events (y_cnt s e) <> 0%N -> has (y_gen s) e;
    i_perf : forall e, positive (y_perf s e) -> has (y_gen s) e;
    i_ticker : match y_ticker s with
               | TiWait => True
               | TiRange _ read => forall e t, In (e, t) read -> positive t -> has (y_gen s) e
               | TiSend m => match m with MSelected _ => True | _ => False end
               end;
    i_main : y_main s = true -> y_cur s <> None;
    i_search : search_ok s
  }.

  Lemma pick_In read e : pick read = Some e -> exists t, In (e, t) read /\ positive t.
  Proof.
    unfold pick. set (f := fun acc kv => _).
    assert (forall read acc,
      forall e, fst (fold_left f read acc) = Some e -> (fst acc = Some e) \/ exists t, In (e, t) read /\ positive t) as H.
    { clear. induction read as [|[k v] read IH]; intros acc e E; cbn [fold_left] in E; auto.
      apply IH in E.
      destruct E as [E|(t & I & NZ)].
      - unfold f in E. cbn [fst snd] in E. destruct (thr_gtb v (snd acc)) eqn:G; auto.
        cbn [fst] in E. injection E as ->. right. exists v. split; [left; auto|]. apply (gtb_positive _ _ G).
      - right. exists t. split; [right; auto|auto]. }
    intros E. apply H in E. destruct E as [E|E]; [discriminate|auto].
  Qed.

  Ltac simp := cbn [set_gen set_cnt set_listener set_cur set_perf set_ticker set_mc set_main set_search
    y_gen y_cnt y_cur y_perf y_listener y_ticker y_mc y_main y_search c_events c_matched c_time c_mon counters0 g_fsm g_engine g_todo th_events th_time] in *.

  Lemma inv0 : inv sys0 [].
  Proof.
    constructor; cbn -[positive]; auto; try congruence; try (intros e P; discriminate P).
    all: intros; unfold has, gen_ok in *; cbn in *; try tauto; auto.
  Qed.
  Lemma inv_obs s o o' : inv s o -> (forall e, ~ In (OGenerated e) o') -> inv s (o ++ o').
  Proof.
    intros [V1 V2 V3 V4 V5 V6 V7 V8 V9 V10 V11] N. constructor; auto.
    intros e. rewrite in_app_iff, V2. specialize (N e). tauto.
  Qed.
  Lemma inv_set_cnt s o e c : inv s o -> (c_events c <> 0%N -> has (y_gen s) e) -> (forall t, c_mon c = MoStatus t -> has (y_gen s) e) ->
    inv (set_cnt s e c) o.
  Proof.
    intros [V1 V2 V3 V4 V5 V6 V7 V8 V9 V10 V11] A B. constructor; simp; auto.
    - intros e' t. destruct (upd_cases (y_cnt s) e c e') as [[-> ->]|[_ ->]]; eauto.
    - intros e'. destruct (upd_cases (y_cnt s) e c e') as [[-> ->]|[_ ->]]; eauto.
  Qed.
  Lemma inv_set_listener s o x : inv s o -> (forall m, x = Some m -> msg_ok (y_gen s) m) -> inv (set_listener s x) o.
  Proof. intros [V1 V2 V3 V4 V5 V6 V7 V8 V9 V10 V11] A. constructor; simp; auto. Qed.
  Lemma inv_set_cur s o e : inv s o -> has (y_gen s) e -> inv (set_cur s (Some e)) o.
  Proof.
    intros [V1 V2 V3 V4 V5 V6 V7 V8 V9 V10 V11] A. constructor; simp; auto; try congruence.
    unfold search_ok in *. simp. destruct (y_search s); auto; try congruence; split; try congruence; tauto.
  Qed.
  Lemma inv_set_perf s o e t : inv s o -> has (y_gen s) e -> inv (set_perf s e t) o.
  Proof.
    intros [V1 V2 V3 V4 V5 V6 V7 V8 V9 V10 V11] A. constructor; simp; auto.
    intros e'. destruct (upd_cases (y_perf s) e t e') as [[-> ->]|[_ ->]]; eauto.
  Qed.
  Lemma inv_set_ticker s o t : inv s o ->
    match t with TiWait => True | TiRange _ read => forall e t, In (e, t) read -> positive t -> has (y_gen s) e
    | TiSend m => match m with MSelected _ => True | _ => False end end -> inv (set_ticker s t) o.
  Proof. intros [V1 V2 V3 V4 V5 V6 V7 V8 V9 V10 V11] A. constructor; simp; auto. Qed.
  Lemma inv_set_mc s o q : inv s o -> Forall (msg_ok (y_gen s)) q -> inv (set_mc s q) o.
  Proof. intros [V1 V2 V3 V4 V5 V6 V7 V8 V9 V10 V11] A. constructor; simp; auto. Qed.
  Lemma inv_set_main s o : inv s o -> y_cur s <> None -> inv (set_main s) o.
  Proof. intros [V1 V2 V3 V4 V5 V6 V7 V8 V9 V10 V11] A. constructor; simp; auto. Qed.
  Lemma inv_set_search s o x : inv s o -> search_ok (set_search s x) -> inv (set_search s x) o.
  Proof. intros [V1 V2 V3 V4 V5 V6 V7 V8 V9 V10 V11] A. constructor; simp; auto. Qed.
  Lemma inv_set_gen s o o' e g : inv s o -> gen_ok g -> (has (y_gen s) e -> g_engine g <> None) ->
    (forall e', has (y_gen (set_gen s e g)) e' <-> In (OGenerated e') (o ++ o')) -> inv (set_gen s e g) (o ++ o').
  Proof.
    intros [V1 V2 V3 V4 V5 V6 V7 V8 V9 V10 V11] A B C.
    assert (forall e', has (y_gen s) e' -> has (upd (y_gen s) e g) e') as M.
    { intros e'. unfold has. destruct (upd_cases (y_gen s) e g e') as [[-> ->]|[_ ->]]; auto. }
    assert (forall m, msg_ok (y_gen s) m -> msg_ok (upd (y_gen s) e g) m) as MM by (intros []; cbn; auto).
    constructor; simp; eauto.
    - intros e'. destruct (upd_cases (y_gen s) e g e') as [[-> ->]|[_ ->]]; auto.
    - eapply Forall_impl; [|exact V4]. auto.
    - destruct (y_ticker s); eauto.
    - unfold search_ok in *. simp. destruct (y_search s); auto; split; try tauto; apply M; tauto.
  Qed.
  Lemma inv_handle s o m s' o' : inv s o -> msg_ok (y_gen s) m \/ (exists e, m = MGenerated e /\ has (y_gen s) e) -> handle m s = Ok (s', o') -> inv s' (o ++ o').
  Proof.
    intros V HM H. destruct m as [p u|p u|e|e ev ma|e t|c]; cbn [handle] in H.
    - injection H as <- <-. rewrite app_nil_r. auto.
    - injection H as <- <-. rewrite app_nil_r. auto.
    - destruct (g_engine (y_gen s e)) as [eng|] eqn:E; [|discriminate]. injection H as <- <-.
      assert (has (y_gen s) e) as HE by (unfold has; congruence).
      apply inv_obs; [|cbn; intuition discriminate].
      destruct (match y_cur s with Some c => _ | None => _ end); auto.
      apply inv_set_listener; [apply inv_set_cur; auto|]. intros m E'. injection E' as <-. exact I.
    - injection H as <- <-. rewrite app_nil_r. apply inv_set_listener; auto. intros m E. injection E as <-. exact I.
    - injection H as <- <-. assert (has (y_gen s) e) as HE by (destruct HM as [HM|(e' & D & _)]; [exact HM|discriminate]).
      apply inv_obs; [|cbn; intuition discriminate]. apply inv_set_listener; [apply inv_set_perf; auto|]. intros m E. injection E as <-. exact HE.
    - injection H as <- <-. rewrite app_nil_r. auto.
  Qed.
  Lemma inv_put s o m s' : inv s o -> msg_ok (y_gen s) m -> put cap m s = Ok s' -> inv s' o /\ y_gen s' = y_gen s /\ y_cur s' = y_cur s.
  Proof.
    unfold put. intros V M H. destruct (Nat.ltb _ _); [|discriminate]. injection H as <-. split; auto.
    apply inv_set_mc; auto. apply Forall_app. split; [apply V|auto].
  Qed.
  Lemma inv_step s o l s' o' : inv s o -> step s l = Ok (s', o') -> inv s' (o ++ o').
  Proof.
    intros V H. destruct l as [e sub|e i|e i|e|e|e|e| | |order| | | | |m| |t order| |x| | |us]; cbn [MFactory.step] in H.
    - (* LInit *) injection H as <- <-. apply inv_set_gen; auto.
      + apply fire_init_ok. apply V.
      + rewrite fire_engine. auto.
      + intros e'. rewrite app_nil_r. rewrite <- (i_seen _ _ V). simp. unfold has.
        destruct (upd_cases (y_gen s) e (fst (fire EvInit (Some sub) (y_gen s e))) e') as [[-> ->]|[_ ->]]; [rewrite fire_engine|]; tauto.
    - (* LTask *) destruct (take_out i (g_todo (y_gen s e))) as [[t r]|] eqn:T; [|discriminate].
      assert ((let! (g, _) := do_task (build e) t r (y_gen s e) in Ok (set_gen s e g, match t with TBuild _ => [OGenerated e] | _ => [] end)) = Ok (s', o')) as H'
        by (destruct t; auto; discriminate). clear H.
      destruct (do_task (build e) t r (y_gen s e)) as [[g b]| |] eqn:D; cbn [bind] in H'; try discriminate. injection H' as <- <-.
      destruct (do_task_ok e i _ _ _ _ _ (i_gen _ _ V e) T D) as (G & K1 & K2).
      apply inv_set_gen; auto.
      + unfold has. intros HE. rewrite K1; auto.
      + intros e'. rewrite in_app_iff, <- (i_seen _ _ V). simp. unfold has.
        destruct (upd_cases (y_gen s) e g e') as [[-> ->]|[NE ->]].
        * destruct t; cbn [In]; try (rewrite K2; tauto). intuition.
        * destruct t; cbn [In]; try tauto. split; [tauto|]. intros [A|[A|[]]]; auto. congruence.
    - (* LNotify *) destruct (listening s); [|discriminate]. destruct (take_out i (g_todo (y_gen s e))) as [[[]r]|] eqn:T; try discriminate.
      destruct (do_task (build e) TNotify r (y_gen s e)) as [[g b]| |] eqn:D; cbn [bind] in H; try discriminate.
      destruct (do_task_ok e i _ _ _ _ _ (i_gen _ _ V e) T D) as (G & K1 & K2).
      assert (inv (set_gen s e g) (o ++ [])) as V'.
      { apply inv_set_gen; auto.
        - unfold has. intros HE. rewrite K1; auto.
        - intros e'. rewrite app_nil_r, <- (i_seen _ _ V). simp. unfold has.
          destruct (upd_cases (y_gen s) e g e') as [[-> ->]|[NE ->]]; [rewrite K2|]; tauto. }
      rewrite app_nil_r in V'. eapply inv_handle; eauto. right. exists e. split; auto.
      cbn [handle] in H. unfold has. destruct (g_engine (y_gen (set_gen s e g) e)); congruence.
    - (* LMonTick *) destruct (c_mon (y_cnt s e)) eqn:M; try discriminate. injection H as <- <-. rewrite app_nil_r.
      apply inv_set_cnt; auto; cbn; [apply V|discriminate].
    - (* LTraffic *) destruct (c_mon (y_cnt s e)) eqn:M; try discriminate. destruct (listening s); [|discriminate].
      cbn [handle bind] in H. injection H as <- <-. apply inv_obs; [|cbn; intuition discriminate].
      apply inv_set_listener; [|intros m E; injection E as <-; exact I].
      apply inv_set_cnt; auto; cbn -[th_publish]; [apply V|]. destruct (th_publish _) eqn:Z; [|discriminate]. intros t _. apply (i_events _ _ V). apply (positive_events _ Z).
    - (* LStatus *) destruct (c_mon (y_cnt s e)) eqn:M; try discriminate. destruct (listening s); [|discriminate].
      eapply inv_handle in H; eauto.
      + apply inv_set_cnt; auto; cbn; [apply V|discriminate].
      + left. cbn. eapply (i_mon _ _ V); eauto.
    - (* LMonReset *) destruct (c_mon (y_cnt s e)) eqn:M; try discriminate. injection H as <- <-. rewrite app_nil_r.
      apply inv_set_cnt; auto; cbn; [congruence|discriminate].
    - (* LListenMc *) destruct (listening s); [|discriminate]. pose proof (i_mc _ _ V) as F. destruct (y_mc s) as [|m q]; [discriminate|].
      apply Forall_cons_iff in F. destruct F as [F1 F2]. eapply inv_handle; [|left|eauto]; auto. apply inv_set_mc; auto.
    - (* LListenSend *) destruct (y_listener s) as [m|] eqn:L; [|discriminate]. destruct (put cap m s) as [s1| |] eqn:P; cbn [bind] in H; try discriminate.
      injection H as <- <-. rewrite app_nil_r. destruct (inv_put _ _ _ _ V (i_listener _ _ V _ L) P) as (V' & _). apply inv_set_listener; auto. discriminate.
    - (* LTick *) destruct (y_ticker s); try discriminate. destruct (is_order order); [|discriminate]. injection H as <- <-. rewrite app_nil_r.
      apply inv_set_ticker; auto. intros e t [].
    - (* LTickRead *) destruct (y_ticker s) as [|[|e rest] read|] eqn:T; try discriminate. injection H as <- <-. rewrite app_nil_r.
      apply inv_set_ticker; auto. intros e' t I NZ. apply in_app_iff in I. pose proof (i_ticker _ _ V) as TT. rewrite T in TT.
      destruct I as [I|[I|[]]]; [eauto|]. injection I as -> <-. apply (i_perf _ _ V). auto.
    - (* LTickPick *) destruct (y_ticker s) as [|[|e rest] read|] eqn:T; try discriminate. injection H as <- <-. rewrite app_nil_r.
      apply inv_set_ticker; [|exact I]. pose proof (i_ticker _ _ V) as TT. rewrite T in TT.
      destruct (pick read) as [e|] eqn:P.
      + apply pick_In in P. destruct P as (t & I & NZ). apply inv_set_cur; eauto.
      + destruct s; exact V.
    - (* LTickSend *) destruct (y_ticker s) as [| |m] eqn:T; try discriminate. destruct (put cap m s) as [s1| |] eqn:P; cbn [bind] in H; try discriminate.
      injection H as <- <-. rewrite app_nil_r. pose proof (i_ticker _ _ V) as TT. rewrite T in TT.
      destruct (inv_put s o m s1) as (V' & _); auto; [destruct m; try tauto; exact I|]. apply inv_set_ticker; auto.
    - (* LMainRecv *) pose proof (i_mc _ _ V) as F. destruct (y_mc s) as [|m q]; [discriminate|]. injection H as <- <-.
      apply Forall_cons_iff in F. destruct F as [F1 F2]. apply inv_obs; [|cbn; intuition discriminate]. apply inv_set_mc; auto.
    - (* LEnv *) assert (msg_ok (y_gen s) m) as M by (destruct m; try discriminate; exact I).
      assert ((let! s' := put cap m s in Ok (s', [])) = Ok (s', o')) as H' by (destruct m; auto; discriminate). clear H.
      destruct (put cap m s) as [s1| |] eqn:P; cbn [bind] in H'; try discriminate. injection H' as <- <-. rewrite app_nil_r. eapply inv_put; eauto.
    - (* LStart *) destruct (y_cur s) eqn:C; [|discriminate]. injection H as <- <-. rewrite app_nil_r. apply inv_set_main; auto. congruence.
    - (* LSearch *) destruct (y_search s) eqn:S; try discriminate. destruct (y_main s && is_order order) eqn:B; [|discriminate]. injection H as <- <-. rewrite app_nil_r.
      apply inv_set_search; auto. unfold search_ok. simp. apply (i_main _ _ V). destruct (y_main s); auto.
    - (* LVisit *) pose proof (i_search _ _ V) as SO. unfold search_ok in SO. destruct (y_search s) as [|t [|e rest]| | | |] eqn:S; try discriminate.
      + destruct (y_cur s) as [c|] eqn:C; [|discriminate]. injection H as <- <-. rewrite app_nil_r. apply inv_set_search; auto.
        unfold search_ok. simp. split; [congruence|]. apply (i_cur _ _ V). auto.
      + injection H as <- <-. rewrite app_nil_r. apply inv_set_search; auto. unfold search_ok. simp.
        pose proof (i_gen _ _ V e) as G. unfold gen_ok in G.
        destruct (_ && _) eqn:B; auto. split; auto. unfold has. destruct (g_fsm (y_gen s e)); try (rewrite andb_false_r in B; discriminate). tauto.
    - (* LRun *) pose proof (i_search _ _ V) as SO. unfold search_ok in SO. destruct (y_search s) as [| |t e k| | |] eqn:S; try discriminate.
      destruct (g_engine (y_gen s e)) as [eng|] eqn:E; [|discriminate]. destruct (esearch x eng t) as [[[a found] eng']| |]; cbn [bind] in H; try discriminate.
      injection H as <- <-. apply inv_obs; [|destruct found; cbn; intuition discriminate].
      set (g := {| g_fsm := g_fsm (y_gen s e); g_engine := Some eng'; g_todo := g_todo (y_gen s e) |}).
      assert (inv (set_gen s e g) (o ++ [])) as V'.
      { apply inv_set_gen; auto.
        - pose proof (i_gen _ _ V e) as G. unfold gen_ok, g in *. simp. rewrite E in G. destruct (g_fsm (y_gen s e)); auto.
          + destruct G; discriminate.
          + destruct G as [[? _]|[_ G]]; [discriminate|]. right. split; [discriminate|auto].
          + split; [discriminate|tauto].
        - discriminate.
        - intros e'. rewrite app_nil_r, <- (i_seen _ _ V). simp. unfold has.
          destruct (upd_cases (y_gen s) e g e') as [[-> ->]|[NE ->]]; [|tauto]. unfold g. cbn. rewrite E. split; discriminate. }
      rewrite app_nil_r in V'. apply inv_set_search; auto. unfold search_ok. simp. destruct found; (split; [tauto|]); unfold has; rewrite upd_same; discriminate.
    - (* LRead *) pose proof (i_search _ _ V) as SO. unfold search_ok in SO. destruct (y_search s) eqn:S; try discriminate. injection H as <- <-. rewrite app_nil_r.
      apply inv_set_search; auto.
    - (* LWrite *) pose proof (i_search _ _ V) as SO. unfold search_ok in SO. destruct (y_search s) eqn:S; try discriminate. injection H as <- <-. rewrite app_nil_r.
      apply inv_set_search; auto. apply inv_set_cnt; auto; cbn; apply V.
    - (* LReport *) pose proof (i_search _ _ V) as SO. unfold search_ok in SO. destruct (y_search s) as [| | | | |a t e k] eqn:S; try discriminate.
      destruct (c_mon (y_cnt s e)) eqn:M; try discriminate. destruct (goes_on a t e k) as [x o1] eqn:G. injection H as <- <-.
      assert ((x = SIdle \/ exists r, x = SLoop t r) /\ forall e', ~ In (OGenerated e') o1) as [X N].
      { unfold goes_on in G. destruct k; injection G as <- <-; (split; [eauto|cbn; intuition discriminate]). }
      apply inv_obs; [|cbn; intros e' [D|D]; [discriminate|eapply N; eauto]].
      apply inv_set_search; [apply inv_set_cnt; auto; cbn; [tauto|discriminate]|].
      unfold search_ok. simp. destruct X as [-> |(r & ->)]; auto. tauto.
  Qed.

  Lemma inv_run ls s o : run sys0 ls = Ok (s, o) -> inv s o.
  Proof. intros R. apply (run_inv inv inv_step ls sys0 [] s o inv0 R). Qed.
  Lemma do_task_total e i g t r : (forall sub, In (TBuild (Some sub)) (g_todo g) -> build e sub <> Panic) -> gen_ok g -> take_out i (g_todo g) = Some (t, r) -> do_task (build e) t r g <> Panic.
  Proof.
    intros NP G T. unfold gen_ok in G. destruct t as [[sub|]| | |]; cbn [do_task]; try discriminate.
    - specialize (NP sub (take_out_In _ _ _ _ T)). destruct (build e sub); cbn; congruence.
    - exfalso. apply take_out_In in T. destruct (g_fsm g); try tauto.
      + destruct G as [_ G]. rewrite G in T. destruct T.
      + destruct G as [[_ (sub & G)]|[_ G]]; rewrite G in T; destruct T as [T|[]]; congruence.
      + destruct G as [_ [G|G]]; rewrite G in T; cbn in T; intuition congruence.
  Qed.
  Lemma handle_total s o m : inv s o -> (forall e, m = MGenerated e -> has (y_gen s) e) -> handle m s <> Panic.
  Proof.
    intros V N. destruct m; cbn [handle]; try discriminate. specialize (N e eq_refl). unfold has in N.
    destruct (g_engine (y_gen s e)); [discriminate|congruence].
  Qed.
  Lemma put_total m (s : sys) : put cap m s <> Panic.
  Proof. unfold put. destruct (Nat.ltb _ _); discriminate. Qed.
  Lemma step_total s o l : (forall e sub, In (TBuild (Some sub)) (g_todo (y_gen s e)) -> build e sub <> Panic) ->
    (forall x e eng t k, y_search s = SRun t e k -> g_engine (y_gen s e) = Some eng -> esearch x eng t <> Panic) -> inv s o -> step s l <> Panic.
  Proof.
    intros NB NS V. destruct l as [e sub|e i|e i|e|e|e|e| | |order| | | | |m| |t order| |x| | |us]; cbn [MFactory.step]; try discriminate.
    - destruct (take_out i (g_todo (y_gen s e))) as [[t r]|] eqn:T; [|discriminate].
      pose proof (do_task_total e i _ _ _ (NB e) (i_gen _ _ V e) T) as D.
      destruct t; try discriminate; destruct (do_task _ _ r _) as [[]| |]; cbn; congruence.
    - destruct (listening s); [|discriminate]. destruct (take_out i (g_todo (y_gen s e))) as [[[]r]|] eqn:T; try discriminate.
      cbn [do_task bind handle]. pose proof (i_gen _ _ V e) as G. cbn [set_gen y_gen]. rewrite upd_same. cbn [g_engine].
      destruct (g_engine (y_gen s e)) eqn:E; [discriminate|]. exfalso. unfold gen_ok in G. apply take_out_In in T.
      destruct (g_fsm (y_gen s e)); try tauto.
      + destruct G as [_ G]. rewrite G in T. destruct T.
      + destruct G as [[_ (sub & G)]|[G' _]]; [|congruence]. rewrite G in T. destruct T as [T|[]]; congruence.
    - destruct (c_mon _); discriminate.
    - destruct (c_mon _); try discriminate. destruct (listening s); discriminate.
    - destruct (c_mon _); try discriminate. destruct (listening s); discriminate.
    - destruct (c_mon _); discriminate.
    - destruct (listening s); [|discriminate]. pose proof (i_mc _ _ V) as F. destruct (y_mc s) as [|m q]; [discriminate|].
      apply Forall_cons_iff in F. destruct F as [F1 F2]. eapply handle_total; [apply inv_set_mc; eauto|]. intros e ->. destruct F1.
    - destruct (y_listener s) as [m|]; [|discriminate]. pose proof (put_total m s). destruct (put cap m s); cbn; congruence.
    - destruct (y_ticker s); try discriminate. destruct (is_order order); discriminate.
    - destruct (y_ticker s) as [|[|e rest] read|]; discriminate.
    - destruct (y_ticker s) as [|[|e rest] read|]; discriminate.
    - destruct (y_ticker s) as [| |m]; try discriminate. pose proof (put_total m s). destruct (put cap m s); cbn; congruence.
    - destruct (y_mc s); discriminate.
    - pose proof (put_total m s). destruct m; try discriminate; destruct (put cap _ s); cbn; congruence.
    - destruct (y_cur s); discriminate.
    - destruct (y_search s); try discriminate. destruct (_ && _); discriminate.
    - pose proof (i_search _ _ V) as SO. unfold search_ok in SO. destruct (y_search s) as [|t [|e rest]| | | |]; try discriminate.
      destruct (y_cur s); [discriminate|congruence].
    - pose proof (i_search _ _ V) as SO. unfold search_ok in SO. destruct (y_search s) as [| |t e k| | |]; try discriminate.
      destruct SO as [_ SO]. unfold has in SO. destruct (g_engine (y_gen s e)) as [eng|] eqn:GE; [|congruence].
      specialize (NS x e eng t k eq_refl GE). destruct (esearch x eng t) as [[[]]| |]; cbn; congruence.
    - destruct (y_search s); discriminate.
    - destruct (y_search s); discriminate.
    - destruct (y_search s) as [| | | | |a t e k]; try discriminate. destruct (c_mon _); try discriminate. destruct (goes_on _ _ _ _). discriminate.
  Qed.
End Runs.
