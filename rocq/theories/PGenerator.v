(** Proofs about the life cycle of an engine generator. *)
From Verif Require Import GoBase MGenerator PFactory.
From Coq Require Import Lia.

Section Gen.
  Context {Sub Eng : Type} (build : Sub -> result Eng).
  Notation gen := (gen Sub Eng).
  Notation gstep := (gstep build).
  Notation grun := (grun build).

  Definition later (l : list (todo Sub)) : Prop := forall a, ~ In (TBuild a) l.
  Definition ginv (g : gen) : Prop :=
    match g_fsm g with
    | Unavailable => g_engine g = None /\ g_todo g = []
    | Generating => (g_engine g = None /\ exists a, g_todo g = [TBuild a]) \/ (g_engine g <> None /\ g_todo g = [TDeploy])
    | Ready => g_engine g <> None /\ later (g_todo g)
    | Pending => g_engine g <> None /\ later (g_todo g) /\ In TRebuild (g_todo g)
    | Rebuilding => g_engine g <> None /\ later (g_todo g) /\ In TDeploy (g_todo g)
    end.
  Lemma ginv0 : ginv new_gen.
  Proof. cbn. auto. Qed.
  Lemma later_app l l' : later l -> later l' -> later (l ++ l').
  Proof. intros A B a I. apply in_app_or in I. destruct I; [eapply A|eapply B]; eauto. Qed.
  Lemma later_one (t : todo Sub) : (forall a, t <> TBuild a) -> later [t].
  Proof. intros H a [E|[]]. eapply H; eauto. Qed.
  Lemma ginv_fire e a (g : gen) : ginv g -> (e = EvDeploy -> g_fsm g <> Generating) -> ginv (fst (fire e a g)).
  Proof.
    intros V N. destruct g as [f en td]. unfold fire, ginv in *. cbn [g_fsm g_engine g_todo] in *.
    destruct e, f; cbn [fsm_next fst g_fsm g_engine g_todo enter]; auto; try (exfalso; apply N; auto; fail).
    - destruct V as [-> ->]. left. split; auto. exists a. auto.
    - destruct V as (V1 & V2 & V3). split; auto. apply later_app; auto. apply later_one; discriminate.
    - destruct V as (V1 & V2). split; auto. split; [apply later_app; auto; apply later_one; discriminate|]. apply in_or_app. right. left. auto.
    - destruct V as (V1 & V2 & _). split; auto. split; [apply later_app; auto; apply later_one; discriminate|]. apply in_or_app. right. left. auto.
  Qed.
  Lemma take_out_split {A} i (l : list A) x r : take_out i l = Some (x, r) -> exists l1 l2, l = l1 ++ x :: l2 /\ r = l1 ++ l2.
  Proof.
    revert i r. induction l as [|y l IH]; intros i r H; [destruct i; discriminate|]. destruct i as [|i]; cbn [take_out] in H.
    - injection H as -> ->. exists [], r. auto.
    - destruct (take_out i l) as [[z q]|] eqn:E; [|discriminate]. injection H as -> <-. destruct (IH _ _ E) as (l1 & l2 & -> & ->). exists (y :: l1), l2. auto.
  Qed.
  Lemma later_rest i l t r : later l -> take_out i l = Some (t, r) -> later r.
  Proof. intros L T a I. apply take_out_split in T. destruct T as (l1 & l2 & -> & ->). apply (L a). apply in_app_or in I. apply in_or_app. destruct I; auto. right. right. auto. Qed.
  Lemma ginv_task i g t r g' b : ginv g -> take_out i (g_todo g) = Some (t, r) -> do_task build t r g = Ok (g', b) -> ginv g'.
  Proof.
    destruct g as [f en td]. unfold ginv. cbn [g_fsm g_engine g_todo]. intros V T D. destruct f.
    - destruct V as [_ ->]. destruct i; discriminate.
    - destruct V as [[-> (a & ->)]|[NE ->]]; apply take_out_one in T; destruct T as [-> ->]; cbn in D.
      + destruct a as [sub|]; [|discriminate]. destruct (build sub) as [eng| |]; cbn in D; try discriminate. injection D as <- <-. cbn. right. split; auto. discriminate.
      + injection D as <- <-. cbn. split; auto. apply later_one. discriminate.
    - destruct V as (NE & L). pose proof (later_rest _ _ _ _ L T) as L'. destruct t; cbn in D.
      + apply take_out_In in T. exfalso. eapply L; eauto.
      + injection D as <- <-. cbn. auto.
      + injection D as <- <-. cbn. auto.
      + injection D as <- <-. cbn. auto.
    - destruct V as (NE & L & I). pose proof (later_rest _ _ _ _ L T) as L'. pose proof (take_out_split _ _ _ _ T) as (l1 & l2 & -> & ->).
      assert (t <> TRebuild -> In TRebuild (l1 ++ l2)) as I'.
      { intros N. apply in_app_or in I. apply in_or_app. destruct I as [I|[I|I]]; auto. congruence. }
      destruct t; cbn in D.
      + apply take_out_In in T. exfalso. eapply L; eauto.
      + injection D as <- <-. cbn. split; auto. split; auto. apply I'. discriminate.
      + injection D as <- <-. cbn. split; auto. split; [apply later_app; auto; apply later_one; discriminate|]. apply in_or_app. right. left. auto.
      + injection D as <- <-. cbn. split; auto. split; auto. apply I'. discriminate.
    - destruct V as (NE & L & I). pose proof (later_rest _ _ _ _ L T) as L'. pose proof (take_out_split _ _ _ _ T) as (l1 & l2 & -> & ->).
      assert (t <> TDeploy -> In TDeploy (l1 ++ l2)) as I'.
      { intros N. apply in_app_or in I. apply in_or_app. destruct I as [I|[I|I]]; auto. congruence. }
      destruct t; cbn in D.
      + apply take_out_In in T. exfalso. eapply L; eauto.
      + injection D as <- <-. cbn. split; auto. apply later_app; auto. apply later_one; discriminate.
      + injection D as <- <-. cbn. split; auto. split; auto. apply I'. discriminate.
      + injection D as <- <-. cbn. split; auto. split; auto. apply I'. discriminate.
  Qed.
  Lemma grun_app ls1 : forall ls2 g, grun g (ls1 ++ ls2) = (let! g1 := grun g ls1 in grun g1 ls2).
  Proof.
    induction ls1 as [|l ls1 IH]; intros ls2 g; cbn [MGenerator.grun app bind]; auto.
    destruct (gstep g l) as [[g1 b]| |]; cbn [bind]; auto.
  Qed.
  Lemma ginv_run ls : forall g g', ginv g ->
    (forall ls1 a ls2 g1, ls = ls1 ++ GFire EvDeploy a :: ls2 -> grun g ls1 = Ok g1 -> g_fsm g1 <> Generating) ->
    grun g ls = Ok g' -> ginv g'.
  Proof.
    induction ls as [|l ls IH]; intros g g' V N R; cbn [MGenerator.grun] in R; [injection R as <-; auto|].
    destruct (gstep g l) as [[g1 b]| |] eqn:S; cbn [bind] in R; try discriminate. apply (IH g1); auto.
    - destruct l as [e a|i]; cbn [MGenerator.gstep] in S.
      + injection S as <- <-. apply ginv_fire; auto. intros ->. apply (N [] a ls g); auto.
      + destruct (take_out i (g_todo g)) as [[t r]|] eqn:T; [|discriminate]. eapply ginv_task; eauto.
    - intros ls1 a ls2 g2 E R2. apply (N (l :: ls1) a ls2 g2); [cbn; congruence|]. cbn [MGenerator.grun]. rewrite S. cbn [bind]. auto.
  Qed.

  (** Work left: every task that is done leaves strictly less. *)
  Definition weight (t : todo Sub) : nat := match t with TBuild _ => 4 | TRebuild => 3 | TDeploy => 2 | TNotify => 1 end.
  Definition work (l : list (todo Sub)) : nat := list_sum (map weight l).
  Lemma work_app a b : work (a ++ b) = work a + work b.
  Proof. unfold work. rewrite map_app, list_sum_app. auto. Qed.
  Lemma work_task i g t r g' b : take_out i (g_todo g) = Some (t, r) -> do_task build t r g = Ok (g', b) -> work (g_todo g') < work (g_todo g).
  Proof.
    intros T D. apply take_out_split in T. destruct T as (l1 & l2 & EQ & ->). rewrite EQ, work_app. change (work (t :: l2)) with (weight t + work l2).
    destruct t as [[sub|]| | |]; cbn [do_task] in D; try discriminate.
    - destruct (build sub); cbn [bind] in D; try discriminate. injection D as <- <-. cbn [g_todo]. rewrite !work_app. cbn. lia.
    - injection D as <- <-. unfold fire. destruct (g_fsm g); cbn [fsm_next fst g_todo g_fsm enter]; rewrite !work_app; cbn; lia.
    - injection D as <- <-. unfold fire. destruct (g_fsm g); cbn [fsm_next fst g_todo g_fsm enter]; rewrite !work_app; cbn; lia.
    - injection D as <- <-. cbn [g_todo]. rewrite work_app. cbn. lia.
  Qed.
  Lemma work_run ls : forall g g', Forall (fun l => exists i, l = GTask i) ls -> grun g ls = Ok g' -> length ls + work (g_todo g') <= work (g_todo g).
  Proof.
    induction ls as [|l ls IH]; intros g g' F R; cbn [MGenerator.grun] in R; [injection R as <-; auto|].
    apply Forall_cons_iff in F. destruct F as [(i & ->) F]. cbn [MGenerator.gstep] in R.
    destruct (take_out i (g_todo g)) as [[t r]|] eqn:T; cbn [bind] in R; [|discriminate].
    destruct (do_task build t r g) as [[g1 b]| |] eqn:D; cbn [bind] in R; try discriminate.
    apply (IH g1 g' F) in R. pose proof (work_task _ _ _ _ _ _ T D). cbn [length]. lia.
  Qed.
  Lemma settled g : ginv g -> g_todo g = [] -> g_fsm g = Unavailable \/ g_fsm g = Ready.
  Proof.
    unfold ginv. intros V E. rewrite E in V. destruct (g_fsm g); auto.
    - destruct V as [(_ & a & V)|(_ & V)]; discriminate.
    - destruct V as (_ & _ & []).
    - destruct V as (_ & _ & []).
  Qed.
  (** A task can be done. *)
  Lemma task_ready g : (forall sub, exists eng, build sub = Ok eng) -> g_todo g <> [] -> ~ In (TBuild None) (g_todo g) ->
    exists g' b, gstep g (GTask 0) = Ok (g', b).
  Proof.
    intros B NE NA. cbn [MGenerator.gstep]. destruct (g_todo g) as [|t r] eqn:E; [congruence|]. cbn [take_out].
    destruct t as [[sub|]| | |]; cbn [do_task]; eauto.
    - destruct (B sub) as (eng & ->). cbn [bind]. eauto.
    - exfalso. apply NA. left. auto.
  Qed.
End Gen.
