(** Property C52: the life cycle of an engine generator. *)
From Verif Require Import GoBase BinUtil MSubs MGenerator MFactory MSystem TestVectors.
From Verif Require Import PFactory PGenerator PropsSplay PropsFactory.
From Coq Require Import Lia.

(** The cycle of filtering/engine_generator.go:46-49, written down once more. *)
Inductive allowed : gevent -> gstate -> gstate -> Prop :=
| ok_init : allowed EvInit Unavailable Generating
| ok_deploy_first : allowed EvDeploy Generating Ready
| ok_update : allowed EvUpdate Ready Pending
| ok_rebuild : allowed EvRebuild Pending Rebuilding
| ok_deploy_again : allowed EvDeploy Rebuilding Ready.
Definition moves (s s' : gstate) : Prop := s' = s \/ exists e, allowed e s s'.

(** A step leaves the state alone or moves one place along the cycle. *)
Theorem C52_moves : forall {Sub Eng} (build : Sub -> result Eng) g l g' b, gstep build g l = Ok (g', b) -> moves (g_fsm g) (g_fsm g').
Proof.
  intros Sub Eng build g l g' b H.
  assert (forall e a g, moves (g_fsm g) (g_fsm (fst (fire (Eng := Eng) (Sub := Sub) e a g)))) as F.
  { intros e a [f en td]. unfold fire, moves. destruct e, f; cbn [g_fsm fsm_next fst]; auto; right; eexists; constructor. }
  destruct l as [e a|i]; cbn [gstep] in H; [injection H as <- <-; apply F|].
  destruct (take_out i (g_todo g)) as [[t r]|]; [|discriminate]. destruct t as [[sub|]| | |]; cbn [do_task] in H; try discriminate.
  - destruct (build sub); cbn [bind] in H; try discriminate. injection H as <- <-. left. auto.
  - injection H as <- <-. apply (F EvDeploy None {| g_fsm := g_fsm g; g_engine := g_engine g; g_todo := r |}).
  - injection H as <- <-. apply (F EvRebuild None {| g_fsm := g_fsm g; g_engine := g_engine g; g_todo := r |}).
  - injection H as <- <-. left. auto.
Qed.
Print Assumptions C52_moves.
(** An event is accepted exactly where the cycle has it, and otherwise changes
    nothing. *)
Theorem C52_events : forall {Sub Eng} e (a : option Sub) (g : gen Sub Eng) g' ok, fire e a g = (g', ok) ->
  (ok = true -> allowed e (g_fsm g) (g_fsm g') /\ g_engine g' = g_engine g) /\
  (ok = false -> g' = g /\ forall s, ~ allowed e (g_fsm g) s).
Proof.
  intros Sub Eng e a [f en td] g' ok H. unfold fire in H.
  destruct e, f; cbn [g_fsm fsm_next] in H; injection H as <- <-; cbn [g_fsm g_engine]; split; intros E; try discriminate E;
    try (split; [constructor|reflexivity]); (split; [reflexivity|intros s A; inversion A]).
Qed.
Print Assumptions C52_events.
(** A generator that is ready, or updating afterwards, has an engine: provided that
    only the generator itself reports the first deployment. *)
Definition deploys_itself {Sub Eng} (build : Sub -> result Eng) (ls : list (glabel Sub)) : Prop :=
  forall ls1 a ls2 g, ls = ls1 ++ GFire EvDeploy a :: ls2 -> grun build new_gen ls1 = Ok g -> g_fsm g <> Generating.
Theorem C52_ready_has_engine_partial : forall {Sub Eng} (build : Sub -> result Eng) ls g,
  deploys_itself build ls -> grun build new_gen ls = Ok g -> g_fsm g <> Unavailable -> g_fsm g <> Generating -> g_engine g <> None.
Proof.
  intros Sub Eng build ls g N R H1 H2. pose proof (ginv_run build ls new_gen g ginv0 N R) as V. unfold ginv in V. destruct (g_fsm g); tauto.
Qed.
Print Assumptions C52_ready_has_engine_partial.
(** The factory never reports a deployment itself: there the property holds of
    every run. *)
Theorem C52_ready_has_engine_in_factory : forall {Sub Eng Tag Orc Ans} (build : ename -> Sub -> result Eng) (esearch : Orc -> Eng -> Tag -> result (Ans * bool * Eng)) cap ls s o e,
  run build esearch cap sys0 ls = Ok (s, o) -> g_fsm (y_gen s e) = Ready -> g_engine (y_gen s e) <> None.
Proof.
  intros Sub Eng Tag Orc Ans build esearch cap ls s o e R G. pose proof (inv_run build esearch cap _ _ _ R) as V. pose proof (i_gen _ _ V e) as OK.
  unfold gen_ok in OK. rewrite G in OK. apply OK.
Qed.
Print Assumptions C52_ready_has_engine_in_factory.
(** Whoever else holds the generator can fire deploy while the engine is being
    built, and then it is ready without an engine. *)
Theorem C52_refuted : exists (ls : list (glabel subscriptions)) g, grun (build_engine E0 EList) new_gen ls = Ok g /\ g_fsm g = Ready /\ g_engine g = None.
Proof. exists [GFire EvInit (Some ex_chain); GFire EvDeploy None]. eexists. split; [vm_compute; reflexivity|]. auto. Qed.
Print Assumptions C52_refuted.

(** What the generator has begun comes to an end, in every order: only finitely
    many of its own steps are possible, and when none is left it is ready, or was
    never started. *)
Theorem C52_settles : forall {Sub Eng} (build : Sub -> result Eng) ls g, deploys_itself build ls -> grun build new_gen ls = Ok g ->
  exists n, forall tasks g', Forall (fun l => exists i, l = GTask i) tasks -> grun build g tasks = Ok g' ->
    length tasks <= n /\ (g_todo g' = [] -> g_fsm g' = Unavailable \/ (g_fsm g' = Ready /\ g_engine g' <> None)).
Proof.
  intros Sub Eng build ls g N R. exists (work (g_todo g)). intros tasks g' F R'. split.
  - pose proof (work_run build tasks g g' F R'). lia.
  - intros E. pose proof (ginv_run build ls new_gen g ginv0 N R) as V.
    assert (ginv g') as V'.
    { apply (ginv_run build tasks g g' V); auto. intros ls1 a ls2 g1 EQ _. rewrite EQ in F. apply Forall_app in F. destruct F as [_ F].
      apply Forall_cons_iff in F. destruct F as [(i & F) _]. discriminate. }
    destruct (settled g' V' E) as [S|S]; auto. right. split; auto. unfold ginv in V'. rewrite S in V'. apply V'.
Qed.
Print Assumptions C52_settles.
(** As long as something is left and init had its argument, a step is possible. *)
Theorem C52_no_deadlock : forall {Sub Eng} (build : Sub -> result Eng) (g : gen Sub Eng), (forall sub, exists eng, build sub = Ok eng) ->
  g_todo g <> [] -> ~ In (TBuild None) (g_todo g) -> exists g' b, gstep build g (GTask 0) = Ok (g', b).
Proof. intros Sub Eng build g B NE NA. apply task_ready; auto. Qed.
Print Assumptions C52_no_deadlock.

(** Init, build, deploy, notify; update, with an illegal init in between; rebuild
    and deploy again. *)
Definition ex_life : list (glabel subscriptions) :=
  [GFire EvUpdate None; GFire EvInit (Some ex_chain); GTask 0; GTask 0; GTask 0; GFire EvUpdate None; GFire EvInit (Some []); GTask 0; GTask 0].
Example C52_case : deploys_itself (build_engine E0 EList) ex_life /\
  exists g, grun (build_engine E0 EList) new_gen ex_life = Ok g /\ g_fsm g = Ready /\ g_todo g = [TNotify].
Proof.
  split.
  - intros ls1 a ls2 g E _. exfalso. assert (In (GFire EvDeploy a) ex_life) as I by (rewrite E; apply in_or_app; right; left; auto).
    cbn in I. repeat (destruct I as [I|I]; [discriminate I|]). destruct I.
  - eexists. split; [vm_compute; reflexivity|]. auto.
Qed.
