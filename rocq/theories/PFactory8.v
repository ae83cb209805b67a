(** When every search takes some time, so do the published intervals. *)
From Verif Require Import GoBase MGenerator MFactory SpecFactory PFactory PFactory2.
From Coq Require Import Lia ZifyBool ZifyN.

Section Runs.
  Context {Sub Eng Tag Orc Ans : Type} (build : ename -> Sub -> result Eng)
    (esearch : Orc -> Eng -> Tag -> result (Ans * bool * Eng)) (cap : nat).
  Notation step := (step build esearch cap).
  Notation run := (run build esearch cap).
  Notation sys := (@sys Sub Eng Tag Ans).
  Notation obs := (@obs Tag Ans).
  Notation inv := (@inv Sub Eng Tag Ans).

  Ltac simp := cbn [set_gen set_cnt set_listener set_cur set_perf set_ticker set_mc set_main set_search
    y_gen y_cnt y_cur y_perf y_listener y_ticker y_mc y_main y_search c_events c_matched c_time c_mon counters0 g_fsm g_engine g_todo th_events th_time] in *.
  Ltac crunch H := repeat (cbn [bind handle fst snd] in H; unfold put, goes_on in H;
    first [discriminate H | match type of H with
      | context [handle ?m _] => is_var m; destruct m
      | context [match ?x with _ => _ end] => destruct x eqn:?
      | context [bind ?x _] => destruct x eqn:? end]).
  Ltac cases_of l H := destruct l as [? ?|? ?|? ?|?|?|?|?| | |?| | | | |?| |? ?| |?| | |?]; cbn [MFactory.step] in H; crunch H; injection H as <- <-;
    try match goal with E : match ?k with Some _ => _ | None => _ end = (_, _) |- _ => destruct k; injection E as <- <- end.


  Notation label := (@label Sub Tag Orc).
  Definition takes_time (l : label) : Prop := forall us, l = LReport us -> us <> 0%N.
  Definition mtimed (m : msg) : Prop := match m with MStatus _ t => th_time t <> 0%N | _ => True end.
  Definition ctimed (c : counters) : Prop :=
    (c_events c <= c_time c)%N /\ match c_mon c with MoStatus t => th_time t <> 0%N | _ => True end.
  Definition titimed (t : ticker) : Prop := match t with TiSend m => mtimed m | _ => True end.
  Definition otimed (x : obs) : Prop := match x with OMain m => mtimed m | _ => True end.
  Record timed (s : sys) (o : list obs) : Prop := {
    td_cnt : forall e, ctimed (y_cnt s e);
    td_mc : Forall mtimed (y_mc s);
    td_listener : forall m, y_listener s = Some m -> mtimed m;
    td_ticker : titimed (y_ticker s);
    td_seen : Forall otimed o }.
  Lemma timed_step s o l s' o' : takes_time l -> timed s o -> step s l = Ok (s', o') -> timed s' (o ++ o').
  Proof.
    intros TT [C M L T O] H.
    assert (forall e c, ctimed c -> forall e', ctimed (upd (y_cnt s) e c e')) as UC.
    { intros e c HC e'. destruct (upd_cases (y_cnt s) e c e') as [[-> ->]|[_ ->]]; auto. }
    assert (Forall otimed o' -> Forall otimed (o ++ o')) as O' by (intros; apply Forall_app; auto).
    assert (forall x : obs, otimed x -> Forall otimed [x]) as O1 by (intros; constructor; auto).
    assert (forall x y : obs, otimed x -> otimed y -> Forall otimed [x; y]) as O2 by (intros; constructor; auto).
    assert (Forall otimed []) as O0 by constructor.
    cases_of l H; constructor; simp; auto;
      try (match goal with E : y_ticker _ = _ |- _ => rewrite E in T end); auto; try exact I; try discriminate;
      try (apply O'; first [apply O0|apply O1; exact I|apply O2; exact I]; fail);
      try (inversion M; subst; auto; fail);
      try (apply Forall_app; split; [auto|apply Forall_cons; [first [auto|exact I]|constructor]]; fail);
      try (intros m' E; injection E as <-; cbn [mtimed]; auto; fail).
    all: try (apply UC; unfold ctimed; simp; match goal with |- context [y_cnt _ ?e] => destruct (C e) as [C1 C2] end; split; [lia|auto]; fail).
    all: try (apply UC; unfold ctimed; simp; split; [lia|exact I]).
    all: try (match goal with E : c_mon (y_cnt _ ?e) = MoStatus _ |- _ => destruct (C e) as [_ C2]; rewrite E in C2 end;
      intros m' E'; injection E' as <-; exact C2).
    all: try (intros m' E'; injection E' as <-; inversion M; subst; assumption).
    all: try (apply O'; inversion M; subst; apply O1; assumption).
    all: try (apply UC; unfold ctimed; simp; match goal with |- context [y_cnt _ ?e] => destruct (C e) as [C1 C2] end; specialize (TT _ eq_refl); split; [lia|exact I]).
    all: try (apply Forall_app; split; [auto|repeat constructor]; fail).
    all: apply UC; unfold ctimed; simp; match goal with |- context [y_cnt _ ?e] => destruct (C e) as [C1 C2] end;
      split; [lia|]; match goal with E : th_publish ?t = true |- _ => pose proof (positive_events t E) as P; cbn [th_events] in P end; lia.
  Qed.
  Lemma timed_run ls s o : Forall takes_time ls -> run sys0 ls = Ok (s, o) -> forall e t, In (OMain (MStatus e t)) o -> th_time t <> 0%N.
  Proof.
    intros F R e t J. assert (timed s o) as V.
    { refine (run_inv_l build esearch cap takes_time timed timed_step ls sys0 [] s o F _ R).
      constructor; try constructor; try (intros ? D; discriminate D); cbn; auto; lia. }
    pose proof (td_seen _ _ V) as O. rewrite Forall_forall in O. exact (O _ J).
  Qed.
End Runs.
