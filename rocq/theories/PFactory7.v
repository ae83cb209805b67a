(** Where recorded throughputs and announced selections come from. *)
From Verif Require Import GoBase MGenerator MFactory SpecFactory PFactory PFactory2 PFactory3 PFactory4 PFactory6.
From Coq Require Import Lia.

Section Runs.
  Context {Sub Eng Tag Orc Ans : Type} (build : ename -> Sub -> result Eng)
    (esearch : Orc -> Eng -> Tag -> result (Ans * bool * Eng)) (cap : nat).
  Notation step := (step build esearch cap).
  Notation run := (run build esearch cap).
  Notation sys := (@sys Sub Eng Tag Ans).
  Notation obs := (@obs Tag Ans).
  Notation inv := (@inv Sub Eng Tag Ans).

  Ltac simp := cbn [set_gen set_cnt set_listener set_cur set_perf set_ticker set_mc set_main set_search
    y_gen y_cnt y_cur y_perf y_listener y_ticker y_mc y_main y_search c_events c_matched c_time c_mon counters0 g_fsm g_engine g_todo th_events th_time] in *.
  Ltac crunch H := repeat (cbn [bind handle fst snd] in H; unfold put, goes_on in H;
    first [discriminate H | match type of H with
      | context [handle ?m _] => is_var m; destruct m
      | context [match ?x with _ => _ end] => destruct x eqn:?
      | context [bind ?x _] => destruct x eqn:? end]).
  Ltac cases_of l H := destruct l as [? ?|? ?|? ?|?|?|?|?| | |?| | | | |?| |? ?| |?| | |?]; cbn [MFactory.step] in H; crunch H; injection H as <- <-;
    try match goal with E : match ?k with Some _ => _ | None => _ end = (_, _) |- _ => destruct k; injection E as <- <- end.


  (** A message has a cause in what was seen. *)
  Definition caused (o : list obs) (m : msg) : Prop :=
    match m with
    | MStatus e t => exists k, In (OPublished e (th_events t) k) o
    | MSelected (Some e) => In (OGenerated e) o
    | _ => True
    end.
  Definition mon_ok (o : list obs) (e : ename) (c : counters) : Prop :=
    match c_mon c with MoStatus t => exists k, In (OPublished e (th_events t) k) o | MoTraffic n _ => n = c_events c | _ => True end.
  Definition tick_ok (o : list obs) (t : ticker) : Prop := match t with TiSend m => caused o m | _ => True end.
  Record origin (s : sys) (o : list obs) : Prop := {
    or_inv : inv s o;
    or_count : forall e, mon_ok o e (y_cnt s e);
    or_mc : Forall (caused o) (y_mc s);
    or_listener : forall m, y_listener s = Some m -> caused o m;
    or_ticker : tick_ok o (y_ticker s) }.
  Lemma caused_app o o' m : caused o m -> caused (o ++ o') m.
  Proof. destruct m as [| | | | |[e|]]; cbn; auto; [intros (k & I); exists k|intros I]; apply in_app_iff; auto. Qed.
  Lemma origin_step s o l s' o' : origin s o -> step s l = Ok (s', o') -> origin s' (o ++ o').
  Proof.
    intros [V C M L T] H. pose proof (inv_step build esearch cap _ _ _ _ _ V H) as V'.
    assert (forall m, caused o m -> caused (o ++ o') m) as CA by (intros; apply caused_app; auto).
    assert (Forall (caused (o ++ o')) (y_mc s)) as M' by (eapply Forall_impl; [|apply M]; auto).
    assert (tick_ok (o ++ o') (y_ticker s)) as T' by (destruct (y_ticker s); cbn in *; auto).
    assert (forall e, y_cur s' = Some e -> In (OGenerated e) (o ++ o')) as CUR.
    { intros e E. apply (i_seen _ _ V'). apply (i_cur _ _ V'). auto. }
    assert (forall e, mon_ok (o ++ o') e (y_cnt s e)) as C'.
    { intros e. specialize (C e). unfold mon_ok in *. destruct (c_mon (y_cnt s e)); auto. destruct C as (k & I). exists k. apply in_app_iff; auto. }
    assert (forall e c, mon_ok (o ++ o') e c -> forall e', mon_ok (o ++ o') e' (upd (y_cnt s) e c e')) as UC.
    { intros e c HC e'. destruct (upd_cases (y_cnt s) e c e') as [[-> ->]|[_ ->]]; auto. }
    assert (forall m, y_listener s = Some m -> caused (o ++ o') m) as L' by auto.
    cases_of l H; constructor; simp; auto;
      try (match goal with E : y_ticker _ = _ |- _ => rewrite E in T end); auto; try exact I;
      try discriminate;
      try (apply Forall_app; split; [auto|apply Forall_cons; [auto|constructor]]; fail);
      try (inversion M'; subst; auto; fail);
      try (intros m' E; injection E as <-; cbn [caused]; auto; fail).
    all: try (apply UC; unfold mon_ok; simp; auto; fail).
    all: try (apply Forall_app; split; [auto|apply Forall_cons; [exact I|constructor]]; fail).
    - match goal with E : c_mon (y_cnt _ e) = MoTraffic _ _ |- _ => specialize (C e); unfold mon_ok in C; rewrite E in C end.
      apply UC. unfold mon_ok. simp. rewrite <- C. eexists. apply in_app_iff. right. left. reflexivity.
    - match goal with E : c_mon (y_cnt _ e) = MoStatus _ |- _ => specialize (C' e); unfold mon_ok in C'; rewrite E in C' end.
      intros m' E'. injection E' as <-. exact C'.
    - intros m' E'. injection E' as <-. inversion M'; subst. assumption.
    - cbn. apply CUR. reflexivity.
    - cbn. destruct (y_cur s) eqn:EC; auto.
    - apply UC. specialize (C' e). unfold mon_ok in *. simp. exact C'.
  Qed.
  Lemma origin_run ls s o : run sys0 ls = Ok (s, o) -> origin s o.
  Proof.
    intros R. refine (run_inv build esearch cap origin _ ls sys0 [] s o _ R); [intros; eapply origin_step; eauto|].
    constructor; cbn; auto; [exact (inv0 build)|discriminate].
  Qed.
  (** Every recorded throughput is that of a published interval. *)
  Lemma stored_published ls s o1 e t o2 : run sys0 ls = Ok (s, o1 ++ OStored e t :: o2) -> exists k, In (OPublished e (th_events t) k) o1.
  Proof.
    intros R. destruct (run_split _ _ _ _ _ _ _ _ _ R) as (ls1 & l & ls2 & s1 & p1 & s2 & q1 & q2 & -> & R1 & ST & -> & _).
    pose proof (origin_run _ _ _ R1) as [V C M L T].
    destruct (step_perf _ _ _ _ _ _ _ ST) as [[_ N]|(e' & t' & Q & _)]; [exfalso; eapply N, in_app_iff; right; left; reflexivity|].
    destruct q1 as [|x q1]; [|destruct q1; discriminate]. cbn [app] in Q. injection Q as <- <- ->. rewrite app_nil_r.
    clear R. cbn [app] in ST. destruct l as [? ?|? ?|? ?|?|?|?|?| | |?| | | | |?| |? ?| |?| | |?]; cbn [MFactory.step] in ST; crunch ST; try discriminate ST;
      try (match goal with E : match ?k with Some _ => _ | None => _ end = (_, _) |- _ => destruct k; injection E as <- <- end; discriminate ST).
    all: injection ST as ? ? ?; subst.
    - match goal with E : c_mon (y_cnt _ e) = MoStatus _ |- _ => specialize (C e); unfold mon_ok in C; rewrite E in C end. exact C.
    - inversion M; subst. auto.
  Qed.
  (** Every selection main hears of is of a generated engine. *)
  Lemma selected_generated ls s o1 e o2 : run sys0 ls = Ok (s, o1 ++ OMain (MSelected (Some e)) :: o2) -> In (OGenerated e) o1.
  Proof.
    intros R. destruct (run_split _ _ _ _ _ _ _ _ _ R) as (ls1 & l & ls2 & s1 & p1 & s2 & q1 & q2 & -> & R1 & ST & -> & _).
    pose proof (origin_run _ _ _ R1) as [V C M L T].
    assert (In (OMain (MSelected (Some e))) (q1 ++ OMain (MSelected (Some e)) :: q2)) as J by (apply in_app_iff; right; left; auto).
    remember (q1 ++ OMain (MSelected (Some e)) :: q2) as q eqn:Q. clear R. apply in_app_iff. left.
    cases_of l ST; cbn in J; intuition try discriminate. injection H as ->. inversion M; subst. auto.
  Qed.
End Runs.
