(** How large the counts get, and published matches against published events. *)
From Verif Require Import GoBase MGenerator MFactory SpecFactory PFactory PFactory2 PFactory4 PFactory7.
From Coq Require Import Lia ZifyBool ZifyN.

Section Runs.
  Context {Sub Eng Tag Orc Ans : Type} (build : ename -> Sub -> result Eng)
    (esearch : Orc -> Eng -> Tag -> result (Ans * bool * Eng)) (cap : nat).
  Notation step := (step build esearch cap).
  Notation run := (run build esearch cap).
  Notation sys := (@sys Sub Eng Tag Ans).
  Notation obs := (@obs Tag Ans).
  Notation label := (@label Sub Tag Orc).

  Ltac simp := cbn [set_gen set_cnt set_listener set_cur set_perf set_ticker set_mc set_main set_search
    y_gen y_cnt y_cur y_perf y_listener y_ticker y_mc y_main y_search c_events c_matched c_time c_mon counters0 g_fsm g_engine g_todo th_events th_time] in *.
  Ltac crunch H := repeat (cbn [bind handle fst snd] in H; unfold put, goes_on in H;
    first [discriminate H | match type of H with
      | context [handle ?m _] => is_var m; destruct m
      | context [match ?x with _ => _ end] => destruct x eqn:?
      | context [bind ?x _] => destruct x eqn:? end]).
  Ltac cases_of l H := destruct l as [? ?|? ?|? ?|?|?|?|?| | |?| | | | |?| |? ?| |?| | |?]; cbn [MFactory.step] in H; crunch H; injection H as <- <-;
    try match goal with E : match ?k with Some _ => _ | None => _ end = (_, _) |- _ => destruct k; injection E as <- <- end.

  (** *** Sizes *)
  Definition mwithin (B : N) (m : msg) : Prop :=
    match m with MTraffic _ n k => n <= B /\ k <= B | MStatus _ t => th_events t <= B /\ th_time t <= B | _ => True end%N.
  Definition cwithin (B : N) (c : counters) : Prop :=
    (c_events c <= B /\ c_matched c <= B /\ c_time c <= B /\
     match c_mon c with MoTraffic n k => n <= B /\ k <= B | MoStatus t => th_events t <= B /\ th_time t <= B | _ => True end)%N.
  Definition owithin (B : N) (x : obs) : Prop := match x with OMain m => mwithin B m | _ => True end.
  Record within (B : N) (s : sys) (o : list obs) : Prop := {
    wi_cnt : forall e, cwithin B (y_cnt s e);
    wi_mc : Forall (mwithin B) (y_mc s);
    wi_listener : forall m, y_listener s = Some m -> mwithin B m;
    wi_ticker : forall m, y_ticker s = TiSend m -> mwithin B m;
    wi_search : forall a t e k m, y_search s = SWrite a t e k m -> (m <= B)%N;
    wi_seen : Forall (owithin B) o }.
  Lemma mwithin_le B B' m : (B <= B')%N -> mwithin B m -> mwithin B' m.
  Proof. intros L. destruct m; cbn; lia. Qed.
  Lemma within_le B B' s o : (B <= B')%N -> within B s o -> within B' s o.
  Proof.
    intros L [C M LI T S O]. constructor; auto.
    - intros e. specialize (C e). unfold cwithin in *. destruct (c_mon (y_cnt s e)); lia.
    - eapply Forall_impl; [|exact M]. intros m. apply mwithin_le; auto.
    - intros m E. eapply mwithin_le; eauto.
    - intros m E. eapply mwithin_le; eauto.
    - intros a t e k m E. specialize (S a t e k m E). lia.
    - eapply Forall_impl; [|exact O]. intros [| | | | | | |m]; cbn; auto. apply mwithin_le; auto.
  Qed.
  Lemma within_step B s o l s' o' : within B s o -> step s l = Ok (s', o') -> within (B + effort [l]) s' (o ++ o').
  Proof.
    intros W H.
    assert (within (B + effort [l]) s o) as [C M L T S O] by (eapply within_le; [|exact W]; lia).
    pose proof (wi_cnt _ _ _ W) as C0. pose proof (wi_search _ _ _ W) as S0. clear W.
    assert (1 <= effort [l])%N as E1 by (destruct l; cbn; lia).
    set (B' := (B + effort [l])%N) in *.
    assert (forall e c, cwithin B' c -> forall e', cwithin B' (upd (y_cnt s) e c e')) as UC.
    { intros e c HC e'. destruct (upd_cases (y_cnt s) e c e') as [[-> ->]|[_ ->]]; auto. }
    assert (Forall (owithin B') o' -> Forall (owithin B') (o ++ o')) as O' by (intros; apply Forall_app; auto).
    assert (forall x : obs, owithin B' x -> Forall (owithin B') [x]) as O1 by (intros; constructor; auto).
    assert (forall x y : obs, owithin B' x -> owithin B' y -> Forall (owithin B') [x; y]) as O2 by (intros; constructor; auto).
    assert (Forall (owithin B') []) as O0 by constructor.
    cases_of l H; constructor; simp; auto; try discriminate.
    all: try (apply O'; first [apply O0|apply O1; exact I|apply O2; exact I]; fail).
    all: try (inversion M; subst; auto; fail).
    all: try (apply Forall_app; split; [auto|apply Forall_cons; [first [auto|exact I]|constructor]]; fail).
    all: try (intros m' E; injection E as <-; cbn [mwithin]; first [auto|exact I]; fail).
    all: try (intros m' E; injection E as <-; inversion M; subst; assumption).
    all: try (apply O'; inversion M; subst; apply O1; assumption).
    all: try (apply UC; unfold cwithin; simp; match goal with |- context [y_cnt _ ?e] => destruct (C e) as (C1 & C2 & C3 & C4) end;
      repeat match goal with E : c_mon _ = _ |- _ => rewrite E in C4 end; repeat split; auto; fail).
    all: try (match goal with E : c_mon (y_cnt _ ?e) = _ |- _ => destruct (C e) as (C1 & C2 & C3 & C4); rewrite E in C4 end;
      intros m' E'; injection E' as <-; exact C4).
    all: try (apply UC; unfold cwithin, counters0; simp; repeat split; apply N.le_0_l).
    all: try (intros a' t' e' k' m' E'; injection E' as <- <- <- <- <-; match goal with |- context [y_cnt _ ?e] => destruct (C e) as (C1 & C2 & C3 & C4) end; auto; fail).
    all: try (apply UC; unfold cwithin; simp; match goal with |- context [y_cnt _ ?e] => destruct (C0 e) as (C1 & C2 & C3 & C4) end;
      subst B'; cbn [effort] in *; repeat match goal with E : c_mon _ = _ |- _ => rewrite E in * end; repeat split; try lia; fail).
    all: try (apply Forall_app; split; [auto|repeat constructor]; fail).
    apply UC. unfold cwithin. simp. destruct (C e) as (C1 & C2 & C3 & C4). specialize (S0 _ _ _ _ _ eq_refl). repeat split; auto. subst B'. cbn [effort] in *. lia.
  Qed.
  Lemma effort_app (l1 l2 : list label) : effort (l1 ++ l2) = (effort l1 + effort l2)%N.
  Proof. induction l1 as [|l l1 IH]; cbn [app effort]; auto. rewrite IH. destruct l; lia. Qed.
  Lemma within_run ls s o : run sys0 ls = Ok (s, o) -> within (effort ls) s o.
  Proof.
    revert s o. induction ls as [|l ls IH] using rev_ind; intros s o R.
    - cbn in R. injection R as <- <-. constructor; cbn [sys0 y_cnt y_mc y_listener y_ticker y_search]; try discriminate; try (apply Forall_nil). intros e. unfold cwithin. cbn. repeat split; lia.
    - rewrite (run_app build esearch cap) in R. destruct (run sys0 ls) as [[s1 o1]| |] eqn:E; cbn [bind] in R; try discriminate.
      cbn [MFactory.run] in R. destruct (step s1 l) as [[s2 q]| |] eqn:E2; cbn [bind] in R; try discriminate. injection R as <- <-.
      rewrite effort_app, app_nil_r. eapply within_step; eauto.
  Qed.

  (** *** Matches against events *)
  Definition fewer (e : ename) (s : sys) : Prop :=
    let c := y_cnt s e in
    match c_mon c with
    | MoWait => (c_matched c <= c_events c + match y_search s with SReport _ _ e' _ => if ename_eqb e' e then 1 else 0 | _ => 0 end)%N /\
                match y_search s with SWrite _ _ e' _ m => e' = e -> (m <= c_events c)%N | _ => True end
    | MoTraffic n k => (k <= n)%N
    | _ => True
    end.
  Definition kept_fewer (e : ename) (s : sys) (o : list obs) : Prop :=
    fewer e s /\ forall n k, In (OPublished e n k) o -> (k <= n)%N.
  Lemma fewer_step e s o l s' o' : apart e s -> apart e s' -> kept_fewer e s o -> step s l = Ok (s', o') -> kept_fewer e s' (o ++ o').
  Proof.
    intros A A' [F P] H. unfold kept_fewer.
    assert (fewer e s' /\ forall n k, In (OPublished e n k) o' -> (k <= n)%N) as [F' P'].
    { unfold apart, uncounted, fewer in *. cbv zeta in *.
      cases_of l H; simp.
      all: try match goal with |- context [upd (y_cnt ?s0) ?e0 ?c0 ?e1] => destruct (upd_cases (y_cnt s0) e0 c0 e1) as [[EQ UE]|[NE UE]]; rewrite UE in *; clear UE end; simp.
      all: try (subst; rewrite ?ename_eqb_refl in * ); try (rewrite ename_neq in * by congruence).
      all: repeat match goal with E : c_mon (y_cnt _ _) = _ |- _ => rewrite E in *; clear E end.
      all: split; [|intros n0 k0 I0; repeat (destruct I0 as [I0|I0]; [first [discriminate I0|injection I0 as <- <- <-; auto; try congruence]|]); try destruct I0].
      all: try assumption.
      all: try exact I.
      all: try match goal with J : In _ [] |- _ => destruct J end.
      all: try match goal with E : OPublished _ _ _ = OPublished _ _ _ |- _ => inversion E; subst; first [assumption|congruence] end.
      - destruct F as [F _], A' as [D|A']; [discriminate|]. destruct (y_search s); try lia. rewrite A' in F. lia.
      - destruct A as [D|A]; [discriminate|]. split; [lia|]. destruct (y_search s); auto. intros ->. rewrite ename_eqb_refl in A. discriminate.
      - destruct (ename_eqb e0 e), (c_mon (y_cnt s e)); auto; destruct F as [F _]; split; auto; lia.
      - destruct (c_mon (y_cnt s e)); auto; destruct F as [F _]; split; auto; intros ->; lia.
      - destruct A as [A|A]; [|discriminate]. rewrite A in *. destruct F as [_ F]. specialize (F eq_refl). split; auto. lia.
      - destruct (c_mon (y_cnt s e)); auto; destruct F as [F _]; split; auto; rewrite ename_neq in * by congruence; lia.
      - split; auto. lia.
      - split; auto. lia. }
    split; auto. intros n k I. apply in_app_iff in I. destruct I; auto.
  Qed.
  Lemma fewer_run e ls s o : (forall ls1 ls2 s1 o1, ls = ls1 ++ ls2 -> run sys0 ls1 = Ok (s1, o1) -> apart e s1) ->
    run sys0 ls = Ok (s, o) -> kept_fewer e s o.
  Proof.
    revert s o. induction ls as [|l ls IH] using rev_ind; intros s o QA R.
    - cbn in R. injection R as <- <-. split; [split; [apply N.le_0_l|exact I]|intros n k []].
    - pose proof R as R0. rewrite (run_app build esearch cap) in R. destruct (run sys0 ls) as [[s1 o1]| |] eqn:E; cbn [bind] in R; try discriminate.
      cbn [MFactory.run] in R. destruct (step s1 l) as [[s2 o2]| |] eqn:E2; cbn [bind] in R; try discriminate. injection R as <- <-. rewrite app_nil_r.
      eapply fewer_step; [| | |exact E2].
      + eapply (QA ls [l]); eauto.
      + eapply (QA (ls ++ [l]) []); eauto. rewrite app_nil_r. reflexivity.
      + eapply IH; eauto. intros ls1 ls2 s3 o3 -> R. eapply (QA ls1 (ls2 ++ [l])); eauto. rewrite app_assoc. reflexivity.
  Qed.
End Runs.
