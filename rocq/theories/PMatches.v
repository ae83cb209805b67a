(** The account of matching searches. *)
From Coq Require Import Lia ZifyBool ZifyNat ZifyN.
From Verif Require Import GoBase MGenerator MFactory SpecFactory SpecMatches PFactory PFactory2 PFactory3 PFactory4.

Section Runs.
  Context {Sub Eng Tag Orc Ans : Type} (build : ename -> Sub -> result Eng)
    (esearch : Orc -> Eng -> Tag -> result (Ans * bool * Eng)) (cap : nat).
  Notation step := (step build esearch cap).
  Notation run := (run build esearch cap).
  Notation sys := (@sys Sub Eng Tag Ans).
  Notation obs := (@obs Tag Ans).
  Notation label := (@label Sub Tag Orc).

  Ltac simp := cbn [set_gen set_cnt set_listener set_cur set_perf set_ticker set_mc set_main set_search
    y_gen y_cnt y_cur y_perf y_listener y_ticker y_mc y_main y_search c_events c_matched c_time c_mon counters0 g_fsm g_engine g_todo th_events th_time] in *.
  Ltac crunch H := repeat (cbn [bind handle fst snd] in H; unfold put, goes_on in H;
    first [discriminate H | match type of H with
      | context [handle ?m _] => is_var m; destruct m
      | context [match ?x with _ => _ end] => destruct x eqn:?
      | context [bind ?x _] => destruct x eqn:? end]).
  Ltac cases_of l H := destruct l as [? ?|? ?|? ?|?|?|?|?| | |?| | | | |?| |? ?| |?| | |?]; cbn [MFactory.step] in H; crunch H; injection H as <- <-;
    try match goal with E : match ?k with Some _ => _ | None => _ end = (_, _) |- _ => destruct k; injection E as <- <- end.

  Lemma matched_app e (o o' : list obs) : SpecFactory.matched e (o ++ o') = (SpecFactory.matched e o + SpecFactory.matched e o')%N.
  Proof. induction o as [|x o IH]; cbn [app]; auto. destruct x; cbn [SpecFactory.matched]; auto. rewrite IH. lia. Qed.
  Lemma published_matched_app e (o o' : list obs) : published_matched e (o ++ o') = (published_matched e o + published_matched e o')%N.
  Proof. induction o as [|x o IH]; cbn [app]; auto. destruct x; cbn [published_matched]; auto. rewrite IH. lia. Qed.

  (** The equation, and what is known between reading and writing. *)
  Definition balanced (e : ename) (s : sys) (v : overlaps) (f p : N) : Prop :=
    (f + ov_again v = p + ov_lost v + unpublished e s)%N /\
    match y_search s with
    | SWrite _ _ e' _ m => e' = e -> if ov_reset v then c_matched (y_cnt s e) = 0%N else c_matched (y_cnt s e) = m
    | _ => True
    end.
  Lemma balanced_step e s v f p l s' o : balanced e s v f p -> step s l = Ok (s', o) ->
    balanced e s' (note e s l v) (f + SpecFactory.matched e o) (p + published_matched e o).
  Proof.
    unfold balanced, unpublished, counting, note, waiting. intros [C W] H.
    cases_of l H; simp; cbn [SpecFactory.matched published_matched] in *; rewrite ?N.add_0_r in *; auto.
    all: try match goal with |- context [upd (y_cnt ?s0) ?e0 ?c0 ?e1] => destruct (upd_cases (y_cnt s0) e0 c0 e1) as [[EQ UE]|[NE UE]]; rewrite UE in *; clear UE end; simp.
    all: try (subst; rewrite ?ename_eqb_refl in * ); try (rewrite ename_neq in * by congruence).
    all: rewrite ?N.add_0_r in *; try (auto; fail).
    all: repeat match goal with E : c_mon (y_cnt _ _) = _ |- _ => rewrite E in *; clear E end.
    all: cbn [ov_reset ov_lost ov_again] in *.
    all: try (split; [|destruct (y_search _); auto; fail]).
    all: try (intuition (try lia; try congruence); fail).
    - destruct (ename_eqb_spec e0 e) as [->|NE]; cbn [ov_reset ov_lost ov_again]; split; auto; congruence.
    - specialize (W eq_refl). destruct (c_mon (y_cnt s e0)), (ov_reset v); cbn [ov_reset ov_lost ov_again]; lia.
  Qed.
  Lemma balanced_run e ls : forall s v f p s' o, balanced e s v f p -> run s ls = Ok (s', o) ->
    balanced e s' (overlaps_of build esearch cap e v s ls) (f + SpecFactory.matched e o) (p + published_matched e o).
  Proof.
    induction ls as [|l ls IH]; intros s v f p s' o B R; cbn [MFactory.run overlaps_of] in *.
    - injection R as <- <-. cbn. rewrite !N.add_0_r. auto.
    - destruct (step s l) as [[s1 o1]| |] eqn:E; cbn [bind] in R; try discriminate.
      destruct (run s1 ls) as [[s2 o2]| |] eqn:E2; cbn [bind] in R; try discriminate. injection R as <- <-.
      rewrite matched_app, published_matched_app, !N.add_assoc. eapply IH; eauto. eapply balanced_step; eauto.
  Qed.
  Lemma account e ls s o : run sys0 ls = Ok (s, o) ->
    (SpecFactory.matched e o + ov_again (overlaps_of build esearch cap e no_overlaps sys0 ls) =
     published_matched e o + ov_lost (overlaps_of build esearch cap e no_overlaps sys0 ls) + unpublished e s)%N.
  Proof. intros R. eapply (balanced_run e ls sys0 no_overlaps 0 0) in R; [|split; [reflexivity|exact I]]. destruct R as [H _]. cbn in H. lia. Qed.

  (** At most one match is lost each time the monitor fires. *)
  Definition one_a_time (e : ename) (s : sys) (v : overlaps) (n : N) : Prop :=
    (ov_lost v + (if waiting e s then 0 else match y_search s with SReport _ _ e' _ => if ename_eqb e' e then 0 else 1 | _ => 1 end) <= n)%N.
  Lemma one_a_time_step e s v n l s' o : one_a_time e s v n -> step s l = Ok (s', o) -> one_a_time e s' (note e s l v) (n + fired e [l]).
  Proof.
    unfold one_a_time, note, waiting. intros C H.
    cases_of l H; simp; cbn [fired] in *; rewrite ?N.add_0_r in *; auto.
    all: try match goal with |- context [upd (y_cnt ?s0) ?e0 ?c0 ?e1] => destruct (upd_cases (y_cnt s0) e0 c0 e1) as [[EQ UE]|[NE UE]]; rewrite UE in *; clear UE end; simp.
    all: try (subst; rewrite ?ename_eqb_refl in * ); try (rewrite ename_neq in * by congruence).
    all: rewrite ?N.add_0_r in *; try (auto; fail).
    all: repeat match goal with E : c_mon (y_cnt _ _) = _ |- _ => rewrite E in *; clear E end.
    all: cbn [ov_reset ov_lost ov_again] in *.
    all: repeat match goal with
      | |- context [match c_mon ?x with _ => _ end] => destruct (c_mon x)
      | |- context [match y_search ?x with _ => _ end] => destruct (y_search x)
      | |- context [if ename_eqb ?a ?b then _ else _] => destruct (ename_eqb a b)
      | |- context [if ov_reset ?a then _ else _] => destruct (ov_reset a) end; cbn [ov_reset ov_lost ov_again] in *; try lia.
  Qed.
  Lemma one_a_time_run e ls : forall s v n s' o, one_a_time e s v n -> run s ls = Ok (s', o) ->
    one_a_time e s' (overlaps_of build esearch cap e v s ls) (n + fired e ls).
  Proof.
    induction ls as [|l ls IH]; intros s v n s' o B R; cbn [MFactory.run overlaps_of] in *.
    - injection R as <- <-. cbn. rewrite N.add_0_r. auto.
    - destruct (step s l) as [[s1 o1]| |] eqn:E; cbn [bind] in R; try discriminate.
      destruct (run s1 ls) as [[s2 o2]| |] eqn:E2; cbn [bind] in R; try discriminate. injection R as <- <-.
      replace (n + fired e (l :: ls))%N with (n + fired e [l] + fired e ls)%N by (destruct l; cbn [fired]; lia).
      eapply IH; eauto. eapply one_a_time_step; eauto.
  Qed.
  Lemma lost_bound e ls s o : run sys0 ls = Ok (s, o) -> (ov_lost (overlaps_of build esearch cap e no_overlaps sys0 ls) <= fired e ls)%N.
  Proof. intros R. eapply (one_a_time_run e ls sys0 no_overlaps 0) in R; [|discriminate]. unfold one_a_time in R. cbn in R. lia. Qed.
End Runs.
