(** Searches and their answers; the reports of the running system. *)
From Verif Require Import GoBase BinUtil MFilter MEngine MTdtCore MSubs MList MGenerator MFactory MSystem MMain.
From Verif Require Import PBase Spec SpecEpc SpecFactory SpecMain PFactory PSubs PSubs2 PList PMatch PNum PropsTdt PEpc PEpc2 PEpc3 PEpc4 SpecSystem PSystem2 PMain.
From Coq Require Import Lia.

Section Runs.
  Context {Sub Eng Tag Orc Ans : Type} (build : ename -> Sub -> result Eng)
    (esearch : Orc -> Eng -> Tag -> result (Ans * bool * Eng)) (cap : nat).
  Notation step := (step build esearch cap).
  Notation run := (run build esearch cap).
  Notation sys := (@sys Sub Eng Tag Ans).
  Notation obs := (@obs Tag Ans).
  Notation inv := (@inv Sub Eng Tag Ans).

  Ltac simp := cbn [set_gen set_cnt set_listener set_cur set_perf set_ticker set_mc set_main set_search
    y_gen y_cnt y_cur y_perf y_listener y_ticker y_mc y_main y_search c_events c_matched c_time c_mon counters0 g_fsm g_engine g_todo th_events th_time] in *.
  Ltac crunch H := repeat (cbn [bind handle fst snd] in H; unfold put, goes_on in H;
    first [discriminate H | match type of H with
      | context [handle ?m _] => is_var m; destruct m
      | context [match ?x with _ => _ end] => destruct x eqn:?
      | context [bind ?x _] => destruct x eqn:? end]).
  Ltac cases_of l H := destruct l as [? ?|? ?|? ?|?|?|?|?| | |?| | | | |?| |? ?| |?| | |?]; cbn [MFactory.step] in H; crunch H; injection H as <- <-;
    try match goal with E : match ?k with Some _ => _ | None => _ end = (_, _) |- _ => destruct k; injection E as <- <- end.


  Definition pending (s : sys) : list Tag := match tag_of s with Some t => [t] | None => [] end.
  Lemma asked_step s l s' o : step s l = Ok (s', o) ->
    pending s ++ searched [l] = map (fun a => snd (fst a)) (answered o) ++ pending s'.
  Proof.
    intros H. unfold pending, tag_of.
    cases_of l H; simp; cbn [searched answered flat_map app map fst snd]; auto;
      repeat match goal with E : y_search _ = _ |- _ => rewrite E; clear E end; cbn; auto; try (destruct (y_search s); auto; fail);
      try (match goal with |- context [if ?b then _ else _] => destruct b end; auto; fail).
  Qed.
  Lemma asked_run ls s s' o : run s ls = Ok (s', o) ->
    pending s ++ searched ls = map (fun a => snd (fst a)) (answered o) ++ pending s'.
  Proof.
    revert s o. induction ls as [|l ls IH]; intros s o H.
    - cbn in H. injection H as <- <-. cbn. rewrite app_nil_r. auto.
    - cbn [MFactory.run] in H. destruct (step s l) as [[s1 o1]| |] eqn:S; try discriminate. cbn [bind] in H.
      destruct (run s1 ls) as [[s2 o2]| |] eqn:R; try discriminate. cbn [bind] in H. injection H as <- <-.
      pose proof (asked_step _ _ _ _ S) as A. specialize (IH _ _ R). change (l :: ls) with ([l] ++ ls). unfold searched, answered in *. rewrite !flat_map_app, map_app, <- app_assoc.
      rewrite <- IH, app_assoc, A, app_assoc. auto.
  Qed.
End Runs.

(** ** How often a URI occurs in an answer *)
Lemma count_le id a us d : reported id a us -> NoDup a ->
  (forall k1 k2, In (k1, d) a -> In (k2, d) a -> id_has_prefix id k1 -> id_has_prefix id k2 -> k1 = k2) -> count d us <= 1.
Proof.
  intros R. induction R as [|k u a us HP R IH|k u a us HP R IH]; intros ND U; [cbn; lia| |].
  - inversion ND as [|x y NI ND' Q]; subst. specialize (IH ND' ltac:(intros; eapply U; eauto; right; auto)). unfold count in *. cbn [count_occ].
    destruct (list_eq_dec ascii_dec u d) as [->|N]; auto.
    enough (count_occ (list_eq_dec ascii_dec) us d = 0) by lia. apply count_occ_not_In. intros I. rewrite (reported_In _ _ _ _ R) in I. destruct I as (k' & I & HP').
    rewrite (U k k') in NI; auto; [left; auto|right; auto].
  - inversion ND as [|x y NI ND' Q]; subst. apply IH; auto. intros; eapply U; eauto; right; auto.
Qed.
(** The answer of the list to an encoded tag: the URIs, and how often. *)
Lemma answer_counts E s k f t : epc_fit s -> epc_tag k f t -> exists uris,
  (forall u, In u uris <-> exists p, subscribed s u p /\ leads p k f) /\
  (forall u, one_each s u -> count u uris <= 1) /\
  list_search (new_list E (sub_texts s)) (fst t) (snd t) = Ok match uris with [] => ([], [], true) | _ => (urn_of k f, uris, false) end.
Proof.
  intros F ET. pose proof (epc_fit_fit E s F) as F'. pose proof (ef_ok s F) as OK. destruct (epc_tag_fit E s k f t OK ET) as ((W & NE & D & T') & C & T).
  destruct (list_search_of (entries (to_byte_subs E (sub_texts s))) (fst t) (snd t)) as (uris & R & A).
  - rewrite entries_keys. apply F'.
  - auto.
  - rewrite entries_keys. auto.
  - rewrite <- new_list_of in A. exists uris. split; [|split].
    + intros u. rewrite (reported_In _ _ _ _ R). destruct C as (C0 & C1). pose proof C0 as (_ & L & _). split.
      * intros (key & I & HP). apply to_byte_sound in I. apply wants_texts in I; auto. destruct I as (p & SP & ->). exists p. split; auto.
        apply (names_leads p k f (snd t)); [eauto|split; auto|]. apply pat_has_prefix; eauto.
      * intros (p & SP & LD). exists (bits_to_str (pat_bits p)). split.
        { apply to_byte_unshared; [apply F'|]. apply wants_texts; eauto. }
        apply pat_has_prefix; eauto. apply (names_leads p k f (snd t)); [eauto|split; auto|auto].
    + intros u ONE. eapply count_le; [exact R|apply entries_NoDup, to_byte_subs_flat|]. intros k1 k2 I1 I2 P1 P2.
      apply to_byte_sound in I1, I2. apply wants_texts in I1; auto. apply wants_texts in I2; auto. destruct I1 as (p & SP & ->), I2 as (q & SQ & ->).
      destruct C as ((_ & L & _) & _). apply pat_has_prefix in P1; eauto. apply pat_has_prefix in P2; eauto. f_equal.
      assert (covers p q /\ covers q p) as [C1 C2].
      { destruct (Nat.le_ge_cases (p_count p) (p_count q)) as [LE|GE].
        - pose proof (both_name p q _ (OK _ _ SP) (OK _ _ SQ) P1 P2 LE). split; eauto.
        - pose proof (both_name q p _ (OK _ _ SQ) (OK _ _ SP) P2 P1 GE). split; eauto. }
      apply covers_bits in C1; eauto. apply covers_bits in C2; eauto. destruct C1 as (x & E1), C2 as (y & E2). rewrite E2 in E1.
      rewrite <- app_assoc in E1. rewrite <- app_nil_r in E1 at 1. apply app_inv_head in E1. symmetry in E1. apply app_eq_nil in E1. destruct E1 as [-> _]. rewrite app_nil_r in E2. auto.
    + rewrite T in A. destruct A as [[-> A]|[HN A]]; rewrite A; auto. destruct uris; [congruence|reflexivity].
Qed.
