(** Property C50: what the selected engine's speed is in exact terms. *)
From Verif Require Import GoBase MFloat MGenerator MFactory SpecFactory PFloat PFactory PFactory3 PFactory6 PFloat2 PropsFactory.
From Coq Require Import Lia.

(** [b] is faster than [a], comparing events over time as fractions. *)
Definition truly_faster (b a : thr) : Prop := (th_events a * th_time b < th_events b * th_time a)%N.
(** Both counts are below 2^53. *)
Definition countable (t : thr) : Prop := (th_events t < 2 ^ 53)%N /\ (th_time t < 2 ^ 53)%N.

Section Runs.
  Context {Sub Eng Tag Orc Ans : Type} (build : ename -> Sub -> result Eng)
    (esearch : Orc -> Eng -> Tag -> result (Ans * bool * Eng)) (cap : nat).
  Notation run := (run build esearch cap).
  Notation sys := (@sys Sub Eng Tag Ans).

  Lemma recorded_stored e : forall (o : list (@obs Tag Ans)) r t, recorded_from e r o = Some t -> r = Some t \/ In (OStored e t) o.
  Proof.
    induction o as [|x o IH]; intros r t H; cbn [recorded_from] in H; [auto|].
    destruct x; try (destruct (IH _ _ H); cbn; auto; fail).
    destruct (ename_eqb_spec e0 e); [|destruct (IH _ _ H); cbn; auto]. subst. destruct (IH _ _ H) as [E|J]; cbn; auto. injection E as ->. auto.
  Qed.
  (** Any tick: if some engine is faster than the selected one according to what
      was recorded of each during the tick, the two speeds are the same after
      rounding to a 64-bit floating point number. *)
  Theorem C50_tick_exact : forall ls0 (s : sys) o0 order ls s' o,
    run sys0 ls0 = Ok (s, o0) -> run s (LTick order :: ls ++ [LTickPick]) = Ok (s', o) -> ~ In LTickPick ls ->
    (forall e t, In (OStored e t) (o0 ++ o) -> countable t) ->
    exists readings : ename -> option thr,
      (forall e, exists o1 o2, o = o1 ++ o2 /\ readings e = recorded e (o0 ++ o1)) /\
      ((exists e t, readings e = Some t) -> exists c t, y_cur s' = Some c /\ readings c = Some t /\
        forall e t', readings e = Some t' -> ~ truly_faster t' t \/ th_value t' = th_value t).
  Proof.
    intros ls0 s o0 order ls s' o R0 R NP C.
    destruct (tick_selects_any build esearch cap _ _ _ _ _ _ _ R0 R NP) as (rd & RD & S). exists rd. split; auto.
    intros X. destruct (S X) as (c & CU & t & RT & F). exists c, t. split; auto. split; auto.
    assert (run sys0 (ls0 ++ LTick order :: ls ++ [LTickPick]) = Ok (s', o0 ++ o)) as RR by (rewrite (run_app build esearch cap), R0; cbn [bind]; rewrite R; reflexivity).
    assert (forall e t, rd e = Some t -> In (OStored e t) (o0 ++ o)) as ST.
    { intros e t0 E. destruct (RD e) as (o1 & o2 & -> & Q). rewrite Q in E. apply recorded_stored in E. destruct E as [E|J]; [discriminate|].
      rewrite app_assoc. apply in_app_iff. auto. }
    assert (forall e t, rd e = Some t -> positive t) as PO.
    { intros e t0 E. eapply (stored_positive build esearch cap e t0 _ sys0); [apply (snd0)|exact RR|auto]. }
    intros e t' E. destruct (N.lt_ge_cases (th_events t * th_time t') (th_events t' * th_time t)) as [L|L]; [|left; unfold truly_faster; lia].
    right. apply leb_antisym; try apply value_plus.
    - apply (F e t' E).
    - apply small_order; [apply (C e); auto|apply (C c); auto|eapply PO; eauto|eapply PO; eauto|lia].
  Qed.
  (** A monitor reports a throughput whenever its engine has handled something. *)
  Theorem C50_reported : forall t, countable t -> th_publish t = true <-> th_events t <> 0%N.
  Proof. exact small_published. Qed.
End Runs.
Print Assumptions C50_tick_exact.
Print Assumptions C50_reported.

(** The case of PropsFactory, with counts of one event in 5 and in 4 microseconds;
    and two different speeds that are the same after rounding. *)
Example C50_exact_case :
  truly_faster (Thr 1 4) (Thr 1 5) /\ th_value (Thr 1 4) <> th_value (Thr 1 5) /\ countable (Thr 1 4) /\ countable (Thr 1 5) /\
  truly_faster (Thr 9007199254740989 9007199254740990) (Thr 9007199254740988 9007199254740989) /\
  th_value (Thr 9007199254740989 9007199254740990) = th_value (Thr 9007199254740988 9007199254740989).
Proof. vm_compute. intuition discriminate. Qed.
