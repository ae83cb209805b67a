(** Property C99: searches while main does not receive. *)
From Verif Require Import GoBase MFilter MEngine MTdtCore MSubs MSlice MGenerator MFactory MSystem TestVectors.
From Verif Require Import SpecFactory PFactory PFactory2 PFactory3 PFactory4 PFactory5 SpecJam PJam PExamples PropsEngine PropsTdt PropsEpc PropsLegacy PropsFactory.
From Coq Require Import Lia.

(** Reading guide: as for PropsFactory.  [LMainRecv] is main's taking a message from
    the management channel, whose capacity is [cap]; [pending s] counts the messages
    that are in the channel or still to be sent in [s], [sent ls] those the schedule
    [ls] makes at most and [received ls] those main took (SpecJam). *)

Section AnyEngines.
  Context {Sub Eng Tag Orc Ans : Type} (build : ename -> Sub -> result Eng)
    (esearch : Orc -> Eng -> Tag -> result (Ans * bool * Eng)) (cap : nat).
  Notation run := (run build esearch cap).
  Notation sys := (@sys Sub Eng Tag Ans).

  (** A search that has begun is answered without main's help as long as no more
      than [cap + 1] messages are on their way. *)
  Theorem C99_without_main_partial : forall P : ename -> Eng -> Prop,
    (forall e sub, exists eng, build e sub = Ok eng /\ P e eng) ->
    (forall e x eng t, P e eng -> exists a f eng', esearch x eng t = Ok (a, f, eng') /\ P e eng') ->
    forall (x0 : Orc) ls (s : sys) o t, run sys0 ls = Ok (s, o) -> tag_of s = Some t -> pending s <= cap + 1 ->
    exists ls' s' o' e a, forallb internal ls' = true /\ ~ In LMainRecv ls' /\
      run s ls' = Ok (s', o') /\ y_search s' = SIdle /\ In (OAnswer e t a) o'.
  Proof.
    intros P HB HS x0 ls s o t R T C.
    assert (forall e sub, True -> exists eng, build e sub = Ok eng /\ P e eng) as HB' by (intros; apply HB).
    assert (forall e x eng t, P e eng -> True -> exists a f eng', esearch x eng t = Ok (a, f, eng') /\ P e eng' /\ True) as HS'.
    { intros e x eng t' HP _. destruct (HS e x eng t' HP) as (a & f & eng' & H1 & H2). eauto 10. }
    assert (good (fun _ _ => True) (fun _ => True) P (fun _ _ _ => True) s o) as G.
    { refine (good_run build esearch cap (fun _ _ => True) (fun _ => True) P (fun _ _ _ => True) HB' HS' ls s o _ R).
      apply Forall_forall. intros [] _; exact I. }
    destruct (PJam.finish build esearch cap (fun _ _ => True) (fun _ => True) P (fun _ _ _ => True) HB' HS' x0 s o t C G T) as (s' & o' & e & a & (ls' & I' & R') & S' & A').
    apply own_internal in I' as (I1 & _ & I2). exists ls', s', o', e, a. auto.
  Qed.
  (** No more messages are on their way than were made and not received. *)
  Theorem C99_pending : forall ls (s : sys) o, run sys0 ls = Ok (s, o) -> pending s + received ls <= sent ls.
  Proof. intros ls s o R. pose proof (pending_run build esearch cap ls sys0 s o R) as H. cbn in H. exact H. Qed.
  Theorem C99_bounded_partial : forall P : ename -> Eng -> Prop,
    (forall e sub, exists eng, build e sub = Ok eng /\ P e eng) ->
    (forall e x eng t, P e eng -> exists a f eng', esearch x eng t = Ok (a, f, eng') /\ P e eng') ->
    forall (x0 : Orc) ls (s : sys) o t, run sys0 ls = Ok (s, o) -> tag_of s = Some t -> sent ls <= received ls + cap + 1 ->
    exists ls' s' o' e a, forallb internal ls' = true /\ ~ In LMainRecv ls' /\
      run s ls' = Ok (s', o') /\ y_search s' = SIdle /\ In (OAnswer e t a) o'.
  Proof.
    intros P HB HS x0 ls s o t R T C. pose proof (C99_pending _ _ _ R).
    apply (C99_without_main_partial P HB HS x0 ls s o t R T). lia.
  Qed.
  (** With the channel full, the listener holding a message for main and the monitor
      of the engine that is to report its search not done with its interval, no step
      of anything but main's receiving leads to an answer, and the jam remains. *)
  Theorem C99_stuck : forall (s : sys) a t e k, jammed cap s -> y_search s = SReport a t e k -> owed_by (c_mon (y_cnt s e)) <> 0 ->
    forall ls' s' o', ~ In LMainRecv ls' -> run s ls' = Ok (s', o') ->
    (forall e' t' a', ~ In (OAnswer e' t' a') o') /\ y_search s' <> SIdle /\ jammed cap s'.
  Proof.
    intros s a t e k J SS M ls' s' o' NI R.
    destruct (held_run build esearch cap ls' s s' o') as [(J' & a' & t' & e' & k' & SS' & _) A]; auto.
    - split; auto. exists a, t, e, k. auto.
    - split; auto. split; [rewrite SS'; discriminate|exact J'].
  Qed.
End AnyEngines.
Print Assumptions C99_without_main_partial.
Print Assumptions C99_pending.
Print Assumptions C99_bounded_partial.
Print Assumptions C99_stuck.

(** *** Cases *)
(** Five intervals of the list engine's monitor, of which main received nothing;
    a search has begun. *)
Definition fill (n : nat) : list (@label subscriptions tag (list nat)) := flat_map (fun _ => [LMonTick EList; LTraffic EList; LListenSend; LMonReset EList]) (seq 0 n).
Definition ex_busy : list (@label subscriptions tag (list nat)) := ex_one ++ fill 5 ++ [LMonTick EList] ++ PropsFactory.find.
Example C99_case :
  let r := system_run E0 system0 ex_busy in
  r = Ok (state_of r, seen_of r) /\ tag_of (state_of r) = Some ex_tag /\ pending (state_of r) = 8 /\ sent ex_busy = 13 /\ received ex_busy = 0.
Proof. vm_compute. intuition. Qed.

(** 127 intervals fill the channel; the next report of the traffic is in the
    listener's hands when a search with that engine is to be counted. *)
Definition ex_jam : list (@label subscriptions tag (list nat)) :=
  ex_one ++ fill 127 ++ PropsFactory.find ++ [LRead; LWrite; LReport 1; LMonTick EList; LTraffic EList] ++ PropsFactory.find ++ [LRead; LWrite].
Theorem C99_refuted : exists ls s o, system_run E0 system0 ls = Ok (s, o) /\ tag_of s = Some ex_tag /\ received ls = 0 /\ pending s = queue_size + 2 /\
  forall ls' s' o', ~ In LMainRecv ls' -> system_run E0 s ls' = Ok (s', o') -> (forall e t a, ~ In (OAnswer e t a) o') /\ y_search s' <> SIdle.
Proof.
  destruct (system_run E0 system0 ex_jam) as [[s o]| |] eqn:R; [|exfalso; vm_compute in R; discriminate R..].
  assert (F : match system_run E0 system0 ex_jam with
    | Ok (s, o) => y_search s = SReport (ex_uri, [str "http://a"; str "http://b"], false) ex_tag EList None /\ y_listener s <> None /\
        length (y_mc s) = queue_size /\ owed_by (c_mon (y_cnt s EList)) = 1 /\ pending s = queue_size + 2
    | _ => False end).
  { vm_compute. intuition discriminate. }
  rewrite R in F. destruct F as (F1 & F2 & F3 & F4 & F5).
  exists ex_jam, s, o. split; [exact R|]. split; [unfold tag_of; rewrite F1; reflexivity|]. split; [vm_compute; reflexivity|]. split; [exact F5|].
  intros ls' s' o' NI R'. destruct (C99_stuck (build_engine E0) engine_search queue_size s _ _ _ _ (conj F2 (Nat.eq_le_incl _ _ (eq_sym F3))) F1) with (ls' := ls') (s' := s') (o' := o') as (A & B & _); auto.
  rewrite F4. discriminate.
Qed.
Print Assumptions C99_refuted.
