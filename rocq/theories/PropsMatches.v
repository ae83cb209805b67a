(** Property C53 again: the counts of matching searches in every interleaving. *)
From Verif Require Import GoBase BinUtil MFilter MEngine MTdtCore MSubs MList MGenerator MFactory MSystem TestVectors Spec SpecFactory SpecMatches PMatches PropsEngine PropsSplay PropsFactory.
From Coq Require Import Lia ZifyN.

Section AnyEngines.
  Context {Sub Eng Tag Orc Ans : Type} (build : ename -> Sub -> result Eng)
    (esearch : Orc -> Eng -> Tag -> result (Ans * bool * Eng)) (cap : nat).
  Notation run := (run build esearch cap).
  Notation sys := (@sys Sub Eng Tag Ans).

  (** The account of the matches of [e] in any run: those found, and those that came
      back after having been published, are those published, those lost, and those
      waiting to be published.  A match is lost exactly when it is counted while
      the monitor is between reading and resetting the counter; and no more than
      one is lost each time the monitor fires. *)
  Theorem C53_matches_account_partial : forall ls (s : sys) o e, run sys0 ls = Ok (s, o) ->
    let v := overlaps_of build esearch cap e no_overlaps sys0 ls in
    (SpecFactory.matched e o + ov_again v = published_matched e o + ov_lost v + unpublished e s)%N /\ (ov_lost v <= fired e ls)%N.
  Proof. intros ls s o e R v. split; [apply account; auto|eapply lost_bound; eauto]. Qed.
  (** So the published counts and the pending one sum to the number of matching
      searches exactly when as many matches were lost as came back. *)
  Theorem C53_matches_sum_partial : forall ls (s : sys) o e, run sys0 ls = Ok (s, o) ->
    let v := overlaps_of build esearch cap e no_overlaps sys0 ls in
    (SpecFactory.matched e o = published_matched e o + unpublished e s)%N <-> ov_lost v = ov_again v.
  Proof. intros ls s o e R v. pose proof (account build esearch cap e ls s o R). fold v in H. lia. Qed.
End AnyEngines.
Print Assumptions C53_matches_account_partial.
Print Assumptions C53_matches_sum_partial.

(** One match lost; one match come back; neither; and one of each, in a row, after
    which the sums agree although two publications were wrong. *)
Definition ex_both : list (@label subscriptions tag (list nat)) :=
  ex_twice ++ find ++ [LMainRecv; LMainRecv; LMonTick EList; LTraffic EList; LListenSend; LRead; LWrite; LMonReset EList; LReport 1] ++ report EList.
Example C53_account_case :
  let look ls := let v := overlaps_of (build_engine E0) engine_search queue_size EList no_overlaps system0 ls in
    let r := system_run E0 system0 ls in
    (ov_lost v, ov_again v, SpecFactory.matched EList (seen_of r), published_matched EList (seen_of r), unpublished EList (state_of r), fired EList ls) in
  look ex_lost = (1, 0, 1, 0, 0, 2)%N /\ look ex_twice = (0, 1, 2, 3, 0, 2)%N /\ look ex_counted = (0, 0, 2, 2, 0, 2)%N /\
  look ex_both = (1, 1, 3, 3, 0, 4)%N /\
  (forall ls, In ls [ex_lost; ex_twice; ex_counted; ex_both] -> exists s o, system_run E0 system0 ls = Ok (s, o)).
Proof.
  cbv zeta. split; [vm_compute; reflexivity|]. split; [vm_compute; reflexivity|]. split; [vm_compute; reflexivity|]. split; [vm_compute; reflexivity|].
  intros ls I. exists (state_of (system_run E0 system0 ls)), (seen_of (system_run E0 system0 ls)).
  destruct I as [<-|[<-|[<-|[<-|[]]]]]; vm_compute; reflexivity.
Qed.
