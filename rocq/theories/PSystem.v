(** The factory with the project's engines: facts about the engines alone. *)
From Verif Require Import GoBase BinUtil MFilter MEngine MTdtCore MSubs MList MPatricia MSplay MSlice MLegacy MGenerator MFactory MSystem.
From Verif Require Import PBase Spec PFilter PSubs PSubs2 PList PMatch PPatricia PSplay PSplayHist PropsEngine PropsSplay SpecLegacy PropsLegacy PFactory PFactory2 SpecSystem.
From Coq Require Import Lia Permutation.

Lemma take_out_perm {A} i : forall (l : list A) a r, take_out i l = Some (a, r) -> Permutation l (a :: r).
Proof.
  induction i; intros [|b l] a r H; cbn in H; try discriminate.
  - injection H as -> ->. auto.
  - destruct (take_out i l) as [[c r']|] eqn:E; [|discriminate]. injection H as -> <-. apply IHi in E. rewrite E. constructor.
Qed.
Lemma reorder_perm {A} x : forall l : list A, Permutation l (reorder x l).
Proof.
  induction x as [|i x IH]; intros l; cbn; auto. destruct (take_out i l) as [[a r]|] eqn:E; auto.
  rewrite (take_out_perm _ _ _ _ E). constructor. auto.
Qed.
(** Every order arises. *)
Lemma take_out_at {A} : forall (l1 l2 : list A) a, take_out (length l1) (l1 ++ a :: l2) = Some (a, l1 ++ l2).
Proof. induction l1 as [|b l1 IH]; intros l2 a; cbn; auto. rewrite IH. auto. Qed.
Lemma reorder_all {A} : forall l' l : list A, Permutation l l' -> exists x, reorder x l = l'.
Proof.
  induction l' as [|a l' IH]; intros l P.
  - apply Permutation_sym, Permutation_nil in P. subst. exists []. auto.
  - assert (In a l) as I by (apply (Permutation_in _ (Permutation_sym P)); left; auto).
    apply in_split in I. destruct I as (l1 & l2 & ->). destruct (IH (l1 ++ l2)) as (x & X).
    + apply Permutation_sym. apply (Permutation_cons_app_inv l1 l2 (a := a)). apply Permutation_sym; auto.
    + exists (length l1 :: x). cbn. rewrite take_out_at, X. auto.
Qed.

Lemma clone_perm sub : NoDup (map fst sub) -> Permutation sub (sub_clone sub).
Proof.
  intros ND. assert (NoDup (map fst (sub_clone sub))) as ND'.
  { unfold sub_clone. rewrite map_map. cbn [fst]. rewrite map_id. unfold sub_keys. eapply Permutation_NoDup; [|apply ND]. apply sort_strings_perm. }
  apply NoDup_Permutation.
  - eapply NoDup_map_inv; eauto.
  - eapply NoDup_map_inv; eauto.
  - intros (k & v). rewrite <- (sub_get_In k v sub), <- (sub_get_In k v (sub_clone sub)) by auto. rewrite sub_clone_get by auto. reflexivity.
Qed.

Section Engines.
  Context (E : env) (sub : subscriptions) (F : fit E sub).
  Let keys := mkeys (to_byte_subs E sub).
  Definition derived (e : ename) (eng : engine) : Prop :=
    match e with
    | ELegacy => exists m, eng = EngLegacy m /\ Permutation sub m
    | EList => eng = EngList (new_list E sub)
    | EPatricia => exists p, eng = EngPatricia p /\ new_patricia E sub = Some p
    | ESplay => exists s ids, eng = EngSplay s /\ (forall i, In i ids -> wf_bytes i /\ decides i keys) /\ splay_run E sub (map SSearch ids) = Ok s
    end.
  Definition right_answer (e : ename) (t : tag) (a : search_result) : Prop :=
    match e with
    | ELegacy => same_report (legacy_search sub (fst t) (snd t)) (Ok a)
    | _ => list_search (new_list E sub) (fst t) (snd t) = Ok a
    end.
  Lemma build_derived e sub' : Permutation sub sub' -> exists eng, build_engine E e sub' = Ok eng /\ derived e eng.
  Proof.
    intros P. assert (to_byte_subs E sub' = to_byte_subs E sub) as EQ by (symmetry; apply to_byte_order; [apply F|auto]).
    destruct F as [F1 F2 F3 F4 F5 F6 F7].
    destruct e; cbn [build_engine derived].
    - eexists. split; eauto. eexists. split; eauto.
      eapply Permutation_trans; [apply P|]. apply clone_perm. eapply Permutation_NoDup; [apply Permutation_map, P|auto].
    - eexists. split; eauto. unfold new_list. rewrite EQ. auto.
    - destruct (new_patricia_b_spec (to_byte_subs E sub) (to_byte_subs_flat E sub) F4) as (p & N & _).
      unfold new_patricia. rewrite EQ, N. eexists. split; eauto.
    - destruct (new_splay_b_spec (to_byte_subs E sub) (to_byte_subs_flat E sub) F3 F4) as (s & N & _).
      unfold new_splay. rewrite EQ, N. eexists. split; [reflexivity|]. exists s, []. split; auto. split; [intros i []|].
      cbn. exact N.
  Qed.
  Lemma list_total t : fit_tag E sub t -> exists a, list_search (new_list E sub) (fst t) (snd t) = Ok a.
  Proof.
    intros (W & NE & D & T). destruct (C07_list_search E sub [] (fst t) (snd t)) as (us & _ & A).
    - cbn [list_run fold_left]. rewrite C07_list_fresh, entries_keys. apply F.
    - auto.
    - cbn [list_run fold_left]. rewrite C07_list_fresh, entries_keys. auto.
    - cbn [list_run fold_left] in A. destruct A as [[-> ->]|[_ A]]; eauto.
      destruct (translate (fst t) (snd t)); [eauto|eauto|congruence].
  Qed.
  Lemma search_derived e x eng t : derived e eng -> fit_tag E sub t ->
    exists a f eng', engine_search x eng t = Ok (a, f, eng') /\ derived e eng' /\ right_answer e t a.
  Proof.
    intros D FT. destruct (list_total t FT) as (al & AL). destruct FT as (W & NE & DE & T). pose proof F as [F1 F2 F3 F4 F5 F6 F7].
    destruct e; cbn [derived right_answer] in *.
    - destruct D as (m & -> & P). destruct (C17_any_order sub (reorder x m) (fst t) (snd t)) as (a & b & SR & A & B).
      { eapply Permutation_trans; [apply P|apply reorder_perm]. }
      unfold engine_search. rewrite B. destruct SR as [|p us us' failed PU].
      + exfalso. unfold legacy_search in A. destruct (translate (fst t) (snd t)); [|discriminate|congruence]. destruct (legacy_matches _ _); discriminate.
      + cbn [bind fst snd]. do 3 eexists. split; [reflexivity|]. split; [eauto|]. rewrite A. constructor; auto.
    - subst eng. unfold engine_search. rewrite AL. cbn [bind]. do 3 eexists. split; [reflexivity|]. split; auto.
    - destruct D as (p & -> & N). destruct (C16_engines_agree_partial E sub [] (fst t) (snd t) F3 F4 F5 F6) as (p' & _ & N' & _ & A & _); auto.
      { intros i [<-|[]]. auto. }
      rewrite N in N'. injection N' as <-. unfold engine_search. rewrite A, AL. cbn [bind]. do 3 eexists. split; [reflexivity|]. split; eauto.
    - destruct D as (s & ids & -> & DI & N). destruct (C16_engines_agree_partial E sub ids (fst t) (snd t) F3 F4 F5 F6) as (_ & s' & _ & N' & _ & A); auto.
      { intros i [<-|I]; auto. }
      rewrite N in N'. injection N' as <-. unfold engine_search. rewrite AL in A.
      destruct (splay_search s (fst t) (snd t)) as [[r s1]| |] eqn:SS; [|discriminate|discriminate]. cbn in A. injection A as ->.
      cbn [bind]. do 3 eexists. split; [reflexivity|]. split; auto. exists s1, (ids ++ [snd t]). split; auto. split.
      + intros i I. apply in_app_or in I. destruct I as [I|[<-|[]]]; auto.
      + rewrite map_app. unfold splay_run in *. rewrite fold_left_app, N. cbn [map fold_left]. unfold splay_call. unfold splay_search in SS.
        cbn [bind]. destruct (splay_step s (snd t)) as [[us s2]| |]; [|discriminate|discriminate]. cbn [bind] in *.
        destruct (finish_search (fst t) (snd t) us); [|discriminate|discriminate]. injection SS as _ ->. auto.
  Qed.
End Engines.
