(** The data set generator when one worker takes all the parameters. *)
From Verif Require Import GoBase MTools MDataset SpecDataset PTools2 PDataset PDataset2.
From Coq Require Import Lia Permutation.

Lemma nth_set_same {J} (l : list (worker J)) w x y : nth_error l w = Some x -> nth_error (set_nth w y l) w = Some y.
Proof. revert w. induction l as [|z l IH]; intros [|w] H; try discriminate; cbn; auto. Qed.
Lemma nth_set_other {J} (l : list (worker J)) w v y : w <> v -> nth_error (set_nth w y l) v = nth_error l v.
Proof. revert w v. induction l as [|z l IH]; intros [|w] [|v] H; cbn; auto; congruence. Qed.
Lemma file_get_kept f g t fs : file_get g fs <> None -> file_get g (file_set f t fs) <> None.
Proof. intros H. rewrite file_get_set. destruct (file_eqb f g); auto. discriminate. Qed.

Section One.
  Context {J : Type} (jfile : J -> path) (jfatal : J -> bool) (jsends : J -> result (list gostring)) (jtext : J -> result gostring) (cap : nat).
  Let step := dstep jfile jfatal jsends jtext cap.
  Let run := drun jfile jfatal jsends jtext cap.
  Let step_case := @dstep_case J jfile jfatal jsends jtext cap.

  Definition first_takes (l : dlabel) : Prop := forall w, l = DLTake w -> w = 0.
  Definition idle (x : worker J) : Prop := x = WWait \/ x = WDone.
  Definition others_idle (s : ds J) : Prop := forall w x, w <> 0 -> nth_error (d_workers s) w = Some x -> idle x.
  Definition one_inv (fs0 : files) (s : ds J) (o : list (dobs J)) : Prop :=
    others_idle s /\ NoDup (map jfile (made o)) /\ (forall j, In j (made o) -> file_get (jfile j) (d_files s) <> None) /\
    (forall f, file_get f fs0 <> None -> file_get f (d_files s) <> None) /\
    (forall j, In j (made o) -> file_get (jfile j) fs0 = None) /\
    (forall j, nth_error (d_workers s) 0 = Some (WCreate j) -> file_get (jfile j) (d_files s) = None).

  Lemma idle_set s w x : others_idle s -> (w = 0 \/ idle x) -> forall v y, v <> 0 -> nth_error (set_nth w x (d_workers s)) v = Some y -> idle y.
  Proof.
    intros O D v y V H. destruct (Nat.eq_dec w v) as [->|N].
    - destruct D as [->|D]; [congruence|]. destruct (nth_error (d_workers s) v) as [z|] eqn:E.
      + rewrite (nth_set_same _ _ _ _ E) in H. injection H as <-. auto.
      + apply nth_error_None in E. assert (nth_error (set_nth v x (d_workers s)) v = None) as NN by (apply nth_error_None; rewrite set_nth_length; auto). congruence.
    - rewrite nth_set_other in H by auto. eapply O; eauto.
  Qed.
  Lemma busy_first s w x : others_idle s -> nth_error (d_workers s) w = Some x -> ~ idle x -> w = 0.
  Proof. intros O W N. destruct w; auto. exfalso. apply N. apply (O (S w) x); [discriminate|exact W]. Qed.

  Lemma one_step fs0 s o l s' o' : first_takes l -> one_inv fs0 s o -> step_case s l s' o' -> one_inv fs0 s' (o ++ o').
  Proof.
    intros F (O & ND & MF & KF & NF & CR) C.
    assert (forall w x s1, d_workers s1 = set_nth w x (d_workers s) -> d_files s1 = d_files s -> (exists y, nth_error (d_workers s) w = Some y) ->
      (w = 0 \/ idle x) -> (forall j, x <> WCreate j) -> one_inv fs0 s1 o) as KEEP.
    { intros w x s1 EW EF [y Y] D NC. split; [unfold others_idle; rewrite EW; apply idle_set; auto|]. rewrite EF, EW. do 4 (split; [auto|]).
      intros j H. destruct (Nat.eq_dec w 0) as [->|N]; [rewrite (nth_set_same _ _ _ _ Y) in H; injection H as ->; exfalso; eapply NC; eauto|].
      rewrite nth_set_other in H by auto. auto. }
    assert (forall s1, d_workers s1 = d_workers s -> d_files s1 = d_files s -> one_inv fs0 s1 o) as SAME.
    { intros s1 EW EF. split; [unfold others_idle; rewrite EW; auto|]. rewrite EF, EW. do 4 (split; [auto|]). auto. }
    destruct C as [j r M Q|M|w j q W Q|w W Q M|w j W G|w j t W G JF|w j t W G JF|w j ls W JS|w j l ls W R|w j t W JT|w j off rest k old W K ->|w j off W|l W|M G]; rewrite ?app_nil_r.
    - apply SAME; auto.
    - apply SAME; auto.
    - apply (KEEP w (WStat j)); eauto. congruence.
    - apply (KEEP w WDone); eauto; [right; right; auto|congruence].
    - assert (w = 0) as -> by (eapply busy_first; eauto; intros [X|X]; discriminate).
      split; [unfold others_idle; cbn [d_files d_workers with_worker with_files with_writer]; apply idle_set; auto|]. cbn [d_files d_workers with_worker with_files with_writer]. do 4 (split; [auto|]).
      intros i H. rewrite (nth_set_same _ _ _ _ W) in H. injection H as <-. auto.
    - apply SAME; auto.
    - apply (KEEP w WWait); eauto; [right; left; auto|congruence].
    - assert (w = 0) as -> by (eapply busy_first; eauto; intros [X|X]; discriminate).
      pose proof (CR j W) as FJ. unfold one_inv. rewrite made_app. cbn [made flat_map app].
      split; [unfold others_idle; cbn [d_files d_workers with_worker with_files with_writer]; apply idle_set; auto|]. cbn [d_files d_workers with_worker with_files].
      assert (forall i, In i (made o ++ [j]) -> In i (made o) \/ i = j) as MI.
      { intros i I. apply in_app_iff in I as [I|[I|[]]]; auto. }
      split; [|split; [|split; [|split]]].
      + rewrite map_app. cbn. eapply Permutation_NoDup; [apply Permutation_cons_append|]. constructor; auto.
        intros I. apply in_map_iff in I as (i & EI & I). apply (MF i I). rewrite EI. auto.
      + intros i I. destruct (MI i I) as [I1| ->]; [apply file_get_kept; auto|]. rewrite file_get_set, file_eqb_refl. discriminate.
      + intros f H. apply file_get_kept. auto.
      + intros i I. destruct (MI i I) as [I1| ->]; auto. destruct (file_get (jfile j) fs0) eqn:E; auto. exfalso. apply (KF (jfile j)); [congruence|auto].
      + intros i H. rewrite (nth_set_same _ _ _ _ W) in H. discriminate.
    - assert (w = 0) as -> by (eapply busy_first; eauto; intros [X|X]; discriminate).
      unfold one_inv. rewrite made_app. change (made [OSent l]) with (@nil J). rewrite app_nil_r.
      apply (KEEP 0 (WSend j ls)); eauto. congruence.
    - apply (KEEP w (WWrite j 0 t)); eauto; [left|congruence]. eapply busy_first; eauto; intros [X|X]; discriminate.
    - assert (w = 0) as -> by (eapply busy_first; eauto; intros [X|X]; discriminate).
      split; [unfold others_idle; cbn [d_files d_workers with_worker with_files with_writer]; apply idle_set; auto|]. cbn [d_files d_workers with_worker with_files]. split; auto.
      split; [intros i I; apply file_get_kept; auto|]. split; [intros f H; apply file_get_kept; auto|]. split; auto.
      intros i H. rewrite (nth_set_same _ _ _ _ W) in H. discriminate.
    - apply (KEEP w WWait); eauto; [right; left; auto|congruence].
    - apply SAME; auto.
    - apply SAME; auto.
  Qed.
  Lemma one_run fs0 ls : Forall first_takes ls -> forall s o s' o', one_inv fs0 s o -> run s ls = Ok (s', o') -> one_inv fs0 s' (o ++ o').
  Proof.
    induction 1 as [|l ls HL F IH]; intros s o s' o' H R; cbn in R.
    - injection R as <- <-. rewrite app_nil_r. auto.
    - fold run in R. fold step in R. destruct (step s l) as [[s1 o1]| |] eqn:S; try discriminate. cbn [bind] in R.
      destruct (run s1 ls) as [[s2 o2]| |] eqn:R2; try discriminate. cbn [bind] in R. injection R as <- <-.
      rewrite app_assoc. eapply IH; eauto. apply dstep_cases in S as [EN S]. eapply one_step; eauto.
  Qed.
  Lemma one_init n js f0 fs0 : one_inv fs0 (ds0 n js f0 fs0) [].
  Proof.
    split; [|split; [constructor|split; [intros j []|split; [auto|split; [intros j []|]]]]].
    - intros w x _ H. apply nth_error_In, repeat_spec in H. left. auto.
    - intros j H. apply nth_error_In, repeat_spec in H. discriminate.
  Qed.

  (** The first worker can take the next parameter whenever nothing else goes on. *)
  Lemma one_progress n js s o : 0 < cap -> 0 < n -> Forall (fun j => (exists ls, jsends j = Ok ls) /\ exists t, jtext j = Ok t) js ->
    queue_inv n s -> jobs_inv js s o -> ended s = false -> exists l s' o', first_takes l /\ step s l = Ok (s', o').
  Proof.
    intros C N OK QI JI EN. destruct (progress jfile jfatal jsends jtext cap n js s o C N OK QI JI EN) as (l & s' & o' & S).
    assert ((exists w, l = DLTake w /\ w <> 0) \/ first_takes l) as [(w & -> & W0)|FT].
    { destruct l as [| |[|w]| | | | | | | | |]; try (right; intros v H; congruence). left. eexists. split; [reflexivity|discriminate]. }
    2: { exists l, s', o'. auto. }
    destruct QI as (Q1 & Q2 & Q3). apply dstep_cases in S as [_ S]. inversion S as [| |w' j q W Q| | | | | | | | | | |]; subst.
    destruct (d_workers s) as [|x ws] eqn:WS; [cbn in N; lia|].
    destruct JI as (fin & sk & P & _). rewrite P in OK. apply Forall_app in OK as [_ OK]. apply Forall_app in OK as [_ OK].
    apply Forall_app in OK as [OKE OK]. apply Forall_app in OK as [OKL _]. rewrite WS in OKE, OKL. rewrite Forall_forall in OKE, OKL.
    assert (nth_error (d_workers s) 0 = Some x) as X0 by (rewrite WS; auto).
    assert (forall l, (forall v, l = DLTake v -> v = 0) -> first_takes l) as FT by auto.
    destruct x as [|i|i|i [|m ms]|i off rest|].
    - exists (DLTake 0). eexists _, _. split; [intros v H; congruence|]. apply step_of_case; auto. econstructor; eauto.
    - exists (DLStat 0). destruct (file_get (jfile i) (d_files s)) eqn:F; [destruct (jfatal i) eqn:JF|]; eexists _, _; (split; [intros v H; congruence|]); (apply step_of_case; [auto|]); [eapply sc_fatal|eapply sc_skip|eapply sc_fresh]; eauto.
    - destruct (OKE i) as [[ls JS] _]; [left; auto|].
      exists (DLCreate 0). eexists _, _. split; [intros v H; congruence|]. apply step_of_case; auto. econstructor; eauto.
    - destruct (OKL i) as [_ [t JT]]; [left; auto|].
      exists (DLText 0). eexists _, _. split; [intros v H; congruence|]. apply step_of_case; auto. econstructor; eauto.
    - destruct (d_writer s) as [l|] eqn:WR.
      + exists DLFilter. eexists _, _. split; [intros v H; congruence|]. apply step_of_case; auto. econstructor; eauto.
      + exists (DLSend 0). eexists _, _. split; [intros v H; congruence|]. apply step_of_case; auto. econstructor; eauto.
    - destruct rest as [|c rest].
      + exists (DLDone 0). eexists _, _. split; [intros v H; congruence|]. apply step_of_case; auto. econstructor; eauto.
      + exists (DLWrite 0 1). eexists _, _. split; [intros v H; congruence|]. apply step_of_case; auto. econstructor; eauto. cbn. lia.
    - destruct Q2 as [X _]; [left; auto|congruence].
  Qed.
End One.
