(** The data set generator: invariants of all interleavings. *)
From Verif Require Import GoBase MTools MDataset SpecDataset PTools2.
From Coq Require Import Lia Permutation.

(** Permutations of concatenations. *)
Lemma bring_here {A} (x r : list A) : Permutation (x ++ r) (x ++ r). Proof. auto. Qed.
Lemma bring_last {A} (x : list A) : Permutation x (x ++ []). Proof. rewrite app_nil_r. auto. Qed.
Lemma bring_next {A} (y x r r' : list A) : Permutation r (x ++ r') -> Permutation (y ++ r) (x ++ (y ++ r')).
Proof. intros ->. rewrite !app_assoc. apply Permutation_app_tail, Permutation_app_comm. Qed.
Ltac bring x := first [apply (bring_here x) | apply (bring_last x) | apply (bring_next _ x); bring x].
Ltac perm_go :=
  match goal with
  | |- Permutation (?x ++ ?l) _ => eapply Permutation_trans; [|symmetry; bring x]; apply Permutation_app_head; perm_go
  | _ => rewrite ?app_nil_r; reflexivity
  end.
Ltac perm_norm := repeat match goal with |- context [cons ?j ?l] => lazymatch l with nil => fail | _ => change (cons j l) with (app [j] l) end end;
  repeat (rewrite app_nil_r || rewrite <- app_assoc).
Ltac perm := perm_norm; perm_go.

Lemma made_app {J} (a b : list (dobs J)) : made (a ++ b) = made a ++ made b. Proof. apply flat_map_app. Qed.
Lemma sent_app {J} (a b : list (dobs J)) : sent (a ++ b) = sent a ++ sent b. Proof. apply flat_map_app. Qed.
Lemma text_app a b : text_of (a ++ b) = text_of a ++ text_of b.
Proof. unfold text_of. rewrite map_app, concat_app. auto. Qed.

Lemma set_nth_split {J} (ws : list (worker J)) w x : nth_error ws w = Some x ->
  exists a b, ws = a ++ x :: b /\ forall y, set_nth w y ws = a ++ y :: b.
Proof.
  revert w. induction ws as [|z ws IH]; intros [|w] H; try discriminate.
  - injection H as ->. exists [], ws. auto.
  - destruct (IH w H) as (a & b & -> & S). exists (z :: a), b. split; auto. intros y. cbn. rewrite S. auto.
Qed.
Lemma file_get_set f g t fs : file_get g (file_set f t fs) = if file_eqb f g then Some t else file_get g fs.
Proof.
  induction fs as [|[h u] fs IH]; cbn [file_set file_get].
  - destruct (file_eqb f g) eqn:E; auto.
  - destruct (file_eqb h f) eqn:E; cbn [file_get].
    + apply file_eqb_spec in E. subst h. destruct (file_eqb f g) eqn:E2; auto.
    + rewrite IH. destruct (file_eqb h g) eqn:E2; auto. apply file_eqb_spec in E2. subst h.
      destruct (file_eqb f g) eqn:E3; auto. apply file_eqb_spec in E3. subst g. rewrite (proj2 (file_eqb_spec f f)) in E by auto. discriminate.
Qed.
Lemma file_eqb_refl f : file_eqb f f = true. Proof. apply file_eqb_spec. auto. Qed.
Lemma file_eqb_neq f g : f <> g -> file_eqb f g = false.
Proof. intros N. destruct (file_eqb f g) eqn:E; auto. apply file_eqb_spec in E. congruence. Qed.

Section Runs.
  Context {J : Type} (jfile : J -> path) (jfatal : J -> bool) (jsends : J -> result (list gostring)) (jtext : J -> result gostring) (cap : nat).
  Let step := dstep jfile jfatal jsends jtext cap.
  Let run := drun jfile jfatal jsends jtext cap.

  (** One case per kind of step. *)
  Inductive dstep_case (s : ds J) : dlabel -> ds J -> list (dobs J) -> Prop :=
  | sc_put j r : d_main s = DPut (j :: r) -> length (d_queue s) < cap ->
      dstep_case s DLPut (with_main (with_queue s (d_queue s ++ [j])) (DPut r)) []
  | sc_close : d_main s = DPut [] -> dstep_case s DLClose (with_main s DWaiting) []
  | sc_take w j q : nth_error (d_workers s) w = Some WWait -> d_queue s = j :: q ->
      dstep_case s (DLTake w) (with_worker (with_queue s q) w (WStat j)) []
  | sc_end w : nth_error (d_workers s) w = Some WWait -> d_queue s = [] -> d_main s = DWaiting ->
      dstep_case s (DLEnd w) (with_worker s w WDone) []
  | sc_fresh w j : nth_error (d_workers s) w = Some (WStat j) -> file_get (jfile j) (d_files s) = None ->
      dstep_case s (DLStat w) (with_worker s w (WCreate j)) []
  | sc_fatal w j t : nth_error (d_workers s) w = Some (WStat j) -> file_get (jfile j) (d_files s) = Some t -> jfatal j = true ->
      dstep_case s (DLStat w) (with_main s DFatal) []
  | sc_skip w j t : nth_error (d_workers s) w = Some (WStat j) -> file_get (jfile j) (d_files s) = Some t -> jfatal j = false ->
      dstep_case s (DLStat w) (with_worker s w WWait) []
  | sc_create w j ls : nth_error (d_workers s) w = Some (WCreate j) -> jsends j = Ok ls ->
      dstep_case s (DLCreate w) (with_worker (with_files s (file_set (jfile j) [] (d_files s))) w (WSend j ls)) [OMade j]
  | sc_send w j l ls : nth_error (d_workers s) w = Some (WSend j (l :: ls)) -> d_writer s = None ->
      dstep_case s (DLSend w) (with_worker (with_writer s (Some l) (d_filters s)) w (WSend j ls)) [OSent l]
  | sc_text w j t : nth_error (d_workers s) w = Some (WSend j []) -> jtext j = Ok t ->
      dstep_case s (DLText w) (with_worker s w (WWrite j 0 t)) []
  | sc_write w j off rest k old : nth_error (d_workers s) w = Some (WWrite j off rest) -> 0 < k <= length rest ->
      old = match file_get (jfile j) (d_files s) with Some t => t | None => [] end ->
      dstep_case s (DLWrite w k) (with_worker (with_files s (file_set (jfile j) (write_at off (firstn k rest) old) (d_files s))) w (WWrite j (off + k) (skipn k rest))) []
  | sc_done w j off : nth_error (d_workers s) w = Some (WWrite j off []) -> dstep_case s (DLDone w) (with_worker s w WWait) []
  | sc_filter l : d_writer s = Some l ->
      dstep_case s DLFilter (with_writer s None (d_filters s ++ text_of [l])) []
  | sc_exit : d_main s = DWaiting -> forallb is_done (d_workers s) = true -> dstep_case s DLExit (with_main s DExit) [].

  Lemma dstep_cases s l s' o : step s l = Ok (s', o) -> ended s = false /\ dstep_case s l s' o.
  Proof.
    unfold step, dstep. destruct (ended s) eqn:EN; [discriminate|]. intros H. split; auto. destruct l.
    - destruct (d_main s) as [[|j r]| | |] eqn:M; try discriminate. destruct (Nat.ltb_spec (length (d_queue s)) cap); [|discriminate]. injection H as <- <-. constructor; auto.
    - destruct (d_main s) as [[|j r]| | |] eqn:M; try discriminate. injection H as <- <-. constructor; auto.
    - destruct (nth_error _ w) as [[]|] eqn:W; try discriminate. destruct (d_queue s) as [|j q] eqn:Q; [discriminate|]. injection H as <- <-. constructor; auto.
    - destruct (nth_error _ w) as [[]|] eqn:W; try discriminate. destruct (d_queue s) as [|j q] eqn:Q; [|discriminate]. destruct (d_main s) eqn:M; try discriminate. injection H as <- <-. constructor; auto.
    - destruct (nth_error _ w) as [[]|] eqn:W; try discriminate. destruct (file_get _ _) eqn:F; [destruct (jfatal j) eqn:JF|]; injection H as <- <-; econstructor; eauto.
    - destruct (nth_error _ w) as [[]|] eqn:W; try discriminate. destruct (jsends j) eqn:JS; try discriminate. injection H as <- <-. constructor; auto.
    - destruct (nth_error _ w) as [[| | |j [|l ls]| |]|] eqn:W; try discriminate. destruct (d_writer s) eqn:F; [discriminate|]. injection H as <- <-. econstructor; eauto.
    - destruct (nth_error _ w) as [[| | |j [|l ls]| |]|] eqn:W; try discriminate. destruct (jtext j) eqn:JS; try discriminate. injection H as <- <-. econstructor; eauto.
    - destruct (nth_error _ w) as [[| | | |j off rest|]|] eqn:W; try discriminate.
      destruct (Nat.ltb 0 k && Nat.leb k (length rest)) eqn:K; [|discriminate]. apply andb_true_iff in K as [K1 K2]. apply Nat.ltb_lt in K1. apply Nat.leb_le in K2.
      injection H as <- <-. econstructor; eauto.
    - destruct (nth_error _ w) as [[| | | |j off [|c rest]|]|] eqn:W; try discriminate. injection H as <- <-. econstructor; eauto.
    - destruct (d_writer s) as [[|c l]|] eqn:W; try discriminate; injection H as <- <-.
      + replace (with_writer s None (d_filters s)) with (with_writer s None (d_filters s ++ text_of [[]])) by (unfold with_writer; cbn; rewrite app_nil_r; auto). constructor; auto.
      + replace (c :: l ++ [cnewline]) with (text_of [c :: l]) by (unfold text_of; cbn; rewrite app_nil_r; auto). constructor; auto.
    - destruct (d_main s) eqn:M; try discriminate. destruct (forallb _ _) eqn:F; [|discriminate]. injection H as <- <-. constructor; auto.
  Qed.
  Lemma step_of_case s l s' o : ended s = false -> dstep_case s l s' o -> step s l = Ok (s', o).
  Proof.
    intros EN H. unfold step, dstep. rewrite EN. destruct H as [j r M Q|M|w j q W Q|w W Q M|w j W F|w j t W F JF|w j t W F JF|w j ls W JS|w j l ls W R|w j t W JT|w j off rest k old W K ->|w j off W|l W|M F].
    - rewrite M. destruct (Nat.ltb_spec (length (d_queue s)) cap); [auto|lia].
    - rewrite M. auto.
    - rewrite W, Q. auto.
    - rewrite W, Q, M. auto.
    - rewrite W, F. auto.
    - rewrite W, F, JF. auto.
    - rewrite W, F, JF. auto.
    - rewrite W, JS. auto.
    - rewrite W, R. auto.
    - rewrite W, JT. auto.
    - rewrite W. destruct (Nat.ltb_spec 0 k); [|lia]. destruct (Nat.leb_spec k (length rest)); [|lia]. auto.
    - rewrite W. auto.
    - rewrite W. destruct l as [|c l].
      + unfold with_writer. cbn. rewrite app_nil_r. auto.
      + unfold text_of. cbn. rewrite app_nil_r. auto.
    - rewrite M, F. auto.
  Qed.

  Lemma run_inv (P : ds J -> list (dobs J) -> Prop) :
    (forall s o l s' o', ended s = false -> P s o -> dstep_case s l s' o' -> P s' (o ++ o')) ->
    forall ls s o s' o', P s o -> run s ls = Ok (s', o') -> P s' (o ++ o').
  Proof.
    intros HP. induction ls as [|l ls IH]; intros s o s' o' H R; cbn in R.
    - injection R as <- <-. rewrite app_nil_r. auto.
    - fold run in R. fold step in R. destruct (step s l) as [[s1 o1]| |] eqn:S; try discriminate. cbn [bind] in R.
      destruct (run s1 ls) as [[s2 o2]| |] eqn:R2; try discriminate. cbn [bind] in R. injection R as <- <-.
      rewrite app_assoc. eapply IH; eauto. apply dstep_cases in S as [EN S]. eapply HP; eauto.
  Qed.

  Lemma run_snoc ls l : forall s s1 o1 s2 o2, run s ls = Ok (s1, o1) -> step s1 l = Ok (s2, o2) -> run s (ls ++ [l]) = Ok (s2, o1 ++ o2).
  Proof.
    induction ls as [|x ls IH]; intros s s1 o1 s2 o2 R S; cbn [app]; cbn in R |- *; fold run in R |- *; fold step in R |- *.
    - injection R as <- <-. rewrite S. cbn. rewrite app_nil_r. auto.
    - destruct (step s x) as [[s3 o3]| |]; try discriminate. cbn [bind] in *. destruct (run s3 ls) as [[s4 o4]| |] eqn:R2; try discriminate. cbn [bind] in R.
      injection R as <- <-. rewrite (IH _ _ _ _ _ R2 S). cbn [bind]. rewrite app_assoc. auto.
  Qed.

  (** ** The filter file *)
  Definition pending (w : worker J) : list gostring := match w with WSend _ ls => ls | _ => [] end.
  Definition held (s : ds J) : list gostring := match d_writer s with Some l => [l] | None => [] end.
  Definition filters_inv (f0 : gostring) (s : ds J) (o : list (dobs J)) : Prop :=
    exists written sss, sent o = written ++ held s /\ d_filters s = f0 ++ text_of written /\
      Forall2 (fun j ls => jsends j = Ok ls) (made o) sss /\
      Permutation (concat sss) (sent o ++ concat (map pending (d_workers s))).

  Lemma filters_keep f0 s o s' : filters_inv f0 s o -> held s' = held s -> d_filters s' = d_filters s ->
    Permutation (concat (map pending (d_workers s'))) (concat (map pending (d_workers s))) -> filters_inv f0 s' (o ++ []).
  Proof.
    intros (wr & sss & H1 & H2 & H3 & H4) E1 E2 E3. rewrite app_nil_r. exists wr, sss. rewrite E1, E2. repeat split; auto.
    rewrite E3. auto.
  Qed.
  Lemma filters_step f0 s o l s' o' : ended s = false -> filters_inv f0 s o -> dstep_case s l s' o' -> filters_inv f0 s' (o ++ o').
  Proof.
    intros EN I C. destruct C as [j r M Q|M|w j q W Q|w W Q M|w j W F|w j t W F JF|w j t W F JF|w j ls W JS|w j l ls W R|w j t W JT|w j off rest k old W K ->|w j off W|l W|M F].
    1,2,6,14: apply (filters_keep f0 s); auto.
    1-4: apply (filters_keep f0 s); auto; cbn; destruct (set_nth_split _ _ _ W) as (a & b & Ea & Eb); rewrite Eb, Ea, !map_app; cbn; auto.
    - destruct I as (wr & sss & H1 & H2 & H3 & H4). destruct (set_nth_split _ _ _ W) as (a & b & Ea & Eb).
      exists wr, (sss ++ [ls]). rewrite sent_app, made_app. cbn. rewrite !app_nil_r. repeat split; auto.
      + apply Forall2_app; auto.
      + rewrite concat_app, H4, Eb, Ea. cbn. rewrite !map_app, !concat_app. cbn. rewrite app_nil_r, <- !app_assoc. apply Permutation_app_head, Permutation_app_head. apply Permutation_app_comm.
    - destruct I as (wr & sss & H1 & H2 & H3 & H4). destruct (set_nth_split _ _ _ W) as (a & b & Ea & Eb).
      exists wr, sss. rewrite sent_app, made_app. cbn. unfold held in *. cbn. rewrite R in H1. rewrite !app_nil_r in *. subst wr. repeat split; auto.
      rewrite H4, Eb, Ea. rewrite !map_app, !concat_app. cbn. rewrite <- !app_assoc. apply Permutation_app_head. cbn. symmetry. apply Permutation_middle.
    - apply (filters_keep f0 s); auto; cbn; destruct (set_nth_split _ _ _ W) as (a & b & Ea & Eb); rewrite Eb, Ea, !map_app; cbn; auto.
    - apply (filters_keep f0 s); auto; cbn; destruct (set_nth_split _ _ _ W) as (a & b & Ea & Eb); rewrite Eb, Ea, !map_app; cbn; auto.
    - apply (filters_keep f0 s); auto; cbn; destruct (set_nth_split _ _ _ W) as (a & b & Ea & Eb); rewrite Eb, Ea, !map_app; cbn; auto.
    - destruct I as (wr & sss & H1 & H2 & H3 & H4). unfold held in H1. rewrite W in H1.
      exists (wr ++ [l]), sss. rewrite !app_nil_r. cbn. rewrite app_nil_r. repeat split; auto. rewrite H2, text_app, app_assoc. f_equal. unfold text_of. cbn. rewrite app_nil_r. auto.
  Qed.

  (** ** The queue and the workers *)
  Definition queue_inv (n : nat) (s : ds J) : Prop :=
    length (d_workers s) = n /\
    (In WDone (d_workers s) -> d_queue s = [] /\ forall r, d_main s <> DPut r) /\
    (d_main s = DExit -> forallb is_done (d_workers s) = true).
  Lemma set_nth_length w x (l : list (worker J)) : length (set_nth w x l) = length l.
  Proof. revert w. induction l as [|y l IH]; intros [|w]; cbn; auto. Qed.
  Lemma in_set_nth w x (l : list (worker J)) y : In y (set_nth w x l) -> y = x \/ In y l.
  Proof. revert w. induction l as [|z l IH]; intros [|w]; cbn; auto; intros [H|H]; auto. destruct (IH _ H); auto. Qed.
  Lemma queue_step n s (o : list (dobs J)) l s' o' : ended s = false -> queue_inv n s -> dstep_case s l s' o' -> queue_inv n s'.
  Proof.
    intros EN (H1 & H2 & H3) C. assert (d_main s <> DExit) as NE by (unfold ended in EN; destruct (d_main s); congruence).
    assert (forall w x, nth_error (d_workers s) w = Some x -> In x (d_workers s)) as NI by (intros; eapply nth_error_In; eauto).
    destruct C as [j r M Q|M|w j q W Q|w W Q M|w j W F|w j t W F JF|w j t W F JF|w j ls W JS|w j l ls W R|w j t W JT|w j off rest k old W K ->|w j off W|l W|M F];
      unfold queue_inv; cbn [d_workers d_queue d_main with_worker with_main with_queue with_files with_writer]; rewrite ?set_nth_length; (split; [auto|]).
    - split; [|discriminate]. intros I. exfalso. destruct (H2 I) as [_ X]. eapply X; eauto.
    - split; [|discriminate]. intros I. exfalso. destruct (H2 I) as [_ X]. eapply X; eauto.
    - split; [|congruence]. intros I. apply in_set_nth in I as [I|I]; [discriminate|]. destruct (H2 I) as [X _]. congruence.
    - split; [|congruence]. intros _. split; auto. intros r. congruence.
    - split; [|congruence]. intros I. apply in_set_nth in I as [I|I]; [discriminate|]. auto.
    - split; [|discriminate]. intros I. destruct (H2 I). split; auto. intros r; discriminate.
    - split; [|congruence]. intros I. apply in_set_nth in I as [I|I]; [discriminate|]. auto.
    - split; [|congruence]. intros I. apply in_set_nth in I as [I|I]; [discriminate|]. auto.
    - split; [|congruence]. intros I. apply in_set_nth in I as [I|I]; [discriminate|]. auto.
    - split; [|congruence]. intros I. apply in_set_nth in I as [I|I]; [discriminate|]. auto.
    - split; [|congruence]. intros I. apply in_set_nth in I as [I|I]; [discriminate|]. auto.
    - split; [|congruence]. intros I. apply in_set_nth in I as [I|I]; [discriminate|]. auto.
    - split; auto.
    - split; auto. intros I. destruct (H2 I). split; auto. intros r; discriminate.
  Qed.

  (** ** Every parameter is dealt with once *)
  Definition left_over (s : ds J) : list J := match d_main s with DPut r => r | _ => [] end.
  Definition early (w : worker J) : list J := match w with WStat j | WCreate j => [j] | _ => [] end.
  Definition late (w : worker J) : list J := match w with WSend j _ | WWrite j _ _ => [j] | _ => [] end.
  Definition jobs_inv (js : list J) (s : ds J) (o : list (dobs J)) : Prop :=
    exists fin skipped,
      Permutation js (left_over s ++ d_queue s ++ flat_map early (d_workers s) ++ flat_map late (d_workers s) ++ fin ++ skipped) /\
      Permutation (made o) (flat_map late (d_workers s) ++ fin).

  Lemma jobs_step js s o l s' o' : jobs_inv js s o -> dstep_case s l s' o' -> jobs_inv js s' (o ++ o').
  Proof.
    intros (fin & sk & H1 & H2) C.
    destruct C as [j r M Q|M|w j q W Q|w W Q M|w j W F|w j t W F JF|w j t W F JF|w j ls W JS|w j l ls W R|w j t W JT|w j off rest k old W K ->|w j off W|l W|M F];
      unfold jobs_inv, left_over in *; rewrite made_app; cbn [made flat_map d_workers d_queue d_main with_worker with_main with_queue with_files with_writer app];
      rewrite ?app_nil_r; try (destruct (set_nth_split _ _ _ W) as (a & b & Ea & Eb); rewrite ?Eb, Ea in *; rewrite !flat_map_app in *; cbn [flat_map early late app] in *).
    - exists fin, sk. split; auto. rewrite M in H1. rewrite H1. perm.
    - exists fin, sk. split; auto. rewrite M in H1. auto.
    - exists fin, sk. split; auto. rewrite Q in H1. rewrite H1. perm.
    - exists fin, sk. split; auto.
    - exists fin, sk. split; auto.
    - exists fin, (match d_main s with DPut r => r | _ => [] end ++ sk). split; auto. rewrite H1. perm.
    - exists fin, (j :: sk). split; auto. rewrite H1. perm.
    - exists fin, sk. split; [rewrite H1; perm|]. rewrite H2. perm.
    - exists fin, sk. split; auto.
    - exists fin, sk. split; auto.
    - exists fin, sk. split; auto.
    - exists (j :: fin), sk. split; [rewrite H1; perm|]. rewrite H2. perm.
    - exists fin, sk. auto.
    - exists fin, sk. split; auto. rewrite M in H1. auto.
  Qed.

  (** ** Files that do not clash *)
  (** What a parameter's file should hold at this point; [None]: nothing yet. *)
  Definition whole (j : J) : gostring := match jtext j with Ok t => t | _ => [] end.
  Definition item (w : worker J) : list (J * option gostring) :=
    match w with
    | WStat j | WCreate j => [(j, None)]
    | WSend j _ => [(j, Some [])]
    | WWrite j off _ => [(j, Some (firstn off (whole j)))]
    | _ => []
    end.
  Definition items (s : ds J) (fin : list J) : list (J * option gostring) :=
    map (fun j => (j, None)) (left_over s) ++ map (fun j => (j, None)) (d_queue s) ++ flat_map item (d_workers s) ++ map (fun j => (j, Some (whole j))) fin.
  Definition worker_ok (w : worker J) : Prop :=
    match w with WWrite j off rest => off <= length (whole j) /\ rest = skipn off (whole j) | _ => True end.
  Definition holds (fs : files) (x : J * option gostring) : Prop := file_get (jfile (fst x)) fs = snd x.
  Definition files_inv (js : list J) (fs0 : files) (s : ds J) : Prop :=
    exists fin, d_main s <> DFatal /\ Forall worker_ok (d_workers s) /\ Permutation js (map fst (items s fin)) /\ Forall (holds (d_files s)) (items s fin) /\
      (forall f, ~ In f (map jfile js) -> file_get f (d_files s) = file_get f fs0).

  Lemma holds_other js fs x y X t : NoDup (map jfile js) -> Permutation js (map fst (x :: X)) -> Forall (holds fs) (x :: X) ->
    fst y = fst x -> snd y = Some t -> Forall (holds (file_set (jfile (fst x)) t fs)) (y :: X).
  Proof.
    intros ND P F E1 E2. assert (NoDup (map jfile (map fst (x :: X)))) as N2.
    { eapply Permutation_NoDup; [|exact ND]. apply Permutation_map. auto. }
    cbn in N2. inversion N2 as [|? ? NI N3]. subst. inversion F as [|? ? _ F2]. subst. constructor.
    - unfold holds. rewrite E1, E2, file_get_set, file_eqb_refl. auto.
    - rewrite Forall_forall in *. intros z I. unfold holds. rewrite file_get_set, file_eqb_neq; [apply F2; auto|].
      intros X0. apply NI. rewrite X0. apply in_map, in_map. auto.
  Qed.
  Lemma keep_outside js f0 fs x X (t : gostring) : Permutation js (map fst (x :: X)) -> (forall f, ~ In f (map jfile js) -> file_get f fs = file_get f f0) ->
    forall f, ~ In f (map jfile js) -> file_get f (file_set (jfile (fst (x : J * option gostring))) t fs) = file_get f f0.
  Proof.
    intros P H f NI. rewrite file_get_set, file_eqb_neq; auto. intros <-. apply NI. apply in_map. eapply Permutation_in; [symmetry; exact P|].
    left. auto.
  Qed.

  Definition others (s : ds J) (a b : list (worker J)) (fin : list J) : list (J * option gostring) :=
    map (fun j => (j, None)) (left_over s) ++ map (fun j => (j, None)) (d_queue s) ++ flat_map item a ++ flat_map item b ++ map (fun j => (j, Some (whole j))) fin.
  Lemma items_at s fin a x b : d_workers s = a ++ x :: b -> Permutation (items s fin) (item x ++ others s a b fin).
  Proof. intros E. unfold items, others. rewrite E, flat_map_app. cbn [flat_map]. perm. Qed.
  Lemma skip_skip (t : gostring) : forall a b, skipn a (skipn b t) = skipn (b + a) t.
  Proof.
    intros a b. revert t. induction b as [|b IH]; intros t; cbn; auto. destruct t; [rewrite skipn_nil; auto|apply IH].
  Qed.

  Lemma write_next (t : gostring) off k : off <= length t -> write_at off (firstn k (skipn off t)) (firstn off t) = firstn (off + k) t.
  Proof.
    intros L. unfold write_at. assert (length (firstn off t) = off) as LF by (rewrite firstn_length; lia).
    rewrite firstn_firstn, Nat.min_id, LF, Nat.sub_diag. cbn [repeat app].
    rewrite (skipn_all2 (firstn off t)) by lia. rewrite app_nil_r.
    rewrite <- (firstn_skipn off t) at 3. rewrite firstn_app, firstn_firstn, LF.
    replace (Nat.min (off + k) off) with off by lia. replace (off + k - off) with k by lia. auto.
  Qed.

  Lemma files_step js fs0 s l s' o' : NoDup (map jfile js) -> files_inv js fs0 s -> dstep_case s l s' o' -> files_inv js fs0 s'.
  Proof.
    intros ND (fin & NF & WO & P & H & OUT) C.
    assert (forall a x b, d_workers s = a ++ x :: b -> worker_ok x /\ forall x', worker_ok x' -> Forall worker_ok (a ++ x' :: b)) as WK.
    { intros a x b E. rewrite E in WO. apply Forall_app in WO as [WA WB]. inversion WB. split; auto. intros x' OK. apply Forall_app. split; auto. }
    assert (forall s2 fin2, Permutation (items s fin) (items s2 fin2) -> d_files s2 = d_files s ->
      Permutation js (map fst (items s2 fin2)) /\ Forall (holds (d_files s2)) (items s2 fin2) /\
      (forall f, ~ In f (map jfile js) -> file_get f (d_files s2) = file_get f fs0)) as SAME.
    { intros s2 fin2 P2 E. rewrite E, <- P2. auto. }
    assert (forall s2 a b x y t j c, d_workers s = a ++ x :: b -> d_workers s2 = a ++ y :: b -> item x = [(j, c)] -> item y = [(j, Some t)] ->
      left_over s2 = left_over s -> d_queue s2 = d_queue s -> d_files s2 = file_set (jfile j) t (d_files s) ->
      Permutation js (map fst (items s2 fin)) /\ Forall (holds (d_files s2)) (items s2 fin) /\
      (forall f, ~ In f (map jfile js) -> file_get f (d_files s2) = file_get f fs0)) as SET.
    { intros s2 a b x y t j c Ea Eb Ix Iy E1 E2 E3. pose proof (items_at s fin a x b Ea) as P1. pose proof (items_at s2 fin a y b Eb) as P2.
      rewrite Ix in P1. rewrite Iy in P2. unfold others in P2. rewrite E1, E2 in P2. fold (others s a b fin) in P2. cbn [app] in P1, P2.
      assert (Permutation js (map fst ((j, c) :: others s a b fin))) as P3 by (rewrite <- P1; auto).
      rewrite P2, E3. split; [exact P3|]. rewrite P1 in H. split.
      - apply (holds_other js _ (j, c) (j, Some t) _ t); auto.
      - apply (keep_outside js fs0 (d_files s) (j, c) _ t P3 OUT). }
    destruct C as [j r M Q|M|w j q W Q|w W Q M|w j W F|w j t W F JF|w j t W F JF|w j ls W JS|w j l ls W R|w j t W JT|w j off rest k old W K ->|w j off W|l W|M F];
      try (destruct (set_nth_split _ _ _ W) as (a & b & Ea & Eb); destruct (WK a _ b Ea) as [WX WY]).
    - exists fin. split; [discriminate|]. split; auto. apply SAME; auto. unfold items, left_over. cbn. rewrite M. rewrite map_app. cbn [map]. perm.
    - exists fin. split; [discriminate|]. split; auto. apply SAME; auto. unfold items, left_over. cbn. rewrite M. auto.
    - exists fin. split; auto. split; [cbn; rewrite Eb; apply WY; exact I|]. apply SAME; auto.
      unfold items, left_over. cbn. rewrite Eb, Ea, Q, !flat_map_app. cbn [map flat_map item]. perm.
    - exists fin. split; auto. split; [cbn; rewrite Eb; apply WY; exact I|]. apply SAME; auto. unfold items, left_over. cbn. rewrite Eb, Ea, !flat_map_app. auto.
    - exists fin. split; auto. split; [cbn; rewrite Eb; apply WY; exact I|]. apply SAME; auto. unfold items, left_over. cbn. rewrite Eb, Ea, !flat_map_app. auto.
    - exfalso. pose proof (items_at s fin a _ b Ea) as P1. rewrite P1 in H. cbn in H. inversion H as [|? ? X _]. unfold holds in X. cbn in X. congruence.
    - exfalso. pose proof (items_at s fin a _ b Ea) as P1. rewrite P1 in H. cbn in H. inversion H as [|? ? X _]. unfold holds in X. cbn in X. congruence.
    - exists fin. split; auto. split; [cbn; rewrite Eb; apply WY; exact I|]. eapply (SET _ a b (WCreate j) (WSend j ls) [] j None); auto. apply Eb.
    - exists fin. split; auto. split; [cbn; rewrite Eb; apply WY; exact I|]. apply SAME; auto. unfold items, left_over. cbn. rewrite Eb, Ea, !flat_map_app. auto.
    - exists fin. split; auto. split; [cbn; rewrite Eb; apply WY; cbn; unfold whole; rewrite JT; split; auto; lia|]. apply SAME; auto. unfold items, left_over. cbn. rewrite Eb, Ea, !flat_map_app. auto.
    - exists fin. destruct WX as [L1 ->]. rewrite skipn_length in K. split; auto. split.
      { cbn. rewrite Eb. apply WY. cbn. split; [lia|]. apply skip_skip. }
      eapply (SET _ a b (WWrite j off (skipn off (whole j))) _ (firstn (off + k) (whole j)) j (Some (firstn off (whole j)))); [exact Ea|cbn; apply Eb|reflexivity|reflexivity|auto|auto|].
      cbn [d_files with_worker with_files]. f_equal.
      assert (file_get (jfile j) (d_files s) = Some (firstn off (whole j))) as ->; [|apply write_next; auto].
      pose proof (items_at s fin a _ b Ea) as P1. rewrite P1 in H. cbn in H. inversion H as [|? ? X _]. exact X.
    - exists (j :: fin). destruct WX as [L1 L2]. split; auto. split; [cbn; rewrite Eb; apply WY; exact I|]. apply SAME; auto.
      unfold items, left_over. cbn. rewrite Eb, Ea, !flat_map_app. cbn [map flat_map item].
      replace (firstn off (whole j)) with (whole j); [perm|]. rewrite <- (firstn_skipn off (whole j)) at 1. rewrite <- L2, app_nil_r. auto.
    - exists fin. split; auto.
    - exists fin. split; [discriminate|]. split; auto. apply SAME; auto. unfold items, left_over. cbn. rewrite M. auto.
  Qed.

  (** Without clashes nothing is left out. *)
  Definition jobs_all (js : list J) (s : ds J) (o : list (dobs J)) : Prop :=
    exists fin,
      Permutation js (left_over s ++ d_queue s ++ flat_map early (d_workers s) ++ flat_map late (d_workers s) ++ fin) /\
      Permutation (made o) (flat_map late (d_workers s) ++ fin).
  Lemma jobs_all_step js fs0 s o l s' o' : files_inv js fs0 s -> jobs_all js s o -> dstep_case s l s' o' -> jobs_all js s' (o ++ o').
  Proof.
    intros (fin0 & _ & _ & _ & HF & _) (fin & H1 & H2) C.
    assert (forall a j b t, d_workers s = a ++ WStat j :: b -> file_get (jfile j) (d_files s) = Some t -> False) as NO.
    { intros a j b t Ea F. pose proof (items_at s fin0 a _ b Ea) as P1. rewrite P1 in HF. cbn in HF. inversion HF as [|? ? X _]. unfold holds in X. cbn in X. congruence. }
    destruct C as [j r M Q|M|w j q W Q|w W Q M|w j W F|w j t W F JF|w j t W F JF|w j ls W JS|w j l ls W R|w j t W JT|w j off rest k old W K ->|w j off W|l W|M F];
      unfold jobs_all, left_over in *; rewrite made_app; cbn [made flat_map d_workers d_queue d_main with_worker with_main with_queue with_files with_writer app];
      rewrite ?app_nil_r; try (destruct (set_nth_split _ _ _ W) as (a & b & Ea & Eb); try (exfalso; eapply NO; eassumption); rewrite ?Eb, Ea in *; rewrite !flat_map_app in *; cbn [flat_map early late app] in *).
    - exists fin. split; auto. rewrite M in H1. rewrite H1. perm.
    - exists fin. split; auto. rewrite M in H1. auto.
    - exists fin. split; auto. rewrite Q in H1. rewrite H1. perm.
    - exists fin. split; auto.
    - exists fin. split; auto.
    - exists fin. split; [rewrite H1; perm|]. rewrite H2. perm.
    - exists fin. split; auto.
    - exists fin. split; auto.
    - exists fin. split; auto.
    - exists (j :: fin). split; [rewrite H1; perm|]. rewrite H2. perm.
    - exists fin. auto.
    - exists fin. split; auto. rewrite M in H1. auto.
  Qed.

  (** ** Every run ends *)
  Definition nsends (j : J) : nat := match jsends j with Ok ls => length ls | _ => 0 end.
  Definition cost (j : J) : nat := 6 + 2 * nsends j + length (whole j).
  Definition total {A} (f : A -> nat) (l : list A) : nat := list_sum (map f l).
  Lemma total_app {A} (f : A -> nat) a b : total f (a ++ b) = total f a + total f b.
  Proof. unfold total. rewrite map_app, list_sum_app. auto. Qed.
  Lemma total_cons {A} (f : A -> nat) x l : total f (x :: l) = f x + total f l.
  Proof. auto. Qed.
  Definition wcost (w : worker J) : nat :=
    match w with
    | WWait => 1
    | WStat j => cost j - 1
    | WCreate j => cost j - 2
    | WSend j ls => 3 + 2 * length ls + length (whole j)
    | WWrite _ _ rest => 2 + length rest
    | WDone => 0
    end.
  Definition mcost (m : dmain J) : nat := match m with DPut r => 2 + total cost r | DWaiting => 1 | _ => 0 end.
  Definition measure (s : ds J) : nat :=
    mcost (d_main s) + total (fun j => cost j - 1) (d_queue s) + total wcost (d_workers s) + length (held s).
  Lemma measure_step s l s' o : ended s = false -> dstep_case s l s' o -> measure s' < measure s.
  Proof.
    intros EN C. assert (0 < mcost (d_main s)) as MP by (unfold ended in EN; destruct (d_main s); try discriminate; cbn; lia).
    destruct C as [j r M Q|M|w j q W Q|w W Q M|w j W F|w j t W F JF|w j t W F JF|w j ls W JS|w j l ls W R|w j t W JT|w j off rest k old W K ->|w j off W|l W|M F];
      unfold measure, held; cbn [d_workers d_queue d_main d_writer with_worker with_main with_queue with_files with_writer];
      try (destruct (set_nth_split _ _ _ W) as (a & b & Ea & Eb); rewrite ?Eb, Ea; rewrite ?total_app, ?total_cons).
    - rewrite M. rewrite total_app. unfold mcost. rewrite !total_cons. unfold cost. change (total _ []) with 0. lia.
    - rewrite M. unfold mcost. change (total _ []) with 0. lia.
    - rewrite Q, total_cons. unfold wcost, cost. lia.
    - unfold wcost. lia.
    - unfold wcost, cost. lia.
    - unfold mcost at 1. lia.
    - unfold wcost, cost. lia.
    - unfold wcost, cost, nsends. rewrite JS. lia.
    - unfold wcost. rewrite R. cbn [length]. lia.
    - unfold wcost, whole. rewrite JT. cbn [length]. lia.
    - unfold wcost. rewrite skipn_length. lia.
    - unfold wcost. cbn [length]. lia.
    - rewrite W. cbn [length]. lia.
    - rewrite M. unfold mcost. lia.
  Qed.
  Lemma run_measure ls : forall s s' o, run s ls = Ok (s', o) -> length ls + measure s' <= measure s.
  Proof.
    induction ls as [|l ls IH]; intros s s' o R; cbn in R.
    - injection R as <- <-. cbn. lia.
    - fold run in R. fold step in R. destruct (step s l) as [[s1 o1]| |] eqn:S; try discriminate. cbn [bind] in R.
      destruct (run s1 ls) as [[s2 o2]| |] eqn:R2; try discriminate. cbn [bind] in R. injection R as <- <-.
      apply IH in R2. apply dstep_cases in S as [EN S]. apply measure_step in S; auto. cbn [length]. lia.
  Qed.
  Lemma measure0 n js f0 fs0 : measure (ds0 n js f0 fs0) = total cost js + n + 2.
  Proof.
    unfold measure, ds0, held. cbn [d_workers d_queue d_main d_writer length]. unfold mcost. change (total _ []) with 0.
    assert (total wcost (repeat (@WWait J) n) = n) as -> by (induction n; cbn; auto; unfold total in *; lia). lia.
  Qed.

  (** ** No deadlock *)
  Lemma worker_cases (ws : list (worker J)) :
    (exists w x, nth_error ws w = Some x /\ x <> WWait /\ x <> WDone) \/ Forall (fun x => x = WWait \/ x = WDone) ws.
  Proof.
    induction ws as [|x ws [(w & y & H)|IH]]; [right; auto| |].
    - left. exists (S w), y. auto.
    - destruct x; try (left; exists 0; eexists; split; [reflexivity|]; split; discriminate); right; constructor; auto.
  Qed.
  Lemma some_wait (ws : list (worker J)) : Forall (fun x => x = WWait \/ x = WDone) ws ->
    (exists w, nth_error ws w = Some WWait) \/ forallb is_done ws = true.
  Proof.
    induction 1 as [|x ws [->| ->] H [[w IH]|IH]]; auto; try (left; exists 0; reflexivity). left. exists (S w). auto.
  Qed.
  Lemma progress n js s o : 0 < cap -> 0 < n -> Forall (fun j => (exists ls, jsends j = Ok ls) /\ exists t, jtext j = Ok t) js ->
    queue_inv n s -> jobs_inv js s o -> ended s = false -> exists l s' o', step s l = Ok (s', o').
  Proof.
    intros C N OK (Q1 & Q2 & Q3) (fin & sk & P & _) EN. rewrite P in OK. apply Forall_app in OK as [_ OK]. apply Forall_app in OK as [_ OK].
    apply Forall_app in OK as [OKE OK]. apply Forall_app in OK as [OKL _].
    destruct (d_writer s) as [l|] eqn:WR.
    { exists DLFilter. eexists _, _. apply step_of_case; auto. econstructor; eauto. }
    destruct (worker_cases (d_workers s)) as [(w & x & W & N1 & N2)|ALL].
    { assert (In x (d_workers s)) as IN by (eapply nth_error_In; eauto). rewrite Forall_forall in OKE, OKL.
      destruct x as [|j|j|j [|l ls]|j off rest|]; try congruence.
      - exists (DLStat w). destruct (file_get (jfile j) (d_files s)) eqn:F; [destruct (jfatal j) eqn:JF|]; eexists _, _; (apply step_of_case; [auto|]); [eapply sc_fatal|eapply sc_skip|eapply sc_fresh]; eauto.
      - destruct (OKE j) as [[ls JS] _]; [apply in_flat_map; exists (WCreate j); split; auto; left; auto|].
        exists (DLCreate w). eexists _, _. apply step_of_case; auto. econstructor; eauto.
      - destruct (OKL j) as [_ [t JT]]; [apply in_flat_map; exists (WSend j []); split; auto; left; auto|].
        exists (DLText w). eexists _, _. apply step_of_case; auto. econstructor; eauto.
      - exists (DLSend w). eexists _, _. apply step_of_case; auto. econstructor; eauto.
      - destruct rest as [|c rest].
        + exists (DLDone w). eexists _, _. apply step_of_case; auto. econstructor; eauto.
        + exists (DLWrite w 1). eexists _, _. apply step_of_case; auto. econstructor; eauto. cbn. lia. }
    assert (forall j q, d_queue s = j :: q -> exists l s' o', step s l = Ok (s', o')) as TAKE.
    { intros j q Q. destruct (some_wait _ ALL) as [[w W]|D].
      - exists (DLTake w). eexists _, _. apply step_of_case; auto. econstructor; eauto.
      - destruct (d_workers s) as [|x ws]; [cbn in Q1; lia|]. cbn in D. apply andb_true_iff in D as [D _]. destruct x; try discriminate.
        destruct Q2 as [X _]; [left; auto|congruence]. }
    destruct (d_queue s) as [|j q] eqn:Q; [|eapply TAKE; eauto].
    unfold ended in EN. destruct (d_main s) as [[|j r]| | |] eqn:M; try discriminate.
    - exists DLClose. eexists _, _. apply step_of_case; [unfold ended; rewrite M; auto|]. econstructor; eauto.
    - exists DLPut. eexists _, _. apply step_of_case; [unfold ended; rewrite M; auto|]. econstructor; eauto. rewrite Q. cbn. lia.
    - destruct (some_wait _ ALL) as [[w W]|D].
      + exists (DLEnd w). eexists _, _. apply step_of_case; [unfold ended; rewrite M; auto|]. econstructor; eauto.
      + exists DLExit. eexists _, _. apply step_of_case; [unfold ended; rewrite M; auto|]. econstructor; eauto.
  Qed.

  (** ** At the start *)
  Lemma filters_init n js f0 fs0 : filters_inv f0 (ds0 n js f0 fs0) [].
  Proof.
    exists [], []. cbn. rewrite app_nil_r. repeat split; auto. induction n; cbn in *; auto.
  Qed.
  Lemma queue_init n js f0 fs0 : queue_inv n (ds0 n js f0 fs0).
  Proof.
    split; [apply repeat_length|]. split; [|discriminate]. intros I. apply repeat_spec in I. discriminate.
  Qed.
  Lemma jobs_init n js f0 fs0 : jobs_inv js (ds0 n js f0 fs0) [].
  Proof.
    exists [], []. cbn. assert (flat_map early (repeat (@WWait J) n) = [] /\ flat_map late (repeat (@WWait J) n) = []) as [-> ->].
    { induction n as [|n [I1 I2]]; cbn; auto. }
    cbn. rewrite app_nil_r. auto.
  Qed.
  Lemma jobs_all_init n js f0 fs0 : jobs_all js (ds0 n js f0 fs0) [].
  Proof.
    exists []. cbn. assert (flat_map early (repeat (@WWait J) n) = [] /\ flat_map late (repeat (@WWait J) n) = []) as [-> ->].
    { induction n as [|n [I1 I2]]; cbn; auto. }
    cbn. rewrite app_nil_r. auto.
  Qed.
  Lemma files_init n js f0 fs0 : apart jfile js fs0 -> files_inv js fs0 (ds0 n js f0 fs0).
  Proof.
    intros [ND A]. exists []. split; [discriminate|]. split; [|].
    - unfold ds0. cbn. induction n; cbn; auto. constructor; auto. exact I.
    - unfold items, left_over. cbn. assert (flat_map item (repeat (@WWait J) n) = []) as -> by (induction n; cbn; auto).
      rewrite app_nil_r. split; [|split; auto].
      + rewrite map_map. cbn. rewrite map_id. auto.
      + rewrite Forall_forall in *. intros x I. apply in_map_iff in I as (j & <- & I). apply A. auto.
  Qed.
End Runs.
