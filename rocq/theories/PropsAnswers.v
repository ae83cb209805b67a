(** Property C60 without limits on the subscriptions: which answers the factory
    gives. *)
From Verif Require Import GoBase BinUtil MFilter MEngine MTdtCore MSubs MList MPatricia MSplay MSlice MLegacy MGenerator MFactory MSystem TestVectors.
From Verif Require Import PBase Spec SpecLegacy SpecFactory PSubs PSubs2 PList PFilter PExamples PSplay PSplayHist PSplayExact PAgree PMatch PFactory PFactory2 SpecSystem PSystem PropsEngine PropsSplay PropsLegacy PropsFactory.
From Coq Require Import Permutation Lia.

(** What the engine [e] made from [sub] answers by itself, outside of any factory,
    to the tag [t]: the text engine in some order of its map, the splay tree after
    it was asked for the identifiers [ids]. *)
Definition own_answer (E : env) (e : ename) (sub : subscriptions) (ids : list (list N)) (t : tag) (a : search_result) : Prop :=
  match e with
  | ELegacy => exists m, Permutation (sub_clone sub) m /\ legacy_search m (fst t) (snd t) = Ok a
  | EList => list_search (new_list E sub) (fst t) (snd t) = Ok a
  | EPatricia => exists p, new_patricia E sub = Some p /\ patricia_search p (fst t) (snd t) = Ok a
  | ESplay => exists s s', splay_run E sub (map SSearch ids) = Ok s /\ splay_search s (fst t) (snd t) = Ok (a, s')
  end.
Definition own_engine (E : env) (e : ename) (sub : subscriptions) (ids : list (list N)) (eng : engine) : Prop :=
  match e with
  | ELegacy => eng = EngLegacy (sub_clone sub)
  | EList => eng = EngList (new_list E sub)
  | EPatricia => exists p, eng = EngPatricia p /\ new_patricia E sub = Some p
  | ESplay => exists s, eng = EngSplay s /\ splay_run E sub (map SSearch ids) = Ok s
  end.
Lemma own_build E e sub eng : build_engine E e sub = Ok eng -> own_engine E e sub [] eng.
Proof.
  destruct e; cbn [build_engine own_engine]; intros B.
  - injection B as <-. auto.
  - injection B as <-. auto.
  - destruct (new_patricia E sub) as [p|]; [|discriminate]. injection B as <-. eauto.
  - destruct (new_splay E sub) as [s| |] eqn:N; cbn [bind] in B; try discriminate. injection B as <-. exists s. split; auto.
Qed.
Lemma own_search E e sub ids x eng t a f eng' : own_engine E e sub ids eng -> engine_search x eng t = Ok (a, f, eng') ->
  own_engine E e sub (ids ++ [snd t]) eng' /\ own_answer E e sub ids t a.
Proof.
  intros O H. destruct e; cbn [own_engine own_answer] in *.
  - subst eng. unfold engine_search in H. destruct (legacy_search _ _ _) as [r| |] eqn:L; cbn [bind] in H; try discriminate. injection H as <- <- <-.
    split; auto. exists (reorder x (sub_clone sub)). split; auto using reorder_perm.
  - subst eng. unfold engine_search in H. destruct (list_search _ _ _) as [r| |] eqn:L; cbn [bind] in H; try discriminate. injection H as <- <- <-. auto.
  - destruct O as (p & -> & N). unfold engine_search in H. destruct (patricia_search _ _ _) as [r| |] eqn:L; cbn [bind] in H; try discriminate. injection H as <- <- <-. eauto 10.
  - destruct O as (s & -> & N). unfold engine_search in H. destruct (splay_search s (fst t) (snd t)) as [[r s1]| |] eqn:SS; cbn [bind] in H; try discriminate. injection H as <- <- <-.
    split; [|exists s, s1; auto]. exists s1. split; auto. rewrite map_app. unfold splay_run in *. rewrite fold_left_app, N. cbn [map fold_left]. unfold splay_call. unfold splay_search in SS.
    cbn [bind]. destruct (splay_step s (snd t)) as [[us s2]| |]; [|discriminate|discriminate]. cbn [bind] in *.
    destruct (finish_search (fst t) (snd t) us); [|discriminate|discriminate]. injection SS as _ ->. auto.
Qed.

(** Whatever the subscriptions and the tags: every answer the factory gives, in any
    interleaving, is the one the answering engine gives by itself, made from
    subscriptions it was started with and after searches for tags the factory was
    asked for. *)
Theorem C60_own_answer : forall E ls s o, system_run E system0 ls = Ok (s, o) ->
  forall e t a, In (OAnswer e t a) o ->
  exists sub ids, In (LInit e sub) ls /\ (forall i, In i ids -> exists pc order, In (LSearch (pc, i) order) ls) /\
    (exists order, In (LSearch t order) ls) /\ own_answer E e sub ids t a.
Proof.
  intros E ls s o R e t a I.
  pose (S := fun e sub => In (LInit (Tag := tag) (Orc := list nat) e sub) ls).
  pose (T := fun t : tag => exists order, In (LSearch (Sub := subscriptions) (Orc := list nat) t order) ls).
  pose (asked := fun ids : list (list N) => forall i, In i ids -> exists pc order, In (LSearch (Sub := subscriptions) (Orc := list nat) (pc, i) order) ls).
  pose (P := fun e eng => exists sub ids, S e sub /\ asked ids /\ own_engine E e sub ids eng).
  pose (A := fun e t a => exists sub ids, S e sub /\ asked ids /\ own_answer E e sub ids t a).
  assert (good S T P A s o) as G.
  { apply (kept_run (build_engine E) engine_search queue_size S T P A) with (ls := ls); auto.
    - intros e' sub eng HS B. exists sub, []. split; auto. split; [intros i []|]. apply own_build; auto.
    - intros e' x eng t' a' f eng' (sub & ids & HS & HA & HO) (order & HT) B. destruct (own_search _ _ _ _ _ _ _ _ _ _ HO B) as [O1 O2].
      split; [|exists sub, ids; auto]. exists sub, (ids ++ [snd t']). split; auto. split; auto.
      intros i J. apply in_app_iff in J. destruct J as [J|[<-|[]]]; auto. destruct t' as [pc i]. exists pc, order. exact HT.
    - apply Forall_forall. intros l J. destruct l; cbn [good_label]; auto. exists order. auto. }
  destruct (gd_answers _ _ _ _ _ _ G e t a I) as (HT & sub & ids & H1 & H2 & H3). exists sub, ids. auto.
Qed.
Print Assumptions C60_own_answer.

(** The list answers as the subscriptions call for, whatever they are. *)
Theorem C60_list_answers : forall E ls s o t a, system_run E system0 ls = Ok (s, o) -> In (OAnswer EList t a) o ->
  exists sub, In (LInit EList sub) ls /\ let b := to_byte_subs E sub in
  (Forall is_bitstring (mkeys b) -> wf_bytes (snd t) -> decides (snd t) (mkeys b) ->
   exists uris, reported (snd t) (entries b) uris /\ answers (translate (fst t) (snd t)) uris (Ok a)).
Proof.
  intros E ls s o t a R I. destruct (C60_own_answer E ls s o R EList t a I) as (sub & ids & H1 & _ & _ & H). cbn [own_answer] in H.
  exists sub. split; auto. intros b HB W D. destruct (C07_list_search E sub [] (fst t) (snd t)) as (us & RE & AN); cbn [list_run fold_left] in *.
  - rewrite C07_list_fresh, entries_keys. auto.
  - auto.
  - rewrite C07_list_fresh, entries_keys. auto.
  - rewrite C07_list_fresh in RE. rewrite H in AN. eauto.
Qed.
Print Assumptions C60_list_answers.
(** The trie leaves out exactly the subscription at the longest common prefix. *)
Theorem C60_patricia_answers : forall E ls s o t a, system_run E system0 ls = Ok (s, o) -> In (OAnswer EPatricia t a) o ->
  exists sub, In (LInit EPatricia sub) ls /\ let b := to_byte_subs E sub in
  (Forall is_bitstring (mkeys b) -> (forall k u, In (k, u) (entries b) -> u <> []) -> wf_bytes (snd t) -> snd t <> [] -> decides (snd t) (mkeys b) ->
   exists subs uris, (forall k u, In (k, u) subs <-> In (k, u) (entries b) /\ ~ longest_common_prefix k (mkeys b)) /\
     reported (snd t) subs uris /\ answers (translate (fst t) (snd t)) uris (Ok a)).
Proof.
  intros E ls s o t a R I. destruct (C60_own_answer E ls s o R EPatricia t a I) as (sub & ids & H1 & _ & _ & p & N & H).
  exists sub. split; auto. intros b HB HU W NE D. destruct (C09_patricia_exact E sub (fst t) (snd t) HB HU W NE D) as (p' & subs & us & N' & _ & HS & RE & AN).
  rewrite N in N'. injection N' as <-. rewrite H in AN. eauto.
Qed.
Print Assumptions C60_patricia_answers.
(** The splay tree answers as the subscriptions call for when each prefix is
    extended along one chain only. *)
Theorem C60_splay_answers : forall E ls s o t a, system_run E system0 ls = Ok (s, o) -> In (OAnswer ESplay t a) o ->
  exists sub, In (LInit ESplay sub) ls /\ let b := to_byte_subs E sub in
  (b <> [] -> Forall is_bitstring (mkeys b) -> (forall k, In k (mkeys b) -> one_chain_above (mkeys b) k) ->
   (forall pc i order, In (LSearch (pc, i) order) ls -> wf_bytes i /\ decides i (mkeys b)) ->
   exists uris, reported (snd t) (entries b) uris /\ answers (translate (fst t) (snd t)) uris (Ok a)).
Proof.
  intros E ls s o t a R I. destruct (C60_own_answer E ls s o R ESplay t a I) as (sub & ids & H1 & H2 & (order & H3) & r & r' & N & H).
  exists sub. split; auto. intros b HN HB HC HT.
  destruct (C13_splay_search_history_partial E sub ids (fst t) (snd t) HN HB HC) as (t0 & t1 & us & _ & N' & RE & AN & _).
  - intros i [<-|J].
    + destruct t as [pc i]. exact (HT pc i order H3).
    + destruct (H2 i J) as (pc & order' & K). exact (HT pc i order' K).
  - rewrite N in N'. injection N' as <-. rewrite H in AN. eauto.
Qed.
Print Assumptions C60_splay_answers.

(** A single subscription, outside the limits of C60_answers_partial: the list
    answers with it, the trie without it. *)
Example C60_own_case :
  let r1 := system_run E0 system0 (boot EList ex_single ++ announce EList ++ [LStart] ++ find ++ [LRead; LWrite; LReport 1]) in
  In (OAnswer EList ex_tag (ex_uri, [str "http://a"], false)) (seen_of r1) /\ r1 = Ok (state_of r1, seen_of r1) /\
  own_answer E0 EList ex_single [] ex_tag (ex_uri, [str "http://a"], false) /\
  own_answer E0 EPatricia ex_single [] ex_tag ([], [], true).
Proof.
  cbv zeta. split; [vm_compute; intuition|]. split; [vm_compute; reflexivity|]. split; [vm_compute; reflexivity|].
  eexists. split; vm_compute; reflexivity.
Qed.

(** *** The exact limits *)
(** A factory in which [e] alone was built, with [eng] in its generator, ready to
    search. *)
Definition phase (e : ename) (eng : engine) (x : searcher) (s : @sys subscriptions engine tag search_result) : Prop :=
  y_cur s = Some e /\ y_main s = true /\ y_search s = x /\ g_engine (y_gen s e) = Some eng /\
  c_mon (y_cnt s e) = MoWait /\ forall e', e' <> e -> g_fsm (y_gen s e') = Unavailable.
Definition alone (e : ename) (eng : engine) := phase e eng SIdle.
Lemma alone_boot E e sub eng : build_engine E e sub = Ok eng ->
  exists s o, system_run E system0 (boot e sub ++ announce e ++ [LStart]) = Ok (s, o) /\ alone e eng s.
Proof.
  intros B. destruct e; (eexists _, _; split;
    [cbn -[build_engine queue_size]; rewrite B; cbn -[build_engine queue_size]; reflexivity|]);
    (repeat split; intros []; try congruence; reflexivity).
Qed.
Section Phases.
  Context (E : env) (e : ename).
  Notation step := (step (build_engine E) engine_search queue_size).
  Lemma phase_search eng s t : phase e eng SIdle s -> exists s', step s (LSearch t ex_order) = Ok (s', []) /\ phase e eng (SLoop t ex_order) s'.
  Proof.
    intros (H1 & H2 & H3 & H4 & H5 & H6). eexists. split; [cbn [MFactory.step]; rewrite H3, H2; reflexivity|].
    repeat (split; [assumption || reflexivity|]). exact H6.
  Qed.
  Lemma phase_visit eng s t e' rest : phase e eng (SLoop t (e' :: rest)) s -> exists s', step s LVisit = Ok (s', []) /\ phase e eng (SLoop t rest) s'.
  Proof.
    intros (H1 & H2 & H3 & H4 & H5 & H6). eexists. split; [cbn [MFactory.step]; rewrite H3, H1; reflexivity|].
    split; [exact H1|]. split; [exact H2|]. split; [|repeat (split; [assumption|]); exact H6]. cbn [set_search y_search].
    destruct (ename_eqb e e') eqn:Q; [reflexivity|]. rewrite H6; [reflexivity|]. intros ->. destruct e; discriminate Q.
  Qed.
  Lemma phase_last eng s t : phase e eng (SLoop t []) s -> exists s', step s LVisit = Ok (s', []) /\ phase e eng (SRun t e None) s'.
  Proof.
    intros (H1 & H2 & H3 & H4 & H5 & H6). eexists. split; [cbn [MFactory.step]; rewrite H3, H1; reflexivity|].
    repeat (split; [assumption || reflexivity|]). exact H6.
  Qed.
  Lemma phase_run eng s t a (f : bool) eng' : phase e eng (SRun t e None) s -> engine_search [] eng t = Ok (a, f, eng') ->
    exists s' o, step s (LRun []) = Ok (s', o) /\ phase e eng' (if f then SRead a t e None else SReport a t e None) s'.
  Proof.
    intros (H1 & H2 & H3 & H4 & H5 & H6) B. eexists _, _. split; [cbn [MFactory.step]; rewrite H3, H4, B; cbn [bind]; reflexivity|].
    split; [exact H1|]. split; [exact H2|]. split; [reflexivity|]. split; [cbn; unfold upd; replace (ename_eqb e e) with true by (destruct e; reflexivity); reflexivity|].
    split; [exact H5|]. intros e' N. cbn. unfold upd. destruct (ename_eqb e' e) eqn:Q; [destruct N; destruct e', e; auto; discriminate|]. auto.
  Qed.
  Lemma phase_read eng s t a : phase e eng (SRead a t e None) s -> exists s' m, step s LRead = Ok (s', []) /\ phase e eng (SWrite a t e None m) s'.
  Proof.
    intros (H1 & H2 & H3 & H4 & H5 & H6). eexists _, _. split; [cbn [MFactory.step]; rewrite H3; reflexivity|].
    repeat (split; [assumption || reflexivity|]). exact H6.
  Qed.
  Lemma phase_write eng s t a m : phase e eng (SWrite a t e None m) s -> exists s', step s LWrite = Ok (s', []) /\ phase e eng (SReport a t e None) s'.
  Proof.
    intros (H1 & H2 & H3 & H4 & H5 & H6). eexists. split; [cbn [MFactory.step]; rewrite H3; reflexivity|].
    repeat (split; [assumption || reflexivity|]). split; [|exact H6]. cbn. unfold upd. replace (ename_eqb e e) with true by (destruct e; reflexivity). exact H5.
  Qed.
  Lemma phase_report eng s t a : phase e eng (SReport a t e None) s ->
    exists s' o, step s (LReport 1) = Ok (s', o) /\ In (OAnswer e t a) o /\ phase e eng SIdle s'.
  Proof.
    intros (H1 & H2 & H3 & H4 & H5 & H6). eexists _, _. split; [cbn [MFactory.step]; rewrite H3, H5; cbn [goes_on]; reflexivity|].
    split; [right; left; reflexivity|].
    repeat (split; [assumption || reflexivity|]). split; [|exact H6]. cbn. unfold upd. replace (ename_eqb e e) with true by (destruct e; reflexivity). reflexivity.
  Qed.
End Phases.
Lemma run_then E (s s1 s2 : @sys subscriptions engine tag search_result) l ls o1 o2 :
  step (build_engine E) engine_search queue_size s l = Ok (s1, o1) -> system_run E s1 ls = Ok (s2, o2) -> system_run E s (l :: ls) = Ok (s2, o1 ++ o2).
Proof. intros H1 H2. unfold system_run in *. cbn [run]. rewrite H1. cbn [bind]. rewrite H2. reflexivity. Qed.
(** A search by the only engine, to its end. *)
Definition searching (t : tag) (found : bool) : list (@label subscriptions tag (list nat)) :=
  LSearch t ex_order :: LVisit :: LVisit :: LVisit :: LVisit :: LVisit :: LRun [] :: (if found then [LRead; LWrite; LReport 1] else [LReport 1]).
Lemma alone_search E e eng s t a f eng' : alone e eng s -> engine_search [] eng t = Ok (a, f, eng') ->
  exists s' o, system_run E s (searching t f) = Ok (s', o) /\ In (OAnswer e t a) o /\ alone e eng' s'.
Proof.
  intros A B. destruct (phase_search E e eng s t A) as (s1 & T1 & A1).
  destruct (phase_visit E e _ _ _ _ _ A1) as (s2 & T2 & A2). destruct (phase_visit E e _ _ _ _ _ A2) as (s3 & T3 & A3).
  destruct (phase_visit E e _ _ _ _ _ A3) as (s4 & T4 & A4). destruct (phase_visit E e _ _ _ _ _ A4) as (s5 & T5 & A5).
  destruct (phase_last E e _ _ _ A5) as (s6 & T6 & A6). destruct (phase_run E e _ _ _ _ _ _ A6 B) as (s7 & o7 & T7 & A7).
  assert (exists s' o, system_run E s7 (if f then [LRead; LWrite; LReport 1] else [LReport 1]) = Ok (s', o) /\ In (OAnswer e t a) o /\ alone e eng' s') as (s' & o & R & I & Z).
  { destruct f.
    - destruct (phase_read E e _ _ _ _ A7) as (s8 & m & T8 & A8). destruct (phase_write E e _ _ _ _ _ A8) as (s9 & T9 & A9).
      destruct (phase_report E e _ _ _ _ A9) as (s10 & o10 & T10 & I10 & A10). exists s10, (o10 ++ []). split; [|split; [apply in_app_iff; auto|exact A10]].
      apply (run_then E _ _ _ _ _ [] _ T8), (run_then E _ _ _ _ _ [] _ T9), (run_then E _ _ _ _ _ _ _ T10). reflexivity.
    - destruct (phase_report E e _ _ _ _ A7) as (s10 & o10 & T10 & I10 & A10). exists s10, (o10 ++ []). split; [|split; [apply in_app_iff; auto|exact A10]].
      apply (run_then E _ _ _ _ _ _ _ T10). reflexivity. }
  exists s', (o7 ++ o). split; [|split; [apply in_app_iff; auto|exact Z]]. unfold searching.
  apply (run_then E _ _ _ _ _ [] _ T1), (run_then E _ _ _ _ _ [] _ T2), (run_then E _ _ _ _ _ [] _ T3), (run_then E _ _ _ _ _ [] _ T4), (run_then E _ _ _ _ _ [] _ T5),
    (run_then E _ _ _ _ _ [] _ T6), (run_then E _ _ _ _ _ _ _ T7). exact R.
Qed.
Lemma ran_then E s ls1 ls2 s1 o1 s2 o2 : system_run E s ls1 = Ok (s1, o1) -> system_run E s1 ls2 = Ok (s2, o2) -> system_run E s (ls1 ++ ls2) = Ok (s2, o1 ++ o2).
Proof.
  unfold system_run. revert s s1 o1. induction ls1 as [|l ls1 IH]; intros s s1 o1 R1 R2; cbn [run app] in *.
  - injection R1 as <- <-. exact R2.
  - destruct (step _ _ _ s l) as [[s' o']| |]; cbn [bind] in *; try discriminate.
    destruct (run _ _ _ s' ls1) as [[s'' o'']| |] eqn:R; cbn [bind] in *; try discriminate. injection R1 as <- <-.
    rewrite (IH _ _ _ R R2). cbn [bind]. rewrite app_assoc. reflexivity.
Qed.
Lemma searching_in t f l : In l (searching t f) -> (forall e sub, l <> LInit e sub) /\ (forall t' order, l = LSearch t' order -> t' = t).
Proof. destruct f; cbn; intros H; repeat (destruct H as [<-|H]; [split; congruence|]); destruct H. Qed.

(** For subscriptions of different URIs that share no prefix: every answer of a
    byte engine, in every interleaving, reports each subscription the tag calls for
    once, in order, exactly when the common prefix of all is not subscribed and
    the extensions of each subscribed prefix form a chain. *)
Theorem C60_exactly_partial : forall E sub, let b := to_byte_subs E sub in
  NoDup (map fst sub) -> unshared E sub -> b <> [] -> Forall is_bitstring (mkeys b) -> (forall k u, In (k, u) (entries b) -> u <> []) ->
  ((forall k, In k (mkeys b) -> ~ longest_common_prefix k (mkeys b)) /\
   (forall k, In k (mkeys b) -> one_chain_above (mkeys b) k)) <->
  (forall ls s o, fit_run E sub ls -> system_run E system0 ls = Ok (s, o) ->
   forall e t a, In (OAnswer e t a) o -> e <> ELegacy ->
   exists uris, reported (snd t) (entries b) uris /\ answers (translate (fst t) (snd t)) uris (Ok a)).
Proof.
  intros E sub b ND US Hn HB HU. split.
  - intros [HL HC] ls s o FR R e t a I NL. assert (fit E sub) as F by (constructor; auto).
    destruct (fit_answers E sub ls s o F FR R e t a I) as ((W & NE & D & T) & A).
    assert (list_search (new_list E sub) (fst t) (snd t) = Ok a) as A' by (destruct e; auto; congruence). clear A.
    destruct (C07_list_search E sub [] (fst t) (snd t)) as (us & RE & AN); cbn [list_run fold_left] in *.
    + rewrite C07_list_fresh, entries_keys. auto.
    + auto.
    + rewrite C07_list_fresh, entries_keys. auto.
    + rewrite C07_list_fresh in RE. rewrite A' in AN. eauto.
  - intros H.
    assert (forall e eng id, wf_bytes id -> id <> [] -> decides id (mkeys b) -> build_engine E e sub = Ok eng -> fit_run E sub (boot e sub ++ announce e ++ [LStart])) as FB.
    { intros e eng id W NE D B. split.
      - intros e' sub' I. cbn in I. repeat (destruct I as [I|I]; [try discriminate I; injection I as _ <-; reflexivity|]). destruct I.
      - intros t order I. cbn in I. repeat (destruct I as [I|I]; [discriminate I|]). destruct I. }
    assert (forall ls t f, fit_run E sub ls -> fit_tag E sub t -> fit_run E sub (ls ++ searching t f)) as FS.
    { intros ls t f [F1 F2] FT. split.
      - intros e sub' I. apply in_app_iff in I. destruct I as [I|I]; eauto. apply searching_in in I. destruct I as [I _]. destruct (I _ _ eq_refl).
      - intros t' order I. apply in_app_iff in I. destruct I as [I|I]; eauto. apply searching_in in I. destruct I as [_ I]. rewrite (I _ _ eq_refl). auto. }
    assert (forall id, wf_bytes id -> id <> [] -> decides id (mkeys b) -> fit_tag E sub ([], id)) as FT.
    { intros id W NE D. split; [exact W|]. split; [exact NE|]. split; [exact D|]. discriminate. }
    split.
    + intros k Hk L. destruct (patricia_loses E sub k HB HU Hk L) as (id & Hw & Hne & HD & HF).
      destruct (HF []) as (p & us & us' & Ep & R & A & Lt).
      assert (build_engine E EPatricia sub = Ok (EngPatricia p)) as B by (cbn; rewrite Ep; auto).
      destruct (alone_boot E EPatricia sub _ B) as (s1 & o1 & R1 & A1).
      assert (exists r, patricia_search p [] id = Ok r) as [r ER] by (destruct A as [[_ ->]|[_ ->]]; eauto).
      assert (exists f, engine_search [] (EngPatricia p) ([], id) = Ok (r, f, EngPatricia p)) as [f ES] by (unfold engine_search; cbn [fst snd]; rewrite ER; cbn [bind]; eauto).
      destruct (alone_search E EPatricia _ s1 ([], id) r f _ A1 ES) as (s2 & o2 & R2 & I2 & A2).
      pose proof (ran_then E _ _ _ _ _ _ _ R1 R2) as R3.
      destruct (H _ s2 (o1 ++ o2) (FS _ ([], id) f (FB EPatricia _ id Hw Hne HD B) (FT id Hw Hne HD)) R3 EPatricia ([], id) r) as (ul & Rl & Al); [apply in_app_iff; auto|discriminate|].
      cbn [fst snd] in *. rewrite ER in A. rewrite (reported_fun _ _ _ _ Rl R) in Al. rewrite (answers_fun _ _ _ _ A Al) in Lt; [lia|discriminate].
    + destruct (splay_loses E sub Hn HB) as [HO|(id & t1 & Hw & Hne & HD & Et & HF)]; auto. exfalso.
      destruct (HF []) as (us & us' & R & A & Lt).
      unfold splay_run in Et. cbn [fold_left] in Et. unfold splay_call in Et. destruct (new_splay E sub) as [t0| |] eqn:Es; cbn [bind] in Et; try discriminate.
      destruct (splay_step t0 id) as [[us0 t0']| |] eqn:S0; cbn [bind] in Et; try discriminate. injection Et as ->.
      assert (build_engine E ESplay sub = Ok (EngSplay t0)) as B by (cbn; rewrite Es; auto).
      destruct (alone_boot E ESplay sub _ B) as (s1 & o1 & R1 & A1).
      assert (exists r, finish_search [] id us0 = Ok r) as [r0 ER0] by (unfold finish_search; destruct us0; cbn; eauto).
      assert (exists f, engine_search [] (EngSplay t0) ([], id) = Ok (r0, f, EngSplay t1)) as [f0 ES0].
      { unfold engine_search, splay_search. cbn [fst snd]. rewrite S0. cbn [bind]. rewrite ER0. cbn [bind]. eauto. }
      destruct (alone_search E ESplay _ s1 ([], id) r0 f0 _ A1 ES0) as (s2 & o2 & R2 & _ & A2).
      pose proof (ran_then E _ _ _ _ _ _ _ R1 R2) as R3.
      assert (exists r t2, splay_search t1 [] id = Ok (r, t2)) as (r & t2 & ER).
      { destruct (splay_search t1 [] id) as [[r t2]| |]; [eauto| |]; destruct A as [[_ X]|[_ X]]; discriminate X. }
      assert (exists f, engine_search [] (EngSplay t1) ([], id) = Ok (r, f, EngSplay t2)) as [f ES].
      { unfold engine_search. cbn [fst snd]. rewrite ER. cbn [bind]. eauto. }
      destruct (alone_search E ESplay _ s2 ([], id) r f _ A2 ES) as (s3 & o3 & R4 & I4 & _).
      pose proof (ran_then E _ _ _ _ _ _ _ R3 R4) as R5.
      destruct (H _ s3 _ (FS _ ([], id) f (FS _ ([], id) f0 (FB ESplay _ id Hw Hne HD B) (FT id Hw Hne HD)) (FT id Hw Hne HD)) R5 ESplay ([], id) r) as (ul & Rl & Al); [apply in_app_iff; auto|discriminate|].
      cbn [fst snd] in *. rewrite ER in A. cbn [drop_tree bind] in A. rewrite (reported_fun _ _ _ _ Rl R) in Al.
      rewrite (answers_fun _ _ _ _ A Al) in Lt; [lia|discriminate].
Qed.
Print Assumptions C60_exactly_partial.
(** Subscriptions inside the limits, and a single subscription, outside them. *)
Example C60_exactly_case : fit E0 ex_chain /\
  (NoDup (map fst ex_single) /\ unshared E0 ex_single /\ to_byte_subs E0 ex_single <> [] /\ Forall is_bitstring (mkeys (to_byte_subs E0 ex_single)) /\
   (forall k u, In (k, u) (entries (to_byte_subs E0 ex_single)) -> u <> []) /\
   exists k, In k (mkeys (to_byte_subs E0 ex_single)) /\ longest_common_prefix k (mkeys (to_byte_subs E0 ex_single))).
Proof.
  split; [exact ex_chain_fit|]. split; [repeat constructor; intros []|]. split; [apply unshared_b; vm_compute; reflexivity|].
  split; [vm_compute; discriminate|]. split; [apply bitstrings_b; vm_compute; reflexivity|]. split; [apply nonempty_snd_b; vm_compute; reflexivity|].
  eexists. split; [vm_compute; left; reflexivity|]. split.
  - intros x [<-|[]]. exists []. vm_compute. reflexivity.
  - intros q Hq. apply Hq. vm_compute. auto.
Qed.
