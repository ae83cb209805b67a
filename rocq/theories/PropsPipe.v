(** Property C98: the receive loop and the goroutine that searches. *)
From Verif Require Import GoBase MTdtCore MSubs MList MMain MPipe SpecMain PBase PMain.
From Coq Require Import Lia.

(** * Specification *)
(** The replies due to messages, and the batches of read events in them. *)
Definition reply (id : N) (m : llrp_message) : list action :=
  if (lm_header m =? h_event)%N then [WriteConfig id]
  else if (lm_header m =? h_alive)%N then [WriteAck id] else [].
Definition replies (id : N) (ms : list llrp_message) : list action := flat_map (reply id) ms.
Definition reports_in {Ev} (unmarshal : list N -> list Ev) (ms : list llrp_message) : list (list Ev) :=
  map unmarshal (map lm_value (filter (fun m => (lm_header m =? h_report)%N) ms)).
(** What ends the connection: it breaks off, or a message of an unknown kind comes. *)
Definition ends (rest : list N) : Prop :=
  incomplete rest \/ exists m r, wf_message m /\ ~ known m /\ rest = wire m ++ r.
(** In what was seen: the replies, the events searched for, the batches finished. *)
Definition wrote {Ev} (o : list (pseen Ev)) : list action := flat_map (fun x => match x with Wrote a => [a] | _ => [] end) o.
Definition looked_for {Ev} (o : list (pseen Ev)) : list Ev := flat_map (fun x => match x with SearchedFor e => [e] | _ => [] end) o.
Definition finished {Ev} (o : list (pseen Ev)) : nat := length (filter (fun x => match x with Finished => true | _ => false end) o).
Definition ended {Ev} (s : pipe Ev) : Prop := exists e, p_loop s = PDead e.

(** * Proofs *)
Section Pipe.
  Context {Ev : Type} (unmarshal : list N -> list Ev) (configured : N).
  Let id := current_message_id configured.
  Notation step := (pipe_step unmarshal configured).
  Notation run := (pipe_run unmarshal configured).
  Notation reports_in := (reports_in unmarshal).

  Lemma dispatch_cases m : known m ->
    (dispatch configured m = Some [Deliver (lm_value m)] /\ reports_in [m] = [unmarshal (lm_value m)] /\ replies id [m] = []) \/
    (exists acts, dispatch configured m = Some acts /\ (forall v, acts <> [Deliver v]) /\ reports_in [m] = [] /\ replies id [m] = acts).
  Proof using.
    unfold known, dispatch, PropsPipe.reports_in, replies, reply, id. cbn. intros K.
    destruct K as [K|[K|[K|[K|[]]]]]; rewrite <- K; cbn.
    - left. auto.
    - right. eexists. repeat split. intros v E. discriminate E.
    - right. eexists. repeat split. intros v E. discriminate E.
    - right. eexists. repeat split. intros v E. discriminate E.
  Qed.
  Lemma reports_app a b : reports_in (a ++ b) = reports_in a ++ reports_in b.
  Proof using. unfold PropsPipe.reports_in. rewrite filter_app, !map_app. reflexivity. Qed.
  Lemma replies_app i a b : replies i (a ++ b) = replies i a ++ replies i b.
  Proof using. unfold replies. apply flat_map_app. Qed.

  (** What the other goroutine has in work, and what the loop has in hand. *)
  Definition at_work (w : pwork Ev) (pre : list Ev) (b : list (list Ev)) : Prop :=
    match w with WWait => pre = [] /\ b = [] | WBusy r => b = [pre ++ r] end.
  Definition in_hand (l : ploop Ev) : list (list Ev) := match l with PHand b => [b] | _ => [] end.
  Definition steps_left (s : pipe Ev) (todo : list llrp_message) : nat :=
    match p_loop s with PDead _ => 0 | PRead => 1 | PHand b => 3 + length b end +
    match p_work s with WWait => 0 | WBusy r => 1 + length r end +
    length todo + 2 * length (reports_in todo) + length (concat (reports_in todo)).

  Record holds (ms : list llrp_message) (rest : list N) (s : pipe Ev) (o : list (pseen Ev)) (done todo : list llrp_message) (b0 : list (list Ev)) (b1 : list (list Ev)) (pre : list Ev) : Prop := {
    h_ms : ms = done ++ todo;
    h_conn : ended s \/ concat (p_conn s) = flat_map wire todo ++ rest;
    h_dead : ended s -> todo = [] /\ in_hand (p_loop s) = [];
    h_wrote : wrote o = replies id done;
    h_reports : reports_in done = b0 ++ b1 ++ in_hand (p_loop s);
    h_work : at_work (p_work s) pre b1;
    h_looked : looked_for o = concat b0 ++ pre;
    h_finished : finished o = length b0 }.

  Lemma seen_app (o o' : list (pseen Ev)) :
    wrote (o ++ o') = wrote o ++ wrote o' /\ looked_for (o ++ o') = looked_for o ++ looked_for o' /\ finished (o ++ o') = finished o + finished o'.
  Proof using.
    unfold wrote, looked_for, finished. rewrite !flat_map_app, filter_app, app_length. auto.
  Qed.
  Lemma seen_wrote acts : wrote (map (@Wrote Ev) acts) = acts /\ looked_for (map (@Wrote Ev) acts) = [] /\ finished (map (@Wrote Ev) acts) = 0.
  Proof using. unfold wrote, looked_for, finished. induction acts as [|a acts (A & B & C)]; cbn; [auto|]. rewrite A. auto. Qed.

  Context (ms : list llrp_message) (rest : list N).
  Context (W : Forall wf_message ms) (K : Forall known ms) (E : ends rest).

  Lemma step_holds s o done todo b0 b1 pre l s' o' : holds ms rest s o done todo b0 b1 pre -> step s l = Ok (s', o') ->
    exists done' todo' b0' b1' pre', holds ms rest s' (o ++ o') done' todo' b0' b1' pre' /\ S (steps_left s' todo') <= steps_left s todo.
  Proof using W K E.
    intros H S. destruct s as [cs lo wo]. destruct l; cbn in S.
    - destruct lo; try discriminate S. destruct H as [H1 H2 H3 H4 H5 H6 H7 H8]. cbn in *.
      destruct H2 as [[e H2]|H2]; [discriminate H2|].
      destruct todo as [|m todo].
      + cbn in H2. destruct E as [I|(m & r & Wm & Km & ->)].
        * rewrite (recv_short cs rest I H2) in S. injection S as <- <-.
          exists done, [], b0, b1, pre. split; [|cbn; lia]. rewrite app_nil_r. split; cbn; auto; left; eexists; reflexivity.
        * destruct (recv_wire cs m r Wm H2) as (cs' & R & C). rewrite R in S.
          assert (D : dispatch configured m = None).
          { destruct (dispatch configured m) eqn:D; [|reflexivity]. destruct Km. apply (dispatch_known configured). congruence. }
          rewrite D in S. injection S as <- <-.
          exists done, [], b0, b1, pre. split; [|cbn; lia]. rewrite app_nil_r. split; cbn; auto; left; eexists; reflexivity.
      + assert (Wm : wf_message m /\ known m).
        { rewrite H1 in W, K. apply Forall_app in W as [_ W']. apply Forall_app in K as [_ K']. inversion W'; inversion K'; auto. }
        destruct Wm as [Wm Km]. cbn in H2. rewrite <- app_assoc in H2.
        destruct (recv_wire cs m _ Wm H2) as (cs' & R & C). rewrite R in S.
        assert (Q : m :: todo = [m] ++ todo) by reflexivity.
        destruct (dispatch_cases m Km) as [(D & D1 & D2)|(acts & D & DN & D1 & D2)]; rewrite D in S.
        * injection S as <- <-. exists (done ++ [m]), todo, b0, b1, pre. split.
          -- rewrite app_nil_r. split; cbn; auto.
             ++ rewrite <- app_assoc. exact H1.
             ++ intros [e N]. discriminate N.
             ++ rewrite replies_app, D2, app_nil_r. exact H4.
             ++ rewrite reports_app, D1, H5, app_nil_r, <- app_assoc. reflexivity.
          -- unfold steps_left. cbn [p_loop p_work]. rewrite Q, !reports_app, D1. cbn. rewrite app_length. lia.
        * assert (S' : Ok ({| p_conn := cs'; p_loop := PRead; p_work := wo |}, map (@Wrote Ev) acts) = Ok (s', o')).
          { destruct acts as [|[i|i|v] [|a2 acts]]; try exact S. destruct (DN v eq_refl). }
          injection S' as <- <-. exists (done ++ [m]), todo, b0, b1, pre.
          destruct (seen_app o (map (@Wrote Ev) acts)) as (S1 & S2 & S3). destruct (seen_wrote acts) as (S4 & S5 & S6). split.
          -- split; cbn; auto.
             ++ rewrite <- app_assoc. exact H1.
             ++ intros [e N]. discriminate N.
             ++ rewrite S1, S4, replies_app, D2, H4. reflexivity.
             ++ rewrite reports_app, D1, H5, !app_nil_r. reflexivity.
             ++ rewrite S2, S5, app_nil_r. exact H7.
             ++ rewrite S3, S6, H8. lia.
          -- unfold steps_left. cbn [p_loop p_work]. rewrite Q, !reports_app, D1. cbn. lia.
    - destruct lo as [|b|e]; try discriminate S. destruct wo as [|r]; try discriminate S. injection S as <- <-.
      destruct H as [H1 H2 H3 H4 H5 H6 H7 H8]. cbn in *. destruct H6 as [-> ->].
      destruct H2 as [[e H2]|H2]; [discriminate H2|].
      exists done, todo, b0, [b], []. destruct (seen_app o [Took b]) as (S1 & S2 & S3). split; [|cbn; lia].
      split; cbn; auto.
      + intros [e N]. discriminate N.
      + rewrite S1. cbn. rewrite app_nil_r. exact H4.
      + rewrite S2. cbn. rewrite app_nil_r. exact H7.
      + rewrite S3, H8. cbn. lia.
    - assert (ND : forall e, lo <> PDead e) by (intros e ->; discriminate S).
      destruct wo as [|[|x r]]; [destruct lo; discriminate S| |].
      + assert (S' : Ok ({| p_conn := cs; p_loop := lo; p_work := WWait |}, [@Finished Ev]) = Ok (s', o')) by (destruct lo; first [exact S|discriminate S]).
        injection S' as <- <-. destruct H as [H1 H2 H3 H4 H5 H6 H7 H8]. cbn in *.
        destruct (seen_app o [Finished]) as (S1 & S2 & S3).
        exists done, todo, (b0 ++ b1), [], []. split; [|unfold steps_left; cbn; lia].
        split; cbn; auto.
        * rewrite S1. cbn. rewrite app_nil_r. exact H4.
        * rewrite H5, <- app_assoc. reflexivity.
        * rewrite S2. cbn. rewrite H6, H7, concat_app. cbn. rewrite !app_nil_r. reflexivity.
        * rewrite S3, H8, app_length, H6. reflexivity.
      + assert (S' : Ok ({| p_conn := cs; p_loop := lo; p_work := WBusy r |}, [SearchedFor x]) = Ok (s', o')) by (destruct lo; first [exact S|discriminate S]).
        injection S' as <- <-. destruct H as [H1 H2 H3 H4 H5 H6 H7 H8]. cbn in *.
        destruct (seen_app o [SearchedFor x]) as (S1 & S2 & S3).
        exists done, todo, b0, b1, (pre ++ [x]). split; [|unfold steps_left; cbn; lia].
        split; cbn; auto.
        * rewrite S1. cbn. rewrite app_nil_r. exact H4.
        * rewrite <- app_assoc. exact H6.
        * rewrite S2, H7. cbn. rewrite app_assoc. reflexivity.
        * rewrite S3, H8. cbn. lia.
  Qed.

  Lemma run_holds_from ls : forall s o done todo b0 b1 pre s' o',
    holds ms rest s o done todo b0 b1 pre -> run s ls = Ok (s', o') ->
    exists done' todo' b0' b1' pre', holds ms rest s' (o ++ o') done' todo' b0' b1' pre' /\ length ls + steps_left s' todo' <= steps_left s todo.
  Proof using W K E.
    induction ls as [|l ls IH]; intros s o done todo b0 b1 pre s' o' H R; cbn in R.
    - injection R as <- <-. rewrite app_nil_r. do 5 eexists. split; [exact H|cbn; lia].
    - destruct (step s l) as [[s1 o1]| |] eqn:S1; cbn in R; try discriminate R.
      destruct (run s1 ls) as [[s2 o2]| |] eqn:R2; cbn in R; try discriminate R. injection R as <- <-.
      destruct (step_holds _ _ _ _ _ _ _ _ _ _ H S1) as (d1 & t1 & c0 & c1 & p1 & H1 & L1).
      destruct (IH _ _ _ _ _ _ _ _ _ H1 R2) as (d2 & t2 & e0 & e1 & p2 & H2 & L2).
      exists d2, t2, e0, e1, p2. rewrite app_assoc. split; [exact H2|cbn; lia].
  Qed.
  Lemma run_holds cs ls s o : concat cs = flat_map wire ms ++ rest -> run (pipe0 cs) ls = Ok (s, o) ->
    exists done todo b0 b1 pre, holds ms rest s o done todo b0 b1 pre /\
      length ls + steps_left s todo <= 1 + length ms + 2 * length (reports_in ms) + length (concat (reports_in ms)).
  Proof using W K E.
    intros C R.
    assert (H : holds ms rest (pipe0 cs) [] [] ms [] [] []).
    { split; cbn; auto. intros [e N]. discriminate N. }
    destruct (run_holds_from _ _ _ _ _ _ _ _ _ _ H R) as (d & t & b0 & b1 & p & H' & L).
    exists d, t, b0, b1, p. split; [exact H'|]. 
    assert (Q : steps_left (pipe0 cs) ms = 1 + length ms + 2 * length (reports_in ms) + length (concat (reports_in ms))) by reflexivity.
    lia.
  Qed.

  (** * Theorems *)
  (** At any moment the replies written are those due to the messages received so
      far, and the events searched for are the events of their reports, in order;
      those still missing are what is left of one report and one more report. *)
  Theorem C98_in_order : forall cs ls s o,
    concat cs = flat_map wire ms ++ rest -> run (pipe0 cs) ls = Ok (s, o) ->
    exists done todo whole pre left hand,
      ms = done ++ todo /\ wrote o = replies id done /\
      looked_for o = concat whole ++ pre /\ length whole = finished o /\
      (reports_in done = whole ++ hand /\ pre = [] /\ left = [] \/ reports_in done = whole ++ (pre ++ left) :: hand) /\
      length hand <= 1.
  Proof using W K E.
    intros cs ls s o C R. destruct (run_holds cs ls s o C R) as (d & t & b0 & b1 & pre & [H1 H2 H3 H4 H5 H6 H7 H8] & _).
    exists d, t, b0, pre, (match p_work s with WWait => [] | WBusy r => r end), (in_hand (p_loop s)).
    repeat (split; [auto; fail|]). split; [|destruct (p_loop s); cbn; lia].
    unfold at_work in H6. destruct (p_work s) as [|r].
    - destruct H6 as [-> ->]. left. auto.
    - rewrite H6 in H5. right. exact H5.
  Qed.
  (** When the program ends, every reply has been written, and of the events only
      some of the last report may be missing. *)
  Theorem C98_at_the_end_partial : forall cs ls s o,
    concat cs = flat_map wire ms ++ rest -> run (pipe0 cs) ls = Ok (s, o) -> ended s ->
    wrote o = replies id ms /\
    exists left, concat (reports_in ms) = looked_for o ++ left /\
      (left = [] \/ exists whole pre, reports_in ms = whole ++ [pre ++ left]).
  Proof using W K E.
    intros cs ls s o C R D. destruct (run_holds cs ls s o C R) as (d & t & b0 & b1 & pre & [H1 H2 H3 H4 H5 H6 H7 H8] & _).
    destruct (H3 D) as [-> H3']. rewrite app_nil_r in H1. subst d. split; [exact H4|].
    rewrite H3', app_nil_r in H5. rewrite H5, H7. unfold at_work in H6. destruct (p_work s) as [|r].
    - destruct H6 as [-> ->]. exists []. rewrite !app_nil_r. auto.
    - subst b1. exists r. split; [rewrite concat_app; cbn; rewrite app_nil_r, app_assoc; reflexivity|right; eauto].
  Qed.
  (** None is missing exactly when the last report had been searched for before the
      connection ended. *)
  Theorem C98_complete_partial : forall cs ls s o,
    concat cs = flat_map wire ms ++ rest -> run (pipe0 cs) ls = Ok (s, o) -> ended s ->
    looked_for o = concat (reports_in ms) <-> p_work s = WWait \/ p_work s = WBusy [].
  Proof using W K E.
    intros cs ls s o C R D. destruct (run_holds cs ls s o C R) as (d & t & b0 & b1 & pre & [H1 H2 H3 H4 H5 H6 H7 H8] & _).
    destruct (H3 D) as [-> H3']. rewrite app_nil_r in H1. subst d. rewrite H3', app_nil_r in H5. rewrite H5, H7.
    unfold at_work in H6. destruct (p_work s) as [|r].
    - destruct H6 as [-> ->]. rewrite !app_nil_r. tauto.
    - subst b1. rewrite concat_app. cbn. rewrite app_nil_r. split.
      + intros Q. apply app_inv_head in Q. right. f_equal.
        assert (L : length pre = length (pre ++ r)) by congruence. rewrite app_length in L. destruct r; [reflexivity|cbn in L; lia].
      + intros [Q|Q]; [discriminate Q|]. injection Q as ->. rewrite app_nil_r. reflexivity.
  Qed.
  (** As long as the program runs, the loop reads on unless two reports more have
      come than have been worked off. *)
  Theorem C98_waits_partial : forall cs ls s o,
    concat cs = flat_map wire ms ++ rest -> run (pipe0 cs) ls = Ok (s, o) -> ~ ended s ->
    exists done todo, ms = done ++ todo /\ wrote o = replies id done /\
      length (reports_in done) <= finished o + 2 /\
      ((step s LoopGoes = Err /\ step s HandsOver = Err) <-> length (reports_in done) = finished o + 2).
  Proof using W K E.
    intros cs ls s o C R D. destruct (run_holds cs ls s o C R) as (d & t & b0 & b1 & pre & [H1 H2 H3 H4 H5 H6 H7 H8] & _).
    exists d, t. split; [exact H1|]. split; [exact H4|]. rewrite H5, H8, !app_length.
    assert (B : length b1 = match p_work s with WWait => 0 | WBusy _ => 1 end).
    { unfold at_work in H6. destruct (p_work s); [destruct H6 as [_ ->]|rewrite H6]; reflexivity. }
    rewrite B. destruct s as [cn lo wo]. cbn in *. destruct lo as [|b|e]; cbn.
    - split; [destruct wo; lia|]. split; [|destruct wo; lia]. intros [Q _]. exfalso.
      destruct (recv_message cn) as [[m c']|]; [|discriminate Q]. destruct (dispatch configured m) as [[|[i|i|v] [|? ?]]|]; discriminate Q.
    - destruct wo as [|r].
      + split; [lia|]. split; [intros [_ Q]; discriminate Q|lia].
      + split; [lia|]. split; [intros _; lia|auto].
    - destruct D. exists e. reflexivity.
  Qed.
  (** The goroutines never block each other for good, and they come to an end. *)
  Theorem C98_goes_on : forall cs ls s o,
    concat cs = flat_map wire ms ++ rest -> run (pipe0 cs) ls = Ok (s, o) ->
    length ls <= 1 + length ms + 2 * length (reports_in ms) + length (concat (reports_in ms)) /\
    (ended s \/ exists l s' o', step s l = Ok (s', o')).
  Proof using W K E.
    intros cs ls s o C R. destruct (run_holds cs ls s o C R) as (d & t & b0 & b1 & pre & _ & L).
    split; [lia|]. destruct s as [cn lo wo]. destruct lo as [|b|e].
    - right. exists LoopGoes. cbn. destruct (recv_message cn) as [[m c']|]; [|eauto].
      destruct (dispatch configured m) as [[|[i|i|v] [|? ?]]|]; eauto.
    - right. destruct wo as [|[|x r]]; [exists HandsOver|exists WorkGoes|exists WorkGoes]; cbn; eauto.
    - left. exists e. reflexivity.
  Qed.
End Pipe.
Print Assumptions C98_in_order.
Print Assumptions C98_at_the_end_partial.
Print Assumptions C98_complete_partial.
Print Assumptions C98_waits_partial.
Print Assumptions C98_goes_on.

(** ** Cases *)
Definition ex_report (v : list N) : llrp_message := {| lm_header := ro_access_report; lm_id := 7; lm_value := v |}.
Definition ex_alive_msg : llrp_message := {| lm_header := keepalive; lm_id := 8; lm_value := [] |}.
(** A report of two tags, then the end of the connection: nothing is searched for. *)
Theorem C98_refuted : exists (ms : list llrp_message) cs ls s o,
  Forall wf_message ms /\ Forall known ms /\ ends [] /\ concat cs = flat_map wire ms ++ [] /\
  pipe_run (fun v => v) 1000 (pipe0 cs) ls = Ok (s, o) /\ ended s /\
  reports_in (fun v => v) ms = [[1; 2]%N] /\ looked_for o = [].
Proof.
  exists [ex_report [1; 2]%N], [flat_map wire [ex_report [1; 2]%N]], [LoopGoes; HandsOver; LoopGoes].
  eexists. eexists. split; [repeat constructor|]. split; [repeat constructor|].
  split; [left; exists ex_alive_msg, (wire ex_alive_msg); split; [repeat constructor|]; split; [discriminate|reflexivity]|].
  split; [reflexivity|]. split; [vm_compute; reflexivity|]. split; [eexists; reflexivity|]. split; reflexivity.
Qed.
Print Assumptions C98_refuted.
(** Two reports and a keepalive: with the first report still to be searched for, the
    keepalive is not even read. *)
Definition ex_two : list llrp_message := [ex_report [1; 2]%N; ex_report [3]%N; ex_alive_msg].
Theorem C98_waits_refuted : exists (ms : list llrp_message) cs ls s o,
  Forall wf_message ms /\ Forall known ms /\ ends [] /\ concat cs = flat_map wire ms ++ [] /\ In ex_alive_msg ms /\
  pipe_run (fun v => v) 1000 (pipe0 cs) ls = Ok (s, o) /\ wrote o = [] /\ ~ ended s /\
  forall ls' s' o', pipe_run (fun v => v) 1000 s ls' = Ok (s', o') -> ls' <> [] -> exists r, o' = SearchedFor 1%N :: r.
Proof.
  exists ex_two, [flat_map wire ex_two], [LoopGoes; HandsOver; LoopGoes].
  eexists. eexists. split; [repeat constructor|]. split; [apply Forall_forall; intros m M; unfold known; cbn in M; repeat destruct M as [<-|M]; cbn; auto; destruct M|].
  split; [left; exists ex_alive_msg, (wire ex_alive_msg); split; [repeat constructor|]; split; [discriminate|reflexivity]|].
  split; [reflexivity|]. split; [cbn; auto|]. split; [vm_compute; reflexivity|]. split; [reflexivity|].
  split; [intros [e Q]; discriminate Q|].
  intros ls' s' o' R N. destruct ls' as [|l ls']; [destruct (N eq_refl)|]. destruct l; cbn in R; try discriminate R.
  destruct (pipe_run _ _ _ ls') as [[s2 o2]| |]; cbn in R; try discriminate R. injection R as <- <-. eauto.
Qed.
Print Assumptions C98_waits_refuted.
Example C98_case : exists s o,
  pipe_run (fun v => v) 1000 (pipe0 [flat_map wire ex_two])
    [LoopGoes; HandsOver; WorkGoes; LoopGoes; WorkGoes; WorkGoes; HandsOver; LoopGoes; WorkGoes; LoopGoes] = Ok (s, o) /\
  ended s /\ looked_for o = [1; 2; 3]%N /\ finished o = 1 /\ p_work s = WBusy [] /\ wrote o = [WriteAck 0] /\
  concat [flat_map wire ex_two] = flat_map wire ex_two ++ [].
Proof.
  eexists. eexists. split; [vm_compute; reflexivity|]. split; [eexists; reflexivity|]. repeat split; reflexivity.
Qed.
Example C98_waits_case : exists s o,
  pipe_run (fun v => v) 1000 (pipe0 [flat_map wire ex_two]) [LoopGoes; HandsOver; LoopGoes] = Ok (s, o) /\ ~ ended s /\
  finished o = 0 /\ length (reports_in (fun v => v) (firstn 2 ex_two)) = 2.
Proof.
  eexists. eexists. split; [vm_compute; reflexivity|]. split; [intros [e Q]; discriminate Q|]. split; reflexivity.
Qed.
