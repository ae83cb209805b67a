(** Properties C55, C56, C68 and C69: the LLRP connection and the reports. *)
From Verif Require Import GoBase BinUtil MFilter MEngine MTdtCore MSubs MList MGenerator MFactory MSystem MMain TestVectors.
From Verif Require Import PBase Spec SpecEpc SpecFactory SpecSystem SpecMain PEpc PEpc4 PFactory PMain PMain2 PropsEngine PropsSplay PropsTdt PropsEpc PropsFactory.
From Coq Require Import Lia Permutation ZifyN.

(** Reading guide: [llrp_run id cs = (l, e)]: with the initial message id [id]
    configured and the bytes [concat cs] arriving on the connection in the pieces
    [cs], the receive loop handles the messages [map fst l], does about each what
    [l] pairs it with, and ends as [e] says. *)

(** ** C55 *)
(** Messages, one after the other, then perhaps the beginning of one more: exactly
    those messages are handled, in whatever pieces the bytes arrive. *)
Theorem C55_framing : forall id cs ms tail, Forall wf_message ms -> Forall known ms -> incomplete tail ->
  concat cs = flat_map wire ms ++ tail -> map fst (fst (llrp_run id cs)) = ms /\ snd (llrp_run id cs) = Disconnected.
Proof.
  intros id cs ms tail W K T. revert cs. induction W as [|m ms W WS IH]; intros cs E; inversion K as [|x y KM KS]; subst.
  - cbn in E. unfold llrp_run. cbn [llrp_loop]. rewrite (recv_short _ _ T E). auto.
  - cbn [flat_map] in E. rewrite <- app_assoc in E. rewrite (run_wire id cs m _ W E). apply (dispatch_known id) in KM.
    destruct (dispatch id m) as [acts|]; [|congruence]. destruct (IH KS [flat_map wire ms ++ tail]) as [IH1 IH2]; [cbn; apply app_nil_r|].
    destruct (llrp_run id [flat_map wire ms ++ tail]) as [r e]. cbn [fst snd map] in *. subst. auto.
Qed.
Print Assumptions C55_framing.
(** The pieces do not matter for any stream. *)
Theorem C55_pieces : forall id cs cs', concat cs = concat cs' -> llrp_run id cs = llrp_run id cs'.
Proof. intros id cs cs' E. unfold llrp_run. rewrite E. apply loop_chunks. auto. Qed.
Print Assumptions C55_pieces.
(** Nothing is read across a message boundary: the messages handled are, one after
    the other, what the stream begins with.  For any stream under 4 GiB. *)
Theorem C55_sound : forall id cs, wf_bytes (concat cs) -> (N.of_nat (length (concat cs)) < 2 ^ 32)%N ->
  exists rest, concat cs = flat_map wire (map fst (fst (llrp_run id cs))) ++ rest /\
    Forall wf_message (map fst (fst (llrp_run id cs))) /\ Forall known (map fst (fst (llrp_run id cs))).
Proof.
  intros id cs. unfold llrp_run. generalize (S (length (concat cs))). intros fuel. revert cs.
  induction fuel as [|fuel IH]; intros cs W L; [exists (concat cs); cbn; auto|]. cbn [llrp_loop].
  destruct (recv_message cs) as [[m r]|] eqn:R; [|exists (concat cs); cbn; auto].
  destruct (recv_sound _ _ _ W L R) as (WM & E). rewrite E in *. apply Forall_app in W. destruct W as [_ W]. rewrite app_length in L.
  destruct (dispatch id m) as [acts|] eqn:D; [|exists (wire m ++ concat r); cbn; auto].
  destruct (IH r W ltac:(lia)) as (rest & I1 & I2 & I3). destruct (llrp_loop id fuel r) as [l e]. cbn [fst map flat_map] in *.
  exists rest. split; [rewrite <- app_assoc; f_equal; auto|]. split; constructor; auto. apply (dispatch_known id). congruence.
Qed.
Print Assumptions C55_sound.
(** A message with another header ends the program, after those before it. *)
Theorem C55_unknown_header : forall id cs ms m rest, Forall wf_message ms -> Forall known ms -> wf_message m -> ~ known m ->
  concat cs = flat_map wire ms ++ wire m ++ rest -> map fst (fst (llrp_run id cs)) = ms /\ snd (llrp_run id cs) = UnknownHeader (lm_header m).
Proof.
  intros id cs ms m rest W K WM NK. revert cs. induction W as [|x ms W WS IH]; intros cs E; inversion K as [|y z KM KS]; subst.
  - cbn in E. rewrite (run_wire id cs m _ WM E). destruct (dispatch id m) eqn:D; [|auto]. destruct NK. apply (dispatch_known id). congruence.
  - cbn [flat_map] in E. rewrite <- app_assoc in E. rewrite (run_wire id cs x _ W E). apply (dispatch_known id) in KM.
    destruct (dispatch id x) as [acts|]; [|congruence]. destruct (IH KS [flat_map wire ms ++ wire m ++ rest]) as [IH1 IH2]; [cbn; apply app_nil_r|].
    destruct (llrp_run id [flat_map wire ms ++ wire m ++ rest]) as [r e]. cbn [fst snd map] in *. subst. auto.
Qed.
Print Assumptions C55_unknown_header.
(** What is not an LLRP message: a length below that of the header itself is taken
    for almost 4 GiB, and everything that follows is swallowed. *)
Theorem C55_short_length : forall id cs h n i rest, (h < 2 ^ 16)%N -> (n < 10)%N -> (i < 2 ^ 32)%N ->
  (N.of_nat (length rest) < 2 ^ 32 - 10)%N ->
  concat cs = bytes_be 2 h ++ bytes_be 4 n ++ bytes_be 4 i ++ rest -> llrp_run id cs = ([], Disconnected).
Proof.
  intros id cs h n i rest H N I L E. unfold llrp_run. cbn [llrp_loop].
  enough (recv_message cs = None) as -> by auto. unfold recv_message.
  destruct (read_full_some 2 _ _ _ E) as (c1 & -> & E1); [rewrite bytes_be_length; auto|].
  destruct (read_full_some 4 _ _ _ E1) as (c2 & -> & E2); [rewrite bytes_be_length; auto|].
  destruct (read_full_some 4 _ _ _ E2) as (c3 & -> & E3); [rewrite bytes_be_length; auto|].
  rewrite big_endian_bytes by (change (256 ^ N.of_nat 4)%N with (2 ^ 32)%N; lia). rewrite N.mod_small by lia.
  destruct (N.eqb_spec (n + 2 ^ 32 - 10) 0); [lia|]. rewrite read_full_none; auto. rewrite E3. lia.
Qed.
Print Assumptions C55_short_length.
(** A reader event, a report with three bytes, a keepalive; byte by byte, with the
    beginning of another message. *)
Definition ex_msgs : list llrp_message :=
  [{| lm_header := reader_event; lm_id := 1; lm_value := [0; 246]%N |};
   {| lm_header := ro_access_report; lm_id := 70000; lm_value := [1; 2; 3]%N |};
   {| lm_header := keepalive; lm_id := 3; lm_value := [] |}].
Definition ex_stream : list (list N) := map (fun b => [b]) (flat_map wire ex_msgs ++ [4; 62; 0]%N).
Example C55_case : Forall wf_message ex_msgs /\ Forall known ex_msgs /\ incomplete [4; 62; 0]%N /\ length ex_stream = 38 /\
  concat ex_stream = flat_map wire ex_msgs ++ [4; 62; 0]%N /\
  flat_map snd (fst (llrp_run 1000 ex_stream)) = [WriteConfig 0; Deliver [1; 2; 3]; WriteAck 0]%N.
Proof.
  split; [repeat constructor|]. split; [unfold ex_msgs; repeat apply Forall_cons; try apply Forall_nil; unfold known; cbn; auto 6|]. split.
  - exists {| lm_header := keepalive; lm_id := 3; lm_value := [] |}. eexists. split; [repeat constructor|]. split; [|vm_compute; reflexivity]. discriminate.
  - split; [reflexivity|]. split; vm_compute; reflexivity.
Qed.

(** ** C68 *)
(** Each reader event is answered by one configuration request, each keepalive by
    one acknowledgement, each report is passed on, in order, and nothing else is
    written; all with the same message id. *)
Theorem C68_replies_partial : forall id cs ms tail, Forall wf_message ms -> Forall known ms -> incomplete tail ->
  concat cs = flat_map wire ms ++ tail -> Forall2 (expected (current_message_id id)) ms (map snd (fst (llrp_run id cs))).
Proof.
  intros id cs ms tail W K T. revert cs. induction W as [|m ms W WS IH]; intros cs E; inversion K as [|x y KM KS]; subst.
  - cbn in E. unfold llrp_run. cbn [llrp_loop]. rewrite (recv_short _ _ T E). constructor.
  - cbn [flat_map] in E. rewrite <- app_assoc in E. rewrite (run_wire id cs m _ W E). apply (dispatch_known id) in KM.
    destruct (dispatch id m) as [acts|] eqn:D; [|congruence]. specialize (IH KS [flat_map wire ms ++ tail] (app_nil_r _)).
    destruct (llrp_run id [flat_map wire ms ++ tail]) as [r e]. constructor; auto. apply dispatch_expected; auto.
Qed.
Print Assumptions C68_replies_partial.
(** For any stream, even if it ends in an unknown header. *)
Theorem C68_only_replies : forall id cs, Forall (fun x => expected (current_message_id id) (fst x) (snd x)) (fst (llrp_run id cs)).
Proof.
  intros id cs. unfold llrp_run. generalize (S (length (concat cs))). intros fuel. revert cs.
  induction fuel as [|fuel IH]; intros cs; [constructor|]. cbn [llrp_loop]. destruct (recv_message cs) as [[m r]|]; [|constructor].
  destruct (dispatch id m) as [acts|] eqn:D; [|constructor]. specialize (IH r). destruct (llrp_loop id fuel r). constructor; auto. apply dispatch_expected; auto.
Qed.
Print Assumptions C68_only_replies.
(** The message id is not the configured one. *)
Theorem C68_refuted : exists cs, flat_map wire ex_msgs = concat cs /\ ~ Forall2 (expected 1000) ex_msgs (map snd (fst (llrp_run 1000 cs))).
Proof.
  exists [flat_map wire ex_msgs]. split; [cbn; rewrite ?app_nil_r; reflexivity|]. vm_compute (map snd _). intros F.
  inversion F as [|a b c d H]. inversion H.
Qed.
Print Assumptions C68_refuted.
(** The boundary: everything is as claimed if and only if the configured id is zero or
    no message calls for a reply.  Whatever is configured, replies carry the id zero. *)
Theorem C68_exactly_partial : forall id cs ms tail, Forall wf_message ms -> Forall known ms -> incomplete tail ->
  concat cs = flat_map wire ms ++ tail ->
  Forall2 (expected 0) ms (map snd (fst (llrp_run id cs))) /\
  (Forall2 (expected id) ms (map snd (fst (llrp_run id cs))) <->
   id = 0%N \/ Forall (fun m => lm_header m <> h_event /\ lm_header m <> h_alive) ms).
Proof.
  intros id cs ms tail W K T E. pose proof (C68_replies_partial id cs ms tail W K T E) as F. change (current_message_id id) with 0%N in F. split; auto.
  clear W K T E. generalize dependent (map snd (fst (llrp_run id cs))). intros l F. split.
  - intros G. destruct (N.eq_dec id 0) as [->|NZ]; auto. right.
    revert G. induction F as [|m a ms l X F IH]; intros G; [constructor|]. inversion G as [|? ? ? ? Y G']; subst. constructor; auto.
    split; intros H; inversion X as [m' Z|m' Z|m' Z|m' Z]; subst; try (rewrite H in Z; discriminate Z); inversion Y; congruence.
  - intros [->|N]; auto. clear - F N. induction F as [|m a ms l X F IH]; [constructor|]. inversion N as [|? ? [N1 N2] N']; subst. constructor; auto.
    inversion X as [m' Z|m' Z|m' Z|m' Z]; subst; try contradiction; constructor; auto.
Qed.
Print Assumptions C68_exactly_partial.
Example C68_case : Forall2 (expected 0) ex_msgs (map snd (fst (llrp_run 1000 ex_stream))) /\
  map snd (fst (llrp_run 1000 ex_stream)) = [[WriteConfig 0]; [Deliver [1; 2; 3]]; [WriteAck 0]]%N.
Proof.
  destruct C55_case as (W & K & T & _ & E & _). split; [|vm_compute; reflexivity]. exact (proj1 (C68_exactly_partial 1000 _ _ _ W K T E)).
Qed.

(** ** C56 *)
(** The report of a destination: nothing, or what each answer contributes, in
    order: its pure identity, as often as it names the destination. *)
Theorem C56_exact : forall answers d, lookup (batch_reports answers) d =
  match flat_map (fun a : search_result => if snd a then [] else repeat (pure_of a) (count_occ (list_eq_dec ascii_dec) (snd (fst a)) d)) answers with
  | [] => None | l => Some l end.
Proof.
  intros answers d. pose proof (entry_answers answers [] d) as E. pose proof (lookup_answers answers [] d ltac:(discriminate)) as NE.
  unfold batch_reports. assert (flat_map (contribution d) answers = flat_map (fun a : search_result => if snd a then [] else repeat (pure_of a) (count_occ (list_eq_dec ascii_dec) (snd (fst a)) d)) answers) as EQ.
  { clear. induction answers as [|[[p us] []] l IH]; cbn [flat_map]; auto; rewrite IH; auto. }
  rewrite <- EQ. unfold entry at 2 in E. cbn [lookup app] in E. unfold entry in E. destruct (lookup _ d) as [l|].
  - subst l. destruct (flat_map (contribution d) answers); congruence.
  - rewrite <- E. auto.
Qed.
Print Assumptions C56_exact.
(** Where no answer names a destination twice: the pure identities of the answers
    that name it, in order. *)
Theorem C56_report_partial : forall (answers : list search_result) d, (forall a, In a answers -> count_occ (list_eq_dec ascii_dec) (snd (fst a)) d <= 1) ->
  lookup (batch_reports answers) d = match map pure_of (filter (reported_to d) answers) with [] => None | l => Some l end.
Proof.
  intros answers d H. rewrite C56_exact.
  enough (flat_map (fun a : search_result => if snd a then [] else repeat (pure_of a) (count_occ (list_eq_dec ascii_dec) (snd (fst a)) d)) answers = map pure_of (filter (reported_to d) answers)) as -> by auto.
  induction answers as [|[[p us] failed] l IH]; auto. cbn [flat_map filter reported_to]. rewrite IH by (intros; apply H; right; auto).
  specialize (H (p, us, failed) (or_introl eq_refl)). cbn [fst snd] in *. destruct failed; auto. cbn [negb andb].
  destruct (existsb (seqb d) us) eqn:X.
  - apply existsb_exists in X. destruct X as (u & I & S). apply seqb_spec in S. subst u. apply (count_occ_In (list_eq_dec ascii_dec)) in I.
    replace (count_occ (list_eq_dec ascii_dec) us d) with 1 by lia. reflexivity.
  - assert (~ In d us) as NI. { intros I. assert (existsb (seqb d) us = true); [|congruence]. apply existsb_exists. exists d. split; auto. apply seqb_refl. }
    apply (count_occ_not_In (list_eq_dec ascii_dec)) in NI. rewrite NI. auto.
Qed.
Print Assumptions C56_report_partial.
Definition ex_answers : list search_result :=
  [(str "urn:1", [str "http://a"; str "http://b"], false); ([], [], true); (str "urn:2", [str "http://b"], false); ([], [str "http://a"], true)].
Example C56_case : (forall a d, In a ex_answers -> count_occ (list_eq_dec ascii_dec) (snd (fst a)) d <= 1) /\
  batch_reports ex_answers = [(str "http://a", [str "urn:1"]); (str "http://b", [str "urn:1"; str "urn:2"])].
Proof.
  split; [|vm_compute; reflexivity]. intros a d I.
  assert (NoDup (snd (fst a))) as ND; [|apply (NoDup_count_occ (list_eq_dec ascii_dec)); auto].
  cbn in I. repeat (destruct I as [<-|I]; [cbn [fst snd]; repeat apply NoDup_cons; try apply NoDup_nil; intros J; cbn in J; repeat (destruct J as [J|J]; [discriminate J|]); destruct J|]). destruct I.
Qed.
(** A subscriber with two patterns, one covering the other, is told twice of the
    same event. *)
Definition ex_nested : subscriptions := [(str "http://a", [str "urn:epc:pat:sgtin-96:3.12345678"; str "urn:epc:pat:sgtin-96:3"])].
Theorem C56_refuted : exists a, list_search (new_list E0 ex_nested) pcgs1 ex_id = Ok a /\
  lookup (batch_reports [a]) (str "http://a") = Some [ex_uri; ex_uri].
Proof. eexists. split; vm_compute; reflexivity. Qed.
Print Assumptions C56_refuted.

(** ** C69 *)
(** Searches are answered in the order in which they are asked, each once; the
    last may still be under way. *)
Theorem C69_answers_in_order : forall {Sub Eng Tag Orc Ans} (build : ename -> Sub -> result Eng) (esearch : Orc -> Eng -> Tag -> result (Ans * bool * Eng)) cap ls s o,
  run build esearch cap sys0 ls = Ok (s, o) ->
  searched ls = map (fun a => snd (fst a)) (answered o) ++ match tag_of s with Some t => [t] | None => [] end.
Proof. intros. apply (asked_run build esearch cap ls sys0). auto. Qed.
Print Assumptions C69_answers_in_order.

(** From the wire to the reports.  [unmarshal] is the library's decoder of reports;
    the messages on the wire carry batches of encoded tags; the factory, in some
    interleaving, answers main's searches for them, none of the answers being the
    text engine's.  Then the report of every destination, for every batch, is the
    one due: the URNs of the tags selected by one of its patterns, in order. *)
Definition batches (unmarshal : list N -> list tag) (l : list (llrp_message * list action)) : list (list tag) :=
  flat_map (fun x => flat_map (fun a => match a with Deliver v => [unmarshal v] | _ => [] end) (snd x)) l.
Lemma concat_cut {A B} (g : A -> B) (bs : list (list B)) (l : list A) : map g l = concat bs -> exists ls, concat ls = l /\ map (map g) ls = bs.
Proof.
  revert l. induction bs as [|b bs IH]; intros l E; [exists []; destruct l; [auto|discriminate]|].
  cbn [concat] in E. apply map_eq_app in E. destruct E as (l1 & l2 & -> & E1 & E2). destruct (IH l2 E2) as (ls & C & M). exists (l1 :: ls). cbn. rewrite C, M, E1. auto.
Qed.
Theorem C69_wire_to_reports_partial : forall E s id unmarshal cs ms tail data (ls : list (@label subscriptions tag (list nat))) st o,
  (* the connection *)
  Forall wf_message ms -> Forall known ms -> incomplete tail -> concat cs = flat_map wire ms ++ tail ->
  (* the tags in the reports *)
  Forall2 (Forall2 (fun kf t => epc_tag (fst kf) (snd kf) t)) data
    (map unmarshal (map lm_value (filter (fun m => (lm_header m =? h_report)%N) ms))) ->
  (* the factory *)
  epc_fit s -> (forall e sub, In (LInit e sub) ls -> Permutation (sub_texts s) sub) ->
  searched ls = concat (batches unmarshal (fst (llrp_run id cs))) ->
  system_run E system0 ls = Ok (st, o) -> tag_of st = None -> (forall t a, ~ In (OAnswer ELegacy t a) o) ->
  exists answers, concat answers = map snd (answered o) /\
    Forall2 (fun kfs a => forall d, one_each s d -> exists r, due s d kfs r /\ lookup (batch_reports a) d = match r with [] => None | _ => Some r end) data answers.
Proof.
  intros E s id unmarshal cs ms tail data ls st o W K T EC HD F HI HS R TS NL.
  assert (batches unmarshal (fst (llrp_run id cs)) = map unmarshal (map lm_value (filter (fun m => (lm_header m =? h_report)%N) ms))) as HB.
  { pose proof (C55_framing id cs ms tail W K T EC) as [FR _]. pose proof (C68_replies_partial id cs ms tail W K T EC) as RP.
    clear - FR RP. subst ms. induction (fst (llrp_run id cs)) as [|[m acts] l IH]; auto. cbn [map fst snd] in *. inversion RP as [|a b c d X Y]; subst.
    unfold batches. cbn [flat_map filter]. fold (batches unmarshal l). rewrite (IH Y). cbn [snd]. inversion X as [? HX|? HX|? HX|? HX]; subst; rewrite HX; reflexivity. }
  assert (forall t order, In (LSearch t order) ls -> exists k f, epc_tag k f t) as HT.
  { intros t order I. assert (In t (searched ls)) as J by (apply in_flat_map; eexists; split; [exact I|left; auto]).
    rewrite HS, HB in J. apply in_concat in J. destruct J as (b & J1 & J2). clear - HD J1 J2.
    induction HD as [|x y l l' H HD IH]; [destruct J1|]. destruct J1 as [<-|J1]; [|auto]. clear IH HD.
    induction H as [|[k f] t' x y H HH IH]; [destruct J2|]. destruct J2 as [<-|J2]; [|auto]. exists k, f. exact H. }
  pose proof (C69_answers_in_order (build_engine E) engine_search queue_size ls st o R) as AO. rewrite TS, app_nil_r, HS, HB in AO.
  destruct (concat_cut (fun a : ename * tag * search_result => snd (fst a)) _ _ (eq_sym AO)) as (bs & C & M).
  exists (map (map snd) bs). split; [rewrite <- C; symmetry; apply concat_map|].
  destruct (C61_end_to_end_partial E s ls F HI HT) as [_ END]. specialize (END st o R).
  assert (forall b x, In b bs -> In x b -> forall k f, epc_tag k f (snd (fst x)) ->
    list_search (new_list E (sub_texts s)) (fst (snd (fst x))) (snd (snd (fst x))) = Ok (snd x)) as ANS.
  { intros b [[e t] a] Ib Ix k f ET. cbn [fst snd] in *. assert (In (OAnswer e t a) o) as IO.
    { assert (In (e, t, a) (answered o)) as J by (rewrite <- C; apply in_concat; eauto). unfold answered in J. apply in_flat_map in J. destruct J as (z & Iz & J).
      destruct z; cbn in J; try contradiction. destruct J as [J|[]]. injection J as -> -> ->. auto. }
    assert (e <> ELegacy) as NE by (intros ->; eapply NL; eauto).
    assert (fit_run E (sub_texts s) ls) as FR.
    { split; auto. intros t' order I'. destruct (HT t' order I') as (k' & f' & ET'). eapply PSystem2.epc_tag_fit; eauto. apply F. }
    destruct (fit_answers E _ ls st o (PSystem2.epc_fit_fit E s F) FR R e t a IO) as (_ & A). destruct e; auto; congruence. }
  rewrite <- M in HD. clear - HD F ANS. revert data HD. induction bs as [|b bs IH]; intros data HD; inversion HD as [|x y l l' HX HD']; subst; constructor.
  - intros d ONE. assert (forall x, In x b -> forall k f, epc_tag k f (snd (fst x)) ->
      list_search (new_list E (sub_texts s)) (fst (snd (fst x))) (snd (snd (fst x))) = Ok (snd x)) as A by (intros; eapply ANS; [left|..]; eauto).
    assert ((forall a, In a (map snd b) -> count_occ (list_eq_dec ascii_dec) (snd (fst a)) d <= 1) /\ due s d x (map pure_of (filter (reported_to d) (map snd b)))) as [H1 H2].
    { clear - HX A F ONE. revert x HX. induction b as [|[[e t] a] b IH]; intros x HX; inversion HX as [|[k f] t' x' y' H HX']; subst; [split; [intros ? []|constructor]|].
      destruct (IH ltac:(intros; eapply A; eauto; right; auto) x' HX') as [I1 I2]. cbn [fst snd map] in *.
      pose proof (A _ (or_introl eq_refl) k f H) as AN. cbn [fst snd] in AN. destruct (answer_counts E s k f t F H) as (uris & U1 & U2 & U3).
      rewrite U3 in AN. injection AN as AN. subst a. specialize (U2 d ONE). unfold count in U2. split.
      - intros a [<-|I]; auto. destruct uris; cbn [fst snd]; auto.
      - cbn [filter map]. destruct uris as [|u us].
        + cbn [reported_to negb andb]. apply due_no; auto. intros p SP LD. apply (proj2 (U1 d)). eauto.
        + cbn [reported_to negb andb]. destruct (existsb (seqb d) (u :: us)) eqn:X.
          * apply existsb_exists in X. destruct X as (v & I & Q). apply seqb_spec in Q. subst v. apply due_yes; auto. apply U1; auto.
          * apply due_no; auto. intros p SP LD. assert (In d (u :: us)) as I by (apply U1; eauto). assert (existsb (seqb d) (u :: us) = true); [|congruence].
            apply existsb_exists. exists d. split; auto. apply seqb_refl. }
    eexists. split; [exact H2|]. rewrite (C56_report_partial _ _ H1). destruct (map pure_of _); auto.
  - apply IH; auto. intros. eapply ANS; [right|..]; eauto.
Qed.
Print Assumptions C69_wire_to_reports_partial.
(** A report with a tag, a keepalive, an empty report. *)
Definition ex_id1 : list N := match encode Sgtin E0 ex_f1 with Ok (i, _, _) => i | _ => [] end.
Definition ex_unmarshal (v : list N) : list tag := match v with [] => [] | _ => [(pcgs1, v)] end.
Definition ex_wire : list llrp_message :=
  [{| lm_header := ro_access_report; lm_id := 1; lm_value := ex_id1 |}; {| lm_header := keepalive; lm_id := 2; lm_value := [] |};
   {| lm_header := ro_access_report; lm_id := 3; lm_value := [] |}].
Definition ex_main : list (@label subscriptions tag (list nat)) :=
  boot EPatricia (sub_texts ex_epc_subs) ++ announce EPatricia ++ [LStart; LSearch (pcgs1, ex_id1) ex_order; LVisit; LVisit; LVisit; LVisit; LVisit; LRun []; LRead; LWrite; LReport 1].
Example C69_case : Forall wf_message ex_wire /\ Forall known ex_wire /\ incomplete [] /\
  Forall2 (Forall2 (fun kf t => epc_tag (fst kf) (snd kf) t)) [[(Sgtin, ex_f1)]; []]
    (map ex_unmarshal (map lm_value (filter (fun m => (lm_header m =? h_report)%N) ex_wire))) /\
  epc_fit ex_epc_subs /\ (forall e sub, In (LInit e sub) ex_main -> Permutation (sub_texts ex_epc_subs) sub) /\
  searched ex_main = concat (batches ex_unmarshal (fst (llrp_run 1000 (map wire ex_wire)))) /\
  (forall u p, subscribed ex_epc_subs u p -> one_each ex_epc_subs u) /\
  exists st o, system_run E0 system0 ex_main = Ok (st, o) /\ tag_of st = None /\ (forall t a, ~ In (OAnswer ELegacy t a) o) /\
    batch_reports (map snd (answered o)) = [(str "http://a", [urn_of Sgtin ex_f1]); (str "http://c", [urn_of Sgtin ex_f1])].
Proof.
  split; [repeat constructor|]. split; [unfold ex_wire; repeat apply Forall_cons; try apply Forall_nil; unfold known; cbn; auto 6|].
  split; [exists {| lm_header := keepalive; lm_id := 3; lm_value := [] |}; eexists; split; [repeat constructor|]; split; [|reflexivity]; discriminate|].
  assert (encode Sgtin E0 ex_f1 = Ok (ex_id1, [], [])) as EN by (vm_compute; reflexivity).
  split.
  { change (Forall2 (Forall2 (fun kf t => epc_tag (fst kf) (snd kf) t)) [[(Sgtin, ex_f1)]; []] [[(pcgs1, ex_id1)]; []]). constructor; [|constructor; [constructor|constructor]].
    constructor; [|constructor]. split; [exists 48%N, 0%N; split; reflexivity|]. split; [apply C40_hypotheses|]. exists E0. exact EN. }
  split; [apply C61_case|]. split; [|split; [vm_compute; reflexivity|split]].
  - intros e sub I. unfold ex_main in I. cbn in I. repeat (destruct I as [I|I]; [try discriminate I; injection I as <- <-; reflexivity|]). destruct I.
  - intros u _ _ p q P Q C.
    assert (forall u p, subscribed ex_epc_subs u p -> In (u, p) (flat_map (fun e => map (pair (fst e)) (snd e)) ex_epc_subs)) as FL.
    { intros v r (ps & I & J). apply in_flat_map. exists (v, ps). split; auto. apply in_map; auto. }
    apply FL in P, Q. set (all := flat_map (fun e => map (pair (fst e)) (snd e)) ex_epc_subs) in *.
    assert (forallb (fun x => forallb (fun y => negb (seqb (fst x) (fst y)) || negb (covers_b (snd x) (snd y)) || covers_b (snd y) (snd x)) all) all = true) as A by (vm_compute; reflexivity).
    rewrite forallb_forall in A. specialize (A _ P). rewrite forallb_forall in A. specialize (A _ Q). cbn [fst snd] in A. rewrite seqb_refl in A.
    apply covers_b_ok in C. rewrite C in A. cbn in A. apply covers_b_ok. auto.
  - eexists _, _. split; [vm_compute; reflexivity|]. split; [reflexivity|]. split; [cbn; intuition discriminate|]. vm_compute. reflexivity.
Qed.
