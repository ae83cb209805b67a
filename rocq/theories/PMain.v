(** Lemmas on the receive loop and the reports. *)
From Verif Require Import GoBase MList MMain SpecMain PBase.
From Coq Require Import Lia ZifyBool ZifyNat ZifyN.

(** ** Reading *)
Lemma read_full_spec n cs :
  match read_full n cs with
  | Some (b, r) => concat cs = b ++ concat r /\ N.of_nat (length b) = n
  | None => (N.of_nat (length (concat cs)) < n)%N
  end.
Proof.
  revert n. induction cs as [|c cs IH]; intros n; cbn [read_full].
  - destruct (N.eqb_spec n 0); [cbn; auto|]. cbn. lia.
  - destruct (N.eqb_spec n 0); [cbn; auto|]. destruct (N.ltb_spec n (N.of_nat (length c))).
    + cbn [concat]. rewrite app_assoc, firstn_skipn. split; auto. rewrite firstn_length. lia.
    + specialize (IH (n - N.of_nat (length c))%N). destruct (read_full _ cs) as [[b r]|].
      * destruct IH as [IH1 IH2]. cbn [concat]. rewrite IH1, app_assoc, app_length. split; auto. lia.
      * cbn [concat]. rewrite app_length. lia.
Qed.
Lemma app_split {A} (a a' b b' : list A) : a ++ b = a' ++ b' -> length a = length a' -> a = a' /\ b = b'.
Proof.
  revert a'. induction a as [|x a IH]; intros [|y a'] H L; try discriminate; auto.
  cbn in H. injection H as -> H. injection L as L. destruct (IH a' H L) as [-> ->]. auto.
Qed.
Lemma read_full_some n cs b rest : concat cs = b ++ rest -> N.of_nat (length b) = n ->
  exists r, read_full n cs = Some (b, r) /\ concat r = rest.
Proof.
  intros E L. pose proof (read_full_spec n cs) as S. destruct (read_full n cs) as [[b' r]|].
  - destruct S as [S1 S2]. rewrite E in S1. destruct (app_split _ _ _ _ S1) as [-> ->]; [lia|]. eauto.
  - rewrite E, app_length in S. lia.
Qed.
Lemma read_full_none n cs : (N.of_nat (length (concat cs)) < n)%N -> read_full n cs = None.
Proof.
  intros L. pose proof (read_full_spec n cs) as S. destruct (read_full n cs) as [[b r]|]; auto. destruct S as [S1 S2].
  rewrite S1, app_length in L. lia.
Qed.

(** ** Big endian *)
Lemma big_endian_snoc l b : big_endian (l ++ [b]) = (big_endian l * 256 + b)%N.
Proof. unfold big_endian. rewrite fold_left_app. reflexivity. Qed.
Lemma bytes_be_snoc k n : bytes_be (S k) n = bytes_be k (n / 256) ++ [(n mod 256)%N].
Proof.
  induction k as [|k IH].
  - cbn. rewrite N.div_1_r. reflexivity.
  - change (bytes_be (S (S k)) n) with ((n / 256 ^ N.of_nat (S k) mod 256)%N :: bytes_be (S k) n). rewrite IH.
    cbn [bytes_be app]. f_equal. rewrite Nat2N.inj_succ, N.pow_succ_r', N.div_div by (try apply N.pow_nonzero; lia). reflexivity.
Qed.
Lemma big_endian_bytes k n : (n < 256 ^ N.of_nat k)%N -> big_endian (bytes_be k n) = n.
Proof.
  revert n. induction k as [|k IH]; intros n L; [change (256 ^ N.of_nat 0)%N with 1%N in L; cbn; lia|].
  rewrite bytes_be_snoc, big_endian_snoc, IH.
  - pose proof (N.div_mod n 256). lia.
  - rewrite Nat2N.inj_succ, N.pow_succ_r' in L. apply N.div_lt_upper_bound; lia.
Qed.
Lemma bytes_be_length k n : length (bytes_be k n) = k.
Proof. induction k; cbn; auto. Qed.
Lemma big_endian_bound l : wf_bytes l -> (big_endian l < 256 ^ N.of_nat (length l))%N.
Proof.
  induction l as [|b l IH] using rev_ind; intros W; [cbn; lia|]. apply Forall_app in W. destruct W as [W Wb]. inversion Wb; subst.
  rewrite big_endian_snoc, app_length. cbn [length]. rewrite Nat.add_1_r, Nat2N.inj_succ, N.pow_succ_r'. specialize (IH W). lia.
Qed.
Lemma bytes_big_endian l : wf_bytes l -> bytes_be (length l) (big_endian l) = l.
Proof.
  induction l as [|b l IH] using rev_ind; intros W; auto. apply Forall_app in W. destruct W as [W Wb]. inversion Wb; subst.
  rewrite app_length. cbn [length]. rewrite Nat.add_1_r, bytes_be_snoc, big_endian_snoc.
  rewrite N.div_add_l, N.div_small by lia. rewrite N.add_0_r, IH by auto. f_equal. f_equal.
  rewrite N.add_comm, N.mod_add by lia. apply N.mod_small. auto.
Qed.

(** ** One message *)
Lemma recv_chunks cs cs' : concat cs = concat cs' ->
  match recv_message cs, recv_message cs' with
  | Some (m, r), Some (m', r') => m = m' /\ concat r = concat r'
  | None, None => True
  | _, _ => False
  end.
Proof.
  intros E. unfold recv_message.
  assert (forall n cs cs', concat cs = concat cs' ->
    match read_full n cs with
    | Some (b, r) => exists r', read_full n cs' = Some (b, r') /\ concat r = concat r'
    | None => read_full n cs' = None
    end) as RF.
  { intros n c c' E'. pose proof (read_full_spec n c) as S. destruct (read_full n c) as [[b r]|].
    - destruct S as [S1 S2]. destruct (read_full_some n c' b (concat r)) as (r' & H1 & H2); [congruence|auto|]. eauto.
    - apply read_full_none. rewrite <- E'. auto. }
  pose proof (RF 2%N cs cs' E) as H. destruct (read_full 2 cs) as [[h c1]|]; [|rewrite H; auto]. destruct H as (c1' & -> & E1).
  pose proof (RF 4%N c1 c1' E1) as H. destruct (read_full 4 c1) as [[l c2]|]; [|rewrite H; auto]. destruct H as (c2' & -> & E2).
  pose proof (RF 4%N c2 c2' E2) as H. destruct (read_full 4 c2) as [[i c3]|]; [|rewrite H; auto]. destruct H as (c3' & -> & E3).
  set (size := ((big_endian l + 2 ^ 32 - 10) mod 2 ^ 32)%N). destruct (size =? 0)%N; auto.
  pose proof (RF size c3 c3' E3) as H. destruct (read_full size c3) as [[v c4]|]; [|rewrite H; auto]. destruct H as (c4' & -> & E4). auto.
Qed.
Lemma recv_wire cs m rest : wf_message m -> concat cs = wire m ++ rest -> exists r, recv_message cs = Some (m, r) /\ concat r = rest.
Proof.
  intros (W1 & W2 & W3) E. unfold wire in E. rewrite <- !app_assoc in E. unfold recv_message.
  destruct (read_full_some 2 _ _ _ E) as (c1 & -> & E1); [rewrite bytes_be_length; auto|].
  destruct (read_full_some 4 _ _ _ E1) as (c2 & -> & E2); [rewrite bytes_be_length; auto|].
  destruct (read_full_some 4 _ _ _ E2) as (c3 & -> & E3); [rewrite bytes_be_length; auto|].
  rewrite !big_endian_bytes by assumption.
  replace ((N.of_nat (length (lm_value m)) + 10 + 2 ^ 32 - 10) mod 2 ^ 32)%N with (N.of_nat (length (lm_value m))).
  - destruct (N.eqb_spec (N.of_nat (length (lm_value m))) 0) as [Z|NZ].
    + exists c3. destruct m as [h i [|v vs]]; [|cbn [lm_value length] in Z; lia]. auto.
    + destruct (read_full_some (N.of_nat (length (lm_value m))) _ _ _ E3 eq_refl) as (c4 & -> & E4). exists c4. destruct m; auto.
  - set (n := N.of_nat _) in *. replace (n + 10 + 2 ^ 32 - 10)%N with (n + 1 * 2 ^ 32)%N by lia. rewrite N.mod_add by discriminate. symmetry. apply N.mod_small. lia.
Qed.
Lemma recv_short cs tail : incomplete tail -> concat cs = tail -> recv_message cs = None.
Proof.
  intros (m & rest & W & NE & E) C. destruct (recv_message cs) as [[m' r]|] eqn:R; auto. exfalso.
  assert (concat (cs ++ [rest]) = wire m ++ []) as E' by (rewrite concat_app, C, E; cbn; rewrite !app_nil_r; auto).
  assert (forall n cs b r x, read_full n cs = Some (b, r) -> exists r', read_full n (cs ++ [x]) = Some (b, r') /\ concat r' = concat r ++ x) as RF.
  { intros n c b q x H. pose proof (read_full_spec n c) as S. rewrite H in S. destruct S as [S1 S2].
    apply (read_full_some n (c ++ [x]) b (concat q ++ x)); auto. rewrite concat_app, S1. cbn. rewrite app_nil_r, app_assoc. auto. }
  assert (forall cs m r x, recv_message cs = Some (m, r) -> exists r', recv_message (cs ++ [x]) = Some (m, r') /\ concat r' = concat r ++ x) as RM.
  { assert (forall n cs cs' b r x, concat cs' = concat cs ++ x -> read_full n cs = Some (b, r) -> exists r', read_full n cs' = Some (b, r') /\ concat r' = concat r ++ x) as RF'.
    { intros n c c' b q x Hc H. pose proof (read_full_spec n c) as S. rewrite H in S. destruct S as [S1 S2].
      apply read_full_some; auto. rewrite Hc, S1, app_assoc. auto. }
    clear - RF'. intros cs m r x H. unfold recv_message in *.
    destruct (read_full 2 cs) as [[h c1]|] eqn:H1; [|discriminate]. destruct (RF' _ _ (cs ++ [x]) _ _ x ltac:(rewrite concat_app; cbn; rewrite app_nil_r; auto) H1) as (c1' & -> & E1).
    destruct (read_full 4 c1) as [[l c2]|] eqn:H2; [|discriminate]. destruct (RF' _ _ c1' _ _ x E1 H2) as (c2' & -> & E2).
    destruct (read_full 4 c2) as [[i c3]|] eqn:H3; [|discriminate]. destruct (RF' _ _ c2' _ _ x E2 H3) as (c3' & -> & E3).
    set (size := ((big_endian l + 2 ^ 32 - 10) mod 2 ^ 32)%N) in *. destruct (size =? 0)%N.
    - injection H as <- <-. eauto.
    - destruct (read_full size c3) as [[v c4]|] eqn:H4; [|discriminate]. destruct (RF' _ _ c3' _ _ x E3 H4) as (c4' & -> & E4).
      injection H as <- <-. eauto. }
  destruct (RM _ _ _ rest R) as (r' & R' & C'). destruct (recv_wire _ m [] W E') as (r'' & R'' & C''). rewrite R' in R''. injection R'' as _ ->.
  rewrite C' in C''. apply app_eq_nil in C''. destruct C''. auto.
Qed.
Lemma recv_sound cs m r : wf_bytes (concat cs) -> (N.of_nat (length (concat cs)) < 2 ^ 32)%N -> recv_message cs = Some (m, r) ->
  wf_message m /\ concat cs = wire m ++ concat r.
Proof.
  intros W L H. unfold recv_message in H.
  pose proof (read_full_spec 2 cs) as S1. destruct (read_full 2 cs) as [[h c1]|]; [|discriminate]. destruct S1 as [E1 L1].
  pose proof (read_full_spec 4 c1) as S2. destruct (read_full 4 c1) as [[l c2]|]; [|discriminate]. destruct S2 as [E2 L2].
  pose proof (read_full_spec 4 c2) as S3. destruct (read_full 4 c2) as [[i c3]|]; [|discriminate]. destruct S3 as [E3 L3].
  rewrite E1, E2, E3 in W. apply Forall_app in W. destruct W as [Wh W]. apply Forall_app in W. destruct W as [Wl W]. apply Forall_app in W. destruct W as [Wi W].
  rewrite E1, E2, E3, !app_length in L.
  assert (length h = 2) as Lh by lia. assert (length l = 4) as Ll by lia. assert (length i = 4) as Li by lia.
  pose proof (big_endian_bound h Wh) as Bh. rewrite Lh in Bh. change (256 ^ N.of_nat 2)%N with (2 ^ 16)%N in Bh.
  pose proof (big_endian_bound l Wl) as Bl. rewrite Ll in Bl. change (256 ^ N.of_nat 4)%N with (2 ^ 32)%N in Bl.
  pose proof (big_endian_bound i Wi) as Bi. rewrite Li in Bi. change (256 ^ N.of_nat 4)%N with (2 ^ 32)%N in Bi.
  set (size := ((big_endian l + 2 ^ 32 - 10) mod 2 ^ 32)%N) in *.
  assert (exists v, m = {| lm_header := big_endian h; lm_id := big_endian i; lm_value := v |} /\ concat c3 = v ++ concat r /\ N.of_nat (length v) = size) as (v & -> & E4 & L4).
  { destruct (N.eqb_spec size 0) as [Z|NZ].
    - injection H as <- <-. exists []. rewrite Z. auto.
    - pose proof (read_full_spec size c3) as S4. destruct (read_full size c3) as [[v c4]|]; [|discriminate]. injection H as <- <-. destruct S4. eauto. }
  assert (big_endian l = size + 10)%N as SZ.
  { destruct (N.ltb_spec (big_endian l) 10) as [LT|GE].
    - exfalso. assert (size = big_endian l + 2 ^ 32 - 10)%N as X by (unfold size; apply N.mod_small; lia). rewrite E4, app_length in L. lia.
    - unfold size. replace (big_endian l + 2 ^ 32 - 10)%N with (big_endian l - 10 + 1 * 2 ^ 32)%N by lia. rewrite N.mod_add by discriminate. rewrite N.mod_small by lia. lia. }
  split.
  - split; [auto|]. split; [auto|]. cbn [lm_value]. rewrite L4, <- SZ. auto.
  - unfold wire. cbn [lm_header lm_id lm_value]. rewrite L4, <- SZ. rewrite E1, E2, E3, E4, <- !app_assoc.
    rewrite <- Lh at 1. rewrite bytes_big_endian by auto. rewrite <- Ll at 1. rewrite bytes_big_endian by auto. rewrite <- Li at 1. rewrite bytes_big_endian by auto. auto.
Qed.
Lemma recv_consumes cs m r : recv_message cs = Some (m, r) -> length (concat r) + 10 <= length (concat cs).
Proof.
  intros H. unfold recv_message in H.
  pose proof (read_full_spec 2 cs) as S1. destruct (read_full 2 cs) as [[h c1]|]; [|discriminate]. destruct S1 as [E1 L1].
  pose proof (read_full_spec 4 c1) as S2. destruct (read_full 4 c1) as [[l c2]|]; [|discriminate]. destruct S2 as [E2 L2].
  pose proof (read_full_spec 4 c2) as S3. destruct (read_full 4 c2) as [[i c3]|]; [|discriminate]. destruct S3 as [E3 L3].
  set (size := ((big_endian l + 2 ^ 32 - 10) mod 2 ^ 32)%N) in *. rewrite E1, E2, E3, !app_length. destruct (size =? 0)%N.
  - injection H as _ <-. lia.
  - pose proof (read_full_spec size c3) as S4. destruct (read_full size c3) as [[v c4]|]; [|discriminate]. injection H as _ <-. destruct S4 as [E4 L4].
    rewrite E4, app_length. lia.
Qed.

(** ** The loop *)
Lemma dispatch_known id m : known m <-> dispatch id m <> None.
Proof.
  unfold known, dispatch. change [h_report; h_alive; h_event; h_response] with [ro_access_report; keepalive; reader_event; set_config_response]. destruct (N.eqb_spec (lm_header m) reader_event) as [->|N1]; [cbn; intuition discriminate|].
  destruct (N.eqb_spec (lm_header m) keepalive) as [->|N2]; [cbn; intuition discriminate|].
  destruct (N.eqb_spec (lm_header m) set_config_response) as [->|N3]; [cbn; intuition discriminate|].
  destruct (N.eqb_spec (lm_header m) ro_access_report) as [->|N4]; [cbn; intuition discriminate|].
  cbn. intuition congruence.
Qed.
Lemma dispatch_expected id m acts : dispatch id m = Some acts -> expected (current_message_id id) m acts.
Proof.
  unfold dispatch. intros H. destruct (N.eqb_spec (lm_header m) reader_event) as [E|N1]; [injection H as <-; constructor; auto|].
  destruct (N.eqb_spec (lm_header m) keepalive) as [E|N2]; [injection H as <-; constructor; auto|].
  destruct (N.eqb_spec (lm_header m) set_config_response) as [E|N3]; [injection H as <-; constructor; auto|].
  destruct (N.eqb_spec (lm_header m) ro_access_report) as [E|N4]; [injection H as <-; constructor; auto|]. discriminate.
Qed.
Lemma loop_chunks id fuel cs cs' : concat cs = concat cs' -> llrp_loop id fuel cs = llrp_loop id fuel cs'.
Proof.
  revert cs cs'. induction fuel as [|fuel IH]; intros cs cs' E; auto. cbn [llrp_loop].
  pose proof (recv_chunks cs cs' E) as R. destruct (recv_message cs) as [[m r]|], (recv_message cs') as [[m' r']|]; try destruct R; auto. subst m'.
  destruct (dispatch id m); auto. rewrite (IH r r'); auto.
Qed.
Lemma loop_fuel id fuel cs : length (concat cs) < fuel -> snd (llrp_loop id fuel cs) <> OutOfFuel.
Proof.
  revert cs. induction fuel as [|fuel IH]; intros cs L; [lia|]. cbn [llrp_loop]. destruct (recv_message cs) as [[m r]|] eqn:R; [|discriminate].
  destruct (dispatch id m) as [acts|]; [|discriminate]. pose proof (recv_consumes _ _ _ R). specialize (IH r ltac:(lia)).
  destruct (llrp_loop id fuel r). exact IH.
Qed.
Lemma loop_more id fuel fuel' cs : length (concat cs) < fuel -> length (concat cs) < fuel' -> llrp_loop id fuel cs = llrp_loop id fuel' cs.
Proof.
  revert fuel' cs. induction fuel as [|fuel IH]; intros fuel' cs L L'; [lia|]. destruct fuel' as [|fuel']; [lia|]. cbn [llrp_loop].
  destruct (recv_message cs) as [[m r]|] eqn:R; auto. destruct (dispatch id m) as [acts|]; auto. pose proof (recv_consumes _ _ _ R).
  rewrite (IH fuel' r) by lia. auto.
Qed.
Lemma run_wire id cs m rest : wf_message m -> concat cs = wire m ++ rest ->
  llrp_run id cs = match dispatch id m with
                   | None => ([], UnknownHeader (lm_header m))
                   | Some acts => let '(r, e) := llrp_run id [rest] in ((m, acts) :: r, e)
                   end.
Proof.
  intros W E. destruct (recv_wire cs m rest W E) as (r & R & C). unfold llrp_run at 1. cbn [llrp_loop]. rewrite R. destruct (dispatch id m); auto.
  pose proof (recv_consumes _ _ _ R) as K. assert (concat [rest] = concat r) as Q by (rewrite C; cbn; apply app_nil_r).
  unfold llrp_run. rewrite (loop_chunks id _ _ _ Q), (loop_more id (S (length (concat [rest]))) (length (concat cs)) r); auto; rewrite ?Q; lia.
Qed.

(** ** Reports *)
Definition count (d : gostring) (l : list gostring) : nat := count_occ (list_eq_dec ascii_dec) l d.
Lemma seqb_spec a b : seqb a b = true <-> a = b.
Proof. split; [apply seqb_eq|intros ->; apply seqb_refl]. Qed.
Lemma lookup_append r d pure d' : lookup (append_to r d pure) d' =
  if list_eq_dec ascii_dec d d' then Some (match lookup r d with Some l => l | None => [] end ++ [pure]) else lookup r d'.
Proof.
  induction r as [|[k l] r IH]; cbn [append_to lookup].
  - destruct (list_eq_dec ascii_dec d d') as [->|N]; [rewrite seqb_refl; auto|]. destruct (seqb d d') eqn:E; auto. apply seqb_spec in E. congruence.
  - destruct (seqb k d) eqn:E.
    + apply seqb_spec in E. subst k. cbn [lookup]. destruct (list_eq_dec ascii_dec d d') as [->|N]; [rewrite seqb_refl; auto|].
      destruct (seqb d d') eqn:E; auto. apply seqb_spec in E. congruence.
    + cbn [lookup]. destruct (seqb k d') eqn:E'; [|exact IH]. apply seqb_spec in E'. subst k. destruct (list_eq_dec ascii_dec d d') as [->|N]; auto. rewrite seqb_refl in E. discriminate.
Qed.
Definition entry (r : reports) (d : gostring) : list gostring := match lookup r d with Some l => l | None => [] end.
Lemma entry_append r d pure d' : entry (append_to r d pure) d' = entry r d' ++ (if list_eq_dec ascii_dec d d' then [pure] else []).
Proof. unfold entry. rewrite lookup_append. destruct (list_eq_dec ascii_dec d d') as [->|N]; auto. rewrite app_nil_r. auto. Qed.
Lemma entry_fold uris r pure d : entry (fold_left (fun r d => append_to r d pure) uris r) d = entry r d ++ repeat pure (count d uris).
Proof.
  revert r. induction uris as [|u us IH]; intros r; cbn [fold_left]; [cbn; rewrite app_nil_r; auto|]. rewrite IH, entry_append. unfold count. cbn [count_occ].
  destruct (list_eq_dec ascii_dec u d); rewrite <- app_assoc; auto.
Qed.
Definition contribution (d : gostring) (a : search_result) : list gostring :=
  let '(pure, uris, failed) := a in if failed then [] else repeat pure (count d uris).
Lemma entry_answer r a d : entry (add_answer r a) d = entry r d ++ contribution d a.
Proof. destruct a as [[pure uris] []]; cbn [add_answer contribution]; [rewrite app_nil_r; auto|]. apply entry_fold. Qed.
Lemma entry_answers l r d : entry (fold_left add_answer l r) d = entry r d ++ flat_map (contribution d) l.
Proof.
  revert r. induction l as [|a l IH]; intros r; cbn [fold_left flat_map]; [rewrite app_nil_r; auto|]. rewrite IH, entry_answer, app_assoc. auto.
Qed.
Lemma lookup_answers l r d : (lookup r d <> Some []) -> lookup (fold_left add_answer l r) d <> Some [].
Proof.
  revert r. induction l as [|[[p us] []] l IH]; intros r H; cbn [fold_left]; auto; apply IH; cbn [add_answer]; auto.
  clear - H. revert r H. induction us as [|u us IH]; intros r H; cbn [fold_left]; auto. apply IH. rewrite lookup_append.
  destruct (list_eq_dec ascii_dec u d); auto. intros E. injection E as E. destruct (app_eq_nil _ _ E). discriminate.
Qed.
