(** C85-C89: the data set generator as a concurrent program. *)
From Verif Require Import GoBase BinUtil MFilter MScheme MTools MDataset SpecEpc SpecIso SpecTools SpecDataset.
From Verif Require Import PIso PTools2 PDataset PDataset2 PDataset3 PropsTools TestVectors.
From Coq Require Import Lia Permutation.

(** ** C85 *)
(** At any moment the filter file holds, after what was there before, the filters
    that were sent, in order, but for the last one perhaps. *)
Theorem C85_any_time : forall E draw cap n ps f0 fs0 ls s o, generator E draw cap n ps f0 fs0 ls = Ok (s, o) ->
  exists written lost, sent o = written ++ lost /\ length lost <= 1 /\ d_filters s = f0 ++ text_of written.
Proof.
  intros E draw cap n ps f0 fs0 ls s o R. destruct (gen_filters E draw cap n ps f0 fs0 ls s o R) as (wr & sss & H1 & H2 & _).
  exists wr, (held s). split; auto. split; auto. unfold held. destruct (d_writer s); cbn; lia.
Qed.
Print Assumptions C85_any_time.
(** When the program ends normally, all filters of the sets that were begun have been
    sent, each once. *)
Theorem C85_filters_partial : forall E draw cap n ps f0 fs0 ls s o, generator E draw cap n ps f0 fs0 ls = Ok (s, o) -> d_main s = DExit ->
  exists sss written lost, Forall2 (fun j fs => filter_sends E (snd j) = Ok fs) (made o) sss /\ Permutation (sent o) (concat sss) /\
    sent o = written ++ lost /\ length lost <= 1 /\ d_filters s = f0 ++ text_of written.
Proof. intros E draw cap n ps f0 fs0 ls s o R. exact (gen_exit_filters E draw cap n ps f0 fs0 ls s o R). Qed.
Print Assumptions C85_filters_partial.

(** The filter that may be lost is the one in the hands of the writer: at any moment,
    so also at the end, the file lacks a filter if and only if the writer has received
    one (that is not empty) and has not written it yet. *)
Theorem C85_exactly_partial : forall E draw cap n ps f0 fs0 ls s o, generator E draw cap n ps f0 fs0 ls = Ok (s, o) ->
  (d_filters s = f0 ++ text_of (sent o) <-> forall c l, d_writer s <> Some (c :: l)).
Proof.
  intros E draw cap n ps f0 fs0 ls s o R. destruct (gen_filters E draw cap n ps f0 fs0 ls s o R) as (wr & sss & H1 & H2 & _).
  assert (text_of (sent o) = text_of wr ++ text_of (held s)) as T by (rewrite H1; unfold text_of; rewrite map_app; apply concat_app).
  rewrite T, H2. unfold held. destruct (d_writer s) as [[|c l]|].
  - split; [discriminate|]. cbn. rewrite app_nil_r. auto.
  - split; [|intros H; destruct (H c l); auto]. intros X. apply app_inv_head in X. exfalso.
    apply (f_equal (@List.length _)) in X. rewrite app_length in X. cbn in X. rewrite !app_length in X. cbn in X. lia.
  - split; [discriminate|]. cbn. rewrite app_nil_r. auto.
Qed.
Print Assumptions C85_exactly_partial.

(** Two workers and one parameter. *)
Definition ex_17363 : uii_param := iso_param (str "17363") (str "ABC") [] [] [] false.
Definition text_len (p : uii_param) : nat := match job_text E0 (fun _ _ => []) (0, p) with Ok t => length t | _ => 0 end.
Definition until_written (w : nat) (p : uii_param) : list dlabel :=
  [DLTake w; DLStat w; DLCreate w; DLSend w; DLText w; DLWrite w (text_len p); DLDone w].
(** The program may end before the last filter is written: main does not wait for the
    writer. *)
Theorem C85_refuted : exists s o, generator E0 (fun _ _ => []) 2 2 [ex_17363] [] []
    (DLPut :: DLClose :: until_written 0 ex_17363 ++ [DLEnd 0; DLEnd 1; DLExit]) = Ok (s, o) /\
  d_main s = DExit /\ filter_sends E0 ex_17363 = Ok (sent o) /\ length (sent o) = 1 /\ d_filters s = [].
Proof.
  eexists _, _. split; [vm_compute; reflexivity|]. split; [reflexivity|]. split; [vm_compute; reflexivity|]. split; vm_compute; reflexivity.
Qed.
Print Assumptions C85_refuted.
(** ... or after it. *)
Example C85_case : exists s o, generator E0 (fun _ _ => []) 2 2 [ex_17363] (str "x") []
    (DLPut :: DLClose :: until_written 0 ex_17363 ++ [DLEnd 0; DLFilter; DLEnd 1; DLExit]) = Ok (s, o) /\
  d_main s = DExit /\ d_filters s = str "x" ++ text_of (sent o) /\ length (sent o) = 1.
Proof.
  eexists _, _. split; [vm_compute; reflexivity|]. split; [reflexivity|]. split; vm_compute; reflexivity.
Qed.

(** ** C86 *)
(** Every run is finite: there is a bound that depends on the parameters and on the
    number of workers, not on the schedule. *)
Theorem C86_runs_end : forall E draw ps, exists bound, forall cap n f0 fs0 ls s o,
  generator E draw cap n ps f0 fs0 ls = Ok (s, o) -> length ls <= bound + n.
Proof.
  intros E draw ps. exists (total (cost (job_sends E) (job_text E draw)) (jobs ps) + 2). intros cap n f0 fs0 ls s o R.
  pose proof (run_measure _ _ _ _ _ _ _ _ _ R) as M. rewrite measure0 in M. lia.
Qed.
Print Assumptions C86_runs_end.
(** As long as the program has not ended, some goroutine can go on. *)
Theorem C86_no_deadlock : forall E draw cap n ps f0 fs0 ls s o, drawn_params draw ps -> 0 < cap -> 0 < n ->
  generator E draw cap n ps f0 fs0 ls = Ok (s, o) -> ended s = false ->
  exists l s' o', generator E draw cap n ps f0 fs0 (ls ++ [l]) = Ok (s', o ++ o').
Proof.
  intros E draw cap n ps f0 fs0 ls s o D C N R EN.
  destruct (progress job_file job_fatal (job_sends E) (job_text E draw) cap n (jobs ps) s o C N (jobs_defined E draw ps D)
    (gen_queue _ _ _ _ _ _ _ _ _ _ R) (gen_jobs _ _ _ _ _ _ _ _ _ _ R) EN) as (l & s' & o' & S).
  exists l, s', o'. unfold generator in *. rewrite (run_snoc _ _ _ _ _ ls l _ s o s' o' R S). reflexivity.
Qed.
Print Assumptions C86_no_deadlock.
(** So every run can be completed, and every run that cannot go on has ended. *)
Theorem C86_completes : forall E draw cap n ps f0 fs0 ls s o, drawn_params draw ps -> 0 < cap -> 0 < n ->
  generator E draw cap n ps f0 fs0 ls = Ok (s, o) ->
  exists more s' o', generator E draw cap n ps f0 fs0 (ls ++ more) = Ok (s', o') /\ ended s' = true.
Proof.
  intros E draw cap n ps f0 fs0 ls s o D C N. destruct (C86_runs_end E draw ps) as (B & HB).
  assert (forall k ls s o, B + n - length ls <= k -> generator E draw cap n ps f0 fs0 ls = Ok (s, o) ->
    exists more s' o', generator E draw cap n ps f0 fs0 (ls ++ more) = Ok (s', o') /\ ended s' = true) as X; [|eauto].
  clear ls s o. induction k as [|k IH]; intros ls s o L R; destruct (ended s) eqn:EN; try (exists [], s, o; rewrite app_nil_r; auto; fail);
    destruct (C86_no_deadlock E draw cap n ps f0 fs0 ls s o D C N R EN) as (l & s' & o' & S).
  - exfalso. apply HB in S. rewrite app_length in S. cbn in S. lia.
  - destruct (IH (ls ++ [l]) s' (o ++ o')) as (more & s2 & o2 & R2 & E2); auto.
    { rewrite app_length. cbn. lia. }
    exists (l :: more), s2, o2. rewrite <- app_assoc in R2. auto.
Qed.
Print Assumptions C86_completes.
Example C86_hypotheses : drawn_params (fun _ _ => []) [ex_17363] /\ 0 < 2.
Proof.
  split; [|lia]. intros [|j] p H; [|destruct j; discriminate]. injection H as <-. split.
  - apply mp_17363; try reflexivity. repeat constructor.
  - intros i _. split; [discriminate|]. split; discriminate.
Qed.

(** ** C87 *)
(** When no two parameters share a file and no file is there before, the program never
    ends through log.Fatal, at any time every other file is untouched, and at the end
    every parameter has been dealt with once and its file is whole. *)
Theorem C87_never_fatal : forall E draw cap n ps f0 fs0 ls s o, apart job_file (jobs ps) fs0 ->
  generator E draw cap n ps f0 fs0 ls = Ok (s, o) ->
  d_main s <> DFatal /\ forall f, ~ In f (map file_of ps) -> file_get f (d_files s) = file_get f fs0.
Proof.
  intros E draw cap n ps f0 fs0 ls s o A R. destruct (gen_files _ _ _ _ _ _ _ _ _ _ R A) as (fin & NF & _ & _ & _ & OUT). split; auto.
  intros f NI. apply OUT. unfold job_file. rewrite <- map_map, jobs_params. auto.
Qed.
Print Assumptions C87_never_fatal.
Theorem C87_files_partial : forall E draw cap n ps f0 fs0 ls s o, apart job_file (jobs ps) fs0 -> 0 < n -> good_params draw 0 ps ->
  generator E draw cap n ps f0 fs0 ls = Ok (s, o) -> d_main s = DExit ->
  Permutation (map snd (made o)) ps /\
  forall j p, nth_error ps j = Some p -> exists tags, file_get (file_of p) (d_files s) = Some (text_of tags) /\ set_ok p (draw j) (sent o) tags.
Proof.
  intros E draw cap n ps f0 fs0 ls s o A N G R X. destruct (gen_exit_made _ _ _ _ _ _ _ _ _ _ R A X ltac:(lia)) as (PM & FI & _).
  split. { rewrite PM, jobs_params. auto. }
  intros j p HJ. destruct (G j p HJ) as (M & D). cbn [Nat.add] in D.
  destruct (lines_ok E p (draw j) M (seq 0 num_serial)) as (tags & fl & LS & LL & FL & XX).
  { intros i I. apply in_seq in I. split; [lia|]. apply D. lia. }
  assert (In (j, p) (jobs ps)) as IJ by (apply in_jobs; auto).
  exists tags. split.
  - rewrite (FI (j, p) IJ : file_get (file_of p) (d_files s) = _). unfold whole, job_text. cbn [fst snd]. rewrite LS. cbn [bind]. f_equal. unfold text_of. f_equal.
    apply map_ext_in. intros l I. apply In_nth_error in I as (i & I). assert (i < num_serial) as LI.
    { rewrite <- (seq_length num_serial 0), <- LL. apply nth_error_Some. intros NE. apply (eq_trans (eq_sym I)) in NE. discriminate. }
    destruct (XX i i l) as (pc & id & (bits & pct & -> & _) & _); auto.
    { rewrite (nth_error_nth' _ 0) by (rewrite seq_length; auto). rewrite seq_nth; auto. }
    destruct pct; reflexivity.
  - split. { rewrite LL, seq_length. auto. } exists fl. split.
    + destruct (gen_exit_filters _ _ _ _ _ _ _ _ _ _ R X) as (sss & _ & _ & F2 & PS & _).
      assert (In (j, p) (made o)) as IM by (eapply Permutation_in; [symmetry; exact PM|auto]).
      assert (exists fs, In fs sss /\ job_sends E (j, p) = Ok fs) as (fs & IF & JS).
      { clear - F2 IM. induction F2 as [|x y l l' H F2 IH]; [destruct IM|]. destruct IM as [->|IM]; [exists y; split; [left|]; auto|]. destruct (IH IM) as (fs & I & J). exists fs. split; [right|]; auto. }
      assert (fs = fl) as ->. { pose proof (sends_lines E p fs M JS) as JL. rewrite FL in JL. injection JL as ->. auto. }
      intros l I. eapply Permutation_in; [symmetry; exact PS|]. apply in_concat. exists fl. auto.
    + intros i line HL. assert (i < num_serial) as LI. { rewrite <- (seq_length num_serial 0), <- LL. apply nth_error_Some. intros NE. apply (eq_trans (eq_sym HL)) in NE. discriminate. }
      apply (XX i i line); auto. rewrite (nth_error_nth' _ 0) by (rewrite seq_length; auto). rewrite seq_nth; auto.
Qed.
Print Assumptions C87_files_partial.
Example C87_hypotheses : apart job_file (jobs [ex_grai; ex_17365]) [([str "other"], str "text")] /\
  good_params (fun _ _ => str "ABC0123456789") 0 [ex_grai; ex_17365] /\ 0 < 4.
Proof.
  split; [|split; [exact (proj1 C72_case)|lia]]. split.
  - repeat constructor; cbn; intuition discriminate.
  - repeat constructor.
Qed.

(** Without that, three things may go wrong.  Two workers may both find that a file is
    not there, and send the filters twice; *)
Theorem C87_refuted_twice : exists s o l, generator E0 (fun _ _ => []) 2 2 [ex_17363; ex_17363] [] []
    ([DLPut; DLTake 0; DLPut; DLTake 1; DLStat 0; DLStat 1; DLCreate 0; DLCreate 1; DLSend 0; DLFilter; DLSend 1; DLFilter]) = Ok (s, o) /\
  filter_sends E0 ex_17363 = Ok [l] /\ sent o = [l; l] /\ d_filters s = text_of [l; l].
Proof. eexists _, _, _. split; [vm_compute; reflexivity|]. split; [vm_compute; reflexivity|]. split; vm_compute; reflexivity. Qed.
Print Assumptions C87_refuted_twice.
(** or they write to the file at the same time, so that it is none of the two sets; *)
Definition two_draws (j i : nat) : gostring := if Nat.eqb j 0 then str "ABC0123456789" else str "0123456789".
Definition both_lens : nat * nat :=
  match job_text E0 two_draws (0, ex_17365), job_text E0 two_draws (1, ex_17365) with Ok a, Ok b => (length a, length b) | _, _ => (0, 0) end.
Definition overwriting : list dlabel :=
  [DLPut; DLTake 0; DLPut; DLTake 1; DLClose; DLStat 0; DLStat 1; DLCreate 0; DLCreate 1;
   DLSend 0; DLFilter; DLSend 0; DLFilter; DLSend 1; DLFilter; DLSend 1; DLFilter; DLText 0; DLText 1;
   DLWrite 0 (fst both_lens); DLWrite 1 (snd both_lens); DLDone 0; DLDone 1; DLEnd 0; DLEnd 1; DLExit].
Definition newlines (t : gostring) : nat := length (filter (fun c => Ascii.eqb c cnewline) t).
Theorem C87_refuted_mixed : exists s o t, generator E0 two_draws 2 2 [ex_17365; ex_17365] [] [] overwriting = Ok (s, o) /\
  good_params two_draws 0 [ex_17365; ex_17365] /\ d_main s = DExit /\ file_get (file_of ex_17365) (d_files s) = Some t /\ num_serial < newlines t.
Proof.
  assert (exists s o t, generator E0 two_draws 2 2 [ex_17365; ex_17365] [] [] overwriting = Ok (s, o) /\
    d_main s = DExit /\ file_get (file_of ex_17365) (d_files s) = Some t /\ Nat.ltb num_serial (newlines t) = true) as (s & o & t & R & X & F & N).
  { eexists _, _, _. split; [vm_compute; reflexivity|]. split; [reflexivity|]. split; [vm_compute; reflexivity|]. vm_compute. reflexivity. }
  exists s, o, t. split; auto. split.
  - intros [|[|j]] p H; [| |destruct j; discriminate]; injection H as <-.
    all: split; [apply mp_17365; try reflexivity; [cbn; lia|]; repeat apply Forall_cons; try apply Forall_nil; apply code_char_b_ok; reflexivity|].
    all: intros i _; split; [|discriminate]; split; [discriminate|]; split; [discriminate|]; intros _; split; [cbn; lia|].
    all: repeat apply Forall_cons; try apply Forall_nil; apply code_char_b_ok; reflexivity.
  - split; auto. split; auto. apply Nat.ltb_lt in N. auto.
Qed.
Print Assumptions C87_refuted_mixed.
(** or the whole program stops, with the file of another parameter empty. *)
Theorem C87_refuted_fatal : exists s o, generator E0 (fun _ _ => []) 2 2 [ex_17363; ex_grai; ex_grai] [] []
    [DLPut; DLTake 0; DLPut; DLStat 0; DLCreate 0; DLTake 1; DLPut; DLStat 1; DLCreate 1; DLSend 1; DLFilter; DLSend 1; DLFilter; DLText 1;
     DLWrite 1 (text_len ex_grai); DLDone 1; DLTake 1; DLStat 1] = Ok (s, o) /\
  d_main s = DFatal /\ file_get (file_of ex_17363) (d_files s) = Some [].
Proof. eexists _, _. split; [vm_compute; reflexivity|]. split; [reflexivity|]. vm_compute. reflexivity. Qed.
Print Assumptions C87_refuted_fatal.

(** The limits are exact: every run that ends has dealt with every parameter once and
    left every file whole, if and only if no two parameters share a file and no file
    is there before.  Otherwise any run in which one worker takes all the parameters
    goes wrong. *)
Theorem C87_exactly_partial : forall E draw cap n ps f0 fs0, good_params draw 0 ps -> 0 < cap -> 0 < n ->
  ((forall ls s o, generator E draw cap n ps f0 fs0 ls = Ok (s, o) -> ended s = true ->
      d_main s = DExit /\ Permutation (map snd (made o)) ps /\
      forall j p, nth_error ps j = Some p -> exists tags, file_get (file_of p) (d_files s) = Some (text_of tags) /\ set_ok p (draw j) (sent o) tags)
   <-> NoDup (map file_of ps) /\ Forall (fun p => file_get (file_of p) fs0 = None) ps).
Proof.
  intros E draw cap n ps f0 fs0 G C N.
  assert (drawn_params draw ps) as D. { intros j p H. destruct (G j p H) as [M X]. split; auto. intros i L. apply (X i L). }
  split.
  - intros A. destruct (C86_runs_end E draw ps) as (B & HB).
    assert (forall k ls s o, B + n - length ls <= k -> Forall first_takes ls -> generator E draw cap n ps f0 fs0 ls = Ok (s, o) ->
      exists more s' o', Forall first_takes more /\ generator E draw cap n ps f0 fs0 (ls ++ more) = Ok (s', o') /\ ended s' = true) as X.
    { induction k as [|k IH]; intros ls s o L F R; destruct (ended s) eqn:EN; try (exists [], s, o; rewrite app_nil_r; auto; fail);
        destruct (one_progress job_file job_fatal (job_sends E) (job_text E draw) cap n (jobs ps) s o C N (jobs_defined E draw ps D)
          (gen_queue _ _ _ _ _ _ _ _ _ _ R) (gen_jobs _ _ _ _ _ _ _ _ _ _ R) EN) as (l & s' & o' & FT & S);
        pose proof (run_snoc _ _ _ _ _ ls l _ s o s' o' R S) as S2; change (generator E draw cap n ps f0 fs0 (ls ++ [l]) = Ok (s', o ++ o')) in S2.
      - exfalso. apply HB in S2. rewrite app_length in S2. cbn in S2. lia.
      - destruct (IH (ls ++ [l]) s' (o ++ o')) as (more & s2 & o2 & F2 & R2 & E2); auto.
        { rewrite app_length. cbn. lia. }
        { apply Forall_app. auto. }
        exists (l :: more), s2, o2. rewrite <- app_assoc in R2. auto. }
    destruct (X (B + n) [] (ds0 n (jobs ps) f0 fs0) []) as (ls & s & o & F & R & EN); [cbn; lia|constructor|reflexivity|]. cbn [app] in R.
    destruct (A ls s o R EN) as (_ & P & _).
    destruct (one_run job_file job_fatal (job_sends E) (job_text E draw) cap fs0 ls F _ [] s o (one_init job_file n (jobs ps) f0 fs0) R) as (_ & ND & _ & _ & NF & _).
    cbn [app] in ND, NF. split.
    + eapply Permutation_NoDup; [apply Permutation_map, P|]. rewrite map_map. exact ND.
    + apply Forall_forall. intros p I. apply (Permutation_in _ (Permutation_sym P)) in I. apply in_map_iff in I as (j & <- & I). apply (NF j I).
  - intros [ND NF] ls s o R EN.
    assert (apart job_file (jobs ps) fs0) as A.
    { split.
      - unfold job_file. rewrite <- map_map, jobs_params. auto.
      - rewrite Forall_forall in *. intros [j p] I. apply NF. rewrite <- (jobs_params ps). apply (in_map snd _ _ I). }
    destruct (C87_never_fatal E draw cap n ps f0 fs0 ls s o A R) as [F _].
    assert (d_main s = DExit) as X by (unfold ended in EN; destruct (d_main s); congruence).
    split; auto. eapply C87_files_partial; eauto.
Qed.
Print Assumptions C87_exactly_partial.
Example C87_exactly_case : good_params (fun _ _ => str "ABC0123456789") 0 [ex_grai; ex_17365] /\
  NoDup (map file_of [ex_grai; ex_17365]) /\ ~ NoDup (map file_of [ex_grai; ex_grai]) /\
  Forall (fun p => file_get (file_of p) [([str "other"], str "text")] = None) [ex_grai; ex_17365].
Proof.
  split; [exact (proj1 C72_case)|]. split; [repeat constructor; cbn; intuition discriminate|].
  split; [|repeat constructor]. intros H. inversion H as [|x l NI _]. apply NI. left. auto.
Qed.

(** ** C88 *)
(** The number of filters asked for is not what comes out.  Rounding: 29 per cent of
    6000 are 1740, that is 87 times 20, but 86 rounds are made; *)
Theorem C88_refuted_rounding : match_repeat 29 6000 = Some 86%Z /\ (29 * 6000 = 87 * 20 * 100)%Z /\
  match_repeat 35 2800 = Some 48%Z /\ (35 * 2800 = 49 * 20 * 100)%Z /\
  match_repeat 29 6000 <> Some 87%Z.
Proof. split; [vm_compute; reflexivity|]. split; [reflexivity|]. split; [vm_compute; reflexivity|]. split; [reflexivity|]. vm_compute. discriminate. Qed.
Print Assumptions C88_refuted_rounding.
(** and each round sends 31 filters instead of 20, whatever is drawn, *)
Theorem C88_lines : forall E draw cap n a b f0 fs0 ls s o, let ps := main_params a b in
  Forall full_round a -> Forall full_round b -> Forall round_drawn a -> Forall round_drawn b ->
  apart job_file (jobs ps) fs0 -> 0 < n -> generator E draw cap n ps f0 fs0 ls = Ok (s, o) -> d_main s = DExit ->
  length (sent o) = 31 * length a.
Proof.
  intros E draw cap n a b f0 fs0 ls s o ps FA FB DA DB A N R X.
  destruct (gen_exit_made _ _ _ _ _ _ _ _ _ _ R A X ltac:(lia)) as (PM & _).
  destruct (gen_exit_filters _ _ _ _ _ _ _ _ _ _ R X) as (sss & _ & _ & F2 & PS & _).
  rewrite PS. rewrite <- (main_count a b FA FB). fold ps.
  assert (Forall main_param ps) as MP.
  { unfold ps, main_params. apply Forall_app. split; apply Forall_flat_map; eapply Forall_impl; try eassumption; intros r; apply round_main. }
  assert (forall m, Forall main_param (map snd m) -> forall sss, Forall2 (fun j l => job_sends E j = Ok l) m sss ->
    length (concat sss) = total sends_number (map snd m)) as C.
  { induction m as [|[j p] m IH]; intros M q H; inversion H as [|? ? ? ? JS H']; subst; auto. cbn [map snd concat] in *. inversion M as [|? ? MP1 MP2]; subst.
    rewrite app_length, total_cons, (IH MP2 _ H'). f_equal. eapply sends_count; eauto. }
  assert (Permutation (map snd (made o)) ps) as PP by (rewrite PM, jobs_params; auto).
  rewrite (C (made o)) with (sss := sss); auto.
  - unfold total. apply list_sum_perm. apply Permutation_map. auto.
  - eapply Permutation_Forall; [symmetry; exact PP|auto].
Qed.
Print Assumptions C88_lines.
(** many of them equal: there are at most 20 different ones for each round, and one
    more, for 17365, that all rounds share. *)
Theorem C88_different : forall E draw cap n a b f0 fs0 ls s o, Forall full_round a ->
  generator E draw cap n (main_params a b) f0 fs0 ls = Ok (s, o) ->
  exists all, length all = 20 * length a + 1 /\ incl (sent o) all.
Proof.
  intros E draw cap n a b f0 fs0 ls s o FA R. exists (shared_send E :: flat_map (round_sends E) a). split.
  - cbn [length]. rewrite Nat.add_1_r. f_equal. clear - FA. induction FA as [|r a F FA IH]; auto. cbn [flat_map length]. rewrite app_length, IH, round_sends_length by auto. lia.
  - intros l I. destruct (gen_sent _ _ _ _ _ _ _ _ _ _ R l I) as (p & fs & IP & FS & IL).
    destruct (main_sends E a b p fs l IP FS IL) as (r & IR & IPR). destruct (round_sends_all E r p l fs IPR FS IL) as [<-|H]; [left; auto|].
    right. apply in_flat_map. exists r. auto.
Qed.
Print Assumptions C88_different.
(** A round for which all 21 are different. *)
Definition ex_round : round :=
  {| r_cp := str "0614141"; r_irs := map str ["100000"; "100001"; "100002"; "100003"; "100004"; "100005"; "100006"; "100007"; "100008"; "100009"]%string;
     r_sscc := [str "123456"; str "1234567"]; r_giai := [str "223456"; str "2234567"]; r_grai := str "3234567"; r_ats := [str "12345"; str "54321"];
     r_oc := str "ABC"; r_ci := str "COMP7" |}.
Lemma digits_b n s : Nat.eqb (length s) n && forallb is_digit s = true -> digits n s.
Proof. intros H. apply andb_true_iff in H as [H1 H2]. apply Nat.eqb_eq in H1. split; auto. apply Forall_forall. rewrite forallb_forall in H2. auto. Qed.
Example C88_case : full_round ex_round /\ round_drawn ex_round /\
  let all := flat_map (fun p => match filter_sends E0 p with Ok fs => fs | _ => [] end) (round_params false ex_round) in
  length all = 31 /\ length (nodup (list_eq_dec ascii_dec) all) = 21.
Proof.
  split; [repeat split|]. split.
  - split. { exists 7. split; [lia|]. split; [apply digits_b; reflexivity|]. apply Forall_map. repeat apply Forall_cons; try apply Forall_nil; apply digits_b; reflexivity. }
    split. { repeat apply Forall_cons; try apply Forall_nil; [exists 6|exists 7]; (split; [lia|apply digits_b; reflexivity]). }
    split. { repeat apply Forall_cons; try apply Forall_nil; [exists 6|exists 7]; (split; [lia|apply digits_b; reflexivity]). }
    split. { exists 7. split; [lia|]. split; [apply digits_b; reflexivity|]. repeat apply Forall_cons; try apply Forall_nil; apply digits_b; reflexivity. }
    split. { split; [reflexivity|]. repeat constructor. }
    split; [cbn; lia|]. repeat apply Forall_cons; try apply Forall_nil; apply code_char_b_ok; reflexivity.
  - split; vm_compute; reflexivity.
Qed.

(** ** C89 *)
(** Which filters match which tags: exactly those of the same scheme with the same
    company prefix or owner code, and for 17365 all. *)
Theorem C89_selection_partial : forall E p q i d, main_param p -> u_no_filter p = false -> main_param q -> drawn q d -> reference_fits q d -> i < num_serial ->
  exists line pc id fl, tag_line E q i d = Ok line /\ line_reads line pc id /\ filter_lines E p = Ok fl /\
    ((exists l, In l fl /\ line_matches l id) <-> selects p q).
Proof. exact selection. Qed.
Print Assumptions C89_selection_partial.
(** Two sets of the same scheme, one with filters and one without. *)
Example C89_case : let q := {| u_type := u_type ex_17365; u_scheme := u_scheme ex_17365; u_cp := u_cp ex_17365; u_ir := u_ir ex_17365; u_at := u_at ex_17365;
    u_oc := u_oc ex_17365; u_di := u_di ex_17365; u_iac := u_iac ex_17365; u_ci := str "OTHER"; u_ext_digits := u_ext_digits ex_17365; u_iar_max := u_iar_max ex_17365; u_no_filter := true |} in
  main_param ex_17365 /\ u_no_filter ex_17365 = false /\ main_param q /\ drawn q (str "ABC0123456789") /\ reference_fits q (str "ABC0123456789") /\ selects ex_17365 q.
Proof.
  split. { apply mp_17365; try reflexivity; [cbn; lia|]. repeat apply Forall_cons; try apply Forall_nil; apply code_char_b_ok; reflexivity. }
  split; [reflexivity|].
  split. { apply mp_17365; try reflexivity; [cbn; lia|]. repeat apply Forall_cons; try apply Forall_nil; apply code_char_b_ok; reflexivity. }
  split. { split; [discriminate|]. split; [discriminate|]. intros _. split; [cbn; lia|]. repeat apply Forall_cons; try apply Forall_nil; apply code_char_b_ok; reflexivity. }
  split; [discriminate|]. split; [reflexivity|]. exact Logic.I.
Qed.
(** So whenever there is a round with filters and a round without, a tag of the
    latter is matched by a filter of the former. *)
Theorem C89_refuted : forall E r r' i d, round_drawn r -> round_drawn r' -> i < num_serial -> 10 <= length d <= 30 -> Forall code_char d ->
  exists p q line pc id fl l, In p (round_params false r) /\ In q (round_params true r') /\ drawn q d /\
    tag_line E q i d = Ok line /\ line_reads line pc id /\ filter_lines E p = Ok fl /\ In l fl /\ line_matches l id.
Proof.
  intros E r r' i d R R' I L C. set (p := iso_param (str "17365") [] (str "25S") (str "U") (r_ci r) false). set (q := iso_param (str "17365") [] (str "25S") (str "U") (r_ci r') true).
  assert (forall nf r, In (iso_param (str "17365") [] (str "25S") (str "U") (r_ci r) nf) (round_params nf r)) as IN.
  { intros nf x. unfold round_params. rewrite !in_app_iff. do 4 right. right. left. reflexivity. }
  assert (drawn q d) as D by (split; [discriminate|]; split; [discriminate|]; auto).
  pose proof (round_main false r R) as M. rewrite Forall_forall in M. pose proof (round_main true r' R') as M'. rewrite Forall_forall in M'.
  destruct (selection E p q i d (M p (IN false r)) eq_refl (M' q (IN true r')) D ltac:(discriminate) I) as (line & pc & id & fl & TL & LR & FL & [_ SE]).
  destruct SE as (l & IL & LM). { split; [reflexivity|]. exact Logic.I. }
  exists p, q, line, pc, id, fl, l. split; [apply IN|]. split; [apply (IN true r')|]. split; auto.
Qed.
Print Assumptions C89_refuted.

(** ** C90 *)
(** Where the tags of a parameter go. *)
Theorem C90_path : forall nf r p, round_drawn r -> In p (round_params nf r) ->
  path_text (file_of p) = set_dir p ++ str "/" ++ join (str "/") (set_key p).
Proof.
  intros nf r p R I. destruct (round_file nf r p R I) as (F & L & _). rewrite F. unfold path_text. destruct (set_key p) as [|k ks]; [|reflexivity].
  unfold key_size in L. destruct (_ || _); discriminate L.
Qed.
Print Assumptions C90_path.
(** Two parameters share a file exactly when they describe the same set; *)
Theorem C90_own_file : forall nf nf' r r' p q, round_drawn r -> round_drawn r' -> In p (round_params nf r) -> In q (round_params nf' r') ->
  (path_text (file_of p) = path_text (file_of q) <-> u_scheme p = u_scheme q /\ set_key p = set_key q) /\
  (path_text (file_of p) = path_text (file_of q) <-> file_of p = file_of q).
Proof.
  intros nf nf' r r' p q R R' I I'. destruct (round_file nf r p R I) as (F & L & N & S). destruct (round_file nf' r' q R' I') as (F' & L' & N' & S').
  assert (path_text (file_of p) = path_text (file_of q) <-> file_of p = file_of q) as X.
  { split; [|intros ->; auto]. intros H. apply path_inj in H; auto; [rewrite F|rewrite F']; discriminate. }
  split; auto. rewrite X, F, F'. split.
  - intros H. injection H as HD HK. split; auto. apply same_dir; auto.
  - intros [HS HK]. rewrite HK. f_equal. unfold set_dir. rewrite HS. auto.
Qed.
Print Assumptions C90_own_file.
(** and no file has the name of a directory that another one needs. *)
Theorem C90_no_nesting : forall nf nf' r r' p q x, round_drawn r -> round_drawn r' -> In p (round_params nf r) -> In q (round_params nf' r') ->
  path_text (file_of q) <> path_text (file_of p) ++ str "/" ++ x.
Proof.
  intros nf nf' r r' p q x R R' I I' H. destruct (round_file nf r p R I) as (F & L & N & S). destruct (round_file nf' r' q R' I') as (F' & L' & N' & S').
  apply (path_nested (file_of p) (file_of q) x) in H as (y & Y & NY); auto; try (rewrite ?F, ?F'; discriminate).
  rewrite F, F' in Y. injection Y as HD HK. apply (f_equal (@length _)) in HK. rewrite app_length, L, L' in HK.
  assert (u_scheme p = u_scheme q) as SS by (apply same_dir; auto). unfold key_size in HK. rewrite SS in HK. destruct y; [congruence|]. cbn [length] in HK. lia.
Qed.
Print Assumptions C90_no_nesting.
Example C90_case : let p := epc_param (str "grai-96") (str "3234567") [] (str "12345") 0 0 false in
  In p (round_params false ex_round) /\ path_text (file_of p) = str "grai-96/3234567/12345" /\
  path_text (file_of (iso_param (str "17363") (str "ABC") [] [] [] true)) = str "iso17363/ABC".
Proof. split; [|split; vm_compute; reflexivity]. unfold round_params. rewrite !in_app_iff. do 3 right. left. left. reflexivity. Qed.
