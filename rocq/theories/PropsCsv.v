(** Properties C81-C84: subscription files. *)
From Verif Require Import GoBase BinUtil MFilter MTdtCore MSubs MList MCsv MTools TestVectors.
From Verif Require Import PBase Spec PFilter PSubs PList PMatch PSubs2 PSubs3 PShared PExamples SpecCsv PCsv PropsEngine.
From Coq Require Import Lia Permutation.

(** The sample file of the repository, and one that uses the whole format: quotes, an
    empty line, CR LF, no line end at the end of the file. *)
Definition nl : gostring := [cnl].
Definition qt : gostring := [cquote].
Definition ex_file : gostring :=
  str "http://localhost:8888/sgtin,urn:epc:pat:sgtin-96:3.999203.7757355" ++ nl ++
  str "http://localhost:8888/sscc,urn:epc:pat:sscc-96:3.00039579721" ++ nl.
Definition ex_odd : gostring :=
  nl ++ qt ++ str "HTTP://a,b" ++ qt ++ str "," ++ qt ++ str "say " ++ qt ++ qt ++ str "x" ++ qt ++ [ccr; cnl] ++
  str "http://b,urn:epc:pat:sscc-96:3.00039579721" ++ [ccr].

(** ** C81 *)
(** The reader accepts exactly the format and returns the fields that were written. *)
Theorem C81_reads_the_format : forall text records, csv_read text = Ok records <-> csv_text records text.
Proof. exact csv_read_spec. Qed.
Print Assumptions C81_reads_the_format.

(** Loading: for a text in the format, every URI has the patterns of its lines, in
    order; for any other text, and only then, the program crashes. *)
Theorem C81_load : forall text,
  (forall records, csv_text records text ->
     Forall (fun r => r <> []) records /\
     exists sub, load_file text = Ok sub /\
       forall uri, mget uri sub = match csv_patterns uri records with [] => None | l => Some l end) /\
  ((forall records, ~ csv_text records text) <-> load_file text = Panic).
Proof.
  intros text. split.
  - intros rs H. split; [eapply csv_text_records; eauto|]. apply csv_read_spec in H. exists (load_csv rs). unfold load_file. rewrite H. split; auto.
    intros uri. apply load_csv_spec.
  - unfold load_file. pose proof (csv_read_spec text) as S. split.
    + intros H. destruct (csv_read text) as [rs| |]; auto. exfalso. apply (H rs). apply S. auto.
    + intros H rs HT. apply S in HT. rewrite HT in H. discriminate.
Qed.
Print Assumptions C81_load.

(** The text determines the records; writing with quotes and reading gives back any
    records whose fields have no CR. *)
Theorem C81_unambiguous : forall text records records', csv_text records text -> csv_text records' text -> records = records'.
Proof. intros text rs rs' H H'. apply csv_read_spec in H, H'. congruence. Qed.
Print Assumptions C81_unambiguous.
Theorem C81_round_trip : forall records,
  Forall (fun r => r <> [] /\ forall f, In f r -> ~ In ccr f) records -> csv_read (write_file records) = Ok records.
Proof. exact write_file_reads. Qed.
Print Assumptions C81_round_trip.

(** Lines whose first field is not an http address give nothing. *)
Theorem C81_no_address : forall text records, csv_text records text ->
  Forall (fun r => forall r0 fields, r = r0 :: fields -> is_http r0 = false) records -> load_file text = Ok [].
Proof. intros text rs H N. apply csv_read_spec in H. unfold load_file. rewrite H, no_http; auto. Qed.
Print Assumptions C81_no_address.

Example C81_cases :
  csv_text [[str "http://localhost:8888/sgtin"; str "urn:epc:pat:sgtin-96:3.999203.7757355"];
            [str "http://localhost:8888/sscc"; str "urn:epc:pat:sscc-96:3.00039579721"]] ex_file /\
  csv_text [[str "HTTP://a,b"; str "say " ++ qt ++ str "x"]; [str "http://b"; str "urn:epc:pat:sscc-96:3.00039579721"]] ex_odd /\
  load_file ex_odd = Ok [(str "http://b", [str "urn:epc:pat:sscc-96:3.00039579721"])] /\
  load_file (str "urn:epc:pat:sscc-96:3.00039579721,0011" ++ nl) = Ok [].
Proof.
  split; [apply csv_read_spec; vm_compute; reflexivity|]. split; [apply csv_read_spec; vm_compute; reflexivity|].
  split; vm_compute; reflexivity.
Qed.
Example C81_round_trip_case : csv_read (write_file [[str "a,b"; []]; [[]]; [nl ++ qt]]) = Ok [[str "a,b"; []]; [[]]; [nl ++ qt]]
  /\ csv_read (write_file [[[ccr; cnl]]]) = Ok [[nl]].
Proof. split; vm_compute; reflexivity. Qed.

(** ** C82 *)
(** A file without quotes never crashes the program.  Missing: files with quotes that
    are not in the format ([C82_bad_line_refuted]). *)
Theorem C82_no_quotes_partial : forall text, ~ In cquote text -> exists sub, load_file text = Ok sub.
Proof. exact no_quote_loads. Qed.
Print Assumptions C82_no_quotes_partial.

(** A quote inside an unquoted field crashes the program, whatever lines come before
    and after it. *)
Theorem C82_bad_line_refuted : forall records ls a rest,
  Forall2 record_text records ls -> Forall (fun l => l <> []) ls -> ~ In ccr (lines_of ls ++ a) -> plain a -> a <> [] ->
  load_file (lines_of ls ++ a ++ cquote :: rest) = Panic.
Proof. exact bad_line_crashes. Qed.
Print Assumptions C82_bad_line_refuted.

Example C82_cases : ~ In cquote ex_file /\
  (exists sub, load_file ex_file = Ok sub /\ length sub = 2) /\
  load_file (ex_file ++ str "see" ++ qt ++ str "docs" ++ qt ++ nl) = Panic.
Proof.
  split; [vm_compute; intros H; repeat (destruct H as [H|H]; [discriminate H|]); destruct H|].
  split; [eexists; split; [vm_compute; reflexivity|reflexivity]|vm_compute; reflexivity].
Qed.

(** ** C83 *)
(** From the text of the file to the answer: a tag is reported to exactly the
    addresses of the lines with a pattern that matches it, whatever order the map of
    subscriptions is iterated in.  Missing: prefixes asked for by two addresses
    ([C83_refuted]). *)
Theorem C83_file_to_answers_partial : forall E text records sub sub' pc id,
  csv_text records text -> load_file text = Ok sub -> Permutation sub sub' ->
  unshared E sub' -> Forall is_bitstring (mkeys (to_byte_subs E sub')) -> wf_bytes id -> decides id (mkeys (to_byte_subs E sub')) ->
  exists uris, answers (translate pc id) uris (list_search (new_list E sub') pc id) /\
    forall u, In u uris <-> exists r0 fields pat k, In (r0 :: fields) records /\ is_http r0 = true /\ to_lower r0 = u /\
      In pat fields /\ is_epc_pat pat = true /\ pattern_prefix E pat = Some k /\ id_has_prefix id k.
Proof.
  intros E text rs sub sub' pc id HT HL HP. eapply file_to_answers; eauto. apply csv_read_spec in HT. unfold load_file in HL. rewrite HT in HL.
  injection HL as <-. exact HP.
Qed.
Print Assumptions C83_file_to_answers_partial.

Definition ex_list_file : gostring :=
  str "HTTP://A,urn:epc:pat:sgtin-96:3.12345678,urn:epc:pat:sscc-96:3.00039579721" ++ nl ++
  str "http://b,urn:epc:pat:sgtin-96:3.12345678.00001" ++ nl ++ str "http://c,urn:epc:pat:giai-96:3.02283922192" ++ nl.
Example C83_case : exists sub, load_file ex_list_file = Ok sub /\ unshared E0 sub /\
  Forall is_bitstring (mkeys (to_byte_subs E0 sub)) /\ wf_bytes ex_id /\ decides ex_id (mkeys (to_byte_subs E0 sub)) /\
  list_search (new_list E0 sub) pcgs1 ex_id = Ok (ex_uri, [str "http://a"; str "http://b"], false).
Proof.
  eexists. split; [vm_compute; reflexivity|]. split; [apply unshared_b; vm_compute; reflexivity|].
  split; [apply bitstrings_b; vm_compute; reflexivity|]. split; [forall_concrete|].
  split; [apply long_decides; vm_compute; reflexivity|]. vm_compute. reflexivity.
Qed.
(** The exact boundary, for every file and every tag that can be translated: the tag
    is reported to exactly the addresses that ask for it, in whatever order the map
    is iterated, exactly when each of these addresses has a prefix of the tag for
    itself. *)
Definition line_asks (E : env) (records : list (list gostring)) (u k : gostring) : Prop :=
  exists r0 fields pat, In (r0 :: fields) records /\ is_http r0 = true /\ to_lower r0 = u /\
    In pat fields /\ is_epc_pat pat = true /\ pattern_prefix E pat = Some k.
Theorem C83_exactly_partial : forall E text records sub pc id,
  csv_text records text -> load_file text = Ok sub -> wf_bytes id -> translate pc id <> Panic ->
  (forall u k, line_asks E records u k -> is_bitstring k /\ ~ runs_out id k) ->
  ((forall sub', Permutation sub sub' -> exists uris, answers (translate pc id) uris (list_search (new_list E sub') pc id) /\
      forall u, In u uris <-> exists k, line_asks E records u k /\ id_has_prefix id k)
   <-> forall u k, line_asks E records u k -> id_has_prefix id k ->
         exists k', line_asks E records u k' /\ id_has_prefix id k' /\ forall u', line_asks E records u' k' -> u' = u).
Proof.
  intros E text rs sub pc id HT HL Hw NP HK.
  assert (sub = load_csv rs) as -> by (apply csv_read_spec in HT; unfold load_file in HL; rewrite HT in HL; congruence). clear HT HL.
  assert (forall u k, wants E (load_csv rs) k u <-> line_asks E rs u k) as W by (intros; apply wants_csv; auto).
  destruct (shared_exactly E (load_csv rs) pc id) as [S1 S2]; auto.
  - apply ssorted_NoDup, load_csv_wf.
  - intros u k I. apply (HK u). apply W, I.
  - split.
    + intros A u k LA PK. destruct (S1) with (u := u) (k := k) as (k' & K1 & K2 & K3); auto.
      * intros sub' HP. destruct (A sub' HP) as (uris & AN & IN). exists uris. split; auto. intros v. rewrite IN. split; intros (k' & H1 & H2); exists k'; (split; [apply W, H1|auto]).
      * apply W, LA.
      * exists k'. split; [apply W, K1|]. split; auto. intros u' LU. apply K3, W, LU.
    + intros A sub' HP. destruct S2 with (sub' := sub') as (uris & AN & IN); auto.
      * intros u k WU PK. destruct (A u k) as (k' & K1 & K2 & K3); auto; [apply W, WU|]. exists k'. split; [apply W, K1|]. split; auto. intros u' LU. apply K3, W, LU.
      * exists uris. split; auto. intros v. rewrite IN. split; intros (k' & H1 & H2); exists k'; (split; [apply W, H1|auto]).
Qed.
Print Assumptions C83_exactly_partial.
(** Two addresses share a prefix, and each has a shorter or longer one for itself:
    nothing is missed for the tag with both. *)
Definition ex_shared_file : gostring :=
  str "http://a,urn:epc:pat:sgtin-96:3,urn:epc:pat:sgtin-96:3.12345678" ++ nl ++
  str "http://b,urn:epc:pat:sgtin-96:3.12345678,urn:epc:pat:sgtin-96:3.12345678.00001" ++ nl.
Definition ex_shared : list (list gostring) :=
  [[str "http://a"; str "urn:epc:pat:sgtin-96:3"; str "urn:epc:pat:sgtin-96:3.12345678"];
   [str "http://b"; str "urn:epc:pat:sgtin-96:3.12345678"; str "urn:epc:pat:sgtin-96:3.12345678.00001"]].
Definition pre (p : gostring) : gostring := match pattern_prefix E0 p with Some k => k | None => [] end.
Example C83_exactly_case : csv_text ex_shared ex_shared_file /\ (exists sub, load_file ex_shared_file = Ok sub) /\ wf_bytes ex_id /\ translate pcgs1 ex_id <> Panic /\
  (forall u k, line_asks E0 ex_shared u k -> is_bitstring k /\ ~ runs_out ex_id k) /\
  line_asks E0 ex_shared (str "http://a") (pre (str "urn:epc:pat:sgtin-96:3.12345678")) /\
  line_asks E0 ex_shared (str "http://b") (pre (str "urn:epc:pat:sgtin-96:3.12345678")) /\
  (forall u k, line_asks E0 ex_shared u k -> id_has_prefix ex_id k ->
     exists k', line_asks E0 ex_shared u k' /\ id_has_prefix ex_id k' /\ forall u', line_asks E0 ex_shared u' k' -> u' = u) /\
  (exists sub, load_file ex_shared_file = Ok sub /\
     list_search (new_list E0 sub) pcgs1 ex_id = Ok (ex_uri, [str "http://a"; str "http://b"; str "http://b"], false)).
Proof.
  assert (forall u k, line_asks E0 ex_shared u k <-> In (u, k)
    [(str "http://a", pre (str "urn:epc:pat:sgtin-96:3")); (str "http://a", pre (str "urn:epc:pat:sgtin-96:3.12345678"));
     (str "http://b", pre (str "urn:epc:pat:sgtin-96:3.12345678")); (str "http://b", pre (str "urn:epc:pat:sgtin-96:3.12345678.00001"))]) as LA.
  { intros u k. split.
    - intros (r0 & fields & pat & I & _ & <- & J & _ & Q). destruct I as [I|[I|[]]]; injection I as <- <-; destruct J as [<-|[<-|[]]];
        vm_compute in Q; injection Q as <-; vm_compute; auto.
    - intros [I|[I|[I|[I|[]]]]]; pose proof (f_equal fst I) as I1; pose proof (f_equal snd I) as I2; cbn [fst snd] in I1, I2; subst u k;
        eexists _, _, _.
      + split; [left; reflexivity|]. split; [reflexivity|]. split; [reflexivity|]. split; [left; reflexivity|]. split; [vm_compute; reflexivity|vm_compute; reflexivity].
      + split; [left; reflexivity|]. split; [reflexivity|]. split; [reflexivity|]. split; [right; left; reflexivity|]. split; vm_compute; reflexivity.
      + split; [right; left; reflexivity|]. split; [reflexivity|]. split; [reflexivity|]. split; [left; reflexivity|]. split; [vm_compute; reflexivity|vm_compute; reflexivity].
      + split; [right; left; reflexivity|]. split; [reflexivity|]. split; [reflexivity|]. split; [right; left; reflexivity|]. split; vm_compute; reflexivity. }
  split; [apply csv_read_spec; vm_compute; reflexivity|]. split; [eexists; vm_compute; reflexivity|]. split; [forall_concrete|].
  split; [vm_compute; discriminate|].
  assert (forall k, In k [pre (str "urn:epc:pat:sgtin-96:3"); pre (str "urn:epc:pat:sgtin-96:3.12345678"); pre (str "urn:epc:pat:sgtin-96:3.12345678.00001")] ->
    is_bitstring k /\ ~ runs_out ex_id k) as BK.
  { intros k I. split.
    - revert k I. apply Forall_forall. apply bitstrings_b. vm_compute. reflexivity.
    - revert k I. apply long_decides. vm_compute. reflexivity. }
  split; [intros u k H; apply BK; apply LA in H; destruct H as [H|[H|[H|[H|[]]]]]; apply (f_equal snd) in H; cbn [snd] in H; subst k; cbn [In]; auto|].
  split; [apply LA; cbn [In]; auto|]. split; [apply LA; cbn [In]; auto|].
  split; [|eexists; split; [vm_compute; reflexivity|vm_compute; reflexivity]].
  intros u k H _. apply LA in H.
  assert (u = str "http://a" \/ u = str "http://b") as [->| ->] by (destruct H as [H|[H|[H|[H|[]]]]]; apply (f_equal fst) in H; cbn [fst] in H; subst u; auto).
  - exists (pre (str "urn:epc:pat:sgtin-96:3")). split; [apply LA; cbn [In]; auto|].
    split; [apply id_has_prefix_str; [apply BK; cbn [In]; auto|apply has_prefix_spec; vm_compute; reflexivity]|].
    intros u' H'. apply LA in H'. destruct H' as [I|[I|[I|[I|[]]]]]; pose proof (f_equal fst I) as I1; pose proof (f_equal snd I) as I2; cbn [fst snd] in I1, I2; auto;
      apply (f_equal (@length _)) in I2; vm_compute in I2; discriminate.
  - exists (pre (str "urn:epc:pat:sgtin-96:3.12345678.00001")). split; [apply LA; cbn [In]; auto|].
    split; [apply id_has_prefix_str; [apply BK; cbn [In]; auto|apply has_prefix_spec; vm_compute; reflexivity]|].
    intros u' H'. apply LA in H'. destruct H' as [I|[I|[I|[I|[]]]]]; pose proof (f_equal fst I) as I1; pose proof (f_equal snd I) as I2; cbn [fst snd] in I1, I2; auto;
      apply (f_equal (@length _)) in I2; vm_compute in I2; discriminate.
Qed.
(** Two lines with the same pattern: only one of the addresses gets the tag, and the
    order of the map decides which. *)
Theorem C83_refuted : exists text sub sub', load_file text = Ok sub /\ Permutation sub sub' /\
  list_search (new_list E0 sub) pcgs1 ex_id = Ok (ex_uri, [str "http://b"], false) /\
  list_search (new_list E0 sub') pcgs1 ex_id = Ok (ex_uri, [str "http://a"], false).
Proof.
  exists (str "http://a,urn:epc:pat:sgtin-96:3.12345678" ++ nl ++ str "http://b,urn:epc:pat:sgtin-96:3.12345678" ++ nl).
  eexists _, _. split; [vm_compute; reflexivity|]. split; [apply perm_swap|]. split; vm_compute; reflexivity.
Qed.
Print Assumptions C83_refuted.

(** ** C84 *)
(** A pattern whose scheme is written with capitals is loaded and then ignored. *)
Theorem C84_capitals_ignored_refuted : forall E pat,
  is_epc_pat pat = true -> has_prefix pat (str "urn:epc:pat:") = false -> pattern_prefix E pat = None.
Proof.
  intros E pat H1 H2. pose proof (other_case_ignored pat H1 H2) as H. unfold pattern_prefix, pattern_parts in *. unfold urn_pat.
  destruct (split_on ccolon _) as [|? [|? [|? ?]]]; congruence.
Qed.
Print Assumptions C84_capitals_ignored_refuted.
(** With the scheme in small letters the letter case of the values does not matter. *)
Theorem C84_values_partial : forall E t fs fs', to_upper fs = to_upper fs' ->
  pattern_prefix E (str "urn:epc:pat:" ++ t ++ ccolon :: fs) = pattern_prefix E (str "urn:epc:pat:" ++ t ++ ccolon :: fs').
Proof. exact value_case. Qed.
Print Assumptions C84_values_partial.

Lemma trim_prefix_app x : trim_prefix (str "urn:epc:pat:" ++ x) (str "urn:epc:pat:") = x.
Proof. unfold trim_prefix. assert (has_prefix (str "urn:epc:pat:" ++ x) (str "urn:epc:pat:") = true) as -> by (apply has_prefix_spec; exists x; reflexivity). reflexivity. Qed.
Lemma split_on_none sep s : ~ In sep s -> split_on sep s = [s].
Proof.
  induction s as [|c s IH]; intros H; [reflexivity|]. cbn. destruct (Ascii.eqb_spec c sep) as [->|N]; [destruct H; left; auto|].
  rewrite IH; [reflexivity|]. intros I. apply H. right; auto.
Qed.
Lemma split_on_two sep a b : ~ In sep a -> ~ In sep b -> split_on sep (a ++ sep :: b) = [a; b].
Proof. intros HA HB. rewrite split_app, !split_on_none by auto. reflexivity. Qed.
(** A capital letter in the name of the scheme makes the pattern match every tag. *)
Definition known_types : list gostring := [str "giai-96"; str "grai-96"; str "sgtin-96"; str "sscc-96"; str "iso17363"; str "iso17365"].
Theorem C84_type_refuted : forall E t fs, In (to_lower t) known_types -> t <> to_lower t -> ~ In ccolon fs ->
  pattern_prefix E (str "urn:epc:pat:" ++ t ++ ccolon :: fs) = Some [].
Proof.
  intros E t fs K NE NF. assert (~ In ccolon t) as NT.
  { intros I. apply (in_map lower_char) in I. change (map lower_char t) with (to_lower t) in I.
    destruct K as [K|[K|[K|[K|[K|[K|[]]]]]]]; rewrite <- K in I; cbn in I; intuition discriminate. }
  unfold pattern_prefix, urn_pat. rewrite trim_prefix_app, split_on_two by auto.
  assert (forall x, In x known_types -> to_lower x = x) as KL by (intros x [<-|[<-|[<-|[<-|[<-|[<-|[]]]]]]]; reflexivity).
  assert (~ In t known_types) as U by (intros I; apply KL in I; congruence).
  unfold make_prefix_filter_string.
  repeat match goal with |- context [seqb t ?x] => replace (seqb t x) with false by (symmetry; apply seqb_neq; intros X; apply U; rewrite X; cbn; auto 10) end.
  reflexivity.
Qed.
Print Assumptions C84_type_refuted.
(** The exact rule for a pattern the loader accepts, of a known scheme: its effect is
    that of the same pattern with its names in small letters exactly when it has
    its names in small letters, or the latter matches every tag as well. *)
Theorem C84_exactly_partial : forall E p t fs, to_lower p = str "urn:epc:pat:" -> In (to_lower t) known_types -> ~ In ccolon fs ->
  pattern_prefix E (p ++ t ++ ccolon :: fs) = pattern_prefix E (str "urn:epc:pat:" ++ to_lower t ++ ccolon :: fs) <->
  p = str "urn:epc:pat:" /\ (t = to_lower t \/ pattern_prefix E (str "urn:epc:pat:" ++ to_lower t ++ ccolon :: fs) = Some []).
Proof.
  intros E p t fs LP K NF.
  assert (exists k, pattern_prefix E (str "urn:epc:pat:" ++ to_lower t ++ ccolon :: fs) = Some k) as [k HK].
  { unfold pattern_prefix, urn_pat. rewrite trim_prefix_app, split_on_two; [eauto| |auto].
    destruct K as [<-|[<-|[<-|[<-|[<-|[<-|[]]]]]]]; cbn; intuition discriminate. }
  destruct (seqb p (str "urn:epc:pat:")) eqn:EP.
  - apply seqb_eq in EP. subst p. destruct (seqb t (to_lower t)) eqn:ET.
    + apply seqb_eq in ET. split; auto. intros _. rewrite <- ET. reflexivity.
    + apply seqb_neq in ET. rewrite (C84_type_refuted E t fs K ET NF). split; [intros <-; auto|intros [_ [X| ->]]; [congruence|auto]].
  - apply seqb_neq in EP. split; [|intros [X _]; congruence]. rewrite HK, C84_capitals_ignored_refuted; [discriminate| |].
    + unfold is_epc_pat. unfold to_lower in *. rewrite map_app, LP. apply has_prefix_spec. eexists. reflexivity.
    + destruct (has_prefix _ _) eqn:HP; auto. exfalso. apply EP. apply has_prefix_spec in HP. destruct HP as (r & HR).
      assert (length p = 12) as L by (apply (f_equal (@length ascii)) in LP; unfold to_lower in LP; rewrite map_length in LP; exact LP).
      apply (f_equal (firstn 12)) in HR. rewrite firstn_app, L, Nat.sub_diag, firstn_O, app_nil_r, <- L, firstn_all in HR. rewrite HR, L. reflexivity.
Qed.
Print Assumptions C84_exactly_partial.

Example C84_cases :
  (is_epc_pat (str "URN:EPC:PAT:sgtin-96:3.12345678") = true /\ has_prefix (str "URN:EPC:PAT:sgtin-96:3.12345678") (str "urn:epc:pat:") = false) /\
  (to_upper (str "25s.un.abc") = to_upper (str "25S.UN.ABC") /\
   pattern_prefix E0 (str "urn:epc:pat:iso17365:25s.un.abc") = Some (runes_to_6bin (str "25SUNABC"))) /\
  (In (to_lower (str "SGTIN-96")) known_types /\ pattern_prefix E0 (str "urn:epc:pat:SGTIN-96:3") = Some []) /\
  (exists sub, load_file (str "http://a,URN:epc:pat:sgtin-96:3.12345678" ++ nl) = Ok sub /\ length sub = 1 /\
     list_search (new_list E0 sub) pcgs1 ex_id = Ok ([], [], true)).
Proof.
  split; [split; vm_compute; reflexivity|]. split; [split; vm_compute; reflexivity|]. split; [split; [vm_compute; auto|vm_compute; reflexivity]|].
  eexists. split; [vm_compute; reflexivity|]. split; vm_compute; reflexivity.
Qed.
