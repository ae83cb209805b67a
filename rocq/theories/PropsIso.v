(** ISO 17363 and ISO 17365 identifiers (C42, C43, C45) and encoder prefixes (C46). *)
From Verif Require Import GoBase BinUtil MFilter MTdtEpc MTdtIso MTdtCore MScheme MSubs TestVectors Spec SpecEpc SpecIso.
From Verif Require Import PBase PNum PEpc PEpc2 PEpc3 PropsEpc PIso PIso2.
From Coq Require Import Lia.

(** ** C42 *)
(** ISO 17365, texts of at most 82 characters in all (the PC has five bits for the
    length in 16-bit words). *)
Theorem C42_iso17365 : forall E di iac cin sn, iac <> [] -> cin <> [] -> sn <> [] ->
  six_bit_text (di ++ iac ++ cin ++ sn) -> length (di ++ iac ++ cin ++ sn) <= 82 ->
  exists id pc, make_iso17365 E false di iac cin sn = Ok (id, 8 * length id, [], []) /\
    make_iso_pc (8 * length id) 162 = Ok pc /\
    translate pc id = Ok (str "urn:epc:id:iso17365:" ++ di ++ iac ++ cin ++ sn).
Proof.
  intros E di iac cin sn H1 H2 H3 F L.
  destruct (iso_round_trip (di ++ iac ++ cin ++ sn) 162 (str "17365:") L (six_bit_text_six _ F) eq_refl) as (id & pc & P & PC & _ & _ & T).
  exists id, pc. rewrite make_iso17365_text by auto. rewrite without_spaces_text in T by auto. auto.
Qed.
Print Assumptions C42_iso17365.

(** ISO 17363: the serial number is filled up to six characters and the check
    digit is appended. *)
Theorem C42_iso17363 : forall E oc ei csn, csn <> [] -> length csn <= 6 ->
  let serial := repeat "0"%char (6 - length csn) ++ csn in
  container_code oc ei serial ->
  exists id pc, make_iso17363 E false oc ei csn = Ok (id, 8 * length id, [], []) /\
    make_iso_pc (8 * length id) 169 = Ok pc /\
    translate pc id = Ok (str "urn:epc:id:iso17363:" ++ str "7B" ++ oc ++ ei ++ serial ++
                          [digit_char (check_digit (oc ++ ei ++ serial))]).
Proof.
  intros E oc ei csn HC HL serial (H1 & H2 & L4 & L6 & F). change serial with (full_serial csn) in *. clear serial.
  destruct (check_digit_ok (oc ++ ei ++ full_serial csn)) as (_ & CD & R); auto. { rewrite !app_length. lia. }
  set (t := str "7B" ++ oc ++ ei ++ full_serial csn ++ [digit_char (check_digit (oc ++ ei ++ full_serial csn))]).
  assert (Forall code_char t) as FT.
  { unfold t. apply Forall_app. split; [constructor; [left; reflexivity|constructor; [right; reflexivity|constructor]]|].
    apply Forall_app in F. destruct F as [F1 F]. apply Forall_app in F. destruct F as [F2 F3].
    do 3 (apply Forall_app; split; auto). constructor; [|constructor]. apply digit_char_digit; auto. }
  assert (six_bit_text t) as ST. { eapply Forall_impl; [|exact FT]. intros c Hc. destruct (alphabet_value c Hc) as (_ & _ & ?); auto. }
  assert (length t <= 82) as LT. { unfold t. rewrite !app_length. cbn [length str list_ascii_of_string]. lia. }
  destruct (iso_round_trip t 169 (str "17363:") LT (six_bit_text_six _ ST) eq_refl) as (id & pc & P & PC & _ & _ & T).
  exists id, pc. rewrite make_iso17363_text by auto. rewrite CD. cbn [bind]. rewrite digit_char_string by auto. fold t.
  rewrite without_spaces_text in T by auto. auto.
Qed.
Print Assumptions C42_iso17363.

(** Spaces are not kept: for every text over the full 6-bit character set the
    translation is the text without its spaces. *)
Theorem C42_spaces_exact : forall E di iac cin sn, iac <> [] -> cin <> [] -> sn <> [] ->
  Forall six_bit (di ++ iac ++ cin ++ sn) -> length (di ++ iac ++ cin ++ sn) <= 82 ->
  exists id pc, make_iso17365 E false di iac cin sn = Ok (id, 8 * length id, [], []) /\
    make_iso_pc (8 * length id) 162 = Ok pc /\
    translate pc id = Ok (str "urn:epc:id:iso17365:" ++ without_spaces (di ++ iac ++ cin ++ sn)).
Proof.
  intros E di iac cin sn H1 H2 H3 F L.
  destruct (iso_round_trip (di ++ iac ++ cin ++ sn) 162 (str "17365:") L F eq_refl) as (id & pc & P & PC & _ & _ & T).
  exists id, pc. rewrite make_iso17365_text by auto. auto.
Qed.
Print Assumptions C42_spaces_exact.

(** A space in a field is lost; a text of 83 characters makes the encoder's PC
    computation crash. *)
Theorem C42_beyond_limits :
  (exists id pc, make_iso17365 E0 false (str "25S") (str "UN") (str "AB C") (str "1") = Ok (id, 8 * length id, [], []) /\
     make_iso_pc (8 * length id) 162 = Ok pc /\ translate pc id = Ok (str "urn:epc:id:iso17365:25SUNABC1")) /\
  make_iso E0 false (str "17365") [] [] [] (repeat "A"%char 80) (str "B") (str "C") (str "D") = Panic.
Proof. split; [exists [203; 84; 213; 56; 16; 160; 15; 24]%N; eexists; do 2 (split; [vm_compute; reflexivity|]); vm_compute; reflexivity|vm_compute; reflexivity]. Qed.
Print Assumptions C42_beyond_limits.

Example C42_hypotheses : six_bit_text (str "25SUNABC0THANK0YOU0FOR0READING1") /\ container_code (str "ABC") (str "U") (str "123456") /\
  digit_char (check_digit (str "ABCU123456")) = "0"%char.
Proof.
  split; [|split].
  - apply Forall_forall. intros c I. cbn in I. repeat (destruct I as [<-|I]; [split; [unfold six_bit; cbn; lia|discriminate]|]). destruct I.
  - split; [discriminate|]. split; [discriminate|]. do 2 (split; [reflexivity|]). apply Forall_forall. intros c I. cbn in I. repeat (destruct I as [<-|I]; [apply code_char_b_ok; reflexivity|]). destruct I.
  - reflexivity.
Qed.

(** ** C43 *)
(** Both check digit functions compute the ISO 6346 digit, and refuse codes of
    another length. *)
Theorem C43_check_digit : forall s,
  (length s = 10 -> Forall code_char s ->
     get_iso6346_cd s = Ok (check_digit s) /\ s_get_iso6346_cd s = Ok (check_digit s) /\ (0 <= check_digit s <= 9)%Z) /\
  (length s <> 10 -> get_iso6346_cd s = Err /\ s_get_iso6346_cd s = Err).
Proof.
  intros s. split; [apply check_digit_ok|]. intros H. unfold get_iso6346_cd, s_get_iso6346_cd.
  apply Nat.eqb_neq in H. rewrite H. auto.
Qed.
Print Assumptions C43_check_digit.

(** A single wrong character is noticed by the sum modulo 11 exactly when the two
    characters have different values modulo 11. *)
Theorem C43_single_error : forall a c c' b,
  (weighted_sum 1 (a ++ c :: b) mod 11 <> weighted_sum 1 (a ++ c' :: b) mod 11)%Z <->
  (iso6346_value c mod 11 <> iso6346_value c' mod 11)%Z.
Proof. intros. rewrite single_error. reflexivity. Qed.
Print Assumptions C43_single_error.

(** In particular one wrong digit. *)
Theorem C43_wrong_digit : forall a c c' b, is_digit c = true -> is_digit c' = true -> c <> c' ->
  (weighted_sum 1 (a ++ c :: b) mod 11 <> weighted_sum 1 (a ++ c' :: b) mod 11)%Z.
Proof.
  intros a c c' b D D' N. apply C43_single_error. unfold iso6346_value. rewrite D, D'. intros E. apply N.
  unfold is_digit in *. rewrite <- (ascii_N_embedding c), <- (ascii_N_embedding c'). f_equal.
  apply andb_true_iff in D, D'. rewrite !N.leb_le in *.
  rewrite !Z.mod_small in E by lia. lia.
Qed.
Print Assumptions C43_wrong_digit.

Example C43_hypotheses : check_digit (str "CSQU305438") = 3%Z /\ check_digit (str "ABCU123456") = 0%Z /\
  get_iso6346_cd (str "CSQU305438") = Ok 3%Z /\ iso6346_value "A"%char = 10%Z /\ iso6346_value "B"%char = 12%Z /\ iso6346_value "Z"%char = 38%Z /\
  (* different letters may have the same value modulo 11 *)
  (iso6346_value "A"%char mod 11 = iso6346_value "K"%char mod 11)%Z.
Proof. do 6 (split; [vm_compute; reflexivity|]). vm_compute. reflexivity. Qed.

(** ** C45 *)
(** [iso_tag E t id]: one of the encoders made the identifier [id] for the text [t]. *)
Inductive iso_tag (E : env) : gostring -> list N -> Prop :=
| tag17365 di iac cin sn id n : iac <> [] -> cin <> [] -> sn <> [] ->
    make_iso17365 E false di iac cin sn = Ok (id, n, [], []) -> iso_tag E (di ++ iac ++ cin ++ sn) id
| tag17363 oc ei csn id n : oc <> [] -> ei <> [] -> csn <> [] -> length csn <= 6 ->
    Forall code_char (oc ++ ei ++ csn) ->
    make_iso17363 E false oc ei csn = Ok (id, n, [], []) ->
    let serial := repeat "0"%char (6 - length csn) ++ csn in
    iso_tag E (str "7B" ++ oc ++ ei ++ serial ++ [digit_char (check_digit (oc ++ ei ++ serial))]) id.
Lemma iso_tag_bits E t id : iso_tag E t id -> wf_bytes id /\ bits_of_bytes id = text_bits t ++ pad_bits (iso_pad (length t)).
Proof.
  intros [di iac cin sn id' n H1 H2 H3 M|oc ei csn id' n H1 H2 H3 L F M serial].
  - rewrite make_iso17365_text in M by auto. destruct (pack_iso_text (di ++ iac ++ cin ++ sn)) as (i & P & W & _ & B).
    rewrite P in M. injection M as <- <-. auto.
  - change serial with (full_serial csn). rewrite make_iso17363_text in M by auto.
    assert (Forall code_char (oc ++ ei ++ full_serial csn)) as F'.
    { apply Forall_app in F. destruct F as [F1 F]. apply Forall_app in F. destruct F as [F2 F3]. apply Forall_app; split; auto. apply Forall_app; split; auto.
      unfold full_serial. apply Forall_app; split; auto. apply Forall_forall. intros c I. apply repeat_spec in I. subst c. left; reflexivity. }
    destruct (Nat.eq_dec (length (oc ++ ei ++ full_serial csn)) 10) as [E10|N10].
    + destruct (check_digit_ok _ E10 F') as (_ & CD & R). rewrite CD in M. cbn [bind] in M. rewrite digit_char_string in M by auto.
      destruct (pack_iso_text (str "7B" ++ oc ++ ei ++ full_serial csn ++ [digit_char (check_digit (oc ++ ei ++ full_serial csn))])) as (i & P & W & _ & B).
      rewrite P in M. injection M as <- <-. auto.
    + destruct (C43_check_digit (oc ++ ei ++ full_serial csn)) as [_ X]. destruct (X N10) as [_ X']. rewrite X' in M. discriminate.
Qed.
(** Patterns of one to four fields (one to three for ISO 17363).  The filter
    matches exactly the tags whose text starts with the fields; on a tag too short
    for the pattern it may crash instead of answering no (C02). *)
Theorem C45_iso_filter_partial : forall E E' ty l t id, In ty [str "iso17363"; str "iso17365"] ->
  1 <= length l -> length l <= (if seqb ty (str "iso17363") then 3 else 4) ->
  six_bit_text (concat l) -> concat l <> [] -> iso_tag E' t id -> Forall six_bit t ->
  exists s, make_prefix_filter_string E ty l = Ok s /\
    (match_filter (new_filter s 0) id = Ok true <-> is_prefix (concat l) t) /\
    match_filter (new_filter s 0) id <> Err /\
    (6 * length (concat l) <= 8 * length id ->
       exists b, match_filter (new_filter s 0) id = Ok b /\ (b = true <-> is_prefix (concat l) t)).
Proof.
  intros E E' ty l t id T L1 L2 S N TG F. exists (runes_to_6bin (concat l)). split; [apply iso_fields_prefix; auto|].
  destruct (iso_tag_bits _ _ _ TG) as [W B]. apply (iso_match (concat l) t id); auto.
Qed.
Print Assumptions C45_iso_filter_partial.

(** When the match crashes: exactly when the fields go on where the tag's text
    ends and the filler of the last 16-bit word, if there is any, looks like the
    beginning of the next character (one of ! to /, or of ! to #). *)
Theorem C45_crash_exactly : forall E E' ty l t id, In ty [str "iso17363"; str "iso17365"] ->
  1 <= length l -> length l <= (if seqb ty (str "iso17363") then 3 else 4) ->
  six_bit_text (concat l) -> concat l <> [] -> iso_tag E' t id -> Forall six_bit t ->
  exists s, make_prefix_filter_string E ty l = Ok s /\
    (match_filter (new_filter s 0) id = Panic <->
     exists c r, concat l = t ++ c :: r /\
       (length t mod 8 = 0 \/
        length t mod 8 = 5 /\ (33 <= N_of_ascii c <= 47)%N \/
        length t mod 8 = 2 /\ (33 <= N_of_ascii c <= 35)%N)).
Proof.
  intros E E' ty l t id T L1 L2 S N TG F. exists (runes_to_6bin (concat l)). split; [apply iso_fields_prefix; auto|].
  destruct (iso_tag_bits _ _ _ TG) as [W B]. apply (iso_match_panic (concat l) t id); auto.
Qed.
Print Assumptions C45_crash_exactly.
(** With letters and digits: only on texts of eight characters, sixteen, and so on. *)
Theorem C45_letters_and_digits : forall E E' ty l t id, In ty [str "iso17363"; str "iso17365"] ->
  1 <= length l -> length l <= (if seqb ty (str "iso17363") then 3 else 4) ->
  Forall code_char (concat l) -> concat l <> [] -> iso_tag E' t id -> Forall six_bit t ->
  exists s, make_prefix_filter_string E ty l = Ok s /\
    (match_filter (new_filter s 0) id = Panic <-> length t mod 8 = 0 /\ is_prefix t (concat l) /\ t <> concat l).
Proof.
  intros E E' ty l t id T L1 L2 S N TG F. assert (forall c, code_char c -> six_bit c /\ c <> space /\ (48 <= N_of_ascii c)%N) as CC.
  { intros c H. assert (implb (is_digit c || is_upper c) (N.leb 48 (N_of_ascii c) && N.ltb (N_of_ascii c) 96) = true) as A
      by (revert c H; intros c _; revert c; apply char_forallb; vm_compute; reflexivity).
    replace (is_digit c || is_upper c) with true in A by (destruct H as [-> | ->]; [|rewrite orb_true_r]; reflexivity). cbn [implb] in A.
    apply andb_true_iff in A. destruct A as [A1 A2]. apply N.leb_le in A1. apply N.ltb_lt in A2. unfold six_bit. split; [lia|]. split; auto. intros ->. vm_compute in A1. congruence. }
  destruct (C45_crash_exactly E E' ty l t id T L1 L2) as (s & M & X); auto.
  { eapply Forall_impl; [|exact S]. intros c Hc. destruct (CC c Hc) as (H1 & H2 & _). auto. }
  exists s. split; auto. rewrite X. split.
  - intros (c & r & E1 & D). assert (code_char c) as Hc.
    { rewrite Forall_forall in S. apply S. rewrite E1. apply in_or_app. right; left; auto. }
    apply CC in Hc. destruct D as [D|[[_ D]|[_ D]]]; [|lia|lia]. split; auto. split; [exists (c :: r); auto|].
    intros E2. rewrite <- E2 in E1. apply (f_equal (@length ascii)) in E1. rewrite app_length in E1. cbn in E1. lia.
  - intros (D & [q Q] & NE). destruct q as [|c r]; [rewrite app_nil_r in Q; congruence|]. eauto.
Qed.
Print Assumptions C45_letters_and_digits.
Example C45_crash_case : iso_tag E0 (str "25SUNAB1") (match make_iso17365 E0 false (str "25S") (str "UN") (str "AB") (str "1") with Ok (id, _, _, _) => id | _ => [] end) /\
  length (str "25SUNAB1") mod 8 = 0 /\ Forall code_char (str "25SUNAB12") /\ Forall six_bit (str "25SUNAB1").
Proof.
  split; [|split; [reflexivity|]].
  - refine (tag17365 E0 (str "25S") (str "UN") (str "AB") (str "1") _ _ _ _ _ _); try discriminate. vm_compute. reflexivity.
  - split; repeat (apply Forall_cons; [first [left; reflexivity|right; reflexivity|vm_compute; split; [discriminate|reflexivity]]|]); apply Forall_nil.
Qed.

(** The complete four-field pattern of a container is refused: the check digit is
    computed from the wrong fields. *)
Theorem C45_iso17363_four_fields : forall E oc ei csn, container_code oc ei csn -> length oc = 3 ->
  make_prefix_filter_string E (str "iso17363") [str "7B"; oc; ei; csn] = Err.
Proof. intros E oc ei csn (_ & _ & _ & L & _) L3. apply iso17363_four; [lia|]. rewrite L3. cbn. lia. Qed.
Print Assumptions C45_iso17363_four_fields.

(** ... and a pattern longer than the identifier makes the filter crash. *)
Theorem C45_refuted :
  make_prefix_filter_string E0 (str "iso17363") [str "7B"; str "ABC"; str "U"; str "123456"] = Err /\
  (exists id s, iso_tag E0 (str "25SUNAB1") id /\
     make_prefix_filter_string E0 (str "iso17365") [str "25S"; str "UN"; str "AB"; str "12"] = Ok s /\
     match_filter (new_filter s 0) id = Panic).
Proof.
  split; [vm_compute; reflexivity|]. do 2 eexists. split.
  { refine (tag17365 E0 (str "25S") (str "UN") (str "AB") (str "1") _ _ _ _ _ _); try discriminate. vm_compute. reflexivity. }
  split; [vm_compute; reflexivity|vm_compute; reflexivity].
Qed.
Print Assumptions C45_refuted.

Example C45_hypotheses : exists id, iso_tag E0 (str "7BABCU1234560") id /\ is_prefix (concat [str "7B"; str "ABC"]) (str "7BABCU1234560") /\
  six_bit_text (concat [str "7B"; str "ABC"]) /\ Forall six_bit (str "7BABCU1234560").
Proof.
  eexists. split; [|split; [|split]].
  - refine (tag17363 E0 (str "ABC") (str "U") (str "123456") _ _ _ _ _ _ _ _); try discriminate; [cbn; lia| |vm_compute; reflexivity].
    apply Forall_forall. intros c I. cbn in I. repeat (destruct I as [<-|I]; [apply code_char_b_ok; reflexivity|]). destruct I.
  - exists (str "U1234560"). reflexivity.
  - apply Forall_forall. intros c I. cbn in I. repeat (destruct I as [<-|I]; [split; [unfold six_bit; cbn; lia|discriminate]|]). destruct I.
  - apply Forall_forall. intros c I. cbn in I. repeat (destruct I as [<-|I]; [unfold six_bit; cbn; lia|]). destruct I.
Qed.

(** ** C46 *)
(** [encode_prefix k] (PIso2.v) is the encoder of scheme [k] with [pf = true];
    [given] (SpecIso.v) cuts the list of fields before the first empty one.  The encoder and
    the subscription side may draw different random bits. *)
Theorem C46_epc_partial : forall E E' k f, (forall s, e_dec_bad E s = e_dec_bad E' s) ->
  f_filter f <> [] -> Forall clean (field_texts f) ->
  let urn := str "urn:epc:pat:" ++ pattern_type k ++ str ":" ++ dotted (given (firstn (field_count k) (field_texts f))) in
  exists s, encode_prefix k E f = Ok ([], s, urn) /\ pattern_prefix E' urn = Some s.
Proof. intros E E' k f B. apply prefix_agrees. exact B. Qed.
Print Assumptions C46_epc_partial.

Theorem C46_iso17365_partial : forall E E' di iac cin sn, di <> [] -> Forall clean [di; iac; cin; sn] ->
  let urn := str "urn:epc:pat:iso17365:" ++ dotted (given [di; iac; cin; sn]) in
  exists s, make_iso17365 E true di iac cin sn = Ok ([], 0, s, urn) /\ pattern_prefix E' urn = Some s.
Proof. exact iso17365_prefix_agrees. Qed.
Print Assumptions C46_iso17365_partial.

Theorem C46_iso17363_partial : forall E E' oc ei, Forall clean [oc; ei] ->
  let urn := str "urn:epc:pat:iso17363:" ++ dotted (given [str "7B"; oc; ei]) in
  exists s, make_iso17363 E true oc ei [] = Ok ([], 0, s, urn) /\ pattern_prefix E' urn = Some s.
Proof. exact iso17363_prefix_agrees. Qed.
Print Assumptions C46_iso17363_partial.

(** With an empty filter value each side draws its own random bits; the complete
    container pattern is accepted by the encoder and turned into the match-all
    filter on the subscription side. *)
Definition E1 : env := {| e_rand := fun n => repeat c1 n; e_rand_text := e_rand_text E0; e_dec_bad := e_dec_bad E0 |}.
Theorem C46_refuted :
  (exists s s', encode_prefix Sgtin E0 (ex_fields "" "" "" "") = Ok ([], s, str "urn:epc:pat:sgtin-96:") /\
     pattern_prefix E1 (str "urn:epc:pat:sgtin-96:") = Some s' /\ s <> s') /\
  (exists s, make_iso17363 E0 true (str "ABC") (str "U") (str "123456") = Ok ([], 0, s, str "urn:epc:pat:iso17363:7B.ABC.U.123456") /\
     length s = 78 /\ pattern_prefix E0 (str "urn:epc:pat:iso17363:7B.ABC.U.123456") = Some []).
Proof.
  split.
  - do 2 eexists. split; [vm_compute; reflexivity|]. split; [vm_compute; reflexivity|]. discriminate.
  - eexists. split; [vm_compute; reflexivity|]. split; vm_compute; reflexivity.
Qed.
Print Assumptions C46_refuted.

Lemma clean_b s : seqb (to_upper s) s && negb (existsb (Ascii.eqb ".") s) && negb (existsb (Ascii.eqb ":") s) = true -> clean s.
Proof.
  rewrite !andb_true_iff, !negb_true_iff. intros [[H1 H2] H3]. apply seqb_eq in H1. split; auto.
  split; intros I; [rewrite <- not_true_iff_false in H2; apply H2|rewrite <- not_true_iff_false in H3; apply H3];
  apply existsb_exists; eexists; (split; [exact I|apply Ascii.eqb_refl]).
Qed.
(** With an empty filter value both sides draw three bits.  The GIAI encoder then
    writes the value it has drawn into the pattern, and the two agree; with the
    other schemes they agree exactly when the two draws do. *)
Definition draws (E : env) (b1 b2 b3 : bool) : Prop := e_rand E 3 = bits_to_str [b1; b2; b3].
Theorem C46_empty_filter_partial : forall E E' k f b1 b2 b3 b1' b2' b3', (forall s, e_dec_bad E s = e_dec_bad E' s) ->
  f_filter f = [] -> Forall clean (field_texts f) -> draws E b1 b2 b3 -> draws E' b1' b2' b3' ->
  let fv := match k with Giai => dec_string (N_of_bits [b1; b2; b3]) | _ => [] end in
  let urn := str "urn:epc:pat:" ++ pattern_type k ++ str ":" ++ dotted (fv :: given (tl (firstn (field_count k) (field_texts f)))) in
  exists s s', encode_prefix k E f = Ok ([], s, urn) /\ pattern_prefix E' urn = Some s' /\
    (s = s' <-> k = Giai \/ [b1; b2; b3] = [b1'; b2'; b3']).
Proof.
  intros E E' k f b1 b2 b3 b1' b2' b3' BAD HF HC D D'. cbv zeta.
  set (fv := match k with Giai => dec_string (N_of_bits [b1; b2; b3]) | _ => [] end).
  assert (Forall clean (fv :: given (tl (firstn (field_count k) (field_texts f))))) as CL.
  { assert (forall n l, Forall clean l -> Forall clean (given (firstn n l))) as X.
    { induction n as [|n IH]; intros l H; [constructor|]. destruct H as [|s l Hs H]; [constructor|]. cbn [firstn given]. destruct s; constructor; auto. }
    constructor.
    - unfold fv. assert (clean []) as C0 by (split; [reflexivity|]; split; intros []). destruct k; auto.
      apply clean_b. destruct b1, b2, b3; reflexivity.
    - destruct k; cbn [field_count has_serial field_texts firstn tl]; inversion HC as [|? ? _ HC']; first [exact (X 3 _ HC')|exact (X 2 _ HC')]. }
  rewrite urn_parts; auto; [|destruct k; cbn; intuition discriminate|discriminate]. clear CL HC.
  assert (e_rand E 3 = e_rand E' 3 <-> [b1; b2; b3] = [b1'; b2'; b3']) as EQ.
  { rewrite D, D'. destruct b1, b2, b3, b1', b2', b3'; split; intros H; try reflexivity; discriminate. }
  assert (length (e_rand E 3) = length (e_rand E' 3)) as LE by (rewrite D, D', !bits_to_str_length; reflexivity).
  assert (forall h t, h ++ e_rand E 3 ++ t = h ++ e_rand E' 3 ++ t <-> [b1; b2; b3] = [b1'; b2'; b3']) as HT.
  { intros h t. rewrite <- EQ. split; [|congruence]. intros H. apply app_inv_head in H. apply app_inv_tail in H. auto. }
  assert (forall h, h ++ e_rand E 3 = h ++ e_rand E' 3 <-> [b1; b2; b3] = [b1'; b2'; b3']) as HT0.
  { intros h. rewrite <- EQ. split; [|congruence]. intros H. apply app_inv_head in H. auto. }
  destruct (s_getters E k) as (G1 & G2 & G3 & G4 & G5).
  destruct f as [v cp ref ser]; cbn [f_filter f_cp f_ref f_ser] in *. subst v. unfold field_texts. cbn [f_filter f_cp f_ref f_ser].
  destruct k; cbn [encode_prefix f_filter f_cp f_ref f_ser field_count has_serial firstn tl s_table t_table] in *.
  - unfold fv, make_sgtin96. rewrite G1. cbn [get_filter].
    destruct cp as [|c cp]; [do 2 eexists; split; [reflexivity|]; split; [reflexivity|]; rewrite HT0; intuition discriminate|]. rewrite G2, G3, (get_cp_same E E') by auto.
    destruct ref as [|r ref]; [do 2 eexists; split; [reflexivity|]; split; [reflexivity|]; rewrite HT; intuition discriminate|]. rewrite G4, (get_ref_same E E') by (auto; discriminate).
    destruct ser as [|x ser]; [do 2 eexists; split; [reflexivity|]; split; [reflexivity|]; rewrite HT; intuition discriminate|]. rewrite G5, (get_serial_same E E') by (auto; discriminate).
    do 2 eexists; split; [reflexivity|]; split; [reflexivity|]; rewrite HT; intuition discriminate.
  - unfold fv, make_sscc96. rewrite G1. cbn [get_filter].
    destruct cp as [|c cp]; [do 2 eexists; split; [reflexivity|]; split; [reflexivity|]; rewrite HT0; intuition discriminate|]. rewrite G2, G3, (get_cp_same E E') by auto.
    destruct ref as [|r ref]; [do 2 eexists; split; [reflexivity|]; split; [reflexivity|]; rewrite HT; intuition discriminate|]. rewrite G4, (get_ref_same E E') by (auto; discriminate).
    do 2 eexists; split; [reflexivity|]; split; [reflexivity|]; rewrite HT; intuition discriminate.
  - unfold fv, make_grai96. rewrite G1. cbn [get_filter].
    destruct cp as [|c cp]; [do 2 eexists; split; [reflexivity|]; split; [reflexivity|]; rewrite HT0; intuition discriminate|]. rewrite G2, G3, (get_cp_same E E') by auto.
    destruct ref as [|r ref]; [do 2 eexists; split; [reflexivity|]; split; [reflexivity|]; rewrite HT; intuition discriminate|]. rewrite G4, (get_ref_same E E') by (auto; discriminate).
    destruct ser as [|x ser]; [do 2 eexists; split; [reflexivity|]; split; [reflexivity|]; rewrite HT; intuition discriminate|]. rewrite G5, (get_serial_same E E') by (auto; discriminate).
    do 2 eexists; split; [reflexivity|]; split; [reflexivity|]; rewrite HT; intuition discriminate.
  - assert (bin_runes_to_dec (e_rand E 3) = fv) as FV by (unfold fv; rewrite D; destruct b1, b2, b3; reflexivity).
    assert (get_filter E' fv = e_rand E 3) as GF by (unfold fv; rewrite D; destruct b1, b2, b3; reflexivity).
    unfold make_giai96. rewrite G1. cbn [get_filter]. rewrite FV.
    destruct cp as [|c cp].
    { exists (str "00110100" ++ e_rand E 3), (str "00110100" ++ get_filter E' fv). split; [reflexivity|]. split; [reflexivity|]. rewrite GF. intuition. }
    rewrite G2, G3, (get_cp_same E E') by auto. destruct ref as [|r ref].
    { eexists _, (str "00110100" ++ get_filter E' fv ++ _). split; [reflexivity|]. split; [reflexivity|]. rewrite GF. intuition. }
    rewrite G4, (get_ref_same E E') by (auto; discriminate).
    eexists _, (str "00110100" ++ get_filter E' fv ++ _). split; [reflexivity|]. split; [reflexivity|]. rewrite GF. intuition.
Qed.
Print Assumptions C46_empty_filter_partial.
Example C46_empty_filter_case : draws E0 false false false /\ draws E1 true true true /\
  Forall clean (field_texts (ex_fields "" "0614141" "" "")) /\
  exists s, encode_prefix Giai E1 (ex_fields "" "0614141" "" "") = Ok ([], s, str "urn:epc:pat:giai-96:7.0614141") /\
    pattern_prefix E0 (str "urn:epc:pat:giai-96:7.0614141") = Some s.
Proof.
  split; [reflexivity|]. split; [reflexivity|]. split; [repeat (apply Forall_cons; [apply clean_b; reflexivity|]); constructor|].
  eexists. split; [vm_compute; reflexivity|vm_compute; reflexivity].
Qed.
(** The complete container pattern: accepted by the encoder, refused, and so the
    match-all filter, on the subscription side; for owner codes of any length but two
    (the standard's have three letters). *)
Theorem C46_container_refuted : forall E E' oc ei csn s urn, oc <> [] -> length oc <> 2 -> ei <> [] -> csn <> [] -> Forall clean [oc; ei; csn] ->
  make_iso17363 E true oc ei csn = Ok ([], 0, s, urn) -> pattern_prefix E' urn = Some [] /\ s <> [].
Proof.
  intros E E' oc ei csn s urn NO LO NE NC F M. unfold make_iso17363 in M.
  destruct oc as [|o oc']; [congruence|]. set (oc := o :: oc') in *. destruct ei as [|x ei']; [congruence|]. set (ei := x :: ei') in *.
  destruct csn as [|y csn']; [congruence|]. set (csn := y :: csn') in *. cbn [bind] in M. clearbody oc ei csn. clear o oc' x ei' y csn'.
  inversion F as [|? ? C1 F1]; inversion F1 as [|? ? C2 F2]; inversion F2 as [|? ? C3 _]; subst.
  match type of M with bind ?r _ = _ => destruct r as [z| |] eqn:Z end; cbn [bind] in M; try discriminate.
  assert (clean z /\ length z = 6) as [CZ LZ].
  { destruct (Nat.ltb_spec (length csn) 6); [assert (z = zero_padding (6 - length csn) ++ csn) as -> by congruence|
      destruct (Nat.ltb_spec 6 (length csn)); [discriminate|assert (z = csn) as -> by congruence; split; [auto|lia]]].
    split; [|unfold zero_padding; rewrite app_length, repeat_length; lia].
    destruct C3 as (U & D & C). assert (forall n c, In c (zero_padding n) -> c = c0) as ZP by (intros n c I; apply repeat_spec in I; auto).
    split; [unfold to_upper in *; rewrite map_app, U; f_equal; unfold zero_padding; clear; induction (6 - length csn) as [|n IH]; cbn; [reflexivity|rewrite IH; reflexivity]|].
    split; intros I; apply in_app_iff in I; destruct I as [I|I]; auto; apply ZP in I; discriminate. }
  match type of M with bind ?r _ = _ => destruct r as [cd| |] end; cbn [bind] in M; try discriminate.
  match type of M with Ok (_, _, ?a, ?b) = _ => assert (s = a) as -> by congruence; assert (urn = b) as -> by congruence end. split; [|discriminate].
  replace (str "urn:epc:pat:iso17363:" ++ str "7B" ++ str "." ++ oc ++ str "." ++ ei ++ str "." ++ z) with
    (str "urn:epc:pat:" ++ str "iso17363" ++ str ":" ++ dotted [str "7B"; oc; ei; z]) by reflexivity.
  rewrite urn_parts.
  - rewrite iso17363_four; [reflexivity|lia|]. cbn. lia.
  - cbn; intuition discriminate.
  - discriminate.
  - repeat (apply Forall_cons; [auto|]); [|constructor]. apply clean_b. reflexivity.
Qed.
Print Assumptions C46_container_refuted.
(** For all containers: the two sides agree if and only if the owner code has two
    letters and the check digit, which the subscription side computes from the data
    identifier and the owner code, happens to be right. *)
Lemma code_clean s : Forall code_char s -> clean s.
Proof.
  intros F. destruct (sum_weighted s 1 F) as (_ & _ & U). split; [exact U|].
  rewrite Forall_forall in F. split; intros I; apply F, code_char_b_ok in I; discriminate.
Qed.
Lemma digit_runes a b : (0 <= a <= 9)%Z -> (0 <= b <= 9)%Z -> runes_to_6bin (dec_string_Z a) = runes_to_6bin (dec_string_Z b) -> a = b.
Proof.
  intros A B H.
  assert (forallb (fun x => forallb (fun y => negb (seqb (runes_to_6bin (dec_string_Z (Z.of_nat x))) (runes_to_6bin (dec_string_Z (Z.of_nat y)))) || Nat.eqb x y) (seq 0 10)) (seq 0 10) = true) as X by (vm_compute; reflexivity).
  rewrite forallb_forall in X. specialize (X (Z.to_nat a) ltac:(apply in_seq; lia)). rewrite forallb_forall in X. specialize (X (Z.to_nat b) ltac:(apply in_seq; lia)).
  rewrite !Z2Nat.id in X by lia. rewrite H, seqb_refl in X. apply Nat.eqb_eq in X. lia.
Qed.
Theorem C46_container_exactly_partial : forall E E' oc ei csn, csn <> [] -> length csn <= 6 ->
  let serial := repeat "0"%char (6 - length csn) ++ csn in container_code oc ei serial ->
  exists s urn, make_iso17363 E true oc ei csn = Ok ([], 0, s, urn) /\
    (pattern_prefix E' urn = Some s <-> length oc = 2 /\ check_digit (oc ++ ei ++ serial) = check_digit (str "7B" ++ oc ++ serial)).
Proof.
  intros E E' oc ei csn NC L serial (NO & NE & L4 & L6 & F).
  assert (length (oc ++ ei ++ serial) = 10) as L10 by (rewrite !app_length; lia).
  destruct (check_digit_ok _ L10 F) as (_ & CD & R).
  apply Forall_app in F as [FO F]. apply Forall_app in F as [FE FS].
  exists (runes_to_6bin (str "7B") ++ runes_to_6bin oc ++ runes_to_6bin ei ++ runes_to_6bin (serial ++ dec_string_Z (check_digit (oc ++ ei ++ serial)))),
    (str "urn:epc:pat:" ++ str "iso17363" ++ str ":" ++ dotted [str "7B"; oc; ei; serial]). split.
  - unfold make_iso17363. destruct oc as [|o oc']; [congruence|]. set (oc := o :: oc') in *. destruct ei as [|x ei']; [congruence|]. set (ei := x :: ei') in *.
    destruct csn as [|y csn']; [congruence|]. set (csn := y :: csn') in *. cbn [bind]. clearbody oc ei csn.
    match goal with |- bind ?r _ = _ => assert (r = Ok serial) as -> end.
    { destruct (Nat.ltb_spec (length csn) 6); [reflexivity|]. destruct (Nat.ltb_spec 6 (length csn)); [lia|]. unfold serial. replace (6 - length csn) with 0 by lia. reflexivity. }
    cbn [bind]. rewrite CD. reflexivity.
  - clearbody serial. rewrite urn_parts; [|cbn; intuition discriminate|discriminate|].
    2:{ repeat (apply Forall_cons; [auto using code_clean|]); [|constructor]. apply clean_b. reflexivity. }
    destruct (Nat.eq_dec (length oc) 2) as [O2|O2].
    + change (make_prefix_filter_string E' (str "iso17363") [str "7B"; oc; ei; serial]) with (new_prefix_filter_iso17363 [str "7B"; oc; ei; serial]).
      unfold new_prefix_filter_iso17363. rewrite L6. cbn [Nat.ltb Nat.leb].
      destruct (check_digit_ok (str "7B" ++ oc ++ serial)) as (CD' & _ & R').
      { rewrite !app_length. cbn. lia. }
      { apply Forall_app. split; [repeat constructor; apply code_char_b_ok; reflexivity|]. apply Forall_app. auto. }
      rewrite CD'. cbn [bind]. split.
      * intros X. split; auto. assert (forall a b : gostring, Some a = Some b -> a = b) as I by (intros; congruence). apply I in X.
        rewrite !runes_app in X. do 4 apply app_inv_head in X. symmetry. apply digit_runes; auto.
      * intros [_ ->]. reflexivity.
    + rewrite iso17363_four; [|lia|cbn; lia]. split; [discriminate|]. intros [H _]. congruence.
Qed.
Print Assumptions C46_container_exactly_partial.
Example C46_container_exactly_case : container_code (str "7B") (str "7B") (str "123456") /\ container_code (str "ABC") (str "U") (str "123456").
Proof.
  assert (forall s, forallb code_char_b s = true -> Forall code_char s) as F.
  { intros s H. apply Forall_forall. rewrite forallb_forall in H. intros c I. apply code_char_b_ok. auto. }
  split; (split; [discriminate|split; [discriminate|split; [reflexivity|split; [reflexivity|apply F; reflexivity]]]]).
Qed.
Example C46_container_case : Forall clean [str "ABC"; str "U"; str "123456"] /\
  exists s urn, make_iso17363 E0 true (str "ABC") (str "U") (str "123456") = Ok ([], 0, s, urn).
Proof.
  split; [repeat (apply Forall_cons; [apply clean_b; reflexivity|]); constructor|]. do 2 eexists. vm_compute. reflexivity.
Qed.
Example C46_hypotheses : Forall clean (field_texts ex_f1) /\ (exists s, encode_prefix Sgtin E0 ex_f1 = Ok ([], s, str "urn:epc:pat:sgtin-96:3.0614141.812345.6789")) /\
  Forall clean [str "25S"; str "UN"; str "ABC"; str "1"].
Proof.
  split; [|split].
  - unfold field_texts. repeat constructor; apply clean_b; vm_compute; reflexivity.
  - eexists. vm_compute. reflexivity.
  - repeat constructor; apply clean_b; vm_compute; reflexivity.
Qed.
