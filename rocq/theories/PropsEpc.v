(** EPC encoders, pattern filters and end-to-end reporting (C40, C41, C44, C47). *)
From Verif Require Import GoBase BinUtil MFilter MTdtEpc MTdtCore MScheme MSubs MList TestVectors Spec SpecEpc.
From Verif Require Import PSubs2 PShared PBase PNum PTdt2 PropsTdt PExamples PEpc PEpc2 PEpc3 PEpc4.
From Coq Require Import Lia Permutation.

(** [encode k] (PEpc.v) is the encoder of scheme [k] called for an identifier:
    [make_sgtin96], [make_sscc96], [make_grai96] or [make_giai96] with [pf = false]. *)

(** ** C40 *)
Theorem C40_round_trip : forall k E f pc, epc_pc pc -> urn_fields k f ->
  exists id, encode k E f = Ok (id, [], []) /\ carries k f id /\ translate pc id = Ok (urn_of k f).
Proof. exact round_trip. Qed.
Print Assumptions C40_round_trip.

(** A GRAI with a twelve-digit company prefix has no asset type; the encoder fills
    the four unused bits at random and the URN does not depend on them. *)
Theorem C40_grai_without_asset_type : forall E f pc, epc_pc pc -> good_random E ->
  is_decimal (f_filter f) -> (dec_value (f_filter f) < 8)%N -> is_decimal (f_cp f) -> length (f_cp f) = 12 ->
  f_ref f = [] -> is_decimal (f_ser f) -> (dec_value (f_ser f) < 2 ^ 38)%N -> no_leading_zero (f_ser f) ->
  exists id, encode Grai E f = Ok (id, [], []) /\ tag96 Grai id /\
    translate pc id = Ok (str "urn:epc:id:grai:" ++ f_cp f ++ str "." ++ f_ser f).
Proof.
  intros E f pc HP G D1 V1 D2 L R D4 V4 NZ.
  assert (cp_length_ok f) as CPL by (unfold cp_length_ok; lia).
  destruct (empty_ref Grai E f G R CPL) as (v & Vv & EQ). { intros _. apply D4. }
  assert (fields_partition f = 0) as P0 by (unfold fields_partition; lia).
  destruct (dec_string_plain v) as (DV & EV & _).
  destruct (round_trip Grai E (with_ref f (dec_string v)) pc HP) as (id & EN & C & T).
  - split; [|split; [|split; [|split]]].
    + split; [auto|]. split; [auto|]. split; [auto|]. intros _; auto.
    + auto.
    + split; [auto|]. split; [apply cp_fits; auto|]. split; [|intros _; auto].
      change (dec_value (dec_string v) < 2 ^ N.of_nat (ref_bits Grai (fields_partition f)))%N. rewrite EV. auto.
    + right. exact P0.
    + intros _. auto.
  - exists id. rewrite EQ. split; auto. split; [apply C|]. rewrite T. unfold urn_of.
    change (fields_partition (with_ref f (dec_string v))) with (fields_partition f). rewrite P0. reflexivity.
Qed.
Print Assumptions C40_grai_without_asset_type.

Definition ex_fields (fv cp r s : string) : epc_fields :=
  {| f_filter := str fv; f_cp := str cp; f_ref := str r; f_ser := str s |}.
Definition is_decimal_b (s : gostring) : bool := match s with [] => false | _ => forallb is_digit s end.
Lemma is_decimal_b_ok s : is_decimal_b s = true -> is_decimal s.
Proof.
  destruct s as [|c s]; [discriminate|]. intros H. split; [discriminate|]. apply Forall_forall. intros x I.
  cbn [is_decimal_b] in H. rewrite forallb_forall in H. auto.
Qed.
Definition urn_fields_b (k : scheme) (f : epc_fields) : bool :=
  is_decimal_b (f_filter f) && is_decimal_b (f_cp f) && is_decimal_b (f_ref f) && is_decimal_b (f_ser f) &&
  Nat.leb 6 (length (f_cp f)) && Nat.leb (length (f_cp f)) 12 &&
  (dec_value (f_filter f) <? 8)%N && (dec_value (f_cp f) <? 2 ^ N.of_nat (cp_bits (fields_partition f)))%N &&
  (dec_value (f_ref f) <? 2 ^ N.of_nat (ref_bits k (fields_partition f)))%N && (dec_value (f_ser f) <? 2 ^ 38)%N &&
  match k with
  | Giai => negb (Ascii.eqb (hd c0 (f_ref f)) c0)
  | _ => Nat.eqb (length (f_ref f)) (ref_digits k (fields_partition f))
  end && negb (Ascii.eqb (hd c0 (f_ser f)) c0).
Lemma urn_fields_b_ok k f : urn_fields_b k f = true -> urn_fields k f.
Proof.
  unfold urn_fields_b. rewrite !andb_true_iff, !Nat.leb_le, !N.ltb_lt, negb_true_iff, Ascii.eqb_neq.
  intros (((((((((((D1 & D2) & D3) & D4) & L1) & L2) & V1) & V2) & V3) & V4) & R) & S).
  split; [|split; [|split; [|split]]].
  - split; [|split; [|split]]; auto using is_decimal_b_ok.
  - split; auto.
  - split; [|split; [|split]]; auto.
  - destruct k; try (apply Nat.eqb_eq in R; auto). right. apply negb_true_iff in R. apply Ascii.eqb_neq in R. auto.
  - intros _. right. auto.
Qed.

Definition ex_f1 := ex_fields "3" "0614141" "812345" "6789".
Definition ex_f2 := ex_fields "3" "0614141" "1234567890" "1".
Definition ex_f3 := ex_fields "2" "0614141" "12345" "5678".
Definition ex_f4 := ex_fields "1" "061414" "98765432101" "1".
Example C40_hypotheses :
  urn_fields Sgtin ex_f1 /\ urn_fields Sscc ex_f2 /\ urn_fields Grai ex_f3 /\ urn_fields Giai ex_f4 /\ good_random E0 /\
  urn_of Sgtin ex_f1 = str "urn:epc:id:sgtin:0614141.812345.6789".
Proof.
  do 4 (split; [apply urn_fields_b_ok; vm_compute; reflexivity|]). split; [|reflexivity].
  intros n. cbn [e_rand E0]. split; [apply repeat_length|]. apply Forall_forall. intros c I. apply repeat_spec in I. left; auto.
Qed.

(** ** C41 *)
(** For the company prefix lengths of the partition table: a tag carrying the
    fields, or an error.  Values of 2^63 and more leave the range the project's
    helper library converts (they do not fit any field). *)
Theorem C41_encodable_partial : forall k E f, digit_fields k f -> cp_length_ok f ->
  (dec_value (f_ref f) < 2 ^ 63)%N -> (has_serial k = true -> dec_value (f_ser f) < 2 ^ 63)%N ->
  (fits_bits k f -> exists id, encode k E f = Ok (id, [], []) /\ carries k f id) /\
  (~ fits_bits k f -> encode k E f = Err).
Proof. intros k E f D C V1 V2. split; [apply encode_ok; auto|]. intros N. apply encode_err; auto. Qed.
Print Assumptions C41_encodable_partial.

(** For every other length the encoder pads nothing: it succeeds exactly when the
    bits happen to add up to 88. *)
Theorem C41_outside_the_table_partial : forall k E f, digit_fields k f -> ~ cp_length_ok f ->
  (dec_value (f_cp f) < 2 ^ 63)%N -> (dec_value (f_ref f) < 2 ^ 63)%N ->
  (has_serial k = true -> dec_value (f_ser f) < 2 ^ 63)%N ->
  let bits := Nat.max 3 (bit_length (N.min (dec_value (f_filter f)) (2 ^ 31 - 1))) + 3 +
    bit_length (dec_value (f_cp f)) + bit_length (dec_value (f_ref f)) +
    match k with Sgtin | Grai => Nat.max 38 (bit_length (dec_value (f_ser f))) | Sscc => 24 | Giai => 0 end in
  (bits = 88 -> exists p, encode k E f = Ok (header k :: p, [], []) /\ length p = 11 /\ wf_bytes p) /\
  (bits <> 88 -> encode k E f = Err).
Proof. exact encode_loose. Qed.
Print Assumptions C41_outside_the_table_partial.

(** A company prefix of thirteen digits has no row, yet a tag is returned, and it
    does not carry the fields: its partition says twelve digits. *)
Theorem C41_refuted : exists E f id, digit_fields Sgtin f /\ ~ cp_length_ok f /\
  encode Sgtin E f = Ok (id, [], []) /\ tag96 Sgtin id /\ translate pcgs1 id <> Ok (urn_of Sgtin f) /\ ~ carries Sgtin f id.
Proof.
  exists E0, (ex_fields "0" "8000000000000" "1" "1"). eexists. split.
  { split; [|split; [|split]]; intros; apply is_decimal_b_ok; reflexivity. }
  split; [unfold cp_length_ok; cbn; lia|]. split; [vm_compute; reflexivity|].
  split; [split; [apply wfb_ok; vm_compute; reflexivity|split; vm_compute; reflexivity]|].
  split; [vm_compute; discriminate|]. intros (_ & _ & _ & C & _). revert C. vm_compute. discriminate.
Qed.
Print Assumptions C41_refuted.

Example C41_hypotheses : digit_fields Sgtin ex_f1 /\ cp_length_ok ex_f1 /\ fits_bits Sgtin ex_f1 /\
  digit_fields Sgtin (ex_fields "3" "0614141" "1048576" "6789") /\ ~ fits_bits Sgtin (ex_fields "3" "0614141" "1048576" "6789").
Proof.
  pose proof (urn_fields_b_ok Sgtin ex_f1 ltac:(vm_compute; reflexivity)) as (? & ? & ? & _).
  do 3 (split; [auto|]). split.
  - split; [|split; [|split]]; intros; apply is_decimal_b_ok; reflexivity.
  - intros (_ & _ & V & _). revert V. vm_compute. discriminate.
Qed.

(** ** C44 *)
(** The filter of a pattern, on every 96-bit identifier whatsoever. *)
Theorem C44_pattern_filter_exact : forall E p id, pattern_ok p -> wf_bytes id -> length id = 12 ->
  exists s b, make_prefix_filter_string E (pattern_type (p_scheme p)) (firstn (p_count p) (field_texts (p_fields p))) = Ok s /\
    match_filter (new_filter s 0) id = Ok b /\ (b = true <-> names p id).
Proof. exact pat_match. Qed.
Print Assumptions C44_pattern_filter_exact.

(** On encoded tags, of the same or of another scheme. *)
Theorem C44_encoded_tags : forall E E' p k f, pattern_ok p -> digit_fields k f -> cp_length_ok f -> fits_bits k f ->
  exists id s b, encode k E f = Ok (id, [], []) /\
    make_prefix_filter_string E' (pattern_type (p_scheme p)) (firstn (p_count p) (field_texts (p_fields p))) = Ok s /\
    match_filter (new_filter s 0) id = Ok b /\ (b = true <-> leads p k f).
Proof.
  intros E E' p k f P D C V. destruct (encode_ok k E f D C V) as (id & EN & CA). exists id.
  destruct (pat_match E' p id P) as (s & b & M1 & M2 & M3); try apply CA. exists s, b.
  split; auto. split; auto. split; auto. rewrite M3. apply names_leads; auto.
Qed.
Print Assumptions C44_encoded_tags.

(** The same as equality of texts, when the fields are written as in URNs. *)
Theorem C44_same_texts : forall E E' p k f, p_scheme p = k -> 1 <= p_count p <= field_count k ->
  urn_fields k f -> urn_fields k (p_fields p) -> length (f_filter f) = 1 -> length (f_filter (p_fields p)) = 1 ->
  (k = Grai -> 3 <= p_count p -> fields_partition f <> 0) ->
  exists id s b, encode k E f = Ok (id, [], []) /\
    make_prefix_filter_string E' (pattern_type k) (firstn (p_count p) (field_texts (p_fields p))) = Ok s /\
    match_filter (new_filter s 0) id = Ok b /\
    (b = true <-> firstn (p_count p) (field_texts f) = firstn (p_count p) (field_texts (p_fields p))).
Proof.
  intros E E' p k f K N U U' O O' G. assert (pattern_ok p) as P.
  { unfold pattern_ok. rewrite K. destruct U' as ((D1 & D2 & D3 & D4) & C & (V1 & V2 & V3 & V4) & _).
    split; auto. split; auto. split; auto. split; auto. intros H4.
    assert (has_serial k = true) as HS by (unfold field_count in N; destruct (has_serial k); auto; lia). auto. }
  destruct (C44_encoded_tags E E' p k f P) as (id & s & b & H1 & H2 & H3 & H4); try apply U.
  exists id, s, b. rewrite K in H2. do 3 (split; auto). rewrite H4. apply leads_texts; auto.
Qed.
Print Assumptions C44_same_texts.

Definition ex_pat (k : scheme) (n : nat) (f : epc_fields) : epc_pattern := {| p_scheme := k; p_count := n; p_fields := f |}.
Definition pattern_ok_b (p : epc_pattern) : bool :=
  urn_fields_b (p_scheme p) (p_fields p) && Nat.leb 1 (p_count p) && Nat.leb (p_count p) (field_count (p_scheme p)).
Lemma pattern_ok_b_ok p : pattern_ok_b p = true -> pattern_ok p.
Proof.
  unfold pattern_ok_b. rewrite !andb_true_iff, !Nat.leb_le. intros ((H & N1) & N2). pose proof (urn_fields_b_ok _ _ H) as ((D1 & D2 & D3 & D4) & C & (V1 & V2 & V3 & V4) & _).
  split; auto. split; auto. split; auto. split; auto. intros H4.
  assert (has_serial (p_scheme p) = true) as HS by (unfold field_count in N2; destruct (has_serial (p_scheme p)); auto; lia). auto.
Qed.
Example C44_hypotheses : let p := ex_pat Sgtin 3 ex_f1 in
  pattern_ok p /\ leads p Sgtin ex_f1 /\ ~ leads p Sgtin (ex_fields "3" "0614141" "812346" "6789") /\ ~ leads p Sscc ex_f2.
Proof.
  split; [apply pattern_ok_b_ok; vm_compute; reflexivity|]. split; [|split].
  - split; auto.
  - intros (H1 & H2 & H3 & H4 & _). specialize (H4 ltac:(cbn; lia)). revert H4; vm_compute; discriminate.
  - intros (H1 & _). discriminate.
Qed.

(** ** C47 *)
(** Subscriptions [s] of patterns of the four EPC schemes, a tag of any of them,
    read with any GS1 PC.  Two subscribers must not write the same pattern (the
    prefix table keeps one of them, C27). *)
Theorem C47_end_to_end_partial : forall E E' s k f pc, epc_pc pc -> urn_fields k f ->
  (forall u p, subscribed s u p -> pattern_ok p) ->
  (forall u u' p q, subscribed s u p -> subscribed s u' q -> same_pattern p q -> u = u') ->
  exists id uris, encode k E f = Ok (id, [], []) /\
    (forall u, In u uris <-> exists p, subscribed s u p /\ leads p k f) /\
    list_search (new_list E' (sub_texts s)) pc id =
      match uris with [] => Ok ([], [], true) | _ => Ok (urn_of k f, uris, false) end.
Proof.
  intros E E' s k f pc HP U OK US. destruct (round_trip k E f pc HP U) as (id & EN & C & T).
  destruct (end_to_end E' s pc id OK) as (uris & A & _ & _ & X); try apply C.
  exists id, uris. split; auto. split.
  - intros u. rewrite (X US). split; intros (p & SP & N); exists p; (split; [auto|]); apply (names_leads p k f id); eauto.
  - rewrite T in A. destruct A as [[-> A]|[HN A]]; auto. destruct uris; [congruence|auto].
Qed.
Print Assumptions C47_end_to_end_partial.

(** Without that restriction nothing is reported to a subscriber who did not ask
    for it, and some subscriber with the same pattern always gets the report. *)
Theorem C47_shared_patterns : forall E E' s k f pc, epc_pc pc -> urn_fields k f ->
  (forall u p, subscribed s u p -> pattern_ok p) ->
  exists id uris, encode k E f = Ok (id, [], []) /\
    (forall u, In u uris -> exists p, subscribed s u p /\ leads p k f) /\
    (forall u p, subscribed s u p -> leads p k f -> exists u' q, In u' uris /\ subscribed s u' q /\ same_pattern p q) /\
    list_search (new_list E' (sub_texts s)) pc id =
      match uris with [] => Ok ([], [], true) | _ => Ok (urn_of k f, uris, false) end.
Proof.
  intros E E' s k f pc HP U OK. destruct (round_trip k E f pc HP U) as (id & EN & C & T).
  destruct (end_to_end E' s pc id OK) as (uris & A & X & Y & _); try apply C.
  exists id, uris. split; auto. split; [|split].
  - intros u I. destruct (X u I) as (p & SP & N). exists p. split; auto. apply (names_leads p k f id); eauto.
  - intros u p SP LD. apply (Y u p SP). apply (names_leads p k f id); eauto.
  - rewrite T in A. destruct A as [[-> A]|[HN A]]; auto. destruct uris; [congruence|auto].
Qed.
Print Assumptions C47_shared_patterns.

(** The exact boundary, tag by tag: the tag is reported to exactly those who ask for
    it, in whatever order the map of subscriptions is iterated, exactly when each of
    them has a pattern for the tag that nobody else wrote. *)
Theorem C47_exactly_partial : forall E E' s k f pc, epc_pc pc -> urn_fields k f -> NoDup (map fst s) ->
  (forall u p, subscribed s u p -> pattern_ok p) ->
  exists id, encode k E f = Ok (id, [], []) /\
  ((forall s', Permutation (sub_texts s) s' -> exists uris,
      (forall u, In u uris <-> exists p, subscribed s u p /\ leads p k f) /\
      list_search (new_list E' s') pc id = match uris with [] => Ok ([], [], true) | _ => Ok (urn_of k f, uris, false) end)
   <-> forall u p, subscribed s u p -> leads p k f ->
         exists q, subscribed s u q /\ leads q k f /\ forall u' q', subscribed s u' q' -> same_pattern q q' -> u' = u).
Proof.
  intros E E' s k f pc HP U ND OK. destruct (round_trip k E f pc HP U) as (id & EN & C & T). exists id. split; auto.
  assert (wf_bytes id /\ length id = 12) as [W L] by (split; apply C).
  assert (forall u key, (wants E' (sub_texts s) key u /\ id_has_prefix id key) <-> exists p, subscribed s u p /\ leads p k f /\ key = bits_to_str (pat_bits p)) as WL.
  { intros u key. split.
    - intros [WA PK]. apply wants_texts in WA; auto. destruct WA as (p & SP & ->). exists p. split; auto. split; auto. apply (names_leads p k f id); eauto. apply pat_has_prefix; eauto.
    - intros (p & SP & LP & ->). split; [apply wants_texts; eauto|]. apply pat_has_prefix; eauto. apply (names_leads p k f id); eauto. }
  assert (forall uris r, answers (translate pc id) uris r <-> r = match uris with [] => Ok ([], [], true) | _ => Ok (urn_of k f, uris, false) end) as AN.
  { intros uris r. rewrite T. unfold answers. destruct uris; split; intros H; [destruct H as [[_ H]|[H _]]; [exact H|congruence]|left; auto|destruct H as [[H _]|[_ H]]; [discriminate|exact H]|right; split; [discriminate|exact H]]. }
  destruct (shared_exactly E' (sub_texts s) pc id) as [S1 S2]; auto.
  { unfold sub_texts. rewrite map_map. exact ND. }
  { rewrite T. discriminate. }
  { intros u key WA. apply wants_texts in WA; auto. destruct WA as (p & SP & ->). split; [apply is_bits_to_str|]. intros [RL _]. pose proof (pat_long_enough p id (OK _ _ SP) L). lia. }
  split.
  - intros A u p SP LP. destruct S1 with (u := u) (k := bits_to_str (pat_bits p)) as (key & K1 & K2 & K3).
    + intros s' HS. destruct (A s' HS) as (uris & IN & SE). exists uris. split; [apply AN, SE|]. intros v. rewrite IN. split.
      * intros (q & SQ & LQ). exists (bits_to_str (pat_bits q)). apply WL. eauto.
      * intros (key & WK). apply WL in WK. destruct WK as (q & SQ & LQ & _). eauto.
    + apply (WL u (bits_to_str (pat_bits p))). eauto.
    + apply (WL u (bits_to_str (pat_bits p))). eauto.
    + destruct (proj1 (WL u key) (conj K1 K2)) as (q & SQ & LQ & ->). exists q. split; auto. split; auto.
      intros u' q' SQ' SM. apply K3. apply wants_texts; auto. exists q'. split; auto. f_equal. apply same_pat_bits; auto. pose proof (OK _ _ SQ) as (PC & _). unfold field_count in PC. destruct (p_scheme q); cbn in PC; lia.
  - intros A s' HS. destruct S2 with (sub' := s') as (uris & AU & IN); auto.
    + intros u key WA PK. destruct (proj1 (WL u key) (conj WA PK)) as (p & SP & LP & ->). destruct (A u p SP LP) as (q & SQ & LQ & ONE).
      exists (bits_to_str (pat_bits q)). destruct (proj2 (WL u (bits_to_str (pat_bits q))) (ex_intro _ q (conj SQ (conj LQ eq_refl)))) as [K1 K2]. split; auto. split; auto.
      intros u' WU. apply wants_texts in WU; auto. destruct WU as (q' & SQ' & EQ). apply bits_to_str_inj in EQ. apply (ONE u' q'); auto. apply pat_bits_same; eauto.
    + exists uris. split; [|apply AN, AU]. intros u. rewrite IN. split.
      * intros (key & WK). apply WL in WK. destruct WK as (q & SQ & LQ & _). eauto.
      * intros (q & SQ & LQ). exists (bits_to_str (pat_bits q)). apply WL. eauto.
Qed.
Print Assumptions C47_exactly_partial.

(** Two subscribers with the same pattern: only one of them is told. *)
Definition ex_shared : epc_subs := [(str "http://a", [ex_pat Sgtin 2 ex_f1]); (str "http://b", [ex_pat Sgtin 2 ex_f1])].
Theorem C47_refuted : exists id, encode Sgtin E0 ex_f1 = Ok (id, [], []) /\
  subscribed ex_shared (str "http://a") (ex_pat Sgtin 2 ex_f1) /\ leads (ex_pat Sgtin 2 ex_f1) Sgtin ex_f1 /\
  list_search (new_list E0 (sub_texts ex_shared)) pcgs1 id =
    Ok (str "urn:epc:id:sgtin:0614141.812345.6789", [str "http://b"], false).
Proof.
  eexists. split; [vm_compute; reflexivity|]. split; [eexists; split; [left; reflexivity|left; reflexivity]|].
  split; [|vm_compute; reflexivity]. split; auto.
Qed.
Print Assumptions C47_refuted.

(** Both write the same pattern, and each has another one for the tag: the condition
    of C47_exactly_partial holds. *)
Definition ex_both_subs : epc_subs :=
  [(str "http://a", [ex_pat Sgtin 2 ex_f1; ex_pat Sgtin 1 ex_f1]); (str "http://b", [ex_pat Sgtin 2 ex_f1; ex_pat Sgtin 3 ex_f1])].
Example C47_exactly_case : epc_pc pcgs1 /\ urn_fields Sgtin ex_f1 /\ NoDup (map fst ex_both_subs) /\
  (forall u p, subscribed ex_both_subs u p -> pattern_ok p) /\
  (forall u p, subscribed ex_both_subs u p -> leads p Sgtin ex_f1 ->
     exists q, subscribed ex_both_subs u q /\ leads q Sgtin ex_f1 /\ forall u' q', subscribed ex_both_subs u' q' -> same_pattern q q' -> u' = u).
Proof.
  assert (forall u p, subscribed ex_both_subs u p <-> In (u, p) [(str "http://a", ex_pat Sgtin 2 ex_f1); (str "http://a", ex_pat Sgtin 1 ex_f1);
    (str "http://b", ex_pat Sgtin 2 ex_f1); (str "http://b", ex_pat Sgtin 3 ex_f1)]) as S.
  { intros u p. split.
    - intros (ps & [I|[I|[]]] & J); injection I as <- <-; destruct J as [<-|[<-|[]]]; cbn [In]; auto.
    - intros [I|[I|[I|[I|[]]]]]; pose proof (f_equal fst I) as I1; pose proof (f_equal snd I) as I2; cbn [fst snd] in I1, I2; subst u p;
        (eexists; split; [first [left; reflexivity|right; left; reflexivity]|cbn [In]; auto]). }
  split; [eexists _, _; split; [reflexivity|reflexivity]|]. split; [apply urn_fields_b_ok; vm_compute; reflexivity|].
  split; [apply NoDup_cons; [intros [I|[]]; discriminate I|apply NoDup_cons; [intros []|apply NoDup_nil]]|].
  split.
  - intros u p H. apply S in H. destruct H as [I|[I|[I|[I|[]]]]]; apply (f_equal snd) in I; cbn [snd] in I; subst p; apply pattern_ok_b_ok; vm_compute; reflexivity.
  - intros u p H _. apply S in H.
    assert (u = str "http://a" \/ u = str "http://b") as [->| ->] by (destruct H as [I|[I|[I|[I|[]]]]]; apply (f_equal fst) in I; cbn [fst] in I; subst u; auto).
    + exists (ex_pat Sgtin 1 ex_f1). split; [apply S; cbn [In]; auto|]. split; [split; [reflexivity|split; [reflexivity|split; [cbn; lia|split; cbn; lia]]]|].
      intros u' q' H' (_ & CQ & _). apply S in H'. destruct H' as [I|[I|[I|[I|[]]]]]; pose proof (f_equal fst I) as I1; pose proof (f_equal snd I) as I2; cbn [fst snd] in I1, I2; subst u' q'; auto; discriminate CQ.
    + exists (ex_pat Sgtin 3 ex_f1). split; [apply S; cbn [In]; auto|]. split; [split; auto|].
      intros u' q' H' (_ & CQ & _). apply S in H'. destruct H' as [I|[I|[I|[I|[]]]]]; pose proof (f_equal fst I) as I1; pose proof (f_equal snd I) as I2; cbn [fst snd] in I1, I2; subst u' q'; auto; discriminate CQ.
Qed.

Definition ex_epc_subs : epc_subs :=
  [(str "http://a", [ex_pat Sgtin 2 ex_f1; ex_pat Giai 1 ex_f4]); (str "http://b", [ex_pat Sscc 3 ex_f2]); (str "http://c", [ex_pat Sgtin 4 ex_f1])].
Definition same_pattern_b (p q : epc_pattern) : bool :=
  let f := p_fields p in let g := p_fields q in
  (header (p_scheme p) =? header (p_scheme q))%N && Nat.eqb (p_count p) (p_count q) && (dec_value (f_filter f) =? dec_value (f_filter g))%N.
Lemma same_pattern_b_ok p q : same_pattern p q -> same_pattern_b p q = true.
Proof.
  intros (H1 & H2 & H3 & _). unfold same_pattern_b. rewrite H1, H2, H3, !N.eqb_refl, Nat.eqb_refl. reflexivity.
Qed.
Example C47_hypotheses : (forall u p, subscribed ex_epc_subs u p -> pattern_ok p) /\
  (forall u u' p q, subscribed ex_epc_subs u p -> subscribed ex_epc_subs u' q -> same_pattern p q -> u = u') /\
  sub_texts ex_epc_subs = [(str "http://a", [str "urn:epc:pat:sgtin-96:3.0614141"; str "urn:epc:pat:giai-96:1"]);
    (str "http://b", [str "urn:epc:pat:sscc-96:3.0614141.1234567890"]); (str "http://c", [str "urn:epc:pat:sgtin-96:3.0614141.812345.6789"])].
Proof.
  assert (forall u p, subscribed ex_epc_subs u p -> In (u, p) (flat_map (fun e => map (pair (fst e)) (snd e)) ex_epc_subs)) as FL.
  { intros u p (ps & I & J). apply in_flat_map. exists (u, ps). split; auto. apply in_map; auto. }
  split; [|split; [|vm_compute; reflexivity]].
  - intros u p S. apply FL in S. apply pattern_ok_b_ok. cbn in S.
    repeat (destruct S as [S|S]; [injection S as <- <-; vm_compute; reflexivity|]). destruct S.
  - intros u u' p q S S' SM. apply FL in S, S'. apply same_pattern_b_ok in SM. cbn in S, S'.
    repeat (destruct S as [S|S]; [injection S as <- <-;
      repeat (destruct S' as [S'|S']; [injection S' as <- <-; first [reflexivity | vm_compute in SM; discriminate]|]); destruct S'|]). destruct S.
Qed.
