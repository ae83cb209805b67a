(** From encoded tags to reports. *)
From Verif Require Import GoBase BinUtil MFilter MEngine MTdtEpc MTdtIso MTdtCore MScheme MSubs MList Spec SpecEpc PBase PNum PTdt PTdt2 PropsTdt PMatch PFilter PEngine PList PSubs PSubs2 PEpc PEpc2 PEpc3.
From Coq Require Import Lia ZifyBool ZifyNat ZifyN.
Ltac Zify.zify_post_hook ::= Z.div_mod_to_equations.

Lemma names_leads p k f id : pattern_ok p -> carries k f id -> names p id <-> leads p k f.
Proof.
  destruct p as [k' n g]. intros P ((W & L & H) & F & PA & C & R & T). unfold names, leads, pattern_ok in *.
  cbn [p_scheme p_count p_fields] in *. rewrite H, F, PA, C. split.
  - intros (H1 & H2 & H3 & H4 & H5). apply header_inj in H1. subst k'. rewrite R in H4.
    split; auto. split; auto. split; auto. split; auto. intros H6. rewrite <- H5 by auto. destruct P as ((_ & P) & _). unfold field_count in P.
    destruct k; cbn [has_serial] in P; try lia; auto.
  - intros (-> & H2 & H3 & H4 & H5). rewrite R. split; auto. split; auto. split; auto. split; auto. intros H6. rewrite <- H5 by auto.
    destruct P as ((_ & P) & _). unfold field_count in P. destruct k; cbn [has_serial] in P; try lia; auto.
Qed.

(** Texts instead of values, for fields as they appear in URNs. *)
Ltac lst := repeat (apply (f_equal2 (@cons gostring)); [tauto|]); reflexivity.
Definition one_digit (s : gostring) : Prop := length s = 1.
Lemma same_fixed s t : is_decimal s -> is_decimal t -> length s = length t -> dec_value s = dec_value t -> s = t.
Proof. intros [_ D] [_ D'] L V. apply (fixed_decimal_unique (length s) (dec_value s)); repeat split; auto. Qed.
Lemma same_plain s t : is_decimal s -> is_decimal t -> no_leading_zero s -> no_leading_zero t -> dec_value s = dec_value t -> s = t.
Proof. intros D D' L L' V. apply (plain_decimal_unique (dec_value s)); split; auto. Qed.
Lemma leads_texts p k f : p_scheme p = k -> 1 <= p_count p <= field_count k -> urn_fields k f -> urn_fields k (p_fields p) ->
  one_digit (f_filter f) -> one_digit (f_filter (p_fields p)) ->
  (k = Grai -> 3 <= p_count p -> fields_partition f <> 0) ->
  leads p k f <-> firstn (p_count p) (field_texts f) = firstn (p_count p) (field_texts (p_fields p)).
Proof.
  destruct p as [k' n g]. unfold leads, one_digit. cbn [p_scheme p_count p_fields]. intros -> HN
    ((D1 & D2 & D3 & D4) & CPL & V & R & S) ((D1' & D2' & D3' & D4') & CPL' & V' & R' & S') O O' GZ.
  unfold field_count in HN. unfold field_texts. unfold cp_length_ok, fields_partition in *.
  assert (dec_value (f_filter f) = dec_value (f_filter g) <-> f_filter f = f_filter g) as XF.
  { split; [|congruence]. apply same_fixed; auto. congruence. }
  assert (12 - length (f_cp f) = 12 - length (f_cp g) /\ dec_value (f_cp f) = dec_value (f_cp g) <-> f_cp f = f_cp g) as XC.
  { split; [|intros ->; auto]. intros [? ?]. apply same_fixed; auto. lia. }
  assert (3 <= n -> f_cp f = f_cp g -> dec_value (f_ref f) = dec_value (f_ref g) <-> f_ref f = f_ref g) as XR.
  { intros H3 EC. split; [|congruence]. intros VR. rewrite EC in *. destruct k.
    - apply same_fixed; auto. congruence.
    - apply same_fixed; auto. congruence.
    - specialize (GZ eq_refl H3). apply same_fixed; auto. destruct R as [R|R], R' as [R'|R']; congruence.
    - apply same_plain; auto. }
  assert (4 <= n -> dec_value (f_ser f) = dec_value (f_ser g) <-> f_ser f = f_ser g) as XS.
  { intros H4. assert (has_serial k = true) as HS by (destruct (has_serial k); auto; lia). split; [|congruence].
    apply same_plain; auto. }
  destruct n as [|[|[|[|[|n]]]]]; [lia| | | | |destruct (has_serial k); lia]; cbn [firstn].
  - split; [intros (_ & ? & _); lst|]. intros E. injection E as E. split; auto. split; [tauto|]. split; [lia|split; lia].
  - split.
    + intros (_ & ? & A & _). specialize (A ltac:(lia)). lst.
    + intros E. injection E as E1 E2. split; auto. split; [tauto|]. split; [tauto|]. split; lia.
  - split.
    + intros (_ & ? & A & B & _). specialize (A ltac:(lia)). specialize (B ltac:(lia)). specialize (XR ltac:(lia) (proj1 XC A)). lst.
    + intros E. injection E as E1 E2 E3. specialize (XR ltac:(lia) E2). split; auto. split; [tauto|]. split; [tauto|]. split; [tauto|lia].
  - split.
    + intros (_ & ? & A & B & C). specialize (A ltac:(lia)). specialize (B ltac:(lia)). specialize (C ltac:(lia)).
      specialize (XR ltac:(lia) (proj1 XC A)). specialize (XS ltac:(lia)). lst.
    + intros E. injection E as E1 E2 E3 E4. specialize (XR ltac:(lia) E2). specialize (XS ltac:(lia)). split; auto. split; [tauto|]. split; [tauto|]. split; tauto.
Qed.

(** ** Reports *)
Lemma reported_In id subs uris u : reported id subs uris -> In u uris <-> exists k, In (k, u) subs /\ id_has_prefix id k.
Proof.
  induction 1 as [|k v subs uris Y R IH|k v subs uris Nn R IH].
  - split; [intros []|intros (? & [] & _)].
  - cbn [In]. rewrite IH. split.
    + intros [<-|(k' & I & Hk)]; eauto. 
    + intros (k' & [I|I] & Hk); [injection I as <- <-; auto|eauto].
  - rewrite IH. split.
    + intros (k' & I & Hk). exists k'. split; auto. right; auto.
    + intros (k' & [I|I] & Hk); [injection I as <- <-; tauto|eauto].
Qed.
Lemma wants_texts E s key u : (forall v p, subscribed s v p -> pattern_ok p) ->
  wants E (sub_texts s) key u <-> exists p, subscribed s u p /\ key = bits_to_str (pat_bits p).
Proof.
  intros OK. unfold wants, sub_texts. split.
  - intros (pats & pat & I & J & PP). apply in_map_iff in I. destruct I as ((u' & ps) & EI & I). cbn [fst snd] in EI. injection EI as -> <-.
    apply in_map_iff in J. destruct J as (p & <- & J). assert (subscribed s u p) as SU by (exists ps; auto).
    rewrite pattern_prefix_text in PP by eauto. injection PP as <-. eauto.
  - intros (p & SU & ->). pose proof (OK _ _ SU) as PO. destruct SU as (ps & I & J). exists (map pattern_text ps), (pattern_text p).
    split; [apply in_map_iff; exists (u, ps); auto|]. split; [apply in_map; auto|]. apply pattern_prefix_text; auto.
Qed.
Lemma bits_to_str_inj a b : bits_to_str a = bits_to_str b -> a = b.
Proof.
  revert b; induction a as [|x a IH]; intros [|y b] H; try discriminate; auto. cbn in H. injection H as H1 H2.
  f_equal; auto. destruct x, y; auto; discriminate.
Qed.
Lemma texts_unshared E s : (forall v p, subscribed s v p -> pattern_ok p) ->
  (forall u u' p q, subscribed s u p -> subscribed s u' q -> same_pattern p q -> u = u') -> unshared E (sub_texts s).
Proof.
  intros OK US key u u' W W'. apply wants_texts in W; auto. apply wants_texts in W'; auto.
  destruct W as (p & SP & ->), W' as (q & SQ & EQ). apply bits_to_str_inj in EQ. eapply US; eauto. apply pat_bits_same; eauto.
Qed.
Lemma end_to_end E s pc id : (forall v p, subscribed s v p -> pattern_ok p) -> wf_bytes id -> length id = 12 ->
  exists uris, answers (translate pc id) uris (list_search (new_list E (sub_texts s)) pc id) /\
    (forall u, In u uris -> exists p, subscribed s u p /\ names p id) /\
    (forall u p, subscribed s u p -> names p id -> exists u' q, In u' uris /\ subscribed s u' q /\ same_pattern p q) /\
    ((forall u u' p q, subscribed s u p -> subscribed s u' q -> same_pattern p q -> u = u') ->
     forall u, In u uris <-> exists p, subscribed s u p /\ names p id).
Proof.
  intros OK W L. set (b := to_byte_subs E (sub_texts s)).
  assert (forall key u, In (key, u) (entries b) -> exists p, subscribed s u p /\ key = bits_to_str (pat_bits p)) as Snd.
  { intros key u I. apply (wants_texts E); auto. apply to_byte_sound; auto. }
  assert (forall key, In key (map fst (entries b)) -> exists u p, subscribed s u p /\ key = bits_to_str (pat_bits p)) as Keys.
  { intros key I. apply in_map_iff in I. destruct I as ((key' & u) & <- & I). cbn [fst]. exists u. auto. }
  destruct (list_search_of (entries b) pc id) as (uris & R & A).
  - apply Forall_forall. intros key I. destruct (Keys key I) as (u & p & _ & ->). apply is_bits_to_str.
  - auto.
  - intros key I [RL _]. destruct (Keys key I) as (u & p & SP & ->). pose proof (pat_long_enough p id (OK _ _ SP) L). lia.
  - exists uris. rewrite new_list_of. split; auto.
    assert (forall u, In u uris -> exists p, subscribed s u p /\ names p id) as S1.
    { intros u I. rewrite reported_In in I by eauto. destruct I as (key & I & HP). destruct (Snd _ _ I) as (p & SP & ->).
      exists p. split; auto. apply pat_has_prefix; eauto. }
    assert (forall u p, subscribed s u p -> names p id -> exists u' q, In u' uris /\ subscribed s u' q /\ same_pattern p q) as S2.
    { intros u p SP NP. destruct (to_byte_keeps_prefix E (sub_texts s) (bits_to_str (pat_bits p)) u) as (u' & I).
      { apply wants_texts; eauto. }
      fold b in I. destruct (Snd _ _ I) as (q & SQ & EQ). apply bits_to_str_inj in EQ. exists u', q.
      split; [|split; auto; apply pat_bits_same; eauto]. rewrite reported_In by eauto. exists (bits_to_str (pat_bits p)). split; auto. apply pat_has_prefix; eauto. }
    split; auto. split; auto. intros US u. split; auto. intros (p & SP & NP). destruct (S2 u p SP NP) as (u' & q & I & SQ & SM).
    rewrite (US u u' p q); auto.
Qed.

(** ** Company prefixes outside the partition table *)
Lemma bin_string_bit_length n : length (bin_string n) = bit_length n.
Proof.
  unfold bit_length. destruct (N.eqb_spec n 0) as [->|HN]; [reflexivity|].
  assert (length (bin_string n) <= S (N.to_nat (N.log2 n))).
  { apply numeral_length; [lia|lia|]. rewrite Nat2N.inj_succ, N2Nat.id. apply N.log2_spec. lia. }
  assert (N.to_nat (N.log2 n) < length (bin_string n)).
  { apply bin_string_long. rewrite N2Nat.id. apply N.log2_spec. lia. }
  lia.
Qed.
Lemma no_row k n : ~ 6 <= n <= 12 -> pt_row (t_table k) n = row 0 0 0 0.
Proof.
  intros H. destruct k; cbn [t_table]; unfold sgtin96_table, sscc96_table, grai96_table, giai96_table; cbn [pt_row];
  repeat match goal with |- context [Nat.eqb n ?m] => destruct (Nat.eqb_spec n m); [lia|] end; reflexivity.
Qed.
Definition loose_bits (k : scheme) (f : epc_fields) : nat :=
  Nat.max 3 (bit_length (N.min (dec_value (f_filter f)) (2 ^ 31 - 1))) + 3 + bit_length (dec_value (f_cp f)) + bit_length (dec_value (f_ref f)) +
  match k with Sgtin | Grai => Nat.max 38 (bit_length (dec_value (f_ser f))) | Sscc => 24 | Giai => 0 end.
Lemma filter_bit_length E fv : is_decimal fv -> length (get_filter E fv) = Nat.max 3 (bit_length (N.min (dec_value fv) (2 ^ 31 - 1))).
Proof.
  intros D. rewrite get_filter_digits by auto. unfold pad_left. rewrite app_length, repeat_length, bin_string_bit_length. lia.
Qed.
Lemma body_loose k E f : digit_fields k f -> ~ cp_length_ok f -> (dec_value (f_cp f) < 2 ^ 63)%N -> (dec_value (f_ref f) < 2 ^ 63)%N ->
  (has_serial k = true -> dec_value (f_ser f) < 2 ^ 63)%N -> length (body k E f) = loose_bits k f.
Proof.
  intros (D1 & D2 & D3 & D4) CPL V1 V2 V3. unfold body, loose_bits, cp_length_ok in *. unfold partition_bits. rewrite no_row by auto.
  cbn [p_cp_bits p_bits p_value row]. rewrite !app_length, filter_bit_length by auto.
  rewrite !padded_length by (apply is_decimal_int63; auto). rewrite !bin_string_bit_length.
  change (length (fmt_b3 (Z.of_nat 0))) with 3. unfold tail_str.
  destruct k; cbn [has_serial] in *; rewrite ?padded_length by (apply is_decimal_int63; auto); rewrite ?bin_string_bit_length; unfold zero_padding; rewrite ?repeat_length; cbn [length]; lia.
Qed.
Lemma encode_loose k E f : digit_fields k f -> ~ cp_length_ok f -> (dec_value (f_cp f) < 2 ^ 63)%N -> (dec_value (f_ref f) < 2 ^ 63)%N ->
  (has_serial k = true -> dec_value (f_ser f) < 2 ^ 63)%N ->
  (loose_bits k f = 88 -> exists p, encode k E f = Ok (header k :: p, [], []) /\ length p = 11 /\ wf_bytes p) /\
  (loose_bits k f <> 88 -> encode k E f = Err).
Proof.
  intros D CPL V1 V2 V3. pose proof (body_loose k E f D CPL V1 V2 V3) as B.
  assert (encode k E f = pack_epc (header k) (body k E f)) as EN.
  { destruct D as ([? ?] & [? ?] & [? ?] & D4). apply encode_body; auto. intros HS. apply D4; auto. }
  rewrite EN, <- B. split; [|apply pack_epc_err]. intros H.
  assert (is_bits (body k E f)) as IB.
  { destruct D as (D1 & D2 & D3 & D4). unfold body. unfold is_bits. repeat (apply Forall_app; split).
    - apply get_filter_bits; auto.
    - unfold partition_bits, cp_length_ok in *. rewrite no_row by auto. cbn. repeat constructor.
    - apply padded_chars; auto.
    - apply padded_chars; auto.
    - unfold tail_str. destruct k; cbn [has_serial] in *; [apply padded_chars; auto| |apply padded_chars; auto|constructor].
      unfold zero_padding. apply Forall_forall. intros c I. apply repeat_spec in I. left; auto. }
  destruct (is_bits_str _ IB) as [l EL]. rewrite EL in *. rewrite bits_to_str_length in H.
  destruct (pack_epc_ok (header k) l) as (p & EP & W & L & _); [destruct k; reflexivity|auto|].
  exists p. split; auto. cbn [length] in L. split; [lia|]. inversion W; auto.
Qed.
