(** Encoders and pattern filters of the 96-bit EPC schemes. *)
From Verif Require Import GoBase BinUtil MTdtEpc MTdtIso MTdtCore MScheme Spec SpecEpc PBase PNum PTdt PTdt2 PMatch.
From Verif Require Export SpecEncode.
From Coq Require Import Lia ZifyBool ZifyNat ZifyN.
Ltac Zify.zify_post_hook ::= Z.div_mod_to_equations.

Definition padded (E : env) (w : nat) (s : gostring) : gostring :=
  let b := dec_to_bin E s in if Nat.ltb (length b) w then zero_padding (w - length b) ++ b else b.

Lemma is_decimal_int63 s : is_decimal s -> (dec_value s < 2 ^ 63)%N -> is_int63 s = true.
Proof.
  intros [H1 H2] H3. unfold is_int63. destruct s as [|c s]; [congruence|]. apply andb_true_iff. split; [|apply N.ltb_lt; auto].
  apply all_digits_lt, Forall_digit; auto.
Qed.
Lemma padded_fits E w s : is_decimal s -> (dec_value s < 2 ^ N.of_nat w)%N -> w <> 0 -> w <= 63 ->
  padded E w s = bits_to_str (bits_w w (dec_value s)).
Proof.
  intros D V Hw Hw'. unfold padded, dec_to_bin. rewrite is_decimal_int63; auto.
  2:{ eapply N.lt_le_trans; [exact V|]. apply N.pow_le_mono_r; lia. }
  pose proof (proj2 (numeral_length 2 (dec_value s) w ltac:(lia) Hw) V) as L.
  pose proof (bin_padded w (dec_value s) V Hw) as B. unfold bin_string in *.
  destruct (Nat.ltb_spec (length (numeral 2 (dec_value s))) w); auto.
  replace (w - length (numeral 2 (dec_value s))) with 0 in B by lia. exact B.
Qed.
Lemma padded_length E w s : is_int63 s = true -> length (padded E w s) = Nat.max w (length (bin_string (dec_value s))).
Proof.
  intros D. unfold padded, dec_to_bin, zero_padding. rewrite D.
  destruct (Nat.ltb_spec (length (bin_string (dec_value s))) w); rewrite ?app_length, ?repeat_length; lia.
Qed.
Lemma padded_long E w s : is_decimal s -> (dec_value s < 2 ^ 63)%N -> (2 ^ N.of_nat w <= dec_value s)%N -> w < length (padded E w s).
Proof.
  intros D V H. rewrite padded_length by (apply is_decimal_int63; auto). apply bin_string_long in H. lia.
Qed.
Lemma padded_ge E w s : is_decimal s -> (dec_value s < 2 ^ 63)%N -> w <= length (padded E w s).
Proof. intros D V. rewrite padded_length by (apply is_decimal_int63; auto). lia. Qed.
Lemma padded_chars E w s : is_decimal s -> (dec_value s < 2 ^ 63)%N -> is_bits (padded E w s).
Proof.
  intros D V. unfold padded, dec_to_bin. rewrite is_decimal_int63 by auto.
  pose proof (bin_string_bits (dec_value s)) as B.
  destruct (Nat.ltb _ _); auto. apply is_bits_app. split; auto. apply Forall_forall. intros c Hc.
  apply repeat_spec in Hc. left; auto.
Qed.

(** ** Filter value *)
Lemma parse_loop s : Forall (digit_lt 10) s -> forall n, (n < 2 ^ 32)%N ->
  parse_uint32_loop n s = if (n * 10 ^ N.of_nat (length s) + numval 10 s <? 2 ^ 32)%N
                          then inl (n * 10 ^ N.of_nat (length s) + numval 10 s)%N else inr true.
Proof.
  induction 1 as [|c s Hc Hs IH]; intros n Hn; cbn [parse_uint32_loop length].
  - change (N.of_nat 0) with 0%N. rewrite N.pow_0_r, N.mul_1_r. change (numval 10 []) with 0%N. rewrite N.add_0_r.
    replace (n <? 2 ^ 32)%N with true by lia. reflexivity.
  - rewrite (proj2 (is_digit_lt c) Hc). unfold digit_lt in Hc. rewrite numval_cons, Nat2N.inj_succ, N.pow_succ_r'.
    replace (n * (10 * 10 ^ N.of_nat (length s)) + ((N_of_ascii c - 48) * 10 ^ N.of_nat (length s) + numval 10 s))%N
      with ((10 * n + (N_of_ascii c - 48)) * 10 ^ N.of_nat (length s) + numval 10 s)%N by lia.
    set (m := (10 * n + (N_of_ascii c - 48))%N).
    destruct (N.ltb_spec (2 ^ 32 - 1) m) as [H|H].
    + replace (m * 10 ^ N.of_nat (length s) + numval 10 s <? 2 ^ 32)%N with false; [reflexivity|].
      symmetry. apply N.ltb_ge. assert (1 <= 10 ^ N.of_nat (length s))%N.
      { apply N.lt_pred_le. apply N.neq_0_lt_0. apply N.pow_nonzero. lia. }
      nia.
    + apply IH. lia.
Qed.
Lemma parse_int32_digits s : is_decimal s -> parse_int32 s = Z.of_N (N.min (dec_value s) (2 ^ 31 - 1)).
Proof.
  intros [Hn Hd]. apply Forall_digit in Hd. destruct s as [|c s]; [congruence|]. unfold parse_int32.
  pose proof (Forall_inv Hd) as Hc. unfold digit_lt in Hc.
  replace (Ascii.eqb c "+") with false by (destruct (Ascii.eqb_spec c "+"); auto; subst; cbn in Hc; lia).
  replace (Ascii.eqb c "-") with false by (destruct (Ascii.eqb_spec c "-"); auto; subst; cbn in Hc; lia).
  rewrite parse_loop by (auto; lia). rewrite N.mul_0_l, N.add_0_l. change (dec_value (c :: s)) with (numval 10 (c :: s)).
  destruct (N.ltb_spec (numval 10 (c :: s)) (2 ^ 32)) as [H|H].
  - destruct (N.leb_spec (2 ^ 31) (numval 10 (c :: s))); [rewrite N.min_r by lia|rewrite N.min_l by lia]; reflexivity.
  - rewrite N.min_r by lia. reflexivity.
Qed.
Lemma get_filter_digits E fv : is_decimal fv ->
  get_filter E fv = pad_left c0 3 (bin_string (N.min (dec_value fv) (2 ^ 31 - 1))).
Proof.
  intros D. unfold get_filter. destruct fv as [|c fv]; [destruct D; congruence|]. unfold fmt_b3.
  rewrite parse_int32_digits by auto. rewrite N2Z.id.
  destruct (Z.ltb_spec (Z.of_N (N.min (dec_value (c :: fv)) (2 ^ 31 - 1))) 0); [lia|reflexivity].
Qed.
Lemma get_filter_fits E fv : is_decimal fv -> (dec_value fv < 8)%N -> get_filter E fv = bits_to_str (bits_w 3 (dec_value fv)).
Proof.
  intros D V. rewrite get_filter_digits by auto. rewrite N.min_l by lia. apply (bin_padded 3); auto.
Qed.
Lemma get_filter_length E fv : is_decimal fv -> 3 <= length (get_filter E fv) /\ ((8 <= dec_value fv)%N -> 3 < length (get_filter E fv)).
Proof.
  intros D. rewrite get_filter_digits by auto. unfold pad_left. rewrite app_length, repeat_length. split; [lia|].
  intros H. pose proof (bin_string_long 3 (N.min (dec_value fv) (2 ^ 31 - 1))) as B.
  assert (3 < length (bin_string (N.min (dec_value fv) (2 ^ 31 - 1)))) by (apply B; change (2 ^ N.of_nat 3)%N with 8%N; lia). lia.
Qed.
Lemma get_filter_bits E fv : is_decimal fv -> is_bits (get_filter E fv).
Proof.
  intros D. rewrite get_filter_digits by auto. unfold pad_left. apply is_bits_app. split; [|apply bin_string_bits].
  apply Forall_forall. intros c Hc. apply repeat_spec in Hc. left; auto.
Qed.

(** ** Tables *)
Definition t_table (k : scheme) : ptable :=
  match k with Sgtin => sgtin96_table | Sscc => sscc96_table | Grai => grai96_table | Giai => giai96_table end.
Definition s_table (k : scheme) : s_ptable :=
  match k with Sgtin => s_sgtin96_table | Sscc => s_sscc96_table | Grai => s_grai96_table | Giai => s_giai96_table end.
Lemma in_range n : 6 <= n <= 12 -> In n [6; 7; 8; 9; 10; 11; 12].
Proof. intros H. cbn. lia. Qed.
Ltac range_cases H n :=
  apply in_range in H; cbn [In] in H; revert H; generalize n; intros ? H;
  repeat (destruct H as [<-|H]); [..|contradiction].
Lemma t_row k n : 6 <= n <= 12 ->
  p_value (pt_row (t_table k) n) = 12 - n /\ p_cp_bits (pt_row (t_table k) n) = cp_bits (12 - n) /\
  p_bits (pt_row (t_table k) n) = ref_bits k (12 - n).
Proof. intros H. range_cases H n; destruct k; vm_compute; auto. Qed.
Lemma s_row_t k n : sp_value (s_pt_row (s_table k) n) = p_value (pt_row (t_table k) n) /\
  sp_cp_bits (s_pt_row (s_table k) n) = p_cp_bits (pt_row (t_table k) n) /\
  sp_bits (s_pt_row (s_table k) n) = p_bits (pt_row (t_table k) n).
Proof.
  destruct k; cbn [s_table t_table]; unfold s_sgtin96_table, s_sscc96_table, s_grai96_table, s_giai96_table,
    sgtin96_table, sscc96_table, grai96_table, giai96_table; cbn [s_pt_row pt_row];
  repeat match goal with |- context [Nat.eqb n ?x] => destruct (Nat.eqb n x); [auto|] end; auto.
Qed.
Lemma partition_bits_fits k cp : 6 <= length cp <= 12 ->
  partition_bits (t_table k) cp = bits_to_str (bits_w 3 (N.of_nat (12 - length cp))).
Proof.
  intros H. unfold partition_bits. rewrite (proj1 (t_row k _ H)). range_cases H (length cp); vm_compute; reflexivity.
Qed.
Lemma cp_bits_range n : 6 <= n <= 12 -> 20 <= cp_bits (12 - n) <= 40.
Proof. intros H. range_cases H n; cbn; lia. Qed.
Lemma ref_bits_range k n : 6 <= n <= 12 -> 4 <= ref_bits k (12 - n) <= 62.
Proof. intros H. range_cases H n; destruct k; cbn; lia. Qed.
Lemma total_bits k n : 6 <= n <= 12 -> cp_bits (12 - n) + ref_bits k (12 - n) = pair_bits k.
Proof. intros H. range_cases H n; destruct k; reflexivity. Qed.
(** A company prefix always fits. *)
Lemma cp_capacity n : 6 <= n <= 12 -> (10 ^ N.of_nat n <= 2 ^ N.of_nat (cp_bits (12 - n)))%N.
Proof. intros H. range_cases H n; vm_compute; discriminate. Qed.
Lemma cp_fits cp : is_decimal cp -> 6 <= length cp <= 12 -> (dec_value cp < 2 ^ N.of_nat (cp_bits (12 - length cp)))%N.
Proof.
  intros [_ D] H. apply Forall_digit in D. pose proof (numval_bound 10 cp ltac:(lia) D). pose proof (cp_capacity _ H).
  rewrite dec_value_numval. lia.
Qed.
Lemma ref_capacity k n : 6 <= n <= 12 -> k <> Giai -> (10 ^ N.of_nat (ref_digits k (12 - n)) <= 2 ^ N.of_nat (ref_bits k (12 - n)))%N.
Proof. intros H K. range_cases H n; destruct k; try congruence; vm_compute; discriminate. Qed.

(** ** Getters *)
Lemma s_getters E k :
  (forall fv, s_get_filter E fv = get_filter E fv) /\
  (forall cp, s_get_company_prefix E cp (s_table k) = get_company_prefix E cp (t_table k)) /\
  (forall cp, s_partition (s_table k) cp = partition_bits (t_table k) cp) /\
  (forall s n, s_get_ref E s (s_pt_row (s_table k) n) = get_ref E s (pt_row (t_table k) n)) /\
  (forall s n, s_get_serial E s n = get_serial E s n).
Proof.
  split; [reflexivity|]. split; [|split; [|split; [|reflexivity]]].
  - intros cp. unfold s_get_company_prefix, get_company_prefix. destruct (s_row_t k (List.length cp)) as (_ & -> & _). reflexivity.
  - intros cp. unfold s_partition, partition_bits. destruct (s_row_t k (List.length cp)) as (-> & _). reflexivity.
  - intros s n. unfold s_get_ref, get_ref. destruct (s_row_t k n) as (_ & _ & ->). reflexivity.
Qed.
Lemma get_ref_padded E s r : s <> [] -> get_ref E s r = padded E (p_bits r) s.
Proof. destruct s; [congruence|reflexivity]. Qed.
Lemma get_serial_padded E s n : s <> [] -> get_serial E s n = padded E n s.
Proof. destruct s; [congruence|reflexivity]. Qed.
Lemma get_cp_padded E s pt : s <> [] -> get_company_prefix E s pt = padded E (p_cp_bits (pt_row pt (length s))) s.
Proof. destruct s; [congruence|reflexivity]. Qed.

(** ** Bit prefixes and fields *)
Definition bprefix (p s : list bool) : Prop := exists r, s = p ++ r.
Lemma bprefix_str p s : prefix_of (bits_to_str p) (bits_to_str s) <-> bprefix p s.
Proof.
  split; [|intros [r ->]; exists (bits_to_str r); apply bits_to_str_app].
  intros [r H]. assert (is_bits r) as B.
  { pose proof (is_bits_to_str s) as I. rewrite H in I. apply is_bits_app in I. tauto. }
  destruct (is_bits_str r B) as [l ->]. exists l. apply bits_to_str_inj. rewrite H, bits_to_str_app. reflexivity.
Qed.
Lemma bprefix_nil s : bprefix [] s.
Proof. exists s. reflexivity. Qed.
Lemma skipn_add {A} a c (l : list A) : skipn (a + c) l = skipn c (skipn a l).
Proof. revert l; induction a as [|a IH]; intros l; cbn [Nat.add skipn]; auto. destruct l; [destruct c; auto|apply IH]. Qed.
Lemma bprefix_field id off w v y : off + w <= length (bits_of_bytes id) -> (v < 2 ^ N.of_nat w)%N ->
  bprefix (bits_w w v ++ y) (skipn off (bits_of_bytes id)) <->
  field id off w = v /\ bprefix y (skipn (off + w) (bits_of_bytes id)).
Proof.
  intros HL HV. unfold field. rewrite skipn_add. set (B := skipn off (bits_of_bytes id)).
  assert (w <= length B) as HB by (unfold B; rewrite skipn_length; lia). clearbody B.
  split.
  - intros [r ->]. rewrite <- app_assoc. rewrite firstn_app, skipn_app, bits_w_length, Nat.sub_diag.
    rewrite firstn_all2, skipn_all2 by (rewrite bits_w_length; lia). cbn [firstn skipn app]. rewrite app_nil_r.
    rewrite bits_w_value by auto. split; auto. exists r. reflexivity.
  - intros [E [r R]]. exists r. rewrite <- app_assoc, <- R. rewrite (bits_w_unique w v (firstn w B)); auto.
    + symmetry. apply firstn_skipn.
    + apply firstn_length_le; auto.
Qed.
Lemma bprefix_full p s : length p = length s -> bprefix p s <-> s = p.
Proof.
  intros L. split; [|intros ->; exists []; rewrite app_nil_r; auto].
  intros [r ->]. rewrite app_length in L. destruct r; [apply app_nil_r|cbn in L; lia].
Qed.

(** The bits of a tag, field by field. *)
Definition head_bits (k : scheme) : list bool := bits_w 8 (header k).
Definition f_bits (f : epc_fields) : list bool := bits_w 3 (dec_value (f_filter f)).
Definition p_bits_of (f : epc_fields) : list bool := bits_w 3 (N.of_nat (fields_partition f)).
Definition cp_bits_of (f : epc_fields) : list bool := bits_w (cp_bits (fields_partition f)) (dec_value (f_cp f)).
Definition ref_bits_of (k : scheme) (f : epc_fields) : list bool := bits_w (ref_bits k (fields_partition f)) (dec_value (f_ref f)).
Definition tail_bits (k : scheme) (f : epc_fields) : list bool :=
  match k with Sgtin | Grai => bits_w 38 (dec_value (f_ser f)) | Sscc => bits_w 24 0 | Giai => [] end.
Definition tag_bits (k : scheme) (f : epc_fields) : list bool :=
  head_bits k ++ f_bits f ++ p_bits_of f ++ cp_bits_of f ++ ref_bits_of k f ++ tail_bits k f.
Lemma tag_bits_length k f : cp_length_ok f -> length (tag_bits k f) = 96.
Proof.
  intros H. unfold cp_length_ok in H. pose proof (total_bits k _ H) as T. fold (fields_partition f) in T.
  unfold tag_bits, head_bits, f_bits, p_bits_of, cp_bits_of, ref_bits_of, tail_bits. rewrite !app_length, !bits_w_length.
  destruct k; rewrite ?bits_w_length; cbn [length pair_bits] in *; lia.
Qed.
Lemma header_lt k : (header k < 2 ^ 8)%N.
Proof. destruct k; reflexivity. Qed.
Lemma partition_nat id n : n <= 7 -> field id 11 3 = N.of_nat n <-> partition id = n.
Proof. intros H. unfold partition. lia. Qed.

Section TAG.
  Context (k : scheme) (f : epc_fields) (id : list N).
  Context (LEN : length id = 12) (CPL : cp_length_ok f).

  Let BL : length (bits_of_bytes id) = 96.
  Proof. rewrite bits_of_bytes_length, LEN. reflexivity. Qed.
  Let CPR : 20 <= cp_bits (fields_partition f) <= 40.
  Proof. apply cp_bits_range. exact CPL. Qed.
  Let TOT : cp_bits (fields_partition f) + ref_bits k (fields_partition f) = pair_bits k.
  Proof. apply total_bits. exact CPL. Qed.
  Let PB : pair_bits k <= 82.
  Proof. destruct k; cbn; lia. Qed.
  Let PART : fields_partition f <= 6.
  Proof. unfold fields_partition, cp_length_ok in *. lia. Qed.

  Lemma head_prefix y : bprefix (head_bits k ++ y) (bits_of_bytes id) <->
    field id 0 8 = header k /\ bprefix y (skipn 8 (bits_of_bytes id)).
  Proof. apply (bprefix_field id 0 8); [lia|apply header_lt]. Qed.
  Lemma filter_prefix y : (dec_value (f_filter f) < 2 ^ 3)%N -> bprefix (f_bits f ++ y) (skipn 8 (bits_of_bytes id)) <->
    field id 8 3 = dec_value (f_filter f) /\ bprefix y (skipn 11 (bits_of_bytes id)).
  Proof. intros V. apply (bprefix_field id 8 3); [lia|exact V]. Qed.
  Lemma part_prefix y : bprefix (p_bits_of f ++ y) (skipn 11 (bits_of_bytes id)) <->
    partition id = fields_partition f /\ bprefix y (skipn 14 (bits_of_bytes id)).
  Proof.
    rewrite <- partition_nat by lia. apply (bprefix_field id 11 3); [lia|]. change (2 ^ N.of_nat 3)%N with 8%N. lia.
  Qed.
  Lemma cp_prefix y : (dec_value (f_cp f) < 2 ^ N.of_nat (cp_bits (fields_partition f)))%N ->
    bprefix (cp_bits_of f ++ y) (skipn 14 (bits_of_bytes id)) <->
    field id 14 (cp_bits (fields_partition f)) = dec_value (f_cp f) /\
    bprefix y (skipn (14 + cp_bits (fields_partition f)) (bits_of_bytes id)).
  Proof. intros V. apply bprefix_field; [lia|exact V]. Qed.
  Lemma ref_prefix y : (dec_value (f_ref f) < 2 ^ N.of_nat (ref_bits k (fields_partition f)))%N ->
    bprefix (ref_bits_of k f ++ y) (skipn (14 + cp_bits (fields_partition f)) (bits_of_bytes id)) <->
    field id (14 + cp_bits (fields_partition f)) (ref_bits k (fields_partition f)) = dec_value (f_ref f) /\
    bprefix y (skipn (14 + pair_bits k) (bits_of_bytes id)).
  Proof. intros V. rewrite <- TOT, Nat.add_assoc. apply bprefix_field; [lia|exact V]. Qed.

  (** A tag carries the fields exactly when its bits are these. *)
  Lemma carries_bits : wf_bytes id -> fits_bits k f -> carries k f id <-> bits_of_bytes id = tag_bits k f.
  Proof.
    intros W (V1 & V2 & V3 & V4). rewrite <- bprefix_full by (rewrite tag_bits_length by auto; rewrite BL; auto).
    unfold tag_bits. rewrite head_prefix, filter_prefix, part_prefix, cp_prefix, ref_prefix by auto.
    unfold carries, tag96, cp_value, ref_value.
    assert (bprefix (tail_bits k f) (skipn (14 + pair_bits k) (bits_of_bytes id)) <->
      match k with
      | Sgtin | Grai => serial_value id = dec_value (f_ser f)
      | Sscc => field id 72 24 = 0%N
      | Giai => True
      end) as T.
    { rewrite <- (app_nil_r (tail_bits k f)). destruct k; cbn [tail_bits pair_bits Nat.add] in *.
      - rewrite bprefix_field; [unfold serial_value; pose proof (bprefix_nil (skipn (58+38) (bits_of_bytes id))); tauto|lia|auto].
      - rewrite bprefix_field; [pose proof (bprefix_nil (skipn (72+24) (bits_of_bytes id))); tauto|lia|reflexivity].
      - rewrite bprefix_field; [unfold serial_value; pose proof (bprefix_nil (skipn (58+38) (bits_of_bytes id))); tauto|lia|auto].
      - split; auto. intros _. apply bprefix_nil. }
    rewrite T. split.
    - intros ((_ & _ & H0) & H1 & H2 & H3 & H4 & H5). rewrite H2 in *. auto 8.
    - intros (H0 & H1 & H2 & H3 & H4 & H5). rewrite H2. auto 8.
  Qed.
End TAG.

(** ** Encoders *)
Definition tail_str (k : scheme) (E : env) (f : epc_fields) : gostring :=
  match k with Sgtin | Grai => padded E 38 (f_ser f) | Sscc => zero_padding 24 | Giai => [] end.
Definition body (k : scheme) (E : env) (f : epc_fields) : gostring :=
  get_filter E (f_filter f) ++ partition_bits (t_table k) (f_cp f) ++
  padded E (p_cp_bits (pt_row (t_table k) (length (f_cp f)))) (f_cp f) ++
  padded E (p_bits (pt_row (t_table k) (length (f_cp f)))) (f_ref f) ++ tail_str k E f.
Lemma encode_body k E f : f_cp f <> [] -> f_ref f <> [] -> (has_serial k = true -> f_ser f <> []) ->
  encode k E f = pack_epc (header k) (body k E f).
Proof.
  intros HC HR HS. unfold body. rewrite <- (get_cp_padded E (f_cp f) (t_table k)) by auto.
  rewrite <- (get_ref_padded E (f_ref f) (pt_row (t_table k) (length (f_cp f)))) by auto.
  destruct (s_getters E k) as (G1 & G2 & G3 & G4 & G5). rewrite <- G1, <- G2, <- G3, <- G4. unfold tail_str.
  destruct f as [fv cp ref ser]; cbn [f_filter f_cp f_ref f_ser] in *. destruct cp as [|c cp]; [congruence|].
  destruct ref as [|r ref]; [congruence|].
  destruct k; cbn [encode f_filter f_cp f_ref f_ser].
  - rewrite <- (get_serial_padded E ser 38) by auto. rewrite <- G5. unfold make_sgtin96. destruct ser; [exfalso; apply HS; auto|]. reflexivity.
  - unfold make_sscc96. reflexivity.
  - rewrite <- (get_serial_padded E ser 38) by auto. rewrite <- G5. unfold make_grai96. destruct ser; [exfalso; apply HS; auto|]. reflexivity.
  - unfold make_giai96. rewrite app_nil_r. reflexivity.
Qed.
Lemma body_bits k E f : digit_fields k f -> cp_length_ok f -> fits_bits k f ->
  head_bits k ++ [] = head_bits k /\ body k E f = bits_to_str (f_bits f ++ p_bits_of f ++ cp_bits_of f ++ ref_bits_of k f ++ tail_bits k f).
Proof.
  intros (D1 & D2 & D3 & D4) CPL (V1 & V2 & V3 & V4). split; [apply app_nil_r|]. unfold body, cp_length_ok in *.
  destruct (t_row k _ CPL) as (_ & RC & RR). rewrite RC, RR. fold (fields_partition f).
  pose proof (cp_bits_range _ CPL) as BC. pose proof (ref_bits_range k _ CPL) as BR. fold (fields_partition f) in BC, BR.
  rewrite get_filter_fits, partition_bits_fits by auto. fold (fields_partition f). rewrite !padded_fits by (auto; lia).
  rewrite !bits_to_str_app. repeat f_equal.
  unfold tail_str, tail_bits. destruct k; auto; apply padded_fits; auto; lia.
Qed.
Lemma pack_epc_ok h l : (h < 256)%N -> length l = 88 ->
  exists p, pack_epc h (bits_to_str l) = Ok (h :: p, [], []) /\ wf_bytes (h :: p) /\ length (h :: p) = 12 /\
    bits_of_bytes (h :: p) = bits_w 8 h ++ l.
Proof.
  intros Hh HL. unfold pack_epc. rewrite bits_to_str_length, HL. cbn [Nat.eqb negb]. unfold binstr_to_bytes.
  rewrite chars_to_bits_to_str. destruct (bytes_of_bits_total l 11 HL) as (bs & E & L). rewrite E. cbn [bind].
  apply bytes_of_bits_spec in E. destruct E as [E1 E2]. exists bs. split; [reflexivity|]. split; [constructor; auto|].
  split; [cbn; lia|]. rewrite bits_of_bytes_cons, E1. f_equal. symmetry. apply bits_w_unique; [reflexivity|].
  apply N_of_bits_byte; auto.
Qed.
Lemma encode_ok k E f : digit_fields k f -> cp_length_ok f -> fits_bits k f ->
  exists id, encode k E f = Ok (id, [], []) /\ carries k f id.
Proof.
  intros D CPL V. pose proof (tag_bits_length k f CPL) as TL. unfold tag_bits in TL. rewrite app_length in TL.
  unfold head_bits in TL at 1. rewrite bits_w_length in TL.
  destruct (body_bits k E f D CPL V) as [_ B].
  destruct D as ([? ?] & [? ?] & [? ?] & D4). rewrite encode_body by (auto; intros; apply D4; auto).
  rewrite B. destruct (pack_epc_ok (header k) (f_bits f ++ p_bits_of f ++ cp_bits_of f ++ ref_bits_of k f ++ tail_bits k f)) as (p & EP & W & L & BB).
  - destruct k; reflexivity.
  - lia.
  - exists (header k :: p). split; auto. apply carries_bits; auto.
Qed.
Lemma pack_epc_err h s : length s <> 88 -> pack_epc h s = Err.
Proof. intros H. unfold pack_epc. apply Nat.eqb_neq in H. rewrite H. reflexivity. Qed.
Lemma encode_err k E f : digit_fields k f -> cp_length_ok f -> ~ fits_bits k f ->
  (dec_value (f_ref f) < 2 ^ 63)%N -> (has_serial k = true -> dec_value (f_ser f) < 2 ^ 63)%N ->
  encode k E f = Err.
Proof.
  intros (D1 & D2 & D3 & D4) CPL NV I1 I2.
  rewrite encode_body by (first [destruct D2; auto; fail | destruct D3; auto; fail | intros; apply D4; auto]).
  apply pack_epc_err. unfold body, cp_length_ok in *.
  destruct (t_row k _ CPL) as (_ & RC & RR). rewrite RC, RR. fold (fields_partition f). rewrite partition_bits_fits by auto.
  rewrite !app_length, bits_to_str_length, bits_w_length.
  pose proof (cp_fits _ D2 CPL) as VC. fold (fields_partition f) in VC.
  pose proof (cp_bits_range _ CPL) as BC. fold (fields_partition f) in BC.
  pose proof (total_bits k _ CPL) as TB. fold (fields_partition f) in TB.
  rewrite (padded_fits E _ (f_cp f)) by (auto; lia). rewrite bits_to_str_length, bits_w_length.
  destruct (get_filter_length E _ D1) as [F1 F2]. pose proof (padded_ge E (ref_bits k (fields_partition f)) _ D3 I1) as R1.
  pose proof (padded_long E (ref_bits k (fields_partition f)) _ D3 I1) as R2.
  assert (38 <= length (tail_str k E f) + match k with Sscc => 14 | Giai => 38 | _ => 0 end /\
    (has_serial k = true -> (2 ^ 38 <= dec_value (f_ser f))%N -> 38 < length (tail_str k E f))) as [S1 S2].
  { unfold tail_str. destruct k; cbn [has_serial] in *; try (split; [|intros Hx; discriminate]); try (cbn; lia).
    - split; [pose proof (padded_ge E 38 _ (D4 eq_refl) (I2 eq_refl)); lia|]. intros _ Hx. apply padded_long; auto.
    - split; [pose proof (padded_ge E 38 _ (D4 eq_refl) (I2 eq_refl)); lia|]. intros _ Hx. apply padded_long; auto. }
  intros HL. apply NV. unfold fits_bits.
  assert (dec_value (f_filter f) < 8)%N. { apply N.nle_gt. intros X. specialize (F2 X). destruct k; cbn [pair_bits] in TB; lia. }
  assert (dec_value (f_ref f) < 2 ^ N.of_nat (ref_bits k (fields_partition f)))%N.
  { apply N.nle_gt. intros X. specialize (R2 X). destruct k; cbn [pair_bits] in TB; lia. }
  split; auto. split; auto. split; auto. intros HS. apply N.nle_gt. intros X. specialize (S2 HS X).
  destruct k; cbn [pair_bits has_serial] in *; try discriminate; lia.
Qed.