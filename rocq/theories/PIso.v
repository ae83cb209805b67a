(** ISO 17363 / 17365: 6-bit texts. *)
From Verif Require Import GoBase BinUtil MFilter MTdtEpc MTdtIso MTdtCore MScheme MSubs Spec SpecEpc SpecIso PBase PFilter PNum PTdt PTdt2 PMatch PList PSubs PSubs2 PEpc PEpc3.
From Coq Require Import Lia ZifyBool ZifyNat ZifyN.
Ltac Zify.zify_post_hook ::= Z.div_mod_to_equations.

(** ** Finite checks over characters and bytes *)
Definition all_chars : list ascii := map (fun n => ascii_of_N (N.of_nat n)) (seq 0 256).
Lemma all_chars_In c : In c all_chars.
Proof.
  unfold all_chars. apply in_map_iff. exists (N.to_nat (N_of_ascii c)). rewrite N2Nat.id, ascii_N_embedding. split; auto.
  apply in_seq. pose proof (N_ascii_bounded c). lia.
Qed.
Lemma char_forallb (f : ascii -> bool) : forallb f all_chars = true -> forall c, f c = true.
Proof. intros H c. rewrite forallb_forall in H. apply H, all_chars_In. Qed.

(** ** Sextets *)
Definition six (c : ascii) : list bool := map (N.testbit (N_of_ascii c)) [5; 4; 3; 2; 1; 0]%N.
Definition text_bits (s : gostring) : list bool := flat_map six s.
Lemma runes_bits s : runes_to_6bin s = bits_to_str (text_bits s).
Proof.
  induction s as [|c s IH]; [reflexivity|]. change (runes_to_6bin (c :: s)) with (rune_to_6bin c ++ runes_to_6bin s).
  change (text_bits (c :: s)) with (six c ++ text_bits s). rewrite bits_to_str_app, IH. reflexivity.
Qed.
Lemma text_bits_length s : length (text_bits s) = 6 * length s.
Proof. induction s as [|c s IH]; auto. change (text_bits (c :: s)) with (six c ++ text_bits s). rewrite app_length, IH. cbn [length six map]. lia. Qed.
Lemma text_bits_app a b : text_bits (a ++ b) = text_bits a ++ text_bits b.
Proof. apply flat_map_app. Qed.

Definition sextet_field (l : list bool) (k : nat) : N := N_of_bits (firstn 6 (skipn (6 * k) l)).
Definition two_bytes_check (a b : N) : bool :=
  let l := bits_of_byte a ++ bits_of_byte b in
  (N.shiftr (N.land 252 a) 2 =? N_of_bits (firstn 6 l))%N &&
  (N.land 63 a =? N_of_bits (firstn 6 (skipn 2 l)))%N &&
  (N.lor (shl8 (N.land 15 a) 2) (N.shiftr (N.land 192 b) 6) =? N_of_bits (firstn 6 (skipn 4 l)))%N &&
  (N.lor (shl8 (N.land 3 a) 4) (N.shiftr (N.land 240 b) 4) =? N_of_bits (firstn 6 (skipn 6 l)))%N.
Lemma byte2_forallb (f : N -> N -> bool) :
  forallb (fun a => forallb (f a) (map N.of_nat (seq 0 256))) (map N.of_nat (seq 0 256)) = true ->
  forall a b, (a < 256)%N -> (b < 256)%N -> f a b = true.
Proof.
  intros H a b Ha Hb. pose proof (byte_forallb _ H a Ha) as H1. exact (byte_forallb _ H1 b Hb).
Qed.
Lemma two_bytes_true : forall a b, (a < 256)%N -> (b < 256)%N -> two_bytes_check a b = true.
Proof. apply byte2_forallb. vm_compute. reflexivity. Qed.
Lemma two_bytes a b : (a < 256)%N -> (b < 256)%N -> let l := bits_of_byte a ++ bits_of_byte b in
  N.shiftr (N.land 252 a) 2 = N_of_bits (firstn 6 l) /\
  N.land 63 a = N_of_bits (firstn 6 (skipn 2 l)) /\
  N.lor (shl8 (N.land 15 a) 2) (N.shiftr (N.land 192 b) 6) = N_of_bits (firstn 6 (skipn 4 l)) /\
  N.lor (shl8 (N.land 3 a) 4) (N.shiftr (N.land 240 b) 4) = N_of_bits (firstn 6 (skipn 6 l)).
Proof.
  intros Ha Hb l. pose proof (two_bytes_true a b Ha Hb) as H. unfold two_bytes_check in H. cbv zeta in H. fold l in H.
  rewrite !andb_true_iff, !N.eqb_eq in H. tauto.
Qed.
Lemma firstn_app_le {A} n (a b : list A) : n <= length a -> firstn n (a ++ b) = firstn n a.
Proof. intros H. rewrite firstn_app. replace (n - length a) with 0 by lia. cbn. apply app_nil_r. Qed.
Lemma skipn_app_le {A} n (a b : list A) : n <= length a -> skipn n (a ++ b) = skipn n a ++ b.
Proof. intros H. rewrite skipn_app. replace (n - length a) with 0 by lia. reflexivity. Qed.
Lemma sextet_ok inp k : wf_bytes inp -> 6 * k + 6 <= 8 * length inp ->
  sextet inp k = Ok (sextet_field (bits_of_bytes inp) k).
Proof.
  intros W L. unfold sextet, sextet_field. remember (6 * k / 8) as y. remember (6 * k mod 8) as x.
  assert (6 * k = 8 * y + x) as EK by lia. rewrite EK. rewrite skipn_add, <- bits_of_bytes_skipn.
  assert (In x [0; 2; 4; 6]) as IX. { cbn [In]. lia. }
  assert (x + 6 <= 8 * (length inp - y)) as LX by lia. rewrite <- skipn_length in LX.
  assert (wf_bytes (skipn y inp)) as WS. { apply Forall_forall. intros b Hb. unfold wf_bytes in W. rewrite Forall_forall in W. apply W. rewrite <- (firstn_skipn y inp). apply in_or_app. auto. }
  unfold index. assert (nth_error inp y = nth_error (skipn y inp) 0) as -> by (rewrite nth_error_skipn; f_equal; lia).
  assert (nth_error inp (y + 1) = nth_error (skipn y inp) 1) as -> by (rewrite nth_error_skipn; f_equal; lia).
  set (r := skipn y inp) in *. clearbody r. destruct r as [|a [|b r]]; [cbn in LX; lia| |].
  - assert (a < 256)%N as Ha by (inversion WS; auto). destruct (two_bytes a 0 Ha ltac:(lia)) as (T1 & T2 & _).
    cbn [nth_error bind]. rewrite bits_of_bytes_cons. cbn [bits_of_bytes flat_map]. rewrite app_nil_r.
    assert (length (bits_of_byte a) = 8) as L8 by apply bits_of_byte_length. cbn [length] in LX.
    destruct IX as [<-|[<-|[<-|[<-|[]]]]]; try lia; f_equal.
    + rewrite T1. cbn [skipn]. rewrite firstn_app_le by lia. reflexivity.
    + rewrite T2. rewrite skipn_app_le by lia. rewrite firstn_app_le by (rewrite skipn_length; lia). reflexivity.
  - assert (a < 256)%N as Ha by (inversion WS; auto). assert (b < 256)%N as Hb by (inversion WS as [|? ? ? WS']; inversion WS'; auto).
    destruct (two_bytes a b Ha Hb) as (T1 & T2 & T3 & T4).
    cbn [nth_error bind]. rewrite !bits_of_bytes_cons, app_assoc.
    assert (length (bits_of_byte a ++ bits_of_byte b) = 16) as L16 by (rewrite app_length, !bits_of_byte_length; reflexivity).
    cbv zeta in *. set (l := bits_of_byte a ++ bits_of_byte b) in *. clearbody l. destruct IX as [<-|[<-|[<-|[<-|[]]]]]; f_equal.
    + rewrite T1. cbn [skipn]. rewrite firstn_app_le by lia. reflexivity.
    + rewrite T2, skipn_app_le by lia. rewrite firstn_app_le by (rewrite skipn_length; lia). reflexivity.
    + rewrite T3, skipn_app_le by lia. rewrite firstn_app_le by (rewrite skipn_length; lia). reflexivity.
    + rewrite T4, skipn_app_le by lia. rewrite firstn_app_le by (rewrite skipn_length; lia). reflexivity.
Qed.
Fixpoint take_six (m : nat) (l : list bool) : list N :=
  match m with 0 => [] | S m' => N_of_bits (firstn 6 l) :: take_six m' (skipn 6 l) end.
Lemma take_six_fields m l j : take_six m (skipn (6 * j) l) = map (sextet_field l) (seq j m).
Proof.
  revert j; induction m as [|m IH]; intros j; [reflexivity|]. cbn [take_six seq map]. f_equal.
  rewrite <- IH, <- skipn_add. f_equal. f_equal. lia.
Qed.
Lemma parse_6bit_bits inp : wf_bytes inp ->
  parse_6bit inp = Ok (flat_map sextet_char (take_six (8 * length inp / 6) (bits_of_bytes inp))).
Proof.
  intros W. unfold parse_6bit. pose proof (take_six_fields (8 * length inp / 6) (bits_of_bytes inp) 0) as T.
  change (6 * 0) with 0 in T. cbn [skipn] in T. rewrite T. clear T.
  assert (forall ks, (forall k, In k ks -> 6 * k + 6 <= 8 * length inp) ->
    parse_sextets inp ks = Ok (flat_map sextet_char (map (sextet_field (bits_of_bytes inp)) ks))) as X.
  { induction ks as [|k ks IH]; intros H; [reflexivity|]. cbn [parse_sextets map flat_map].
    rewrite sextet_ok by (auto; apply H; left; auto). cbn [bind]. rewrite IH by (intros; apply H; right; auto). reflexivity. }
  apply X. intros k I. apply in_seq in I. lia.
Qed.
Lemma take_six_text t q r : take_six (length t + q) (text_bits t ++ r) = map (fun c => N_of_bits (six c)) t ++ take_six q r.
Proof.
  induction t as [|c t IH]; [reflexivity|]. change (text_bits (c :: t)) with (six c ++ text_bits t). rewrite <- app_assoc.
  cbn [length Nat.add take_six map app]. f_equal. exact IH.
Qed.

(** ** Padding *)
Definition pad_bits (r : nat) : list bool := map (fun i => Nat.eqb (i mod 6) 0) (seq 0 r).
Definition iso_pad (n : nat) : nat := let m := 6 * n mod 16 in if Nat.eqb m 0 then 0 else 16 - m.
Lemma iso_pad_In n : In (iso_pad n) [0; 2; 4; 6; 8; 10; 12; 14].
Proof. unfold iso_pad. cbn [In]. destruct (Nat.eqb_spec (6 * n mod 16) 0); lia. Qed.
Lemma pad_bits_length r : length (pad_bits r) = r.
Proof. unfold pad_bits. rewrite map_length, seq_length. reflexivity. Qed.
Lemma pad_sextets n : flat_map sextet_char (take_six (iso_pad n / 6) (pad_bits (iso_pad n))) = [].
Proof.
  destruct (iso_pad_In n) as [<-|[<-|[<-|[<-|[<-|[<-|[<-|[<-|[]]]]]]]]]; reflexivity.
Qed.
Lemma pad_text t : s_pad_6bit (runes_to_6bin t) = (bits_to_str (text_bits t ++ pad_bits (iso_pad (length t))), 6 * length t + iso_pad (length t)).
Proof.
  unfold s_pad_6bit. rewrite runes_bits, bits_to_str_length, text_bits_length. pose proof (iso_pad_In (length t)) as IP. unfold iso_pad in *.
  destruct (Nat.eqb (6 * length t mod 16) 0) eqn:E.
  - cbn [pad_bits seq map]. rewrite app_nil_r, Nat.add_0_r. reflexivity.
  - rewrite bits_to_str_app. f_equal. f_equal. cbv zeta. set (r := 16 - 6 * length t mod 16) in *. clearbody r.
    destruct IP as [<-|[<-|[<-|[<-|[<-|[<-|[<-|[<-|[]]]]]]]]]; reflexivity.
Qed.
Lemma pack_iso_text t : exists id, pack_iso (runes_to_6bin t) = Ok (id, 8 * length id, [], []) /\ wf_bytes id /\
  8 * length id = 6 * length t + iso_pad (length t) /\ bits_of_bytes id = text_bits t ++ pad_bits (iso_pad (length t)).
Proof.
  unfold pack_iso. rewrite pad_text. assert (exists w, 6 * length t + iso_pad (length t) = 8 * w) as [w EW].
  { exists ((6 * length t + iso_pad (length t)) / 8). unfold iso_pad. destruct (Nat.eqb_spec (6 * length t mod 16) 0); lia. }
  unfold binstr_to_bytes. rewrite chars_to_bits_to_str.
  destruct (bytes_of_bits_total (text_bits t ++ pad_bits (iso_pad (length t))) w) as (bs & E & L).
  { rewrite app_length, text_bits_length, pad_bits_length. auto. }
  rewrite E. cbn [bind]. apply bytes_of_bits_spec in E. destruct E as [E1 E2]. exists bs. rewrite L, <- EW. auto.
Qed.
Definition six_bit_b (c : ascii) : bool := ((32 <=? N_of_ascii c) && (N_of_ascii c <? 96))%N.
Lemma sextet_char_six c : six_bit c -> sextet_char (N_of_bits (six c)) = without_spaces [c].
Proof.
  intros H. assert (six_bit_b c = true) as B by (unfold six_bit_b, six_bit in *; lia). clear H.
  assert ((if six_bit_b c then seqb (sextet_char (N_of_bits (six c))) (without_spaces [c]) else true) = true) as X.
  { revert c B. refine (fun c _ => char_forallb (fun c => if six_bit_b c then seqb (sextet_char (N_of_bits (six c))) (without_spaces [c]) else true) _ c).
    vm_compute. reflexivity. }
  rewrite B in X. apply seqb_eq in X. exact X.
Qed.
Lemma decode_text t id : Forall six_bit t -> wf_bytes id -> bits_of_bytes id = text_bits t ++ pad_bits (iso_pad (length t)) ->
  parse_6bit id = Ok (without_spaces t).
Proof.
  intros F W B. rewrite parse_6bit_bits by auto.
  assert (8 * length id = 6 * length t + iso_pad (length t)) as L.
  { rewrite <- bits_of_bytes_length, B, app_length, text_bits_length, pad_bits_length. reflexivity. }
  rewrite L, B. replace ((6 * length t + iso_pad (length t)) / 6) with (length t + iso_pad (length t) / 6) by lia.
  rewrite take_six_text, flat_map_app, pad_sextets, app_nil_r. clear L B W. f_equal.
  induction F as [|c t Hc F IH]; [reflexivity|]. cbn [map flat_map]. rewrite sextet_char_six by auto. rewrite IH.
  unfold without_spaces. cbn [filter]. destruct (negb _); reflexivity.
Qed.
Lemma without_spaces_text t : six_bit_text t -> without_spaces t = t.
Proof.
  induction 1 as [|c t [_ H] F IH]; [reflexivity|]. unfold without_spaces in *. cbn [filter]. rewrite IH.
  destruct (Ascii.eqb_spec c space); [congruence|reflexivity].
Qed.
Lemma six_bit_text_six t : six_bit_text t -> Forall six_bit t.
Proof. intros H. eapply Forall_impl; [|exact H]. cbn. tauto. Qed.

(** The PC of an identifier of [n] bits, a multiple of 16. *)
Lemma make_iso_pc_ok w afi : w <= 31 -> make_iso_pc (16 * w) afi = Ok [8 * N.of_nat w + 1; afi]%N.
Proof.
  intros H. unfold make_iso_pc. replace (16 * w / 16) with w by lia.
  assert (forallb (fun w => match binstr_to_bytes (pad_left c0 5 (bin_string (N.of_nat w)) ++ str "001") with
     | Ok (p :: _) => (p =? 8 * N.of_nat w + 1)%N | _ => false end) (seq 0 32) = true) as X by (vm_compute; reflexivity).
  rewrite forallb_forall in X. specialize (X w ltac:(apply in_seq; lia)).
  destruct (binstr_to_bytes _) as [[|p l]| |]; try discriminate. apply N.eqb_eq in X. rewrite X. reflexivity.
Qed.
Lemma iso_words (t : gostring) : length t <= 82 -> exists w, 6 * length t + iso_pad (length t) = 16 * w /\ w <= 31.
Proof.
  intros H. exists ((6 * length t + iso_pad (length t)) / 16). unfold iso_pad. destruct (Nat.eqb_spec (6 * length t mod 16) 0); lia.
Qed.
Lemma iso_round_trip t afi nm : length t <= 82 -> Forall six_bit t -> afi_name afi = Some nm ->
  exists id pc, pack_iso (runes_to_6bin t) = Ok (id, 8 * length id, [], []) /\ make_iso_pc (8 * length id) afi = Ok pc /\
    bits_of_bytes id = text_bits t ++ pad_bits (iso_pad (length t)) /\ wf_bytes id /\
    translate pc id = Ok (str "urn:epc:id:iso" ++ nm ++ without_spaces t).
Proof.
  intros L F A. destruct (pack_iso_text t) as (id & P & W & LI & B). exists id.
  destruct (iso_words t L) as (w & EW & LW). exists [8 * N.of_nat w + 1; afi]%N. split; auto. rewrite LI, EW. split; [apply make_iso_pc_ok; auto|].
  split; auto. split; auto. unfold translate. assert (N.land 1 (8 * N.of_nat w + 1) = 1%N) as ->.
  { rewrite N.land_comm. change 1%N with (N.ones 1) at 2. rewrite N.land_ones. change (2 ^ 1)%N with 2%N. lia. }
  cbn [N.eqb Pos.eqb]. unfold build_uii. rewrite A, (decode_text t) by auto. reflexivity.
Qed.
Lemma runes_app a b : runes_to_6bin (a ++ b) = runes_to_6bin a ++ runes_to_6bin b.
Proof. apply flat_map_app. Qed.

(** ** Check digit *)
Definition code_char_b (c : ascii) : bool := is_digit c || is_upper c.
Lemma code_char_b_ok c : code_char c <-> code_char_b c = true.
Proof. unfold code_char, code_char_b. rewrite orb_true_iff. reflexivity. Qed.
Lemma alphabet_value c : code_char c -> index_char iso6346_alphabet c = iso6346_value c /\ upper_char c = c /\ six_bit c /\ c <> space.
Proof.
  rewrite code_char_b_ok. intros B.
  pose proof (char_forallb (fun c => if code_char_b c then (index_char iso6346_alphabet c =? iso6346_value c)%Z && Ascii.eqb (upper_char c) c && six_bit_b c && negb (Ascii.eqb c space) else true)
    ltac:(vm_compute; reflexivity) c) as X. cbn beta in X. rewrite B in X. rewrite !andb_true_iff, Z.eqb_eq, Ascii.eqb_eq, negb_true_iff, Ascii.eqb_neq in X.
  destruct X as (((? & ?) & S) & ?). split; auto. split; auto. split; auto. unfold six_bit, six_bit_b in *. lia.
Qed.
Lemma code_value_range c : code_char c -> (0 <= iso6346_value c <= 38)%Z.
Proof.
  rewrite code_char_b_ok. intros B.
  pose proof (char_forallb (fun c => if code_char_b c then (0 <=? iso6346_value c)%Z && (iso6346_value c <=? 38)%Z else true)
    ltac:(vm_compute; reflexivity) c) as X. cbn beta in X. rewrite B in X. lia.
Qed.
Lemma sum_weighted s w : Forall code_char s -> iso6346_sum w s = weighted_sum w s /\ s_iso6346_sum w s = weighted_sum w s /\ to_upper s = s.
Proof.
  intros F. revert w; induction F as [|c s Hc F IH]; intros w; [auto|]. cbn [iso6346_sum s_iso6346_sum weighted_sum to_upper map].
  destruct (IH (2 * w)%Z) as (H1 & H2 & H3). destruct (alphabet_value c Hc) as (V & U & _). fold (to_upper s).
  change (str "0123456789A?BCDEFGHIJK?LMNOPQRSTU?VWXYZ") with iso6346_alphabet. rewrite V, H1, H2, H3, U. auto.
Qed.
Lemma weighted_nonneg s w : Forall code_char s -> (0 <= w)%Z -> (0 <= weighted_sum w s)%Z.
Proof.
  intros F. revert w; induction F as [|c s Hc F IH]; intros w Hw; cbn [weighted_sum]; [lia|].
  pose proof (code_value_range c Hc). specialize (IH (2 * w)%Z ltac:(lia)). nia.
Qed.
Lemma cd_value n : (0 <= n)%Z -> Z.rem (n - Z.quot n 11 * 11) 10 = ((n mod 11) mod 10)%Z.
Proof.
  intros H. rewrite Z.quot_div_nonneg by lia. rewrite Z.rem_mod_nonneg by lia. f_equal. lia.
Qed.
Lemma check_digit_ok s : length s = 10 -> Forall code_char s ->
  get_iso6346_cd s = Ok (check_digit s) /\ s_get_iso6346_cd s = Ok (check_digit s) /\ (0 <= check_digit s <= 9)%Z.
Proof.
  intros L F. destruct (sum_weighted s 1 F) as (H1 & H2 & H3). pose proof (weighted_nonneg s 1 F ltac:(lia)) as P.
  unfold get_iso6346_cd, s_get_iso6346_cd. rewrite L, H3. cbn [Nat.eqb negb]. rewrite H1, H2, cd_value by auto. unfold check_digit. split; auto. split; auto. lia.
Qed.
Lemma weighted_scale s w : weighted_sum w s = (w * weighted_sum 1 s)%Z.
Proof.
  revert w; induction s as [|c s IH]; intros w; cbn [weighted_sum]; [lia|].
  rewrite (IH (2 * w)%Z), (IH (2 * 1)%Z). ring.
Qed.
Lemma weighted_app a s w : weighted_sum w (a ++ s) = (weighted_sum w a + 2 ^ Z.of_nat (length a) * weighted_sum w s)%Z.
Proof.
  revert w; induction a as [|c a IH]; intros w; cbn [weighted_sum app length].
  - change (2 ^ Z.of_nat 0)%Z with 1%Z. lia.
  - rewrite IH, (weighted_scale s (2 * w)), (weighted_scale s w), Nat2Z.inj_succ, Z.pow_succ_r by lia. ring.
Qed.
Lemma pow2_mod11 i d : ((2 ^ Z.of_nat i * d) mod 11 = 0 -> d mod 11 = 0)%Z.
Proof.
  revert d; induction i as [|i IH]; intros d H.
  - change (2 ^ Z.of_nat 0)%Z with 1%Z in H. rewrite Z.mul_1_l in H. auto.
  - rewrite Nat2Z.inj_succ, Z.pow_succ_r in H by lia. assert ((2 * d) mod 11 = 0)%Z as X by (apply IH; rewrite <- H; f_equal; ring). lia.
Qed.
Lemma single_error a c c' b :
  (weighted_sum 1 (a ++ c :: b) mod 11 = weighted_sum 1 (a ++ c' :: b) mod 11)%Z <-> (iso6346_value c mod 11 = iso6346_value c' mod 11)%Z.
Proof.
  rewrite !weighted_app. cbn [weighted_sum]. set (P := (2 ^ Z.of_nat (length a))%Z).
  set (x := weighted_sum 1 a). set (y := weighted_sum (2 * 1) b). set (v := iso6346_value c). set (v' := iso6346_value c').
  split; intros H.
  - assert ((P * (v - v')) mod 11 = 0)%Z as D.
    { replace (P * (v - v'))%Z with ((x + P * (1 * v + y)) - (x + P * (1 * v' + y)))%Z by ring. rewrite Zminus_mod, H. rewrite Z.sub_diag. reflexivity. }
    apply pow2_mod11 in D. lia.
  - assert (exists q, v = v' + 11 * q)%Z as [q ->] by (exists (v / 11 - v' / 11)%Z; lia).
    replace (x + P * (1 * (v' + 11 * q) + y))%Z with ((x + P * (1 * v' + y)) + (P * q) * 11)%Z by ring. apply Z_mod_plus_full.
Qed.
Lemma digit_char_string z : (0 <= z <= 9)%Z -> dec_string_Z z = [digit_char z].
Proof.
  intros H. assert (forallb (fun n => seqb (dec_string_Z (Z.of_nat n)) [digit_char (Z.of_nat n)]) (seq 0 10) = true) as X by (vm_compute; reflexivity).
  rewrite forallb_forall in X. specialize (X (Z.to_nat z) ltac:(apply in_seq; lia)). rewrite Z2Nat.id in X by lia. apply seqb_eq in X. exact X.
Qed.
Lemma digit_char_digit z : (0 <= z <= 9)%Z -> code_char (digit_char z).
Proof.
  intros H. assert (forallb (fun n => code_char_b (digit_char (Z.of_nat n))) (seq 0 10) = true) as X by (vm_compute; reflexivity).
  rewrite forallb_forall in X. specialize (X (Z.to_nat z) ltac:(apply in_seq; lia)). rewrite Z2Nat.id in X by lia. apply code_char_b_ok in X. exact X.
Qed.

(** ** Encoders *)
Lemma make_iso17365_text E di iac cin sn : iac <> [] -> cin <> [] -> sn <> [] ->
  make_iso17365 E false di iac cin sn = pack_iso (runes_to_6bin (di ++ iac ++ cin ++ sn)).
Proof.
  intros H1 H2 H3. destruct iac; [congruence|]. destruct cin; [congruence|]. destruct sn; [congruence|].
  unfold make_iso17365. rewrite !runes_app. reflexivity.
Qed.
Definition full_serial (csn : gostring) : gostring := zero_padding (6 - length csn) ++ csn.
Lemma make_iso17363_text E oc ei csn : oc <> [] -> ei <> [] -> csn <> [] -> length csn <= 6 ->
  make_iso17363 E false oc ei csn =
    let! cd := s_get_iso6346_cd (oc ++ ei ++ full_serial csn) in
    pack_iso (runes_to_6bin (str "7B" ++ oc ++ ei ++ full_serial csn ++ dec_string_Z cd)).
Proof.
  intros H1 H2 H3 L. destruct oc; [congruence|]. destruct ei; [congruence|]. destruct csn as [|c csn]; [congruence|].
  unfold make_iso17363. set (cs := c :: csn) in *. unfold full_serial.
  destruct (Nat.ltb_spec (length cs) 6) as [L1|L1].
  - cbn [bind andb]. destruct (s_get_iso6346_cd _); cbn [bind]; auto. rewrite !runes_app. reflexivity.
  - destruct (Nat.ltb_spec 6 (length cs)) as [L2|L2]; [lia|]. cbn [bind andb]. replace (6 - length cs) with 0 by lia. change (zero_padding 0 ++ cs) with cs.
    destruct (s_get_iso6346_cd _); cbn [bind]; auto. rewrite !runes_app. reflexivity.
Qed.
