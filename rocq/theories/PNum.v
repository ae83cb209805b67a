(** Numerals. *)
From Verif Require Import GoBase BinUtil PBase.
From Coq Require Import Lia ZifyBool ZifyNat ZifyN.
Ltac Zify.zify_post_hook ::= Z.div_mod_to_equations.

(** Value of a numeral in base [b]. *)
Definition numval (b : N) (s : gostring) : N :=
  fold_left (fun acc c => b * acc + (N_of_ascii c - 48))%N s 0%N.
Definition digit_lt (b : N) (c : ascii) : Prop := (48 <= N_of_ascii c < 48 + b)%N.

Lemma numval_from b s : forall acc,
  fold_left (fun acc c => b * acc + (N_of_ascii c - 48))%N s acc = (acc * b ^ N.of_nat (length s) + numval b s)%N.
Proof.
  unfold numval. induction s as [|c s IH]; intros acc; cbn [fold_left length]; [change (N.of_nat 0) with 0%N; rewrite N.pow_0_r; lia|].
  rewrite IH, (IH (b * 0 + _)%N). rewrite Nat2N.inj_succ, N.pow_succ_r'. lia.
Qed.
Lemma numval_app b s t : numval b (s ++ t) = (numval b s * b ^ N.of_nat (length t) + numval b t)%N.
Proof. unfold numval at 1. rewrite fold_left_app, numval_from. reflexivity. Qed.
Lemma numval_cons b c s : numval b (c :: s) = ((N_of_ascii c - 48) * b ^ N.of_nat (length s) + numval b s)%N.
Proof. unfold numval at 1. cbn [fold_left]. rewrite numval_from. f_equal. lia. Qed.
Lemma numval_bound b s : (0 < b)%N -> Forall (digit_lt b) s -> (numval b s < b ^ N.of_nat (length s))%N.
Proof.
  intros Hb. induction 1 as [|c s Hc Hs IH]; [cbn; lia|].
  rewrite numval_cons. cbn [length]. rewrite Nat2N.inj_succ, N.pow_succ_r'. unfold digit_lt in Hc.
  set (P := (b ^ N.of_nat (length s))%N) in *.
  assert ((N_of_ascii c - 48 + 1) * P <= b * P)%N by (apply N.mul_le_mono_r; lia).
  rewrite N.mul_add_distr_r, N.mul_1_l in H. lia.
Qed.
Lemma digit_inj b c d : digit_lt b c -> digit_lt b d -> (N_of_ascii c - 48 = N_of_ascii d - 48)%N -> c = d.
Proof.
  unfold digit_lt. intros H1 H2 E. rewrite <- (ascii_N_embedding c), <- (ascii_N_embedding d). f_equal. lia.
Qed.
Lemma numval_inj b s t : (0 < b)%N -> Forall (digit_lt b) s -> Forall (digit_lt b) t -> length s = length t ->
  numval b s = numval b t -> s = t.
Proof.
  intros Hb HS. revert t; induction HS as [|c s Hc Hs IH]; intros t HT HL HE; destruct t as [|d t]; try discriminate; auto.
  inversion HT as [|? ? Hd Ht]; subst. injection HL as HL. rewrite !numval_cons, <- HL in HE.
  pose proof (numval_bound b s Hb Hs) as B1. pose proof (numval_bound b t Hb Ht) as B2. rewrite <- HL in B2.
  set (P := (b ^ N.of_nat (length s))%N) in *.
  assert (N_of_ascii c - 48 = N_of_ascii d - 48)%N as Eq by nia.
  rewrite Eq in HE. f_equal; [eapply digit_inj; eauto|]. apply IH; auto. lia.
Qed.

Lemma N_of_digit n : (n < 208)%N -> N_of_ascii (digit_of_N n) = (48 + n)%N.
Proof. intros H. unfold digit_of_N. apply N_ascii_embedding. lia. Qed.

Lemma numeral_aux_spec b : (2 <= b <= 10)%N -> forall fuel n acc, (n < b ^ N.of_nat fuel)%N -> fuel <> 0 ->
  exists ds, numeral_aux fuel b n acc = ds ++ acc /\ ds <> [] /\ Forall (digit_lt b) ds /\ numval b ds = n /\
    (ds = [c0] \/ hd c0 ds <> c0).
Proof.
  intros Hb. induction fuel as [|fuel IH]; intros n acc Hn Hf; [congruence|]. cbn [numeral_aux].
  assert (n mod b < b)%N as Hm by (apply N.mod_lt; lia).
  assert (digit_lt b (digit_of_N (n mod b))) as Hd. { unfold digit_lt. rewrite N_of_digit by lia. lia. }
  destruct (n <? b)%N eqn:E.
  - apply N.ltb_lt in E. exists [digit_of_N (n mod b)]. split; [reflexivity|]. split; [discriminate|].
    split; [constructor; auto|]. rewrite N.mod_small by auto. split.
    + unfold numval. cbn. rewrite N_of_digit by lia. lia.
    + destruct (N.eq_dec n 0) as [->|Hn0]; [left; reflexivity|]. right. cbn. intros Hx.
      assert (N_of_ascii (digit_of_N n) = 48%N) as Hy by (rewrite Hx; reflexivity). rewrite N_of_digit in Hy by lia. lia.
  - apply N.ltb_ge in E.
    assert (fuel <> 0) as Hf'. { intros ->. change (N.of_nat 1) with 1%N in Hn. rewrite N.pow_1_r in Hn. lia. }
    destruct (IH (n / b)%N (digit_of_N (n mod b) :: acc)) as (ds & R & N0 & F & V & L); auto.
    { rewrite Nat2N.inj_succ, N.pow_succ_r' in Hn. apply N.div_lt_upper_bound; lia. }
    exists (ds ++ [digit_of_N (n mod b)]). split; [rewrite R, <- app_assoc; reflexivity|].
    split; [destruct ds; discriminate|]. split; [apply Forall_app; auto|]. split.
    + rewrite numval_app, V. cbn [length]. change (N.of_nat 1) with 1%N. rewrite N.pow_1_r.
      unfold numval. cbn [fold_left]. rewrite N_of_digit by lia. pose proof (N.div_mod' n b). lia.
    + right. destruct L as [->|L].
      * exfalso. unfold numval in V. cbn in V. assert (n / b <> 0)%N; [|lia].
        intros Hx. apply N.div_small_iff in Hx; lia.
      * destruct ds as [|d ds]; [congruence|]. exact L.
Qed.
Lemma numeral_spec b n : (2 <= b <= 10)%N -> exists ds, numeral b n = ds /\ ds <> [] /\ Forall (digit_lt b) ds /\ numval b ds = n /\
    (ds = [c0] \/ hd c0 ds <> c0).
Proof.
  intros Hb. unfold numeral. destruct (numeral_aux_spec b Hb (S (N.to_nat (N.log2 n))) n []) as (ds & R & H).
  - rewrite Nat2N.inj_succ, N2Nat.id. destruct (N.eq_dec n 0) as [->|Hn]; [change (N.log2 0) with 0%N; rewrite N.pow_1_r; lia|].
    pose proof (N.log2_spec n) as [_ H]; [lia|].
    eapply N.lt_le_trans; [exact H|]. apply N.pow_le_mono_l. lia.
  - lia.
  - exists ds. rewrite R, app_nil_r. auto.
Qed.
Lemma leading_lower b c s : digit_lt b c -> c <> c0 -> (0 < b)%N -> (b ^ N.of_nat (length s) <= numval b (c :: s))%N.
Proof.
  intros Hc Hn Hb. rewrite numval_cons. unfold digit_lt in Hc.
  assert (N_of_ascii c <> 48)%N. { intros E. apply Hn. rewrite <- (ascii_N_embedding c), E. reflexivity. }
  assert (1 <= N_of_ascii c - 48)%N by lia. nia.
Qed.
(** The numeral of [n] has at most [w] digits exactly when [n < b^w]. *)
Lemma numeral_length b n w : (2 <= b <= 10)%N -> w <> 0 -> length (numeral b n) <= w <-> (n < b ^ N.of_nat w)%N.
Proof.
  intros Hb Hw. destruct (numeral_spec b n Hb) as (ds & -> & HN & F & V & L). split.
  - intros H. rewrite <- V. pose proof (numval_bound b ds ltac:(lia) F).
    eapply N.lt_le_trans; [exact H0|]. apply N.pow_le_mono_r; lia.
  - intros H. destruct L as [->|L]; [cbn; lia|]. destruct ds as [|c s]; [congruence|]. cbn [hd] in L.
    inversion F; subst. pose proof (leading_lower b c s H2 L ltac:(lia)) as LL.
    assert (b ^ N.of_nat (length s) < b ^ N.of_nat w)%N as X by lia.
    apply N.pow_lt_mono_r_iff in X; [|lia]. cbn [length]. lia.
Qed.
Lemma numval_repeat0 b k s : numval b (repeat c0 k ++ s) = numval b s.
Proof.
  induction k as [|k IH]; cbn [repeat app]; auto. rewrite numval_cons, IH.
  change (N_of_ascii c0) with 48%N. lia.
Qed.

(** ** Decimal *)
Lemma dec_value_numval s : dec_value s = numval 10 s.
Proof. reflexivity. Qed.
Lemma is_digit_lt c : is_digit c = true <-> digit_lt 10 c.
Proof. unfold is_digit, digit_lt. rewrite andb_true_iff, !N.leb_le. lia. Qed.
Lemma all_digits_lt s : all_digits s = true <-> Forall (digit_lt 10) s.
Proof.
  unfold all_digits. rewrite forallb_forall, Forall_forall. split; intros H c Hc; apply is_digit_lt; auto.
Qed.

(** ** Binary *)
Lemma digit2 c : digit_lt 2 c <-> c = c0 \/ c = c1.
Proof.
  unfold digit_lt. split.
  - intros H. assert (N_of_ascii c = 48 \/ N_of_ascii c = 49)%N as [E|E] by lia;
      rewrite <- (ascii_N_embedding c), E; auto.
  - intros [-> | ->]; cbn; lia.
Qed.
Lemma numval_bits l : numval 2 (bits_to_str l) = N_of_bits l.
Proof.
  unfold numval, N_of_bits. generalize 0%N. induction l as [|b l IH]; intros a; cbn [bits_to_str map fold_left]; auto.
  rewrite <- IH. unfold bits_to_str. f_equal. destruct b; cbn [N.b2n]; change (N_of_ascii c1) with 49%N; change (N_of_ascii c0) with 48%N; lia.
Qed.
(** [n] in exactly [w] bits. *)
Fixpoint bits_w (w : nat) (n : N) : list bool :=
  match w with O => [] | S w' => bits_w w' (n / 2) ++ [N.odd n] end.
Lemma bits_w_length w n : length (bits_w w n) = w.
Proof. revert n; induction w; intros n; cbn; auto. rewrite app_length, IHw. cbn. lia. Qed.
Lemma bits_w_value w n : (n < 2 ^ N.of_nat w)%N -> N_of_bits (bits_w w n) = n.
Proof.
  revert n; induction w as [|w IH]; intros n H; cbn [bits_w].
  - cbn in *. lia.
  - rewrite Nat2N.inj_succ, N.pow_succ_r' in H. rewrite N_of_bits_app, IH by (apply N.div_lt_upper_bound; lia).
    cbn [length]. change (N.of_nat 1) with 1%N. rewrite N.pow_1_r. unfold N_of_bits. cbn [fold_left].
    pose proof (N.div2_odd n) as D. rewrite N.div2_div in D. destruct (N.odd n); cbn [N.b2n] in *; lia.
Qed.
Lemma bits_w_unique w n l : length l = w -> N_of_bits l = n -> bits_w w n = l.
Proof.
  intros HL HE. apply N_of_bits_inj; [rewrite bits_w_length; auto|]. rewrite bits_w_value; auto.
  rewrite <- HL, <- HE. apply N_of_bits_bound.
Qed.
(** The padded binary numeral of [n] in width [w]. *)
Lemma bin_padded w n : (n < 2 ^ N.of_nat w)%N -> w <> 0 ->
  zero_padding (w - length (bin_string n)) ++ bin_string n = bits_to_str (bits_w w n).
Proof.
  intros H Hw. unfold zero_padding, bin_string.
  pose proof (proj2 (numeral_length 2 n w ltac:(lia) Hw) H) as HL.
  destruct (numeral_spec 2 n ltac:(lia)) as (ds & E & HN & F & V & L). rewrite E in *.
  assert (Forall (digit_lt 2) (repeat c0 (w - length ds) ++ ds)) as F2.
  { apply Forall_app. split; auto. apply Forall_forall. intros c Hc. apply repeat_spec in Hc. subst. apply digit2; auto. }
  apply (numval_inj 2); auto; [lia| | |].
  - apply Forall_forall. intros c Hc. unfold bits_to_str in Hc. apply in_map_iff in Hc. destruct Hc as (b & <- & _).
    apply digit2. destruct b; auto.
  - rewrite app_length, repeat_length, bits_to_str_length, bits_w_length. lia.
  - rewrite numval_repeat0, numval_bits, bits_w_value by auto. auto.
Qed.
Lemma bin_string_long w n : (2 ^ N.of_nat w <= n)%N -> w < length (bin_string n).
Proof.
  intros H. unfold bin_string. destruct (le_lt_dec (length (numeral 2 n)) w) as [L|L]; auto. exfalso.
  destruct w as [|w].
  - destruct (numeral_spec 2 n ltac:(lia)) as (ds & E & HN & _). rewrite E in L. destruct ds; [congruence|cbn in L; lia].
  - apply numeral_length in L; lia.
Qed.
Lemma bin_string_bits n : is_bits (bin_string n).
Proof.
  unfold bin_string. destruct (numeral_spec 2 n ltac:(lia)) as (ds & -> & _ & F & _).
  unfold is_bits. eapply Forall_impl; [|exact F]. intros c Hc. apply digit2; auto.
Qed.
