(** The numbers of rounds of test/gendataset.go: three rounded operations and a
    conversion to int. *)
From Coq Require Import Reals Lia Lra Psatz.
From Verif Require Import GoBase MFloat MFilter MTools MDataset PFloat2 PFloat3.
From Flocq Require Import Core BinarySingleNaN Relative.

Local Existing Instance Hp.
Local Existing Instance Hm.
Local Existing Instance Hv.

(** The conversion to int drops the fraction. *)
Lemma f64_int_floor (x : binary_float 53 1024) : is_finite x = true -> (0 <= B2R x)%R -> f64_int (B2SF x) = Some (Zfloor (B2R x)).
Proof.
  intros F P. destruct x as [s|s| |s m e H]; try discriminate; cbn [B2SF B2R f64_int] in *.
  - rewrite (Zfloor_IZR 0). reflexivity.
  - destruct s.
    + exfalso. pose proof (F2R_lt_0 radix2 (Float radix2 (cond_Zopp true (Zpos m)) e) ltac:(reflexivity)). lra.
    + cbn [cond_Zopp]. unfold F2R. cbn [Fnum Fexp]. f_equal. destruct (Z.leb_spec 0 e) as [L|L].
      * rewrite <- IZR_Zpower by auto. rewrite <- mult_IZR, Zfloor_IZR. reflexivity.
      * rewrite <- (Zfloor_div (Zpos m) (2 ^ (- e))) by (apply Z.pow_nonzero; lia). f_equal. unfold Rdiv. f_equal.
        replace e with (- (- e))%Z at 2 by lia. rewrite bpow_opp. f_equal. rewrite <- (IZR_Zpower radix2) by lia. reflexivity.
Qed.

(** Rounding changes a number that is not tiny by a factor near to one. *)
Notation u := (bpow radix2 (-53)).
Lemma rnd_near x : (bpow radix2 (-500) <= x)%R -> (x * (1 - u) <= rnd x <= x * (1 + u))%R.
Proof.
  intros L. pose proof (bpow_gt_0 radix2 (-500)) as B.
  pose proof (relative_error_N_FLT radix2 (SpecFloat.emin 53 1024) 53 ltac:(reflexivity) (fun z => negb (Z.even z)) x) as R.
  assert (bpow radix2 (SpecFloat.emin 53 1024 + 53 - 1) <= Rabs x)%R as A.
  { rewrite Rabs_pos_eq by lra. eapply Rle_trans; [|exact L]. apply bpow_le. unfold SpecFloat.emin. lia. }
  specialize (R A). rewrite (Rabs_pos_eq x) in R by lra.
  change (round radix2 (FLT_exp (SpecFloat.emin 53 1024) 53) (Znearest (fun z => negb (Z.even z))) x) with (rnd x) in R.
  assert (/ 2 * bpow radix2 (- (53) + 1) = u)%R as U. { change (- (53) + 1)%Z with (-53 + 1)%Z. rewrite bpow_plus. change (bpow radix2 1) with 2%R. lra. }
  rewrite U in R. apply Rabs_le_inv in R. lra.
Qed.

Lemma u_small : (0 < u < / 1000000000000000)%R.
Proof.
  split; [apply bpow_gt_0|]. change (-53)%Z with (- (53))%Z. rewrite bpow_opp. apply Rinv_lt; [lra|]. change (bpow radix2 53) with (IZR (2 ^ 53)). apply IZR_lt. reflexivity.
Qed.
Lemma tiny x : (/ 1000000 <= x)%R -> (bpow radix2 (-500) <= x)%R.
Proof.
  intros L. eapply Rle_trans; [|exact L]. apply Rle_trans with (bpow radix2 (-20)); [apply bpow_le; lia|].
  change (-20)%Z with (- (20))%Z. rewrite bpow_opp. left. apply Rinv_lt; [lra|]. change (bpow radix2 20) with (IZR (2 ^ 20)). apply IZR_lt. reflexivity.
Qed.
Definition share (p n : N) : binary_float 53 1024 :=
  Bdiv mode_NE (Bmult mode_NE (Bdiv mode_NE (fl p) (fl 100)) (fl n)) (fl 20).
Lemma share_fl p n : f64_div (f64_mul (f64_div (f64 (Z.of_N p)) (f64 100)) (f64 (Z.of_N n))) (f64 20) = B2SF (share p n).
Proof.
  unfold f64_mul, f64_div, f64, share. change 100%Z with (Z.of_N 100). change 20%Z with (Z.of_N 20).
  rewrite !normalize_equiv, div_equiv, mul_equiv, div_equiv. reflexivity.
Qed.
Lemma share_value p n : (p <= 100)%N -> (n < 2 ^ 40)%N ->
  is_finite (share p n) = true /\ B2R (share p n) = rnd (rnd (rnd (IZR (Z.of_N p) / 100) * IZR (Z.of_N n)) / 20).
Proof.
  intros P L. assert (small p) as Sp by (unfold small; change (2 ^ 53)%N with 9007199254740992%N; lia).
  assert (small n) as Sn by (unfold small; change (2 ^ 53)%N with 9007199254740992%N; change (2 ^ 40)%N with 1099511627776%N in L; lia).
  destruct (quotient p 100 Sp ltac:(reflexivity) ltac:(discriminate)) as [V1 F1]. change (IZR (Z.of_N 100)) with 100%R in V1.
  destruct (fl_spec n Sn) as [Vn Fn]. destruct (fl_spec 20 ltac:(reflexivity)) as [V20 F20]. change (IZR (Z.of_N 20)) with 20%R in V20.
  assert (0 <= IZR (Z.of_N p) <= 100)%R as PR by (split; [apply (IZR_le 0)|apply (IZR_le _ 100)]; lia).
  assert (0 <= IZR (Z.of_N n) <= bpow radix2 40)%R as NR.
  { split; [apply (IZR_le 0); lia|]. change (bpow radix2 40) with (IZR (2 ^ 40)). apply IZR_le. change (2 ^ 40)%N with 1099511627776%N in L. change (2 ^ 40)%Z with 1099511627776%Z. lia. }
  assert (0 <= rnd (IZR (Z.of_N p) / 100) <= bpow radix2 0)%R as R1.
  { split; [apply round_pos; lra|apply round_up; [change (bpow radix2 0) with 1%R; lra|lia]]. }
  change (bpow radix2 0) with 1%R in R1.
  assert (0 <= rnd (IZR (Z.of_N p) / 100) * IZR (Z.of_N n) <= bpow radix2 40)%R as R2 by (split; nra).
  pose proof (Bmult_correct 53 1024 Hp Hm mode_NE (Bdiv mode_NE (fl p) (fl 100)) (fl n)) as C. rewrite V1, Vn in C.
  pose proof (round_pos _ (proj1 R2)) as L2. pose proof (round_up _ 40 (proj2 R2) ltac:(lia)) as U2.
  rewrite Rlt_bool_true in C by (rewrite Rabs_pos_eq by exact L2; eapply Rle_lt_trans; [exact U2|apply bpow_lt; lia]).
  destruct C as (V2 & F2 & _). rewrite F1, Fn in F2. cbn [andb] in F2.
  pose proof (Bdiv_correct 53 1024 Hp Hm mode_NE (Bmult mode_NE (Bdiv mode_NE (fl p) (fl 100)) (fl n)) (fl 20)) as C. rewrite V2, V20 in C.
  specialize (C ltac:(lra)).
  set (z := rnd (rnd (IZR (Z.of_N p) / 100) * IZR (Z.of_N n))) in *.
  assert (0 <= z / 20 <= bpow radix2 40)%R as R3 by lra.
  pose proof (round_pos _ (proj1 R3)) as L3. pose proof (round_up _ 40 (proj2 R3) ltac:(lia)) as U3.
  rewrite Rlt_bool_true in C by (rewrite Rabs_pos_eq by exact L3; eapply Rle_lt_trans; [exact U3|apply bpow_lt; lia]).
  destruct C as (V3 & F3 & _). rewrite F2 in F3. split; auto.
Qed.
(** The rounded value is within a two-thousandth of the exact one. *)
Lemma share_near p n : (p <= 100)%N -> (n < 2 ^ 40)%N ->
  (0 <= B2R (share p n))%R /\ (Rabs (B2R (share p n) - IZR (Z.of_N (p * n)) / 2000) < / 2000)%R.
Proof.
  intros P L. destruct (share_value p n P L) as [_ V]. rewrite V. clear V.
  rewrite N2Z.inj_mul, mult_IZR.
  assert (0 <= IZR (Z.of_N p) <= 100)%R as PR by (split; [apply (IZR_le 0)|apply (IZR_le _ 100)]; lia).
  assert (0 <= IZR (Z.of_N n) <= 1099511627776)%R as NR.
  { split; [apply (IZR_le 0); lia|]. apply IZR_le. change (2 ^ 40)%N with 1099511627776%N in L. lia. }
  destruct (N.eq_dec p 0) as [->|NP].
  { change (IZR (Z.of_N 0)) with 0%R. replace (0 / 100)%R with 0%R by lra. rewrite round_0 by auto with typeclass_instances.
    rewrite Rmult_0_l, round_0 by auto with typeclass_instances. replace (0 / 20)%R with 0%R by lra. rewrite round_0 by auto with typeclass_instances.
    split; [lra|]. rewrite ?Rmult_0_l. replace (0 - 0 / 2000)%R with 0%R by lra. rewrite Rabs_R0. lra. }
  destruct (N.eq_dec n 0) as [->|NN].
  { change (IZR (Z.of_N 0)) with 0%R. rewrite Rmult_0_r, round_0 by auto with typeclass_instances. replace (0 / 20)%R with 0%R by lra. rewrite round_0 by auto with typeclass_instances.
    split; [lra|]. rewrite ?Rmult_0_r. replace (0 - 0 / 2000)%R with 0%R by lra. rewrite Rabs_R0. lra. }
  assert (1 <= IZR (Z.of_N p))%R as P1 by (apply IZR_le; lia). assert (1 <= IZR (Z.of_N n))%R as N1 by (apply IZR_le; lia).
  set (x := IZR (Z.of_N p)) in *. set (y := IZR (Z.of_N n)) in *. clearbody x y. pose proof u_small as [U0 U1].
  pose proof (fun z (H : (/ 1000000 <= z)%R) => rnd_near z (tiny z H)) as RN.
  set (w := u) in *. clearbody w.
  destruct (RN (x / 100)%R ltac:(lra)) as [A1 A2]. set (a := rnd (x / 100)) in *. clearbody a.
  assert (/ 1000 <= a)%R as AL by (apply Rle_trans with (x / 100 * (9 / 10))%R; [lra|]; apply Rle_trans with (2 := A1); apply Rmult_le_compat_l; lra).
  assert (/ 1000 <= a * y)%R as BL by (apply Rle_trans with (a * 1)%R; [lra|]; apply Rmult_le_compat_l; lra).
  destruct (RN (a * y)%R ltac:(lra)) as [B1 B2]. set (b := rnd (a * y)) in *. clearbody b.
  assert (/ 2000 <= b)%R as CL by (apply Rle_trans with (a * y * (9 / 10))%R; [lra|]; apply Rle_trans with (2 := B1); apply Rmult_le_compat_l; lra).
  destruct (RN (b / 20)%R ltac:(lra)) as [C1 C2]. set (c := rnd (b / 20)) in *. clearbody c.
  assert (0 <= x * y <= 109951162777600)%R as XY by (split; nra).
  assert (x * y / 100 * (1 - w) <= a * y <= x * y / 100 * (1 + w))%R as D1.
  { pose proof (Rmult_le_compat_r y _ _ ltac:(lra) A1). pose proof (Rmult_le_compat_r y _ _ ltac:(lra) A2).
    replace (x * y / 100 * (1 - w))%R with (x / 100 * (1 - w) * y)%R by field. replace (x * y / 100 * (1 + w))%R with (x / 100 * (1 + w) * y)%R by field. lra. }
  set (q := (x * y)%R) in *.
  assert (q / 100 * (1 - w) * (1 - w) <= a * y * (1 - w))%R as D2 by (apply Rmult_le_compat_r; lra).
  assert (a * y * (1 + w) <= q / 100 * (1 + w) * (1 + w))%R as D3 by (apply Rmult_le_compat_r; lra).
  assert (q / 100 * ((1 - w) * (1 - w)) <= b <= q / 100 * ((1 + w) * (1 + w)))%R as D4 by (split; lra).
  assert (1 - 4 * w <= (1 - w) * (1 - w) * (1 - w))%R as E1 by nra.
  assert ((1 + w) * (1 + w) * (1 + w) <= 1 + 4 * w)%R as E2 by nra.
  assert (q / 2000 * ((1 - w) * (1 - w) * (1 - w)) <= c <= q / 2000 * ((1 + w) * (1 + w) * (1 + w)))%R as D5.
  { pose proof (Rmult_le_compat_r (1 - w) _ _ ltac:(lra) (proj1 D4)). pose proof (Rmult_le_compat_r (1 + w) _ _ ltac:(lra) (proj2 D4)). split; lra. }
  assert (q / 2000 * (1 - 4 * w) <= c <= q / 2000 * (1 + 4 * w))%R as D6.
  { split; [eapply Rle_trans; [|apply D5]|eapply Rle_trans; [apply D5|]]; apply Rmult_le_compat_l; lra. }
  assert (q * w < / 8)%R as QW. { apply Rle_lt_trans with (109951162777600 * w)%R; [apply Rmult_le_compat_r; lra|]. lra. }
  split; [apply Rle_trans with (2 := proj1 D6); apply Rmult_le_pos; lra|]. apply Rabs_lt. split; lra.
Qed.
Lemma rounds_near p n : (p <= 100)%N -> (n < 2 ^ 40)%N -> exists r, f64_int (B2SF (share p n)) = Some r /\ (0 <= r)%Z /\
  (r = Z.of_N (p * n) / 2000 \/ Z.of_N (p * n) = 2000 * (r + 1))%Z.
Proof.
  intros P L. destruct (share_value p n P L) as [F _]. destruct (share_near p n P L) as [P0 NR].
  exists (Zfloor (B2R (share p n))). split; [apply f64_int_floor; auto|]. split; [apply Zfloor_lub; exact P0|].
  pose proof (Zfloor_lb (B2R (share p n))) as F1. pose proof (Zfloor_ub (B2R (share p n))) as F2.
  set (r := Zfloor (B2R (share p n))) in *. set (v := B2R (share p n)) in *. clearbody r v. set (m := Z.of_N (p * n)) in *. clearbody m.
  apply Rabs_lt_inv in NR.
  assert (2000 * r - 1 < m)%Z as A. { apply lt_IZR. rewrite minus_IZR, mult_IZR. lra. }
  assert (m < 2000 * (r + 1) + 1)%Z as B. { apply lt_IZR. rewrite plus_IZR, mult_IZR, plus_IZR. lra. }
  assert (2000 * r <= m <= 2000 * (r + 1))%Z as C by lia.
  destruct (Z.eq_dec m (2000 * (r + 1))) as [->|NE]; [right; auto|]. left. apply Z.div_unique with (m - 2000 * r)%Z; lia.
Qed.
