(** 64-bit counters as float64, their quotients, and percentages. *)
From Coq Require Import Reals Lia Lra.
From Verif Require Import GoBase MFloat MGenerator MFactory MStat PFloat2.
From Flocq Require Import Core BinarySingleNaN.

Local Existing Instance Hp.
Local Existing Instance Hm.
Local Existing Instance Hv.

Lemma mul_equiv (x y : binary_float 53 1024) : SFmul 53 1024 (B2SF x) (B2SF y) = B2SF (Bmult mode_NE x y).
Proof.
  destruct x as [sx|sx| |sx mx ex Bx], y as [sy|sy| |sy my ey By]; try reflexivity; cbn [B2SF Bmult SFmul]; try (destruct sx, sy; reflexivity).
  rewrite B2SF_SF2B. apply round_aux_equiv.
Qed.

(** *** Counters below 2^63 *)
Definition int64 (n : N) : Prop := (n < 2 ^ 63)%N.
Lemma round_up x k : (x <= bpow radix2 k)%R -> (-1000 < k)%Z -> (rnd x <= bpow radix2 k)%R.
Proof. intros L K. apply round_le_generic; auto with typeclass_instances. apply generic_format_bpow. cbn. unfold SpecFloat.fexp, SpecFloat.emin. lia. Qed.
Lemma round_down x k : (bpow radix2 k <= x)%R -> (-1000 < k)%Z -> (bpow radix2 k <= rnd x)%R.
Proof. intros L K. apply round_ge_generic; auto with typeclass_instances. apply generic_format_bpow. cbn. unfold SpecFloat.fexp, SpecFloat.emin. lia. Qed.
Lemma round_pos x : (0 <= x)%R -> (0 <= rnd x)%R.
Proof. intros L. apply round_ge_generic; auto with typeclass_instances. apply generic_format_0. Qed.
Lemma fl_int64 n : int64 n -> B2R (fl n) = rnd (IZR (Z.of_N n)) /\ is_finite (fl n) = true /\ (0 <= B2R (fl n) <= bpow radix2 63)%R /\ (n <> 0%N -> (1 <= B2R (fl n))%R).
Proof.
  intros S. pose proof (binary_normalize_correct 53 1024 Hp Hm mode_NE (Z.of_N n) 0 false) as C. cbv zeta in C.
  assert (F2R (Float radix2 (Z.of_N n) 0) = IZR (Z.of_N n)) as E by (unfold F2R; cbn; ring). rewrite E in C.
  assert (0 <= IZR (Z.of_N n))%R as L by (apply IZR_le; lia).
  assert (IZR (Z.of_N n) <= bpow radix2 63)%R as U.
  { change (bpow radix2 63) with (IZR (2 ^ 63)). apply IZR_le. unfold int64 in S. apply N2Z.inj_lt in S. change (Z.of_N (2 ^ 63)) with (2 ^ 63)%Z in S. lia. }
  pose proof (round_pos _ L) as L'. pose proof (round_up _ 63 U ltac:(lia)) as U'.
  rewrite Rlt_bool_true in C.
  - destruct C as (C1 & C2 & _). unfold fl. split; [exact C1|]. split; [exact C2|]. rewrite C1. split; [split; auto|].
    intros NZ. change 1%R with (bpow radix2 0). apply round_down; [|lia]. change (bpow radix2 0) with 1%R. apply IZR_le. lia.
  - rewrite Rabs_pos_eq by exact L'. eapply Rle_lt_trans; [exact U'|]. apply bpow_lt. lia.
Qed.
Lemma quotient_int64 n t : int64 n -> int64 t -> (t <> 0)%N ->
  B2R (Bdiv mode_NE (fl n) (fl t)) = rnd (B2R (fl n) / B2R (fl t)) /\ is_finite (Bdiv mode_NE (fl n) (fl t)) = true /\
  (0 <= B2R (Bdiv mode_NE (fl n) (fl t)) <= bpow radix2 63)%R.
Proof.
  intros Sn St T. destruct (fl_int64 n Sn) as (_ & Fn & (Ln & Un) & _), (fl_int64 t St) as (_ & Ft & _ & T1). specialize (T1 T).
  pose proof (Bdiv_correct 53 1024 Hp Hm mode_NE (fl n) (fl t)) as C. specialize (C ltac:(lra)).
  assert (0 <= B2R (fl n) / B2R (fl t))%R as Q0 by (apply Rmult_le_pos; [exact Ln|left; apply Rinv_0_lt_compat; lra]).
  assert (B2R (fl n) / B2R (fl t) <= bpow radix2 63)%R as Q1.
  { apply Rle_trans with (B2R (fl n)); [|exact Un]. apply Rmult_le_reg_r with (B2R (fl t)); [lra|]. unfold Rdiv. rewrite Rmult_assoc, Rinv_l by lra. nra. }
  pose proof (round_pos _ Q0) as R0. pose proof (round_up _ 63 Q1 ltac:(lia)) as R1.
  rewrite Rlt_bool_true in C.
  - destruct C as (C1 & C2 & _). rewrite Fn in C2. rewrite C1. auto.
  - rewrite Rabs_pos_eq by exact R0. eapply Rle_lt_trans; [exact R1|]. apply bpow_lt. lia.
Qed.
Definition pfl (k i : N) : binary_float 53 1024 := Bmult mode_NE (Bdiv mode_NE (fl k) (fl i)) (fl 100).
Lemma fl100 : B2R (fl 100) = 100%R /\ is_finite (fl 100) = true.
Proof. apply (fl_spec 100). reflexivity. Qed.
Lemma percent_fl k i : percent (Z.of_N k) (Z.of_N i) = B2SF (pfl k i).
Proof. unfold percent, f64_mul, f64_div, f64, pfl. change 100%Z with (Z.of_N 100). rewrite !normalize_equiv, div_equiv. apply mul_equiv. Qed.
Lemma percent_int64 k i : int64 k -> int64 i -> (i <> 0)%N ->
  B2R (pfl k i) = rnd (B2R (Bdiv mode_NE (fl k) (fl i)) * 100) /\ is_finite (pfl k i) = true.
Proof.
  intros Sk Si I. destruct (quotient_int64 k i Sk Si I) as (_ & F & L & U). destruct fl100 as [V F100].
  pose proof (Bmult_correct 53 1024 Hp Hm mode_NE (Bdiv mode_NE (fl k) (fl i)) (fl 100)) as C. rewrite V in C.
  set (q := B2R (Bdiv mode_NE (fl k) (fl i))) in *. assert (0 <= q * 100)%R as Q0 by lra.
  assert (q * 100 <= bpow radix2 70)%R as Q1. { change (bpow radix2 70) with (IZR (2 ^ 70)). change (bpow radix2 63) with (IZR (2 ^ 63)) in U. cbn in *. lra. }
  pose proof (round_pos _ Q0) as R0. pose proof (round_up _ 70 Q1 ltac:(lia)) as R1.
  rewrite Rlt_bool_true in C.
  - destruct C as (C1 & C2 & _). rewrite F, F100 in C2. unfold pfl. rewrite C1. auto.
  - rewrite Rabs_pos_eq by exact R0. eapply Rle_lt_trans; [exact R1|]. apply bpow_lt. lia.
Qed.
Lemma finite_good (x : binary_float 53 1024) : is_finite x = true -> bad_value (SFloat (B2SF x)) = false.
Proof. destruct x; cbn; auto; discriminate. Qed.
Lemma percent_good k i : int64 k -> int64 i -> (i <> 0)%N -> bad_value (SFloat (percent (Z.of_N k) (Z.of_N i))) = false.
Proof. intros Sk Si I. rewrite percent_fl. apply finite_good. apply percent_int64; auto. Qed.
Lemma throughput_good t : int64 (th_events t) -> int64 (th_time t) -> th_time t <> 0%N -> bad_value (SFloat (th_value t)) = false.
Proof. intros Se St T. rewrite value_div. apply finite_good. apply quotient_int64; auto. Qed.

(** *** Percentages *)
Lemma compare_fl (x y : binary_float 53 1024) : is_finite x = true -> is_finite y = true -> SFleb (B2SF x) (B2SF y) = true <-> (B2R x <= B2R y)%R.
Proof.
  intros Fx Fy. pose proof (Bcompare_correct 53 1024 _ _ Fx Fy) as C. unfold SFleb. unfold Bcompare in C.
  match type of C with ?l = _ => match goal with |- context [SFcompare ?x ?y] => change (SFcompare x y) with l end end. rewrite C.
  destruct (Rcompare_spec (B2R x) (B2R y)); split; intros; try lra; auto; discriminate.
Qed.
Lemma fl_mono k i : int64 k -> int64 i -> (k <= i)%N -> (B2R (fl k) <= B2R (fl i))%R.
Proof.
  intros Sk Si L. destruct (fl_int64 k Sk) as (-> & _), (fl_int64 i Si) as (-> & _). apply round_le; auto with typeclass_instances. apply IZR_le. lia.
Qed.
Lemma part_le_one k i : int64 k -> int64 i -> (i <> 0)%N -> (k <= i)%N -> (0 <= B2R (Bdiv mode_NE (fl k) (fl i)) <= 1)%R.
Proof.
  intros Sk Si I L. destruct (quotient_int64 k i Sk Si I) as (V & _ & Q0 & _). split; [exact Q0|]. rewrite V.
  change 1%R with (bpow radix2 0). apply round_up; [|lia]. change (bpow radix2 0) with 1%R.
  pose proof (fl_mono k i Sk Si L). destruct (fl_int64 i Si) as (_ & _ & _ & P). specialize (P I).
  apply Rmult_le_reg_r with (B2R (fl i)); [lra|]. unfold Rdiv. rewrite Rmult_assoc, Rinv_l by lra. lra.
Qed.
Lemma format100 : generic_format radix2 fexp64 100%R.
Proof. apply (small_format 100). reflexivity. Qed.
Lemma percent_bounds k i : int64 i -> (i <> 0)%N -> (k <= i)%N -> SFleb (f64 0) (percent (Z.of_N k) (Z.of_N i)) = true /\ SFleb (percent (Z.of_N k) (Z.of_N i)) (f64 100) = true.
Proof.
  intros Si I L. assert (int64 k) as Sk by (unfold int64 in *; lia). destruct (percent_int64 k i Sk Si I) as [V F]. destruct (part_le_one k i Sk Si I L) as [Q0 Q1].
  rewrite percent_fl. change (f64 0) with (B2SF (fl 0)). replace (f64 100) with (B2SF (fl 100)) by (unfold f64; change 100%Z with (Z.of_N 100); rewrite normalize_equiv; reflexivity).
  destruct fl100 as [V100 F100]. split; apply compare_fl; auto; rewrite V.
  - change (B2R (fl 0)) with 0%R. apply round_pos. lra.
  - rewrite V100. apply round_le_generic; auto with typeclass_instances; [apply format100|lra].
Qed.
Lemma percent_full i : int64 i -> (i <> 0)%N -> percent (Z.of_N i) (Z.of_N i) = f64 100.
Proof.
  intros Si I. destruct (percent_int64 i i Si Si I) as [V F]. destruct (quotient_int64 i i Si Si I) as (Q & _ & _). destruct (fl_int64 i Si) as (_ & _ & _ & P). specialize (P I).
  unfold Rdiv in Q. rewrite Rinv_r in Q by lra. rewrite round_generic in Q; auto with typeclass_instances.
  2:{ change 1%R with (IZR (Z.of_N 1)). apply small_format. reflexivity. }
  rewrite Q, Rmult_1_l, (round_generic radix2 fexp64 _ 100%R format100) in V.
  rewrite percent_fl. replace (f64 100) with (B2SF (fl 100)) by (unfold f64; change 100%Z with (Z.of_N 100); rewrite normalize_equiv; reflexivity).
  destruct fl100 as [V100 F100]. f_equal. apply B2R_inj.
  - destruct (pfl i i); cbn in *; try discriminate; auto; lra.
  - destruct (fl 100); cbn in *; try discriminate; auto; lra.
  - congruence.
Qed.
(** With counts below 2^53 a hundred percent is really all of them. *)
Lemma percent_not_full k i : small i -> (k < i)%N -> percent (Z.of_N k) (Z.of_N i) <> f64 100.
Proof.
  intros Si L E. assert (i <> 0%N) as I by lia. assert (small k) as Sk by (unfold small in *; lia).
  assert (int64 i) as Ii. { unfold small, int64 in *. eapply N.lt_trans; [exact Si|]. reflexivity. }
  assert (int64 k) as Ik by (unfold int64 in *; lia).
  destruct (percent_int64 k i Ik Ii I) as [V F]. destruct (quotient k i Sk Si I) as [Q _].
  assert (B2R (pfl k i) = 100%R) as H.
  { destruct fl100 as [V100 F100]. rewrite <- V100. assert (B2SF (pfl k i) = B2SF (fl 100)) as E2.
    { rewrite <- percent_fl, E. unfold f64; change 100%Z with (Z.of_N 100); rewrite normalize_equiv; reflexivity. }
    rewrite <- !SF2R_B2SF, E2. reflexivity. }
  rewrite V, Q in H.
  set (d := bpow radix2 (-53)) in *. assert (0 < d)%R as D by apply bpow_gt_0.
  assert (generic_format radix2 fexp64 (1 - d)) as G1.
  { apply (generic_format_FLT radix2 (3 - 1024 - 53) 53). exists (Float radix2 (2 ^ 53 - 1) (-53)); cbn [Fnum Fexp]; [|cbn; lia|lia].
    unfold F2R. cbn [Fnum Fexp]. fold d. rewrite minus_IZR. change (IZR (2 ^ 53)) with (bpow radix2 53).
    assert (bpow radix2 53 * d = 1)%R as X by (unfold d; rewrite <- bpow_plus; reflexivity). lra. }
  assert (rnd (IZR (Z.of_N k) / IZR (Z.of_N i)) <= 1 - d)%R as R1.
  { apply round_le_generic; auto with typeclass_instances.
    destruct (small_bpow i Si) as [_ U]. assert (1 <= IZR (Z.of_N i))%R as I1 by (apply IZR_le; lia).
    assert (IZR (Z.of_N k) <= IZR (Z.of_N i) - 1)%R as K1 by (rewrite <- minus_IZR; apply IZR_le; lia).
    apply Rmult_le_reg_r with (IZR (Z.of_N i)); [lra|]. unfold Rdiv. rewrite Rmult_assoc, Rinv_l by lra.
    assert (IZR (Z.of_N i) * d <= 1)%R as X.
    { replace 1%R with (bpow radix2 53 * d)%R by (unfold d; rewrite <- bpow_plus; reflexivity). apply Rmult_le_compat_r; lra. }
    lra. }
  assert (rnd (rnd (IZR (Z.of_N k) / IZR (Z.of_N i)) * 100) <= rnd ((1 - d) * 100))%R as R2 by (apply round_le; auto with typeclass_instances; lra).
  assert (rnd ((1 - d) * 100) <= 100 - 128 * d)%R as R3; [|lra].
  clear - D.
  set (f := (100 - 128 * d)%R).
  assert (generic_format radix2 fexp64 f) as G.
  { apply (generic_format_FLT radix2 (3 - 1024 - 53) 53). exists (Float radix2 (100 * 2 ^ 46 - 1) (-46)); cbn [Fnum Fexp]; [|cbn; lia|lia].
    unfold F2R. cbn [Fnum Fexp]. rewrite minus_IZR, mult_IZR. change (IZR (2 ^ 46)) with (bpow radix2 46).
    assert (bpow radix2 46 * bpow radix2 (-46) = 1)%R as X by (rewrite <- bpow_plus; reflexivity).
    assert (bpow radix2 (-46) = 128 * d)%R as Y by (unfold d; change (-46)%Z with (7 + -53)%Z; rewrite bpow_plus; cbn; lra).
    unfold f. rewrite <- Y. lra. }
  assert (round radix2 fexp64 (round_mode mode_NE) ((1 - d) * 100) <= f)%R; auto.
  unfold round_mode.
  apply round_N_le_midp with (1 := Hv); auto.
  assert (succ radix2 fexp64 f = 100%R) as ->.
  { assert (d < / 128)%R as D2. { unfold d. replace (/ 128)%R with (bpow radix2 (-7)) by (cbn; lra). apply bpow_lt. lia. }
    assert (0 < f)%R as F0 by (unfold f; lra).
    rewrite succ_eq_pos by lra. rewrite ulp_neq_0 by lra. unfold cexp.
    rewrite (mag_unique_pos radix2 f 7) by (change (bpow radix2 (7 - 1)) with 64%R; change (bpow radix2 7) with 128%R; unfold f; lra).
    change (fexp64 7) with (7 + -53)%Z. rewrite bpow_plus. fold d. change (bpow radix2 7) with 128%R. unfold f. lra. }
  unfold f. lra.
Qed.
(** More matches than events give more than a hundred. *)
Lemma percent_over k i : small k -> (0 < i < k)%N -> SFleb (percent (Z.of_N k) (Z.of_N i)) (f64 100) = false.
Proof.
  intros Sk [I0 L]. assert (i <> 0%N) as I by lia. assert (small i) as Si by (unfold small in *; lia).
  assert (int64 k) as Ik. { unfold small, int64 in *. eapply N.lt_trans; [exact Sk|]. reflexivity. }
  assert (int64 i) as Ii by (unfold int64 in *; lia).
  destruct (percent_int64 k i Ik Ii I) as [V F]. destruct (quotient k i Sk Si I) as [Q _].
  destruct (SFleb (percent (Z.of_N k) (Z.of_N i)) (f64 100)) eqn:E; auto. exfalso.
  rewrite percent_fl in E. replace (f64 100) with (B2SF (fl 100)) in E by (unfold f64; change 100%Z with (Z.of_N 100); rewrite normalize_equiv; reflexivity).
  destruct fl100 as [V100 F100]. apply compare_fl in E; auto. rewrite V100, V, Q in E.
  set (d := bpow radix2 (-53)) in *. assert (0 < d)%R as D by apply bpow_gt_0.
  assert (generic_format radix2 fexp64 1%R) as F1 by (change 1%R with (IZR (Z.of_N 1)); apply small_format; reflexivity).
  assert (succ radix2 fexp64 1%R = 1 + 2 * d)%R as S1.
  { rewrite succ_eq_pos by lra. rewrite ulp_neq_0 by lra. unfold cexp. rewrite (mag_unique_pos radix2 1 1) by (cbn; lra).
    change (fexp64 1) with (1 + -53)%Z. rewrite bpow_plus. fold d. change (bpow radix2 1) with 2%R. lra. }
  assert (1 + 2 * d <= rnd (IZR (Z.of_N k) / IZR (Z.of_N i)))%R as R1.
  { unfold round_mode. apply round_N_ge_midp with (1 := Hv).
    - rewrite <- S1. apply generic_format_succ; auto with typeclass_instances.
    - rewrite <- S1, pred_succ, S1 by auto with typeclass_instances.
      destruct (small_bpow i Si) as [_ U].
      assert (1 <= IZR (Z.of_N i))%R as I1 by (apply IZR_le; lia).
      assert (IZR (Z.of_N i) + 1 <= IZR (Z.of_N k))%R as K1 by (rewrite <- plus_IZR; apply IZR_le; lia).
      assert (IZR (Z.of_N i) <= bpow radix2 53 - 1)%R as U1.
      { change (bpow radix2 53) with (IZR (2 ^ 53)). rewrite <- minus_IZR. apply IZR_le. unfold small in Si. apply N2Z.inj_lt in Si. change (Z.of_N (2 ^ 53)) with (2 ^ 53)%Z in Si. lia. }
      assert (bpow radix2 53 * d = 1)%R as X by (unfold d; rewrite <- bpow_plus; reflexivity).
      apply Rmult_lt_reg_r with (IZR (Z.of_N i)); [lra|]. unfold Rdiv at 2. rewrite Rmult_assoc, Rinv_l by lra. rewrite Rmult_1_r.
      assert (IZR (Z.of_N i) * d <= (bpow radix2 53 - 1) * d)%R as Y by (apply Rmult_le_compat_r; lra).
      lra. }
  assert (100 + 128 * d <= rnd (rnd (IZR (Z.of_N k) / IZR (Z.of_N i)) * 100))%R as R2; [|lra].
  apply round_ge_generic; auto with typeclass_instances; [|lra]. clear.
  apply (generic_format_FLT radix2 (3 - 1024 - 53) 53). exists (Float radix2 (100 * 2 ^ 46 + 1) (-46)); cbn [Fnum Fexp]; [|cbn; lia|lia].
  unfold F2R. cbn [Fnum Fexp]. rewrite plus_IZR, mult_IZR. change (IZR (2 ^ 46)) with (bpow radix2 46).
  assert (bpow radix2 46 * bpow radix2 (-46) = 1)%R as X by (rewrite <- bpow_plus; reflexivity).
  assert (bpow radix2 (-46) = 128 * d)%R as Y by (unfold d; change (-46)%Z with (7 + -53)%Z; rewrite bpow_plus; cbn; lra).
  rewrite <- Y. lra.
Qed.
Lemma percent_nonneg k i : int64 k -> int64 i -> (i <> 0)%N -> SFleb (f64 0) (percent (Z.of_N k) (Z.of_N i)) = true.
Proof.
  intros Sk Si I. destruct (percent_int64 k i Sk Si I) as [V F]. destruct (quotient_int64 k i Sk Si I) as (_ & _ & Q0 & _).
  rewrite percent_fl. change (f64 0) with (B2SF (fl 0)). apply compare_fl; auto. rewrite V. change (B2R (fl 0)) with 0%R. apply round_pos. lra.
Qed.
