(** Rounding a quotient of small counts to 64 bits keeps the order of quotients. *)
From Coq Require Import Reals Lia Lra.
From Verif Require Import GoBase MFloat MGenerator MFactory.
From Flocq Require Import Core BinarySingleNaN.

Local Instance Hp : Prec_gt_0 53. Proof. reflexivity. Qed.
Local Instance Hm : Prec_lt_emax 53 1024. Proof. reflexivity. Qed.
Notation fexp64 := (SpecFloat.fexp 53 1024).
Local Instance Hv : Valid_exp fexp64 := fexp_correct 53 1024 Hp.
Notation rnd := (round radix2 fexp64 (round_mode mode_NE)).

(** *** The two formulations of the operations agree *)
Lemma nearest_equiv s m l : SpecFloat.round_nearest_even m l = choice_mode mode_NE s m l.
Proof. destruct l as [|[]]; try reflexivity. cbn. unfold Round.cond_incr. destruct (Z.even m); reflexivity. Qed.
Lemma round_aux_equiv sx mx ex lx : SpecFloat.binary_round_aux 53 1024 sx mx ex lx = binary_round_aux 53 1024 mode_NE sx mx ex lx.
Proof. unfold SpecFloat.binary_round_aux, binary_round_aux. destruct (shr_fexp _ _ _ _ _) as [mrs' e']. rewrite (nearest_equiv sx). reflexivity. Qed.
Lemma normalize_equiv m e z : SpecFloat.binary_normalize 53 1024 m e z = B2SF (binary_normalize 53 1024 Hp Hm mode_NE m e z).
Proof.
  destruct m as [|p|p]; [reflexivity| |]; cbn [SpecFloat.binary_normalize binary_normalize]; rewrite B2SF_SF2B;
    unfold SpecFloat.binary_round, binary_round, shl_align_fexp; destruct (shl_align _ _ _); apply round_aux_equiv.
Qed.
Lemma div_equiv (x y : binary_float 53 1024) : SFdiv 53 1024 (B2SF x) (B2SF y) = B2SF (Bdiv mode_NE x y).
Proof.
  destruct x as [sx|sx| |sx mx ex Bx], y as [sy|sy| |sy my ey By]; try reflexivity; cbn [B2SF Bdiv SFdiv]; try (destruct sx, sy; reflexivity).
  rewrite B2SF_SF2B. destruct (SFdiv_core_binary _ _ _ _ _ _) as [[mz ez] lz]. apply round_aux_equiv.
Qed.

(** *** Counts are represented exactly *)
Definition small (n : N) : Prop := (n < 2 ^ 53)%N.
Definition fl (n : N) : binary_float 53 1024 := binary_normalize 53 1024 Hp Hm mode_NE (Z.of_N n) 0 false.
Lemma small_bpow n : small n -> (0 <= IZR (Z.of_N n) < bpow radix2 53)%R.
Proof.
  intros S. split; [apply IZR_le; lia|]. change (bpow radix2 53) with (IZR (2 ^ 53)). apply IZR_lt. unfold small in S. apply N2Z.inj_lt in S. exact S.
Qed.
Lemma small_format n : small n -> generic_format radix2 fexp64 (IZR (Z.of_N n)).
Proof.
  intros S. apply (generic_format_FLT radix2 (3 - 1024 - 53) 53). exists (Float radix2 (Z.of_N n) 0).
  - unfold F2R. cbn. ring.
  - cbn [Fnum]. unfold small in S. apply N2Z.inj_lt in S. change (Z.of_N (2 ^ 53)) with (radix2 ^ 53)%Z in S. lia.
  - cbn. lia.
Qed.
Lemma fl_spec n : small n -> B2R (fl n) = IZR (Z.of_N n) /\ is_finite (fl n) = true.
Proof.
  intros S. pose proof (binary_normalize_correct 53 1024 Hp Hm mode_NE (Z.of_N n) 0 false) as C. cbv zeta in C.
  assert (F2R (Float radix2 (Z.of_N n) 0) = IZR (Z.of_N n)) as E by (unfold F2R; cbn; ring). rewrite E in C.
  rewrite (round_generic radix2 fexp64 (round_mode mode_NE) _ (small_format n S)) in C.
  destruct (small_bpow n S) as [L U].
  rewrite Rlt_bool_true in C.
  - destruct C as (C1 & C2 & _). split; [exact C1|exact C2].
  - rewrite Rabs_pos_eq by exact L. eapply Rlt_trans; [exact U|]. apply bpow_lt. lia.
Qed.
Lemma value_div t : th_value t = B2SF (Bdiv mode_NE (fl (th_events t)) (fl (th_time t))).
Proof. unfold th_value, f64_div, f64. rewrite !normalize_equiv. apply div_equiv. Qed.
Lemma quotient n t : small n -> small t -> (t <> 0)%N ->
  B2R (Bdiv mode_NE (fl n) (fl t)) = rnd (IZR (Z.of_N n) / IZR (Z.of_N t)) /\ is_finite (Bdiv mode_NE (fl n) (fl t)) = true.
Proof.
  intros Sn St T. destruct (fl_spec n Sn) as [Vn Fn], (fl_spec t St) as [Vt Ft].
  assert (1 <= IZR (Z.of_N t))%R as T1 by (apply IZR_le; lia).
  pose proof (Bdiv_correct 53 1024 Hp Hm mode_NE (fl n) (fl t)) as C. rewrite Vn, Vt in C.
  specialize (C ltac:(lra)). destruct (small_bpow n Sn) as [L U].
  assert (0 <= IZR (Z.of_N n) / IZR (Z.of_N t))%R as Q0 by (apply Rmult_le_pos; [exact L|left; apply Rinv_0_lt_compat; lra]).
  assert (IZR (Z.of_N n) / IZR (Z.of_N t) <= bpow radix2 53)%R as Q1.
  { apply Rle_trans with (IZR (Z.of_N n)); [|left; exact U]. apply Rmult_le_reg_r with (IZR (Z.of_N t)); [lra|].
    unfold Rdiv. rewrite Rmult_assoc, Rinv_l by lra. nra. }
  rewrite Rlt_bool_true in C.
  - destruct C as (C1 & C2 & _). rewrite Fn in C2. auto.
  - assert (0 <= rnd (IZR (Z.of_N n) / IZR (Z.of_N t)))%R as R0.
    { apply round_ge_generic; auto with typeclass_instances. apply generic_format_0. }
    rewrite Rabs_pos_eq by exact R0. apply Rle_lt_trans with (bpow radix2 53); [|apply bpow_lt; lia].
    apply round_le_generic; auto with typeclass_instances. apply generic_format_bpow. cbn. lia.
Qed.

Definition small_thr (t : thr) : Prop := small (th_events t) /\ small (th_time t).
Lemma fl0 : fl 0 = B754_zero false.
Proof. reflexivity. Qed.
Lemma no_time n : small n -> (n <> 0)%N -> B2SF (Bdiv mode_NE (fl n) (fl 0)) = S754_infinity false.
Proof.
  intros S N. rewrite fl0. destruct (fl_spec n S) as [V F]. assert (0 < IZR (Z.of_N n))%R as P by (apply IZR_lt; lia). rewrite <- V in P.
  destruct (fl n) as [s|s| |s m e H] eqn:E; cbn in *; try discriminate; try lra.
  destruct s; [|reflexivity]. exfalso. pose proof (F2R_lt_0 radix2 (Float radix2 (Zneg m) e) ltac:(reflexivity)) as Q. cbn in *. lra.
Qed.
Lemma small_published t : small_thr t -> th_publish t = true <-> th_events t <> 0%N.
Proof.
  intros [Se St]. unfold th_publish. rewrite value_div. split.
  - intros H E. rewrite E, fl0 in H. destruct (N.eq_dec (th_time t) 0) as [Z|Z]; [rewrite Z in H; discriminate H|].
    destruct (fl (th_time t)); discriminate H.
  - intros N. destruct (N.eq_dec (th_time t) 0) as [Z|Z]; [rewrite Z, no_time by auto; reflexivity|].
    destruct (quotient (th_events t) (th_time t) Se St Z) as [V F].
    assert (0 < rnd (IZR (Z.of_N (th_events t)) / IZR (Z.of_N (th_time t))))%R as P.
    { apply Rlt_le_trans with (bpow radix2 (-53)); [apply bpow_gt_0|]. apply round_ge_generic; auto with typeclass_instances.
      - apply generic_format_bpow. cbn. lia.
      - destruct (small_bpow _ St) as [_ U]. assert (1 <= IZR (Z.of_N (th_events t)))%R by (apply IZR_le; lia). assert (1 <= IZR (Z.of_N (th_time t)))%R by (apply IZR_le; lia).
        change (-53)%Z with (- (53))%Z. rewrite bpow_opp. apply Rle_trans with (/ IZR (Z.of_N (th_time t)))%R; [left; apply Rinv_lt; lra|].
        unfold Rdiv. assert (0 < / IZR (Z.of_N (th_time t)))%R by (apply Rinv_0_lt_compat; lra). nra. }
    rewrite <- V in P. destruct (Bdiv _ _ _); cbn in *; try lra; try discriminate; auto.
Qed.
(** The order of the exact quotients is kept. *)
Lemma small_order a b : small_thr a -> small_thr b -> th_publish a = true -> th_publish b = true ->
  (th_events b * th_time a <= th_events a * th_time b)%N -> SFleb (th_value b) (th_value a) = true.
Proof.
  intros Sa Sb Pa Pb O. apply (small_published a Sa) in Pa. apply (small_published b Sb) in Pb.
  destruct Sa as [Sae Sat], Sb as [Sbe Sbt]. rewrite !value_div.
  destruct (N.eq_dec (th_time a) 0) as [Za|Za].
  - rewrite Za, no_time by auto. destruct (N.eq_dec (th_time b) 0) as [Zb|Zb].
    + rewrite Zb, no_time by auto. reflexivity.
    + destruct (quotient (th_events b) (th_time b) Sbe Sbt Zb) as [_ F]. destruct (Bdiv _ _ _) as [s|s| |s m e H]; try discriminate; [reflexivity|destruct s; reflexivity].
  - destruct (N.eq_dec (th_time b) 0) as [Zb|Zb]; [rewrite Zb in O; nia|].
    destruct (quotient (th_events a) (th_time a) Sae Sat Za) as [Va Fa], (quotient (th_events b) (th_time b) Sbe Sbt Zb) as [Vb Fb].
    pose proof (Bcompare_correct 53 1024 _ _ Fb Fa) as C. unfold SFleb. unfold Bcompare in C.
    match type of C with ?l = _ => match goal with |- context [SFcompare ?x ?y] => change (SFcompare x y) with l end end. rewrite C. rewrite Va, Vb.
    assert (IZR (Z.of_N (th_events b)) / IZR (Z.of_N (th_time b)) <= IZR (Z.of_N (th_events a)) / IZR (Z.of_N (th_time a)))%R as Q.
    { assert (0 < IZR (Z.of_N (th_time a)))%R by (apply IZR_lt; lia). assert (0 < IZR (Z.of_N (th_time b)))%R by (apply IZR_lt; lia).
      apply Rmult_le_reg_r with (IZR (Z.of_N (th_time b)) * IZR (Z.of_N (th_time a)))%R; [apply Rmult_lt_0_compat; auto|].
      replace (IZR (Z.of_N (th_events b)) / IZR (Z.of_N (th_time b)) * (IZR (Z.of_N (th_time b)) * IZR (Z.of_N (th_time a))))%R with (IZR (Z.of_N (th_events b)) * IZR (Z.of_N (th_time a)))%R by (field; lra).
      replace (IZR (Z.of_N (th_events a)) / IZR (Z.of_N (th_time a)) * (IZR (Z.of_N (th_time b)) * IZR (Z.of_N (th_time a))))%R with (IZR (Z.of_N (th_events a)) * IZR (Z.of_N (th_time b)))%R by (field; lra).
      rewrite <- !mult_IZR. apply IZR_le. lia. }
    pose proof (round_le radix2 fexp64 (round_mode mode_NE) _ _ Q) as R.
    destruct (Rcompare_spec (rnd (IZR (Z.of_N (th_events b)) / IZR (Z.of_N (th_time b)))) (rnd (IZR (Z.of_N (th_events a)) / IZR (Z.of_N (th_time a))))); auto. lra.
Qed.
