(** Quotients of counters as float64. *)
From Verif Require Import GoBase MFloat.
From Coq Require Import Lia.

Definition plus (x : spec_float) : Prop :=
  match x with S754_zero false | S754_infinity false | S754_finite false _ _ | S754_nan => True | _ => False end.
Lemma round_aux_plus prec emax m e l : plus (binary_round_aux prec emax false m e l).
Proof.
  unfold binary_round_aux. destruct (shr_fexp _ _ _ _ _) as [mrs e']. destruct (shr_fexp _ _ _ _ _) as [mrs' e''].
  destruct (shr_m mrs') as [|p|p]; try exact I. destruct (Z.leb _ _); exact I.
Qed.
Lemma f64_plus n : plus (f64 (Z.of_N n)).
Proof.
  unfold f64, binary_normalize. destruct n as [|p]; cbn [Z.of_N]; [exact I|]. unfold binary_round. destruct (shl_align _ _ _) as [m e]. apply round_aux_plus.
Qed.
Lemma div_plus x y : plus x -> plus y -> plus (f64_div x y).
Proof.
  unfold f64_div. intros X Y. destruct x as [[]|[]| |[] mx ex], y as [[]|[]| |[] my ey]; try contradiction; cbn [SFdiv xorb]; try exact I.
  destruct (SFdiv_core_binary _ _ _ _ _ _) as [[m e] l]. apply round_aux_plus.
Qed.
Lemma zero_div y : plus y -> forall x, f64_div (f64 0) y = x -> x = S754_zero false \/ x = S754_nan.
Proof. intros Y x <-. destruct y as [[]|[]| |[] my ey]; try contradiction; cbn; auto. Qed.

Definition above0 (x : spec_float) : bool := match x with S754_zero _ | S754_nan => false | _ => true end.
Lemma ltb_above x y : plus x -> plus y -> SFltb x y = true -> above0 y = true.
Proof. destruct x as [[]|[]| |[] mx ex], y as [[]|[]| |[] my ey]; try contradiction; cbn; auto. Qed.
Lemma above_ltb y : plus y -> SFltb (S754_zero false) y = above0 y.
Proof. destruct y as [[]|[]| |[] my ey]; try contradiction; cbn; auto. Qed.
Lemma ltb_leb x y : plus x -> plus y -> x <> S754_nan -> y <> S754_nan -> SFltb x y = false <-> SFleb y x = true.
Proof.
  destruct x as [[]|[]| |[] mx ex], y as [[]|[]| |[] my ey]; try contradiction; intros _ _ NX NY; try congruence; unfold SFltb, SFleb; cbn; try (split; congruence).
  destruct (Z.compare_spec ex ey) as [->|L|L].
  - rewrite Z.compare_refl. change (Pcompare mx my Eq) with (Pos.compare mx my). change (Pcompare my mx Eq) with (Pos.compare my mx).
    rewrite (Pos.compare_antisym mx my). destruct (Pos.compare mx my); cbn; split; congruence.
  - apply Z.compare_gt_iff in L as L'. rewrite L'. split; congruence.
  - apply Z.compare_lt_iff in L as L'. rewrite L'. split; congruence.
Qed.
Lemma leb_ltb_trans x y z : plus x -> plus y -> plus z -> SFleb x y = true -> SFltb y z = true -> SFleb x z = true.
Proof.
  destruct x as [[]|[]| |[] mx ex], y as [[]|[]| |[] my ey], z as [[]|[]| |[] mz ez]; try contradiction; intros _ _ _; unfold SFltb, SFleb; cbn; try congruence.
  change (Pcompare mx my Eq) with (Pos.compare mx my). change (Pcompare my mz Eq) with (Pos.compare my mz). change (Pcompare mx mz Eq) with (Pos.compare mx mz).
  destruct (Z.compare_spec ex ey), (Z.compare_spec ey ez), (Z.compare_spec ex ez); subst; try congruence; try lia;
    destruct (Pos.compare_spec mx my), (Pos.compare_spec my mz), (Pos.compare_spec mx mz); subst; try congruence; try lia.
Qed.
Lemma leb_refl x : plus x -> x <> S754_nan -> SFleb x x = true.
Proof.
  destruct x as [[]|[]| |[] mx ex]; try contradiction; intros _ N; try congruence; unfold SFleb; cbn; auto.
  rewrite Z.compare_refl. change (Pcompare mx mx Eq) with (Pos.compare mx mx). rewrite Pos.compare_refl. auto.
Qed.
Lemma leb_zero x : plus x -> x <> S754_nan -> SFleb (S754_zero false) x = true.
Proof. destruct x as [[]|[]| |[] mx ex]; try contradiction; intros _ N; try congruence; reflexivity. Qed.
Lemma leb_antisym x y : plus x -> plus y -> SFleb x y = true -> SFleb y x = true -> x = y.
Proof.
  destruct x as [[]|[]| |[] mx ex], y as [[]|[]| |[] my ey]; try contradiction; intros _ _; unfold SFleb; cbn; try congruence.
  change (Pcompare mx my Eq) with (Pos.compare mx my). change (Pcompare my mx Eq) with (Pos.compare my mx).
  destruct (Z.compare_spec ex ey), (Z.compare_spec ey ex); subst; try congruence; try lia; 
    destruct (Pos.compare_spec mx my), (Pos.compare_spec my mx); subst; try congruence; try lia.
Qed.
