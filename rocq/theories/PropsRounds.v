(** How many rounds the data set generator makes. *)
From Coq Require Import Lia.
From Verif Require Import GoBase MFloat MFilter MTools MDataset SpecDataset PFloat4.

(** ** C88 *)
(** Both numbers of rounds are the requested share, rounded down, or one less; one less
    only if the share is a whole number of rounds, that is only where nothing was to be
    rounded.  Missing: the latter does happen (C88_refuted_rounding); 2^40
    subscriptions or more, where the rounding errors can add up to more. *)
Theorem C88_rounds_partial : forall pct nsub, (0 <= pct <= 100)%Z -> (0 <= nsub < 2 ^ 40)%Z ->
  (exists r, match_repeat pct nsub = Some r /\ (0 <= r)%Z /\ (right_rounds pct nsub r \/ one_short pct nsub r)) /\
  (exists r, mismatch_repeat pct nsub = Some r /\ (0 <= r)%Z /\ (right_rounds (100 - pct) nsub r \/ one_short (100 - pct) nsub r)).
Proof.
  assert (forall pct nsub, (0 <= pct <= 100)%Z -> (0 <= nsub < 2 ^ 40)%Z ->
    exists r, f64_int (f64_div (f64_mul (f64_div (f64 pct) (f64 100)) (f64 nsub)) (f64 20)) = Some r /\ (0 <= r)%Z /\ (right_rounds pct nsub r \/ one_short pct nsub r)) as R.
  { intros pct nsub P L. change (2 ^ 40)%Z with 1099511627776%Z in L.
    destruct (rounds_near (Z.to_N pct) (Z.to_N nsub)) as (r & E & Z0 & D); [lia|change (2 ^ 40)%N with 1099511627776%N; lia|].
    exists r. rewrite N2Z.inj_mul, !Z2N.id in D by lia. rewrite <- share_fl, !Z2N.id in E by lia. auto. }
  intros pct nsub P L. split; [apply R; auto|]. apply (R (100 - pct)%Z); auto. lia.
Qed.
Print Assumptions C88_rounds_partial.
Example C88_rounds_meets : (0 <= 35 <= 100)%Z /\ (0 <= 2900 < 2 ^ 40)%Z /\ match_repeat 35 2900 = Some 50%Z /\ right_rounds 35 2900 50 /\
  mismatch_repeat 35 2900 = Some 94%Z /\ right_rounds (100 - 35) 2900 94.
Proof. split; [lia|]. split; [lia|]. split; [vm_compute; reflexivity|]. split; [reflexivity|]. split; [vm_compute; reflexivity|]. reflexivity. Qed.
