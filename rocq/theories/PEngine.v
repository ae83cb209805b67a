(** Proofs about the helpers of filtering/engine.go. *)
From Verif Require Import GoBase MEngine PBase Spec.
From Coq Require Import Lia ZifyBool ZifyNat ZifyN.
Ltac Zify.zify_post_hook ::= Z.div_mod_to_equations.

(** ** lcp *)
Lemma common_loop_spec mn mx : sle mn mx ->
  prefix_of (common_loop mn mx) mn /\ prefix_of (common_loop mn mx) mx /\
  forall q, prefix_of q mn -> prefix_of q mx -> prefix_of q (common_loop mn mx).
Proof.
  revert mx; induction mn as [|x mn IH]; intros mx H.
  - cbn. repeat split; auto using prefix_nil.
  - destruct mx as [|y mx]; [discriminate|]. unfold sle in H. cbn in H |- *.
    destruct (Ascii.eqb_spec x y) as [->|Hxy].
    + rewrite N.ltb_irrefl in H. destruct (IH mx H) as (H1 & H2 & H3).
      repeat split; try (apply prefix_cons; auto).
      intros [|z q] Hq1 Hq2; [apply prefix_nil|].
      apply prefix_cons in Hq1, Hq2. apply prefix_cons. intuition.
    + repeat split; auto using prefix_nil.
      intros [|z q] Hq1 Hq2; [apply prefix_nil|].
      apply prefix_cons in Hq1, Hq2. destruct Hq1, Hq2; congruence.
Qed.

Lemma min_max_fold l mn mx : sle mn mx ->
  let '(a, b) := fold_left min_max_step l (mn, mx) in
  sle a b /\ sle a mn /\ sle mx b /\ (forall s, In s l -> sle a s /\ sle s b) /\
  (a = mn \/ In a l) /\ (b = mx \/ In b l).
Proof.
  revert mn mx; induction l as [|s l IH]; intros mn mx H; cbn [fold_left].
  - repeat split; auto using sle_refl; contradiction.
  - cbn [min_max_step].
    destruct (sltb s mn) eqn:E1; [|destruct (sltb mx s) eqn:E2].
    + assert (sle s mx) as Hs by (apply sle_trans with mn; auto; apply sle_lt_eq; auto).
      specialize (IH s mx Hs). destruct (fold_left min_max_step l (s, mx)) as [a b].
      destruct IH as (A & B & C & D & F & G). repeat split; auto.
      * apply sle_trans with s; auto. apply sle_lt_eq; auto.
      * destruct H0 as [<-|]; [|apply D; auto]. auto.
      * destruct H0 as [<-|]; [|apply D; auto]. apply sle_trans with mx; auto.
      * destruct F as [->|]; cbn; auto.
      * destruct G as [->|]; cbn; auto.
    + assert (sle mn s) as Hs by auto.
      specialize (IH mn s Hs). destruct (fold_left min_max_step l (mn, s)) as [a b].
      destruct IH as (A & B & C & D & F & G). repeat split; auto.
      * apply sle_trans with s; auto. apply sle_lt_eq; auto.
      * destruct H0 as [<-|]; [|apply D; auto]. apply sle_trans with mn; auto.
      * destruct H0 as [<-|]; [|apply D; auto]. auto.
      * destruct F as [->|]; cbn; auto.
      * destruct G as [->|]; cbn; auto.
    + specialize (IH mn mx H). destruct (fold_left min_max_step l (mn, mx)) as [a b].
      destruct IH as (A & B & C & D & F & G). repeat split; auto.
      * destruct H0 as [<-|]; [|apply D; auto]. apply sle_trans with mn; auto.
      * destruct H0 as [<-|]; [|apply D; auto]. apply sle_trans with mx; auto.
      * destruct F as [->|]; cbn; auto.
      * destruct G as [->|]; cbn; auto.
Qed.

Lemma lcp_prefix l s : In s l -> prefix_of (lcp l) s.
Proof.
  destruct l as [|x [|y l]]; cbn [lcp].
  - contradiction.
  - intros [<-|[]]. apply prefix_refl.
  - intros Hs. pose proof (min_max_fold (y :: l) x x (sle_refl x)) as H.
    destruct (fold_left min_max_step (y :: l) (x, x)) as [a b].
    destruct H as (A & B & C & D & F & G).
    destruct (common_loop_spec a b A) as (H1 & H2 & H3).
    assert (sle a s /\ sle s b) as [Ha Hb] by (destruct Hs as [<-|Hs]; auto).
    apply prefix_between with b; auto. apply sle_trans with a; auto.
    apply prefix_sle; auto.
Qed.
Lemma lcp_greatest l q : l <> [] -> (forall s, In s l -> prefix_of q s) -> prefix_of q (lcp l).
Proof.
  destruct l as [|x [|y l]]; cbn [lcp].
  - contradiction.
  - intros _ H. apply H. left; auto.
  - intros _ Hq. pose proof (min_max_fold (y :: l) x x (sle_refl x)) as H.
    destruct (fold_left min_max_step (y :: l) (x, x)) as [a b].
    destruct H as (A & B & C & D & F & G).
    destruct (common_loop_spec a b A) as (H1 & H2 & H3).
    apply H3; apply Hq.
    + destruct F as [->|F]; [left; auto|right; auto].
    + destruct G as [->|G]; [left; auto|right; auto].
Qed.
Lemma lcp_is_longest l : l <> [] -> longest_common_prefix (lcp l) l.
Proof.
  intros H. split.
  - apply lcp_prefix.
  - intros q Hq. apply lcp_greatest; auto.
Qed.
Lemma lcp_nil : lcp [] = [].
Proof. reflexivity. Qed.
(** The specification determines the result. *)
Lemma lcp_unique l p : l <> [] -> longest_common_prefix p l -> p = lcp l.
Proof.
  intros H [H1 H2]. apply prefix_antisym.
  - apply lcp_greatest; auto.
  - apply H2. intros; apply lcp_prefix; auto.
Qed.

(** ** getNextBit *)
Lemma testbit_shift b j : j < 8 ->
  N.eqb (N.shiftr b (N.of_nat (7 - j)) mod 2) 0 = negb (N.testbit b (N.of_nat (7 - j))).
Proof.
  intros Hj. rewrite <- N.bit0_mod, N.shiftr_spec'. rewrite N.add_0_l.
  destruct (N.testbit b _); reflexivity.
Qed.
Lemma bits_nth id n : nth_error (bits_of_bytes id) n =
  match nth_error id (n / 8) with
  | Some b => Some (N.testbit b (N.of_nat (7 - n mod 8)))
  | None => None
  end.
Proof.
  revert n; induction id as [|b id IH]; intros n.
  - rewrite !(proj2 (nth_error_None _ _)) by (cbn; lia). reflexivity.
  - rewrite bits_of_bytes_cons. destruct (Nat.lt_ge_cases n 8).
    + rewrite nth_error_app1 by auto. rewrite Nat.div_small, Nat.mod_small by auto. cbn [nth_error].
      do 8 (destruct n as [|n]; [reflexivity|]). lia.
    + rewrite nth_error_app2 by auto. rewrite bits_of_byte_length, IH.
      replace (n / 8) with (S ((n - 8) / 8)) by lia. cbn [nth_error].
      replace ((n - 8) mod 8) with (n mod 8) by lia. reflexivity.
Qed.
Lemma get_next_bit_spec id n :
  get_next_bit id n =
  (if n <? 8 * length id then
     match nth_error (bits_of_bytes id) n with
     | Some true => Ok c1 | Some false => Ok c0 | None => Panic
     end
   else if n =? 8 * length id then Ok cx else Err).
Proof.
  unfold get_next_bit.
  assert (n mod 8 < 8) by (apply Nat.mod_upper_bound; lia).
  destruct (Nat.ltb_spec n (8 * length id)).
  - replace ((length id =? n / 8) && (n mod 8 =? 0)) with false by lia.
    replace (length id <=? n / 8) with false by lia.
    rewrite bits_nth. unfold index. destruct (nth_error id (n / 8)) as [b|]; cbn [bind]; auto.
    rewrite testbit_shift by auto. destruct (N.testbit b _); reflexivity.
  - destruct (Nat.eqb_spec n (8 * length id)).
    + replace ((length id =? n / 8) && (n mod 8 =? 0)) with true by lia. reflexivity.
    + replace ((length id =? n / 8) && (n mod 8 =? 0)) with false by lia.
      replace (length id <=? n / 8) with true by lia. reflexivity.
Qed.
Lemma get_next_bit_exact id n :
  (forall b, nth_error (bits_of_bytes id) n = Some b ->
     get_next_bit id n = Ok (if b then "1"%char else "0"%char)) /\
  (n = 8 * length id -> get_next_bit id n = Ok "x"%char) /\
  (8 * length id < n -> get_next_bit id n = Err).
Proof.
  rewrite get_next_bit_spec. repeat split.
  - intros b Hb. assert (n < 8 * length id).
    { rewrite <- bits_of_bytes_length. apply nth_error_Some. congruence. }
    replace (n <? _) with true by lia. rewrite Hb. destruct b; reflexivity.
  - intros ->. rewrite Nat.ltb_irrefl, Nat.eqb_refl. reflexivity.
  - intros H. replace (n <? _) with false by lia. replace (n =? _) with false by lia. reflexivity.
Qed.
