(** Prefix filters against identifiers, as prefixes of the identifier's bit text. *)
From Verif Require Import GoBase BinUtil MFilter MEngine PBase Spec PFilter PEngine PSubs PList.
From Coq Require Import Lia ZifyBool ZifyNat.
Ltac Zify.zify_post_hook ::= Z.div_mod_to_equations.

(** The identifier's bits as text. *)
Definition idstr (id : list N) : gostring := bits_to_str (bits_of_bytes id).
Lemma idstr_length id : length (idstr id) = 8 * length id.
Proof. unfold idstr. rewrite bits_to_str_length. apply bits_of_bytes_length. Qed.

Lemma agrees_bit c b : (c = "0"%char \/ c = "1"%char) -> agrees c b <-> c = (if b then c1 else c0).
Proof.
  unfold agrees. intros [->| ->]; destruct b; split; intros H; auto; try discriminate;
    destruct H as [H|[[H1 H2]|[H1 H2]]]; discriminate.
Qed.
Lemma matches_at_str bits s : is_bitstring s ->
  (forall i c, nth_error s i = Some c -> exists b, nth_error bits i = Some b /\ agrees c b)
  <-> prefix_of s (bits_to_str bits).
Proof.
  revert bits; induction s as [|c s IH]; intros bits HB; cbn.
  - split; [intros; apply prefix_nil|]. intros _ [|i] c H; discriminate.
  - inversion HB; subst. split.
    + intros H. destruct (H 0 c eq_refl) as [b [Hb Ha]]. destruct bits as [|b' bits]; [discriminate|].
      cbn in Hb. injection Hb as ->. apply agrees_bit in Ha; auto. cbn. rewrite <- Ha.
      apply prefix_cons; split; auto. apply IH; auto. intros i c' Hi.
      destruct (H (S i) c' Hi) as [b' Hb']. exists b'; auto.
    + destruct bits as [|b bits]; [intros [r Hr]; discriminate|]. cbn.
      rewrite prefix_cons. intros [Hc Hp] [|i] c' Hi; cbn in Hi.
      * injection Hi as <-. exists b. split; auto. apply agrees_bit; auto.
      * cbn. apply IH; auto.
Qed.
Lemma id_has_prefix_str id k : is_bitstring k -> id_has_prefix id k <-> prefix_of k (idstr id).
Proof. intros H. unfold id_has_prefix, matches_at, idstr. cbn. apply matches_at_str; auto. Qed.
Lemma matches_at_prefix pre s id : is_bitstring pre -> is_bitstring s -> prefix_of pre (idstr id) ->
  matches_at s (length pre) id <-> prefix_of (pre ++ s) (idstr id).
Proof.
  intros HP HS [r Hr]. unfold matches_at.
  assert (r = bits_to_str (skipn (length pre) (bits_of_bytes id))) as Er.
  { unfold idstr, bits_to_str in *. rewrite <- skipn_map, Hr, skipn_app, skipn_all, Nat.sub_diag. reflexivity. }
  transitivity (prefix_of s r).
  - subst r. rewrite <- matches_at_str by auto.
    split; intros H i c Hc; destruct (H i c Hc) as [b Hb]; exists b;
      rewrite nth_error_skipn in *; auto.
  - rewrite Hr. split.
    + intros [t ->]. exists t. rewrite app_assoc. reflexivity.
    + intros [t Ht]. rewrite <- app_assoc in Ht. apply app_inv_head in Ht. exists t; auto.
Qed.
Lemma compatible_str bits s : is_bitstring s ->
  (forall i c b, nth_error s i = Some c -> nth_error bits i = Some b -> agrees c b)
  <-> prefix_of s (bits_to_str bits) \/ prefix_of (bits_to_str bits) s.
Proof.
  revert bits; induction s as [|c s IH]; intros bits HB.
  - split; [left; apply prefix_nil|]. intros _ [|i] c b H; discriminate.
  - destruct bits as [|b bits].
    { cbn. split; [right; apply prefix_nil|]. intros _ [|i] c' b' _ H; discriminate. }
    inversion HB; subst. cbn. rewrite !prefix_cons. split.
    + intros H. assert (c = (if b then c1 else c0)) as Hc by (apply agrees_bit; auto; apply (H 0 c b); auto).
      assert (prefix_of s (bits_to_str bits) \/ prefix_of (bits_to_str bits) s) as [|]; auto.
      apply IH; auto. intros i c' b' Hi Hb. apply (H (S i)); auto.
    + intros H. assert (c = (if b then c1 else c0)) as Hc by (destruct H as [[? _]|[? _]]; auto).
      assert (prefix_of s (bits_to_str bits) \/ prefix_of (bits_to_str bits) s) as HI by tauto.
      intros [|i] c' b' Hi Hb'; cbn in *.
      * injection Hi as <-. injection Hb' as <-. apply agrees_bit; auto.
      * eapply IH; eauto.
Qed.
Lemma runs_out_str id k : is_bitstring k ->
  runs_out id k <-> id = [] \/ (8 * length id < length k /\ prefix_of (idstr id) k).
Proof.
  intros HB. unfold runs_out, compatible_at. cbn [Nat.add]. rewrite compatible_str by auto. fold (idstr id).
  unfold bytes_needed. split.
  - intros [HL H]. destruct id as [|b id]; auto. right. cbn [length] in *.
    assert (8 * S (length id) < length k) by lia. split; auto.
    destruct H as [H|]; auto. exfalso. apply prefix_length in H. rewrite idstr_length in H. cbn [length] in H. lia.
  - intros [->|[HL H]].
    + split; [cbn [length]; lia|]. right. apply prefix_nil.
    + split; [lia|auto].
Qed.
(** An identifier that ends inside a key ends inside every extension of it. *)
Lemma runs_out_extend id k k' : is_bitstring k -> is_bitstring k' -> prefix_of k k' -> runs_out id k -> runs_out id k'.
Proof.
  intros HB HB' HP. rewrite !runs_out_str by auto. intros [->|[HL H]]; auto. right. split.
  - apply prefix_length in HP. lia.
  - eapply prefix_trans; eauto.
Qed.

Lemma is_bitstring_app a b : is_bitstring (a ++ b) <-> is_bitstring a /\ is_bitstring b.
Proof. apply Forall_app. Qed.

(** A node filter [s] at the end of a path [pre] that the identifier has. *)
Lemma match_at_path pre s id : wf_bytes id -> is_bitstring pre -> is_bitstring s ->
  (s <> [] \/ pre = []) -> prefix_of pre (idstr id) -> ~ runs_out id (pre ++ s) ->
  match_filter (new_filter s (length pre)) id = Ok (has_prefix (idstr id) (pre ++ s)).
Proof.
  intros Hw HP HS HN Hpre HR.
  assert (bytes_needed s (length pre) = bytes_needed (pre ++ s) 0) as HE.
  { unfold bytes_needed. rewrite app_length. destruct HN as [HN| ->]; [|reflexivity].
    destruct s; [congruence|]. cbn [length]. lia. }
  pose proof (is_bitstring_pattern s HS) as HSP.
  destruct (match_filter (new_filter s (length pre)) id) as [m| |] eqn:E.
  - f_equal. destruct m.
    + apply match_filter_true in E; auto. destruct E as [_ E]. apply matches_at_prefix in E; auto.
      apply has_prefix_spec in E. auto.
    + destruct (has_prefix (idstr id) (pre ++ s)) eqn:E2; auto. exfalso.
      apply has_prefix_spec in E2.
      assert (bytes_needed s (length pre) <= length id) as HL.
      { destruct (Nat.le_gt_cases (bytes_needed s (length pre)) (length id)); auto. exfalso. apply HR.
        split; [lia|]. unfold compatible_at. cbn [Nat.add]. apply (compatible_str (bits_of_bytes id)).
        - apply is_bitstring_app; auto.
        - left; auto. }
      assert (match_filter (new_filter s (length pre)) id = Ok true); [|congruence].
      apply match_filter_true; auto. split; auto. apply matches_at_prefix; auto.
  - exfalso. eapply match_filter_not_err; eauto.
  - exfalso. apply match_filter_panic in E; auto. destruct E as [HL HC]. apply HR.
    split; [lia|]. destruct Hpre as [r Hr].
    intros i c b Hi Hb. cbn in Hb.
    destruct (Nat.lt_ge_cases i (length pre)) as [Hlt|Hge].
    + rewrite nth_error_app1 in Hi by auto.
      apply agrees_bit. { apply nth_error_In in Hi. unfold is_bitstring in HP. rewrite Forall_forall in HP. auto. }
      assert (nth_error (idstr id) i = Some c) as H1 by (rewrite Hr, nth_error_app1; auto).
      unfold idstr, bits_to_str in H1. rewrite nth_error_map, Hb in H1. cbn in H1. congruence.
    + rewrite nth_error_app2 in Hi by auto. eapply HC; eauto.
      replace (length pre + (i - length pre)) with i by lia. auto.
Qed.
(** And it crashes exactly when the identifier ends inside it. *)
Lemma match_at_path_panic pre s id : wf_bytes id -> is_bitstring pre -> is_bitstring s ->
  (s <> [] \/ pre = []) -> prefix_of pre (idstr id) -> runs_out id (pre ++ s) ->
  match_filter (new_filter s (length pre)) id = Panic.
Proof.
  intros Hw HP HS HN Hpre HR.
  apply match_filter_panic; auto using is_bitstring_pattern.
  assert (bytes_needed s (length pre) = bytes_needed (pre ++ s) 0) as HE.
  { unfold bytes_needed. rewrite app_length. destruct HN as [HN| ->]; [|reflexivity].
    destruct s; [congruence|]. cbn [length]. lia. }
  destruct HR as [HL HC]. split; [lia|]. intros i c b Hi Hb. apply (HC (length pre + i)); auto.
  rewrite nth_error_app2 by lia. replace (length pre + i - length pre) with i by lia. auto.
Qed.

(** ** [reported] *)
Lemma reported_app id a b us vs : reported id a us -> reported id b vs -> reported id (a ++ b) (us ++ vs).
Proof.
  induction 1; cbn; auto; intros; [apply reported_yes|apply reported_no]; auto.
Qed.
Lemma reported_none id a : (forall k u, In (k, u) a -> ~ id_has_prefix id k) -> reported id a [].
Proof.
  induction a as [|[k u] a IH]; intros H; [constructor|].
  apply reported_no; [eapply H; left; eauto|]. apply IH. intros k' u' Hk. eapply H; right; eauto.
Qed.
Lemma reported_fun id a us vs : reported id a us -> reported id a vs -> us = vs.
Proof.
  intros H; revert vs; induction H; intros vs HV; inversion HV; subst; auto; try contradiction.
  f_equal; auto.
Qed.
Lemma reported_In id a us u : reported id a us -> In u us <-> exists k, In (k, u) a /\ id_has_prefix id k.
Proof.
  induction 1; cbn.
  - split; [tauto|intros (? & [] & _)].
  - rewrite IHreported. split.
    + intros [<-|(k' & Hk & Hp)]; eauto.
    + intros (k' & [Hk|Hk] & Hp); [injection Hk as -> ->; auto|]; eauto.
  - rewrite IHreported. split.
    + intros (k' & Hk & Hp); eauto.
    + intros (k' & [Hk|Hk] & Hp); [injection Hk as -> ->; contradiction|]; eauto.
Qed.
Lemma id_has_prefix_dec id k : {id_has_prefix id k} + {~ id_has_prefix id k}.
Proof.
  unfold id_has_prefix, matches_at.
  assert (forall bits, {forall i c, nth_error k i = Some c -> exists b, nth_error bits i = Some b /\ agrees c b}
    + {~ forall i c, nth_error k i = Some c -> exists b, nth_error bits i = Some b /\ agrees c b}) as H; [|apply H].
  induction k as [|c k IH]; intros bits.
  - left. intros [|i] c H; discriminate.
  - destruct bits as [|b bits].
    { right. intros H. destruct (H 0 c eq_refl) as [b [Hb _]]. discriminate. }
    assert ({agrees c b} + {~ agrees c b}) as [Ha|Ha].
    { unfold agrees. destruct (ascii_dec c "x"), (ascii_dec c "1"), (ascii_dec c "0"), b;
        try (left; tauto); right; intuition congruence. }
    2: { right. intros H. destruct (H 0 c eq_refl) as [b' [Hb Hx]]. cbn in Hb. congruence. }
    destruct (IH bits) as [H|H].
    + left. intros [|i] c' Hi; cbn in *; [injection Hi as <-; eauto|]. apply H; auto.
    + right. intros HH. apply H. intros i c' Hi. apply (HH (S i) c' Hi).
Qed.
Lemma reported_total id a : exists us, reported id a us.
Proof.
  induction a as [|[k u] a [us IH]]; [exists []; constructor|].
  destruct (id_has_prefix_dec id k); [exists (u :: us)|exists us]; constructor; auto.
Qed.
