(** Lemmas about Go strings, their order, sorting, maps, and bits. *)
From Verif Require Import GoBase BinUtil.
From Coq Require Import Lia Permutation Sorted.
From Verif Require Export SpecMap.
From Coq Require Import ZifyBool ZifyNat ZifyN.
Ltac Zify.zify_post_hook ::= Z.div_mod_to_equations.

(** ** Strings *)
Lemma seqb_eq a b : seqb a b = true <-> a = b.
Proof.
  revert b; induction a as [|x a IH]; intros [|y b]; cbn; try (split; congruence).
  rewrite andb_true_iff, Ascii.eqb_eq, IH. split.
  - intros [-> ->]; reflexivity.
  - intros H; injection H; auto.
Qed.
Lemma seqb_refl a : seqb a a = true.
Proof. apply seqb_eq; reflexivity. Qed.
Lemma seqb_neq a b : seqb a b = false <-> a <> b.
Proof.
  split.
  - intros H ->. rewrite seqb_refl in H; discriminate.
  - intros H. destruct (seqb a b) eqn:E; auto. apply seqb_eq in E; contradiction.
Qed.
Lemma seqb_sym a b : seqb a b = seqb b a.
Proof.
  destruct (seqb a b) eqn:E.
  - apply seqb_eq in E; subst. symmetry; apply seqb_refl.
  - apply seqb_neq in E. symmetry. apply seqb_neq. congruence.
Qed.
Lemma seqb_spec a b : reflect (a = b) (seqb a b).
Proof.
  destruct (seqb a b) eqn:E; constructor.
  - apply seqb_eq; auto.
  - apply seqb_neq; auto.
Qed.
Lemma gostring_eq_dec : forall a b : gostring, {a = b} + {a <> b}.
Proof. apply list_eq_dec, ascii_dec. Qed.

Lemma has_prefix_spec s p : has_prefix s p = true <-> prefix_of p s.
Proof.
  unfold prefix_of. revert s; induction p as [|x p IH]; intros s; cbn.
  - replace (has_prefix s []) with true by (destruct s; reflexivity). split; eauto.
  - destruct s as [|y s]; cbn.
    + split; [discriminate|]. intros [r H]; discriminate.
    + rewrite andb_true_iff, Ascii.eqb_eq, IH. split.
      * intros [-> [r ->]]. exists r; reflexivity.
      * intros [r H]. injection H as -> ->. eauto.
Qed.
Lemma has_prefix_false s p : has_prefix s p = false <-> ~ prefix_of p s.
Proof.
  rewrite <- has_prefix_spec. destruct (has_prefix s p); split; congruence.
Qed.
Lemma has_prefix_refl s : has_prefix s s = true.
Proof. apply has_prefix_spec. exists []. symmetry; apply app_nil_r. Qed.
Lemma has_prefix_app p r : has_prefix (p ++ r) p = true.
Proof. apply has_prefix_spec. exists r; reflexivity. Qed.
Lemma prefix_skipn p s : prefix_of p s -> s = p ++ skipn (length p) s.
Proof.
  intros [r ->]. rewrite skipn_app, skipn_all, Nat.sub_diag. reflexivity.
Qed.
Lemma prefix_length p s : prefix_of p s -> length p <= length s.
Proof. intros [r ->]. rewrite app_length. lia. Qed.
Lemma prefix_refl s : prefix_of s s.
Proof. exists []. symmetry; apply app_nil_r. Qed.
Lemma prefix_trans a b c : prefix_of a b -> prefix_of b c -> prefix_of a c.
Proof. intros [r ->] [r' ->]. exists (r ++ r'). apply app_assoc_reverse. Qed.
Lemma prefix_nil s : prefix_of [] s.
Proof. exists s; reflexivity. Qed.
Lemma prefix_antisym a b : prefix_of a b -> prefix_of b a -> a = b.
Proof.
  intros [r ->] [r' H]. rewrite <- app_assoc in H.
  rewrite <- (app_nil_r a) in H at 1. apply app_inv_head in H.
  symmetry in H. apply app_eq_nil in H. destruct H as [-> _]. symmetry; apply app_nil_r.
Qed.
Lemma prefix_app_inv p a b : prefix_of (p ++ a) (p ++ b) <-> prefix_of a b.
Proof.
  split; intros [r H]; exists r.
  - rewrite <- app_assoc in H. apply app_inv_head in H; auto.
  - rewrite <- app_assoc. congruence.
Qed.
(** Two prefixes of the same string are comparable. *)
Lemma prefix_comparable a b s : prefix_of a s -> prefix_of b s -> prefix_of a b \/ prefix_of b a.
Proof.
  revert b s; induction a as [|x a IH]; intros b s Ha Hb.
  - left; apply prefix_nil.
  - destruct b as [|y b]; [right; apply prefix_nil|].
    destruct Ha as [r ->]. destruct Hb as [r' H]. injection H as -> H.
    destruct (IH b (a ++ r)) as [[q ->]|[q ->]].
    + exists r; auto.
    + exists r'; auto.
    + left. exists q; auto.
    + right. exists q; auto.
Qed.
Lemma prefix_cons x a y b : prefix_of (x :: a) (y :: b) <-> x = y /\ prefix_of a b.
Proof.
  split.
  - intros [r H]; injection H as -> ->. split; auto. exists r; auto.
  - intros [-> [r ->]]. exists r; auto.
Qed.
Lemma prefix_eq_length a b : prefix_of a b -> length b <= length a -> a = b.
Proof.
  intros [r ->] H. rewrite app_length in H. destruct r; [|cbn in H; lia].
  symmetry; apply app_nil_r.
Qed.

(** ** The string order *)
Lemma sltb_irrefl a : sltb a a = false.
Proof.
  induction a as [|x a IH]; cbn; auto. rewrite N.ltb_irrefl. auto.
Qed.
Lemma sltb_trans a b c : sltb a b = true -> sltb b c = true -> sltb a c = true.
Proof.
  revert b c; induction a as [|x a IH]; intros [|y b] [|z c]; cbn; try congruence.
  destruct (N.ltb_spec (N_of_ascii x) (N_of_ascii y)), (N.ltb_spec (N_of_ascii y) (N_of_ascii x)),
    (N.ltb_spec (N_of_ascii y) (N_of_ascii z)), (N.ltb_spec (N_of_ascii z) (N_of_ascii y)),
    (N.ltb_spec (N_of_ascii x) (N_of_ascii z)), (N.ltb_spec (N_of_ascii z) (N_of_ascii x));
    try congruence; try lia. apply IH.
Qed.
Lemma sltb_total a b : sltb a b = false -> sltb b a = false -> a = b.
Proof.
  revert b; induction a as [|x a IH]; intros [|y b]; cbn; try congruence.
  destruct (N.ltb_spec (N_of_ascii x) (N_of_ascii y)), (N.ltb_spec (N_of_ascii y) (N_of_ascii x));
    try congruence; try lia.
  intros. f_equal; auto. rewrite <- (ascii_N_embedding x), <- (ascii_N_embedding y).
  f_equal; lia.
Qed.
Lemma sltb_asym a b : sltb a b = true -> sltb b a = false.
Proof.
  intros H. destruct (sltb b a) eqn:E; auto.
  assert (sltb a a = true) by (eapply sltb_trans; eauto).
  rewrite sltb_irrefl in *; discriminate.
Qed.
Lemma sltb_nil a : sltb a [] = false.
Proof. destruct a; auto. Qed.
Lemma sltb_neq a b : sltb a b = true -> a <> b.
Proof. intros H ->. rewrite sltb_irrefl in H; discriminate. Qed.
Definition sle (a b : gostring) : Prop := sltb b a = false.
Lemma sle_refl a : sle a a.
Proof. apply sltb_irrefl. Qed.
Lemma sle_trans a b c : sle a b -> sle b c -> sle a c.
Proof.
  unfold sle; intros H1 H2. destruct (sltb c a) eqn:E; auto.
  destruct (sltb a b) eqn:E1.
  - assert (sltb c b = true) by (eapply sltb_trans; eauto). congruence.
  - assert (a = b) by (apply sltb_total; auto). subst. congruence.
Qed.
Lemma sle_lt_eq a b : sle a b <-> sltb a b = true \/ a = b.
Proof.
  unfold sle; split.
  - intros H. destruct (sltb a b) eqn:E; auto. right. apply sltb_total; auto.
  - intros [H| ->]; [apply sltb_asym; auto | apply sltb_irrefl].
Qed.
Lemma prefix_sle p s : prefix_of p s -> sle p s.
Proof.
  intros [r ->]. unfold sle. revert r; induction p as [|x p IH]; intros r; cbn.
  - apply sltb_nil.
  - rewrite N.ltb_irrefl. auto.
Qed.
Lemma strict_prefix_slt p s : prefix_of p s -> p <> s -> sltb p s = true.
Proof.
  intros H1 H2. apply prefix_sle, sle_lt_eq in H1. destruct H1; congruence.
Qed.
(** Strings between a prefix and one of its extensions share the prefix. *)
Lemma prefix_between p a b : prefix_of p b -> sle p a -> sle a b -> prefix_of p a.
Proof.
  unfold sle. revert a b; induction p as [|x p IH]; intros a b Hb H1 H2.
  - apply prefix_nil.
  - destruct Hb as [r ->]. destruct a as [|y a]; [discriminate|].
    cbn in H1, H2.
    destruct (N.ltb_spec (N_of_ascii x) (N_of_ascii y)), (N.ltb_spec (N_of_ascii y) (N_of_ascii x));
      try congruence; try lia.
    assert (x = y).
    { rewrite <- (ascii_N_embedding x), <- (ascii_N_embedding y). f_equal; lia. }
    subst y. apply prefix_cons. split; auto. apply (IH a (p ++ r)); auto. exists r; auto.
Qed.
Lemma sltb_app p a b : sltb (p ++ a) (p ++ b) = sltb a b.
Proof. induction p as [|x p IH]; cbn; auto. rewrite N.ltb_irrefl; auto. Qed.

(** ** Sorted lists of strings *)

Lemma insert_string_perm x l : Permutation (x :: l) (insert_string x l).
Proof.
  induction l as [|y l IH]; cbn; auto.
  destruct (sltb y x); auto. eapply perm_trans; [apply perm_swap|]. auto.
Qed.
Lemma sort_strings_perm l : Permutation l (sort_strings l).
Proof.
  induction l as [|x l IH]; cbn; auto.
  eapply perm_trans; [|apply insert_string_perm]. auto.
Qed.
Lemma insert_string_sorted x l :
  StronglySorted sle l -> StronglySorted sle (insert_string x l).
Proof.
  induction 1 as [|y l Hs IH Hf]; cbn.
  - constructor; constructor.
  - destruct (sltb y x) eqn:E.
    + constructor; auto. rewrite Forall_forall in *. intros z Hz.
      apply (Permutation_in z (Permutation_sym (insert_string_perm x l))) in Hz.
      destruct Hz as [<-|Hz]; auto. apply sltb_asym; auto.
    + constructor; [constructor; auto|]. constructor; auto.
      rewrite Forall_forall in *. intros z Hz. apply (sle_trans x y z); auto.
Qed.
Lemma sort_strings_sorted l : StronglySorted sle (sort_strings l).
Proof.
  induction l; cbn; [constructor|]. apply insert_string_sorted; auto.
Qed.
Lemma insert_string_le x l : Forall (fun y => sltb x y = true) l -> insert_string x l = x :: l.
Proof.
  destruct l as [|y l]; cbn; auto. intros H. inversion H; subst.
  rewrite (sltb_asym x y); auto.
Qed.
Lemma sort_sorted l : ssorted l -> sort_strings l = l.
Proof.
  induction 1 as [|x l Hs IH Hf]; cbn; auto. rewrite IH. apply insert_string_le; auto.
Qed.
Lemma sle_sorted_unique l l' :
  StronglySorted sle l -> StronglySorted sle l' -> Permutation l l' -> l = l'.
Proof.
  revert l'; induction l as [|x l IH]; intros l' H1 H2 HP.
  - apply Permutation_nil in HP; auto.
  - destruct l' as [|y l']; [apply Permutation_sym, Permutation_nil in HP; discriminate|].
    inversion H1 as [|? ? H1s H1f]; inversion H2 as [|? ? H2s H2f]; subst.
    assert (x = y).
    { assert (In x (y :: l')) as Hx by (eapply Permutation_in; [apply HP|left; auto]).
      assert (In y (x :: l)) as Hy by (eapply Permutation_in; [apply Permutation_sym, HP|left; auto]).
      rewrite Forall_forall in *.
      destruct Hx as [|Hx]; auto. destruct Hy as [|Hy]; auto.
      apply sltb_total; [apply H2f; auto | apply H1f; auto]. }
    subst. f_equal. apply IH; auto. eapply Permutation_cons_inv; eauto.
Qed.
Lemma ssorted_NoDup l : ssorted l -> NoDup l.
Proof.
  induction 1 as [|x l Hs IH Hf]; constructor; auto.
  intros Hi. rewrite Forall_forall in Hf. specialize (Hf x Hi).
  rewrite sltb_irrefl in Hf; discriminate.
Qed.
Lemma ssorted_sle l : ssorted l -> StronglySorted sle l.
Proof.
  induction 1 as [|x l Hs IH Hf]; constructor; auto.
  rewrite Forall_forall in *. intros y Hy. apply sltb_asym. auto.
Qed.
Lemma sle_sorted_strict l : StronglySorted sle l -> NoDup l -> ssorted l.
Proof.
  induction 1 as [|x l Hs IH Hf]; intros HN; [constructor|].
  inversion HN; subst. constructor; [apply IH; auto|].
  rewrite Forall_forall in *. intros y Hy. specialize (Hf y Hy).
  apply sle_lt_eq in Hf. destruct Hf; auto. subst; contradiction.
Qed.
Lemma ssorted_unique l l' : ssorted l -> ssorted l' -> (forall x, In x l <-> In x l') -> l = l'.
Proof.
  intros H1 H2 H. apply sle_sorted_unique; auto using ssorted_sle.
  apply NoDup_Permutation; auto using ssorted_NoDup.
Qed.

(** ** Sorted maps *)
Section Maps.
  Context {V : Type}.
  Implicit Types m : smap V.

  Lemma mget_In k v m : mget k m = Some v -> In (k, v) m.
  Proof.
    induction m as [|[k' v'] m IH]; cbn; [discriminate|].
    destruct (seqb_spec k k'); [|right; auto]. intros H; injection H as ->. subst; auto.
  Qed.
  Lemma mget_keys k m : mget k m <> None <-> In k (mkeys m).
  Proof.
    induction m as [|[k' v'] m IH]; cbn; [tauto|].
    destruct (seqb_spec k k').
    - subst. split; auto. discriminate.
    - rewrite IH. split; auto. intros [|]; auto. congruence.
  Qed.
  Lemma In_mget k v m : wf_map m -> In (k, v) m -> mget k m = Some v.
  Proof.
    unfold wf_map. intros W. apply ssorted_NoDup in W.
    induction m as [|[k' v'] m IH]; cbn; [tauto|]. inversion W; subst.
    intros [H|H].
    - injection H as -> ->. rewrite seqb_refl; auto.
    - destruct (seqb_spec k k'); auto. subst. exfalso. apply H1.
      apply in_map with (f := fst) in H; auto.
  Qed.
  Lemma mget_mset k k' v m : mget k (mset k' v m) = if seqb k k' then Some v else mget k m.
  Proof.
    induction m as [|[k2 v2] m IH]; cbn.
    - destruct (seqb k k'); auto.
    - destruct (seqb_spec k' k2).
      + subst. cbn. destruct (seqb k k2); auto.
      + destruct (sltb k' k2); cbn.
        * destruct (seqb_spec k k'); auto.
        * rewrite IH. destruct (seqb_spec k k2); auto. subst.
          destruct (seqb_spec k2 k'); auto. congruence.
  Qed.
  Lemma keys_mset k v m x : In x (mkeys (mset k v m)) <-> x = k \/ In x (mkeys m).
  Proof.
    rewrite <- !mget_keys, mget_mset. destruct (seqb_spec x k).
    - subst. split; auto. discriminate.
    - tauto.
  Qed.
  Lemma mset_wf k v m : wf_map m -> wf_map (mset k v m).
  Proof.
    unfold wf_map. induction m as [|[k2 v2] m IH]; cbn; intros W.
    - constructor; constructor.
    - inversion W as [|? ? Hs Hf]; subst.
      destruct (seqb_spec k k2); [subst; constructor; auto|].
      destruct (sltb k k2) eqn:E; cbn.
      + constructor; auto. constructor; auto.
        rewrite Forall_forall in *. intros y Hy. apply (sltb_trans k k2 y); auto.
      + constructor; [apply IH; auto|]. rewrite Forall_forall in *. intros y Hy.
        apply keys_mset in Hy. destruct Hy as [->|Hy]; [|apply Hf; auto].
        destruct (sltb k2 k) eqn:E2; auto. exfalso. apply n. apply sltb_total; auto.
  Qed.
  Lemma mdel_wf k m : wf_map m -> wf_map (mdel k m).
  Proof.
    unfold wf_map. induction m as [|[k2 v2] m IH]; cbn; intros W; auto.
    inversion W as [|? ? Hs Hf]; subst.
    destruct (seqb k k2); auto. cbn. constructor; [apply IH; auto|].
    rewrite Forall_forall in *. intros y Hy. apply Hf.
    clear -Hy. induction m as [|[k3 v3] m IH]; cbn in *; auto.
    destruct (seqb k k3); cbn in *; auto. destruct Hy; auto.
  Qed.
  Lemma mget_mdel k k' m : wf_map m -> mget k (mdel k' m) = if seqb k k' then None else mget k m.
  Proof.
    unfold wf_map. intros W; apply ssorted_NoDup in W.
    induction m as [|[k2 v2] m IH]; cbn.
    - destruct (seqb k k'); auto.
    - cbn in W. inversion W as [|? ? Hn Hd]; subst.
      destruct (seqb_spec k' k2).
      + subst. destruct (seqb_spec k k2); auto. subst.
        destruct (mget k2 m) eqn:E; auto. exfalso. apply Hn. apply mget_keys. congruence.
      + cbn. rewrite IH by auto. destruct (seqb_spec k k2); auto. subst.
        destruct (seqb_spec k2 k'); auto. congruence.
  Qed.
  Lemma wf_keys m : wf_map m -> sort_strings (mkeys m) = mkeys m.
  Proof. apply sort_sorted. Qed.
  Lemma wf_map_ext m m' : wf_map m -> wf_map m' -> (forall k, mget k m = mget k m') -> m = m'.
  Proof.
    unfold wf_map. revert m'; induction m as [|[k v] m IH]; intros m' W W' H.
    - destruct m' as [|[k' v'] m']; auto. specialize (H k'). cbn in H.
      rewrite seqb_refl in H. discriminate.
    - destruct m' as [|[k' v'] m'].
      { specialize (H k). cbn in H. rewrite seqb_refl in H. discriminate. }
      assert (mkeys ((k, v) :: m) = mkeys ((k', v') :: m')) as HK.
      { apply ssorted_unique; auto. intros x. rewrite <- !mget_keys, H. tauto. }
      cbn in HK. injection HK as -> HK.
      cbn in W, W'. inversion W as [|? ? Hs Hf]; inversion W' as [|? ? Hs' Hf']; subst.
      assert (v = v') as ->.
      { specialize (H k'). cbn in H. rewrite seqb_refl in H. congruence. }
      f_equal. apply IH; auto. intros x. specialize (H x). cbn in H.
      destruct (seqb_spec x k'); auto. subst.
      transitivity (@None V).
      + destruct (mget k' m) eqn:E; auto. exfalso.
        assert (In k' (mkeys m)) by (apply mget_keys; congruence).
        rewrite Forall_forall in Hf. specialize (Hf k' H0). rewrite sltb_irrefl in Hf; discriminate.
      + destruct (mget k' m') eqn:E; auto. exfalso.
        assert (In k' (mkeys m')) by (apply mget_keys; congruence).
        rewrite Forall_forall in Hf'. specialize (Hf' k' H0). rewrite sltb_irrefl in Hf'; discriminate.
  Qed.
End Maps.

(** ** Bits *)
Definition is_bitc (c : ascii) : Prop := c = c0 \/ c = c1.
Definition is_bits (s : gostring) : Prop := Forall is_bitc s.

Lemma bits_of_byte_length b : length (bits_of_byte b) = 8.
Proof. reflexivity. Qed.
Lemma bits_of_bytes_length l : length (bits_of_bytes l) = 8 * length l.
Proof.
  induction l as [|b l IH]; cbn [bits_of_bytes flat_map length]; auto.
  rewrite app_length, bits_of_byte_length. unfold bits_of_bytes in IH. rewrite IH. lia.
Qed.
Lemma bits_of_bytes_app a b : bits_of_bytes (a ++ b) = bits_of_bytes a ++ bits_of_bytes b.
Proof. apply flat_map_app. Qed.
Lemma bits_of_bytes_cons b l : bits_of_bytes (b :: l) = bits_of_byte b ++ bits_of_bytes l.
Proof. reflexivity. Qed.
Lemma bits_of_bytes_skipn k l : bits_of_bytes (skipn k l) = skipn (8 * k) (bits_of_bytes l).
Proof.
  revert l; induction k as [|k IH]; intros l; [reflexivity|].
  destruct l as [|b l].
  - rewrite !skipn_nil. reflexivity.
  - rewrite bits_of_bytes_cons. replace (8 * S k) with (8 + 8 * k) by lia.
    rewrite skipn_app, bits_of_byte_length.
    replace (8 + 8 * k - 8) with (8 * k) by lia.
    rewrite (skipn_all2 (n:=8 + 8 * k) (bits_of_byte b)) by (rewrite bits_of_byte_length; lia).
    cbn [skipn app]. apply IH.
Qed.
Lemma bits_of_bytes_firstn k l : bits_of_bytes (firstn k l) = firstn (8 * k) (bits_of_bytes l).
Proof.
  revert l; induction k as [|k IH]; intros l; [reflexivity|].
  destruct l as [|b l].
  - rewrite !firstn_nil. reflexivity.
  - cbn [firstn]. rewrite !bits_of_bytes_cons, IH. replace (8 * S k) with (8 + 8 * k) by lia.
    rewrite firstn_app, bits_of_byte_length.
    replace (8 + 8 * k - 8) with (8 * k) by lia.
    rewrite (firstn_all2 (n:=8 + 8 * k) (bits_of_byte b)) by (rewrite bits_of_byte_length; lia).
    reflexivity.
Qed.

Lemma byte_cases (P : N -> Prop) :
  (forall n, In n (map N.of_nat (seq 0 256)) -> P n) -> forall b, (b < 256)%N -> P b.
Proof.
  intros H b Hb. apply H. apply in_map_iff. exists (N.to_nat b). split; [lia|].
  apply in_seq. lia.
Qed.
Lemma byte_forallb (f : N -> bool) :
  forallb f (map N.of_nat (seq 0 256)) = true -> forall b, (b < 256)%N -> f b = true.
Proof.
  intros H. apply byte_cases. apply forallb_forall. auto.
Qed.

Lemma N_of_bits_app a b : N_of_bits (a ++ b) = (N_of_bits a * 2 ^ N.of_nat (length b) + N_of_bits b)%N.
Proof.
  unfold N_of_bits. rewrite fold_left_app.
  generalize (fold_left (fun acc b0 => (2 * acc + N.b2n b0)%N) a 0%N) as x.
  induction b as [|c b IH] using rev_ind; intros x.
  - cbn. lia.
  - rewrite !fold_left_app. cbn [fold_left]. rewrite (IH x), app_length. cbn [length].
    rewrite Nat.add_1_r, Nat2N.inj_succ, N.pow_succ_r'. ring.
Qed.
Lemma N_of_bits_bound l : (N_of_bits l < 2 ^ N.of_nat (length l))%N.
Proof.
  induction l as [|c l IH] using rev_ind; [cbn; lia|].
  rewrite N_of_bits_app, app_length. cbn [length]. change (2 ^ N.of_nat 1)%N with 2%N.
  rewrite Nat.add_1_r, Nat2N.inj_succ, N.pow_succ_r'.
  assert (N_of_bits [c] <= 1)%N by (destruct c; cbn; lia). lia.
Qed.
Lemma N_of_bits_inj a b : length a = length b -> N_of_bits a = N_of_bits b -> a = b.
Proof.
  revert b; induction a as [|x a IH] using rev_ind; intros b HL HE.
  - destruct b; [auto|discriminate].
  - destruct b as [|y b _] using rev_ind; [rewrite app_length in HL; cbn in HL; lia|].
    rewrite !app_length in HL; cbn in HL. rewrite !N_of_bits_app in HE. cbn [length] in HE.
    change (2 ^ N.of_nat 1)%N with 2%N in HE.
    assert (N_of_bits [x] = N_of_bits [y] /\ N_of_bits a = N_of_bits b) as [H1 H2].
    { destruct x, y;
        change (N_of_bits [true]) with 1%N in *; change (N_of_bits [false]) with 0%N in *; lia. }
    rewrite (IH b) by (auto; lia). destruct x, y; cbn in H1; congruence.
Qed.
Lemma N_of_bits_byte b : (b < 256)%N -> N_of_bits (bits_of_byte b) = b.
Proof.
  intros H. apply N.eqb_eq. revert b H. apply byte_forallb. vm_compute. reflexivity.
Qed.
Lemma bits_of_byte_inj a b : (a < 256)%N -> (b < 256)%N -> bits_of_byte a = bits_of_byte b -> a = b.
Proof.
  intros Ha Hb H. rewrite <- (N_of_bits_byte a), <- (N_of_bits_byte b) by auto. congruence.
Qed.
Lemma N_of_bytes_bits l : wf_bytes l -> N_of_bytes l = N_of_bits (bits_of_bytes l).
Proof.
  unfold wf_bytes. induction l as [|b l IH] using rev_ind; intros W; auto.
  apply Forall_app in W. destruct W as [W Hb]. inversion Hb; subst.
  rewrite bits_of_bytes_app, N_of_bits_app. unfold N_of_bytes in *. rewrite fold_left_app.
  cbn [fold_left]. rewrite IH by auto. cbn [bits_of_bytes flat_map]. rewrite app_nil_r.
  rewrite N_of_bits_byte, bits_of_byte_length by auto. change (2 ^ N.of_nat 8)%N with 256%N. lia.
Qed.

(** bytes_of_bits inverts bits_of_bytes *)
Lemma bytes_of_bits_spec l bs :
  bytes_of_bits l = Some bs -> bits_of_bytes bs = l /\ wf_bytes bs.
Proof.
  revert l; induction bs as [|b bs IH]; intros l H.
  - destruct l as [|b7 [|b6 [|b5 [|b4 [|b3 [|b2 [|b1 [|b0 l]]]]]]]]; cbn in H; try discriminate.
    + split; [auto|constructor].
    + destruct (bytes_of_bits l); discriminate.
  - destruct l as [|b7 [|b6 [|b5 [|b4 [|b3 [|b2 [|b1 [|b0 l]]]]]]]]; try discriminate.
    cbn [bytes_of_bits] in H. destruct (bytes_of_bits l) as [bs'|] eqn:E; [|discriminate].
    injection H as <- <-. destruct (IH l E) as [H1 H2]. split.
    + rewrite bits_of_bytes_cons, H1.
      destruct b7, b6, b5, b4, b3, b2, b1, b0; reflexivity.
    + constructor; auto.
      destruct b7, b6, b5, b4, b3, b2, b1, b0; reflexivity.
Qed.
Lemma bytes_of_bits_total l k : length l = 8 * k -> exists bs, bytes_of_bits l = Some bs /\ length bs = k.
Proof.
  revert l; induction k as [|k IH]; intros l HL.
  - destruct l; [|discriminate]. exists []; auto.
  - destruct l as [|b7 [|b6 [|b5 [|b4 [|b3 [|b2 [|b1 [|b0 l]]]]]]]]; cbn in HL; try lia.
    destruct (IH l) as [bs [H1 H2]]; [lia|]. cbn [bytes_of_bits]. rewrite H1.
    eexists; split; [reflexivity|]. cbn; auto.
Qed.
Lemma bytes_of_bits_of_bytes bs : wf_bytes bs -> bytes_of_bits (bits_of_bytes bs) = Some bs.
Proof.
  induction 1 as [|b bs Hb _ IH]; auto.
  rewrite bits_of_bytes_cons. cbn [bits_of_byte map app bytes_of_bits]. rewrite IH.
  f_equal. f_equal. apply (N_of_bits_byte b Hb).
Qed.

(** Bit strings and characters *)
Lemma chars_to_bits_to_str l : chars_to_bits (bits_to_str l) = Some l.
Proof. induction l as [|[] l IH]; cbn; auto; unfold bits_to_str in IH; rewrite IH; auto. Qed.
Lemma is_bits_to_str l : is_bits (bits_to_str l).
Proof.
  apply Forall_forall. intros c Hc. apply in_map_iff in Hc. destruct Hc as [b [<- _]].
  destruct b; [right|left]; reflexivity.
Qed.
Lemma bits_to_str_app a b : bits_to_str (a ++ b) = bits_to_str a ++ bits_to_str b.
Proof. apply map_app. Qed.
Lemma bits_to_str_length l : length (bits_to_str l) = length l.
Proof. apply map_length. Qed.
Lemma bits_to_str_inj a b : bits_to_str a = bits_to_str b -> a = b.
Proof.
  intros H. assert (chars_to_bits (bits_to_str a) = chars_to_bits (bits_to_str b)) by congruence.
  rewrite !chars_to_bits_to_str in H0. congruence.
Qed.
Lemma is_bits_str s : is_bits s -> exists l, s = bits_to_str l.
Proof.
  induction 1 as [|c s Hc _ [l ->]]; [exists []; auto|].
  destruct Hc as [-> | ->]; [exists (false :: l)|exists (true :: l)]; auto.
Qed.
Lemma is_bits_app a b : is_bits (a ++ b) <-> is_bits a /\ is_bits b.
Proof. apply Forall_app. Qed.

(** Closes [Forall P l] for a concrete list. *)
Ltac forall_concrete :=
  unfold wf_bytes; cbn [str list_ascii_of_string];
  repeat (apply Forall_cons; [first [reflexivity | solve [auto 6] | solve [cbv; intuition discriminate]]|]);
  apply Forall_nil.