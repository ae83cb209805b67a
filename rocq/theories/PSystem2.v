(** The limits of the engines in terms of EPC patterns. *)
From Verif Require Import GoBase BinUtil MFilter MEngine MTdtEpc MTdtCore MSubs MList MSystem.
From Verif Require Import PBase Spec SpecEpc PSubs PSubs2 PMatch PNum PTdt2 PropsTdt PEpc PEpc2 PEpc3 PEpc4 SpecSystem.
From Coq Require Import Lia.

(** Some identifier has any given 96 leading bits. *)
Lemma some_id (l : list bool) : length l <= 96 -> exists id, length id = 12 /\ bprefix l (bits_of_bytes id).
Proof.
  intros H. destruct (bytes_of_bits_total (l ++ repeat false (96 - length l)) 12) as (id & B & L).
  { rewrite app_length, repeat_length. lia. }
  exists id. split; auto. apply bytes_of_bits_spec in B. destruct B as [-> _]. eexists; reflexivity.
Qed.
Lemma pat_bits_len p : pattern_ok p -> length (pat_bits p) =
  match p_count p with
  | 0 => 0 | 1 => 11 | 2 => 14 + cp_bits (fields_partition (p_fields p))
  | 3 => 14 + cp_bits (fields_partition (p_fields p)) + ref_bits (p_scheme p) (fields_partition (p_fields p))
  | _ => 52 + cp_bits (fields_partition (p_fields p)) + ref_bits (p_scheme p) (fields_partition (p_fields p)) end.
Proof.
  destruct p as [k n f]. unfold pat_bits, head_bits, f_bits, p_bits_of, cp_bits_of, ref_bits_of. cbn [p_scheme p_count p_fields].
  intros _. destruct n as [|[|[|[|n]]]]; rewrite ?app_length, ?bits_w_length; cbn [length]; lia.
Qed.
Lemma both_name p q id : pattern_ok p -> pattern_ok q -> names p id -> names q id -> p_count p <= p_count q -> covers p q.
Proof.
  intros P Q (A1 & A2 & A3 & A4 & A5) (B1 & B2 & B3 & B4 & B5) L. split; auto. unfold leads.
  assert (p_scheme p = p_scheme q) as S by (apply header_inj; congruence). rewrite S in A4.
  split; auto. split; [congruence|]. split; [|split]; intros H.
  - destruct (A3 H), B3; [lia|]. split; congruence.
  - specialize (A4 H). specialize (B4 ltac:(lia)). congruence.
  - specialize (A5 H). specialize (B5 ltac:(lia)). congruence.
Qed.
Lemma covers_names p q id : covers p q -> names q id -> names p id.
Proof.
  intros (L & C1 & C2 & C3 & C4 & C5) (B1 & B2 & B3 & B4 & B5). unfold names. rewrite C1.
  split; auto. split; [congruence|]. split; [|split]; intros H.
  - destruct (C3 H), B3; [lia|]. split; congruence.
  - rewrite B4 by lia. auto.
  - rewrite B5 by lia. auto.
Qed.
Lemma bprefix_trans a b c : bprefix a b -> bprefix b c -> bprefix a c.
Proof. intros (x & ->) (y & ->). exists (x ++ y). apply eq_sym, app_assoc. Qed.
Lemma bprefix_length a b : bprefix a b -> length a <= length b.
Proof. intros (x & ->). rewrite app_length. lia. Qed.
Lemma bprefix_both a b c : bprefix a c -> bprefix b c -> length a <= length b -> bprefix a b.
Proof.
  revert b c. induction a as [|x a IH]; intros [|y b] c A B L; cbn in L; try lia; try (apply bprefix_nil).
  destruct A as (r & ->), B as (r' & E). injection E as <- E. destruct (IH b (a ++ r)) as (z & ->); [eexists; eauto|eexists; eauto|lia|]. exists z. auto.
Qed.
Lemma count_length p q : pattern_ok p -> pattern_ok q -> covers p q -> length (pat_bits p) <= length (pat_bits q) /\
  (p_count p < p_count q -> length (pat_bits p) < length (pat_bits q)).
Proof.
  intros P Q (L & C1 & _ & C3 & _). pose proof (pat_bits_len p P) as LP. pose proof (pat_bits_len q Q) as LQ. rewrite LP, LQ. clear LP LQ.
  destruct P as (NP & _ & CP & _), Q as (NQ & _ & CQ & _). rewrite <- C1 in *. unfold field_count in *.
  destruct (p_count p) as [|[|n]] eqn:EP; [lia|destruct (p_count q) as [|[|[|[|m]]]]; lia|].
  destruct (C3 ltac:(lia)) as [<- _]. destruct (CQ ltac:(lia)) as [_ CL]. unfold cp_length_ok in CL.
  pose proof (ref_bits_range (p_scheme p) _ CL) as RB. fold (fields_partition (p_fields q)) in RB.
  destruct n as [|[|n]]; destruct (p_count q) as [|[|[|[|m]]]]; destruct (has_serial (p_scheme p)); lia.
Qed.
Lemma covers_bits p q : pattern_ok p -> pattern_ok q -> bprefix (pat_bits p) (pat_bits q) <-> covers p q.
Proof.
  intros P Q. destruct (some_id (pat_bits q)) as (id & L & B); [pose proof (pat_bits_length q Q); lia|].
  pose proof B as NQ. apply pat_bits_names in NQ; auto. split; intros H.
  - pose proof (bprefix_trans _ _ _ H B) as NP. apply pat_bits_names in NP; auto.
    destruct (Nat.le_gt_cases (p_count p) (p_count q)) as [LE|GT]; [eapply both_name; eauto|].
    pose proof (both_name q p id Q P NQ NP ltac:(lia)) as C. pose proof (proj2 (count_length q p Q P C) GT).
    apply bprefix_length in H. lia.
  - pose proof (covers_names _ _ _ H NQ) as NP. apply pat_bits_names in NP; auto. eapply bprefix_both; eauto. apply count_length; auto.
Qed.

Lemma epc_keys E s key : (forall u p, subscribed s u p -> pattern_ok p) -> In key (mkeys (to_byte_subs E (sub_texts s))) ->
  exists u p, subscribed s u p /\ key = bits_to_str (pat_bits p).
Proof.
  intros OK I. rewrite <- entries_keys in I. apply in_map_iff in I. destruct I as ((key' & u) & <- & I). exists u.
  apply (wants_texts E); auto. apply to_byte_sound; auto.
Qed.
Lemma key_stored E s u p : (forall u p, subscribed s u p -> pattern_ok p) -> subscribed s u p ->
  In (bits_to_str (pat_bits p)) (mkeys (to_byte_subs E (sub_texts s))).
Proof.
  intros OK S. destruct (to_byte_keeps_prefix E (sub_texts s) (bits_to_str (pat_bits p)) u) as (u' & I).
  - apply wants_texts; eauto.
  - rewrite <- entries_keys. apply in_map_iff. eexists. split; [|exact I]. auto.
Qed.
Lemma epc_fit_fit E s : epc_fit s -> fit E (sub_texts s).
Proof.
  intros [F1 F2 F3 F4 F5 F6 F7]. constructor.
  - unfold sub_texts. rewrite map_map. cbn [fst]. exact F1.
  - apply texts_unshared; auto.
  - destruct F2 as (u & p & S). pose proof (key_stored E s u p F4 S) as I. intros X. rewrite X in I. destruct I.
  - apply Forall_forall. intros key I. destruct (epc_keys E s key F4 I) as (u & p & _ & ->). apply is_bits_to_str.
  - intros k u I. apply to_byte_sound in I. apply wants_texts in I; auto. destruct I as (p & S & _). eauto.
  - intros k I [A _]. destruct (epc_keys E s k F4 I) as (u & p & S & ->). destruct (F6 u p S) as (u' & q & S' & NC).
    apply NC. apply covers_bits; eauto. apply bprefix_str. apply A. eapply key_stored; eauto.
  - intros k I a b Ia Ib [Ea _] [Eb _]. destruct (epc_keys E s k F4 I) as (u & p & S & ->).
    destruct (epc_keys E s a F4 Ia) as (u1 & q1 & S1 & ->). destruct (epc_keys E s b F4 Ib) as (u2 & q2 & S2 & ->).
    apply bprefix_str in Ea, Eb. apply covers_bits in Ea; eauto. apply covers_bits in Eb; eauto.
    unfold comparable. destruct (F7 u p u1 q1 u2 q2 S S1 S2 Ea Eb) as [C|C]; [left|right]; apply covers_bits in C; eauto; apply bprefix_str; auto.
Qed.
Lemma epc_tag_fit E s k f t : (forall u p, subscribed s u p -> pattern_ok p) -> epc_tag k f t -> fit_tag E (sub_texts s) t /\ carries k f (snd t) /\
  translate (fst t) (snd t) = Ok (urn_of k f).
Proof.
  intros OK (HP & U & E' & EN). destruct (round_trip k E' f (fst t) HP U) as (id & EN' & C & T). rewrite EN in EN'. injection EN' as <-.
  split; [|auto]. destruct C as ((W & L & _) & _). split; auto. split; [intros X; rewrite X in L; discriminate|]. split; [|congruence].
  intros key I [RL _]. destruct (epc_keys E s key OK I) as (u & p & S & ->). pose proof (pat_long_enough p (snd t) (OK _ _ S) L). lia.
Qed.
