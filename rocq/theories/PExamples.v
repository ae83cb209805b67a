(** Boolean checks that discharge the hypotheses of theorems on concrete data. *)
From Verif Require Import GoBase Spec MEngine PBase PFilter PEngine PSubs PMatch.
From Coq Require Import Lia.

Lemma long_decides id keys :
  forallb (fun k => Nat.leb (bytes_needed k 0) (length id)) keys = true -> decides id keys.
Proof.
  intros H k Hk [Hl _]. rewrite forallb_forall in H. apply H in Hk. apply Nat.leb_le in Hk. lia.
Qed.
Definition is_bitb (c : ascii) : bool := Ascii.eqb c c0 || Ascii.eqb c c1.
Lemma is_bitstring_b s : forallb is_bitb s = true -> is_bitstring s.
Proof.
  intros H. apply Forall_forall. intros c Hc. rewrite forallb_forall in H. apply H in Hc.
  unfold is_bitb in Hc. apply orb_true_iff in Hc. destruct Hc as [Hc|Hc]; apply Ascii.eqb_eq in Hc; auto.
Qed.
Lemma bitstrings_b l : forallb (forallb is_bitb) l = true -> Forall is_bitstring l.
Proof.
  intros H. apply Forall_forall. intros s Hs. rewrite forallb_forall in H. apply is_bitstring_b; auto.
Qed.
Lemma nonempty_b {A} (l : list (list A)) :
  forallb (fun s => match s with [] => false | _ => true end) l = true -> forall s, In s l -> s <> [].
Proof. intros H s Hs ->. rewrite forallb_forall in H. apply H in Hs. discriminate. Qed.
Lemma nonempty_snd_b (l : prefix_subs) :
  forallb (fun p => match snd p with [] => false | _ => true end) l = true -> forall k u, In (k, u) l -> u <> [].
Proof. intros H k u Hs ->. rewrite forallb_forall in H. apply H in Hs. discriminate. Qed.
Lemma no_lcp_b l : forallb (fun k => negb (seqb k (lcp l))) l = true ->
  forall k, In k l -> ~ longest_common_prefix k l.
Proof.
  intros H k Hk HL. rewrite forallb_forall in H. pose proof (H k Hk) as Hb. apply negb_true_iff, seqb_neq in Hb.
  apply Hb. apply lcp_unique; auto. intros ->. destruct Hk.
Qed.
Definition ext_b (k' k : gostring) : bool := has_prefix k' k && negb (seqb k' k).
Lemma ext_b_spec k' k : ext_b k' k = true <-> strictly_extends k' k.
Proof.
  unfold ext_b, strictly_extends. rewrite andb_true_iff, negb_true_iff, seqb_neq, has_prefix_spec. reflexivity.
Qed.
Fixpoint top_down_b (used : list gostring) (m : prefix_subs) (cs : list change) : bool :=
  match cs with
  | [] => true
  | Subscribe k u :: cs' =>
      forallb is_bitb k && negb (seqb k []) && negb (seqb u [])
      && forallb (fun k' => negb (ext_b k' k)) used
      && top_down_b (k :: used) (apply_change m (Subscribe k u)) cs'
  | Unsubscribe k :: cs' =>
      forallb is_bitb k
      && (existsb (seqb k) (map fst m) || forallb (fun k' => negb (ext_b k' k)) used)
      && top_down_b used (apply_change m (Unsubscribe k)) cs'
  end.
Lemma no_ext_b used k : forallb (fun k' => negb (ext_b k' k)) used = true ->
  forall k', In k' used -> ~ strictly_extends k' k.
Proof.
  intros H k' Hk' HE. rewrite forallb_forall in H. apply H in Hk'. apply ext_b_spec in HE. rewrite HE in Hk'. discriminate.
Qed.
Lemma top_down_b_spec used m cs : top_down_b used m cs = true -> top_down used m cs.
Proof.
  revert used m; induction cs as [|[k u|k] cs IH]; intros used m H; cbn [top_down_b] in H.
  - constructor.
  - rewrite !andb_true_iff, !negb_true_iff, !seqb_neq in H. destruct H as [[[[H1 H2] H3] H4] H5].
    apply top_down_sub; auto; [apply is_bitstring_b; auto|apply no_ext_b; auto].
  - rewrite !andb_true_iff, orb_true_iff in H. destruct H as [[H1 H2] H3].
    apply top_down_unsub; auto; [apply is_bitstring_b; auto|]. destruct H2 as [H2|H2]; [left|right; apply no_ext_b; auto].
    apply existsb_exists in H2. destruct H2 as (k' & Hk' & E). apply seqb_eq in E. subst; auto.
Qed.

(** Calm histories. *)
Definition comparable_b (a b : gostring) : bool := has_prefix b a || has_prefix a b.
Definition one_chain_above_b (keys : list gostring) (k : gostring) : bool :=
  forallb (fun a => forallb (fun b => negb (ext_b a k && ext_b b k) || comparable_b a b) keys) keys.
Lemma one_chain_above_b_spec keys k : one_chain_above_b keys k = true -> one_chain_above keys k.
Proof.
  unfold one_chain_above_b. intros H a b Ha Hb EA EB. rewrite forallb_forall in H. apply H in Ha. rewrite forallb_forall in Ha.
  apply Ha in Hb. apply ext_b_spec in EA. apply ext_b_spec in EB. rewrite EA, EB in Hb. cbn [andb negb orb] in Hb.
  unfold comparable_b in Hb. apply orb_true_iff in Hb. destruct Hb as [Hb|Hb]; apply has_prefix_spec in Hb; [left|right]; exact Hb.
Qed.
Definition one_branch_above_b (keys : list gostring) (k : gostring) : bool :=
  forallb (fun a => forallb (fun b => negb (ext_b a k && ext_b b k)
    || existsb (fun g => ext_b g k && has_prefix a g && has_prefix b g) keys) keys) keys.
Lemma one_branch_above_b_spec keys k : one_branch_above_b keys k = true -> one_branch_above keys k.
Proof.
  unfold one_branch_above_b. intros H a b Ha Hb EA EB. rewrite forallb_forall in H. apply H in Ha. rewrite forallb_forall in Ha.
  apply Ha in Hb. apply ext_b_spec in EA. apply ext_b_spec in EB. rewrite EA, EB in Hb. cbn [andb negb orb] in Hb.
  apply existsb_exists in Hb. destruct Hb as (g & Hg & Hb). rewrite !andb_true_iff, ext_b_spec, !has_prefix_spec in Hb.
  exists g. tauto.
Qed.
Lemma all_one_chain_b keys : forallb (one_chain_above_b keys) keys = true ->
  forall k, In k keys -> one_chain_above keys k.
Proof. intros H k Hk. rewrite forallb_forall in H. apply one_chain_above_b_spec; auto. Qed.
Fixpoint calm_b (m : prefix_subs) (es : list event) : bool :=
  match es with
  | [] => true
  | Read id :: es' =>
      forallb (fun b => N.ltb b 256) id
      && forallb (fun k => Nat.leb (bytes_needed k 0) (length id)) (map fst m)
      && forallb (one_chain_above_b (map fst m)) (map fst m) && calm_b m es'
  | Change (Subscribe k u) :: es' =>
      forallb is_bitb k
      && (existsb (seqb k) (map fst m) || forallb (fun k' => negb (ext_b k' k)) (map fst m))
      && calm_b (apply_change m (Subscribe k u)) es'
  | Change (Unsubscribe k) :: es' =>
      forallb is_bitb k
      && (negb (existsb (seqb k) (map fst m))
          || one_branch_above_b (map fst m) k && existsb (fun k' => negb (seqb k' k)) (map fst m))
      && calm_b (apply_change m (Unsubscribe k)) es'
  end.
Lemma wf_bytes_b id : forallb (fun b => N.ltb b 256) id = true -> wf_bytes id.
Proof. intros H. apply Forall_forall. intros b Hb. rewrite forallb_forall in H. apply N.ltb_lt. auto. Qed.
Lemma calm_b_spec m es : calm_b m es = true -> calm m es.
Proof.
  revert m; induction es as [|[id|[k u|k]] es IH]; intros m H; cbn [calm_b] in H.
  - constructor.
  - rewrite !andb_true_iff in H. destruct H as [[[H1 H2] H3] H4].
    apply calm_read; auto using wf_bytes_b, long_decides, all_one_chain_b.
  - rewrite !andb_true_iff in H. destruct H as [[H1 H2] H3].
    apply calm_sub; auto; [apply is_bitstring_b; auto|].
    apply orb_true_iff in H2. destruct H2 as [H2|H2]; [left|right; apply no_ext_b; auto].
    apply existsb_exists in H2. destruct H2 as (x & Hx & H2). apply seqb_eq in H2. subst. auto.
  - rewrite !andb_true_iff in H. destruct H as [[H1 H2] H4].
    apply calm_unsub; auto; [apply is_bitstring_b; auto|]. intros Hin.
    assert (existsb (seqb k) (map fst m) = true) as He by (apply existsb_exists; exists k; split; auto; apply seqb_refl).
    rewrite He in H2. cbn [negb orb] in H2. apply andb_true_iff in H2. destruct H2 as [H2 H3].
    split; [apply one_branch_above_b_spec; auto|].
    apply existsb_exists in H3. destruct H3 as (k' & Hk & Hn). apply negb_true_iff, seqb_neq in Hn. eauto.
Qed.
