(** Exactly when the binary engines agree. *)
From Verif Require Import GoBase BinUtil MFilter MEngine MTdtCore MSubs MList MPatricia MSplay.
From Verif Require Import PBase Spec PFilter PEngine PSubs PList PMatch PPatricia PPatriciaHist PExamples PLink PSplay PSplayHist PSplayExact.
From Coq Require Import Lia.

Lemma reported_bits id m us : Forall is_bitstring (map fst m) -> reported id m us -> us = map snd (filter (hit id) m).
Proof. intros HB R. eapply reported_fun; eauto. apply reported_hits; auto. Qed.

Lemma filter_le {A} (f g : A -> bool) l : (forall x, f x = true -> g x = true) -> length (filter f l) <= length (filter g l).
Proof.
  intros H. induction l as [|a l IH]; cbn; auto. destruct (f a) eqn:Ef; [rewrite (H _ Ef); cbn; lia|].
  destruct (g a); cbn; lia.
Qed.
Lemma filter_lt {A} (f g : A -> bool) l x : (forall x, f x = true -> g x = true) -> In x l -> f x = false -> g x = true ->
  length (filter f l) < length (filter g l).
Proof.
  intros H. induction l as [|a l IH]; [intros []|]. intros [->|Hx] F G; cbn.
  - rewrite F, G. cbn. pose proof (filter_le f g l H). lia.
  - specialize (IH Hx F G). destruct (f a) eqn:Ef; [rewrite (H _ Ef); cbn; lia|]. destruct (g a); cbn; lia.
Qed.
Lemma filter_filter {A} (f g : A -> bool) l : filter f (filter g l) = filter (fun x => g x && f x) l.
Proof. induction l as [|a l IH]; cbn; auto. destruct (g a); cbn; rewrite IH; auto. Qed.

(** A subscribed common prefix is lost for some tag. *)
Lemma patricia_loses E sub k : let b := to_byte_subs E sub in
  Forall is_bitstring (mkeys b) -> (forall k u, In (k, u) (entries b) -> u <> []) ->
  In k (mkeys b) -> longest_common_prefix k (mkeys b) ->
  exists id, wf_bytes id /\ id <> [] /\ decides id (mkeys b) /\ forall pc,
  exists t uris uris', new_patricia E sub = Some t /\ reported id (entries b) uris /\
    answers (translate pc id) uris' (patricia_search t pc id) /\ length uris' < length uris.
Proof.
  intros b HB HU Hk HL. destruct (long_enough (mkeys b)) as (n & Hn).
  destruct (long_id k n) as (id & Hw & Hl & HP). { revert HB. rewrite Forall_forall. auto. }
  assert (id <> []) as Hne by (intros ->; cbn in Hl; lia).
  exists id. split; auto. split; auto. split; [apply Hn; auto|]. intros pc.
  destruct (patricia_fresh_search E sub pc id HB HU Hw Hne (Hn id Hl)) as (t & subs & uris' & H1 & H2 & H3 & H4 & H5).
  fold b in H3. assert (Forall is_bitstring (map fst (entries b))) as HB2 by (rewrite entries_keys; auto).
  exists t, (map snd (filter (hit id) (entries b))), uris'. split; auto. split; [apply reported_hits; auto|]. split; auto.
  assert (subs = filter (fun e => negb (seqb (fst e) k)) (entries b)) as ->.
  { apply sorted_pairs_ext.
    - apply ascending_ssorted; auto.
    - assert (ssorted (map fst (entries b))) as S by (rewrite entries_keys; apply to_byte_subs_flat).
      apply ssorted_filter_fst; auto.
    - intros [k' u]. rewrite H3, filter_In. cbn [fst]. split.
      + intros [I N]. split; auto. apply negb_true_iff. destruct (seqb k' k) eqn:ES; auto. apply seqb_eq in ES. subst k'. contradiction.
      + intros [I N]. split; auto. intros L. apply negb_true_iff in N.
        assert (k' = k) as ->; [|rewrite seqb_refl in N; discriminate].
        assert (mkeys b <> []) as NN by (intros X; rewrite X in Hk; destruct Hk).
        rewrite (lcp_unique _ _ NN HL), (lcp_unique _ _ NN L). reflexivity. }
  apply reported_bits in H4.
  2:{ revert HB2. rewrite !Forall_forall. intros HB2 x Hx. apply HB2. apply in_map_iff in Hx. destruct Hx as (e & <- & He).
      apply filter_In in He. apply in_map. tauto. }
  rewrite H4, !map_length, filter_filter.
  assert (exists u, In (k, u) (entries b)) as [u Hu].
  { rewrite <- entries_keys in Hk. apply in_map_iff in Hk. destruct Hk as ([? u] & <- & H). exists u. auto. }
  apply (filter_lt _ _ _ (k, u)); auto.
  - intros x. rewrite andb_true_iff. tauto.
  - cbn. rewrite seqb_refl. reflexivity.
  - unfold hit. cbn [fst]. apply has_prefix_spec. auto.
Qed.

Lemma splay_loses E sub : let b := to_byte_subs E sub in
  b <> [] -> Forall is_bitstring (mkeys b) ->
  (forall k, In k (mkeys b) -> one_chain_above (mkeys b) k) \/
  exists id t1, wf_bytes id /\ id <> [] /\ decides id (mkeys b) /\ splay_run E sub [SSearch id] = Ok t1 /\
    forall pc, exists uris uris', reported id (entries b) uris /\
      answers (translate pc id) uris' (drop_tree (splay_search t1 pc id)) /\ length uris' < length uris.
Proof.
  intros b Hn HB. destruct (calm_tree E sub [] Hn HB (calm_nil _)) as (t & Et & It). fold b in It.
  change (after (entries b) (events_of E [])) with (entries b) in It.
  destruct (snarrow_dec t) as [HS|HS].
  - left. intros k Hk. rewrite <- entries_keys in Hk |- *.
    intros x y Hx Hy. apply (sinv_keys _ t _ It) in Hk, Hx, Hy. exact (snarrow_chain t 0 (si_wf _ _ It) HS k Hk x y Hx Hy).
  - right. destruct (fork_forgets _ t It HS) as (id & Hw & Hne & HD & HF). rewrite entries_keys in HD.
    destruct (HF []) as (t1 & us & us0 & ES & _). exists id, t1. split; [auto|]. split; [auto|]. split; [auto|]. split.
    + unfold splay_run in *. cbn [map fold_left] in *. rewrite Et. cbn [splay_call bind]. rewrite ES. reflexivity.
    + intros pc. destruct (HF pc) as (t2 & uris & uris' & ES2 & R & A1 & A2 & L). exists uris, uris'. split; auto. split; auto. congruence.
Qed.
