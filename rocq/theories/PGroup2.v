(** Which keys are left at the top when the grouping is over. *)
From Verif Require Import GoBase MEngine MSubs MGroup.
From Verif Require Import PBase Spec PEngine PSubs PLink SpecGroup SpecSubs PGroup.
From Coq Require Import Lia.

Lemma grp_ext (K1 K2 : gostring -> Prop) : (forall k, K1 k <-> K2 k) -> forall r, grp K1 r -> grp K2 r.
Proof.
  intros HK r [(a & b & H1 & H2 & H3 & H4 & H5) (c & Hc)]. split; [exists a, b; rewrite <- !HK; auto|].
  exists c. intros s Hs. apply Hc, HK. auto.
Qed.
Lemma prefix_dec (a b : gostring) : prefix_of a b \/ ~ prefix_of a b.
Proof. rewrite <- starts_spec. destruct (starts a b); auto. Qed.
Lemma lt_prefix (q w : gostring) : w <> [] -> ~ string_lt (q ++ w) q.
Proof. intros H. induction q as [|c q IH]; cbn; [destruct w; [congruence|auto]|]. intros [L|[_ L]]; [lia|auto]. Qed.

Section Tops.
  Context (K0 : gostring -> Prop).
  (** Only [p] is left of the strings that start with [q]. *)
  Definition single (K : gostring -> Prop) (q p : gostring) : Prop :=
    K p /\ prefix_of q p /\ forall k, K k -> prefix_of q k -> k = p.
  Record tops (K : gostring -> Prop) : Prop := {
    tp_grp : forall r, grp K r -> grp K0 r;
    tp_gone : forall k, K0 k -> K k \/ exists q p, is_bitstring q /\ grp K0 q /\ K p /\ strictly_extends p q /\ prefix_of p k;
    tp_from : forall k, K k -> exists k0, K0 k0 /\ prefix_of k k0;
    tp_done : forall q, is_bitstring q -> grp K0 q -> grp K q \/ exists q0 p, prefix_of q0 q /\ single K q0 p }.
  Lemma tops_start : tops K0.
  Proof. split; auto. intros k H. exists k. split; auto. apply prefix_refl. Qed.

  Lemma tops_step K K' p q : tops K -> is_bitstring q -> grp K q ->
    (forall r, is_bitstring r -> grp K r -> r = q \/ string_lt q r) ->
    (forall k, K k -> prefix_of q k -> prefix_of p k) -> strictly_extends p q ->
    (forall k, K' k <-> k = p \/ (K k /\ ~ prefix_of p k)) -> tops K'.
  Proof.
    intros T Bq G Least All [Pq Npq] HK'.
    pose proof G as [(x & y & Nxy & Kx & Ky & Px & Py) _].
    pose proof (All x Kx Px) as Qx. pose proof (All y Ky Py) as Qy.
    assert (K' p) as Kp by (apply HK'; auto).
    assert (single K' q p) as Sq.
    { split; [auto|]. split; [exact Pq|]. intros k Hk Hq. apply HK' in Hk as [|[Hk Hn]]; auto. exfalso. apply Hn, All; auto. }
    split.
    - intros r Hr. apply (tp_grp K T). eapply (regroup K K' p q); eauto.
    - intros k Hk. destruct (tp_gone K T k Hk) as [H|(q1 & p1 & B1 & G1 & H1 & X1 & P1)].
      + destruct (prefix_dec p k) as [P|P]; [|left; apply HK'; auto].
        right. exists q, p. split; auto. split; [apply (tp_grp K T); auto|]. split; auto. split; [split; auto|auto].
      + right. destruct (prefix_dec p p1) as [P|P].
        * exists q, p. split; auto. split; [apply (tp_grp K T); auto|]. split; auto. split; [split; auto|]. eapply prefix_trans; eauto.
        * exists q1, p1. split; auto. split; auto. split; [apply HK'; auto|]. auto.
    - intros k Hk. apply HK' in Hk as [->|[Hk _]]; [|apply (tp_from K T); auto].
      destruct (tp_from K T x Kx) as (k0 & H0 & P0). exists k0. split; auto. exact (prefix_trans _ _ _ Qx P0).
    - intros r Br Gr. destruct (tp_done K T r Br Gr) as [H|(q0 & p0 & Q0 & (H0 & Pp & One))].
      + destruct (prefix_dec q r) as [P|P]; [right; exists q, p; auto|].
        destruct (prefix_dec r q) as [R|R].
        { exfalso. destruct (Least r Br H) as [->|L]; [apply P, prefix_refl|]. destruct R as [w ->].
          apply (lt_prefix r w); auto. intros ->. apply P. rewrite app_nil_r. apply prefix_refl. }
        assert (forall k, prefix_of r k -> (K' k <-> K k)) as Same.
        { intros k Hk. rewrite HK'. assert (~ prefix_of p k) as Np.
          { intros X. destruct (prefix_comparable q r k (prefix_trans _ _ _ Pq X) Hk); tauto. }
          split; [intros [->|[]]; auto|auto]. exfalso. apply Np, prefix_refl. }
        left. destruct H as [(a & b & Nab & Ka & Kb & Pa & Pb) (c & Hc)].
        split; [exists a, b; repeat split; auto; apply Same; auto|]. exists c. intros s Ks Ps. apply Hc; auto. apply Same; auto.
      + destruct (prefix_dec p p0) as [P|P].
        * destruct (prefix_comparable _ _ _ P Pp) as [C|C].
          -- right. exists q, p. split; auto. eapply prefix_trans; [exact Pq|]. eapply prefix_trans; eauto.
          -- exfalso. apply Nxy. rewrite (One x Kx), (One y Ky); auto; eapply prefix_trans; eauto.
        * right. exists q0, p0. split; auto. split; [apply HK'; auto|]. split; auto. intros k Hk Hq.
          apply HK' in Hk as [->|[Hk _]]; [|auto]. exfalso. apply Nxy. rewrite (One x Kx), (One y Ky); auto; eapply prefix_trans; eauto.
  Qed.

  (** Nothing is nested at the top in the end if and only if every nested pair was
      behind a group in the beginning. *)
  Lemma tops_end K : tops K -> (forall q, is_bitstring q -> ~ grp K q) ->
    (forall k k', K k -> K k' -> strictly_extends k' k -> K0 k) ->
    ((forall k k', K k -> K k' -> ~ strictly_extends k' k) <->
     (forall k k', K0 k -> K0 k' -> strictly_extends k' k -> exists q, is_bitstring q /\ grp K0 q /\ strictly_extends k q)).
  Proof.
    intros T None0 Old. split.
    - intros A k k' H H' X. destruct (tp_gone K T k H) as [Hk|(q & p & B & G & Kp & Xp & P)].
      + destruct (tp_gone K T k' H') as [Hk'|(q & p & B & G & Kp & Xp & P)]; [destruct (A k k'); auto|].
        exists q. split; auto. split; auto. destruct X as [X1 X2].
        assert (prefix_of q k') as Pq by (eapply prefix_trans; [apply Xp|auto]).
        destruct (prefix_comparable k q k' X1 Pq) as [C|C].
        * exfalso. apply (A k p Hk Kp). destruct Xp as [Y1 Y2]. split; [eapply prefix_trans; eauto|].
          intros ->. apply Y2. apply prefix_antisym; auto.
        * split; [auto|]. intros ->. apply (A q p Hk Kp). exact Xp.
      + exists q. split; auto. split; auto. destruct Xp as [Y1 Y2]. split; [eapply prefix_trans; eauto|].
        intros ->. apply Y2. apply prefix_antisym; auto.
    - intros A k k' H H' X. pose proof (Old k k' H H' X) as H0. destruct (tp_from K T k' H') as (k0 & K0k & P0).
      destruct (A k k0 H0 K0k) as (q & B & G & Xq).
      { destruct X as [X1 X2]. split; [eapply prefix_trans; eauto|]. intros ->. apply X2. apply prefix_antisym; auto. }
      destruct (tp_done K T q B G) as [C|(q0 & p & Q0 & (_ & _ & One))]; [exact (None0 q B C)|].
      destruct X as [X1 X2]. assert (prefix_of q0 k) as P by (eapply prefix_trans; [exact Q0|apply Xq]).
      apply X2. rewrite (One k H P). apply One; auto. eapply prefix_trans; eauto.
  Qed.
End Tops.

Notation keyed b := (fun k => mget k b <> None).
Lemma tops_round K0 off E b q b' : wf_map E -> ginv off E b -> first_group (mkeys b) q ->
  group_round (lcp (members q (mkeys b))) b = Ok b' -> tops K0 (keyed b) -> tops K0 (keyed b').
Proof.
  intros WE I (Hq & G & Least) R T. pose proof (gi_wf _ _ _ I) as W.
  assert (NoDup (mkeys b)) as ND by (apply ssorted_NoDup; exact W).
  assert (forall k, In k (mkeys b) <-> mget k b <> None) as HK by (intros; apply In_mkeys).
  set (p := lcp (members q (mkeys b))) in *. pose proof G as [G2 (c & Gc)].
  assert (members q (mkeys b) <> []) as NE by (destruct (members q (mkeys b)); [cbn in G2; lia|discriminate]).
  assert (prefix_of (q ++ [c]) p) as Pc by (apply lcp_greatest; auto).
  apply (tops_step K0 (keyed b) (keyed b') p q T Hq).
  - apply (grp_ext _ _ HK). apply group_grp; auto.
  - intros r Br Gr. apply Least; auto. apply group_grp; auto. revert Gr. apply grp_ext. intros k. symmetry. apply HK.
  - intros k H1 H2. apply lcp_prefix. apply members_In. rewrite HK. auto.
  - destruct Pc as [w Ew]. rewrite Ew, <- app_assoc. split; [exists ([c] ++ w); auto|]. intros X.
    rewrite <- (app_nil_r q) in X at 2. apply app_inv_head in X. discriminate.
  - destruct (group_round_spec p off b W) as (b2 & sb & R2 & W' & Wsb & M & MS); [intros ->; apply NE; reflexivity|apply I|].
    assert (b2 = b') as -> by congruence.
    intros k. rewrite M. destruct (seqb_spec k p) as [->|Hk]; [split; [auto|discriminate]|].
    rewrite <- starts_spec. destruct (starts p k); intuition congruence.
Qed.
Lemma tops_loop K0 off E : wf_map E -> forall fuel b b', ginv off E b -> length b < fuel -> group_loop fuel b = Ok b' ->
  tops K0 (keyed b) -> tops K0 (keyed b').
Proof.
  intros WE. induction fuel as [|fuel IH]; intros b b' I HL; [lia|]. cbn [group_loop].
  assert (bsub_keys b = mkeys b) as EK by (apply wf_keys, I). rewrite EK.
  destruct (find_partial_lcp_spec (mkeys b)) as ([p n] & -> & [[X F]|(q & F & E1 & E2)]).
  - injection X as -> ->. cbn. intros [= <-]. auto.
  - cbn [fst snd] in *. pose proof F as (_ & [G _] & _). subst n p. destruct (Nat.ltb_spec (length (members q (mkeys b))) 1); [lia|].
    destruct (ginv_round off E b q WE I F) as (b1 & R & I' & L). rewrite R. cbn [bind]. intros E1 T.
    apply (IH b1); [exact I'|lia|exact E1|]. exact (tops_round K0 off E b q b1 WE I F R T).
Qed.

Lemma nested_at_top b : flat b -> exists R, make_patricia_subset b = Ok R /\
  ((forall k k', In k (mkeys R) -> In k' (mkeys R) -> ~ strictly_extends k' k) <->
   (forall k k', In k (mkeys b) -> In k' (mkeys b) -> strictly_extends k' k ->
      exists q, is_bitstring q /\ group (mkeys b) q /\ strictly_extends k q)).
Proof.
  intros FB. pose proof (flat_ginv b FB) as I0. unfold make_patricia_subset.
  destruct (group_loop_spec 0 b (proj1 FB) (S (length b)) b I0) as (c & EC & I & NG); [lia|].
  assert (tops (keyed b) (keyed c)) as T by (exact (tops_loop _ 0 b (proj1 FB) (S (length b)) b c I0 (Nat.lt_succ_diag_r _) EC (tops_start _))).
  rewrite EC. cbn [bind]. pose proof (gi_wf _ _ _ I) as W.
  unfold link_groups. change (fold_left _ (bsub_keys c) (Ok c)) with (fold_left link_group (bsub_keys c) (Ok c)).
  destruct (link_groups_spec 0 (bsub_keys c) c W) as (R & ER & WR & RO & RL).
  { unfold bsub_keys. rewrite wf_keys by auto. apply ssorted_NoDup; auto. }
  { intros k Hk. apply bsub_keys_In in Hk; auto. destruct (mget k c) as [v|] eqn:Ev; [|congruence]. exists v. split; auto.
    destruct (gi_sub _ _ _ I k v Ev) as (WS & NE & HS). split; auto.
    - intros x w Hx. destruct (HS x w Hx). auto.
    - intros x w Hx. destruct (HS x w Hx) as [_ ->]. apply forest_nil.
    - intros x w k2 Hx. destruct (HS x w Hx) as [_ ->]. intros [].
    - intros e fs v1 v2 H1 H2 _. destruct (HS e v1 H1) as [_ ->]. destruct (HS fs v2 H2) as [_ ->]. split; auto. }
  assert (forall k, In k (mkeys R) <-> mget k c <> None) as RK.
  { intros k. rewrite In_mkeys. destruct (mget k c) as [v|] eqn:Ev.
    - destruct (RL k v) as (v' & -> & _); auto; [apply bsub_keys_In; congruence|]. split; discriminate.
    - rewrite RO; [rewrite Ev; tauto|]. rewrite bsub_keys_In by auto. congruence. }
  exists R. split; [exact ER|]. 
  assert (forall k, In k (mkeys b) <-> mget k b <> None) as HK by (intros; apply In_mkeys).
  assert (NoDup (mkeys b)) as ND by (apply ssorted_NoDup; apply FB).
  assert (NoDup (mkeys c)) as NC by (apply ssorted_NoDup; apply W).
  assert (forall q, grp (keyed b) q <-> group (mkeys b) q) as GB.
  { intros q. rewrite group_grp by auto. split; apply grp_ext; intros k; [symmetry|]; apply HK. }
  destruct (tops_end (keyed b) (keyed c) T) as [U V].
  - intros q Bq Gq. apply (NG q Bq). apply group_grp; auto. revert Gq. apply grp_ext. intros k. symmetry. apply In_mkeys.
  - intros k k' H H' X. destruct (mget k c) as [v|] eqn:Ev; [|congruence]. destruct (ps_subset v) eqn:ES.
    + apply (gi_plain _ _ _ I) in Ev; auto. apply in_map_iff in Ev as ([a va] & Y & Hi). injection Y as -> _.
      apply HK. apply in_map_iff. exists (k, va). auto.
    + exfalso. apply (gi_ext _ _ _ I k v k'); auto. congruence.
  - split.
    + intros A k k' H H' X. destruct (U (fun k k' H1 H2 => A k k' (proj2 (RK k) H1) (proj2 (RK k') H2)) k k') as (q & B & G & Y); auto; try (apply HK; auto).
      exists q. split; auto. split; auto. apply GB; auto.
    + intros A k k' H H'. apply RK in H, H'. apply V; auto. intros a a' Ha Ha' X.
      destruct (A a a') as (q & B & G & Y); auto; try (apply HK; auto). exists q. split; auto. split; auto. apply GB; auto.
Qed.
