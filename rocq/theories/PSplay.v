(** The splay tree. *)
From Verif Require Import GoBase BinUtil MFilter MEngine MTdtCore MSubs MList MSplay.
From Verif Require Import PBase Spec PFilter PEngine PSubs PList PMatch PPatricia PPatriciaHist PExamples PLink.
From Verif Require Export SpecRun.
From Coq Require Import Lia.

Definition fo_str (fo : option filter_object) : gostring :=
  match fo with Some f => fo_string f | None => [] end.
Fixpoint sentries (pre : gostring) (t : stree) : prefix_subs :=
  match t with
  | SNil => []
  | SNode u fo m mm => (pre ++ fo_str fo, u) :: sentries (pre ++ fo_str fo) m ++ sentries pre mm
  end.
Fixpoint swf (off : nat) (t : stree) : Prop :=
  match t with
  | SNil => True
  | SNode u fo m mm =>
      let s := fo_str fo in
      fo = Some (new_filter s off) /\ is_bitstring s /\ swf (off + length s) m /\ swf off mm /\
      (forall x, In x (sentries [] m) -> fst x <> []) /\
      (forall x, In x (sentries [] mm) -> ~ comparable s (fst x))
  end.

Lemma sentries_pre t : forall q pre, sentries (q ++ pre) t = map (fun x => (q ++ fst x, snd x)) (sentries pre t).
Proof.
  induction t as [|u fo m IHm mm IHmm]; intros q pre; auto. cbn [sentries map fst snd].
  rewrite map_app, <- IHmm, <- IHm, <- app_assoc. reflexivity.
Qed.
Lemma sentries_In_pre pre t x : In x (sentries pre t) <-> exists y, In y (sentries [] t) /\ x = (pre ++ fst y, snd y).
Proof.
  rewrite <- (app_nil_r pre) at 1. rewrite sentries_pre, in_map_iff. split; intros (y & H1 & H2); eauto.
Qed.
Lemma sentries_bits t : forall off, swf off t -> forall x, In x (sentries [] t) -> is_bitstring (fst x).
Proof.
  induction t as [|u fo m IHm mm IHmm]; intros off W x Hx; [destruct Hx|].
  cbn [swf] in W. destruct W as (Hf & HB & Wm & Wmm & _). cbn [sentries app] in Hx.
  destruct Hx as [<-|Hx]; [exact HB|]. apply in_app_or in Hx. destruct Hx as [Hx|Hx]; eauto.
  apply sentries_In_pre in Hx. destruct Hx as (y & Hy & ->). cbn [fst]. apply is_bitstring_app. split; eauto.
Qed.

(** ** Search results *)
Definition hit (id : list N) (p : gostring * gostring) : bool := has_prefix (idstr id) (fst p).
Lemma reported_hits id l : Forall is_bitstring (map fst l) -> reported id l (map snd (filter (hit id) l)).
Proof.
  induction l as [|[k u] l IH]; intros H; cbn; [constructor|]. inversion H; subst.
  unfold hit at 1. cbn [fst]. destruct (has_prefix (idstr id) k) eqn:E.
  - apply reported_yes; [apply id_has_prefix_str; auto; apply has_prefix_spec; auto|apply IH; auto].
  - apply reported_no; [|apply IH; auto]. rewrite id_has_prefix_str by auto. apply has_prefix_false; auto.
Qed.
Lemma filter_none {A} (f : A -> bool) l : (forall x, In x l -> f x = false) -> filter f l = [].
Proof. induction l as [|a l IH]; cbn; intros H; auto. rewrite H; auto. Qed.
Lemma comparable_prefixes a b s : prefix_of a s -> prefix_of b s -> comparable a b.
Proof.
  intros Ha Hb. exact (prefix_comparable a b s Ha Hb).
Qed.

Lemma ssearch_spec id : wf_bytes id -> forall t hp pre,
  t <> SNil -> is_bitstring pre -> swf (length pre) t -> prefix_of pre (idstr id) ->
  (pre = [] \/ forall x, In x (sentries [] t) -> fst x <> []) ->
  (forall x, In x (sentries pre t) -> ~ runs_out id (fst x)) ->
  exists t' ex, ssearch t hp id = Ok (map snd (filter (hit id) (sentries pre t)), t', ex).
Proof.
  intros Hw. induction t as [|u fo m IHm mm IHmm]; intros hp pre HN HB W HP HE HR; [congruence|].
  cbn [swf] in W. destruct W as (Hf & HBs & Wm & Wmm & Nm & Cm).
  cbn [ssearch sentries]. set (s := fo_str fo) in *. rewrite Hf.
  rewrite match_at_path; auto.
  2: { destruct HE as [HE|HE]; auto. left. apply (HE (s, u)). cbn [sentries app]. left. reflexivity. }
  2: { apply (HR (pre ++ s, u)). cbn [sentries]. left. reflexivity. }
  cbn [bind]. cbn [filter]. unfold hit at 1. cbn [fst].
  destruct (has_prefix (idstr id) (pre ++ s)) eqn:EP.
  - (* the node matches, its siblings cannot *)
    apply has_prefix_spec in EP.
    assert (filter (hit id) (sentries (pre ++ s) m ++ sentries pre mm) = filter (hit id) (sentries (pre ++ s) m)) as ->.
    { rewrite filter_app. rewrite (filter_none _ (sentries pre mm)); [apply app_nil_r|].
      intros x Hx. apply sentries_In_pre in Hx. destruct Hx as (y & Hy & ->). unfold hit. cbn [fst].
      destruct (has_prefix (idstr id) (pre ++ fst y)) eqn:E2; auto. apply has_prefix_spec in E2. exfalso.
      apply (Cm y Hy). destruct (comparable_prefixes _ _ _ EP E2) as [H|H]; apply prefix_app_inv1 in H; [left|right]; auto. }
    assert (exists m' ex, match m with SNil => Ok ([], SNil, []) | _ => ssearch m false id end
              = Ok (map snd (filter (hit id) (sentries (pre ++ s) m)), m', ex)) as (m' & ex & ->).
    { destruct m as [|u1 fo1 m1 mm1]; [eexists; eexists; reflexivity|].
      destruct (IHm false (pre ++ s)) as (m' & ex & ->); auto; [discriminate| | | |eauto].
      - apply is_bitstring_app; auto.
      - rewrite app_length. auto.
      - intros x Hx. apply HR. cbn [sentries]. right. apply in_or_app. left. auto. }
    cbn [bind map snd]. destruct hp; eauto.
  - assert (filter (hit id) (sentries (pre ++ s) m ++ sentries pre mm) = filter (hit id) (sentries pre mm)) as ->.
    { rewrite filter_app. rewrite (filter_none _ (sentries (pre ++ s) m)); [reflexivity|].
      intros x Hx. apply sentries_In_pre in Hx. destruct Hx as (y & Hy & ->). unfold hit. cbn [fst].
      apply has_prefix_false. apply has_prefix_false in EP. intros H. apply EP.
      eapply prefix_trans; [|exact H]. exists (fst y). reflexivity. }
    destruct mm as [|u1 fo1 m1 mm1]; [eexists; eexists; reflexivity|].
    destruct (IHmm true pre) as (m' & ex & ->); auto; [discriminate| | |].
    + destruct HE as [HE|HE]; auto. right. intros x Hx. apply HE. cbn [sentries]. right. apply in_or_app. auto.
    + intros x Hx. apply HR. cbn [sentries]. right. apply in_or_app. right. auto.
    + cbn [bind]. eauto.
Qed.

(** Sorted content: the hits of any well-formed tree come in ascending order. *)
Lemma hits_sorted id : forall t pre off, swf off t ->
  ssorted (map fst (filter (hit id) (sentries pre t))).
Proof.
  induction t as [|u fo m IHm mm IHmm]; intros pre off W; [constructor|].
  cbn [swf] in W. destruct W as (Hf & HBs & Wm & Wmm & Nm & Cm).
  cbn [sentries filter]. set (s := fo_str fo) in *. unfold hit at 1. cbn [fst].
  destruct (has_prefix (idstr id) (pre ++ s)) eqn:EP.
  - apply has_prefix_spec in EP. rewrite filter_app.
    rewrite (filter_none _ (sentries pre mm)).
    + rewrite app_nil_r. cbn [map fst]. constructor; [eapply IHm; eauto|].
      apply Forall_forall. intros q Hq. apply in_map_iff in Hq. destruct Hq as (x & <- & Hx).
      apply filter_In in Hx. destruct Hx as [Hx _]. apply sentries_In_pre in Hx. destruct Hx as (y & Hy & ->). cbn [fst].
      pose proof (Nm y Hy) as Hne. destruct (fst y) as [|c r]; [congruence|].
      apply prefix_slt with c. exists r. rewrite <- !app_assoc. reflexivity.
    + intros x Hx. apply sentries_In_pre in Hx. destruct Hx as (y & Hy & ->). unfold hit. cbn [fst].
      destruct (has_prefix (idstr id) (pre ++ fst y)) eqn:E2; auto. apply has_prefix_spec in E2. exfalso.
      apply (Cm y Hy). destruct (comparable_prefixes _ _ _ EP E2) as [H|H]; apply prefix_app_inv1 in H; [left|right]; auto.
  - rewrite filter_app, (filter_none _ (sentries (pre ++ s) m)); [eapply IHmm; eauto|].
    intros x Hx. apply sentries_In_pre in Hx. destruct Hx as (y & Hy & ->). unfold hit. cbn [fst].
    apply has_prefix_false. apply has_prefix_false in EP. intros H. apply EP.
    eapply prefix_trans; [|exact H]. exists (fst y). reflexivity.
Qed.
Lemma hits_content id t off m : swf off t -> ssorted (map fst m) ->
  (forall x, In x (sentries [] t) <-> In x m) -> filter (hit id) (sentries [] t) = filter (hit id) m.
Proof.
  intros W S H. apply sorted_pairs_ext.
  - eapply hits_sorted; eauto.
  - apply ssorted_filter_fst; auto.
  - intros x. rewrite !filter_In, H. reflexivity.
Qed.

(** The tree [t] holds exactly the subscriptions [m]. *)
Record sinv (m : prefix_subs) (t : stree) : Prop := {
  si_node : t <> SNil;
  si_wf : swf 0 t;
  si_sorted : ssorted (map fst m);
  si_content : forall x, In x (sentries [] t) <-> In x m }.

Lemma sinv_search m t pc id : sinv m t -> wf_bytes id -> decides id (map fst m) ->
  exists uris, reported id m uris /\ answers (translate pc id) uris (drop_tree (splay_search t pc id)).
Proof.
  intros [I1 I2 I3 I4] Hw HD.
  destruct (ssearch_spec id Hw t false [] I1) as (t' & ex & HS); auto.
  - constructor.
  - apply prefix_nil.
  - intros x Hx. apply HD. apply I4 in Hx. apply in_map; auto.
  - exists (map snd (filter (hit id) m)). split.
    + apply reported_hits. apply Forall_forall. intros k Hk. apply in_map_iff in Hk. destruct Hk as (x & <- & Hx).
      apply I4 in Hx. eapply sentries_bits; eauto.
    + rewrite (hits_content id t 0 m) in HS by auto.
      unfold splay_search, splay_step. rewrite HS. cbn [bind].
      pose proof (finish_search_answers pc id (map snd (filter (hit id) m))) as HF. revert HF.
      destruct (finish_search pc id _); cbn; auto.
Qed.

(** ** A fresh tree *)
Lemma sbuild_match_eq q : sbuild_match q = sbuild_chain (ps_subset q).
Proof. destruct q as [o u s]. cbn. induction s as [|[k p] s IH]; cbn; auto; rewrite IH; reflexivity. Qed.
Lemma sbuild_entries l : forall pre, sentries pre (sbuild_chain l) = fflat pre l.
Proof.
  assert (forall p pre, sentries pre (sbuild_match p) = fflat pre (ps_subset p)) as HP.
  { fix IH 1. intros [o u s] pre. cbn [sbuild_match ps_subset]. unfold fflat.
    induction s as [|[k q] s IHs]; cbn [flat_map sentries fo_str fst snd]; auto.
    rewrite new_filter_string, pflat_eq, <- IHs, <- IH. reflexivity. }
  intros pre. induction l as [|[k q] l IH]; cbn [sbuild_chain sentries fo_str]; auto.
  rewrite new_filter_string, HP, IH. unfold fflat at 3. cbn [flat_map fst snd]. rewrite pflat_eq. reflexivity.
Qed.
Lemma sbuild_wf off F : forest off F ->
  (forall k u, In (k, u) (fflat [] F) -> is_bitstring k) -> swf off (sbuild_chain F).
Proof.
  induction 1 as [off F W PF HO HS HF IH]. intros HB.
  assert (forall G, (forall x, In x G -> In x F) -> wf_map G -> swf off (sbuild_chain G)) as H; [|apply H; auto].
  induction G as [|[k p] G IHG]; intros HG WG; [exact I|].
  unfold wf_map in WG. cbn in WG. inversion WG as [|? ? WG' Hlt]; subst. rewrite Forall_forall in Hlt.
  assert (In (k, p) F) as Hkp by (apply HG; left; auto).
  assert (mget k F = Some p) as Gk by (apply In_mget; auto).
  assert (wf_map (ps_subset p)) as Wp. { pose proof (HF k p Hkp) as X. inversion X; auto. }
  cbn [sbuild_chain swf fo_str]. rewrite new_filter_string. rewrite (HO _ _ Hkp). split; [reflexivity|].
  split. { apply HB with (ps_uri p). apply fflat_key; auto. }
  rewrite sbuild_match_eq. split; [|split; [|split]].
  - apply IH; auto. intros k2 u2 H2. pose proof (fflat_sub _ _ _ _ W Gk H2) as H3. apply HB in H3. cbn [fst] in H3.
    apply is_bitstring_app in H3. apply H3.
  - apply IHG; auto. intros x Hx. apply HG. right; auto.
  - intros x Hx. rewrite sbuild_entries in Hx. apply fflat_mget in Hx; auto. destruct Hx as (k2 & p2 & H2 & Hx).
    assert (k2 <> []) as Hn. { apply (HS k p); auto. apply In_mkeys. congruence. }
    cbn [app] in Hx. rewrite pflat_eq in Hx. destruct Hx as [<-|Hx]; auto.
    apply fflat_In_pre in Hx. destruct Hx as (z & _ & ->). cbn. destruct k2; [congruence|discriminate].
  - intros x Hx. rewrite sbuild_entries in Hx. unfold fflat in Hx. apply in_flat_map in Hx.
    destruct Hx as ([k2 p2] & H1 & H2). cbn [fst snd app] in H2.
    assert (exists z, fst x = k2 ++ z) as [z Hz].
    { rewrite pflat_eq in H2. destruct H2 as [<-|H2]; [exists []; cbn; rewrite app_nil_r; auto|].
      apply fflat_In_pre in H2. destruct H2 as (w & _ & ->). exists (fst w). reflexivity. }
    assert (In k2 (map fst G)) as Hk2 by (apply in_map with (f := fst) in H1; auto).
    assert (In k2 (mkeys F)) as Hk2F. { unfold mkeys. apply in_map with (f := fst) (x := (k2, p2)). apply HG. right; auto. }
    assert (In k (mkeys F)) as HkF. { unfold mkeys. apply in_map with (f := fst) (x := (k, p)). auto. }
    assert (k <> k2) as Hne. { intros ->. apply Hlt in Hk2. rewrite sltb_irrefl in Hk2. discriminate. }
    assert (comparable k k2 -> False) as Hinc.
    { intros [HC|HC].
      - apply (PF k k2); auto. split; auto.
      - apply (PF k2 k); auto. split; auto. }
    rewrite Hz. intros [HC|HC]; apply Hinc.
    + apply comparable_prefixes with (k2 ++ z); auto. exists z. auto.
    + right. eapply prefix_trans; [|exact HC]. exists z. auto.
Qed.
Lemma new_splay_b_spec b : flat b -> b <> [] -> Forall is_bitstring (mkeys b) ->
  exists t, new_splay_b b = Ok t /\ sinv (entries b) t.
Proof.
  intros HF Hne HB. destruct (link_subset_spec b HF) as (F & HL & FF & HE).
  unfold new_splay_b. rewrite HL. cbn [bind].
  assert (F <> []) as HFn. { intros ->. cbn in HE. destruct b; [congruence|discriminate]. }
  exists (sbuild_chain F). split; [destruct F; [congruence|reflexivity]|]. split.
  - destruct F as [|[k p] F]; [congruence|discriminate].
  - apply sbuild_wf; auto. intros k u Hk. rewrite HE in Hk. rewrite Forall_forall in HB. apply HB.
    rewrite <- entries_keys. apply in_map with (f := fst) in Hk. auto.
  - rewrite entries_keys. apply HF.
  - intros x. rewrite sbuild_entries, HE. reflexivity.
Qed.