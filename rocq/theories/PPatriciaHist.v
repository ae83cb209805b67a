(** Histories of updates on a Patricia trie. *)
From Verif Require Import GoBase BinUtil MFilter MEngine MTdtCore MSubs MList MPatricia.
From Verif Require Import PBase Spec PFilter PEngine PSubs PList PMatch PPatricia.
From Verif Require Export SpecRun.
From Coq Require Import Lia Permutation.

Definition pchange (r : result ptree) (c : change) : result ptree :=
  let! t := r in match c with Subscribe k u => padd t k u | Unsubscribe k => pdelete t k end.

Lemma fold_patricia_update E ops r : fold_left (patricia_update E) ops r = fold_left pchange (changes_of E ops) r.
Proof.
  assert (forall (A B C : Type) (f : A -> C -> A) (g : B -> C) l a, fold_left f (map g l) a = fold_left (fun a b => f a (g b)) l a) as fold_left_map.
  { intros A B C f g l. induction l; cbn; auto. }
  revert r; induction ops as [|op ops IH]; intros r; cbn [changes_of flat_map fold_left]; auto.
  rewrite fold_left_app, IH. unfold changes_of. f_equal. unfold patricia_update.
  destruct r as [t| |]; cbn [bind].
  - destruct op as [sub|sub]; cbn [update_changes]; unfold patricia_add, patricia_del, entries;
      rewrite map_map, fold_left_map; reflexivity.
  - destruct op as [sub|sub]; cbn [update_changes]; generalize (entries (to_byte_subs E sub)); intros l;
      induction l; cbn; auto.
  - destruct op as [sub|sub]; cbn [update_changes]; generalize (entries (to_byte_subs E sub)); intros l;
      induction l; cbn; auto.
Qed.

(** Invariant: [used] are the keys ever subscribed, [m] the current content. *)
Definition proot_uri (t : ptree) : gostring := match t with PNode u _ _ _ => u | PNil => [] end.
Record pinv (used : list gostring) (m : prefix_subs) (t : ptree) : Prop := {
  inv_node : t <> PNil;
  inv_wf : pwf 0 t;
  inv_content : forall k, pget t k = mget k m;
  inv_sorted : ssorted (map fst m);
  inv_paths : forall q, In q (ppaths [] t) -> q = [] \/ exists k, In k used /\ prefix_of q k;
  inv_root : proot_uri t = [] /\ (pstring t = [] \/ exists k, In k used /\ strictly_extends k (pstring t));
  inv_used : forall k, In k used -> k <> [] }.

Lemma add_safe_paths t fs : forall off pre, pwf off t -> is_bitstring fs ->
  (forall q, In q (ppaths pre t) -> prefix_of (pre ++ fs) q -> q = pre ++ fs) -> add_safe t fs = true.
Proof.
  revert fs. induction t as [|u fo one IH1 zero IH0]; intros fs off pre W HB H; auto. cbn [add_safe].
  cbn [pwf] in W. destruct W as (HF & HS & S1 & S0 & W1 & W0).
  cbn [ppaths] in H. destruct (has_prefix fs (fo_string fo)) eqn:EP.
  - apply has_prefix_spec in EP. destruct EP as [y ->]. rewrite skipn_app_l. rewrite app_assoc in H.
    apply is_bitstring_app in HB. destruct HB as [_ HB].
    destruct y as [|c r]; auto. destruct (bit_cases c r HB) as [-> | ->]; cbn [Ascii.eqb].
    + change (Ascii.eqb c0 c1) with false. cbn iota. eapply IH0; eauto. intros q Hq. apply H. right. apply in_or_app; auto.
    + change (Ascii.eqb c1 c1) with true. cbn iota. eapply IH1; eauto. intros q Hq. apply H. right. apply in_or_app; auto.
  - apply negb_true_iff, has_prefix_false. intros HP. apply has_prefix_false in EP. apply EP.
    assert (pre ++ fo_string fo = pre ++ fs) as Hx.
    { apply H; [left; auto|]. apply prefix_app_inv; auto. }
    apply app_inv_head in Hx. rewrite Hx. apply prefix_refl.
Qed.

Lemma padd_root t fs uri t' : padd t fs uri = Ok t' -> fs <> pstring t ->
  proot_uri t = [] -> proot_uri t' = [].
Proof.
  destruct t as [|u fo one zero]; [discriminate|]. cbn [pstring proot_uri]. intros E Hn ->. cbn [padd] in E.
  destruct (has_prefix fs (fo_string fo)).
  - destruct (seqb_spec fs (fo_string fo)); [congruence|].
    destruct (skipn (fo_size fo) fs) as [|c r]; [injection E as <-; reflexivity|].
    destruct (Ascii.eqb c c1).
    + destruct one; [injection E as <-; reflexivity|]. destruct (padd _ _ _); try discriminate. injection E as <-; reflexivity.
    + destruct (Ascii.eqb c c0).
      * destruct zero; [injection E as <-; reflexivity|]. destruct (padd _ _ _); try discriminate. injection E as <-; reflexivity.
      * injection E as <-; reflexivity.
  - destruct (skipn _ fs) as [|c r]; [injection E as <-; reflexivity|].
    destruct (Ascii.eqb c c1); [injection E as <-; reflexivity|].
    destruct (Ascii.eqb c c0); injection E as <-; reflexivity.
Qed.
Lemma padd_root_string t fs uri t' : padd t fs uri = Ok t' ->
  pstring t' = pstring t \/ (~ prefix_of (pstring t) fs /\ pstring t' = lcp [fs; pstring t]).
Proof.
  destruct t as [|u fo one zero]; [discriminate|]. cbn [pstring]. intros E. cbn [padd] in E.
  destruct (has_prefix fs (fo_string fo)) eqn:EP.
  - left. destruct (seqb_spec fs (fo_string fo)); [injection E as <-; reflexivity|].
    destruct (skipn (fo_size fo) fs) as [|c r]; [injection E as <-; reflexivity|].
    destruct (Ascii.eqb c c1).
    + destruct one; [injection E as <-; reflexivity|]. destruct (padd _ _ _); try discriminate. injection E as <-; reflexivity.
    + destruct (Ascii.eqb c c0).
      * destruct zero; [injection E as <-; reflexivity|]. destruct (padd _ _ _); try discriminate. injection E as <-; reflexivity.
      * injection E as <-; reflexivity.
  - right. apply has_prefix_false in EP. split; auto.
    destruct (skipn _ fs) as [|c r]; [injection E as <-; apply new_filter_string|].
    destruct (Ascii.eqb c c1); [injection E as <-; apply new_filter_string|].
    destruct (Ascii.eqb c c0); injection E as <-; apply new_filter_string.
Qed.
Lemma pdelete_root t fs t' : pdelete t fs = Ok t' -> fs <> pstring t ->
  proot_uri t' = proot_uri t /\ pstring t' = pstring t.
Proof.
  destruct t as [|u fo one zero]; [discriminate|]. cbn [pstring proot_uri]. intros E Hn. cbn [pdelete] in E.
  destruct (negb _); [injection E as <-; auto|].
  destruct (seqb_spec fs (fo_string fo)); [congruence|].
  destruct (skipn _ fs) as [|c r]; [injection E as <-; auto|].
  destruct (Ascii.eqb c c1).
  - destruct one; [injection E as <-; auto|]. destruct (_ && _); [injection E as <-; auto|].
    destruct (pdelete _ _); try discriminate. injection E as <-; auto.
  - destruct (Ascii.eqb c c0); [|injection E as <-; auto].
    destruct zero; [injection E as <-; auto|]. destruct (_ && _); [injection E as <-; auto|].
    destruct (pdelete _ _); try discriminate. injection E as <-; auto.
Qed.

Lemma wf_mset k u (m : prefix_subs) : ssorted (map fst m) -> ssorted (map fst (mset k u m)).
Proof. apply (mset_wf k u m). Qed.
Lemma wf_mdel k (m : prefix_subs) : ssorted (map fst m) -> ssorted (map fst (mdel k m)).
Proof. apply (mdel_wf k m). Qed.

Lemma pinv_subscribe used m t k u : pinv used m t -> is_bitstring k -> k <> [] -> u <> [] ->
  (forall k', In k' used -> ~ strictly_extends k' k) ->
  exists t', padd t k u = Ok t' /\ pinv (k :: used) (mset k u m) t'.
Proof.
  intros I HB Hk Hu HX. destruct I as [I1 I2 I3 I4 I5 [I6 I6'] I7].
  assert (add_safe t k = true) as HA.
  { apply (add_safe_paths t k 0 []); auto. cbn [app]. intros q Hq HP.
    destruct (I5 q Hq) as [->|(k' & Hk' & Hq')].
    - symmetry. apply prefix_antisym; auto. apply prefix_nil.
    - destruct (gostring_eq_dec k' k) as [->|Hne].
      + apply prefix_antisym; auto.
      + exfalso. apply (HX k' Hk'). split; auto. eapply prefix_trans; eauto. }
  destruct (padd_spec t k u 0 I1 I2 HB Hu HA) as (t' & E & N' & W' & G' & _ & P').
  exists t'. split; auto. split; auto.
  - intros k'. rewrite G', I3. rewrite mget_mset. reflexivity.
  - apply wf_mset; auto.
  - intros q Hq. apply P' in Hq. destruct Hq as [Hq|Hq].
    + destruct (I5 q Hq) as [|(k' & ? & ?)]; auto. right. exists k'. cbn; auto.
    + right. exists k. cbn; auto.
  - assert (k <> pstring t) as Hne.
    { intros ->. destruct I6' as [|(k' & Hk' & HE)]; [congruence|]. apply (HX k'); auto. }
    split; [eapply padd_root; eauto|].
    destruct (padd_root_string _ _ _ _ E) as [->|[Hp ->]].
    + destruct I6' as [->|(k' & Hk' & HE)]; [left; auto|]. right. exists k'. cbn; auto.
    + right. exists k. split; [cbn; auto|]. split; [apply lcp_prefix; cbn; auto|].
      intros Hx. assert (prefix_of k (pstring t)) as Hkp.
      { rewrite Hx at 1. apply lcp_prefix. cbn; auto. }
      destruct I6' as [Hn|(k' & Hk' & HE)].
      * rewrite Hn in Hkp. apply Hk. apply prefix_antisym; auto. apply prefix_nil.
      * apply (HX k' Hk'). destruct HE as [HE1 HE2]. split; [eapply prefix_trans; eauto|].
        intros ->. apply Hp; auto.
  - cbn. intros k' [<-|]; auto.
Qed.

Lemma pinv_unsubscribe used m t k : pinv used m t -> is_bitstring k ->
  (In k (map fst m) \/ forall k', In k' used -> ~ strictly_extends k' k) ->
  exists t', pdelete t k = Ok t' /\ pinv used (mdel k m) t'.
Proof.
  intros I HB HX. destruct I as [I1 I2 I3 I4 I5 [I6 I6'] I7].
  destruct (gostring_eq_dec k (pstring t)) as [->|Hne].
  - (* the root's own path: only possible when nothing was ever subscribed *)
    destruct t as [|u fo one zero]; [congruence|]. cbn [pstring proot_uri] in *. subst u.
    assert (pget (PNode [] fo one zero) (fo_string fo) = None) as Hg.
    { rewrite <- (app_nil_r (fo_string fo)). rewrite pget_at. reflexivity. }
    rewrite I3 in Hg.
    destruct HX as [Hm|HX].
    { exfalso. apply in_map_iff in Hm. destruct Hm as ([k' u'] & Hk' & Hm). cbn in Hk'. subst k'.
      apply (In_mget _ _ m I4) in Hm. congruence. }
    assert (fo_string fo = []) as Hnil.
    { destruct I6' as [|(k' & Hk' & HE)]; auto. exfalso. apply (HX k'); auto. }
    assert (used = []) as Hused.
    { destruct used as [|k' used]; auto. exfalso. apply (HX k'); [cbn; auto|]. rewrite Hnil.
      split; [apply prefix_nil|]. apply I7; cbn; auto. }
    assert (one = PNil /\ zero = PNil) as [-> ->].
    { cbn [pwf] in I2. destruct I2 as (_ & _ & S1 & S0 & _).
      split; [destruct one as [|u1 f1 o1 z1]; auto|destruct zero as [|u1 f1 o1 z1]; auto].
      - exfalso. destruct S1 as [r Hr]. destruct (I5 ([] ++ fo_string fo ++ fo_string f1)) as [Hx|(k' & Hk' & _)].
        + cbn [ppaths]. right. apply in_or_app. right. cbn. auto.
        + rewrite Hnil, Hr in Hx. discriminate.
        + rewrite Hused in Hk'. destruct Hk'.
      - exfalso. destruct S0 as [r Hr]. destruct (I5 ([] ++ fo_string fo ++ fo_string f1)) as [Hx|(k' & Hk' & _)].
        + cbn [ppaths]. right. apply in_or_app. left. cbn. auto.
        + rewrite Hnil, Hr in Hx. discriminate.
        + rewrite Hused in Hk'. destruct Hk'. }
    exists (PNode [] fo PNil PNil). split.
    { cbn [pdelete]. rewrite has_prefix_refl, seqb_refl. reflexivity. }
    split; auto.
    + intros k. rewrite I3, mget_mdel by auto. destruct (seqb_spec k (fo_string fo)); auto. subst; auto.
    + apply wf_mdel; auto.
  - destruct (pdelete_spec t k 0 I1 I2 HB) as (t' & E & N' & W' & G' & _ & P').
    { intros [_ Hx]. congruence. }
    exists t'. split; auto. destruct (pdelete_root _ _ _ E Hne) as [R1 R2]. split; auto.
    + intros k'. rewrite G', I3, mget_mdel by auto. reflexivity.
    + apply wf_mdel; auto.
    + rewrite R1, R2. auto.
Qed.

Lemma pinv_history used m cs t : pinv used m t -> top_down used m cs ->
  exists t' used', fold_left pchange cs (Ok t) = Ok t' /\ pinv used' (apply_changes m cs) t' /\
    (forall k, In k used' -> In k used \/ In k (subscribed_keys cs)).
Proof.
  intros I H; revert t I; induction H as [used m|used m k u cs HB Hk Hu HX H IH|used m k cs HB HX H IH]; intros t I.
  - exists t, used. cbn. auto.
  - destruct (pinv_subscribe used m t k u I HB Hk Hu HX) as (t1 & E1 & I1).
    destruct (IH t1 I1) as (t' & used' & E & I' & U'). exists t', used'.
    cbn [fold_left pchange bind]. rewrite E1. split; auto. split; auto.
    intros k' Hk'. apply U' in Hk'. cbn in *. tauto.
  - destruct (pinv_unsubscribe used m t k I HB HX) as (t1 & E1 & I1).
    destruct (IH t1 I1) as (t' & used' & E & I' & U'). exists t', used'.
    cbn [fold_left pchange bind]. rewrite E1. auto.
Qed.

Lemma pinv_search used m t pc id : pinv used m t -> wf_bytes id -> id <> [] ->
  Forall is_bitstring used -> decides id used ->
  exists uris, reported id m uris /\ answers (translate pc id) uris (patricia_search t pc id).
Proof.
  intros I Hw Hid HB HD. destruct I as [I1 I2 I3 I4 I5 [I6 I6'] I7].
  destruct (psearch_spec t id Hw [] I1) as (uris & HR & HS); auto.
  { constructor. } { apply prefix_nil. }
  { intros p Hp Hr. assert (is_bitstring p) by (eapply ppaths_bits; eauto; constructor).
    destruct (I5 p Hp) as [->|(k & Hk & Hpk)].
    - apply runs_out_str in Hr; [|constructor]. destruct Hr as [|[Hx _]]; [congruence|cbn in Hx; lia].
    - apply (HD k Hk). eapply runs_out_extend; eauto. rewrite Forall_forall in HB; auto. }
  exists uris. split.
  - replace m with (pentries [] t); auto. apply wf_map_ext; auto.
    + eapply pentries_sorted; eauto.
    + intros k. rewrite <- I3. apply (mget_pentries t [] 0 k I2).
  - unfold patricia_search. rewrite HS. cbn [bind]. apply finish_search_answers.
Qed.

(** A fresh trie in which the common prefix of all keys is not itself a key. *)
Lemma fresh_pinv b : flat b -> Forall is_bitstring (mkeys b) ->
  (forall k, In k (mkeys b) -> k <> []) -> (forall k u, In (k, u) (entries b) -> u <> []) ->
  (forall k, In k (mkeys b) -> ~ longest_common_prefix k (mkeys b)) ->
  exists t, new_patricia_b b = Some t /\ pinv (mkeys b) (entries b) t.
Proof.
  intros F HB HK HU HL.
  destruct (new_patricia_b_spec b F HB) as (t & E & N & W & G & PE & PS & PP).
  assert (patricia_content b = entries b) as HC.
  { unfold patricia_content. apply filter_all. intros [k u] Hku. cbn [fst snd].
    rewrite andb_true_iff, !negb_true_iff, !seqb_neq. split; [|eapply HU; eauto].
    intros ->. assert (In (lcp (mkeys b)) (mkeys b)) as Hin.
    { rewrite <- entries_keys at 2. apply in_map with (f := fst) in Hku. auto. }
    eapply HL; eauto. apply lcp_is_longest. intros Hx. rewrite Hx in Hin. destruct Hin. }
  exists t. split; auto. split; auto.
  - rewrite <- HC; auto.
  - rewrite entries_keys. apply F.
  - unfold new_patricia_b in E. destruct (pbuild _ _ _) as [[o z]|]; [|discriminate]. injection E as <-.
    split; [reflexivity|]. rewrite PS.
    destruct (mkeys b) as [|k0 ks] eqn:EK; [left; reflexivity|]. right.
    exists k0. split; [cbn; auto|]. split; [apply lcp_prefix; cbn; auto|].
    intros Hx. eapply (HL k0); [cbn; auto|]. rewrite Hx at 1. apply lcp_is_longest. discriminate.
Qed.

Lemma patricia_history E sub0 ops pc id :
  let b := to_byte_subs E sub0 in
  Forall is_bitstring (mkeys b) -> (forall k, In k (mkeys b) -> k <> []) ->
  (forall k u, In (k, u) (entries b) -> u <> []) ->
  (forall k, In k (mkeys b) -> ~ longest_common_prefix k (mkeys b)) ->
  top_down (mkeys b) (entries b) (changes_of E ops) ->
  wf_bytes id -> id <> [] -> decides id (mkeys b ++ subscribed_keys (changes_of E ops)) ->
  exists t uris, patricia_run E sub0 ops = Ok t /\
    reported id (apply_changes (entries b) (changes_of E ops)) uris /\
    answers (translate pc id) uris (patricia_search t pc id).
Proof.
  intros b HB HK HU HL HT Hw Hid HD.
  destruct (fresh_pinv b (to_byte_subs_flat E sub0) HB HK HU HL) as (t0 & E0 & I0).
  destruct (pinv_history _ _ _ _ I0 HT) as (t & used & Et & It & Hu).
  assert (forall k, In k used -> is_bitstring k) as HBu.
  { intros k Hk. apply Hu in Hk. destruct Hk as [Hk|Hk]; [rewrite Forall_forall in HB; auto|].
    clear - HT Hk. induction HT; cbn in *; auto; [tauto|]. destruct Hk as [<-|Hk]; auto. }
  destruct (pinv_search used _ t pc id It Hw Hid) as (uris & HR & HA).
  { apply Forall_forall; auto. }
  { intros k Hk. apply HD. apply in_or_app. auto. }
  exists t, uris. split; auto. unfold patricia_run, new_patricia. fold b. rewrite E0, fold_patricia_update. auto.
Qed.

(** Without any hypothesis on the keys' common prefix: exactly that key is lost. *)
Lemma patricia_fresh_search E sub pc id :
  let b := to_byte_subs E sub in
  Forall is_bitstring (mkeys b) -> (forall k u, In (k, u) (entries b) -> u <> []) ->
  wf_bytes id -> id <> [] -> decides id (mkeys b) ->
  exists t subs uris, new_patricia E sub = Some t /\
    ascending (map fst subs) /\
    (forall k u, In (k, u) subs <-> In (k, u) (entries b) /\ ~ longest_common_prefix k (mkeys b)) /\
    reported id subs uris /\ answers (translate pc id) uris (patricia_search t pc id).
Proof.
  intros b HB HU Hw Hid HD.
  pose proof (to_byte_subs_flat E sub) as F. fold b in F.
  destruct (new_patricia_b_spec b F HB) as (t & Et & N & W & G & PE & PS & PP).
  destruct (psearch_spec t id Hw [] N) as (uris & HR & HS); auto.
  { constructor. } { apply prefix_nil. }
  { intros p Hp Hr. assert (is_bitstring p) by (eapply ppaths_bits; eauto; constructor).
    destruct (PP p Hp) as [->|(k & Hk & Hpk)].
    - apply runs_out_str in Hr; [|constructor]. destruct Hr as [|[Hx _]]; [congruence|cbn in Hx; lia].
    - apply (HD k Hk). eapply runs_out_extend; eauto. rewrite Forall_forall in HB; auto. }
  exists t, (pentries [] t), uris. split; [exact Et|]. split; [|split; [|split; auto]].
  - apply ascending_ssorted. eapply pentries_sorted; eauto.
  - intros k u. rewrite PE. unfold patricia_content. rewrite filter_In. cbn [fst snd].
    rewrite andb_true_iff, !negb_true_iff, !seqb_neq. split.
    + intros (Hku & Hk & _). split; auto. intros HL. apply Hk. apply lcp_unique; auto.
      intros Hx. assert (In k (mkeys b)) as Hin. { rewrite <- entries_keys. apply in_map with (f := fst) in Hku. auto. }
      rewrite Hx in Hin. destruct Hin.
    + intros [Hku HL]. split; auto. split; [|eapply HU; eauto]. intros ->. apply HL. apply lcp_is_longest.
      assert (In (lcp (mkeys b)) (mkeys b)) as Hin. { rewrite <- entries_keys at 2. apply in_map with (f := fst) in Hku. auto. }
      intros Hx. rewrite Hx in Hin. destruct Hin.
  - unfold patricia_search. rewrite HS. cbn [bind]. apply finish_search_answers.
Qed.

(** ** One more call on a reachable trie *)
Lemma top_down_app used m cs cs' : top_down used m (cs ++ cs') -> top_down used m cs.
Proof.
  revert used m; induction cs as [|c cs IH]; intros used m H; [constructor|].
  cbn in H. inversion H; subst; constructor; auto.
Qed.
Lemma mset_pairs k u (m : prefix_subs) : ssorted (map fst m) -> forall k' u',
  In (k', u') (mset k u m) <-> (k' = k /\ u' = u) \/ (k' <> k /\ In (k', u') m).
Proof.
  intros W k' u'.
  assert (wf_map (mset k u m)) as W' by (apply mset_wf; auto).
  split.
  - intros H. apply (In_mget _ _ _ W') in H. rewrite mget_mset in H.
    destruct (seqb_spec k' k); [injection H as <-; auto|]. right. split; auto. apply mget_In; auto.
  - intros H. apply mget_In. rewrite mget_mset. destruct (seqb_spec k' k).
    + destruct H as [[_ ->]|[]]; congruence.
    + destruct H as [[]|[_ H]]; [congruence|]. apply In_mget; auto.
Qed.
Lemma mdel_pairs k (m : prefix_subs) : ssorted (map fst m) -> forall k' u',
  In (k', u') (mdel k m) <-> k' <> k /\ In (k', u') m.
Proof.
  intros W k' u'.
  assert (wf_map (mdel k m)) as W' by (apply mdel_wf; auto).
  split.
  - intros H. apply (In_mget _ _ _ W') in H. rewrite mget_mdel in H by auto.
    destruct (seqb_spec k' k); [discriminate|]. split; auto. apply mget_In; auto.
  - intros [Hk H]. apply mget_In. rewrite mget_mdel by auto. destruct (seqb_spec k' k); [congruence|].
    apply In_mget; auto.
Qed.
Lemma apply_change_sorted m c : ssorted (map fst m) -> ssorted (map fst (apply_change m c)).
Proof. destruct c; cbn; auto using wf_mset, wf_mdel. Qed.
Lemma apply_changes_sorted m cs : ssorted (map fst m) -> ssorted (map fst (apply_changes m cs)).
Proof. revert m; induction cs as [|c cs IH]; intros m H; auto. apply IH. apply apply_change_sorted; auto. Qed.

Lemma apply_adds (m ps : prefix_subs) : ssorted (map fst m) -> NoDup (map fst ps) -> forall k u,
  In (k, u) (apply_changes m (map (fun p => Subscribe (fst p) (snd p)) ps)) <->
  In (k, u) ps \/ (~ In k (map fst ps) /\ In (k, u) m).
Proof.
  revert m; induction ps as [|[k0 u0] ps IH]; intros m W HN k u; cbn [map fst snd].
  - cbn. tauto.
  - inversion HN; subst. unfold apply_changes in *. cbn [fold_left apply_change].
    rewrite IH, mset_pairs by auto using wf_mset. cbn [In].
    destruct (gostring_eq_dec k k0) as [->|Hne].
    + split; [|intuition congruence]. intros [H|H]; [auto|]. destruct H as [_ [[_ ->]|[]]]; [auto|congruence].
    + intuition congruence.
Qed.
Lemma apply_dels (m ps : prefix_subs) : ssorted (map fst m) -> forall k u,
  In (k, u) (apply_changes m (map (fun p => Unsubscribe (fst p)) ps)) <->
  ~ In k (map fst ps) /\ In (k, u) m.
Proof.
  revert m; induction ps as [|[k0 u0] ps IH]; intros m W k u; cbn [map fst snd].
  - cbn. tauto.
  - unfold apply_changes in *. cbn [fold_left apply_change].
    rewrite IH, mdel_pairs by auto using wf_mdel. cbn [In]. intuition congruence.
Qed.
Lemma apply_changes_app m cs cs' : apply_changes m (cs ++ cs') = apply_changes (apply_changes m cs) cs'.
Proof. apply fold_left_app. Qed.
Lemma ssorted_NoDup l : ssorted l -> NoDup l.
Proof.
  induction l as [|a l IH]; intros H; constructor; inversion H as [|? ? Hs Hf]; subst; auto.
  intros Hin. rewrite Forall_forall in Hf. apply Hf in Hin. rewrite sltb_irrefl in Hin. discriminate.
Qed.
Lemma changes_of_app E a b : changes_of E (a ++ b) = changes_of E a ++ changes_of E b.
Proof. unfold changes_of. apply flat_map_app. Qed.
Lemma changes_of_one E op : changes_of E [op] = update_changes E op.
Proof. unfold changes_of. cbn. apply app_nil_r. Qed.
Lemma subscribed_keys_app a b : subscribed_keys (a ++ b) = subscribed_keys a ++ subscribed_keys b.
Proof. unfold subscribed_keys. apply flat_map_app. Qed.

Lemma patricia_step E sub0 ops op pc id :
  let b := to_byte_subs E sub0 in let all := changes_of E (ops ++ [op]) in
  good_start b -> top_down (mkeys b) (entries b) all ->
  wf_bytes id -> id <> [] -> decides id (mkeys b ++ subscribed_keys all) ->
  exists t t' m m' uris uris',
    patricia_run E sub0 ops = Ok t /\ patricia_update E (Ok t) op = Ok t' /\
    ascending (map fst m) /\ ascending (map fst m') /\
    reported id m uris /\ answers (translate pc id) uris (patricia_search t pc id) /\
    reported id m' uris' /\ answers (translate pc id) uris' (patricia_search t' pc id) /\
    (forall k u, In (k, u) m' <->
       match op with
       | Add sub => In (k, u) (entries (to_byte_subs E sub))
                    \/ (~ In k (mkeys (to_byte_subs E sub)) /\ In (k, u) m)
       | Del sub => ~ In k (mkeys (to_byte_subs E sub)) /\ In (k, u) m
       end).
Proof.
  intros b all (HB & HK & HU & HL) HT Hw Hid HD.
  assert (top_down (mkeys b) (entries b) (changes_of E ops)) as HT1.
  { unfold all in HT. rewrite changes_of_app in HT. eapply top_down_app; eauto. }
  destruct (patricia_history E sub0 ops pc id) as (t & uris & R1 & R2 & R3); auto.
  { intros k Hk. apply HD. unfold all. rewrite changes_of_app, subscribed_keys_app. rewrite !in_app_iff in *. tauto. }
  destruct (patricia_history E sub0 (ops ++ [op]) pc id) as (t' & uris' & R1' & R2' & R3'); auto.
  fold b in R2, R2'. exists t, t'. do 2 eexists. exists uris, uris'. split; [exact R1|]. split.
  { unfold patricia_run in R1, R1'. destruct (new_patricia E sub0); [|discriminate].
    rewrite fold_left_app, R1 in R1'. exact R1'. }
  assert (ssorted (map fst (entries b))) as HS by (rewrite entries_keys; apply to_byte_subs_flat).
  split; [|split; [|split; [exact R2|split; [exact R3|split; [exact R2'|split; [exact R3'|]]]]]].
  - apply ascending_ssorted, apply_changes_sorted; auto.
  - apply ascending_ssorted, apply_changes_sorted; auto.
  - intros k u. rewrite changes_of_app, changes_of_one, apply_changes_app. destruct op as [sub|sub]; cbn [update_changes].
    + rewrite <- entries_keys. apply apply_adds; [apply apply_changes_sorted; auto|].
      rewrite entries_keys. apply ssorted_NoDup, to_byte_subs_flat.
    + rewrite <- entries_keys. apply apply_dels. apply apply_changes_sorted; auto.
Qed.