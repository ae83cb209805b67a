(** Exactly which updates of a Patricia trie go wrong. *)
From Verif Require Import GoBase BinUtil MFilter MEngine MTdtCore MSubs MList MPatricia.
From Verif Require Import PBase Spec PFilter PEngine PSubs PList PMatch PPatricia PPatriciaHist.
From Coq Require Import Lia Permutation.

(** [add_safe] in terms of the nodes of the trie. *)
Lemma ppaths_child c t pre q y : starts_with c t -> In q (ppaths pre t) -> q = pre ++ y -> exists r, y = c :: r.
Proof.
  intros HS H ->. destruct t as [|u fo one zero]; [destruct H|].
  apply (starts_with_path c) in H; auto; [|discriminate].
  apply prefix_app_inv1 in H. destruct H as [r ->]. exists r. reflexivity.
Qed.
Lemma add_safe_iff t : forall fs off pre, pwf off t -> is_bitstring fs ->
  (add_safe t fs = true <->
   (In (pre ++ fs) (ppaths pre t) \/ forall q, In q (ppaths pre t) -> ~ strictly_extends q (pre ++ fs))).
Proof.
  induction t as [|u fo one IH1 zero IH0]; intros fs off pre W HB.
  { cbn. intuition. }
  pose proof W as Wt. cbn [pwf] in W. destruct W as (HF & HS & S1 & S0 & W1 & W0).
  cbn [add_safe ppaths]. destruct (has_prefix fs (fo_string fo)) eqn:EP.
  - apply has_prefix_spec in EP. destruct EP as [y ->]. rewrite skipn_app_l.
    apply is_bitstring_app in HB. destruct HB as [_ HB].
    destruct y as [|c r].
    { rewrite app_nil_r. split; auto. intros _. left. cbn. auto. }
    assert (~ strictly_extends (pre ++ fo_string fo) (pre ++ fo_string fo ++ c :: r)) as Hroot.
    { intros [Hx _]. apply prefix_length in Hx. rewrite !app_length in Hx. cbn [length] in Hx. lia. }
    assert (pre ++ fo_string fo <> (pre ++ fo_string fo) ++ c :: r) as Hne.
    { intros Hx. apply (f_equal (@length ascii)) in Hx. rewrite !app_length in Hx. cbn [length] in Hx. lia. }
    rewrite app_assoc in *. set (p := pre ++ fo_string fo) in *.
    assert (forall d t', starts_with d t' -> d <> c -> forall q, In q (ppaths p t') -> ~ prefix_of (p ++ c :: r) q) as Hoff.
    { intros d t' Hs Hd q Hq HP. destruct HP as [z ->]. rewrite <- app_assoc in Hq.
      eapply ppaths_child in Hq; [|exact Hs|reflexivity]. destruct Hq as [z' Hz]. cbn in Hz. congruence. }
    destruct (bit_cases c r HB) as [-> | ->]; cbn [Ascii.eqb].
    + change (Ascii.eqb c0 c1) with false. cbn iota. rewrite (IH0 _ _ p W0 HB). cbn [In]. split.
      * intros [H|H]; [left; right; apply in_or_app; auto|]. right. intros q [<-|Hq]; auto.
        apply in_app_or in Hq. destruct Hq as [Hq|Hq]; auto.
        intros [Hx _]. eapply Hoff; [exact S1|discriminate|exact Hq|]. exact Hx.
      * intros [[H|H]|H]; [congruence| |].
        -- apply in_app_or in H. destruct H as [H|H]; auto. exfalso.
           eapply Hoff; [exact S1|discriminate|exact H|]. apply prefix_refl.
        -- right. intros q Hq. apply H. right. apply in_or_app; auto.
    + change (Ascii.eqb c1 c1) with true. cbn iota. rewrite (IH1 _ _ p W1 HB). cbn [In]. split.
      * intros [H|H]; [left; right; apply in_or_app; auto|]. right. intros q [<-|Hq]; auto.
        apply in_app_or in Hq. destruct Hq as [Hq|Hq]; auto.
        intros [Hx _]. eapply Hoff; [exact S0|discriminate|exact Hq|]. exact Hx.
      * intros [[H|H]|H]; [congruence| |].
        -- apply in_app_or in H. destruct H as [H|H]; auto. exfalso.
           eapply Hoff; [exact S0|discriminate|exact H|]. apply prefix_refl.
        -- right. intros q Hq. apply H. right. apply in_or_app; auto.
  - apply has_prefix_false in EP. rewrite negb_true_iff, has_prefix_false.
    assert (forall q, In q (ppaths pre (PNode u fo one zero)) -> prefix_of (pre ++ fo_string fo) q) as Hall.
    { intros q Hq. apply ppaths_prefix in Hq. exact Hq. }
    split.
    + intros Hn. right. intros q Hq [Hx _]. apply Hall in Hq.
      destruct (prefix_comparable _ _ _ Hx Hq) as [H|H]; apply prefix_app_inv1 in H; auto.
    + intros H HP. destruct H as [H|H].
      * apply (Hall (pre ++ fs)) in H. apply prefix_app_inv1 in H. auto.
      * apply (H (pre ++ fo_string fo)); [left; reflexivity|]. split; [apply prefix_app_inv; auto|].
        intros Hx. apply app_inv_head in Hx. apply EP. rewrite Hx. apply prefix_refl.
Qed.

From Verif Require Import SpecTrie.

Lemma has_node_paths t : forall q pre, In (pre ++ q) (ppaths pre t) <-> has_node t q.
Proof.
  induction t as [|u fo one IH1 zero IH0]; intros q pre; cbn [ppaths].
  - split; [intros []|]. inversion 1.
  - split.
    + intros [H|H].
      * apply app_inv_head in H. subst. constructor.
      * assert (prefix_of (pre ++ fo_string fo) (pre ++ q)) as HP.
        { apply in_app_or in H. destruct H as [H|H]; apply ppaths_prefix in H;
            (eapply prefix_trans; [|exact H]); eexists; reflexivity. }
        apply prefix_app_inv1 in HP. destruct HP as [r ->]. rewrite app_assoc in H.
        apply in_app_or in H. destruct H as [H|H].
        -- apply node_zero. eapply IH0; eauto.
        -- apply node_one. eapply IH1; eauto.
    + inversion 1; subst; [left; reflexivity| |]; right; apply in_or_app; rewrite app_assoc.
      * right. apply IH1; auto.
      * left. apply IH0; auto.
Qed.
Lemma has_node_nil t q : In q (ppaths [] t) <-> has_node t q.
Proof. apply (has_node_paths t q []). Qed.

Lemma placed_add t k off : pwf off t -> is_bitstring k ->
  (add_safe t k = true <-> (has_node t k \/ forall q, has_node t q -> ~ strictly_extends q k)).
Proof.
  intros W HB. rewrite (add_safe_iff t k off [] W HB). cbn [app]. rewrite has_node_nil.
  split; (intros [H|H]; [left; auto|right; intros q Hq; apply H; apply has_node_nil; auto]).
Qed.
Lemma root_node t : t <> PNil -> has_node t (pstring t).
Proof. destruct t; [congruence|]. intros _. constructor. Qed.
Lemma leaf_nodes t off : t <> PNil -> pwf off t ->
  (is_pleaf t = true <-> forall q, has_node t q -> q = pstring t).
Proof.
  destruct t as [|u fo one zero]; [congruence|]. intros _ W. cbn [pwf] in W. destruct W as (_ & _ & S1 & S0 & _).
  cbn [pstring]. split.
  - destruct one, zero; try discriminate. intros _ q H. inversion H as [| ? ? ? ? ? H'|? ? ? ? ? H']; subst; auto; inversion H'.
  - intros H. destruct one as [|u1 f1 o1 z1].
    + destruct zero as [|u1 f1 o1 z1]; auto. exfalso. destruct S0 as [r Hr].
      specialize (H (fo_string fo ++ fo_string f1)). rewrite Hr in H.
      assert (fo_string fo ++ c0 :: r = fo_string fo) as Hx.
      { apply H. rewrite <- Hr. apply node_zero. constructor. }
      apply (f_equal (@length ascii)) in Hx. rewrite app_length in Hx. cbn [length] in Hx. lia.
    + exfalso. destruct S1 as [r Hr].
      specialize (H (fo_string fo ++ fo_string f1)). rewrite Hr in H.
      assert (fo_string fo ++ c1 :: r = fo_string fo) as Hx.
      { apply H. rewrite <- Hr. apply node_one. constructor. }
      apply (f_equal (@length ascii)) in Hx. rewrite app_length in Hx. cbn [length] in Hx. lia.
Qed.

(** Invariant of careful histories. *)
Record pinv2 (used : list gostring) (m : prefix_subs) (t : ptree) : Prop := {
  inv2_node : t <> PNil;
  inv2_wf : pwf 0 t;
  inv2_content : forall k, pget t k = mget k m;
  inv2_sorted : ssorted (map fst m);
  inv2_paths : forall q, In q (ppaths [] t) -> q = [] \/ exists k, In k used /\ prefix_of q k }.

Lemma pinv2_subscribe used m t k u : pinv2 used m t -> proper (Subscribe k u) -> well_placed t m (Subscribe k u) ->
  exists t', padd t k u = Ok t' /\ pinv2 (k :: used) (mset k u m) t'.
Proof.
  intros [I1 I2 I3 I4 I5] [HB Hu] HP. apply (placed_add t k 0 I2 HB) in HP.
  destruct (padd_spec t k u 0 I1 I2 HB Hu HP) as (t' & E & N' & W' & G' & _ & P').
  exists t'. split; auto. split; auto.
  - intros k'. rewrite G', I3. rewrite mget_mset. reflexivity.
  - apply wf_mset; auto.
  - intros q Hq. apply P' in Hq. destruct Hq as [Hq|Hq].
    + destruct (I5 q Hq) as [|(k' & ? & ?)]; auto. right. exists k'. cbn; auto.
    + right. exists k. cbn; auto.
Qed.

Lemma mget_keys {V} k (m : smap V) : In k (map fst m) <-> mget k m <> None.
Proof.
  induction m as [|[k' v] m IH]; cbn; [tauto|]. destruct (seqb_spec k k') as [->|Hn].
  - split; [discriminate|auto].
  - rewrite <- IH. intuition congruence.
Qed.

Lemma pdelete_leaf t k : is_pleaf t = true -> k = pstring t -> pdelete t k = Ok t.
Proof.
  destruct t as [|u fo [|? ? ? ?] [|? ? ? ?]]; try discriminate. intros _ ->. cbn [pstring pdelete].
  rewrite has_prefix_refl, seqb_refl. reflexivity.
Qed.

Lemma pinv2_unsubscribe used m t k : pinv2 used m t -> is_bitstring k -> well_placed t m (Unsubscribe k) ->
  exists t', pdelete t k = Ok t' /\ pinv2 used (mdel k m) t'.
Proof.
  intros I HB HP. pose proof I as [I1 I2 I3 I4 I5].
  destruct (is_pleaf t) eqn:EL; [destruct (gostring_eq_dec k (pstring t)) as [Hk|Hk]|].
  - exists t. split; [apply pdelete_leaf; auto|].
    assert (mget k m = None) as Hm.
    { destruct (mget k m) eqn:Em; auto. exfalso. apply HP. split.
      - rewrite Hk. apply (leaf_nodes t 0); auto.
      - apply mget_keys. congruence. }
    split; auto.
    + intros k'. rewrite I3, mget_mdel by auto. destruct (seqb_spec k' k) as [->|]; auto.
    + apply wf_mdel; auto.
  - destruct (pdelete_spec t k 0 I1 I2 HB) as (t' & E & N' & W' & G' & _ & P'); [tauto|].
    exists t'. split; auto. split; auto.
    + intros k'. rewrite G', I3, mget_mdel by auto. reflexivity.
    + apply wf_mdel; auto.
  - destruct (pdelete_spec t k 0 I1 I2 HB) as (t' & E & N' & W' & G' & _ & P'); [intros []; congruence|].
    exists t'. split; auto. split; auto.
    + intros k'. rewrite G', I3, mget_mdel by auto. reflexivity.
    + apply wf_mdel; auto.
Qed.

Lemma pinv2_history cs : forall used m t, pinv2 used m t -> careful t m cs ->
  exists t' used', fold_left pchange cs (Ok t) = Ok t' /\ pinv2 used' (apply_changes m cs) t' /\
    (forall k, In k used' -> In k used \/ (In k (subscribed_keys cs) /\ is_bitstring k)).
Proof.
  induction cs as [|c cs IH]; intros used m t I H.
  - exists t, used. cbn. auto.
  - inversion H as [|t0 m0 c0' t1 cs0 HPr HP HE HC]; subst. cbn [fold_left].
    assert (pchange (Ok t) c = perform t c) as -> by (destruct c; reflexivity). rewrite HE.
    destruct c as [k u|k]; cbn [perform] in HE.
    + destruct (pinv2_subscribe used m t k u I HPr HP) as (t1' & E1 & I1).
      rewrite E1 in HE. injection HE as ->.
      destruct (IH _ _ _ I1 HC) as (t' & used' & E & I' & U'). exists t', used'. split; auto. split; auto.
      intros k' Hk'. apply U' in Hk'. destruct HPr as [HB _]. cbn [In subscribed_keys flat_map app] in *.
      destruct Hk' as [[<-|Hk']|Hk']; auto. right. tauto.
    + destruct (pinv2_unsubscribe used m t k I HPr HP) as (t1' & E1 & I1).
      rewrite E1 in HE. injection HE as ->.
      destruct (IH _ _ _ I1 HC) as (t' & used' & E & I' & U'). exists t', used'. auto.
Qed.

Lemma initially_unique b m m' : initially b m -> initially b m' -> m = m'.
Proof.
  intros [A H] [A' H']. apply sorted_pairs_ext; try (apply ascending_ssorted; assumption).
  intros [k u]. rewrite H, H'. reflexivity.
Qed.
Lemma initially_content b : flat b -> (forall k u, In (k, u) (entries b) -> u <> []) ->
  initially (entries b) (patricia_content b).
Proof.
  intros F HU. split.
  - apply ascending_ssorted. unfold patricia_content. apply ssorted_filter_fst. rewrite entries_keys. apply F.
  - intros k u. rewrite entries_keys. unfold patricia_content. rewrite filter_In. cbn [fst snd].
    rewrite andb_true_iff, !negb_true_iff, !seqb_neq. split.
    + intros (Hku & Hk & _). split; auto. intros HL. apply Hk. apply lcp_unique; auto.
      intros Hx. assert (In k (mkeys b)) as Hin. { rewrite <- entries_keys. apply in_map with (f := fst) in Hku. auto. }
      rewrite Hx in Hin. destruct Hin.
    + intros [Hku HL]. split; auto. split; [|eapply HU; eauto]. intros ->. apply HL. apply lcp_is_longest.
      assert (In (lcp (mkeys b)) (mkeys b)) as Hin. { rewrite <- entries_keys at 2. apply in_map with (f := fst) in Hku. auto. }
      intros Hx. rewrite Hx in Hin. destruct Hin.
Qed.

Lemma fresh_pinv2 E sub t m : let b := to_byte_subs E sub in
  Forall is_bitstring (mkeys b) -> (forall k u, In (k, u) (entries b) -> u <> []) ->
  new_patricia E sub = Some t -> initially (entries b) m -> pinv2 (mkeys b) m t.
Proof.
  intros b HB HU HE HI. pose proof (to_byte_subs_flat E sub) as F. fold b in F.
  destruct (new_patricia_b_spec b F HB) as (t' & Et & N & W & G & PE & PS & PP).
  unfold new_patricia in HE. fold b in HE. rewrite Et in HE. injection HE as <-.
  rewrite (initially_unique _ _ _ HI (initially_content b F HU)).
  split; auto. apply ascending_ssorted. apply initially_content; auto.
Qed.

Lemma pinv2_search used m t pc id : pinv2 used m t -> wf_bytes id -> id <> [] ->
  Forall is_bitstring used -> decides id used ->
  exists uris, reported id m uris /\ answers (translate pc id) uris (patricia_search t pc id).
Proof.
  intros I Hw Hid HB HD. destruct I as [I1 I2 I3 I4 I5].
  destruct (psearch_spec t id Hw [] I1) as (uris & HR & HS); auto.
  { constructor. } { apply prefix_nil. }
  { intros p Hp Hr. assert (is_bitstring p) by (eapply ppaths_bits; eauto; constructor).
    destruct (I5 p Hp) as [->|(k & Hk & Hpk)].
    - apply runs_out_str in Hr; [|constructor]. destruct Hr as [|[Hx _]]; [congruence|cbn in Hx; lia].
    - apply (HD k Hk). eapply runs_out_extend; eauto. rewrite Forall_forall in HB; auto. }
  exists uris. split.
  - replace m with (pentries [] t); auto. apply wf_map_ext; auto.
    + eapply pentries_sorted; eauto.
    + intros k. rewrite <- I3. apply (mget_pentries t [] 0 k I2).
  - unfold patricia_search. rewrite HS. cbn [bind]. apply finish_search_answers.
Qed.

Lemma careful_run E sub0 ops t0 m0 : let b := to_byte_subs E sub0 in
  Forall is_bitstring (mkeys b) -> (forall k u, In (k, u) (entries b) -> u <> []) ->
  new_patricia E sub0 = Some t0 -> initially (entries b) m0 -> careful t0 m0 (changes_of E ops) ->
  exists t used, patricia_run E sub0 ops = Ok t /\ pinv2 used (apply_changes m0 (changes_of E ops)) t
    /\ Forall is_bitstring used
    /\ (forall k, In k used -> In k (mkeys b) \/ In k (subscribed_keys (changes_of E ops))).
Proof.
  intros b HB HU HE HI HC. pose proof (fresh_pinv2 E sub0 t0 m0 HB HU HE HI) as I0.
  destruct (pinv2_history _ _ _ _ I0 HC) as (t & used & Et & It & Hu).
  exists t, used. split; [|split; [auto|split]].
  - unfold patricia_run. rewrite HE, fold_patricia_update. exact Et.
  - apply Forall_forall. intros k Hk. apply Hu in Hk. fold b in Hk. rewrite Forall_forall in HB. intuition.
  - intros k Hk. apply Hu in Hk. fold b in Hk. intuition.
Qed.

Lemma careful_history E sub0 ops t0 m0 pc id : let b := to_byte_subs E sub0 in
  Forall is_bitstring (mkeys b) -> (forall k u, In (k, u) (entries b) -> u <> []) ->
  new_patricia E sub0 = Some t0 -> initially (entries b) m0 -> careful t0 m0 (changes_of E ops) ->
  wf_bytes id -> id <> [] -> decides id (mkeys b ++ subscribed_keys (changes_of E ops)) ->
  exists t uris, patricia_run E sub0 ops = Ok t /\
    reported id (apply_changes m0 (changes_of E ops)) uris /\
    answers (translate pc id) uris (patricia_search t pc id).
Proof.
  intros b HB HU HE HI HC Hw Hid HD.
  destruct (careful_run E sub0 ops t0 m0 HB HU HE HI HC) as (t & used & Et & It & HBu & Hu).
  destruct (pinv2_search used _ t pc id It Hw Hid HBu) as (uris & HR & HA).
  { intros k Hk. apply HD. apply in_or_app. auto. }
  exists t, uris. auto.
Qed.

(** ** Badly placed changes *)
Fixpoint puris (t : ptree) : list gostring :=
  match t with PNil => [] | PNode u fo one zero => u :: puris one ++ puris zero end.
Lemma psearch_uris t id : forall uris, psearch t id = Ok uris -> forall u, In u uris -> In u (puris t).
Proof.
  induction t as [|u fo one IH1 zero IH0]; intros uris H v Hv; [discriminate|]. cbn [psearch] in H. cbn [puris].
  destruct (match_filter fo id) as [[]| |]; try discriminate; [|injection H as <-; destruct Hv].
  cbn [bind] in H. destruct (get_next_bit _ _) as [nb| |]; try discriminate.
  assert (forall t' r, match t' with PNil => Ok [] | _ => psearch t' id end = Ok r ->
            (forall uris, psearch t' id = Ok uris -> forall u, In u uris -> In u (puris t')) ->
            forall u, In u r -> In u (puris t')) as HX.
  { intros t' r Hr IH w Hw. destruct t'; [injection Hr as <-; destruct Hw|]. eapply IH; eauto. }
  assert (forall r, Ok ((match u with [] => [] | _ => [u] end) ++ r) = Ok uris -> In v r \/ v = u) as HH.
  { intros r Hr. injection Hr as <-. apply in_app_or in Hv. destruct Hv as [Hv|]; auto.
    destruct u; [destruct Hv|]. destruct Hv as [<-|[]]; auto. }
  destruct (Ascii.eqb nb c1); [|destruct (Ascii.eqb nb c0)].
  - destruct (match one with PNil => Ok [] | _ => _ end) as [r| |] eqn:Er; try discriminate. cbn [bind] in H.
    apply HH in H. cbn. destruct H as [H|]; auto. right. apply in_or_app. left. eapply HX; eauto.
  - destruct (match zero with PNil => Ok [] | _ => _ end) as [r| |] eqn:Er; try discriminate. cbn [bind] in H.
    apply HH in H. cbn. destruct H as [H|]; auto. right. apply in_or_app. right. eapply HX; eauto.
  - cbn [bind] in H. apply HH in H. destruct H as [[]|]; cbn; auto.
Qed.
Lemma puris_entries t : forall pre u, u <> [] -> In u (puris t) -> In u (map snd (pentries pre t)).
Proof.
  induction t as [|u0 fo one IH1 zero IH0]; intros pre u Hu; [intros []|]. cbn [puris pentries].
  rewrite !map_app, !in_app_iff. intros [<-|H].
  - left. destruct u0; [congruence|]. cbn; auto.
  - apply in_app_or in H. destruct H; auto.
Qed.

(** A badly placed addition stores no new report URI. *)
Lemma padd_unsafe_uris t : forall fs uri off, pwf off t -> is_bitstring fs -> add_safe t fs = false ->
  exists t', padd t fs uri = Ok t' /\ forall v, v <> [] -> In v (puris t') -> In v (puris t).
Proof.
  induction t as [|u fo one IH1 zero IH0]; intros fs uri off W HB HA; [discriminate|].
  cbn [pwf] in W. destruct W as (HF & HS & S1 & S0 & W1 & W0). cbn [add_safe] in HA. cbn [padd].
  assert (fo_size fo = length (fo_string fo)) as HSz by (rewrite HF at 1; apply new_filter_size).
  rewrite HSz.
  destruct (has_prefix fs (fo_string fo)) eqn:EP.
  - apply has_prefix_spec in EP. destruct EP as [y Hy]. subst fs. rewrite skipn_app_l in HA |- *.
    destruct y as [|c r]; [discriminate|].
    destruct (seqb_spec (fo_string fo ++ c :: r) (fo_string fo)) as [Hx|Hx].
    { apply (f_equal (@length ascii)) in Hx. rewrite app_length in Hx. cbn in Hx. lia. }
    apply is_bitstring_app in HB. destruct HB as [HBs HBy].
    destruct (bit_cases c r HBy) as [-> | ->].
    + change (Ascii.eqb c0 c1) with false in *. change (Ascii.eqb c0 c0) with true. cbn iota in HA |- *.
      destruct (IH0 (c0 :: r) uri _ W0 HBy HA) as (t' & E & G).
      destruct zero as [|u1 f1 o1 z1]; [discriminate|]. rewrite E. cbn [bind].
      eexists. split; [reflexivity|]. intros v Hv. specialize (G v Hv). revert G.
      cbn [puris]. generalize (puris t'), (u1 :: puris o1 ++ puris z1). intros a b G.
      cbn [In]. rewrite !in_app_iff. tauto.
    + change (Ascii.eqb c1 c1) with true in *. cbn iota in HA |- *.
      destruct (IH1 (c1 :: r) uri _ W1 HBy HA) as (t' & E & G).
      destruct one as [|u1 f1 o1 z1]; [discriminate|]. rewrite E. cbn [bind].
      eexists. split; [reflexivity|]. intros v Hv. specialize (G v Hv). revert G.
      cbn [puris]. generalize (puris t'), (u1 :: puris o1 ++ puris z1). intros a b G.
      cbn [In]. rewrite !in_app_iff. tauto.
  - apply negb_false_iff, has_prefix_spec in HA.
    assert (lcp [fs; fo_string fo] = fs) as ->.
    { apply prefix_antisym; [apply lcp_prefix; cbn; auto|].
      apply lcp_greatest; [discriminate|]. intros x [<-|[<-|[]]]; auto using prefix_refl. }
    rewrite skipn_all. eexists. split; [reflexivity|]. intros v Hv. cbn [puris In]. intuition congruence.
Qed.

Lemma misplaced_add E sub0 ops t0 m0 t sub k u : let b := to_byte_subs E sub0 in
  Forall is_bitstring (mkeys b) -> (forall k u, In (k, u) (entries b) -> u <> []) ->
  new_patricia E sub0 = Some t0 -> initially (entries b) m0 -> careful t0 m0 (changes_of E ops) ->
  patricia_run E sub0 ops = Ok t -> let m := apply_changes m0 (changes_of E ops) in
  entries (to_byte_subs E sub) = [(k, u)] -> proper (Subscribe k u) -> ~ well_placed t m (Subscribe k u) ->
  ~ In u (map snd m) ->
  exists t', patricia_add E t sub = Ok t' /\
    forall pc id uri uris silent, patricia_search t' pc id = Ok (uri, uris, silent) -> ~ In u uris.
Proof.
  intros b HB HU HE HI HC HR m HS [Hk Hu] HW HN.
  destruct (careful_run E sub0 ops t0 m0 HB HU HE HI HC) as (t1 & used & Et & It & _).
  rewrite HR in Et. assert (t1 = t) as -> by congruence. destruct It as [I1 I2 I3 I4 I5]. fold m in I3, I4.
  assert (add_safe t k = false) as HA.
  { destruct (add_safe t k) eqn:EA; auto. exfalso. apply HW. apply (placed_add t k 0 I2 Hk). auto. }
  destruct (padd_unsafe_uris t k u 0 I2 Hk HA) as (t' & E' & HV).
  exists t'. split.
  { pose proof (fold_patricia_update E [Add sub] (Ok t)) as HF. cbn [fold_left] in HF.
    unfold patricia_update in HF. cbn [bind] in HF. rewrite HF, changes_of_one. cbn [update_changes].
    rewrite HS. exact E'. }
  intros pc id uri uris silent HQ Hin. apply HN.
  assert (In u (puris t)) as Hp.
  { apply HV; auto. unfold patricia_search in HQ. destruct (psearch t' id) as [us| |] eqn:Ep; try discriminate.
    cbn [bind] in HQ. eapply psearch_uris; [exact Ep|].
    destruct (finish_search_answers pc id us) as [[Hus Hr]|(Hus & Hr)]; rewrite HQ in Hr.
    - injection Hr as -> -> ->. destruct Hin.
    - destruct (translate pc id) as [w| |]; try discriminate; injection Hr as ? ? ?; subst; auto. }
  apply (puris_entries t [] u Hu) in Hp.
  replace m with (pentries [] t); auto. apply wf_map_ext; auto.
  - eapply pentries_sorted; eauto.
  - intros k'. rewrite <- I3. apply (mget_pentries t [] 0 k' I2).
Qed.

Lemma misplaced_del E sub0 ops t0 m0 t sub k u : let b := to_byte_subs E sub0 in
  Forall is_bitstring (mkeys b) -> (forall k u, In (k, u) (entries b) -> u <> []) ->
  new_patricia E sub0 = Some t0 -> initially (entries b) m0 -> careful t0 m0 (changes_of E ops) ->
  patricia_run E sub0 ops = Ok t -> let m := apply_changes m0 (changes_of E ops) in
  entries (to_byte_subs E sub) = [(k, u)] -> ~ well_placed t m (Unsubscribe k) ->
  patricia_del E t sub = Ok t /\ In k (map fst m).
Proof.
  intros b HB HU HE HI HC HR m HS HW.
  destruct (careful_run E sub0 ops t0 m0 HB HU HE HI HC) as (t1 & used & Et & It & _).
  rewrite HR in Et. assert (t1 = t) as -> by congruence. destruct It as [I1 I2 I3 I4 I5]. fold m in I3, I4.
  assert (In k (map fst m)) as Hm.
  { destruct (in_dec gostring_eq_dec k (map fst m)) as [|Hn]; auto. exfalso. apply HW. intros [_ H]. auto. }
  split; auto.
  assert (pdelete t k = Ok t) as HD.
  { destruct (is_pleaf t) eqn:EL.
    - destruct (gostring_eq_dec k (pstring t)) as [Hk|Hk]; [apply pdelete_leaf; auto|].
      exfalso. apply HW. intros [H _]. apply Hk. symmetry. apply H. apply root_node; auto.
    - exfalso. apply HW. intros [H _].
      assert (is_pleaf t = true); [|congruence]. apply (leaf_nodes t 0); auto. intros q Hq.
      rewrite (H q Hq). symmetry. apply H. apply root_node; auto. }
  pose proof (fold_patricia_update E [Del sub] (Ok t)) as HF. cbn [fold_left] in HF.
  unfold patricia_update in HF. cbn [bind] in HF. rewrite HF, changes_of_one. cbn [update_changes].
  rewrite HS. exact HD.
Qed.

(** Deciding [careful] on concrete data. *)
Definition placed_b (t : ptree) (m : prefix_subs) (c : change) : bool :=
  match c with
  | Subscribe k u => existsb (seqb k) (ppaths [] t)
                     || forallb (fun q => negb (has_prefix q k && negb (seqb q k))) (ppaths [] t)
  | Unsubscribe k => negb (forallb (seqb k) (ppaths [] t) && existsb (seqb k) (map fst m))
  end.
Definition proper_b (c : change) : bool :=
  match c with
  | Subscribe k u => forallb (fun x => Ascii.eqb x c0 || Ascii.eqb x c1) k && negb (seqb u [])
  | Unsubscribe k => forallb (fun x => Ascii.eqb x c0 || Ascii.eqb x c1) k
  end.
Fixpoint careful_b (t : ptree) (m : prefix_subs) (cs : list change) : bool :=
  match cs with
  | [] => true
  | c :: cs' => proper_b c && placed_b t m c &&
      match perform t c with Ok t' => careful_b t' (apply_change m c) cs' | _ => false end
  end.
Lemma bits_b k : forallb (fun x => Ascii.eqb x c0 || Ascii.eqb x c1) k = true -> is_bitstring k.
Proof.
  intros H. apply Forall_forall. intros x Hx. rewrite forallb_forall in H. apply H in Hx.
  apply orb_true_iff in Hx. rewrite !Ascii.eqb_eq in Hx. exact Hx.
Qed.
Lemma existsb_seqb k l : existsb (seqb k) l = true -> In k l.
Proof. intros H. apply existsb_exists in H. destruct H as (x & Hx & H). apply seqb_eq in H. subst; auto. Qed.
Lemma careful_b_spec cs : forall t m, careful_b t m cs = true -> careful t m cs.
Proof.
  induction cs as [|c cs IH]; intros t m H; [constructor|]. cbn [careful_b] in H.
  rewrite !andb_true_iff in H. destruct H as [[HP HW] H].
  destruct (perform t c) as [t'| |] eqn:E; try discriminate.
  apply careful_cons with t'; auto.
  - destruct c; cbn in HP |- *; [|apply bits_b; auto]. apply andb_true_iff in HP. destruct HP as [HP HU].
    split; [apply bits_b; auto|]. apply negb_true_iff, seqb_neq in HU. exact HU.
  - destruct c as [k u|k]; cbn [placed_b] in HW; cbn [well_placed].
    + apply orb_true_iff in HW. destruct HW as [HW|HW].
      * left. apply has_node_nil. apply existsb_seqb; auto.
      * right. intros q Hq [Hx Hn]. rewrite forallb_forall in HW. apply has_node_nil in Hq. apply HW in Hq.
        apply has_prefix_spec in Hx. rewrite Hx in Hq. destruct (seqb_spec q k); [congruence|discriminate].
    + intros [H1 H2]. apply negb_true_iff in HW.
      assert (forallb (seqb k) (ppaths [] t) && existsb (seqb k) (map fst m) = true); [|congruence].
      apply andb_true_iff. split.
      * apply forallb_forall. intros q Hq. apply has_node_nil in Hq. rewrite (H1 q Hq). apply seqb_refl.
      * apply existsb_exists. exists k. split; auto. apply seqb_refl.
Qed.
Lemma placed_b_complete t m c : well_placed t m c -> placed_b t m c = true.
Proof.
  destruct c as [k u|k]; cbn [placed_b well_placed].
  - intros [H|H]; apply orb_true_iff; [left|right].
    + apply has_node_nil in H. apply existsb_exists. exists k. split; auto. apply seqb_refl.
    + apply forallb_forall. intros q Hq. apply has_node_nil in Hq. apply H in Hq.
      destruct (has_prefix q k) eqn:E; auto. destruct (seqb_spec q k); auto. exfalso. apply Hq.
      split; auto. apply has_prefix_spec; auto.
  - intros H. apply negb_true_iff. destruct (_ && _) eqn:E; auto. exfalso. apply H.
    apply andb_true_iff in E. destruct E as [E1 E2]. rewrite forallb_forall in E1. split.
    + intros q Hq. apply has_node_nil in Hq. apply E1, seqb_eq in Hq. auto.
    + apply existsb_seqb; auto.
Qed.
Lemma initially_b b m : flat b -> forallb (fun p => negb (seqb (snd p) [])) (entries b) = true ->
  m = patricia_content b -> initially (entries b) m.
Proof.
  intros F H ->. apply initially_content; auto. intros k u Hk. rewrite forallb_forall in H. apply H in Hk.
  apply negb_true_iff, seqb_neq in Hk. exact Hk.
Qed.
