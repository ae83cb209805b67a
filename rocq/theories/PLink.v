(** linkSubset. *)
From Verif Require Import GoBase BinUtil MSubs MEngine.
From Verif Require Import PBase Spec PFilter PEngine PSubs PExamples PPatricia.
From Verif Require Export SpecNest.
From Coq Require Import Lia.
Lemma pflat_eq pre p : pflat pre p = (pre, ps_uri p) :: fflat pre (ps_subset p).
Proof.
  destruct p as [o u s]. cbn [pflat ps_uri ps_subset]. f_equal. unfold fflat.
  induction s as [|[k q] s IH]; cbn; auto. rewrite IH. reflexivity.
Qed.

Lemma forest_nil off : forest off [].
Proof. constructor; cbn; try tauto. constructor. Qed.

Lemma fflat_mget pre F x : wf_map F ->
  In x (fflat pre F) <-> exists k p, mget k F = Some p /\ In x (pflat (pre ++ k) p).
Proof.
  intros W. unfold fflat. rewrite in_flat_map. split.
  - intros ([k p] & H1 & H2). exists k, p. split; auto. apply In_mget; auto.
  - intros (k & p & H1 & H2). exists (k, p). split; auto. apply mget_In; auto.
Qed.
Lemma fflat_pre pre F : forall q, fflat (q ++ pre) F = map (fun x => (q ++ fst x, snd x)) (fflat pre F).
Proof.
  assert (forall p pre q, pflat (q ++ pre) p = map (fun x => (q ++ fst x, snd x)) (pflat pre p)) as HP.
  { fix IH 1. intros [o u s] pre' q. cbn [pflat map fst snd]. f_equal.
    induction s as [|[k p] s IHs]; cbn [map]; auto. rewrite map_app, <- IH, app_assoc. f_equal. apply IHs. }
  intros q. unfold fflat. induction F as [|[k p] F IH]; cbn [flat_map fst snd]; auto.
  rewrite map_app, IH, <- HP, <- app_assoc. reflexivity.
Qed.
Lemma fflat_In_pre pre F x : In x (fflat pre F) <-> exists y, In y (fflat [] F) /\ x = (pre ++ fst y, snd y).
Proof.
  rewrite <- (app_nil_r pre) at 1. rewrite fflat_pre, in_map_iff. split; intros (y & H1 & H2); eauto.
Qed.
Lemma fflat_key k p F : wf_map F -> mget k F = Some p -> In (k, ps_uri p) (fflat [] F).
Proof.
  intros W H. apply fflat_mget; auto. exists k, p. split; auto. rewrite pflat_eq. left. reflexivity.
Qed.
Lemma fflat_sub k p F x : wf_map F -> mget k F = Some p -> In x (fflat [] (ps_subset p)) -> In (k ++ fst x, snd x) (fflat [] F).
Proof.
  intros W H Hx. apply fflat_mget; auto. exists k, p. split; auto. rewrite pflat_eq. right. cbn [app].
  apply fflat_In_pre. eauto.
Qed.

Lemma In_mkeys {V} k (m : smap V) : In k (mkeys m) <-> mget k m <> None.
Proof.
  unfold mkeys. split.
  - induction m as [|[k' v] m IH]; cbn; [tauto|]. destruct (seqb_spec k k'); [congruence|].
    intros [->|H]; [congruence|]. auto.
  - intros H. destruct (mget k m) as [v|] eqn:E; [|congruence]. apply mget_In in E.
    apply in_map with (f := fst) in E. auto.
Qed.

Lemma sltb_app_free a b y z : sltb a b = true -> ~ prefix_of a b -> sltb (a ++ y) (b ++ z) = true.
Proof.
  revert b; induction a as [|c a IH]; intros b H HP; [exfalso; apply HP, prefix_nil|].
  destruct b as [|d b]; [discriminate|]. cbn in *.
  destruct (N.ltb (N_of_ascii c) (N_of_ascii d)) eqn:E1; auto.
  destruct (N.ltb (N_of_ascii d) (N_of_ascii c)) eqn:E2; auto.
  apply IH; auto. intros [r ->]. apply HP. exists r. cbn. f_equal. rewrite <- (ascii_N_embedding c), <- (ascii_N_embedding d). f_equal.
  apply N.ltb_ge in E1. apply N.ltb_ge in E2. lia.
Qed.
Lemma ssorted_app_lt l1 l2 a b : ssorted (l1 ++ l2) -> In a l1 -> In b l2 -> sltb a b = true.
Proof.
  induction l1 as [|c l1 IH]; cbn; [tauto|]. intros H [<-|Ha] Hb; inversion H as [|? ? Hs Hf]; subst.
  - rewrite Forall_forall in Hf. apply Hf. apply in_or_app; auto.
  - apply IH; auto.
Qed.
Lemma ssorted_app_r l1 l2 : ssorted (l1 ++ l2) -> ssorted l2.
Proof. induction l1 as [|c l1 IH]; cbn; auto. intros H; inversion H; auto. Qed.
Lemma ext_slt k' k : strictly_extends k' k -> sltb k k' = true.
Proof.
  intros [[r ->] Hn]. destruct r as [|c r]; [rewrite app_nil_r in Hn; congruence|].
  apply prefix_slt with (c := c). exists r. rewrite <- app_assoc. reflexivity.
Qed.
Lemma ext_trans a b c : strictly_extends a b -> strictly_extends b c -> strictly_extends a c.
Proof.
  intros H1 H2. split; [eapply prefix_trans; [apply H2|apply H1]|].
  intros ->. apply ext_slt in H1. apply ext_slt in H2. 
  pose proof (sltb_trans _ _ _ H1 H2) as H. rewrite sltb_irrefl in H. discriminate.
Qed.

Section Inner.
  Context (rec : bsubs -> result bsubs) (n off : nat) (e : gostring).
  Context (Hrec : forall sub rest u,
    forest (off + length e) sub -> (forall k, In k (mkeys sub) -> k <> []) -> rest <> [] -> length rest < n ->
    (forall x, In x (fflat [] sub) -> sltb (fst x) rest = true) ->
    exists sub', rec (mset rest (PSub (off + length e) u []) sub) = Ok sub' /\
      forest (off + length e) sub' /\ (forall k, In k (mkeys sub') -> k <> []) /\
      forall pre x, In x (fflat pre sub') <-> In x (fflat pre sub) \/ x = (pre ++ rest, u)).

  Lemma inner_spec : forall l b ue sub, wf_map b -> ssorted l ->
    mget e b = Some (PSub off ue sub) -> forest (off + length e) sub -> (forall k, In k (mkeys sub) -> k <> []) ->
    (forall fs, In fs l -> mget fs b <> None) ->
    (forall fs, In fs l -> strictly_extends fs e ->
       (exists u, mget fs b = Some (PSub off u [])) /\ length (skipn (length e) fs) < n /\
       forall x, In x (fflat [] sub) -> sltb (fst x) (skipn (length e) fs) = true) ->
    exists b' sub', fold_left (link_step rec e) l (Ok b) = Ok b' /\ wf_map b' /\
      mget e b' = Some (PSub off ue sub') /\ forest (off + length e) sub' /\ (forall k, In k (mkeys sub') -> k <> []) /\
      (forall k, k <> e -> mget k b' = if existsb (seqb k) l && ext_b k e then None else mget k b) /\
      (forall pre x, In x (fflat pre sub') <-> In x (fflat pre sub) \/
         exists fs u, In fs l /\ strictly_extends fs e /\ mget fs b = Some (PSub off u []) /\ x = (pre ++ skipn (length e) fs, u)).
  Proof.
    induction l as [|fs l IH]; intros b ue sub W S He HF HN HP HX.
    - exists b, sub. do 6 (split; [auto|]). intros pre x. split; auto. intros [H|(fs & u & [] & _)]; auto.
    - inversion S as [|? ? S' Hlt]; subst. rewrite Forall_forall in Hlt.
      cbn [fold_left]. unfold link_step at 2. cbn [bind].
      destruct (mget fs b) as [p|] eqn:Efs; [|exfalso; eapply HP; [left; reflexivity|auto]].
      destruct (has_prefix fs e && negb (seqb fs e)) eqn:EX.
      + fold (ext_b fs e) in EX. pose proof EX as EXb. apply ext_b_spec in EX.
        destruct (HX fs (or_introl eq_refl) EX) as ([u Hu] & Hlen & Hord).
        rewrite Hu in Efs. injection Efs as <-.
        rewrite He. cbn [ps_offset ps_uri].
        assert (skipn (length e) fs <> []) as Hne.
        { destruct EX as [[r ->] Hne]. rewrite skipn_app_l. intros ->. rewrite app_nil_r in Hne. congruence. }
        destruct (Hrec sub (skipn (length e) fs) u HF HN Hne Hlen Hord) as (sub1 & R1 & F1 & N1 & M1).
        rewrite R1. cbn [bind].
        set (b1 := mdel fs (mset e (PSub off ue sub1) b)).
        assert (wf_map (mset e (PSub off ue sub1) b)) as W0 by (apply mset_wf; auto).
        assert (wf_map b1) as W1 by (apply mdel_wf; auto).
        assert (forall k, mget k b1 = if seqb k fs then None else if seqb k e then Some (PSub off ue sub1) else mget k b) as G1.
        { intros k. unfold b1. rewrite mget_mdel, mget_mset by auto. reflexivity. }
        assert (e <> fs) as Hefs by (intros ->; destruct EX; congruence).
        assert (forall f, In f l -> f <> fs) as Hlfs.
        { intros f Hf ->. apply Hlt in Hf. rewrite sltb_irrefl in Hf. discriminate. }
        destruct (IH b1 ue sub1 W1 S') as (b' & sub' & R & Wb & He' & Fs & Ns & Gs & Ms); auto.
        * rewrite G1. apply seqb_neq in Hefs. rewrite Hefs, seqb_refl. reflexivity.
        * intros f Hf. rewrite G1. pose proof (Hlfs f Hf) as Hnf. apply seqb_neq in Hnf. rewrite Hnf.
          destruct (seqb f e); [discriminate|]. apply HP. right; auto.
        * intros f Hf EXf. destruct (HX f (or_intror Hf) EXf) as ([uf Huf] & Hl & Ho). split; [|split; auto].
          -- exists uf. rewrite G1. pose proof (Hlfs f Hf) as Hnf. apply seqb_neq in Hnf. rewrite Hnf.
             assert (f <> e) as Hfe by apply EXf. apply seqb_neq in Hfe. rewrite Hfe. auto.
          -- intros x Hx. apply M1 in Hx. destruct Hx as [Hx| ->]; auto. cbn [fst app].
             apply Hlt in Hf. destruct EX as [[r1 ->] _], EXf as [[r2 ->] _]. rewrite !skipn_app_l.
             rewrite sltb_app in Hf. auto.
        * exists b', sub'. split; [exact R|]. split; [auto|]. split; [auto|]. split; [auto|]. split; [auto|]. split.
          -- intros k Hk. rewrite Gs by auto. rewrite G1. cbn [existsb].
             destruct (seqb_spec k fs) as [->|Hkf].
             ++ rewrite EXb. cbn [orb]. destruct (existsb _ l && true); reflexivity.
             ++ cbn [orb]. apply seqb_neq in Hk. rewrite Hk. reflexivity.
          -- intros pre x. rewrite Ms, M1. split.
             ++ intros [[H| ->]|(f & uf & H1 & H2 & H3 & ->)]; auto.
                ** right. exists fs, u. split; [left; auto|]. auto.
                ** right. exists f, uf. split; [right; auto|]. split; auto. split; auto.
                   rewrite G1 in H3. pose proof (Hlfs f H1) as Hnf. apply seqb_neq in Hnf. rewrite Hnf in H3.
                   assert (f <> e) as Hfe by apply H2. apply seqb_neq in Hfe. rewrite Hfe in H3. auto.
             ++ intros [H|(f & uf & [->|H1] & H2 & H3 & ->)]; auto.
                ** left. right. rewrite Hu in H3. injection H3 as <-. reflexivity.
                ** right. exists f, uf. split; auto. split; auto. split; auto.
                   rewrite G1. pose proof (Hlfs f H1) as Hnf. apply seqb_neq in Hnf. rewrite Hnf.
                   assert (f <> e) as Hfe by apply H2. apply seqb_neq in Hfe. rewrite Hfe. auto.
      + fold (ext_b fs e) in EX.
        destruct (IH b ue sub W S' He HF HN) as (b' & sub' & R & Wb & He' & Fs & Ns & Gs & Ms); auto.
        { intros f Hf. apply HP. right; auto. } { intros f Hf. apply HX. right; auto. }
        exists b', sub'. split; [exact R|]. split; [auto|]. split; [auto|]. split; [auto|]. split; [auto|]. split.
        * intros k Hk. rewrite Gs by auto. cbn [existsb]. destruct (seqb_spec k fs) as [->|Hkf]; auto.
          rewrite EX, !andb_false_r. reflexivity.
        * intros pre x. rewrite Ms. split.
          -- intros [H|(f & uf & H1 & H2)]; auto. right. exists f, uf. split; [right; auto|auto].
          -- intros [H|(f & uf & [->|H1] & H2 & H3)]; auto.
             ++ exfalso. apply ext_b_spec in H2. congruence.
             ++ right. exists f, uf. auto.
  Qed.
End Inner.

Lemma inner_noop rec e l b : (forall fs, In fs l -> mget fs b <> None /\ ~ strictly_extends fs e) ->
  fold_left (link_step rec e) l (Ok b) = Ok b.
Proof.
  induction l as [|fs l IH]; intros H; auto. cbn [fold_left]. unfold link_step at 2. cbn [bind].
  destruct (H fs (or_introl eq_refl)) as [H1 H2]. destruct (mget fs b); [|congruence].
  fold (ext_b fs e). destruct (ext_b fs e) eqn:EX; [apply ext_b_spec in EX; tauto|].
  apply IH. intros f Hf. apply H. right; auto.
Qed.

(** What linkSubset needs of its argument. *)
Record linkable (off : nat) (b : bsubs) : Prop := {
  lk_wf : wf_map b;
  lk_off : forall k p, mget k b = Some p -> ps_offset p = off;
  lk_forest : forall k p, mget k b = Some p -> forest (off + length k) (ps_subset p);
  lk_sub : forall k p k2, mget k b = Some p -> In k2 (mkeys (ps_subset p)) -> k2 <> [];
  lk_ext : forall e fs p q, mget e b = Some p -> mget fs b = Some q -> strictly_extends fs e ->
    ps_subset q = [] /\ forall x, In x (fflat [] (ps_subset p)) -> sltb (fst x) (skipn (length e) fs) = true }.

Lemma psub_eta p : p = PSub (ps_offset p) (ps_uri p) (ps_subset p).
Proof. destruct p; reflexivity. Qed.

Lemma bsub_keys_In (b : bsubs) k : wf_map b -> In k (bsub_keys b) <-> mget k b <> None.
Proof. intros W. rewrite bsub_keys_wf by auto. apply In_mkeys. Qed.

Lemma link_fuel_spec : forall n off b0, linkable off b0 ->
  (forall e fs, mget e b0 <> None -> mget fs b0 <> None -> strictly_extends fs e -> length (skipn (length e) fs) < n) ->
  exists b', link_subset_fuel (S n) b0 = Ok b' /\ forest off b' /\
    (forall k, In k (mkeys b') -> In k (mkeys b0)) /\
    (forall pre x, In x (fflat pre b') <-> In x (fflat pre b0)).
Proof.
  induction n as [n IHn] using lt_wf_ind. intros off b0 L HL.
  destruct L as [L1 L2 L3 L3' L4].
  cbn [link_subset_fuel].
  set (body := fun r e => let! b' := r in fold_left (link_step (link_subset_fuel n) e) (bsub_keys b') (Ok b')).
  assert (forall l2 l1 b,
    l1 ++ l2 = bsub_keys b0 ->
    wf_map b -> (forall k p, mget k b = Some p -> ps_offset p = off) ->
    (forall k p, mget k b = Some p -> forest (off + length k) (ps_subset p)) ->
    (forall k p k2, mget k b = Some p -> In k2 (mkeys (ps_subset p)) -> k2 <> []) ->
    (forall k, mget k b <> None -> mget k b0 <> None) ->
    (forall k, In k l2 -> mget k b <> None -> mget k b = mget k b0) ->
    (forall k k', In k l1 -> mget k b <> None -> mget k' b <> None -> ~ strictly_extends k' k) ->
    (forall k, mget k b0 <> None -> mget k b = None -> exists k1, In k1 l1 /\ mget k1 b <> None /\ strictly_extends k k1) ->
    (forall pre x, In x (fflat pre b) <-> In x (fflat pre b0)) ->
    exists b', fold_left body l2 (Ok b) = Ok b' /\ forest off b' /\
    (forall k, In k (mkeys b') -> In k (mkeys b0)) /\
    (forall pre x, In x (fflat pre b') <-> In x (fflat pre b0))) as main.
  { induction l2 as [|e l2 IH]; intros l1 b EQ W I2 I3 I3' I4 I5 I6 I7 I8.
    - exists b. split; auto. rewrite app_nil_r in EQ. subst l1. split; [|split; auto].
      + constructor; auto.
        * intros k k' Hk Hk'. rewrite In_mkeys in Hk, Hk'. apply I6; auto. apply bsub_keys_In; auto.
        * intros k p H. apply I2 with k. apply In_mget; auto.
        * intros k p k2 H. apply I3' with k. apply In_mget; auto.
        * intros k p H. apply I3. apply In_mget; auto.
      + intros k. rewrite !In_mkeys. auto.
    - assert (ssorted (l1 ++ e :: l2)) as SK.
      { rewrite EQ, bsub_keys_wf by auto. exact L1. }
      assert (forall k, In k l1 -> sltb k e = true) as Hl1.
      { intros k Hk. eapply ssorted_app_lt; eauto. left; auto. }
      assert (mget e b0 <> None) as He0.
      { apply bsub_keys_In; auto. rewrite <- EQ. apply in_or_app. right; left; auto. }
      cbn [fold_left]. unfold body at 2. cbn [bind].
      destruct (mget e b) as [p|] eqn:Ee.
      + (* e is still at this level *)
        assert (mget e b0 = Some p) as Ee0.
        { rewrite <- Ee. symmetry. apply I5; [left; auto|congruence]. }
        assert (forall fs, mget fs b <> None -> strictly_extends fs e -> mget fs b = mget fs b0) as Hsame.
        { intros fs Hfs EX. apply I5; auto. pose proof (I4 _ Hfs) as H0. apply bsub_keys_In in H0; auto.
          rewrite <- EQ in H0. apply in_app_or in H0. destruct H0 as [H0|H0]; auto. exfalso.
          apply Hl1 in H0. apply ext_slt in EX. pose proof (sltb_trans _ _ _ H0 EX) as H. rewrite sltb_irrefl in H. discriminate. }
        assert (Hrec : forall sub rest u,
          forest (off + length e) sub -> (forall k, In k (mkeys sub) -> k <> []) -> rest <> [] -> length rest < n ->
          (forall x, In x (fflat [] sub) -> sltb (fst x) rest = true) ->
          exists sub', link_subset_fuel n (mset rest (PSub (off + length e) u []) sub) = Ok sub' /\
            forest (off + length e) sub' /\ (forall k, In k (mkeys sub') -> k <> []) /\
            forall pre x, In x (fflat pre sub') <-> In x (fflat pre sub) \/ x = (pre ++ rest, u)).
        { clear - IHn. intros sub rest u HF HN Hne Hlen Hord.
          inversion HF as [? ? F1 F2 F3 F4 F5]; subst.
          destruct n as [|n]; [lia|].
          set (b1 := mset rest (PSub (off + length e) u []) sub).
          assert (wf_map b1) as W1 by (apply mset_wf; auto).
          assert (mget rest sub = None) as Hnone.
          { destruct (mget rest sub) as [q|] eqn:Eq; auto. apply fflat_key in Eq; auto. apply Hord in Eq. cbn in Eq.
            rewrite sltb_irrefl in Eq. discriminate. }
          assert (forall k, mget k b1 = if seqb k rest then Some (PSub (off + length e) u []) else mget k sub) as G1.
          { intros k. unfold b1. apply mget_mset. }
          assert (forall e' fs, mget e' b1 <> None -> mget fs b1 <> None -> strictly_extends fs e' ->
                    fs = rest /\ e' <> rest /\ mget e' sub <> None) as Hext.
          { intros e' fs He' Hfs EX. rewrite G1 in He', Hfs.
            destruct (seqb_spec e' rest) as [->|Hn1].
            - exfalso. destruct (seqb_spec fs rest) as [->|Hn2]; [destruct EX; congruence|].
              destruct (mget fs sub) as [q|] eqn:Eq; [|congruence]. apply fflat_key in Eq; auto. apply Hord in Eq. cbn in Eq.
              apply ext_slt in EX. pose proof (sltb_trans _ _ _ Eq EX) as H. rewrite sltb_irrefl in H. discriminate.
            - split; auto. destruct (seqb_spec fs rest) as [->|Hn2]; auto. exfalso.
              apply (F2 e' fs); auto; apply In_mkeys; auto. }
          destruct (IHn n (Nat.lt_succ_diag_r n) (off + length e) b1) as (b' & R & FF & KK & MM).
          - split; auto.
            + intros k q. rewrite G1. destruct (seqb k rest); [intros H; injection H as <-; auto|].
              intros H. apply (F3 k). apply mget_In; auto.
            + intros k q. rewrite G1. destruct (seqb k rest); [intros H; injection H as <-; apply forest_nil|].
              intros H. apply F5. apply mget_In; auto.
            + intros k q k2. rewrite G1. destruct (seqb k rest); [intros H; injection H as <-; intros []|].
              intros H. apply (F4 k). apply mget_In; auto.
            + intros e' fs q q' He' Hfs EX.
              destruct (Hext e' fs) as (-> & Hn & He2); auto; try congruence.
              rewrite G1 in He', Hfs. rewrite seqb_refl in Hfs. injection Hfs as <-. split; [reflexivity|].
              apply seqb_neq in Hn. rewrite Hn in He'. intros x Hx. pose proof (fflat_sub _ _ _ _ F1 He' Hx) as Hy.
              apply Hord in Hy. cbn [fst] in Hy. destruct EX as [[r ->] _]. rewrite skipn_app_l. rewrite sltb_app in Hy. auto.
          - intros e' fs He' Hfs EX. destruct (Hext e' fs) as (-> & Hn & He2); auto.
            assert (e' <> []) as Hne'. { apply HN. apply In_mkeys; auto. }
            rewrite skipn_length. destruct e' as [|c e']; [congruence|]. cbn [length].
            destruct EX as [[r ->] _]. cbn [length app] in Hlen |- *. rewrite app_length in *. lia.
          - exists b'. split; [exact R|]. split; auto. split.
            + intros k Hk. apply KK in Hk. rewrite In_mkeys, G1 in Hk.
              destruct (seqb_spec k rest) as [Hkr|]; [rewrite Hkr; auto|]. apply HN. apply In_mkeys; auto.
            + intros pre x. rewrite MM. rewrite !fflat_mget by auto. split.
              * intros (k & q & Hk & Hx). rewrite G1 in Hk. destruct (seqb_spec k rest) as [->|Hnk].
                -- injection Hk as <-. rewrite pflat_eq in Hx. destruct Hx as [<-|[]]. right. reflexivity.
                -- left. eauto.
              * intros [(k & q & Hk & Hx)| ->].
                -- exists k, q. split; auto. rewrite G1. destruct (seqb_spec k rest) as [->|]; auto. congruence.
                -- exists rest, (PSub (off + length e) u []). rewrite G1, seqb_refl. split; auto.
                   rewrite pflat_eq. left. reflexivity. }
        assert (p = PSub off (ps_uri p) (ps_subset p)) as Hp.
        { rewrite (psub_eta p) at 1. rewrite (I2 _ _ Ee). reflexivity. }
        assert (ssorted (bsub_keys b)) as SB by (rewrite bsub_keys_wf by auto; exact W).
        assert (forall fs, In fs (bsub_keys b) -> strictly_extends fs e ->
                  exists u, mget fs b = Some (PSub off u [])) as Hflat.
        { intros fs Hfs EX. apply bsub_keys_In in Hfs; auto. destruct (mget fs b) as [q|] eqn:Eq; [|congruence].
          exists (ps_uri q). f_equal. rewrite (psub_eta q) at 1. rewrite (I2 _ _ Eq). f_equal.
          assert (mget fs b0 = Some q) as Eq0.
          { rewrite <- Eq. symmetry. apply Hsame; auto. congruence. }
          apply (L4 e fs p q Ee0 Eq0 EX). }
        destruct (inner_spec (link_subset_fuel n) n off e Hrec (bsub_keys b) b (ps_uri p) (ps_subset p) W SB)
          as (b1 & sub1 & R & W1 & G1e & F1 & N1 & G1 & M1).
        * rewrite Ee. f_equal. auto.
        * apply I3; auto.
        * intros k. apply (I3' e p k Ee).
        * intros fs Hfs. apply bsub_keys_In; auto.
        * intros fs Hfs EX. split; [apply Hflat; auto|].
          apply bsub_keys_In in Hfs; auto. split; [apply HL; auto|].
          destruct (mget fs b0) as [q|] eqn:Eq0; [|exfalso; eapply I4; eauto].
          apply (L4 e fs p q Ee0 Eq0 EX).
        * cut (exists b', fold_left body l2 (Ok b1) = Ok b' /\ forest off b' /\
             (forall k, In k (mkeys b') -> In k (mkeys b0)) /\
             (forall pre x, In x (fflat pre b') <-> In x (fflat pre b0))).
          { intros (b' & Hb' & Hrest). exists b'. split; [|exact Hrest]. rewrite <- Hb'. f_equal. exact R. }
          assert (forall k, k <> e -> mget k b1 = if ext_b k e then None else mget k b) as G1'.
          { intros k Hk. rewrite G1 by auto. destruct (ext_b k e) eqn:EX; [|rewrite andb_false_r; auto].
            rewrite andb_true_r. destruct (existsb (seqb k) (bsub_keys b)) eqn:EI; auto.
            destruct (mget k b) as [q|] eqn:Eq; auto. exfalso.
            assert (In k (bsub_keys b)) as Hin by (apply bsub_keys_In; auto; congruence).
            assert (existsb (seqb k) (bsub_keys b) = true).
            { apply existsb_exists. exists k. split; auto. apply seqb_refl. }
            congruence. }
          assert (forall k, mget k b1 <> None -> k = e \/ (k <> e /\ ~ strictly_extends k e /\ mget k b1 = mget k b)) as K1.
          { intros k Hk. destruct (gostring_eq_dec k e) as [|Hne]; auto. right. split; auto.
            rewrite G1' in Hk by auto. rewrite (G1' k Hne). destruct (ext_b k e) eqn:EX; [congruence|]. split; auto.
            intros HX. apply ext_b_spec in HX. congruence. }
          apply (IH (l1 ++ [e]) b1); auto.
          -- rewrite <- app_assoc. exact EQ.
          -- intros k q Hq. destruct (K1 k) as [->|(H1 & H2 & H3)]; [congruence| |].
             ++ rewrite G1e in Hq. injection Hq as <-. reflexivity.
             ++ rewrite H3 in Hq. eauto.
          -- intros k q Hq. destruct (K1 k) as [->|(H1 & H2 & H3)]; [congruence| |].
             ++ rewrite G1e in Hq. injection Hq as <-. auto.
             ++ rewrite H3 in Hq. eauto.
          -- intros k q k2 Hq. destruct (K1 k) as [->|(H1 & H2 & H3)]; [congruence| |].
             ++ rewrite G1e in Hq. injection Hq as <-. apply N1.
             ++ rewrite H3 in Hq. eauto.
          -- intros k Hk. destruct (K1 k) as [->|(H1 & H2 & H3)]; auto. rewrite H3 in Hk. auto.
          -- intros k Hk2 Hk. destruct (K1 k) as [->|(H1 & H2 & H3)]; auto.
             ++ exfalso. assert (ssorted (e :: l2)) as S2 by (eapply ssorted_app_r; eauto).
                inversion S2 as [|? ? ? Hf]; subst. rewrite Forall_forall in Hf. apply Hf in Hk2.
                rewrite sltb_irrefl in Hk2. discriminate.
             ++ rewrite H3 in Hk |- *. apply I5; [right; auto|auto].
          -- intros k k' Hk Hkb Hk'b EX. apply in_app_or in Hk. destruct Hk as [Hk|[<-|[]]].
             ++ assert (k <> e) as Hke. { intros ->. apply Hl1 in Hk. rewrite sltb_irrefl in Hk. discriminate. }
                assert (mget k b <> None) as Hkb0.
                { rewrite G1' in Hkb by auto. destruct (ext_b k e); [congruence|auto]. }
                destruct (K1 k' Hk'b) as [->|(H1 & H2 & H3)].
                ** eapply (I6 k e); eauto. congruence.
                ** rewrite H3 in Hk'b. eapply (I6 k k'); eauto.
             ++ destruct (K1 k' Hk'b) as [->|(H1 & H2 & H3)]; [destruct EX; congruence|]. tauto.
          -- intros k Hk0 Hk. destruct (gostring_eq_dec k e) as [->|Hne]; [congruence|].
             rewrite G1' in Hk by auto. destruct (ext_b k e) eqn:EX.
             ++ exists e. split; [apply in_or_app; right; left; auto|]. split; [congruence|]. apply ext_b_spec; auto.
             ++ destruct (I7 k Hk0 Hk) as (k1 & H1 & H2 & H3). exists k1. split; [apply in_or_app; auto|]. split; auto.
                assert (k1 <> e) as Hk1e. { intros ->. apply Hl1 in H1. rewrite sltb_irrefl in H1. discriminate. }
                rewrite G1' by auto. destruct (ext_b k1 e) eqn:EX1; auto. exfalso.
                apply ext_b_spec in EX1. apply Hl1 in H1. apply ext_slt in EX1.
                pose proof (sltb_trans _ _ _ H1 EX1) as H. rewrite sltb_irrefl in H. discriminate.
          -- intros pre x. rewrite <- I8. rewrite !fflat_mget by auto. split.
             ++ intros (k & q & Hq & Hx). destruct (K1 k) as [->|(H1 & H2 & H3)]; [congruence| |].
                ** rewrite G1e in Hq. injection Hq as <-. rewrite pflat_eq in Hx. cbn [ps_uri ps_subset] in Hx.
                   destruct Hx as [<-|Hx].
                   { exists e, p. split; auto. rewrite pflat_eq. left. auto. }
                   apply M1 in Hx. destruct Hx as [Hx|(fs & u & H1 & H2 & H3 & ->)].
                   { exists e, p. split; auto. rewrite pflat_eq. right. auto. }
                   exists fs, (PSub off u []). split; auto. rewrite pflat_eq. left. cbn [ps_uri].
                   destruct H2 as [[r ->] _]. rewrite skipn_app_l, app_assoc. reflexivity.
                ** rewrite H3 in Hq. eauto.
             ++ intros (k & q & Hq & Hx). destruct (gostring_eq_dec k e) as [->|Hne].
                ** rewrite Ee in Hq. injection Hq as <-. exists e, (PSub off (ps_uri p) sub1). split; auto.
                   rewrite pflat_eq in Hx |- *. cbn [ps_uri ps_subset]. destruct Hx as [<-|Hx]; [left; auto|].
                   right. apply M1. auto.
                ** destruct (ext_b k e) eqn:EX.
                   { apply ext_b_spec in EX. assert (In k (bsub_keys b)) as Hin by (apply bsub_keys_In; auto; congruence).
                     destruct (Hflat k Hin EX) as [u Hu]. rewrite Hu in Hq. injection Hq as <-.
                     rewrite pflat_eq in Hx. cbn [ps_uri ps_subset] in Hx. destruct Hx as [<-|[]].
                     exists e, (PSub off (ps_uri p) sub1). split; auto. rewrite pflat_eq. cbn [ps_uri ps_subset]. right.
                     apply M1. right. exists k, u. split; auto. split; auto. split; auto.
                     destruct EX as [[r ->] _]. rewrite skipn_app_l, app_assoc. reflexivity. }
                   { exists k, q. split; auto. rewrite G1' by auto. rewrite EX. auto. }
      + (* e was nested under an earlier key *)
        destruct (I7 e He0 Ee) as (k1 & H1 & H2 & H3).
        rewrite inner_noop.
        * apply (IH (l1 ++ [e]) b); auto.
          -- rewrite <- app_assoc. exact EQ.
          -- intros k Hk. apply I5. right; auto.
          -- intros k k' Hk Hkb. apply in_app_or in Hk. destruct Hk as [Hk|[<-|[]]]; [apply I6; auto|congruence].
          -- intros k Hk0 Hk. destruct (I7 k Hk0 Hk) as (k2 & G1 & G2 & G3). exists k2. split; auto. apply in_or_app; auto.
        * intros fs Hfs. apply bsub_keys_In in Hfs; auto. split; auto. intros EX.
          apply (I6 k1 fs); auto. eapply ext_trans; eauto. }
  apply (main (bsub_keys b0) [] b0); auto.
  - intros k H1 H2. congruence.
  - intros pre x. reflexivity.
Qed.

(** ** Order *)
Lemma forest_sorted off F : forest off F -> forall pre, ssorted (map fst (fflat pre F)).
Proof.
  induction 1 as [off F W PF HO HS HF IH]. intros pre.
  assert (forall G, (forall x, In x G -> In x F) -> wf_map G -> ssorted (map fst (fflat pre G))) as H; [|apply H; auto].
  induction G as [|[k p] G IHG]; intros HG WG; [constructor|].
  cbn [fflat flat_map fst snd]. rewrite map_app. fold (fflat pre G).
  unfold wf_map in WG. cbn in WG. inversion WG as [|? ? WG' Hlt]; subst.
  apply ssorted_app; [| apply IHG; auto; intros x Hx; apply HG; right; auto|].
  - rewrite pflat_eq. cbn [map fst]. constructor.
    + apply IH with k. apply HG. left; auto.
    + apply Forall_forall. intros q Hq. apply in_map_iff in Hq. destruct Hq as (x & <- & Hx).
      apply fflat_In_pre in Hx. destruct Hx as (y & Hy & ->). cbn [fst].
      assert (fst y <> []) as Hne.
      { assert (wf_map (ps_subset p)) as Wp. { specialize (HF k p). destruct HF; auto. apply HG; left; auto. }
        apply fflat_mget in Hy; auto. destruct Hy as (k2 & p2 & Hk2 & Hy). cbn [app] in Hy.
        assert (k2 <> []) as Hk2n. { apply (HS k p); [apply HG; left; auto|]. apply In_mkeys. congruence. }
        rewrite pflat_eq in Hy. destruct Hy as [<-|Hy]; auto. apply fflat_In_pre in Hy. destruct Hy as (z & _ & ->).
        cbn. destruct k2; [congruence|discriminate]. }
      destruct (fst y) as [|c r]; [congruence|]. apply prefix_slt with c. exists r. rewrite <- !app_assoc. reflexivity.
  - intros a b Ha Hb.
    assert (exists y, a = pre ++ k ++ y) as [y ->].
    { rewrite pflat_eq in Ha. cbn [map] in Ha. destruct Ha as [<-|Ha]; [exists []; cbn; rewrite app_nil_r; auto|].
      apply in_map_iff in Ha. destruct Ha as (x & <- & Hx). apply fflat_In_pre in Hx. destruct Hx as (z & _ & ->).
      cbn [fst]. exists (fst z). rewrite app_assoc. reflexivity. }
    assert (exists k2 z, In k2 (mkeys G) /\ b = pre ++ k2 ++ z) as (k2 & z & Hk2 & ->).
    { apply in_map_iff in Hb. destruct Hb as (x & <- & Hx). unfold fflat in Hx. apply in_flat_map in Hx.
      destruct Hx as ([k2 p2] & H1 & H2). cbn [fst snd] in H2. exists k2.
      rewrite pflat_eq in H2. destruct H2 as [<-|H2].
      - exists []. split; [apply in_map with (f := fst) in H1; auto|]. rewrite app_nil_r. reflexivity.
      - apply fflat_In_pre in H2. destruct H2 as (w & _ & ->). exists (fst w).
        split; [apply in_map with (f := fst) in H1; auto|]. cbn. rewrite app_assoc. reflexivity. }
    rewrite sltb_app. rewrite Forall_forall in Hlt. pose proof (Hlt _ Hk2) as Hkk.
    apply sltb_app_free; auto.
    + intros HP. apply (PF k k2).
      * apply in_map with (f := fst) (x := (k, p)). apply HG. left; auto.
      * unfold mkeys in Hk2 |- *. apply in_map_iff in Hk2. destruct Hk2 as (x & <- & Hx). apply in_map. apply HG. right; auto.
      * split; auto. intros ->. rewrite sltb_irrefl in Hkk. discriminate.
Qed.

(** ** The top level *)
Lemma flat_linkable b : flat b -> linkable 0 b.
Proof.
  intros [W F]. rewrite Forall_forall in F.
  assert (forall k p, mget k b = Some p -> ps_offset p = 0 /\ ps_subset p = []) as H.
  { intros k p Hk. apply mget_In in Hk. apply (F _ Hk). }
  split; auto.
  - intros k p Hk. apply (H _ _ Hk).
  - intros k p Hk. destruct (H _ _ Hk) as [_ ->]. apply forest_nil.
  - intros k p k2 Hk. destruct (H _ _ Hk) as [_ ->]. intros [].
  - intros e fs p q He Hfs _. destruct (H _ _ He) as [_ ->], (H _ _ Hfs) as [_ ->]. split; auto.
Qed.
Lemma fflat_flat b : flat b -> fflat [] b = entries b.
Proof.
  intros [_ F]. induction F as [|[k p] b [H1 H2] HF IH]; auto.
  cbn [fflat flat_map fst snd entries map]. cbn [snd] in H2. rewrite pflat_eq, H2. cbn. f_equal. apply IH.
Qed.
Lemma link_subset_spec b : flat b ->
  exists F, link_subset b = Ok F /\ forest 0 F /\ fflat [] F = entries b.
Proof.
  intros HF. unfold link_subset.
  destruct (link_fuel_spec (S (max_length (mkeys b))) 0 b) as (F & R & FF & KK & MM).
  - apply flat_linkable; auto.
  - intros e fs He Hfs EX. rewrite skipn_length. apply In_mkeys in Hfs. apply max_length_le in Hfs. lia.
  - exists F. split; auto. split; auto. apply sorted_pairs_ext.
    + eapply forest_sorted; eauto.
    + rewrite entries_keys. apply HF.
    + intros x. rewrite MM. rewrite fflat_flat by auto. reflexivity.
Qed.