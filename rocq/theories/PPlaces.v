(** The nodes of a Patricia trie in terms of the prefixes. *)
From Verif Require Import GoBase BinUtil MFilter MEngine MTdtCore MSubs MList MPatricia.
From Verif Require Import PBase Spec PFilter PEngine PSubs PList PMatch PPatricia PPatriciaHist SpecTrie PPatriciaExact SpecPlaces.
From Coq Require Import Lia Permutation.

(** ** Where two prefixes part *)
Lemma parts_lcp p a b : parts p a b <-> p = lcp [a; b].
Proof.
  split; [apply lcp_unique; discriminate|]. intros ->. apply lcp_is_longest. discriminate.
Qed.
Lemma parts_sym p a b : parts p a b -> parts p b a.
Proof. intros [H1 H2]. split; [intros s [<-|[<-|[]]]; apply H1; cbn; auto|]. intros q Hq. apply H2. intros s [<-|[<-|[]]]; apply Hq; cbn; auto. Qed.
Lemma parts_unique p p' a b : parts p a b -> parts p' a b -> p = p'.
Proof. rewrite !parts_lcp. congruence. Qed.
Lemma parts_prefix a b : prefix_of a b -> parts a a b.
Proof. intros H. split; [intros s [<-|[<-|[]]]; [apply prefix_refl|exact H]|]. intros q Hq. apply Hq. cbn; auto. Qed.
Lemma parts_diff p c d r r' : c <> d -> parts p (p ++ c :: r) (p ++ d :: r').
Proof.
  intros N. split; [intros s [<-|[<-|[]]]; eexists; reflexivity|]. intros q Hq.
  assert (prefix_of q (p ++ c :: r)) as A by (apply Hq; cbn; auto).
  assert (prefix_of q (p ++ d :: r')) as B by (apply Hq; cbn; auto).
  destruct (prefix_comparable q p (p ++ c :: r) A) as [H|[z ->]]; [eexists; reflexivity|exact H|].
  destruct z as [|z1 z]; [exists []; rewrite !app_nil_r; auto|]. exfalso.
  apply prefix_app_inv1 in A, B. destruct A as [a A], B as [b B]. cbn in A, B. congruence.
Qed.
Lemma parts_below p a b q : parts p a b -> is_prefix q a -> is_prefix q b -> is_prefix q p.
Proof. intros [_ H] A B. apply H. intros s [<-|[<-|[]]]; auto. Qed.
Lemma parts_left p a b : parts p a b -> is_prefix p a.
Proof. intros [H _]. apply H. cbn; auto. Qed.
Lemma parts_right p a b : parts p a b -> is_prefix p b.
Proof. intros [H _]. apply H. cbn; auto. Qed.

(** ** Building *)
(** The branch is the longest common prefix of the keys on that side. *)
Lemma branch_greatest c prefix keys q : let br := branch c prefix keys in br <> [] ->
  (forall k, In k keys -> prefix_of (prefix ++ [c]) k -> prefix_of q k) -> prefix_of q (prefix ++ br).
Proof.
  unfold branch. intros NE.
  assert (forall acc (P : gostring -> Prop), (acc = [] -> forall k, ~ P k) -> (acc <> [] -> forall q, (forall k, P k -> prefix_of q k) -> prefix_of q (prefix ++ acc)) ->
    (acc <> [] -> exists r, acc = c :: r) ->
    let br := fold_left (branch_step c prefix) keys acc in
    br <> [] -> forall q, (forall k, P k \/ (In k keys /\ prefix_of (prefix ++ [c]) k) -> prefix_of q k) -> prefix_of q (prefix ++ br)) as G.
  { clear NE q. induction keys as [|fk keys IH]; intros acc P H0 H1 H2; cbn [fold_left]; intros NE q Hq.
    - apply H1; auto.
    - destruct (has_prefix fk (prefix ++ [c])) eqn:EP.
      + pose proof EP as EP'. apply has_prefix_spec in EP'. destruct EP' as [r Er]. rewrite <- app_assoc in Er. cbn in Er.
        assert (branch_step c prefix acc fk = match acc with [] => c :: r | _ => lcp [c :: r; acc] end) as BS.
        { unfold branch_step. rewrite Er. rewrite app_length. replace (Nat.ltb _ _) with false by (symmetry; apply Nat.ltb_ge; lia).
          replace (has_prefix (prefix ++ c :: r) prefix) with true by (symmetry; apply has_prefix_spec; eexists; reflexivity). cbn [negb].
          rewrite skipn_app_l. replace (has_prefix (c :: r) [c]) with true by (symmetry; apply has_prefix_spec; exists r; reflexivity). reflexivity. }
        rewrite BS in NE |- *. apply (IH _ (fun k => P k \/ k = fk)); auto.
        * intros E. exfalso. destruct acc as [|x acc]; [discriminate|]. destruct (H2 ltac:(discriminate)) as [r' Er'].
          assert (prefix_of [c] (lcp [c :: r; x :: acc])) as Z.
          { apply lcp_greatest; [discriminate|]. intros s [<-|[<-|[]]]; [exists r; reflexivity|]. rewrite Er'. exists r'; reflexivity. }
          rewrite E in Z. destruct Z; discriminate.
        * intros _ q' Hq'. assert (prefix_of q' fk) as Q1 by auto. destruct acc as [|x acc]; [rewrite <- Er; exact Q1|].
          assert (prefix_of q' (prefix ++ x :: acc)) as Q2 by (apply H1; [discriminate|auto]).
          rewrite Er in Q1.
          destruct (prefix_comparable q' prefix (prefix ++ c :: r) Q1) as [H|[z ->]]; [eexists; reflexivity|eapply prefix_trans; [exact H|eexists; reflexivity]|].
          apply prefix_app_inv1 in Q1, Q2. apply prefix_app_inv. apply lcp_greatest; [discriminate|]. intros s [<-|[<-|[]]]; auto.
        * intros N. destruct acc as [|x acc]; [eauto|]. destruct (H2 ltac:(discriminate)) as [r' Er'].
          assert (prefix_of [c] (lcp [c :: r; x :: acc])) as Z.
          { apply lcp_greatest; [discriminate|]. intros s [<-|[<-|[]]]; [exists r; reflexivity|]. rewrite Er'. exists r'; reflexivity. }
          destruct Z as [z Z]. exists z. exact Z.
        * intros k [[Hk| ->]|[Hk1 Hk2]]; apply Hq; auto; right; cbn; auto. split; auto. rewrite Er. exists r. rewrite <- app_assoc. reflexivity.
      + assert (branch_step c prefix acc fk = acc) as BS.
        { unfold branch_step. destruct (Nat.ltb _ _); auto. destruct (has_prefix fk prefix) eqn:E1; auto. cbn [negb].
          apply has_prefix_spec in E1. destruct E1 as [y ->]. rewrite skipn_app_l. destruct y as [|y0 y]; auto.
          destruct (has_prefix (y0 :: y) [c]) eqn:E2; auto. exfalso. apply has_prefix_spec in E2. destruct E2 as [z E2].
          apply has_prefix_false in EP. apply EP. exists z. rewrite <- app_assoc. rewrite E2. reflexivity. }
        rewrite BS in NE |- *. apply (IH _ P); auto. intros k [Hk|[Hk1 Hk2]]; apply Hq; auto. right. cbn; auto. }
  intros Hq. apply (G [] (fun _ => False)); auto; try congruence. intros k [[]|[H1 H2]]; auto.
Qed.
(** A longest common prefix is where two of the prefixes part. *)
Lemma longest_parts (P : gostring -> Prop) l p : (forall k, P k <-> In k l) -> l <> [] -> Forall is_bitstring l -> longest_common_prefix p l ->
  exists a b, P a /\ P b /\ parts p a b.
Proof.
  intros HP NE HB [H1 H2].
  destruct (in_dec gostring_eq_dec p l) as [I|NI]; [exists p, p; repeat split; try (apply HP; auto); [intros s [<-|[<-|[]]]; apply prefix_refl|intros q Hq; apply Hq; cbn; auto]|].
  assert (forall k, In k l -> exists c r, k = p ++ c :: r /\ (c = c0 \/ c = c1)) as HK.
  { intros k Hk. destruct (H1 k Hk) as [[|c r] E]; [rewrite app_nil_r in E; congruence|]. exists c, r. split; auto.
    rewrite Forall_forall in HB. specialize (HB k Hk). rewrite E in HB. apply is_bitstring_app in HB. destruct HB as [_ HB]. apply bit_cases in HB. exact HB. }
  assert (forall c d, (c = c0 /\ d = c1) \/ (c = c1 /\ d = c0) -> exists a, In a l /\ prefix_of (p ++ [c]) a) as HX.
  { intros c d CD. destruct (existsb (fun k => has_prefix k (p ++ [c])) l) eqn:E.
    - apply existsb_exists in E. destruct E as (a & Ia & Ea). apply has_prefix_spec in Ea. eauto.
    - exfalso. assert (is_prefix (p ++ [d]) p) as [z Z].
      { apply H2. intros s Hs. destruct (HK s Hs) as (x & r & -> & X). assert (x = d) as ->.
        { destruct (ascii_dec x c) as [->|Hx]; [|destruct CD as [[-> ->]|[-> ->]], X; congruence]. exfalso.
          assert (existsb (fun k => has_prefix k (p ++ [c])) l = true); [|congruence]. apply existsb_exists. exists (p ++ c :: r). split; auto.
          apply has_prefix_spec. exists r. rewrite <- app_assoc. reflexivity. }
        exists r. rewrite <- app_assoc. reflexivity. }
      apply (f_equal (@length ascii)) in Z. rewrite !app_length in Z. cbn in Z. lia. }
  destruct (HX c0 c1) as (a & Ia & ra & Ea); auto. destruct (HX c1 c0) as (b & Ib & rb & Eb); auto.
  exists a, b. split; [apply HP; auto|]. split; [apply HP; auto|]. rewrite Ea, Eb, <- !app_assoc. cbn. apply parts_diff. discriminate.
Qed.

(** The nodes of the subtrees that are built. *)
Definition side (b : bsubs) (prefix : gostring) (c : ascii) (k : gostring) : Prop := In k (mkeys b) /\ prefix_of (prefix ++ [c]) k.
Lemma prefix_app_l (p q s : gostring) : prefix_of (p ++ q) s -> prefix_of p s.
Proof. intros [z ->]. exists (q ++ z). rewrite <- app_assoc. reflexivity. Qed.
Lemma pchild_places b : wf_map b -> Forall is_bitstring (mkeys b) -> forall fuel prefix c t, pchild fuel prefix b c = Some t ->
  forall q, In q (ppaths prefix t) <-> exists k1 k2, side b prefix c k1 /\ side b prefix c k2 /\ parts q k1 k2.
Proof.
  intros W HB. induction fuel as [|fuel IH]; intros prefix c t H q; unfold pchild in H; rewrite (bsub_keys_wf b W) in H;
    destruct (branch_spec c prefix (mkeys b)) as [B1 B2]; pose proof (branch_greatest c prefix (mkeys b)) as B3; cbn zeta in *;
    destruct (branch c prefix (mkeys b)) as [|x br'].
  1, 3: injection H as <-; split; [intros []|]; intros (k1 & k2 & S1 & _); exfalso; exact (B1 eq_refl k1 S1).
  1: discriminate H.
  set (br := x :: br') in *. destruct (pbuild (S fuel) (prefix ++ br) b) as [[o z]|] eqn:E; [|discriminate]. injection H as <-.
  rewrite pbuild_S in E. destruct (pchild fuel (prefix ++ br) b c1) as [o'|] eqn:E1; [|discriminate]. destruct (pchild fuel (prefix ++ br) b c0) as [z'|] eqn:E0; [|discriminate].
  injection E as -> ->. destruct B2 as ((r0 & R0) & B2 & k0 & K0); [discriminate|]. specialize (fun q => B3 q ltac:(discriminate)).
  set (P' := prefix ++ br) in *.
  assert (PC : prefix_of (prefix ++ [c]) P') by (exists r0; unfold P'; rewrite R0, <- app_assoc; reflexivity).
  cbn [ppaths]. rewrite new_filter_string. fold P'. cbn [In]. rewrite in_app_iff.
  rewrite (IH _ _ _ E1), (IH _ _ _ E0). split.
  - intros [<-|H].
    + apply (longest_parts (side b prefix c) (filter (fun k => has_prefix k (prefix ++ [c])) (mkeys b))).
      * intros k. rewrite filter_In, has_prefix_spec. unfold side. tauto.
      * intros N. assert (In k0 []) as []. rewrite <- N. apply filter_In. rewrite has_prefix_spec. auto.
      * apply Forall_forall. intros k Hk. apply filter_In in Hk. rewrite Forall_forall in HB. apply HB. tauto.
      * split; [intros k Hk|intros q Hq; apply B3; intros k K1 K2; apply Hq]; [apply filter_In in Hk; rewrite has_prefix_spec in Hk; apply B2; auto|].
        apply filter_In. rewrite has_prefix_spec. auto.
    + assert (forall d k, side b P' d k -> side b prefix c k) as UP.
      { intros d k [K1 K2]. split; auto. eapply prefix_trans; [exact PC|]. eapply prefix_app_l; exact K2. }
      destruct H as [(k1 & k2 & S1 & S2 & HP)|(k1 & k2 & S1 & S2 & HP)]; exists k1, k2; eauto.
  - intros (k1 & k2 & S1 & S2 & HP).
    assert (is_prefix P' q) as [y Y] by (eapply parts_below; [exact HP| |]; apply B2; auto).
    destruct y as [|d y]; [left; rewrite Y, app_nil_r; auto|]. right.
    assert (forall k, is_prefix q k -> prefix_of (P' ++ [d]) k) as SD.
    { intros k [w ->]. exists (y ++ w). rewrite Y, <- !app_assoc. reflexivity. }
    assert (d = c0 \/ d = c1) as D.
    { destruct S1 as [K1 _]. rewrite Forall_forall in HB. specialize (HB _ K1). destruct (parts_left _ _ _ HP) as [w Ew]. rewrite Ew, Y, <- app_assoc in HB.
      apply is_bitstring_app in HB. destruct HB as [_ HB]. cbn in HB. eapply bit_cases; exact HB. }
    assert (exists k1 k2, side b P' d k1 /\ side b P' d k2 /\ parts q k1 k2).
    { exists k1, k2. destruct S1 as [S1 _], S2 as [S2 _]. split; [|split]; auto; split; auto; apply SD; [eapply parts_left|eapply parts_right]; eauto. }
    destruct D as [-> | ->]; auto.
Qed.
Lemma fresh_places b t : wf_map b -> Forall is_bitstring (mkeys b) -> new_patricia_b b = Some t -> forall q, has_node t q <-> first_places (mkeys b) q.
Proof.
  intros W HB H q. rewrite <- has_node_nil. unfold new_patricia_b in H. rewrite (bsub_keys_wf b W) in H.
  set (P' := lcp (mkeys b)) in *. destruct (pbuild _ P' b) as [[o z]|] eqn:E; [|discriminate]. injection H as <-.
  rewrite pbuild_S in E. destruct (pchild _ P' b c1) as [o'|] eqn:E1; [|discriminate]. destruct (pchild _ P' b c0) as [z'|] eqn:E0; [|discriminate].
  injection E as -> ->. cbn [ppaths]. rewrite new_filter_string. cbn [app In]. rewrite in_app_iff.
  rewrite (pchild_places b W HB _ _ _ _ E1), (pchild_places b W HB _ _ _ _ E0). unfold first_places, side.
  destruct (mkeys b) as [|k0 ks] eqn:EK.
  - cbn. split; [intros [<-|[(k1 & k2 & [[] _] & _)|(k1 & k2 & [[] _] & _)]]; auto|]. intros [[_ ->]|(a & b' & [] & _)]. auto.
  - rewrite <- EK in *. assert (mkeys b <> []) as NE by (rewrite EK; discriminate). split.
    + intros H. right. destruct H as [<-|H].
      * apply (longest_parts (fun k => In k (mkeys b)) (mkeys b)) ; auto; [tauto|]. unfold P'. rewrite <- EK. apply lcp_is_longest. auto.
      * destruct H as [(k1 & k2 & [S1 _] & [S2 _] & HP)|(k1 & k2 & [S1 _] & [S2 _] & HP)]; eauto.
    + intros [[H _]|(k1 & k2 & K1 & K2 & HP)]; [congruence|].
      assert (is_prefix P' q) as [y Y] by (eapply parts_below; [exact HP| |]; unfold P'; rewrite <- EK; apply lcp_prefix; auto).
      destruct y as [|d y]; [left; rewrite Y, app_nil_r; auto|]. right.
      assert (forall k, is_prefix q k -> prefix_of (P' ++ [d]) k) as SD.
      { intros k [w ->]. exists (y ++ w). rewrite Y, <- !app_assoc. reflexivity. }
      assert (d = c0 \/ d = c1) as D.
      { rewrite Forall_forall in HB. specialize (HB _ K1). destruct (parts_left _ _ _ HP) as [w Ew]. rewrite Ew, Y, <- app_assoc in HB.
        apply is_bitstring_app in HB. destruct HB as [_ HB]. cbn in HB. eapply bit_cases; exact HB. }
      pose proof (SD _ (parts_left _ _ _ HP)). pose proof (SD _ (parts_right _ _ _ HP)).
      destruct D as [-> | ->]; [left|right]; exists k1, k2; auto.
Qed.

(** ** Adding *)
Lemma ppaths_under t pre q : In q (ppaths pre t) -> prefix_of (pre ++ pstring t) q.
Proof. apply ppaths_prefix. Qed.
Lemma padd_places t : forall fs uri off pre t', pwf off t -> is_bitstring fs -> add_safe t fs = true -> t <> PNil -> padd t fs uri = Ok t' ->
  forall q, In q (ppaths pre t') <-> In q (ppaths pre t) \/ q = pre ++ fs \/ exists q', In q' (ppaths pre t) /\ parts q (pre ++ fs) q'.
Proof.
  induction t as [|u fo one IH1 zero IH0]; intros fs uri off pre t' W HB HA HN H q; [congruence|].
  pose proof W as Wt. cbn [pwf] in W. destruct W as (HF & HS & S1 & S0 & W1 & W0). cbn [add_safe] in HA. cbn [padd] in H.
  assert (fo_size fo = length (fo_string fo)) as HSz by (rewrite HF at 1; apply new_filter_size).
  assert (fo_offset fo = off) as HOf by (rewrite HF at 1; apply new_filter_offset).
  rewrite HSz, HOf in H. set (p := pre ++ fo_string fo).
  assert (forall q, In q (ppaths pre (PNode u fo one zero)) -> prefix_of p q) as UN by (intros q' Hq'; exact (ppaths_prefix _ _ _ Hq')).
  destruct (has_prefix fs (fo_string fo)) eqn:EP.
  - apply has_prefix_spec in EP. destruct EP as [y Hy]. subst fs. rewrite skipn_app_l in HA, H. rewrite app_assoc. fold p.
    destruct (seqb_spec (fo_string fo ++ y) (fo_string fo)) as [Hx|Hx].
    + assert (y = []) as ->.
      { rewrite <- (app_nil_r (fo_string fo)) in Hx at 2. apply app_inv_head in Hx. auto. }
      injection H as <-. rewrite app_nil_r. cbn [ppaths]. fold p. split; [auto|].
      intros [H|[->|(q' & Hq' & HP)]]; [exact H|left; auto|]. left. symmetry. eapply parts_unique; [exact HP|]. apply parts_prefix. apply UN. exact Hq'.
    + destruct y as [|c r]; [rewrite app_nil_r in Hx; congruence|]. apply is_bitstring_app in HB. destruct HB as [_ HB].
      (* other nodes part from the prefix here *)
      assert (forall q' d, d <> c -> prefix_of (p ++ [d]) q' -> parts q (p ++ c :: r) q' -> q = p) as OFF.
      { intros q' d D [w ->] HP. rewrite <- app_assoc in HP. eapply parts_unique; [exact HP|]. apply parts_diff. auto. }
      assert (parts q (p ++ c :: r) p -> q = p) as HERE.
      { intros HP. eapply parts_unique; [exact HP|]. apply parts_sym, parts_prefix. eexists; reflexivity. }
      assert (forall d t1, starts_with d t1 -> forall q', In q' (ppaths p t1) -> prefix_of (p ++ [d]) q') as SW.
      { intros d t1 Hs q' Hq'. destruct t1; [destruct Hq'|]. eapply starts_with_path; eauto. discriminate. }
      destruct (bit_cases c r HB) as [-> | ->].
      * change (Ascii.eqb c0 c1) with false in *. change (Ascii.eqb c0 c0) with true in *. cbn iota in HA, H.
        destruct zero as [|u1 f1 o1 z1].
        -- injection H as <-. cbn [ppaths pleaf In app]. unfold pleaf. cbn [ppaths In app]. rewrite new_filter_string. fold p. cbn [In app].
           split; [intros [H|[H|H]]; auto|]. intros [[H|H]|[H|(q' & [H|H] & HP)]]; auto; left; symmetry; [subst q'; auto|eapply OFF; [|apply (SW c1 one S1 q' H)|exact HP]; discriminate].
        -- destruct (padd (PNode u1 f1 o1 z1) (c0 :: r) uri) as [t1| |] eqn:EA; try discriminate. cbn [bind] in H. injection H as <-.
           pose proof (IH0 _ _ _ p t1 W0 HB HA ltac:(discriminate) EA q) as IQ. set (zz := PNode u1 f1 o1 z1) in *. cbn [ppaths]. fold p. cbn [In]. rewrite !in_app_iff, IQ.
           split; [intros [H|[[H|[H|(q' & H1 & H2)]]|H]]; auto|].
           { right. right. exists q'. split; auto. right. apply in_or_app. auto. }
           intros [[H|[H|H]]|[H|(q' & [H|H] & HP)]]; auto; [left; symmetry; subst q'; auto|]. apply in_app_or in H. destruct H as [H|H]; [right; left; right; right; eauto|].
           left. symmetry. eapply OFF; [|apply (SW c1 one S1 q' H)|exact HP]. discriminate.
      * change (Ascii.eqb c1 c1) with true in *. cbn iota in HA, H.
        destruct one as [|u1 f1 o1 z1].
        -- injection H as <-. cbn [ppaths pleaf In app]. unfold pleaf. cbn [ppaths In app]. rewrite new_filter_string. fold p. cbn [In]. rewrite !in_app_iff. cbn [In].
           split; [intros [H|[H|[H|[]]]]; auto|]. intros [[H|[H|[]]]|[H|(q' & [H|H] & HP)]]; auto; left; symmetry; [subst q'; auto|]. apply in_app_or in H. destruct H as [H|[]]. eapply OFF; [|apply (SW c0 zero S0 q' H)|exact HP]; discriminate.
        -- destruct (padd (PNode u1 f1 o1 z1) (c1 :: r) uri) as [t1| |] eqn:EA; try discriminate. cbn [bind] in H. injection H as <-.
           pose proof (IH1 _ _ _ p t1 W1 HB HA ltac:(discriminate) EA q) as IQ. set (zz := PNode u1 f1 o1 z1) in *. cbn [ppaths]. fold p. cbn [In]. rewrite !in_app_iff, IQ.
           split; [intros [H|[H|[H|[H|(q' & H1 & H2)]]]]; auto|].
           { right. right. exists q'. split; auto. right. apply in_or_app. auto. }
           intros [[H|[H|H]]|[H|(q' & [H|H] & HP)]]; auto; [left; symmetry; subst q'; auto|]. apply in_app_or in H. destruct H as [H|H]; [|right; right; right; right; eauto].
           left. symmetry. eapply OFF; [|apply (SW c0 zero S0 q' H)|exact HP]. discriminate.
  - apply has_prefix_false in EP. apply negb_true_iff, has_prefix_false in HA.
    destruct (split_point fs (fo_string fo) HB HS EP HA) as (c & c' & r & r' & E1 & E2 & CC). set (ncp := lcp [fs; fo_string fo]) in *.
    assert (skipn (length ncp) fs = c :: r) as K1 by (rewrite E1 at 1; apply skipn_app_l).
    assert (skipn (length ncp) (fo_string fo) = c' :: r') as K2 by (rewrite E2 at 1; apply skipn_app_l).
    rewrite K1, K2 in H.
    assert (PP : pre ++ fo_string fo = (pre ++ ncp) ++ c' :: r') by (rewrite E2 at 1; rewrite app_assoc; reflexivity).
    assert (PF : pre ++ fs = (pre ++ ncp) ++ c :: r) by (rewrite E1 at 1; rewrite app_assoc; reflexivity).
    assert (forall q', prefix_of p q' -> parts q (pre ++ fs) q' -> q = pre ++ ncp) as OFF.
    { intros q' [w ->] HP. eapply parts_unique; [exact HP|]. unfold p. rewrite PP, PF, <- (app_assoc (pre ++ ncp) (c' :: r') w). apply parts_diff. destruct CC as [[-> ->]|[-> ->]]; discriminate. }
    assert (ONE : exists q', In q' (ppaths pre (PNode u fo one zero)) /\ parts (pre ++ ncp) (pre ++ fs) q').
    { exists p. split; [left; reflexivity|]. unfold p. rewrite PP, PF. apply parts_diff. destruct CC as [[-> ->]|[-> ->]]; discriminate. }
    destruct CC as [[-> ->]|[-> ->]].
    + change (Ascii.eqb c0 c1) with false in H. change (Ascii.eqb c0 c0) with true in H. cbn iota in H. injection H as <-.
      unfold pleaf. cbn [ppaths In app]. rewrite !new_filter_string, <- PP, <- PF. fold p. cbn [In app]. rewrite !in_app_iff.
      split.
      * intros [<-|[<-|[H|H]]]; [right; right; exact ONE|auto|left; left; exact H|]. left. right. exact H.
      * intros [H|[->|(q' & H & HP)]]; [tauto|auto|]. left. symmetry. apply (OFF q'); auto.
    + change (Ascii.eqb c1 c1) with true in H. cbn iota in H. injection H as <-.
      unfold pleaf. cbn [ppaths In app]. rewrite !new_filter_string, <- PP, <- PF. fold p. cbn [In app]. rewrite !in_app_iff. cbn [In].
      split.
      * intros [<-|[H|[H|[<-|[]]]]]; [right; right; exact ONE|left; left; exact H|left; right; exact H|auto].
      * intros [H|[->|(q' & H & HP)]]; [tauto|auto|]. left. symmetry. apply (OFF q'); auto.
Qed.

(** ** Deleting *)
Definition is_pnil (t : ptree) : bool := match t with PNil => true | _ => false end.
Lemma below_child u fo one zero pre q c : starts_with c1 one -> starts_with c0 zero -> In q (ppaths pre (PNode u fo one zero)) ->
  prefix_of ((pre ++ fo_string fo) ++ [c]) q -> (c = c1 /\ In q (ppaths (pre ++ fo_string fo) one)) \/ (c = c0 /\ In q (ppaths (pre ++ fo_string fo) zero)).
Proof.
  intros S1 S0 H [w Hw]. cbn [ppaths In] in H. set (p := pre ++ fo_string fo) in *. rewrite in_app_iff in H. rewrite <- app_assoc in Hw. cbn in Hw.
  destruct H as [H|[H|H]].
  - exfalso. rewrite <- H in Hw. rewrite <- (app_nil_r p) in Hw at 1. apply app_inv_head in Hw. discriminate.
  - right. destruct (ppaths_child _ _ _ _ _ S0 H Hw) as [r R]. injection R as ->. auto.
  - left. destruct (ppaths_child _ _ _ _ _ S1 H Hw) as [r R]. injection R as ->. auto.
Qed.
Lemma forks_ext (N M : gostring -> Prop) k : (forall q, prefix_of k q -> (N q <-> M q)) -> (forks N k <-> forks M k).
Proof.
  intros H. unfold forks. split; intros F c C; destruct (F c C) as (q & Q1 & [w Q2]); exists q; (split; [apply (H q); auto; rewrite Q2, <- app_assoc; eexists; reflexivity|exists w; exact Q2]).
Qed.
Lemma pdelete_places t : forall fs off pre t', pwf off t -> is_bitstring fs -> t <> PNil -> ~ (is_pleaf t = true /\ fs = pstring t) -> pdelete t fs = Ok t' ->
  forall q, In q (ppaths pre t') <-> In q (ppaths pre t) /\ (q <> pre ++ fs \/ forks (fun q => In q (ppaths pre t)) (pre ++ fs)).
Proof.
  induction t as [|u fo one IH1 zero IH0]; intros fs off pre t' W HB HN HL H q; [congruence|].
  pose proof W as Wt. cbn [pwf] in W. destruct W as (HF & HS & S1 & S0 & W1 & W0). cbn [pdelete] in H.
  assert (fo_size fo = length (fo_string fo)) as HSz by (rewrite HF at 1; apply new_filter_size).
  rewrite HSz in H. set (p := pre ++ fo_string fo).
  set (T := PNode u fo one zero) in *.
  assert (forall q, In q (ppaths pre T) -> prefix_of p q) as UN by (intros q' Hq'; exact (ppaths_prefix _ _ _ Hq')).
  assert (~ In (pre ++ fs) (ppaths pre T) -> forall q, In q (ppaths pre T) <-> In q (ppaths pre T) /\ (q <> pre ++ fs \/ forks (fun q => In q (ppaths pre T)) (pre ++ fs))) as Hsame.
  { intros HI q'. split; [|tauto]. intros Hq. split; auto. left. intros E. apply HI. rewrite <- E. exact Hq. }
  destruct (has_prefix fs (fo_string fo)) eqn:EP; cbn [negb] in H.
  2: { apply has_prefix_false in EP. injection H as <-. apply Hsame. intros HI. apply EP. eapply prefix_app_inv. apply (UN _ HI). }
  apply has_prefix_spec in EP. destruct EP as [y Hy]. subst fs. rewrite skipn_app_l in H. rewrite app_assoc in *. fold p in Hsame |- *.
  apply is_bitstring_app in HB. destruct HB as [_ HB].
  destruct (seqb_spec (fo_string fo ++ y) (fo_string fo)) as [Hx|Hx].
  - assert (y = []) as ->.
    { rewrite <- (app_nil_r (fo_string fo)) in Hx at 2. apply app_inv_head in Hx. auto. }
    clear Hsame. rewrite !app_nil_r in *.
    assert (forall c, (c = c0 /\ zero = PNil) \/ (c = c1 /\ one = PNil) -> ~ forks (fun q => In q (ppaths pre T)) p) as NF.
    { intros c C F. destruct (F c) as (q' & Q1 & Q2); [destruct C as [[-> _]|[-> _]]; auto|].
      destruct (below_child _ _ _ _ _ _ _ S1 S0 Q1 Q2) as [[E Q]|[E Q]]; destruct C as [[-> C]|[-> C]]; try discriminate; rewrite C in Q; destruct Q. }
    assert (forall c t1 q', starts_with c t1 -> In q' (ppaths p t1) -> q' <> p) as NP.
    { intros c t1 q' Hs Hq' ->. destruct (ppaths_child _ _ _ _ [] Hs Hq') as [r R]; [symmetry; apply app_nil_r|discriminate]. }
    destruct one as [|u1 f1 o1 z1], zero as [|u0 f0 o0 z0].
    + exfalso. apply HL. split; reflexivity.
    + injection H as <-. specialize (NF c1 (or_intror (conj eq_refl eq_refl))).
      assert (ppaths pre (PNode u0 (new_filter (fo_string fo ++ fo_string f0) (fo_offset fo)) o0 z0) = ppaths p (PNode u0 f0 o0 z0)) as ->.
      { cbn [ppaths]. rewrite new_filter_string, app_assoc. reflexivity. }
      revert NF. generalize (forks (fun q => In q (ppaths pre T)) p). intros FK NF.
      unfold T. set (zz := PNode u0 f0 o0 z0) in *. cbn [ppaths]. rewrite app_nil_r. fold p. cbn [In]. split.
      * intros Hq. split; [auto|]. left. eapply (fun c H => NP c zz q H Hq); eassumption.
      * intros [[<-|Hq] [K|K]]; auto; congruence.
    + injection H as <-. specialize (NF c0 (or_introl (conj eq_refl eq_refl))).
      assert (ppaths pre (PNode u1 (new_filter (fo_string fo ++ fo_string f1) (fo_offset fo)) o1 z1) = ppaths p (PNode u1 f1 o1 z1)) as ->.
      { cbn [ppaths]. rewrite new_filter_string, app_assoc. reflexivity. }
      revert NF. generalize (forks (fun q => In q (ppaths pre T)) p). intros FK NF.
      unfold T. set (zz := PNode u1 f1 o1 z1) in *. cbn [ppaths app]. fold p. cbn [In]. split.
      * intros Hq. split; [auto|]. left. eapply (fun c H => NP c zz q H Hq); eassumption.
      * intros [[<-|Hq] [K|K]]; auto; congruence.
    + injection H as <-. change (In q (ppaths pre T) <-> In q (ppaths pre T) /\ (q <> p \/ forks (fun q => In q (ppaths pre T)) p)).
      split; [|tauto]. intros Hq. split; auto. right.
      intros c C. unfold T. set (zz := PNode u0 f0 o0 z0) in *. set (oo := PNode u1 f1 o1 z1) in *.
      assert (In (p ++ fo_string f0) (ppaths p zz)) as I0 by (left; reflexivity). assert (In (p ++ fo_string f1) (ppaths p oo)) as I1 by (left; reflexivity).
      cbn [ppaths]. fold p. destruct C as [-> | ->].
      * exists (p ++ fo_string f0). split; [right; apply in_or_app; auto|]. apply (starts_with_path c0 zz); auto. discriminate.
      * exists (p ++ fo_string f1). split; [right; apply in_or_app; auto|]. apply (starts_with_path c1 oo); auto. discriminate.
  - destruct y as [|c r]; [rewrite app_nil_r in Hx; congruence|].
    assert (forall q, In q (ppaths pre T) -> prefix_of (p ++ c :: r) q -> (c = c1 /\ In q (ppaths p one)) \/ (c = c0 /\ In q (ppaths p zero))) as DOWN.
    { intros q' Q1 [w Q2]. apply (below_child u fo one zero pre q' c S1 S0 Q1). exists (r ++ w). unfold p in Q2. rewrite Q2, <- !app_assoc. reflexivity. }
    assert (forall t1 (X : forall q, In q (ppaths pre T) <-> q = p \/ In q (ppaths p zero) \/ In q (ppaths p one)), is_pleaf t1 = true -> c :: r = pstring t1 ->
      (forall q, In q (ppaths p t1) -> In q (ppaths pre T)) ->
      (forall q, In q (ppaths pre T) -> prefix_of (p ++ c :: r) q -> In q (ppaths p t1)) ->
      (In q (ppaths pre T) /\ (q <> p ++ c :: r \/ forks (fun q => In q (ppaths pre T)) (p ++ c :: r)) <-> In q (ppaths pre T) /\ q <> p ++ c :: r)) as LEAF.
    { intros t1 X L1 L2 UP DN. split; [|tauto]. intros [Q [K|K]]; [auto|]. split; auto.
      destruct (K c0 (or_introl eq_refl)) as (q' & Q1 & Q2). apply DN in Q1; [|eapply prefix_app_l; exact Q2].
      destruct t1 as [|u1 f1 [|] [|]]; try discriminate. destruct Q1 as [Q1|[]]. cbn [pstring] in L2. rewrite <- L2 in Q1. exfalso.
      destruct Q2 as [w Q2]. rewrite <- Q1 in Q2. rewrite <- app_assoc in Q2. apply (f_equal (@length ascii)) in Q2. rewrite !app_length in Q2. cbn in Q2. lia. }
    assert (forall q, In q (ppaths pre T) <-> q = p \/ In q (ppaths p zero) \/ In q (ppaths p one)) as X.
    { intros q'. unfold T. cbn [ppaths In]. fold p. rewrite in_app_iff. intuition congruence. }
    assert (p <> p ++ c :: r) as NP by (intros E; rewrite <- (app_nil_r p) in E at 1; apply app_inv_head in E; discriminate).
    assert (forall d t1, d <> c -> starts_with d t1 -> forall q', In q' (ppaths p t1) -> q' <> p ++ c :: r) as OT.
    { intros d t1 D Hs q' Hq' E. destruct (ppaths_child _ _ _ _ _ Hs Hq' E) as [w Ew]. congruence. }
    assert (forall t1, is_pleaf t1 = true -> c :: r = pstring t1 -> forall q', In q' (ppaths p t1) <-> q' = p ++ c :: r) as LP.
    { intros t1 L1 L2 q'. destruct t1 as [|u1 f1 [|] [|]]; try discriminate. cbn [pstring] in L2. cbn [ppaths app In]. rewrite <- L2. intuition congruence. }
    destruct (bit_cases c r HB) as [-> | ->].
    + change (Ascii.eqb c0 c1) with false in H. change (Ascii.eqb c0 c0) with true in H. cbn iota in H.
      assert (forall q, In q (ppaths pre T) -> prefix_of (p ++ c0 :: r) q -> In q (ppaths p zero)) as DN.
      { intros q' Q1 Q2. destruct (DOWN q' Q1 Q2) as [[E _]|[_ E]]; [discriminate|exact E]. }
      destruct (is_pnil zero) eqn:EZ.
      { destruct zero; [|discriminate]. injection H as <-. apply Hsame. intros HI. destruct (DN _ HI (prefix_refl _)). }
      assert (zero <> PNil) as NZ by (intros ->; discriminate).
      assert (H' : (if seqb (c0 :: r) (pstring zero) && is_pleaf zero then Ok (PNode u fo one PNil) else let! zero' := pdelete zero (c0 :: r) in Ok (PNode u fo one zero')) = Ok t').
      { destruct zero; [discriminate|exact H]. }
      clear H. destruct (seqb_spec (c0 :: r) (pstring zero)) as [E|E]; [destruct (is_pleaf zero) eqn:EL|]; cbn [andb] in H'.
      * injection H' as <-. rewrite (LEAF zero X EL E (fun q Hq => proj2 (X q) (or_intror (or_introl Hq))) DN), X, (LP zero EL E q).
        cbn [ppaths In app]. fold p. split; [intros [<-|Hq]; [auto|]|tauto || (intros [[->|[Hq|Hq]] K]; auto; congruence)].
        split; [auto|]. eapply OT; [|exact S1|exact Hq]. discriminate.
      * destruct (pdelete zero (c0 :: r)) as [z'| |] eqn:ED; try discriminate. cbn [bind] in H'. injection H' as <-.
        pose proof (IH0 _ _ p _ W0 HB NZ ltac:(intros [K _]; congruence) ED q) as IQ.
        rewrite (forks_ext (fun q => In q (ppaths p zero)) (fun q => In q (ppaths pre T))) in IQ.
        2: { intros q' Q. split; [intros Q'; apply X; auto|]. intros Q'. apply DN; auto. }
        rewrite X. cbn [ppaths In app]. fold p. rewrite in_app_iff, IQ. split.
        -- intros [<-|[[Q1 Q2]|Q]]; [auto|auto|]. split; auto. left. eapply OT; [|exact S1|exact Q]. discriminate.
        -- intros [[->|[Q|Q]] K]; auto.
      * destruct (pdelete zero (c0 :: r)) as [z'| |] eqn:ED; try discriminate. cbn [bind] in H'. injection H' as <-.
        pose proof (IH0 _ _ p _ W0 HB NZ (fun K => E (proj2 K)) ED q) as IQ.
        rewrite (forks_ext (fun q => In q (ppaths p zero)) (fun q => In q (ppaths pre T))) in IQ.
        2: { intros q' Q. split; [intros Q'; apply X; auto|]. intros Q'. apply DN; auto. }
        rewrite X. cbn [ppaths In app]. fold p. rewrite in_app_iff, IQ. split.
        -- intros [<-|[[Q1 Q2]|Q]]; [auto|auto|]. split; auto. left. eapply OT; [|exact S1|exact Q]. discriminate.
        -- intros [[->|[Q|Q]] K]; auto.
    + change (Ascii.eqb c1 c1) with true in H. cbn iota in H.
      assert (forall q, In q (ppaths pre T) -> prefix_of (p ++ c1 :: r) q -> In q (ppaths p one)) as DN.
      { intros q' Q1 Q2. destruct (DOWN q' Q1 Q2) as [[_ E]|[E _]]; [exact E|discriminate]. }
      destruct (is_pnil one) eqn:EZ.
      { destruct one; [|discriminate]. injection H as <-. apply Hsame. intros HI. destruct (DN _ HI (prefix_refl _)). }
      assert (one <> PNil) as NZ by (intros ->; discriminate).
      assert (H' : (if seqb (c1 :: r) (pstring one) && is_pleaf one then Ok (PNode u fo PNil zero) else let! one' := pdelete one (c1 :: r) in Ok (PNode u fo one' zero)) = Ok t').
      { destruct one; [discriminate|exact H]. }
      clear H. destruct (seqb_spec (c1 :: r) (pstring one)) as [E|E]; [destruct (is_pleaf one) eqn:EL|]; cbn [andb] in H'.
      * injection H' as <-. rewrite (LEAF one X EL E (fun q Hq => proj2 (X q) (or_intror (or_intror Hq))) DN), X, (LP one EL E q).
        cbn [ppaths In app]. rewrite app_nil_r. fold p. split; [intros [<-|Hq]; [auto|]|tauto || (intros [[->|[Hq|Hq]] K]; auto; congruence)].
        split; [auto|]. eapply OT; [|exact S0|exact Hq]. discriminate.
      * destruct (pdelete one (c1 :: r)) as [z'| |] eqn:ED; try discriminate. cbn [bind] in H'. injection H' as <-.
        pose proof (IH1 _ _ p _ W1 HB NZ ltac:(intros [K _]; congruence) ED q) as IQ.
        rewrite (forks_ext (fun q => In q (ppaths p one)) (fun q => In q (ppaths pre T))) in IQ.
        2: { intros q' Q. split; [intros Q'; apply X; auto|]. intros Q'. apply DN; auto. }
        rewrite X. cbn [ppaths In app]. fold p. rewrite in_app_iff, IQ. split.
        -- intros [<-|[Q|[Q1 Q2]]]; [auto| |auto]. split; auto. left. eapply OT; [|exact S0|exact Q]. discriminate.
        -- intros [[->|[Q|Q]] K]; auto.
      * destruct (pdelete one (c1 :: r)) as [z'| |] eqn:ED; try discriminate. cbn [bind] in H'. injection H' as <-.
        pose proof (IH1 _ _ p _ W1 HB NZ (fun K => E (proj2 K)) ED q) as IQ.
        rewrite (forks_ext (fun q => In q (ppaths p one)) (fun q => In q (ppaths pre T))) in IQ.
        2: { intros q' Q. split; [intros Q'; apply X; auto|]. intros Q'. apply DN; auto. }
        rewrite X. cbn [ppaths In app]. fold p. rewrite in_app_iff, IQ. split.
        -- intros [<-|[Q|[Q1 Q2]]]; [auto| |auto]. split; auto. left. eapply OT; [|exact S0|exact Q]. discriminate.
        -- intros [[->|[Q|Q]] K]; auto.
Qed.

(** ** Histories *)
Lemma add_places t k u t' : t <> PNil -> pwf 0 t -> is_bitstring k -> add_safe t k = true -> padd t k u = Ok t' ->
  forall q, has_node t' q <-> places_after (has_node t) (Subscribe k u) q.
Proof.
  intros N W HB HA H q. rewrite <- has_node_nil, (padd_places t k u 0 [] t' W HB HA N H q). cbn [app places_after].
  rewrite has_node_nil. split; (intros [Q|[Q|(q' & Q1 & Q2)]]; auto; right; right; exists q'; rewrite has_node_nil in *; auto).
Qed.
Lemma del_places t k t' : t <> PNil -> pwf 0 t -> is_bitstring k -> pdelete t k = Ok t' ->
  forall q, has_node t' q <-> places_after (has_node t) (Unsubscribe k) q.
Proof.
  intros N W HB H q. cbn [places_after].
  assert ((is_pleaf t = true /\ k = pstring t) \/ ~ (is_pleaf t = true /\ k = pstring t)) as [[L K]|NL].
  { destruct (is_pleaf t); [|right; intros [? _]; discriminate]. destruct (gostring_eq_dec k (pstring t)); [left|right]; tauto. }
  - rewrite pdelete_leaf in H by auto. injection H as <-. apply (leaf_nodes t 0 N W) in L || pose proof (proj1 (leaf_nodes t 0 N W) L) as L'.
    split; [|tauto]. intros Q. split; auto. right. right. subst k. auto.
  - rewrite <- has_node_nil, (pdelete_places t k 0 [] t' W HB N NL H q). cbn [app]. rewrite has_node_nil.
    rewrite (forks_ext (fun q => In q (ppaths [] t)) (has_node t)) by (intros q' _; apply has_node_nil).
    split; [tauto|]. intros [Q [K|[K|K]]]; auto. exfalso. apply NL.
    assert (k = pstring t) as -> by (symmetry; apply K, root_node; auto). split; auto. apply (leaf_nodes t 0 N W). auto.
Qed.

Definition same (N M : gostring -> Prop) : Prop := forall q, N q <-> M q.
Lemma places_after_ext N M c : same N M -> same (places_after N c) (places_after M c).
Proof.
  intros H q. destruct c as [k u|k]; cbn [places_after].
  - rewrite (H q). split; (intros [Q|[Q|(q' & Q1 & Q2)]]; auto; right; right; exists q'; split; auto; apply H; auto).
  - rewrite (H q), (forks_ext N M k) by (intros; apply H).
    split; (intros [Q [K|[K|K]]]; auto; split; auto; right; right; intros q' Q'; apply K, H, Q').
Qed.
Lemma may_ext N M m c : same N M -> may N m c <-> may M m c.
Proof.
  intros H. destruct c as [k u|k]; cbn [may].
  - rewrite (H k). split; (intros [Q|Q]; auto; right; intros q Hq; apply Q, H, Hq).
  - split; intros Q [K1 K2]; apply Q; split; auto; intros q Hq; apply K1, H, Hq.
Qed.
Lemma placed_ext cs : forall N M m, same N M -> placed N m cs -> placed M m cs.
Proof.
  induction cs as [|c cs IH]; intros N M m H P; [constructor|]. inversion P; subst. constructor; auto.
  - eapply may_ext; [|eassumption]. intros q. symmetry. apply H.
  - eapply IH; [|eassumption]. apply places_after_ext, H.
Qed.
Lemma places_fold_ext cs : forall N M, same N M -> same (fold_left places_after cs N) (fold_left places_after cs M).
Proof. induction cs as [|c cs IH]; intros N M H; [exact H|]. cbn [fold_left]. apply IH, places_after_ext, H. Qed.
Lemma may_well t m c : may (has_node t) m c <-> well_placed t m c.
Proof. destruct c; reflexivity. Qed.
Lemma sound_proper c : sound c <-> proper c.
Proof. destruct c; reflexivity. Qed.

Lemma perform_step used m t c : pinv2 used m t -> proper c -> well_placed t m c ->
  exists t' used', perform t c = Ok t' /\ pinv2 used' (apply_change m c) t' /\ same (has_node t') (places_after (has_node t) c).
Proof.
  intros I HPr HP. destruct c as [k u|k]; cbn [perform].
  - destruct (pinv2_subscribe used m t k u I HPr HP) as (t' & E & I'). exists t', (k :: used). split; [exact E|]. split; [exact I'|].
    destruct I as [I1 I2 _ _ _], HPr as [HB _]. intros q. eapply add_places; eauto. apply (placed_add t k 0 I2 HB). exact HP.
  - destruct (pinv2_unsubscribe used m t k I HPr HP) as (t' & E & I'). exists t', used. split; [exact E|]. split; [exact I'|].
    destruct I as [I1 I2 _ _ _]. intros q. eapply del_places; eauto.
Qed.
Lemma careful_placed cs : forall used m t, pinv2 used m t -> (careful t m cs <-> placed (has_node t) m cs).
Proof.
  induction cs as [|c cs IH]; intros used m t I; [split; constructor|]. split.
  - inversion 1 as [|t0 m0 c' t1 cs' HPr HP HE HC]; subst.
    destruct (perform_step used m t c I HPr HP) as (t' & used' & E & I' & S). rewrite HE in E. injection E as <-.
    constructor; [apply sound_proper; auto|apply may_well; auto|]. eapply placed_ext; [exact S|]. apply (IH used' _ _ I'). exact HC.
  - inversion 1 as [|N m0 c' cs' HPr HP HC]; subst. apply sound_proper in HPr. apply may_well in HP.
    destruct (perform_step used m t c I HPr HP) as (t' & used' & E & I' & S). econstructor; eauto.
    apply (IH used' _ _ I'). eapply placed_ext; [|exact HC]. intros q. symmetry. apply S.
Qed.
Lemma run_places cs : forall used m t t', pinv2 used m t -> careful t m cs -> fold_left pchange cs (Ok t) = Ok t' ->
  same (has_node t') (fold_left places_after cs (has_node t)).
Proof.
  induction cs as [|c cs IH]; intros used m t t' I HC E; [injection E as <-; intros q; reflexivity|].
  inversion HC as [|t0 m0 c' t1 cs' HPr HP HE HC']; subst. cbn [fold_left] in *.
  destruct (perform_step used m t c I HPr HP) as (t1' & used' & E1 & I' & S). rewrite HE in E1. injection E1 as <-.
  assert (pchange (Ok t) c = perform t c) as P by (destruct c; reflexivity). rewrite P, HE in E.
  intros q. rewrite (IH _ _ _ _ I' HC' E q). apply places_fold_ext. exact S.
Qed.

(** ** When the answers are exact *)
From Verif Require Import PMatch PSplayExact SpecPlaces SpecAnswers.
Lemma placed_app cs cs' : forall N m, placed N m (cs ++ cs') <-> placed N m cs /\ placed (fold_left places_after cs N) (apply_changes m cs) cs'.
Proof.
  induction cs as [|c cs IH]; intros N m; cbn [app fold_left].
  - split; [intros H; split; [constructor|exact H]|intros [_ H]; exact H].
  - split.
    + inversion 1 as [|N0 m0 c' cs0 H1 H2 H3]; subst. apply IH in H3. destruct H3 as [H3 H4]. split; [constructor; auto|exact H4].
    + intros [H H4]. inversion H as [|N0 m0 c' cs0 H1 H2 H3]; subst. constructor; auto. apply IH. split; auto.
Qed.
Lemma pget_node t : forall k, pget t k <> None -> has_node t k.
Proof.
  induction t as [|u fo one IH1 zero IH0]; intros k H; [cbn in H; congruence|].
  destruct (has_prefix k (fo_string fo)) eqn:EP; [|apply has_prefix_false in EP; rewrite pget_not in H by auto; congruence].
  apply has_prefix_spec in EP. destruct EP as [y ->]. rewrite pget_at in H. destruct y as [|c r].
  - rewrite app_nil_r. constructor.
  - destruct (Ascii.eqb_spec c c1) as [->|]; [apply node_one; auto|]. destruct (Ascii.eqb_spec c c0) as [->|]; [apply node_zero; auto|congruence].
Qed.
Lemma content_node used m t k : pinv2 used m t -> In k (map fst m) -> has_node t k.
Proof. intros [_ _ I3 _ _] H. apply pget_node. rewrite I3. apply mget_keys. exact H. Qed.
Lemma may_dec used m t c : pinv2 used m t -> proper c -> may (has_node t) m c \/ ~ may (has_node t) m c.
Proof.
  intros [I1 I2 I3 I4 I5] HP. destruct c as [k u|k]; cbn [may proper] in *.
  - rewrite <- (placed_add t k 0 I2 (proj1 HP)). destruct (add_safe t k); auto.
  - destruct (in_dec gostring_eq_dec k (map fst m)) as [Hk|Hk]; [|left; tauto].
    destruct (gostring_eq_dec k (pstring t)) as [Hs|Hs].
    + destruct (is_pleaf t) eqn:EL.
      * right. intros H. apply H. split; auto. subst k. apply (leaf_nodes t 0); auto.
      * left. intros [H _]. assert (is_pleaf t = true); [|congruence]. apply (leaf_nodes t 0); auto. rewrite <- Hs. exact H.
    + left. intros [H _]. apply Hs. symmetry. apply H, root_node; auto.
Qed.

Section Exact.
  Context (E : env) (sub0 : subscriptions) (m0 : prefix_subs).
  Let b := to_byte_subs E sub0.
  Context (HB : Forall is_bitstring (mkeys b)) (HU : forall k u, In (k, u) (entries b) -> u <> []) (HI : initially (entries b) m0).

  Lemma start_places : exists t0, new_patricia E sub0 = Some t0 /\ pinv2 (mkeys b) m0 t0 /\ same (has_node t0) (first_places (mkeys b)).
  Proof.
    pose proof (to_byte_subs_flat E sub0) as F. fold b in F.
    destruct (new_patricia_b_spec b F HB) as (t0 & Et & _). exists t0. split; [exact Et|].
    split; [apply (fresh_pinv2 E sub0 t0 m0 HB HU Et HI)|]. intros q. apply fresh_places; auto. apply F.
  Qed.
  Lemma placed_run ops : placed (first_places (mkeys b)) m0 (changes_of E ops) ->
    exists t0 t used, new_patricia E sub0 = Some t0 /\ careful t0 m0 (changes_of E ops) /\ patricia_run E sub0 ops = Ok t
      /\ pinv2 used (apply_changes m0 (changes_of E ops)) t /\ same (has_node t) (places_of (mkeys b) (changes_of E ops)).
  Proof.
    intros HP. destruct start_places as (t0 & E0 & I0 & S0). exists t0.
    assert (careful t0 m0 (changes_of E ops)) as HC.
    { apply (careful_placed _ _ _ _ I0). eapply placed_ext; [|exact HP]. intros q. symmetry. apply S0. }
    destruct (pinv2_history _ _ _ _ I0 HC) as (t & used & Et & It & _). exists t, used.
    split; auto. split; auto. split; [unfold patricia_run; rewrite E0, fold_patricia_update; exact Et|]. split; auto.
    intros q. rewrite (run_places _ _ _ _ _ I0 HC Et q). apply places_fold_ext, S0.
  Qed.
  Lemma placed_exact ops : placed (first_places (mkeys b)) m0 (changes_of E ops) -> exact_after E sub0 m0 ops.
  Proof.
    intros HP pc id Hw Hid HD. destruct (placed_run ops HP) as (t0 & t & used & E0 & HC & _).
    exact (careful_history E sub0 ops t0 m0 pc id HB HU E0 HI HC Hw Hid HD).
  Qed.
  Lemma entries_one op c : update_changes E op = [c] ->
    match op, c with Add s, Subscribe k u => entries (to_byte_subs E s) = [(k, u)] | Del s, Unsubscribe k => exists u, entries (to_byte_subs E s) = [(k, u)] | _, _ => False end.
  Proof.
    destruct op as [s|s]; cbn [update_changes]; destruct (entries (to_byte_subs E s)) as [|[k u] [|]]; cbn; try discriminate; intros H; injection H as <-; eauto.
  Qed.
  Lemma exact_step ops op c : placed (first_places (mkeys b)) m0 (changes_of E ops) -> update_changes E op = [c] -> sound c ->
    (forall k u k', c = Subscribe k u -> In (k', u) (apply_changes m0 (changes_of E ops)) -> k' = k) ->
    (exact_after E sub0 m0 (ops ++ [op]) <-> may (places_of (mkeys b) (changes_of E ops)) (apply_changes m0 (changes_of E ops)) c).
  Proof.
    intros HP HO Hs Own. split.
    - intros HX. destruct (placed_run ops HP) as (t0 & t & used & E0 & HC & Et & It & S).
      rewrite <- (may_ext _ _ _ c S). destruct (may_dec used _ t c It (proj1 (sound_proper c) Hs)) as [|NM]; auto. exfalso.
      rewrite may_well in NM. set (m := apply_changes m0 (changes_of E ops)) in *.
      assert (forall k, is_bitstring k -> exists id, wf_bytes id /\ id <> [] /\ id_has_prefix id k
        /\ decides id (mkeys b ++ subscribed_keys (changes_of E (ops ++ [op]))) /\ decides id (mkeys b ++ subscribed_keys (changes_of E ops))) as ID.
      { intros k Hk. destruct (long_enough ((mkeys b ++ subscribed_keys (changes_of E (ops ++ [op]))) ++ mkeys b ++ subscribed_keys (changes_of E ops))) as (n & Hn).
        destruct (long_id k n Hk) as (id & Hw & HL & Hp). exists id. split; auto. split; [intros ->; cbn in HL; lia|]. split; [apply id_has_prefix_str; auto|].
        specialize (Hn id HL). split; intros x Hx; apply Hn; apply in_or_app; auto. }
      assert (apply_changes m0 (changes_of E (ops ++ [op])) = apply_change m c) as EM.
      { rewrite changes_of_app, changes_of_one, HO, apply_changes_app. reflexivity. }
      pose proof (entries_one op c HO) as HE. destruct op as [s|s], c as [k u|k]; try contradiction.
      + destruct Hs as [Hk Hu].
        assert (~ In u (map snd m)) as NI.
        { intros H. apply in_map_iff in H. destruct H as ([k' u'] & Eu & H). cbn in Eu. subst u'.
          apply NM. cbn [well_placed]. left. rewrite <- (Own k u k' eq_refl H). apply (content_node used m t); auto. apply in_map_iff. exists (k', u). auto. }
        destruct (misplaced_add E sub0 ops t0 m0 t s k u HB HU E0 HI HC Et HE (conj Hk Hu) NM NI) as (t' & Et' & Never).
        destruct (ID k Hk) as (id & Hw & Hid & Hp & HD & _). destruct (HX [] id Hw Hid HD) as (t'' & uris & Er & HR & HA).
        assert (patricia_run E sub0 (ops ++ [Add s]) = Ok t') as Er'.
        { unfold patricia_run in *. rewrite E0 in *. rewrite fold_left_app, Et. exact Et'. }
        rewrite Er in Er'. injection Er' as ->. rewrite EM in HR.
        assert (In u uris) as Hin.
        { apply (reported_In _ _ _ u HR). exists k. split; auto. cbn [apply_change]. apply mget_In. rewrite mget_mset, seqb_refl. reflexivity. }
        destruct HA as [[-> _]|[_ HA]]; [destruct Hin|]. cbn [translate] in HA. exact (Never _ _ _ _ _ HA Hin).
      + destruct HE as [u HE].
        destruct (misplaced_del E sub0 ops t0 m0 t s k u HB HU E0 HI HC Et HE NM) as (Et' & Hin).
        assert (forall q, has_node t q -> q = k) as Only.
        { intros q Hq. destruct (gostring_eq_dec q k) as [|Hn]; auto. exfalso. apply NM. intros [H _]. auto. }
        destruct (ID k Hs) as (id & Hw & Hid & Hp & HD & HD'). destruct (HX [] id Hw Hid HD) as (t'' & uris & Er & HR & HA).
        destruct (placed_exact ops HP [] id Hw Hid HD') as (t3 & uris3 & Er3 & HR3 & HA3).
        rewrite Et in Er3. injection Er3 as <-.
        assert (patricia_run E sub0 (ops ++ [Del s]) = Ok t) as Er'.
        { unfold patricia_run in *. rewrite E0 in *. rewrite fold_left_app, Et. exact Et'. }
        rewrite Er in Er'. injection Er' as ->. rewrite EM in HR. fold m in HR3.
        apply in_map_iff in Hin. destruct Hin as ([k1 u1] & Ek & Hin). cbn in Ek. subst k1.
        assert (In u1 uris3) as H1 by (apply (reported_In _ _ _ u1 HR3); eauto).
        assert (uris = uris3) as ->.
        { destruct HA as [[-> HA]|[HN HA]], HA3 as [[-> HA3]|[HN3 HA3]]; cbn [translate] in *; try congruence. }
        apply (reported_In _ _ _ u1 HR) in H1. destruct H1 as (k2 & H2 & _). cbn [apply_change] in H2.
        assert (mget k2 (mdel k m) <> None) as H3 by (apply mget_keys, in_map_iff; exists (k2, u1); auto).
        rewrite mget_mdel in H3 by apply It. destruct (seqb_spec k2 k) as [|Hn]; [congruence|]. apply mget_keys in H3.
        apply Hn, Only, (content_node used m t); auto.
    - intros HM. apply placed_exact. rewrite changes_of_app, changes_of_one, HO. apply placed_app. split; auto.
      constructor; auto. constructor.
  Qed.
  Lemma exactly ops : one_by_one E ops -> Forall sound (changes_of E ops) -> own_uris m0 (changes_of E ops) ->
    ((forall done rest, ops = done ++ rest -> exact_after E sub0 m0 done) <-> placed (first_places (mkeys b)) m0 (changes_of E ops)).
  Proof.
    intros O S Own. split.
    - induction ops as [|op ops IH] using rev_ind; intros HX; [constructor|].
      rewrite changes_of_app in S, Own. apply Forall_app in S. destruct S as [S1 S2]. apply Forall_app in O. destruct O as [O1 O2].
      assert (placed (first_places (mkeys b)) m0 (changes_of E ops)) as HP.
      { apply IH; auto.
        - intros cs1 k u cs2 k' Ec. apply (Own cs1 k u (cs2 ++ changes_of E [op])). rewrite Ec, <- app_assoc. reflexivity.
        - intros done rest ->. apply (HX done (rest ++ [op])). rewrite app_assoc. reflexivity. }
      inversion O2 as [|? ? [c Hc] _]; subst. rewrite changes_of_one, Hc in S2. inversion S2 as [|? ? Sc _]; subst.
      rewrite changes_of_app, changes_of_one, Hc. apply placed_app. split; auto. constructor; auto; [|constructor].
      apply (exact_step ops op c HP Hc Sc); [|apply (HX _ []); rewrite app_nil_r; reflexivity].
      intros k u k' -> Hk. eapply (Own (changes_of E ops) k u []); [|exact Hk]. rewrite changes_of_one, Hc. reflexivity.
    - intros HP done rest ->. rewrite changes_of_app in HP. apply placed_app in HP. apply placed_exact, HP.
  Qed.
End Exact.

(** Deciding [own_uris] on concrete data. *)
Fixpoint own_b (m : prefix_subs) (cs : list change) : bool :=
  match cs with
  | [] => true
  | c :: cs => match c with Subscribe k u => forallb (fun p => negb (seqb (snd p) u) || seqb (fst p) k) m | _ => true end && own_b (apply_change m c) cs
  end.
Lemma own_b_spec cs : forall m, own_b m cs = true -> own_uris m cs.
Proof.
  induction cs as [|c cs IH]; intros m H cs1 k u cs2 k' Ec Hk; [destruct cs1; discriminate|]. cbn [own_b] in H. apply andb_true_iff in H. destruct H as [H1 H2].
  destruct cs1 as [|c' cs1]; cbn [app] in Ec; injection Ec as -> Ec.
  - rewrite forallb_forall in H1. apply H1 in Hk. cbn [fst snd] in Hk. rewrite seqb_refl in Hk. cbn in Hk. destruct (seqb_spec k' k); auto. discriminate.
  - apply (IH _ H2 cs1 k u cs2 k' Ec Hk).
Qed.
Lemma placed_sound cs : forall N m, placed N m cs -> Forall sound cs.
Proof. induction cs as [|c cs IH]; intros N m H; [constructor|]. inversion H; subst. constructor; eauto. Qed.
