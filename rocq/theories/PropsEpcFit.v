(** Property C61: the limits on the EPC patterns are exact. *)
From Verif Require Import GoBase BinUtil MFilter MEngine MTdtCore MScheme MSubs MList MPatricia MSplay MSlice MLegacy MGenerator MFactory MSystem TestVectors.
From Verif Require Import PBase Spec SpecEpc SpecLegacy SpecFactory PFilter PSubs PSubs2 PList PMatch PExamples PSplay PSplayHist PSplayExact PAgree PPatriciaHist PEpc PEpc2 PEpc3 PEpc4 PLegacy2.
From Verif Require Import PFactory PFactory2 SpecSystem PSystem PSystem2 PropsEngine PropsSplay PropsTdt PropsEpc PropsLegacy PropsFactory PropsAnswers.
From Coq Require Import Lia Permutation.

(** Runs in which every engine is started with [sub] and only [t] is searched. *)
Definition only (sub : subscriptions) (t : tag) (ls : list (@label subscriptions tag (list nat))) : Prop :=
  (forall e sub', In (LInit e sub') ls -> sub' = sub) /\ (forall t' order, In (LSearch t' order) ls -> t' = t).
Lemma only_boot e sub t : only sub t (boot e sub ++ announce e ++ [LStart]).
Proof.
  split; intros x y I; cbn in I; repeat (destruct I as [I|I]; [try discriminate I; congruence|]); destruct I.
Qed.
Lemma only_search sub t ls f : only sub t ls -> only sub t (ls ++ searching t f).
Proof.
  intros [H1 H2]. split; intros x y I; apply in_app_iff in I; destruct I as [I|I]; eauto; apply searching_in in I; destruct I as [I1 I2]; [destruct (I1 _ _ eq_refl)|eauto].
Qed.
Lemma one_search E e sub eng t a f eng' : build_engine E e sub = Ok eng -> engine_search [] eng t = Ok (a, f, eng') ->
  exists ls st o, only sub t ls /\ system_run E system0 ls = Ok (st, o) /\ In (OAnswer e t a) o.
Proof.
  intros B S. destruct (alone_boot E e sub eng B) as (s1 & o1 & R1 & A1). destruct (alone_search E e eng s1 t a f eng' A1 S) as (s2 & o2 & R2 & I2 & _).
  do 3 eexists. split; [apply only_search, only_boot|]. split; [exact (ran_then E _ _ _ _ _ _ _ R1 R2)|]. apply in_app_iff; auto.
Qed.
Lemma two_searches E e sub eng t a f eng' a' f' eng'' : build_engine E e sub = Ok eng ->
  engine_search [] eng t = Ok (a, f, eng') -> engine_search [] eng' t = Ok (a', f', eng'') ->
  exists ls st o, only sub t ls /\ system_run E system0 ls = Ok (st, o) /\ In (OAnswer e t a') o.
Proof.
  intros B S S'. destruct (alone_boot E e sub eng B) as (s1 & o1 & R1 & A1). destruct (alone_search E e eng s1 t a f eng' A1 S) as (s2 & o2 & R2 & _ & A2).
  destruct (alone_search E e eng' s2 t a' f' eng'' A2 S') as (s3 & o3 & R3 & I3 & _).
  do 3 eexists. split; [apply only_search, only_search, only_boot|]. split; [exact (ran_then E _ _ _ _ _ _ _ (ran_then E _ _ _ _ _ _ _ R1 R2) R3)|]. apply in_app_iff; auto.
Qed.

(** Each subscriber has an address and one pattern, which some valid tag meets. *)
Definition one_pattern (s : epc_subs) : Prop :=
  forall u ps, In (u, ps) s -> u <> [] /\ exists p f, ps = [p] /\ pattern_ok p /\ urn_fields (p_scheme p) f /\ leads p (p_scheme p) f.
(** In every run with these subscriptions, searching valid tags only, each answer
    of a byte engine names exactly the subscribers whose pattern the tag meets. *)
Definition told_right (E : env) (s : epc_subs) : Prop :=
  forall ls st o, (forall e sub, In (LInit e sub) ls -> Permutation (sub_texts s) sub) ->
  (forall t order, In (LSearch t order) ls -> exists k f, epc_tag k f t) ->
  system_run E system0 ls = Ok (st, o) ->
  forall e t a k f, In (OAnswer e t a) o -> e <> ELegacy -> epc_tag k f t ->
  forall u, In u (snd (fst a)) <-> exists p, subscribed s u p /\ leads p k f.

Lemma nodup_fst {A B} (l : list (A * B)) a x y : NoDup (map fst l) -> In (a, x) l -> In (a, y) l -> x = y.
Proof.
  induction l as [|[a' z] l IH]; intros ND I J; [destruct I|]. cbn [map fst] in ND. inversion ND as [|? ? NI ND']; subst.
  destruct I as [I|I], J as [J|J]; auto; try congruence; exfalso; apply NI.
  - injection I as -> ->. apply (in_map fst _ _ J).
  - injection J as -> ->. apply (in_map fst _ _ I).
Qed.
Section Exact.
  Context (E : env) (s : epc_subs) (ND : NoDup (map fst s)) (ONE : one_pattern s) (RIGHT : told_right E s).
  Let OK : forall u p, subscribed s u p -> pattern_ok p.
  Proof using ONE. intros u p (ps & I & J). destruct (ONE u ps I) as (_ & q & f & -> & Q & _). destruct J as [<-|[]]. auto. Qed.
  Let met : forall u p, subscribed s u p -> exists f, urn_fields (p_scheme p) f /\ leads p (p_scheme p) f.
  Proof using ONE. intros u p (ps & I & J). destruct (ONE u ps I) as (_ & q & f & -> & _ & U). destruct J as [<-|[]]. eauto. Qed.
  Let single_pattern : forall u p q, subscribed s u p -> subscribed s u q -> p = q.
  Proof using ND ONE.
    intros u p q (ps & I & J) (qs & I' & J'). assert (ps = qs) as <- by (eapply nodup_fst; eauto).
    destruct (ONE u ps I) as (_ & r & f & -> & _). destruct J as [<-|[]], J' as [<-|[]]. auto.
  Qed.
  Let uris_ok : forall u p, subscribed s u p -> u <> [].
  Proof using ONE. intros u p (ps & I & _). apply (ONE u ps I). Qed.
  (** What holds of an answer. *)
  Let answer_right e sub t a k f ls st o : Permutation (sub_texts s) sub -> epc_tag k f t -> e <> ELegacy ->
    only sub t ls -> system_run E system0 ls = Ok (st, o) -> In (OAnswer e t a) o ->
    forall u, In u (snd (fst a)) <-> exists p, subscribed s u p /\ leads p k f.
  Proof using RIGHT.
    intros PM ET NL [O1 O2] R I. eapply (RIGHT ls st o); eauto.
    - intros e' sub' J. rewrite (O1 _ _ J). auto.
    - intros t' order J. rewrite (O2 _ _ J). eauto.
  Qed.
  Let tag_of p : (exists f, urn_fields (p_scheme p) f /\ leads p (p_scheme p) f) ->
    exists f t, leads p (p_scheme p) f /\ epc_tag (p_scheme p) f t /\ fst t = pcgs1 /\ urn_fields (p_scheme p) f.
  Proof using Type.
    intros (f & U & L). assert (epc_pc pcgs1) as HP by (exists 48%N, 0%N; split; reflexivity).
    destruct (round_trip (p_scheme p) E f pcgs1 HP U) as (id & EN & C & T). exists f, (pcgs1, id). split; auto. split; [|auto].
    split; auto. split; auto. exists E. exact EN.
  Qed.

  Lemma exact_unshared u u' p q : subscribed s u p -> subscribed s u' q -> same_pattern p q -> u = u'.
  Proof using OK met single_pattern answer_right tag_of.
    intros SP SQ SM. destruct (tag_of p (met _ _ SP)) as (f & t & LD & ET & FT & U). pose proof ET as (HP & _ & E' & EN).
    destruct (C47_exactly_partial E' E s (p_scheme p) f (fst t) HP U ND OK) as (id & EN' & IFF).
    assert (id = snd t) as -> by congruence.
    destruct (proj1 IFF) with (u := u) (p := p) as (q' & SQ' & _ & H); auto.
    2:{ rewrite <- (single_pattern _ _ _ SP SQ') in H. symmetry. eapply H; eauto. }
    intros s' PM. pose proof PM as PM'. unfold sub_texts in PM'. apply Permutation_sym, Permutation_map_inv in PM'. destruct PM' as (s2 & -> & PM2).
    fold (sub_texts s2) in *.
    assert (forall u p, subscribed s2 u p <-> subscribed s u p) as SS.
    { intros v r. split; intros (ps & I & J); exists ps; (split; [|auto]); (eapply Permutation_in; [|exact I]); auto using Permutation_sym. }
    destruct (C47_shared_patterns E' E s2 (p_scheme p) f (fst t) HP U) as (id2 & uris & EN2 & _ & _ & LS).
    { intros v r SR. apply (OK v). apply SS; auto. }
    assert (id2 = snd t) as -> by congruence. exists uris. split; [|exact LS].
    assert (exists a, list_search (new_list E (sub_texts s2)) (fst t) (snd t) = Ok a /\ snd (fst a) = uris) as (a & LA & <-) by (rewrite LS; destruct uris; eauto).
    assert (engine_search [] (EngList (new_list E (sub_texts s2))) t = Ok (a, match snd (fst a) with [] => false | _ => true end, EngList (new_list E (sub_texts s2)))) as ES
      by (unfold engine_search; rewrite LA; reflexivity).
    destruct (one_search E EList (sub_texts s2) _ t a _ _ eq_refl ES) as (ls & st & o & O & R & I). eapply answer_right; eauto. discriminate.
  Qed.

  Let bits : Forall is_bitstring (mkeys (to_byte_subs E (sub_texts s))).
  Proof using OK. apply Forall_forall. intros key I. destruct (epc_keys E s key OK I) as (u & p & _ & ->). apply is_bits_to_str. Qed.
  Let entry u key : In (key, u) (entries (to_byte_subs E (sub_texts s))) <-> exists p, subscribed s u p /\ key = bits_to_str (pat_bits p).
  Proof using OK met single_pattern answer_right tag_of.
    rewrite to_byte_unshared by (apply texts_unshared; [exact OK|exact exact_unshared]). apply wants_texts. exact OK.
  Qed.

  (** A pattern that covers all is lost by the trie. *)
  Lemma exact_apart u p : subscribed s u p -> ~ forall u' q, subscribed s u' q -> covers p q.
  Proof using OK met single_pattern uris_ok answer_right tag_of.
    intros SP ALL. destruct (tag_of p (met _ _ SP)) as (f & t & LD & ET & FT & U).
    destruct (epc_tag_fit E s _ f t OK ET) as ((W & NE & D & T') & C & T).
    destruct (patricia_fresh_search E (sub_texts s) (fst t) (snd t) bits) as (tr & subs & uris & N & _ & HS & RE & AN); auto.
    { intros k v I. apply entry in I. destruct I as (q & SQ & _). eauto. }
    rewrite T in AN.
    assert (exists a, patricia_search tr (fst t) (snd t) = Ok a /\ snd (fst a) = uris) as (a & PA & EU).
    { destruct AN as [[-> ->]|[_ ->]]; eauto. }
    assert (build_engine E EPatricia (sub_texts s) = Ok (EngPatricia tr)) as B by (cbn; rewrite N; auto).
    assert (engine_search [] (EngPatricia tr) t = Ok (a, match snd (fst a) with [] => false | _ => true end, EngPatricia tr)) as ES
      by (unfold engine_search; rewrite PA; reflexivity).
    destruct (one_search E EPatricia (sub_texts s) _ t a _ _ B ES) as (ls & st & o & O & R & I).
    assert (In u (snd (fst a))) as IN. { eapply (answer_right EPatricia); eauto. discriminate. }
    rewrite EU in IN. apply (reported_In _ _ _ _ RE) in IN. destruct IN as (key & IK & _). apply HS in IK. destruct IK as [IK NL].
    apply entry in IK. destruct IK as (q & SQ & ->). rewrite <- (single_pattern _ _ _ SP SQ) in NL. apply NL. split.
    - intros key I'. destruct (epc_keys E s key OK I') as (u' & q' & SQ' & ->). apply bprefix_str, covers_bits; eauto.
    - intros c Hc. apply Hc. eapply key_stored; eauto.
  Qed.

  (** Two patterns covered by a third and apart from each other: the splay tree
      loses one. *)
  Lemma exact_chain u p u1 q1 u2 q2 : subscribed s u p -> subscribed s u1 q1 -> subscribed s u2 q2 ->
    covers p q1 -> covers p q2 -> covers q1 q2 \/ covers q2 q1.
  Proof using OK met single_pattern uris_ok answer_right tag_of ND ONE.
    intros SP S1 S2 C1 C2. set (b := to_byte_subs E (sub_texts s)).
    assert (b <> []) as NB. { pose proof (key_stored E s u p OK SP) as I. fold b in I. intros X. rewrite X in I. destruct I. }
    destruct (calm_tree E (sub_texts s) [] NB bits (calm_nil _)) as (t0 & Et & It). fold b in It.
    change (after (entries b) (events_of E [])) with (entries b) in It.
    assert (forall v q, subscribed s v q -> In (bits_to_str (pat_bits q)) (map fst (entries b))) as KEY.
    { intros v q SQ. rewrite entries_keys. eapply key_stored; eauto. }
    destruct (snarrow_dec t0) as [HN|HN].
    - assert (forall q q' w, covers p q -> subscribed s w q -> pat_bits q = pat_bits p -> pattern_ok q' -> covers p q' -> covers q q') as SAME.
      { intros q q' w CQ SQ EQ OK' CQ'. apply covers_bits; eauto. rewrite EQ. apply covers_bits; eauto. }
      assert (forall q, covers p q -> pattern_ok q -> pat_bits q <> pat_bits p -> strictly_extends (bits_to_str (pat_bits q)) (bits_to_str (pat_bits p))) as EXT.
      { intros q CQ OQ NQ. split; [apply bprefix_str, covers_bits; eauto|]. intros X. apply bits_to_str_inj in X. auto. }
      destruct (list_eq_dec Bool.bool_dec (pat_bits q1) (pat_bits p)) as [X1|X1]; [left; eapply SAME; eauto|].
      destruct (list_eq_dec Bool.bool_dec (pat_bits q2) (pat_bits p)) as [X2|X2]; [right; eapply SAME; eauto|].
      pose proof (proj2 (sinv_keys _ t0 _ It) (KEY _ _ SP)) as K. pose proof (proj2 (sinv_keys _ t0 _ It) (KEY _ _ S1)) as K1.
      pose proof (proj2 (sinv_keys _ t0 _ It) (KEY _ _ S2)) as K2.
      destruct (snarrow_chain t0 0 (si_wf _ _ It) HN _ K _ _ K1 K2 (EXT q1 C1 (OK _ _ S1) X1) (EXT q2 C2 (OK _ _ S2) X2)) as [H|H]; [left|right];
        apply bprefix_str, covers_bits in H; eauto.
    - exfalso. destruct (fork_forgets_at _ t0 It HN) as (key & IK & LOSE). rewrite entries_keys in IK.
      destruct (epc_keys E s key OK IK) as (v & r & SR & ->). destruct (tag_of r (met _ _ SR)) as (f & t & LD & ET & FT & U).
      destruct (epc_tag_fit E s _ f t OK ET) as ((W & NE & D & T') & C & T). pose proof C as ((_ & L12 & _) & _).
      destruct (LOSE (snd t) W) with (pc := fst t) as (t1 & uris & uris' & S0 & RE & A0 & A1 & LT).
      { rewrite entries_keys. exact D. }
      { apply id_has_prefix_str; [apply is_bits_to_str|]. apply pat_has_prefix; eauto. apply (names_leads r (p_scheme r) f); eauto. }
      assert (exists a0, splay_search t0 (fst t) (snd t) = Ok (a0, t1)) as (a0 & SS0).
      { unfold splay_search in A0 |- *. rewrite S0 in *. cbn [bind] in *. destruct (finish_search (fst t) (snd t) uris) as [r0| |]; cbn [bind drop_tree] in *; eauto;
        rewrite T in A0; destruct A0 as [[_ X]|[_ X]]; discriminate X. }
      assert (exists a1 t2, splay_search t1 (fst t) (snd t) = Ok (a1, t2) /\ snd (fst a1) = uris') as (a1 & t2 & SS1 & EU).
      { rewrite T in A1. destruct (splay_search t1 (fst t) (snd t)) as [[a1 t2]| |]; cbn [bind drop_tree] in A1; destruct A1 as [[X1 X]|[_ X]]; try discriminate X; injection X as ->; subst; eauto. }
      assert (build_engine E ESplay (sub_texts s) = Ok (EngSplay t0)) as B.
      { unfold splay_run in Et. cbn [fold_left] in Et. cbn. rewrite Et. reflexivity. }
      assert (engine_search [] (EngSplay t0) t = Ok (a0, match snd (fst a0) with [] => false | _ => true end, EngSplay t1)) as ES0
        by (unfold engine_search; rewrite SS0; reflexivity).
      assert (engine_search [] (EngSplay t1) t = Ok (a1, match snd (fst a1) with [] => false | _ => true end, EngSplay t2)) as ES1
        by (unfold engine_search; rewrite SS1; reflexivity).
      destruct (two_searches E ESplay (sub_texts s) _ t a0 _ _ a1 _ _ B ES0 ES1) as (ls & st & o & O & R & I).
      assert (forall w, In w (snd (fst a1)) <-> exists q, subscribed s w q /\ leads q (p_scheme r) f) as IFF.
      { eapply (answer_right ESplay); eauto. discriminate. }
      rewrite EU in IFF.
      assert (length uris <= length uris'); [|lia]. apply NoDup_incl_length.
      + apply reported_bits in RE; [|rewrite entries_keys; exact bits]. rewrite RE.
        assert (NoDup (map snd (entries b))) as NS.
        { assert (NoDup (map fst (entries b))) as NF by (rewrite entries_keys; apply ssorted_NoDup, to_byte_subs_flat).
          assert (forall k1 k2 w, In (k1, w) (entries b) -> In (k2, w) (entries b) -> k1 = k2) as ONE1.
          { intros k1 k2 w I1 I2. apply entry in I1, I2. destruct I1 as (x1 & Y1 & ->), I2 as (x2 & Y2 & ->). rewrite (single_pattern _ _ _ Y1 Y2). auto. }
          clear - NF ONE1. induction (entries b) as [|[k1 w] l IH]; [constructor|]. cbn [map fst snd] in *. inversion NF as [|? ? NI NF']; subst. constructor.
          - intros I. apply in_map_iff in I. destruct I as ([k2 w2] & X & I). cbn in X. subst w2. apply NI.
            rewrite (ONE1 k1 k2 w) by (cbn; auto). apply (in_map fst _ _ I).
          - apply IH; auto. intros k3 k4 w' I3 I4. eapply ONE1; right; eauto. }
        clear - NS. induction (entries b) as [|x l IH]; [constructor|]. cbn [map] in NS. inversion NS as [|? ? NI NF']; subst. cbn [filter].
        destruct (PSplay.hit (snd t) x); auto. cbn [map]. constructor; auto. intros I. apply NI. apply in_map_iff in I. destruct I as (y & EY & I). apply filter_In in I. rewrite <- EY. apply in_map. tauto.
      + intros w I'. apply IFF. apply (reported_In _ _ _ _ RE) in I'. destruct I' as (key & IK' & HP). apply entry in IK'. destruct IK' as (q & SQ & ->).
        exists q. split; auto. apply (names_leads q (p_scheme r) f (snd t)); eauto. apply pat_has_prefix; eauto.
  Qed.
End Exact.

(** When each subscriber has one pattern, met by some tag: the byte engines answer
    as the patterns call for, in every run, exactly when no two subscribers have the
    same pattern, no pattern covers all others, and the patterns covered by one
    pattern cover each other in a chain. *)
Theorem C61_exactly_partial : forall E s, s <> [] -> NoDup (map fst s) -> one_pattern s -> epc_fit s <-> told_right E s.
Proof.
  intros E s NE ND ONE. split.
  - intros F ls st o HI HT R e t a k f I NL ET u. destruct (C61_end_to_end_partial E s ls F HI HT) as [_ END].
    destruct (END st o R e t a k f I NL ET) as (uris & IFF & ->). rewrite <- IFF. destruct uris; reflexivity.
  - intros RIGHT.
    assert (forall u p, subscribed s u p -> pattern_ok p) as OK.
    { intros u p (ps & I & J). destruct (ONE u ps I) as (_ & q & f & -> & Q & _). destruct J as [<-|[]]. auto. }
    constructor; auto.
    + destruct s as [|[u ps] s']; [congruence|]. destruct (ONE u ps (or_introl eq_refl)) as (_ & p & f & -> & _). exists u, p, [p]. split; left; reflexivity.
    + intros u p (ps & I & _). apply (ONE u ps I).
    + intros u u' p q. apply (exact_unshared E s ND ONE RIGHT).
    + intros u p SP. set (all := flat_map (fun e => map (pair (fst e)) (snd e)) s).
      assert (forall v q, subscribed s v q <-> In (v, q) all) as FL.
      { intros v q. unfold all. rewrite in_flat_map. split.
        - intros (ps & I & J). exists (v, ps). split; auto. apply in_map; auto.
        - intros ((w & ps) & I & J). cbn [fst snd] in J. apply in_map_iff in J. destruct J as (r & X & J). injection X as -> ->. exists ps. auto. }
      destruct (existsb (fun x => negb (covers_b p (snd x))) all) eqn:EX.
      * apply existsb_exists in EX. destruct EX as ([v q] & I & N). exists v, q. split; [apply FL; auto|]. rewrite <- covers_b_ok. cbn [snd] in N. destruct (covers_b p q); [discriminate N|discriminate].
      * exfalso. apply (exact_apart E s ND ONE RIGHT u p SP). intros v q SQ. apply FL in SQ. apply covers_b_ok.
        destruct (covers_b p q) eqn:CB; auto. exfalso. assert (existsb (fun x => negb (covers_b p (snd x))) all = true); [|congruence].
        apply existsb_exists. exists (v, q). split; auto. cbn [snd]. rewrite CB. auto.
    + intros u p u1 q1 u2 q2. apply (exact_chain E s ND ONE RIGHT).
Qed.
Print Assumptions C61_exactly_partial.

(** The text engine leaves out the filter value, so it tells every subscriber who
    does not list all eight values of tags they did not ask for: such an answer is
    given in some run, whatever the subscriptions. *)
Theorem C61_legacy_refuted : forall E s u p v, NoDup (map fst s) ->
  (forall w q, subscribed s w q -> pattern_ok q) ->
  subscribed s u p -> urn_fields (p_scheme p) (p_fields p) ->
  (p_scheme p = Grai -> 3 <= p_count p -> fields_partition (p_fields p) <> 0) ->
  is_decimal v -> (dec_value v < 8)%N ->
  (forall q, subscribed s u q -> p_scheme q = p_scheme p -> dec_value (f_filter (p_fields q)) <> dec_value v) ->
  exists ls st o t a f, only (sub_texts s) t ls /\ system_run E system0 ls = Ok (st, o) /\ In (OAnswer ELegacy t a) o /\
    epc_tag (p_scheme p) f t /\ In u (snd (fst a)) /\ ~ exists q, subscribed s u q /\ leads q (p_scheme p) f.
Proof.
  intros E s u p v ND OK SP UP GZ DV V8 NV.
  set (f := {| f_filter := v; f_cp := f_cp (p_fields p); f_ref := f_ref (p_fields p); f_ser := f_ser (p_fields p) |}).
  assert (urn_fields (p_scheme p) f) as U.
  { destruct UP as ((D1 & D2) & CL & (B1 & B2) & R). split; [split; [exact DV|exact D2]|]. split; [exact CL|]. split; [split; [exact V8|exact B2]|exact R]. }
  assert (epc_pc pcgs1) as HP by (exists 48%N, 0%N; split; reflexivity).
  assert (Permutation (sub_texts s) (sub_clone (sub_texts s))) as PM.
  { apply clone_perm. unfold sub_texts. rewrite map_map. exact ND. }
  destruct (C18_legacy_exact E s (p_scheme p) f pcgs1 _ HP U OK PM) as (id & uris & EN & G1 & G2).
  assert (exists a, legacy_search (sub_clone (sub_texts s)) pcgs1 id = Ok a /\ snd (fst a) = uris) as (a & LA & EU) by (rewrite G2; destruct uris; eauto).
  assert (engine_search [] (EngLegacy (sub_clone (sub_texts s))) (pcgs1, id) =
    Ok (a, match snd (fst a) with [] => false | _ => true end, EngLegacy (sub_clone (sub_texts s)))) as ES by (unfold engine_search; cbn [reorder fst snd]; rewrite LA; reflexivity).
  destruct (one_search E ELegacy (sub_texts s) _ (pcgs1, id) a _ _ eq_refl ES) as (ls & st & o & O & R & I).
  exists ls, st, o, (pcgs1, id), a, f. do 3 (split; [auto|]). split; [|split].
  - split; auto. split; auto. exists E. exact EN.
  - rewrite EU. apply G1. exists p. split; auto.
    assert (selects (pattern_text p) (scheme_name (p_scheme p) ++ str ":" ++ dotted (id_texts (p_scheme p) (p_fields p)))) as S.
    { apply leads_selects; eauto. split; auto. }
    apply selects_epc in S; eauto.
  - intros (q & SQ & LD). apply (NV q SQ); [apply LD|]. symmetry. apply LD.
Qed.
Print Assumptions C61_legacy_refuted.

(** Two subscribers within the limits; the first of them alone, outside of them; and
    a filter value neither of them lists. *)
Definition ex_two : epc_subs := [(str "http://a", [ex_pat Sgtin 2 ex_f1]); (str "http://b", [ex_pat Giai 1 ex_f4])].
Definition ex_one : epc_subs := [(str "http://a", [ex_pat Sgtin 2 ex_f1])].
Lemma subscribed_all (s : epc_subs) v q : subscribed s v q -> In (v, q) (flat_map (fun e => map (pair (fst e)) (snd e)) s).
Proof. intros (ps & I & J). apply in_flat_map. exists (v, ps). split; auto. apply in_map; auto. Qed.
Example C61_exactly_case : NoDup (map fst ex_two) /\ one_pattern ex_two /\ epc_fit ex_two /\ one_pattern ex_one /\ ~ epc_fit ex_one /\
  is_decimal (str "0") /\ (forall u q, subscribed ex_two u q -> dec_value (f_filter (p_fields q)) <> dec_value (str "0")).
Proof.
  assert (urn_fields Sgtin ex_f1) as U1 by (apply urn_fields_b_ok; vm_compute; reflexivity).
  assert (urn_fields Giai ex_f4) as U4 by (apply urn_fields_b_ok; vm_compute; reflexivity).
  assert (pattern_ok (ex_pat Sgtin 2 ex_f1)) as P1 by (eapply (proj1 C47_hypotheses); eexists; split; [left; reflexivity|left; reflexivity]).
  assert (pattern_ok (ex_pat Giai 1 ex_f4)) as P4 by (eapply (proj1 C47_hypotheses); eexists; split; [left; reflexivity|right; left; reflexivity]).
  assert (NoDup (map fst ex_two)) as ND by (unfold ex_two; cbn [map fst]; repeat apply NoDup_cons; try apply NoDup_nil; intros I; cbn in I; repeat (destruct I as [I|I]; [discriminate I|]); destruct I).
  assert (one_pattern ex_two) as O2.
  { intros u ps I. destruct I as [I|[I|[]]]; injection I as <- <-; (split; [discriminate|]).
    - exists (ex_pat Sgtin 2 ex_f1), ex_f1. split; auto. split; auto. split; [exact U1|]. split; auto.
    - exists (ex_pat Giai 1 ex_f4), ex_f4. split; auto. split; auto. split; [exact U4|]. split; auto. }
  assert (forall u q, subscribed ex_two u q -> (u, q) = (str "http://a", ex_pat Sgtin 2 ex_f1) \/ (u, q) = (str "http://b", ex_pat Giai 1 ex_f4)) as FL.
  { intros u q S. apply subscribed_all in S. destruct S as [S|[S|[]]]; auto. }
  split; auto. split; auto. split; [|split; [|split; [|split]]].
  - assert (subscribed ex_two (str "http://a") (ex_pat Sgtin 2 ex_f1)) as SA by (eexists; split; [left; reflexivity|left; reflexivity]).
    assert (subscribed ex_two (str "http://b") (ex_pat Giai 1 ex_f4)) as SB by (eexists; split; [right; left; reflexivity|left; reflexivity]).
    constructor; auto.
    + eauto.
    + intros u p S. destruct (FL u p S) as [X|X]; injection X as -> ->; discriminate.
    + intros u p S. destruct (FL u p S) as [X|X]; injection X as -> ->; auto.
    + intros u u' p q S S' (K & _). destruct (FL u p S) as [X|X], (FL u' q S') as [Y|Y]; injection X as -> ->; injection Y as -> ->; auto; discriminate K.
    + intros u p S. destruct (FL u p S) as [X|X]; injection X as -> ->; do 2 eexists; [split; [exact SB|]|split; [exact SA|]]; intros (_ & K & _); discriminate K.
    + intros u p u1 q1 u2 q2 _ S1 S2 C1 C2. destruct (FL u1 q1 S1) as [X|X], (FL u2 q2 S2) as [Y|Y]; injection X as -> ->; injection Y as -> ->;
        try (left; apply covers_b_ok; vm_compute; reflexivity); destruct C1 as (_ & K1 & _), C2 as (_ & K2 & _); cbn in K1, K2; congruence.
  - intros u ps I. apply (O2 u ps). destruct I as [I|[]]. left. exact I.
  - intros F. destruct (ef_apart _ F (str "http://a") (ex_pat Sgtin 2 ex_f1)) as (u & q & S & NC).
    + eexists; split; [left; reflexivity|left; reflexivity].
    + apply subscribed_all in S. destruct S as [S|[]]. injection S as _ <-. apply NC, covers_b_ok. vm_compute. reflexivity.
  - apply is_decimal_b_ok. vm_compute. reflexivity.
  - intros u q S. destruct (FL u q S) as [X|X]; injection X as _ ->; vm_compute; discriminate.
Qed.
