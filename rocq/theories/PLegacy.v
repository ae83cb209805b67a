(** The legacy engine's updates, on memory. *)
From Verif Require Import GoBase MSlice MSubs MLegacy PBase Spec PSlice.
From Verif Require Export SpecStore.
From Coq Require Import Lia.
(** From [(h, e)] to [(h', e')] every slice away from [e] keeps its elements. *)
Definition framed (h : heap) (e : slice_map) (h' : heap) (e' : slice_map) : Prop :=
  forall t, slice_ok h t -> away e t -> slice_ok h' t /\ view h' t = view h t /\ away e' t.

Lemma contents_get h e k : mget k (contents h e) = option_map (view h) (mget k e).
Proof. induction e as [|[k' s] e IH]; cbn; auto. destruct (seqb k k'); auto. Qed.
Lemma contents_keys h e : mkeys (contents h e) = mkeys e.
Proof. unfold mkeys, contents. rewrite map_map. apply map_ext. auto. Qed.
Lemma contents_wf h e : wf_map e -> wf_map (contents h e).
Proof. unfold wf_map. rewrite contents_keys. auto. Qed.

Lemma index_lt {A} (l : list A) j : j < length l -> exists x, index l j = Ok x /\ skipn j l = x :: skipn (S j) l.
Proof.
  revert j; induction l as [|a l IH]; intros [|j] H; cbn [length] in H; try lia.
  - exists a. auto.
  - destruct (IH j) as (x & H1 & H2); [lia|]. exists x. split; auto.
Qed.
Lemma string_index_none a l : string_index a l = None <-> ~ In a l.
Proof.
  induction l as [|b l IH]; cbn [string_index In]; [tauto|]. destruct (seqb_spec b a) as [->|N].
  - split; [discriminate|tauto].
  - destruct (string_index a l); [|tauto]. split; [discriminate|]. intros H. exfalso. assert (~ In a l) as X by tauto. apply IH in X. discriminate.
Qed.
Lemma string_index_some a l i : string_index a l = Some i -> nth_error l i = Some a /\ ~ In a (firstn i l).
Proof.
  revert i. induction l as [|b l IH]; cbn [string_index]; intros i; [discriminate|]. destruct (seqb_spec b a) as [->|N].
  - intros H. injection H as <-. cbn. auto.
  - destruct (string_index a l) as [j|]; [|discriminate]. intros H. injection H as <-. destruct (IH j eq_refl) as [H1 H2]. cbn. split; auto. intros [|]; auto.
Qed.

(** ** Adding *)
Definition tied (stale cur : slice) : Prop :=
  (sl_arr stale = sl_arr cur /\ sl_off stale = sl_off cur /\ sl_cap stale = sl_cap cur /\ sl_len stale <= sl_len cur) \/ disjoint cur stale.
Definition is_in (l : list gostring) (a : gostring) : bool := match string_index a l with Some _ => true | None => false end.

Lemma add_loop grow f src : forall n h e stale j cur,
  owned h e -> mget f e = Some cur -> slice_ok h stale -> tied stale cur ->
  (forall k s, k <> f -> mget k e = Some s -> disjoint s stale) ->
  slice_ok h src -> away e src -> j + n = sl_len src ->
  exists h' e' cur', legacy_add_loop grow h e f stale src j n = Ok (h', e') /\
    owned h' e' /\ mget f e' = Some cur' /\
    view h' cur' = view h cur ++ filter (fun p => negb (is_in (view h stale) p)) (skipn j (view h src)) /\
    (forall k, k <> f -> mget k e' = mget k e) /\
    (forall k s, k <> f -> mget k e = Some s -> view h' s = view h s) /\
    framed h e h' e'.
Proof.
  induction n as [|n IH]; intros h e stale j cur OW C OKS TI DS OKR AW LN.
  - exists h, e, cur. cbn [legacy_add_loop]. do 3 (split; [auto|]). split.
    { rewrite skipn_all2 by (rewrite view_length; auto; lia). cbn. rewrite app_nil_r. auto. }
    do 2 (split; [auto|]). intros t; auto.
  - cbn [legacy_add_loop]. destruct (index_lt (view h src) j) as (x & IX & SK); [rewrite view_length; auto; lia|].
    rewrite IX, SK. cbn [bind filter]. unfold is_in at 1. destruct (string_index x (view h stale)) eqn:SI; cbn [negb].
    + apply IH; auto; lia.
    + rewrite C. destruct (append1 grow h cur x) as [h1 cur1] eqn:AP. destruct OW as (W & OKA & DJ).
      pose proof (append1_new grow h cur x (OKA _ _ C)) as AN. rewrite AP in AN. cbn [fst snd] in AN. destruct AN as [AN1 AN2].
      assert (forall t, slice_ok h t -> disjoint cur t -> slice_ok h1 t /\ view h1 t = view h t /\ disjoint cur1 t) as AF.
      { intros t T D. pose proof (append1_frame grow h cur x (OKA _ _ C) t T D) as X. rewrite AP in X. exact X. }
      assert (slice_ok h1 stale /\ view h1 stale = view h stale /\ tied stale cur1) as (S1 & S2 & S3).
      { destruct TI as [(T1 & T2 & T3 & T4)|T].
        - pose proof (append1_stale grow h cur x (OKA _ _ C) stale OKS T1 T2 T3 T4) as X. rewrite AP in X. cbn [fst snd] in X. destruct X as (X1 & X2 & X3). auto.
        - destruct (AF stale OKS T) as (X1 & X2 & X3). split; auto. split; auto. right. auto. }
      destruct (AF src OKR (AW _ _ C)) as (R1 & R2 & R3).
      assert (owned h1 (mset f cur1 e)) as OW1.
      { split; [apply mset_wf; auto|]. split.
        - intros k s. rewrite mget_mset. destruct (seqb_spec k f); intros H; [injection H as <-; auto|]. eapply AF; eauto.
        - intros k k' s s' NK. rewrite !mget_mset. destruct (seqb_spec k f) as [->|], (seqb_spec k' f) as [->|]; try congruence; intros H H'.
          + injection H as <-. apply AF; eauto.
          + injection H' as <-. apply disjoint_sym. apply AF; eauto.
          + eauto. }
      destruct (IH h1 (mset f cur1 e) stale (S j) cur1) as (h' & e' & cur' & Q1 & Q2 & Q3 & Q4 & Q5 & Q6 & Q7); auto.
      * rewrite mget_mset, seqb_refl. auto.
      * intros k s NK. rewrite mget_mset. destruct (seqb_spec k f); [congruence|]. eauto.
      * intros k s. rewrite mget_mset. destruct (seqb_spec k f) as [->|]; intros H; [injection H as <-; auto|]. eauto.
      * lia.
      * exists h', e', cur'. split; auto. split; auto. split; auto. split.
        { rewrite Q4, AN2, R2, S2, <- app_assoc. reflexivity. }
        split; [|split].
        -- intros k NK. rewrite Q5 by auto. rewrite mget_mset. destruct (seqb_spec k f); [congruence|auto].
        -- intros k s NK H. rewrite (Q6 k s NK) by (rewrite mget_mset; destruct (seqb_spec k f); [congruence|auto]).
           apply AF; eauto.
        -- intros t T A. destruct (AF t T (A _ _ C)) as (F1 & F2 & F3). destruct (Q7 t F1) as (G1 & G2 & G3).
           { intros k s. rewrite mget_mset. destruct (seqb_spec k f) as [->|]; intros H; [injection H as <-; auto|]. eauto. }
           split; auto. split; auto. congruence.
Qed.

(** The patterns of a URI after [AddSubscription]. *)
Definition added (old new : option (list gostring)) : option (list gostring) :=
  match new, old with
  | None, _ => old
  | Some ps, None => Some ps
  | Some ps, Some l => Some (l ++ filter (fun p => negb (is_in l p)) ps)
  end.

Lemma wf_tail {V} k (v : V) m : wf_map ((k, v) :: m) -> wf_map m /\ mget k m = None.
Proof.
  intros W. unfold wf_map in W. cbn in W. pose proof (ssorted_NoDup _ W) as ND. inversion ND; inversion W; subst. split; auto.
  destruct (mget k m) eqn:E; auto. exfalso. apply H1. apply mget_keys. congruence.
Qed.
Lemma separate_tail h e k s sub : separate h e ((k, s) :: sub) -> separate h e sub /\ slice_ok h s /\ away e s /\
  (forall k' s', mget k' sub = Some s' -> k' <> k /\ disjoint s s').
Proof.
  intros (OE & (W & K & D) & A). destruct (wf_tail _ _ _ W) as [W' N].
  assert (forall k' s', mget k' sub = Some s' -> mget k' ((k, s) :: sub) = Some s' /\ k' <> k) as X.
  { intros k' s' H. cbn. destruct (seqb_spec k' k) as [->|]; [congruence|auto]. }
  assert (mget k ((k, s) :: sub) = Some s) as H0 by (cbn; rewrite seqb_refl; auto).
  split; [|split; [|split]].
  - split; auto. split; [split; [auto|split]|].
    + intros k' s' H. apply X in H. destruct H. eauto.
    + intros k1 k2 s1 s2 NK H1 H2. apply X in H1, H2. destruct H1, H2. eauto.
    + intros k' s' H. apply X in H. destruct H. eauto.
  - eauto.
  - eauto.
  - intros k' s' H. apply X in H. destruct H. split; auto. apply (D k k'); auto.
Qed.

Lemma legacy_add1_spec grow h e k s sub : separate h e ((k, s) :: sub) ->
  exists h1 e1, legacy_add1 grow (Ok (h, e)) (k, s) = Ok (h1, e1) /\ separate h1 e1 sub /\
    (forall k' s', mget k' sub = Some s' -> view h1 s' = view h s') /\
    (forall k', mget k' (contents h1 e1) = if seqb k' k then added (mget k (contents h e)) (Some (view h s)) else mget k' (contents h e)) /\
    (forall t, slice_ok h t -> away e t -> disjoint s t -> slice_ok h1 t /\ view h1 t = view h t /\ away e1 t).
Proof.
  intros SEP. pose proof SEP as ((WE & KE & DE) & _ & _). apply separate_tail in SEP. destruct SEP as (SEP & OKS & AWS & DT).
  destruct SEP as (OE & (WS & KS & DS) & AS). unfold legacy_add1. cbn [bind fst snd].
  destruct (mget k e) as [stale|] eqn:GK.
  - destruct (add_loop grow k s (sl_len s) h e stale 0 stale) as (h1 & e1 & cur & Q1 & Q2 & Q3 & Q4 & Q5 & Q6 & Q7); eauto.
    { left. auto. }
    exists h1, e1. split; auto. split; [|split; [|split]].
    + split; auto. split; [split; [auto|split]|].
      * intros k' s' H. eapply Q7; eauto.
      * auto.
      * intros k' s' H. eapply Q7; eauto.
    + intros k' s' H. eapply Q7; eauto.
    + intros k'. rewrite !contents_get. rewrite GK. cbn [option_map added]. destruct (seqb_spec k' k) as [->|NK].
      * rewrite Q3. cbn [option_map]. rewrite Q4. reflexivity.
      * rewrite Q5 by auto. destruct (mget k' e) eqn:G; auto. cbn. f_equal. eauto.
    + intros t T A _. apply Q7; auto.
  - exists h, (mset k s e). split; auto. split; [|split; [|split]].
    + split.
      * split; [apply mset_wf; auto|]. split.
        -- intros k' s'. rewrite mget_mset. destruct (seqb_spec k' k); intros H; [injection H as <-; auto|]. eauto.
        -- intros k1 k2 s1 s2 NK. rewrite !mget_mset. destruct (seqb_spec k1 k) as [->|], (seqb_spec k2 k) as [->|]; try congruence; intros H1 H2.
           ++ injection H1 as <-. apply disjoint_sym. apply (AWS k2); auto.
           ++ injection H2 as <-. apply (AWS k1); auto.
           ++ eauto.
      * split; [split; auto|]. intros k' s' H k2 s2. rewrite mget_mset. destruct (seqb_spec k2 k); intros H2.
        -- injection H2 as <-. eapply DT; eauto.
        -- eapply AS; eauto.
    + auto.
    + intros k'. rewrite !contents_get, mget_mset, GK. destruct (seqb_spec k' k); reflexivity.
    + intros t T A D. split; auto. split; auto. intros k' s'. rewrite mget_mset. destruct (seqb_spec k' k); intros H; [injection H as <-; auto|]. eauto.
Qed.

Lemma legacy_add_spec grow sub : forall h e, separate h e sub ->
  exists h' e', legacy_add grow h e sub = Ok (h', e') /\ owned h' e' /\
    (forall k, mget k (contents h' e') = added (mget k (contents h e)) (mget k (contents h sub))) /\
    (forall t, slice_ok h t -> away e t -> away sub t -> slice_ok h' t /\ view h' t = view h t /\ away e' t).
Proof.
  induction sub as [|[k s] sub IH]; intros h e SEP.
  - exists h, e. unfold legacy_add. cbn [fold_left]. split; auto. split; [apply SEP|]. split; auto.
  - pose proof (separate_tail _ _ _ _ _ SEP) as (_ & _ & _ & DT).
    destruct (legacy_add1_spec grow h e k s sub SEP) as (h1 & e1 & Q1 & Q2 & Q3 & Q4 & Q5).
    destruct (IH h1 e1 Q2) as (h' & e' & R1 & R2 & R3 & R4). exists h', e'. split.
    { unfold legacy_add in *. change (fold_left (legacy_add1 grow) ((k, s) :: sub) (Ok (h, e))) with
        (fold_left (legacy_add1 grow) sub (legacy_add1 grow (Ok (h, e)) (k, s))). rewrite Q1. exact R1. }
    split; auto. split.
    + intros k'. rewrite R3, Q4. rewrite !(contents_get _ sub), !(contents_get _ ((k, s) :: sub)). cbn [mget].
      destruct (seqb_spec k' k) as [->|NK].
      * destruct (mget k sub) eqn:G; [|reflexivity]. apply DT in G. tauto.
      * destruct (mget k' sub) eqn:G; cbn [option_map]; auto. rewrite (Q3 _ _ G). reflexivity.
    + intros t T A1 A2. destruct (Q5 t T A1) as (F1 & F2 & F3). { apply (A2 k). cbn. rewrite seqb_refl. auto. }
      destruct (R4 t F1 F3) as (G1 & G2 & G3); [|rewrite G2; auto].
      intros k' s' H. apply (A2 k'). cbn. destruct (seqb_spec k' k) as [->|]; auto. apply DT in H. tauto.
Qed.

(** ** Deleting *)
(** The variable [reportURIs] and the stored slice, as elements. *)
Definition del_step (vc : list gostring * list gostring) (p : gostring) : list gostring * list gostring :=
  match string_index p (fst vc) with
  | Some i => let v := shift (fst vc) i in (v, firstn (length (fst vc) - 1) v)
  | None => vc
  end.
Definition deleted_list (l ps : list gostring) : list gostring := snd (fold_left del_step ps (l, l)).

Lemma del_loop f src stale : forall n h e j cur,
  owned h e -> mget f e = Some cur -> slice_ok h stale ->
  (sl_arr cur = sl_arr stale /\ sl_off cur = sl_off stale /\ sl_cap cur = sl_cap stale) ->
  slice_ok h src -> away e src -> j + n = sl_len src ->
  exists h' e' cur', legacy_del_loop h e f stale src j n = Ok (h', e') /\
    owned h' e' /\ mget f e' = Some cur' /\
    view h' cur' = snd (fold_left del_step (skipn j (view h src)) (view h stale, view h cur)) /\
    (forall k, k <> f -> mget k e' = mget k e) /\
    (forall k s, k <> f -> mget k e = Some s -> view h' s = view h s) /\
    framed h e h' e'.
Proof.
  induction n as [|n IH]; intros h e j cur OW C OKS (T1 & T2 & T3) OKR AW LN.
  - exists h, e, cur. cbn [legacy_del_loop]. do 3 (split; [auto|]). split.
    { rewrite skipn_all2 by (rewrite view_length; auto; lia). reflexivity. }
    do 2 (split; [auto|]). intros t; auto.
  - cbn [legacy_del_loop]. destruct (index_lt (view h src) j) as (x & IX & SK); [rewrite view_length; auto; lia|].
    rewrite IX, SK. cbn [bind fold_left]. unfold del_step at 2. cbn [fst].
    destruct (string_index x (view h stale)) as [i|] eqn:SI.
    + destruct (cut h stale i) as [h1 cur1] eqn:CT. destruct OW as (W & OKA & DJ).
      assert (i < sl_len stale) as IL.
      { apply string_index_some in SI. destruct SI as [SI _]. rewrite <- (view_length h stale OKS). apply nth_error_Some. congruence. }
      assert (forall t, disjoint cur t <-> disjoint stale t) as DE by (intros t; unfold disjoint; rewrite T1, T2, T3; tauto).
      pose proof (cut_stale h stale i OKS IL) as X. rewrite CT in X. cbn [fst snd] in X. destruct X as (S1 & S2 & S3 & S4).
      assert (forall t, slice_ok h t -> disjoint cur t -> slice_ok h1 t /\ view h1 t = view h t /\ disjoint cur1 t) as AF.
      { intros t T D. apply DE in D. pose proof (cut_frame h stale i OKS IL t T D) as X. rewrite CT in X. exact X. }
      assert (sl_arr cur1 = sl_arr stale /\ sl_off cur1 = sl_off stale /\ sl_cap cur1 = sl_cap stale) as TIE
        by (unfold cut in CT; injection CT as _ <-; auto).
      destruct (AF src OKR (AW _ _ C)) as (R1 & R2 & R3).
      assert (owned h1 (mset f cur1 e)) as OW1.
      { split; [apply mset_wf; auto|]. split.
        - intros k s. rewrite mget_mset. destruct (seqb_spec k f); intros H; [injection H as <-; auto|]. eapply AF; eauto.
        - intros k k' s s' NK. rewrite !mget_mset. destruct (seqb_spec k f) as [->|], (seqb_spec k' f) as [->|]; try congruence; intros H H'.
          + injection H as <-. apply AF; eauto.
          + injection H' as <-. apply disjoint_sym. apply AF; eauto.
          + eauto. }
      destruct (IH h1 (mset f cur1 e) (S j) cur1) as (h' & e' & cur' & Q1 & Q2 & Q3 & Q4 & Q5 & Q6 & Q7); auto.
      * rewrite mget_mset, seqb_refl. auto.
      * intros k s. rewrite mget_mset. destruct (seqb_spec k f) as [->|]; intros H; [injection H as <-; auto|]. eauto.
      * lia.
      * exists h', e', cur'. split; auto. split; auto. split; auto. split.
        { rewrite Q4, S2, S4, R2, view_length by auto. reflexivity. }
        split; [|split].
        -- intros k NK. rewrite Q5 by auto. rewrite mget_mset. destruct (seqb_spec k f); [congruence|auto].
        -- intros k s NK H. rewrite (Q6 k s NK) by (rewrite mget_mset; destruct (seqb_spec k f); [congruence|auto]).
           apply AF; eauto.
        -- intros t T A. destruct (AF t T (A _ _ C)) as (F1 & F2 & F3). destruct (Q7 t F1) as (G1 & G2 & G3).
           { intros k s. rewrite mget_mset. destruct (seqb_spec k f) as [->|]; intros H; [injection H as <-; auto|]. eauto. }
           split; auto. split; auto. congruence.
    + apply IH; auto; lia.
Qed.

(** The patterns of a URI after [DeleteSubscription]; a URI named in the call is
    dropped when it has no pattern left. *)
Definition deleted (old del : option (list gostring)) : option (list gostring) :=
  match del, old with
  | Some ps, Some l => match deleted_list l ps with [] => None | l' => Some l' end
  | _, _ => old
  end.

Lemma legacy_del1_spec h e k s sub : separate h e ((k, s) :: sub) ->
  exists h1 e1, legacy_del1 (Ok (h, e)) (k, s) = Ok (h1, e1) /\ separate h1 e1 sub /\
    (forall k' s', mget k' sub = Some s' -> view h1 s' = view h s') /\
    (forall k', mget k' (contents h1 e1) = if seqb k' k then deleted (mget k (contents h e)) (Some (view h s)) else mget k' (contents h e)) /\
    framed h e h1 e1.
Proof.
  intros SEP. pose proof SEP as ((WE & KE & DE) & _ & _). apply separate_tail in SEP. destruct SEP as (SEP & OKS & AWS & DT).
  destruct SEP as (OE & (WS & KS & DS) & AS). unfold legacy_del1. cbn [bind fst snd].
  destruct (mget k e) as [stale|] eqn:GK.
  - destruct (del_loop k s stale (sl_len s) h e 0 stale) as (h1 & e1 & cur & Q1 & Q2 & Q3 & Q4 & Q5 & Q6 & Q7); eauto.
    rewrite Q1. cbn [bind]. rewrite Q3.
    set (e2 := if Nat.eqb (sl_len cur) 0 then mdel k e1 else e1).
    assert (W1 := Q2). destruct W1 as (W1 & K1 & D1).
    assert (forall k' s', mget k' e2 = Some s' -> mget k' e1 = Some s') as SUB.
    { intros k' s'. unfold e2. destruct (Nat.eqb (sl_len cur) 0); auto. rewrite mget_mdel by auto. destruct (seqb k' k); [discriminate|auto]. }
    assert (wf_map e2) as W2 by (unfold e2; destruct (Nat.eqb (sl_len cur) 0); auto using mdel_wf).
    assert (owned h1 e2) as O2. { split; auto. split; eauto. }
    exists h1, e2. split; auto.
    split; [|split; [|split]].
    + split; auto. split; [split; [auto|split]|].
      * intros k' s' H. eapply Q7; eauto.
      * auto.
      * intros k' s' H k2 s2 H2. eapply Q7; eauto.
    + intros k' s' H. eapply Q7; eauto.
    + intros k'. rewrite !contents_get. rewrite GK. cbn [option_map deleted].
      change (fold_left del_step (skipn 0 (view h s)) (view h stale, view h stale)) with (fold_left del_step (view h s) (view h stale, view h stale)) in Q4.
      fold (deleted_list (view h stale) (view h s)) in Q4. pose proof (view_length h1 cur (K1 _ _ Q3)) as VL. rewrite Q4 in VL.
      unfold e2. destruct (seqb_spec k' k) as [->|NK].
      * destruct (Nat.eqb_spec (sl_len cur) 0) as [Z|NZ].
        -- rewrite mget_mdel, seqb_refl by auto. destruct (deleted_list (view h stale) (view h s)); [auto|cbn in VL; lia].
        -- rewrite Q3. cbn [option_map]. rewrite Q4. destruct (deleted_list (view h stale) (view h s)); [cbn in VL; lia|auto].
      * assert (mget k' (if sl_len cur =? 0 then mdel k e1 else e1) = mget k' e) as ->.
        { destruct (sl_len cur =? 0); auto. rewrite mget_mdel by auto. destruct (seqb_spec k' k); [congruence|auto]. }
        destruct (mget k' e) eqn:G; auto. cbn. f_equal. eauto.
    + intros t T A. destruct (Q7 t T A) as (F1 & F2 & F3). split; auto. split; auto. intros k' s' H. eauto.
  - exists h, e. split; auto. split; [split; [auto|split; [split; auto|auto]]|]. split; auto. split; [|intros t; auto].
    intros k'. rewrite !contents_get, GK. destruct (seqb_spec k' k) as [->|]; auto. rewrite GK. reflexivity.
Qed.

Lemma legacy_del_spec sub : forall h e, separate h e sub ->
  exists h' e', legacy_del h e sub = Ok (h', e') /\ owned h' e' /\
    (forall k, mget k (contents h' e') = deleted (mget k (contents h e)) (mget k (contents h sub))) /\ framed h e h' e'.
Proof.
  induction sub as [|[k s] sub IH]; intros h e SEP.
  - exists h, e. unfold legacy_del. cbn [fold_left]. split; auto. split; [apply SEP|]. split; [|intros t; auto].
    intros k. unfold contents at 3. cbn. destruct (mget k (contents h e)); auto.
  - pose proof (separate_tail _ _ _ _ _ SEP) as (_ & _ & _ & DT).
    destruct (legacy_del1_spec h e k s sub SEP) as (h1 & e1 & Q1 & Q2 & Q3 & Q4 & Q5).
    destruct (IH h1 e1 Q2) as (h' & e' & R1 & R2 & R3 & R4). exists h', e'. split.
    { unfold legacy_del in *. change (fold_left legacy_del1 ((k, s) :: sub) (Ok (h, e))) with
        (fold_left legacy_del1 sub (legacy_del1 (Ok (h, e)) (k, s))). rewrite Q1. exact R1. }
    split; auto. split.
    + intros k'. rewrite R3, Q4. rewrite !(contents_get _ sub), !(contents_get _ ((k, s) :: sub)). cbn [mget].
      destruct (seqb_spec k' k) as [->|NK].
      * destruct (mget k sub) eqn:G; [apply DT in G; tauto|]. reflexivity.
      * destruct (mget k' sub) eqn:G; cbn [option_map]; auto. rewrite (Q3 _ _ G). reflexivity.
    + intros t T A1. destruct (Q5 t T A1) as (F1 & F2 & F3).
      destruct (R4 t F1 F3) as (G1 & G2 & G3). rewrite G2; auto.
Qed.