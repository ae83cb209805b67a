(** The legacy engine: histories, search, and the comparison with the binary engines. *)
From Verif Require Import GoBase BinUtil MTdtCore MSubs MList MSlice MLegacy Spec SpecEpc SpecLegacy.
From Verif Require Import PBase PNum PFilter PSlice PLegacy PEpc PEpc2 PEpc3 PEpc4.
From Verif Require Export SpecStore.
From Coq Require Import Lia Permutation.

(** ** Deletion from one list *)
Lemma is_in_spec l a : is_in l a = true <-> In a l.
Proof. unfold is_in. pose proof (string_index_none a l). destruct (string_index a l); [|split; [discriminate|tauto]]. split; auto. intros _. destruct (in_dec (list_eq_dec ascii_dec) a l) as [I|N]; auto. apply H in N. discriminate. Qed.
Lemma is_in_false l a : is_in l a = false <-> ~ In a l.
Proof. rewrite <- is_in_spec. destruct (is_in l a); intuition; discriminate. Qed.

Lemma string_index_app_l a l r i : string_index a l = Some i -> string_index a (l ++ r) = Some i.
Proof.
  revert i; induction l as [|b l IH]; cbn; intros i; [discriminate|]. destruct (seqb b a); auto.
  destruct (string_index a l); [|discriminate]. rewrite (IH _ eq_refl). auto.
Qed.
Lemma string_index_app_r a l r : ~ In a l -> string_index a (l ++ r) = option_map (plus (length l)) (string_index a r).
Proof.
  induction l as [|b l IH]; cbn [app string_index length]; intros H; [destruct (string_index a r); auto|].
  destruct (seqb_spec b a) as [->|]; [cbn in H; tauto|]. rewrite IH by (cbn in H; tauto). destruct (string_index a r); auto.
Qed.
Lemma last_repeat_skip rem (z : gostring) m : skipn (length (rem ++ repeat z (S m)) - 1) (rem ++ repeat z (S m)) = [z].
Proof.
  rewrite app_length, repeat_length. replace (length rem + S m - 1) with (length (rem ++ repeat z m)) by (rewrite app_length, repeat_length; lia).
  replace (rem ++ repeat z (S m)) with ((rem ++ repeat z m) ++ [z]); [|rewrite <- app_assoc; f_equal; symmetry; apply repeat_cons].
  rewrite skipn_app, skipn_all, Nat.sub_diag. reflexivity.
Qed.
Lemma shift_in rem z m p i : ~ In z rem -> NoDup rem -> string_index p rem = Some i ->
  shift (rem ++ repeat z (S m)) i = filter (fun q => negb (seqb q p)) rem ++ repeat z (S (S m)).
Proof.
  intros NZ ND SI. unfold shift. rewrite last_repeat_skip. apply string_index_some in SI. destruct SI as [NE NI].
  apply nth_error_split in NE. destruct NE as (l1 & l2 & -> & <-).
  replace (firstn (length l1) ((l1 ++ p :: l2) ++ repeat z (S m))) with l1.
  2:{ rewrite <- app_assoc, firstn_app, firstn_all, Nat.sub_diag. cbn. rewrite app_nil_r; auto. }
  replace (skipn (S (length l1)) ((l1 ++ p :: l2) ++ repeat z (S m))) with (l2 ++ repeat z (S m)).
  2:{ replace ((l1 ++ p :: l2) ++ repeat z (S m)) with ((l1 ++ [p]) ++ l2 ++ repeat z (S m)) by (rewrite <- !app_assoc; reflexivity).
      rewrite skipn_app. replace (S (length l1)) with (length (l1 ++ [p])) by (rewrite app_length; cbn; lia). rewrite skipn_all, Nat.sub_diag. reflexivity. }
  rewrite filter_app. cbn [filter]. rewrite seqb_refl. cbn [negb].
  assert (forall l, ~ In p l -> filter (fun q => negb (seqb q p)) l = l) as FI.
  { induction l as [|a l IH]; intros H; cbn [filter]; auto. destruct (seqb_spec a p) as [->|]; cbn [negb]; [cbn in H; tauto|]. f_equal. apply IH. cbn in H; tauto. }
  apply NoDup_remove_2 in ND. rewrite !FI by (intros X; apply ND; apply in_or_app; auto).
  rewrite <- !app_assoc. f_equal. f_equal. change [z] with (repeat z 1). rewrite <- repeat_app. f_equal. lia.
Qed.
Lemma shift_last rem z m : shift (rem ++ repeat z (S m)) (length rem) = rem ++ repeat z (S m).
Proof.
  unfold shift. rewrite last_repeat_skip. rewrite firstn_app, firstn_all, Nat.sub_diag. cbn [firstn]. rewrite app_nil_r. f_equal.
  replace (skipn (S (length rem)) (rem ++ repeat z (S m))) with (repeat z m).
  2:{ cbn [repeat]. replace (rem ++ z :: repeat z m) with ((rem ++ [z]) ++ repeat z m) by (rewrite <- app_assoc; reflexivity).
      rewrite skipn_app. replace (S (length rem)) with (length (rem ++ [z])) by (rewrite app_length; cbn; lia). rewrite skipn_all, Nat.sub_diag. reflexivity. }
  symmetry. apply repeat_cons.
Qed.
Lemma filter_filter {A} (f g : A -> bool) l : filter f (filter g l) = filter (fun x => g x && f x) l.
Proof. induction l as [|a l IH]; cbn; auto. destruct (g a); cbn; [destruct (f a); rewrite IH; auto|auto]. Qed.
Lemma filter_len_le {A} (f : A -> bool) l : length (filter f l) <= length l.
Proof. induction l as [|a l IH]; cbn; auto. destruct (f a); cbn; lia. Qed.

(** The state after the patterns [ps], for a list [l' ++ [z]] without duplicates. *)
Lemma del_fold z l' : NoDup (l' ++ [z]) -> forall ps,
  let rem := filter (fun q => negb (is_in ps q)) l' in
  let v := rem ++ repeat z (S (length l') - length rem) in
  fold_left del_step ps (l' ++ [z], l' ++ [z]) =
    (v, if existsb (is_in ps) (l' ++ [z]) then firstn (length l') v else l' ++ [z]).
Proof.
  intros ND ps. assert (NoDup l' /\ ~ In z l') as [ND' NZ].
  { apply NoDup_remove in ND. rewrite app_nil_r in ND. tauto. }
  induction ps as [|p ps IH] using rev_ind.
  - cbn zeta. cbn [fold_left]. assert (forall l : list gostring, filter (fun q => negb (is_in [] q)) l = l) as -> by (induction l as [|a l IHl]; [auto|]; change (a :: filter (fun q => negb (is_in [] q)) l = a :: l); rewrite IHl; auto).
    assert (forall l, existsb (is_in []) l = false) as -> by (induction l as [|a l IHl]; cbn; auto).
    replace (S (length l') - length l') with 1 by lia. reflexivity.
  - cbn zeta in *. rewrite fold_left_app, IH. cbn [fold_left]. unfold del_step at 1. cbn [fst].
    set (rem := filter (fun q => negb (is_in ps q)) l') in *.
    assert (length rem <= length l') as LR by apply filter_len_le.
    assert (S (length l') - length rem = S (length l' - length rem)) as EM by lia. rewrite EM in *.
    assert (filter (fun q => negb (is_in (ps ++ [p]) q)) l' = filter (fun q => negb (seqb q p)) rem) as FE.
    { unfold rem. rewrite filter_filter. apply filter_ext. intros q. apply eq_true_iff_eq. rewrite andb_true_iff, !negb_true_iff, !is_in_false, in_app_iff.
      split; [intros H; split; [tauto|]|intros [H1 H2] [|[->|[]]]; try tauto; rewrite seqb_refl in H2; discriminate].
      destruct (seqb_spec q p) as [->|]; auto. exfalso. apply H. right; left; auto. }
    assert (NoDup rem) as NR by (apply NoDup_filter; auto).
    assert (~ In z rem) as NZR by (unfold rem; rewrite filter_In; tauto).
    assert (existsb (is_in (ps ++ [p])) (l' ++ [z]) = existsb (is_in ps) (l' ++ [z]) || is_in (l' ++ [z]) p) as EE.
    { apply eq_true_iff_eq. rewrite orb_true_iff, !existsb_exists, is_in_spec. split.
      - intros (x & I & X). apply is_in_spec, in_app_or in X. destruct X as [X|[->|[]]]; auto. left. exists x. split; auto. apply is_in_spec; auto.
      - intros [(x & I & X)|I]; [exists x|exists p]; (split; auto); apply is_in_spec, in_or_app; [left; apply is_in_spec; auto|right; left; auto]. }
    rewrite FE, EE.
    destruct (string_index p rem) as [i|] eqn:SI.
    + rewrite (string_index_app_l _ _ _ _ SI). cbn [fst snd]. rewrite (shift_in rem z _ p i) by auto.
      assert (In p rem) as IP. { apply is_in_spec. unfold is_in. rewrite SI; auto. }
      assert (is_in (l' ++ [z]) p = true) as ->. { apply is_in_spec, in_or_app. left. unfold rem in IP. apply filter_In in IP. tauto. }
      rewrite orb_true_r. rewrite app_length, repeat_length.
      assert (S (length (filter (fun q => negb (seqb q p)) rem)) = length rem) as LF.
      { clear -IP NR. revert NR IP. induction rem as [|a rem IH]; intros NR IP; [destruct IP|]. inversion NR; subst. cbn [filter]. destruct (seqb_spec a p) as [->|N]; cbn [negb length].
        - f_equal. clear IH IP NR H2. induction rem as [|b rem IH]; cbn [filter]; auto. destruct (seqb_spec b p) as [->|]; cbn [negb length]; [cbn in H1; tauto|]. f_equal. apply IH. cbn in H1; tauto.
        - f_equal. apply IH; auto. destruct IP; [congruence|auto]. }
      replace (S (length l') - length (filter (fun q => negb (seqb q p)) rem)) with (S (S (length l' - length rem))) by lia.
      replace (length rem + S (length l' - length rem) - 1) with (length l') by lia. reflexivity.
    + apply string_index_none in SI. rewrite string_index_app_r by auto.
      assert (filter (fun q => negb (seqb q p)) rem = rem) as ->.
      { clear -SI. induction rem as [|a rem IH]; cbn [filter]; auto. destruct (seqb_spec a p) as [->|]; cbn [negb]; [cbn in SI; tauto|]. f_equal. apply IH. cbn in SI; tauto. }
      rewrite EM. cbn [repeat string_index]. destruct (seqb_spec z p) as [->|NZP].
      * cbn [option_map]. rewrite Nat.add_0_r. change (rem ++ p :: repeat p (length l' - length rem)) with (rem ++ repeat p (S (length l' - length rem))).
        rewrite shift_last. assert (is_in (l' ++ [p]) p = true) as ->. { apply is_in_spec, in_or_app. right; left; auto. } rewrite orb_true_r.
        rewrite app_length, repeat_length. replace (length rem + S (length l' - length rem) - 1) with (length l') by lia. reflexivity.
      * assert (string_index p (repeat z (length l' - length rem)) = None) as ->.
        { apply string_index_none. intros I. apply repeat_spec in I. congruence. }
        cbn [option_map]. destruct (is_in (l' ++ [z]) p) eqn:IN; [|rewrite orb_false_r; auto].
        apply is_in_spec, in_app_or in IN. destruct IN as [IN|[IN|[]]]; [|congruence].
        (* p was in the list but is no longer in rem: it is among ps already *)
        assert (existsb (is_in ps) (l' ++ [z]) = true) as ->; [|reflexivity].
        apply existsb_exists. exists p. split; [apply in_or_app; auto|]. destruct (is_in ps p) eqn:X; auto. exfalso. apply SI. unfold rem. apply filter_In. rewrite X. auto.
Qed.

Lemma deleted_list_exact z l' ps : NoDup (l' ++ [z]) ->
  deleted_list (l' ++ [z]) ps =
    if existsb (is_in ps) (l' ++ [z]) then
      filter (fun q => negb (is_in ps q)) l' ++ repeat z (length (filter (is_in ps) l'))
    else l' ++ [z].
Proof.
  intros ND. unfold deleted_list. rewrite del_fold by auto. cbn [snd]. destruct (existsb _ _); auto.
  set (rem := filter (fun q => negb (is_in ps q)) l').
  assert (length rem + length (filter (is_in ps) l') = length l') as L.
  { unfold rem. clear. induction l' as [|a l IH]; cbn [filter]; auto. destruct (is_in ps a); cbn [negb length]; lia. }
  rewrite firstn_app, firstn_all2 by lia. f_equal.
  replace (S (length l') - length rem) with (length (filter (is_in ps) l') + 1) by lia. rewrite repeat_app, firstn_app, repeat_length, firstn_all2 by (rewrite repeat_length; lia).
  replace (length l' - length rem - length (filter (is_in ps) l')) with 0 by lia. cbn [firstn]. apply app_nil_r.
Qed.
Lemma deleted_list_none l ps : (forall p, In p ps -> ~ In p l) -> deleted_list l ps = l.
Proof.
  intros H. unfold deleted_list. assert (fold_left del_step ps (l, l) = (l, l)) as ->; auto.
  induction ps as [|p ps IH]; cbn [fold_left]; auto. unfold del_step at 2. cbn [fst].
  assert (string_index p l = None) as -> by (apply string_index_none; apply H; left; auto). apply IH. intros q I. apply H. right; auto.
Qed.
Lemma deleted_list_one l ps : NoDup l -> length (filter (is_in ps) l) <= 1 -> deleted_list l ps = filter (fun q => negb (is_in ps q)) l.
Proof.
  intros ND H. destruct l as [|a l0] eqn:EL.
  { apply deleted_list_none. intros p _ []. }
  destruct (@exists_last _ (a :: l0)) as (l' & z & EX); [discriminate|]. rewrite EX in *. rewrite deleted_list_exact by auto.
  rewrite !filter_app in *. cbn [filter] in *. rewrite existsb_app. cbn [existsb]. rewrite orb_false_r.
  assert (existsb (is_in ps) l' = negb (Nat.eqb (length (filter (is_in ps) l')) 0)) as ->.
  { clear. induction l' as [|b l IH]; cbn [existsb filter]; auto. destruct (is_in ps b); cbn [orb length Nat.eqb negb]; auto. }
  assert (length (filter (is_in ps) l') = 0 -> filter (fun q => negb (is_in ps q)) l' = l') as FI.
  { clear. induction l' as [|b l IH]; cbn [filter]; auto. destruct (is_in ps b); cbn [negb length]; [lia|]. intros H. f_equal; auto. }
  rewrite app_length in H. destruct (is_in ps z); cbn [negb length app orb] in *.
  - rewrite orb_true_r, app_nil_r. replace (length (filter (is_in ps) l')) with 0 by lia. cbn. rewrite app_nil_r. auto.
  - rewrite orb_false_r. destruct (length (filter (is_in ps) l')) as [|[|n]] eqn:LF; [|reflexivity|lia]. cbn [Nat.eqb negb]. rewrite FI by auto. auto.
Qed.

(** ** Building maps in memory *)
(** Storage that did not exist in [h]. *)
Definition fresh (h : heap) (s : slice) : Prop := forall t, slice_ok h t -> disjoint s t.
Definition grows (h h' : heap) : Prop := forall t, slice_ok h t -> slice_ok h' t /\ view h' t = view h t.

Lemma nil_ok h : slice_ok h nil_slice.
Proof. split; cbn; auto. Qed.
Lemma clone_list_from grow l : forall h0 h s, slice_ok h s -> fresh h0 s -> grows h0 h ->
  let r := fold_left (fun hs x => append1 grow (fst hs) (snd hs) x) l (h, s) in
  slice_ok (fst r) (snd r) /\ view (fst r) (snd r) = view h s ++ l /\ fresh h0 (snd r) /\ grows h0 (fst r).
Proof.
  induction l as [|x l IH]; intros h0 h s OK FR GR r.
  - cbn [fold_left] in r. unfold r. cbn [fst snd]. rewrite app_nil_r. auto.
  - unfold r. cbn [fold_left fst snd]. destruct (append1 grow h s x) as [h1 s1] eqn:AP.
    pose proof (append1_new grow h s x OK) as [A1 A2]. rewrite AP in A1, A2. cbn [fst snd] in A1, A2.
    assert (forall t, slice_ok h0 t -> slice_ok h1 t /\ view h1 t = view h0 t /\ disjoint s1 t) as FRM.
    { intros t T. destruct (GR t T) as [G1 G2]. pose proof (append1_frame grow h s x OK t G1 (FR t T)) as X. rewrite AP in X. cbn [fst snd] in X. destruct X as (X1 & X2 & X3). split; auto. split; auto. congruence. }
    destruct (IH h0 h1 s1 A1) as (I1 & I2 & I3 & I4).
    + intros t T. apply FRM; auto.
    + intros t T. split; apply FRM; auto.
    + split; auto. split; [|auto]. rewrite I2, A2, <- app_assoc. reflexivity.
Qed.
Lemma clone_list_spec grow h l : let r := clone_list grow h l in
  slice_ok (fst r) (snd r) /\ view (fst r) (snd r) = l /\ fresh h (snd r) /\ grows h (fst r).
Proof.
  destruct (clone_list_from grow l h h nil_slice (nil_ok h)) as (H1 & H2 & H3 & H4).
  - intros t _. left. reflexivity.
  - intros t T. auto.
  - unfold clone_list. cbn zeta. split; auto.
Qed.
Lemma grows_trans h h1 h2 : grows h h1 -> grows h1 h2 -> grows h h2.
Proof. intros A B t T. destruct (A t T) as [A1 A2]. destruct (B t A1) as [B1 B2]. split; auto. congruence. Qed.
Lemma fresh_mono h h1 s : grows h h1 -> fresh h1 s -> fresh h s.
Proof. intros G F t T. apply F. apply G; auto. Qed.
Lemma alloc_spec grow m : forall h, wf_map m ->
  let r := alloc grow h m in
  owned (fst r) (snd r) /\ contents (fst r) (snd r) = m /\ grows h (fst r) /\ forall k s, mget k (snd r) = Some s -> fresh h s.
Proof.
  induction m as [|[f l] m IH]; intros h W; cbn [alloc].
  - cbn [fst snd]. split; [split; [constructor|split; discriminate]|]. split; auto. split; [intros t T; auto|discriminate].
  - destruct (wf_tail _ _ _ W) as [W' N]. pose proof (clone_list_spec grow h l) as C. destruct (clone_list grow h l) as [h1 s]. cbn [fst snd] in C. destruct C as (C1 & C2 & C3 & C4).
    specialize (IH h1 W'). destruct (alloc grow h1 m) as [h2 r]. cbn [fst snd] in IH. destruct IH as ((O1 & O2 & O3) & I2 & I3 & I4).
    cbn zeta. cbn [fst snd]. assert (mkeys r = mkeys m) as KE by (rewrite <- I2; symmetry; apply contents_keys).
    assert (mget f r = None) as NR by (destruct (mget f r) eqn:G; auto; exfalso; assert (In f (mkeys r)) as X by (apply mget_keys; congruence); rewrite KE in X; apply mget_keys in X; congruence).
    assert (wf_map ((f, s) :: r)) as W2 by (unfold wf_map in *; change (mkeys ((f, s) :: r)) with (f :: mkeys r); rewrite KE; auto).
    split; [split; [auto|split]|split; [|split]].
    + intros k t. cbn [mget]. destruct (seqb k f); [intros H; injection H as <-; apply I3; auto|eauto].
    + intros k k' t t' NK. cbn [mget]. destruct (seqb_spec k f) as [->|], (seqb_spec k' f) as [->|]; try congruence; intros H H'.
      * injection H as <-. apply disjoint_sym. apply (I4 k'); auto.
      * injection H' as <-. apply (I4 k); auto.
      * eauto.
    + cbn [contents map fst snd]. f_equal; [|exact I2]. f_equal. rewrite (proj2 (I3 s C1)). auto.
    + eapply grows_trans; eauto.
    + intros k t. cbn [mget]. destruct (seqb k f); [intros H; injection H as <-; auto|]. intros H. eapply fresh_mono; eauto.
Qed.
Lemma clone_slices_alloc grow m : forall h0 h, (forall k s, In (k, s) m -> slice_ok h0 s) -> grows h0 h -> clone_slices grow h m = alloc grow h (contents h0 m).
Proof.
  induction m as [|[f s] m IH]; intros h0 h OK G; cbn [clone_slices alloc contents map fst snd]; auto.
  rewrite (proj2 (G s (OK f s (or_introl eq_refl)))). pose proof (clone_list_spec grow h (view h0 s)) as C. destruct (clone_list grow h (view h0 s)) as [h1 s']. cbn [fst snd] in C. destruct C as (_ & _ & _ & C4).
  rewrite (IH h0 h1); auto. { intros k t I. eapply OK. right; eauto. } eapply grows_trans; eauto.
Qed.
Lemma clone_spec grow h m : owned h m ->
  let r := clone_slices grow h m in
  owned (fst r) (snd r) /\ contents (fst r) (snd r) = contents h m /\ grows h (fst r) /\ forall k s, mget k (snd r) = Some s -> fresh h s.
Proof.
  intros (W & K & _). rewrite (clone_slices_alloc grow m h h).
  - apply alloc_spec. apply contents_wf; auto.
  - intros k s I. eapply K. apply In_mget; eauto.
  - intros t T; auto.
Qed.

(** ** Histories *)

Lemma owned_grows h h' e : owned h e -> grows h h' -> owned h' e /\ contents h' e = contents h e.
Proof.
  intros (W & K & D) G. split.
  - split; auto. split; auto. intros k s H. apply G; eauto.
  - unfold contents. apply map_ext_in. intros [k s] I. cbn. f_equal. apply G. eapply K. apply In_mget; eauto.
Qed.
Lemma alloc_separate grow h e m : owned h e -> wf_map m ->
  let r := alloc grow h m in separate (fst r) e (snd r) /\ contents (fst r) e = contents h e /\ contents (fst r) (snd r) = m.
Proof.
  intros O W. destruct (alloc_spec grow m h W) as (A1 & A2 & A3 & A4). cbn zeta in *. destruct (owned_grows _ _ _ O A3) as [B1 B2].
  split; [|auto]. split; auto. split; auto. intros k s H k' s' H'. apply disjoint_sym. eapply A4; eauto. eapply O; eauto.
Qed.
Lemma legacy_run_owned grow sub ops : wf_map sub -> Forall (fun o => wf_map (op_map o)) ops ->
  exists h e, legacy_run grow sub ops = Ok (h, e) /\ owned h e.
Proof.
  intros W F. unfold legacy_run. destruct (alloc_spec grow sub [] W) as (A1 & _). destruct (alloc grow [] sub) as [h m]. cbn [fst snd] in A1.
  unfold new_legacy. destruct (clone_spec grow h m A1) as (C1 & _). destruct (clone_slices grow h m) as [h1 e]. cbn [fst snd] in C1.
  revert h1 e C1. induction F as [|o ops Wo F IH]; intros h1 e O; cbn [fold_left]; [eauto|].
  unfold legacy_call at 2. cbn [bind]. destruct (alloc_separate grow h1 e (op_map o) O Wo) as (S & _). destruct (alloc grow h1 (op_map o)) as [h2 m2]. cbn [fst snd] in S.
  destruct o as [x|x]; cbn [op_map] in *.
  - destruct (legacy_add_spec grow m2 h2 e S) as (h' & e' & Q1 & Q2 & _). rewrite Q1. eauto.
  - destruct (legacy_del_spec m2 h2 e S) as (h' & e' & Q1 & Q2 & _). rewrite Q1. eauto.
Qed.

(** ** Search *)
Lemma split_join sep s : s = join [sep] (split_on sep s) /\ Forall (fun p => ~ In sep p) (split_on sep s) /\ split_on sep s <> [].
Proof.
  induction s as [|c s (IH1 & IH2 & IH3)]; cbn [split_on].
  - split; [reflexivity|]. split; [repeat constructor; intros []|discriminate].
  - destruct (Ascii.eqb_spec c sep) as [->|NC].
    + split; [|split; [constructor; auto|discriminate]]. destruct (split_on sep s) as [|f fs]; [congruence|].
      change (join [sep] ([] :: f :: fs)) with (sep :: join [sep] (f :: fs)). congruence.
    + destruct (split_on sep s) as [|f fs]; [congruence|]. inversion IH2; subst. split; [|split; [|discriminate]].
      * destruct fs; cbn in *; congruence.
      * constructor; auto. intros [|]; auto.
Qed.
Lemma has_prefix_is s p : has_prefix s p = true <-> is_prefix p s.
Proof.
  revert s; induction p as [|x p IH]; intros [|y s]; cbn [has_prefix]; (split; [intros H|intros [r H]]); auto.
  - exists []; auto.
  - exists (y :: s); auto.
  - discriminate.
  - discriminate.
  - apply andb_true_iff in H. destruct H as [H1 H2]. apply Ascii.eqb_eq in H1. subst. apply IH in H2. destruct H2 as [r ->]. exists r; auto.
  - injection H as -> ->. rewrite Ascii.eqb_refl. apply IH. exists r; auto.
Qed.
Lemma five_split pat a b c t fs : split_on ccolon pat = [a; b; c; t; fs] <-> five_parts pat a b c t fs.
Proof.
  unfold five_parts. split.
  - intros E. destruct (split_join ccolon pat) as (H1 & H2 & _). rewrite E in H1, H2. split; auto.
  - intros [-> F]. change (a ++ ":"%char :: b ++ ":"%char :: c ++ ":"%char :: t ++ ":"%char :: fs) with (join [ccolon] [a; b; c; t; fs]).
    apply split_on_join; auto. discriminate.
Qed.
Lemma five_parts_unique pat a b c t fs a' b' c' t' fs' : five_parts pat a b c t fs -> five_parts pat a' b' c' t' fs' -> t = t' /\ fs = fs'.
Proof. rewrite <- !five_split. intros H H'. rewrite H in H'. injection H'; auto. Qed.
Lemma without_filter_tail fs rest : without_filter fs rest <-> rest = join (str ".") (tl (split_on cdot fs)).
Proof.
  split.
  - intros [fv H|fv r H].
    + rewrite split_on_none by auto. reflexivity.
    + rewrite split_on_app by auto. cbn [tl]. apply split_join.
  - intros ->. destruct (split_join cdot fs) as (H1 & H2 & H3). destruct (split_on cdot fs) as [|f l] eqn:E; [congruence|]. inversion H2; subst.
    cbn [tl]. destruct l as [|g l].
    + cbn. constructor; auto.
    + change (join [cdot] (f :: g :: l)) with (f ++ "."%char :: join (str ".") (g :: l)). constructor; auto.
Qed.
Lemma pattern_type_inj k k' : pattern_type k = pattern_type k' -> k = k'.
Proof. destruct k, k'; auto; discriminate. Qed.
Lemma selects_text pat local : selects pat local <-> exists t, legacy_text pat = Some t /\ is_prefix t local.
Proof.
  unfold legacy_text. split.
  - intros [a b c k fs rest FP WF P|a b c t fs FP IT P|a b c t fs FP NI NK P].
    + apply five_split in FP. rewrite FP. apply without_filter_tail in WF. subst rest. eexists. split; [reflexivity|].
      destruct k; exact P.
    + apply five_split in FP. rewrite FP. eexists. split; [reflexivity|].
      destruct IT as [<-|[<-|[]]]; exact P.
    + apply five_split in FP. rewrite FP. eexists. split; [reflexivity|].
      destruct (seqb_spec t (str "giai-96")) as [E|_]; [destruct (NK Giai E)|]. destruct (seqb_spec t (str "grai-96")) as [E|_]; [destruct (NK Grai E)|].
      destruct (seqb_spec t (str "sgtin-96")) as [E|_]; [destruct (NK Sgtin E)|]. destruct (seqb_spec t (str "sscc-96")) as [E|_]; [destruct (NK Sscc E)|].
      destruct (seqb_spec t (str "iso17363")) as [->|_]; [destruct NI; left; auto|]. destruct (seqb_spec t (str "iso17365")) as [->|_]; [destruct NI; right; left; auto|]. exact P.
  - intros (x & E & P). destruct (split_on ccolon pat) as [|a [|b [|c [|t [|fs [|? ?]]]]]] eqn:SP; try discriminate. apply five_split in SP. apply (f_equal (fun o => match o with Some y => y | None => x end)) in E. cbn beta iota zeta in E. rewrite <- E in P. clear E x.
    assert (without_filter fs (join (str ".") (tl (split_on cdot fs)))) as WF by (apply without_filter_tail; auto). revert P.
    destruct (seqb_spec t (str "giai-96")) as [->|N1]; [intros P; eapply (sel_epc _ _ a b c Giai); eauto|].
    destruct (seqb_spec t (str "grai-96")) as [->|N2]; [intros P; eapply (sel_epc _ _ a b c Grai); eauto|].
    destruct (seqb_spec t (str "sgtin-96")) as [->|N3]; [intros P; eapply (sel_epc _ _ a b c Sgtin); eauto|].
    destruct (seqb_spec t (str "sscc-96")) as [->|N4]; [intros P; eapply (sel_epc _ _ a b c Sscc); eauto|].
    destruct (seqb_spec t (str "iso17363")) as [->|N5]; [intros P; eapply sel_iso; eauto; left; auto|].
    destruct (seqb_spec t (str "iso17365")) as [->|N6]; [intros P; eapply sel_iso; eauto; right; left; auto|].
    intros P. refine (sel_other _ _ a b c t fs SP _ _ P); [intros [|[|[]]]; congruence|]. intros k ->. destruct k; [apply N3|apply N4|apply N2|apply N1]; reflexivity.
Qed.
Lemma local_part_trim s l : local_part s l <-> l = trim_prefix s (str "urn:epc:id:").
Proof.
  unfold trim_prefix. destruct (has_prefix s (str "urn:epc:id:")) eqn:HP.
  - pose proof HP as HP'. apply has_prefix_is in HP. destruct HP as [r ->]. split.
    + intros H. remember (str "urn:epc:id:" ++ r) as s eqn:ES. destruct H as [l|s N]; [reflexivity|]. destruct N. exists r; auto.
    + intros ->. constructor.
  - assert (~ is_prefix (str "urn:epc:id:") s) as N by (rewrite <- has_prefix_is; congruence). split.
    + intros H. destruct H as [l|s N']; auto. destruct N. exists l; auto.
    + intros ->. constructor; auto.
Qed.
Lemma matches_told pure m : told (trim_prefix pure (str "urn:epc:id:")) (pairs m) (legacy_matches pure m).
Proof.
  unfold pairs, legacy_matches. induction m as [|[u ps] m IH]; cbn [flat_map fst snd]; [constructor|].
  induction ps as [|p ps IHp]; cbn [map app flat_map]; auto. rewrite <- app_assoc.
  destruct (legacy_text p) as [t|] eqn:LT.
  - destruct (has_prefix _ t) eqn:HP; cbn [app]; constructor; auto; rewrite selects_text.
    + exists t. split; auto. apply has_prefix_is; auto.
    + intros (t' & E & P). rewrite LT in E. injection E as <-. apply has_prefix_is in P. congruence.
  - cbn [app]. constructor; auto. rewrite selects_text. intros (t' & E & _). congruence.
Qed.
Lemma told_In local ps us u : told local ps us -> In u us <-> exists p, In (u, p) ps /\ selects p local.
Proof.
  induction 1 as [|v p ps us S T IH|v p ps us S T IH]; cbn [In].
  - split; [intros []|intros (? & [] & _)].
  - rewrite IH. split.
    + intros [->|(q & I & X)]; [exists p; auto|exists q; auto].
    + intros (q & [E|I] & X); [injection E as -> ->; auto|right; eauto].
  - rewrite IH. split; [intros (q & I & X); eauto|]. intros (q & [E|I] & X); [injection E as -> ->; tauto|eauto].
Qed.
Lemma matches_perm pure m m' : Permutation m m' -> Permutation (legacy_matches pure m) (legacy_matches pure m').
Proof. intros P. unfold legacy_matches. apply Permutation_flat_map. auto. Qed.

(** ** Text matching against the binary filters *)
Lemma urn_of_local k f : urn_of k f = str "urn:epc:id:" ++ scheme_name k ++ str ":" ++ dotted (id_texts k f).
Proof. unfold urn_of, id_texts. destruct k; auto. destruct (Nat.eqb _ 0); auto. Qed.
Lemma pattern_named p : pattern_ok p -> Forall is_decimal (firstn (p_count p) (field_texts (p_fields p))).
Proof.
  destruct p as [k n f]. unfold pattern_ok, field_texts. cbn [p_count p_fields p_scheme]. intros (N & (H1 & _) & H2 & H3 & H4).
  assert (n <= 4) by (unfold field_count in N; destruct (has_serial k); lia).
  destruct n as [|[|[|[|[|n]]]]]; try lia; cbn [firstn].
  - constructor; auto.
  - destruct H2 as [? _]; [lia|]. auto.
  - destruct H2 as [? _]; [lia|]. destruct H3 as [? _]; [lia|]. auto.
  - destruct H2 as [? _]; [lia|]. destruct H3 as [? _]; [lia|]. destruct H4 as [? _]; [lia|]. auto.
Qed.
Lemma decimal_no c s : is_digit c = false -> is_decimal s -> ~ In c s.
Proof. intros D [_ F] I. rewrite Forall_forall in F. apply F in I. congruence. Qed.
Lemma pattern_legacy_text p : pattern_ok p ->
  legacy_text (pattern_text p) = Some (scheme_name (p_scheme p) ++ str ":" ++ dotted (tl (firstn (p_count p) (field_texts (p_fields p))))).
Proof.
  intros OK. pose proof (pattern_named p OK) as F. set (l := firstn (p_count p) (field_texts (p_fields p))) in *.
  assert (l <> []) as NL. { unfold l. destruct OK as [[? _] _]. destruct (p_count p); [lia|discriminate]. }
  assert (split_on ccolon (pattern_text p) = [str "urn"; str "epc"; str "pat"; pattern_type (p_scheme p); dotted l]) as SP.
  { apply five_split. split; [reflexivity|].
    repeat constructor; try (cbn; intuition discriminate).
    - destruct (p_scheme p); cbn; intuition discriminate.
    - apply join_no_char; [discriminate|]. eapply Forall_impl; [|exact F]. intros s. apply decimal_no. reflexivity. }
  assert (split_on cdot (dotted l) = l) as SD.
  { unfold dotted. change (str ".") with [cdot]. apply split_on_join; auto. eapply Forall_impl; [|exact F]. intros s. apply decimal_no. reflexivity. }
  unfold legacy_text. rewrite SP, SD. destruct (p_scheme p); reflexivity.
Qed.
Lemma scheme_prefix k k' x y : is_prefix (scheme_name k ++ str ":" ++ x) (scheme_name k' ++ str ":" ++ y) <-> k = k' /\ is_prefix x y.
Proof.
  split.
  - intros [r E]. assert (k = k') as <- by (destruct k, k'; auto; discriminate). split; auto. exists r.
    rewrite <- !app_assoc in E. apply app_inv_head in E. apply app_inv_head in E. auto.
  - intros [<- [r ->]]. exists r. rewrite <- !app_assoc. reflexivity.
Qed.
Lemma selects_epc p k f : pattern_ok p ->
  selects (pattern_text p) (scheme_name k ++ str ":" ++ dotted (id_texts k f)) <->
  p_scheme p = k /\ is_prefix (dotted (tl (firstn (p_count p) (field_texts (p_fields p))))) (dotted (id_texts k f)).
Proof.
  intros OK. rewrite selects_text, pattern_legacy_text by auto. rewrite <- scheme_prefix. split.
  - intros (t & E & P). injection E as <-. exact P.
  - intros P. eexists. split; [reflexivity|]. exact P.
Qed.

Lemma dotted_firstn l n : is_prefix (dotted (firstn n l)) (dotted l).
Proof.
  unfold dotted. revert n; induction l as [|a l IH]; intros [|n]; cbn [firstn].
  - exists []; auto.
  - exists []; auto.
  - eexists; reflexivity.
  - destruct l as [|b l]; [rewrite firstn_nil; exists []; rewrite app_nil_r; auto|]. destruct n as [|n].
    + exists (str "." ++ join (str ".") (b :: l)). reflexivity.
    + destruct (IH (S n)) as [r E]. exists r. change (join (str ".") (a :: b :: l)) with (a ++ str "." ++ join (str ".") (b :: l)). rewrite E.
      cbn [firstn]. change (join (str ".") (a :: b :: firstn n l)) with (a ++ str "." ++ join (str ".") (b :: firstn n l)). rewrite <- !app_assoc. reflexivity.
Qed.
Lemma dot_split (a b x y : gostring) c : ~ In c a -> ~ In c b -> a ++ c :: x = b ++ c :: y -> a = b /\ x = y.
Proof.
  revert b; induction a as [|d a IH]; intros [|e b] Ha Hb E; cbn in E.
  - injection E as ->. auto.
  - injection E as -> _. destruct Hb; left; auto.
  - injection E as -> _. destruct Ha; left; auto.
  - injection E as -> E. destruct (IH b) as [-> ->]; auto; cbn in *; tauto.
Qed.
Lemma dotted_prefix (l : list gostring) : forall m : list gostring, l <> [] -> Forall (fun s => ~ In "."%char s) l -> Forall (fun s => ~ In "."%char s) m -> length l <= length m ->
  length (last l []) = length (nth (length l - 1) m []) -> is_prefix (dotted l) (dotted m) -> l = firstn (length l) m.
Proof.
  unfold dotted. induction l as [|a l IH]; intros m NL Fl Fm LN LL P; [congruence|]. destruct m as [|b m]; [cbn in LN; lia|].
  apply Forall_cons_iff in Fl. apply Forall_cons_iff in Fm. destruct Fl as [Na Fl], Fm as [Nb Fm]. destruct l as [|a2 l].
  - cbn [length last Nat.sub nth] in LL. cbn [length firstn]. f_equal. destruct P as [r E]. cbn [join] in E.
    destruct m as [|b2 m]; [cbn in E|change (join (str ".") (b :: b2 :: m)) with (b ++ str "." ++ join (str ".") (b2 :: m)) in E].
    + assert (r = []) as ->. { apply (f_equal (@length ascii)) in E. rewrite app_length in E. destruct r; auto. cbn in E; lia. } rewrite app_nil_r in E; auto.
    + symmetry in E. apply app_inj_len in E; auto. tauto.
  - destruct m as [|b2 m]; [cbn in LN; lia|]. destruct P as [r E].
    change (join (str ".") (b :: b2 :: m)) with (b ++ "."%char :: join (str ".") (b2 :: m)) in E.
    change (join (str ".") (a :: a2 :: l)) with (a ++ "."%char :: join (str ".") (a2 :: l)) in E. rewrite <- app_assoc in E.
    change (("."%char :: join (str ".") (a2 :: l)) ++ r) with ("."%char :: join (str ".") (a2 :: l) ++ r) in E.
    apply dot_split in E; auto. destruct E as [-> E]. change (firstn (length (a :: a2 :: l)) (a :: b2 :: m)) with (a :: firstn (length (a2 :: l)) (b2 :: m)).
    f_equal. apply IH; auto.
    + discriminate.
    + cbn in LN |- *; lia.
    + cbn [length] in LL |- *. cbn [last] in LL. replace (S (S (length l)) - 1) with (S (S (length l) - 1)) in LL by lia. cbn [nth] in LL. exact LL.
    + exists r; auto.
Qed.

(** The same fields with another filter value. *)
Definition with_filter (f : epc_fields) (v : gostring) : epc_fields :=
  {| f_filter := v; f_cp := f_cp f; f_ref := f_ref f; f_ser := f_ser f |}.
Lemma with_filter_urn k f : urn_fields k f -> urn_fields k (with_filter f (str "0")).
Proof.
  intros ((D1 & D2 & D3 & D4) & C & (V1 & V2 & V3 & V4) & R & S). split; [|split; [|split; [|split]]]; auto.
  - split; [|auto]. split; [discriminate|repeat constructor].
  - split; [reflexivity|auto].
Qed.
Section COMPARE.
  Context (p : epc_pattern) (k : scheme) (f : epc_fields).
  Context (OK : pattern_ok p) (U : urn_fields k f) (UP : urn_fields (p_scheme p) (p_fields p)).
  Context (GZ : k = Grai -> 3 <= p_count p -> fields_partition f <> 0).
  Lemma compare_texts : p_scheme p = k ->
    leads p k f <-> dec_value (f_filter f) = dec_value (f_filter (p_fields p)) /\
      tl (firstn (p_count p) (field_texts (p_fields p))) = tl (firstn (p_count p) (field_texts f)).
  Proof using OK U UP GZ.
    intros EK. destruct p as [k' n g]. cbn [p_scheme p_count p_fields] in *. subst k'. pose proof OK as [HN _]. cbn [p_count p_scheme] in HN.
    pose proof (leads_texts {| p_scheme := k; p_count := n; p_fields := with_filter g (str "0") |} k (with_filter f (str "0")) eq_refl HN
      (with_filter_urn _ _ U) (with_filter_urn _ _ UP) eq_refl eq_refl GZ) as X.
    unfold leads in *. cbn [p_scheme p_count p_fields] in *. change (fields_partition (with_filter f (str "0"))) with (fields_partition f) in X.
    change (fields_partition (with_filter g (str "0"))) with (fields_partition g) in X.
    cbn [with_filter f_filter f_cp f_ref f_ser] in X.
    assert (firstn n (field_texts (with_filter f (str "0"))) = firstn n (field_texts (with_filter g (str "0"))) <->
            tl (firstn n (field_texts g)) = tl (firstn n (field_texts f))) as Y.
    { unfold field_texts, with_filter. cbn [f_filter f_cp f_ref f_ser]. destruct n as [|n]; [lia|]. cbn [firstn tl].
      split; [intros E; injection E; auto|intros E; f_equal; auto]. }
    rewrite Y in X. split.
    - intros (_ & A & B). split; auto. apply X. auto.
    - intros (A & B). split; auto. split; auto. apply X. auto.
  Qed.
  Lemma tl_id_texts : p_scheme p = k -> tl (firstn (p_count p) (field_texts f)) = firstn (p_count p - 1) (id_texts k f).
  Proof using OK GZ.
    intros EK. pose proof OK as [HN _]. rewrite EK in HN. unfold field_texts, id_texts, field_count in *. clear OK U UP.
    destruct (p_count p) as [|n]; [lia|]. cbn [firstn tl]. replace (S n - 1) with n by lia.
    destruct k; cbn [has_serial] in HN.
    - reflexivity.
    - destruct n as [|[|[|n]]]; try lia; reflexivity.
    - destruct (Nat.eqb_spec (fields_partition f) 0) as [Z|]; [|reflexivity]. destruct n as [|[|n]]; try reflexivity. exfalso. apply GZ; auto. lia.
    - destruct n as [|[|[|n]]]; try lia; reflexivity.
  Qed.
  Lemma leads_selects : leads p k f -> selects (pattern_text p) (scheme_name k ++ str ":" ++ dotted (id_texts k f)).
  Proof using OK U UP GZ.
    intros L. apply selects_epc; auto. assert (p_scheme p = k) as EK by apply L. split; auto. apply compare_texts in L; auto. destruct L as [_ L].
    rewrite L, tl_id_texts by auto. apply dotted_firstn.
  Qed.
  Lemma selects_leads : dec_value (f_filter f) = dec_value (f_filter (p_fields p)) -> full_last p f ->
    selects (pattern_text p) (scheme_name k ++ str ":" ++ dotted (id_texts k f)) -> leads p k f.
  Proof using OK U UP GZ.
    intros FV FL S. apply selects_epc in S; auto. destruct S as [EK P]. apply compare_texts; auto. split; auto.
    rewrite tl_id_texts by auto. pose proof OK as [HN _]. unfold field_count in HN.
    assert (length (tl (firstn (p_count p) (field_texts (p_fields p)))) = p_count p - 1) as LT.
    { unfold field_texts. destruct (p_count p) as [|n] eqn:EN; [lia|]. cbn [firstn tl]. rewrite firstn_length. cbn [length]. destruct (has_serial (p_scheme p)); lia. }
    destruct (Nat.eq_dec (p_count p) 1) as [E1|N1].
    { rewrite E1. reflexivity. }
    rewrite <- LT. apply dotted_prefix; auto.
    - intros E. rewrite E in LT. cbn in LT. lia.
    - assert (Forall is_decimal (tl (firstn (p_count p) (field_texts (p_fields p))))) as F.
      { pose proof (pattern_named p OK) as F. destruct (firstn _ _); [constructor|]. inversion F; auto. }
      eapply Forall_impl; [|exact F]. intros s. apply decimal_no. reflexivity.
    - destruct U as ((D1 & D2 & D3 & D4) & _).
      assert (forall s, is_decimal s -> ~ In "."%char s) as DN by (intros s; apply decimal_no; reflexivity).
      unfold id_texts. destruct k; repeat constructor; auto; destruct (Nat.eqb _ 0); repeat constructor; auto.
    - rewrite LT. unfold id_texts. rewrite EK in HN. destruct k; cbn [has_serial length] in *; try lia.
      destruct (Nat.eqb_spec (fields_partition f) 0) as [Z|]; cbn [length]; [|lia]. destruct (le_lt_dec 3 (p_count p)); [destruct (GZ eq_refl l Z)|lia].
    - rewrite LT. specialize (FL ltac:(lia)). rewrite EK in HN. unfold field_texts in *. 
      assert (p_count p = 2 \/ p_count p = 3 \/ p_count p = 4) as [E|[E|E]] by (destruct (has_serial k); lia); rewrite E in *; cbn [firstn tl last Nat.sub nth] in *; rewrite FL; unfold id_texts.
      + destruct k; auto. destruct (Nat.eqb _ 0); auto.
      + destruct k; auto. destruct (Nat.eqb_spec (fields_partition f) 0) as [Z|]; auto. destruct (GZ eq_refl ltac:(lia) Z).
      + destruct k; cbn [has_serial] in HN; try lia; auto. destruct (Nat.eqb_spec (fields_partition f) 0) as [Z|]; auto. destruct (GZ eq_refl ltac:(lia) Z).
  Qed.
End COMPARE.
Lemma pairs_texts s u pat : In (u, pat) (pairs (sub_texts s)) <-> exists p, subscribed s u p /\ pat = pattern_text p.
Proof.
  unfold pairs, sub_texts, subscribed. rewrite in_flat_map. split.
  - intros ([v l] & I & J). apply in_map_iff in I. destruct I as ([v' ps] & E & I). cbn in E. injection E as <- <-. cbn [fst snd] in J.
    apply in_map_iff in J. destruct J as (x & E & J). injection E as <- <-. apply in_map_iff in J. destruct J as (p & <- & J). eauto.
  - intros (p & (ps & I & J) & ->). exists (u, map pattern_text ps). split; [apply in_map_iff; exists (u, ps); auto|].
    cbn [fst snd]. apply in_map. apply in_map. auto.
Qed.
Lemma pairs_perm m m' x : Permutation m m' -> In x (pairs m) <-> In x (pairs m').
Proof. intros P. unfold pairs. split; apply Permutation_in; apply Permutation_flat_map; auto. apply Permutation_sym; auto. Qed.