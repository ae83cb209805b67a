(** The splay tree outside the safe histories: searches lose subscriptions
    exactly when a prefix has two incomparable extensions, and the wrong changes
    are always visible. *)
From Verif Require Import GoBase BinUtil MFilter MEngine MTdtCore MSubs MList MSplay.
From Verif Require Import PBase Spec PFilter PEngine PSubs PList PMatch PPatricia PPatriciaHist PExamples PLink PSplay PSplayHist.
From Coq Require Import Lia.

Definition hits (id : list N) (pre : gostring) (t : stree) : prefix_subs := filter (hit id) (sentries pre t).
Definition msearch (m : stree) (id : list N) : result (list gostring * stree * list taken) :=
  match m with SNil => Ok ([], SNil, []) | _ => ssearch m false id end.
Lemma ssearch_node u f m mm hp id : ssearch (SNode u (Some f) m mm) hp id =
  (let! b := match_filter f id in
   if b then
     let! (inner, m', ex) := msearch m id in
     if hp then Ok (u :: inner, mm, ex ++ [{| tk_uri := u; tk_fo := Some f; tk_match := m' |}])
     else Ok (u :: inner, SNode u (Some f) m' mm, ex)
   else
     match mm with
     | SNil => Ok ([], SNode u (Some f) m mm, [])
     | _ => let! (uris, mm', ex) := ssearch mm true id in Ok (uris, SNode u (Some f) m mm', ex)
     end).
Proof. reflexivity. Qed.

(** What [id] reports below a node, and beside it. *)
Lemma hits_yes id pre u fo m mm off : swf off (SNode u fo m mm) -> has_prefix (idstr id) (pre ++ fo_str fo) = true ->
  hits id pre (SNode u fo m mm) = (pre ++ fo_str fo, u) :: hits id (pre ++ fo_str fo) m /\ hits id pre mm = [].
Proof.
  intros W EP. cbn [swf] in W. destruct W as (_ & _ & _ & _ & _ & Cm). pose proof EP as EP'. apply has_prefix_spec in EP'.
  assert (hits id pre mm = []) as N.
  { apply filter_none. intros x Hx. apply sentries_In_pre in Hx. destruct Hx as (y & Hy & ->). unfold hit. cbn [fst].
    destruct (has_prefix (idstr id) (pre ++ fst y)) eqn:E2; auto. apply has_prefix_spec in E2. exfalso.
    apply (Cm y Hy). destruct (comparable_prefixes _ _ _ EP' E2) as [H|H]; apply prefix_app_inv1 in H; [left|right]; auto. }
  split; auto. unfold hits in *. cbn [sentries filter]. unfold hit at 1. cbn [fst]. rewrite EP, filter_app, N, app_nil_r.
  reflexivity.
Qed.
Lemma hits_no id pre u fo m mm : has_prefix (idstr id) (pre ++ fo_str fo) = false ->
  hits id pre (SNode u fo m mm) = hits id pre mm.
Proof.
  intros EP. unfold hits. cbn [sentries filter]. unfold hit at 1. cbn [fst]. rewrite EP, filter_app.
  rewrite (filter_none _ (sentries (pre ++ fo_str fo) m)); [reflexivity|].
  intros x Hx. apply sentries_In_pre in Hx. destruct Hx as (y & Hy & ->). unfold hit. cbn [fst].
  apply has_prefix_false. apply has_prefix_false in EP. intros H. apply EP.
  eapply prefix_trans; [|exact H]. exists (fst y). reflexivity.
Qed.

(** [id] is searched in the tree [t], which hangs below the prefix [pre]. *)
Definition searchable (id : list N) (pre : gostring) (t : stree) : Prop :=
  is_bitstring pre /\ swf (length pre) t /\ prefix_of pre (idstr id) /\
  (pre = [] \/ forall x, In x (sentries [] t) -> fst x <> []) /\
  (forall x, In x (sentries [] t) -> ~ runs_out id (pre ++ fst x)).
Lemma searchable_sub id pre t t' : searchable id pre t -> swf (length pre) t' ->
  (forall x, In x (sentries [] t') -> In x (sentries [] t)) -> searchable id pre t'.
Proof.
  intros (H1 & H2 & H3 & H4 & H5) W S. repeat (split; auto). destruct H4; auto.
Qed.
Lemma searchable_mm id pre u fo m mm : searchable id pre (SNode u fo m mm) -> searchable id pre mm.
Proof.
  intros H. eapply searchable_sub; [exact H|apply H|]. intros x Hx. cbn [sentries]. right. apply in_or_app. auto.
Qed.
Lemma searchable_m id pre u fo m mm : searchable id pre (SNode u fo m mm) ->
  has_prefix (idstr id) (pre ++ fo_str fo) = true -> searchable id (pre ++ fo_str fo) m.
Proof.
  intros (H1 & H2 & H3 & H4 & H5) HP. cbn [swf] in H2. destruct H2 as (Hf & HB & Wm & Wmm & Nm & Cm).
  split; [apply is_bitstring_app; auto|]. split; [rewrite app_length; auto|]. split; [apply has_prefix_spec; auto|].
  split; [auto|]. intros x Hx. rewrite <- app_assoc. apply (H5 (fo_str fo ++ fst x, snd x)). cbn [sentries app]. right.
  apply in_or_app. left. apply sentries_In_pre. eauto.
Qed.
Lemma searchable_match id pre u fo m mm : wf_bytes id -> searchable id pre (SNode u fo m mm) ->
  exists f, fo = Some f /\ match_filter f id = Ok (has_prefix (idstr id) (pre ++ fo_str fo)).
Proof.
  intros Hw (H1 & H2 & H3 & H4 & H5). cbn [swf] in H2. destruct H2 as (Hf & HB & _).
  eexists. split; [exact Hf|]. apply match_at_path; auto.
  - destruct H4 as [H4|H4]; auto. left. apply (H4 (fo_str fo, u)). left. reflexivity.
  - apply (H5 (fo_str fo, u)). left. reflexivity.
Qed.

(** The search takes a node out of the subtree below the matching node. *)
Fixpoint deep (id : list N) (pre : gostring) (t : stree) : Prop :=
  match t with
  | SNil => False
  | SNode u fo m mm =>
      if has_prefix (idstr id) (pre ++ fo_str fo) then exists a b ex, msearch m id = Ok (a, b, ex) /\ ex <> []
      else deep id pre mm
  end.

Definition short (id : list N) (n : nat) (x : taken) : Prop := forall r,
  exists uris t ex, ssearch (tknode x r) false id = Ok (uris, t, ex) /\ uris <> [] /\ length uris < n.

Lemma search_shrinks id : wf_bytes id -> forall t pre, searchable id pre t -> t <> SNil -> forall hp,
  exists t' ex, ssearch t hp id = Ok (map snd (hits id pre t), t', ex) /\
    swf (length pre) t' /\ (forall x, In x (sentries [] t') -> In x (sentries [] t)) /\
    length (hits id pre t') <= length (hits id pre t) /\
    (ex <> [] -> length (hits id pre t') < length (hits id pre t)) /\
    (forall ex0 x, ex = ex0 ++ [x] -> short id (S (length (hits id pre t))) x) /\
    (deep id pre t -> exists ex0 x, ex = ex0 ++ [x] /\ short id (length (hits id pre t)) x).
Proof.
  intros Hw. induction t as [|u fo m IHm mm IHmm]; intros pre HS HN hp; [congruence|].
  destruct (searchable_match _ _ _ _ _ _ Hw HS) as (f & Ef & HM).
  pose proof HS as (S1 & S2 & S3 & S4 & S5). pose proof S2 as S2'. cbn [swf] in S2'.
  destruct S2' as (Hf & HBs & Wm & Wmm & Nm & Cm).
  set (s := fo_str fo) in *.
  assert (ssearch (SNode u fo m mm) hp id = ssearch (SNode u (Some f) m mm) hp id) as EQ by (rewrite <- Ef; reflexivity).
  rewrite ssearch_node, HM in EQ. cbn [bind] in EQ. rewrite EQ. clear EQ.
  destruct (has_prefix (idstr id) (pre ++ s)) eqn:EP.
  - destruct (hits_yes id pre u fo m mm _ S2 EP) as [H1 H0]. fold s in H1.
    assert (exists m' ex, msearch m id = Ok (map snd (hits id (pre ++ s) m), m', ex) /\
      swf (length (pre ++ s)) m' /\ (forall x, In x (sentries [] m') -> In x (sentries [] m)) /\
      length (hits id (pre ++ s) m') <= length (hits id (pre ++ s) m) /\
      (ex <> [] -> length (hits id (pre ++ s) m') < length (hits id (pre ++ s) m)) /\
      (forall ex0 x, ex = ex0 ++ [x] -> short id (S (length (hits id (pre ++ s) m))) x)) as (m' & ex & E & A1 & A2 & A3 & A4 & A5).
    { destruct m as [|u1 fo1 m1 mm1].
      - exists SNil, []. split; [reflexivity|]. split; [exact I|]. split; [auto|]. split; [auto|]. split; [congruence|].
        intros ex0 x H. destruct ex0; discriminate.
      - destruct (IHm (pre ++ s)) with (hp := false) as (m' & ex & H); [eapply searchable_m; eauto|discriminate|].
        exists m', ex. tauto. }
    rewrite E. cbn [bind]. rewrite H1. cbn [map snd length].
    assert (swf (length pre) (SNode u fo m' mm)) as W'.
    { cbn [swf]. fold s. rewrite app_length in A1. do 5 (split; [auto|]). auto. }
    assert (forall r, exists uris t ex', ssearch (tknode {| tk_uri := u; tk_fo := Some f; tk_match := m' |} r) false id = Ok (uris, t, ex')
       /\ uris <> [] /\ length uris = S (length (hits id (pre ++ s) m'))) as Sx.
    { intros r. unfold tknode. cbn [tk_uri tk_fo tk_match]. rewrite ssearch_node, HM. cbn [bind].
      assert (exists b c, msearch m' id = Ok (map snd (hits id (pre ++ s) m'), b, c)) as (b & c & ->).
      { destruct m' as [|u1 fo1 m1 mm1]; [exists SNil, []; reflexivity|].
        assert (searchable id (pre ++ s) (SNode u1 fo1 m1 mm1)) as (P1 & P2 & P3 & P4 & P5).
        { eapply searchable_sub; [eapply searchable_m; eauto|auto|auto]. }
        destruct (ssearch_spec id Hw (SNode u1 fo1 m1 mm1) false (pre ++ s)) as (b & c & H); auto; [discriminate| |eauto].
        intros x Hx. apply sentries_In_pre in Hx. destruct Hx as (y & Hy & ->). apply P5; auto. }
      cbn [bind]. do 3 eexists. split; [reflexivity|]. split; [discriminate|]. cbn [length]. rewrite map_length. auto. }
    destruct hp.
    + do 2 eexists. split; [reflexivity|]. split; [auto|]. split.
      { intros x Hx. cbn [sentries]. right. apply in_or_app. auto. }
      rewrite H0. cbn [length]. split; [lia|]. split; [lia|]. split.
      * intros ex0 x H. apply app_inj_tail in H. destruct H as [_ <-]. intros r.
        destruct (Sx r) as (uris & t & ex' & H & H' & H''). exists uris, t, ex'. repeat (split; [auto|]). lia.
      * intros HD. cbn [deep] in HD. fold s in HD. rewrite EP in HD. destruct HD as (a & b & ex' & HE & Hn).
        rewrite E in HE. injection HE as <- <- <-. do 2 eexists. split; [reflexivity|]. intros r.
        destruct (Sx r) as (uris & t & ex' & H & H' & H''). exists uris, t, ex'. repeat (split; [auto|]).
        apply A4 in Hn. lia.
    + rewrite <- Ef. do 2 eexists. split; [reflexivity|]. split; [auto|]. split.
      { intros x Hx. cbn [sentries] in *. destruct Hx as [Hx|Hx]; [left; auto|right].
        apply in_app_or in Hx. apply in_or_app. destruct Hx as [Hx|Hx]; auto. left.
        apply sentries_In_pre in Hx. destruct Hx as (y & Hy & ->). apply sentries_In_pre. eauto. }
      destruct (hits_yes id pre u fo m' mm _ W' EP) as [H1' _]. fold s in H1'. rewrite H1'. cbn [length].
      split; [lia|]. split; [intros H; apply A4 in H; lia|]. split.
      * intros ex0 x H r. destruct (A5 _ _ H r) as (uris & t & ex' & B1 & B2 & B3). exists uris, t, ex'. repeat (split; [auto|]). lia.
      * intros HD. cbn [deep] in HD. fold s in HD. rewrite EP in HD. destruct HD as (a & b & ex' & HE & Hn).
        rewrite E in HE. injection HE as <- <- <-. destruct (exists_last Hn) as (ex0 & x & ->). exists ex0, x. split; auto.
        exact (A5 _ _ eq_refl).
  - rewrite (hits_no id pre u fo m mm) by auto. cbn [deep]. fold s. rewrite EP.
    destruct mm as [|u1 fo1 m1 mm1].
    + rewrite <- Ef. exists (SNode u fo m SNil), []. split; [reflexivity|]. split; [auto|]. split; [auto|].
      rewrite (hits_no id pre u fo m SNil) by auto. split; [auto|]. split; [congruence|]. split; [|intros []].
      intros ex0 x H. destruct ex0; discriminate.
    + destruct (IHmm pre) with (hp := true) as (mm' & ex & E & A1 & A2 & A3 & A4 & A5 & A6);
        [eapply searchable_mm; eauto|discriminate|]. rewrite E. cbn [bind]. rewrite <- Ef.
      exists (SNode u fo m mm'), ex. split; [reflexivity|]. split.
      { cbn [swf]. fold s. do 5 (split; [auto|]). intros x Hx. apply Cm. auto. }
      split. { intros x Hx. cbn [sentries] in *. destruct Hx as [Hx|Hx]; [left; auto|right].
        apply in_app_or in Hx. apply in_or_app. destruct Hx as [Hx|Hx]; auto. }
      rewrite (hits_no id pre u fo m mm') by auto. tauto.
Qed.

(** ** A tag that meets a fork *)
Lemma single_dec t : single t \/ ~ single t.
Proof.
  induction t as [|u fo m IHm mm IHmm]; cbn [single]; auto. destruct mm; [|right; intros [H _]; discriminate].
  destruct IHm; [left|right]; tauto.
Qed.
Lemma snarrow_dec t : snarrow t \/ ~ snarrow t.
Proof.
  induction t as [|u fo m IHm mm IHmm]; cbn [snarrow]; auto. destruct (single_dec m), IHmm; tauto.
Qed.
Lemma not_prefix_sibling id pre s x : ~ comparable s x -> prefix_of (pre ++ x) (idstr id) ->
  has_prefix (idstr id) (pre ++ s) = false.
Proof.
  intros C P. apply has_prefix_false. intros H. apply C.
  destruct (comparable_prefixes _ _ _ H P) as [Q|Q]; apply prefix_app_inv1 in Q; [left|right]; auto.
Qed.
(** Some key of a tree that is not a single path leads a search to take nodes out. *)
Lemma not_single_taken t : forall off, swf off t -> ~ single t -> exists k, In k (map fst (sentries [] t)) /\
  forall id pre, wf_bytes id -> searchable id pre t -> prefix_of (pre ++ k) (idstr id) ->
  exists a b ex, ssearch t false id = Ok (a, b, ex) /\ ex <> [].
Proof.
  induction t as [|u fo m IHm mm IHmm]; intros off W HN; [exfalso; apply HN; exact I|].
  pose proof W as W'. cbn [swf] in W'. destruct W' as (Hf & HBs & Wm & Wmm & Nm & Cm).
  destruct mm as [|u1 fo1 m1 mm1].
  - destruct (IHm _ Wm) as (k & Hk & H). { intros HS. apply HN. split; auto. }
    exists (fo_str fo ++ k). split.
    { cbn [sentries app map]. right. rewrite map_app. apply in_or_app. left. apply in_map_iff in Hk.
      destruct Hk as (x & <- & Hx). change (fo_str fo ++ fst x) with (fst (fo_str fo ++ fst x, snd x)).
      apply in_map. apply sentries_In_pre. eauto. }
    intros id pre Hw HS HP. destruct (searchable_match _ _ _ _ _ _ Hw HS) as (f & Ef & HM).
    assert (has_prefix (idstr id) (pre ++ fo_str fo) = true) as EP.
    { apply has_prefix_spec. eapply prefix_trans; [|exact HP]. exists k. rewrite app_assoc. reflexivity. }
    rewrite EP in HM. pose proof (searchable_m _ _ _ _ _ _ HS EP) as HSm.
    destruct (H id (pre ++ fo_str fo) Hw HSm) as (a & b & ex & E & Hn). { rewrite <- app_assoc. auto. }
    rewrite Ef, ssearch_node, HM. cbn [bind].
    assert (msearch m id = Ok (a, b, ex)) as ->. { destruct m; [discriminate E|exact E]. }
    cbn [bind]. do 3 eexists. split; [reflexivity|auto].
  - exists (fo_str fo1). split.
    { cbn [sentries app map]. right. rewrite map_app. apply in_or_app. right. left. reflexivity. }
    intros id pre Hw HS HP. destruct (searchable_match _ _ _ _ _ _ Hw HS) as (f & Ef & HM).
    rewrite (not_prefix_sibling id pre (fo_str fo) (fo_str fo1)) in HM; auto.
    2: { apply (Cm (fo_str fo1, u1)). left. reflexivity. }
    pose proof (searchable_mm _ _ _ _ _ _ HS) as HSm.
    destruct (searchable_match _ _ _ _ _ _ Hw HSm) as (f1 & Ef1 & HM1).
    assert (has_prefix (idstr id) (pre ++ fo_str fo1) = true) as EP by (apply has_prefix_spec; auto).
    destruct (search_shrinks id Hw _ _ HSm ltac:(discriminate) true) as (t' & ex & E & _).
    rewrite Ef, ssearch_node, HM. cbn [bind]. rewrite E. cbn [bind]. do 3 eexists. split; [reflexivity|].
    rewrite Ef1, ssearch_node, HM1, EP in E. cbn [bind] in E.
    destruct (msearch m1 id) as [[[inner m'] ex']| |]; try discriminate. cbn [bind] in E. injection E as _ _ <-.
    destruct ex'; discriminate.
Qed.
Lemma not_narrow_deep t : forall off, swf off t -> ~ snarrow t -> exists k, In k (map fst (sentries [] t)) /\
  forall id pre, wf_bytes id -> searchable id pre t -> prefix_of (pre ++ k) (idstr id) -> deep id pre t.
Proof.
  induction t as [|u fo m IHm mm IHmm]; intros off W HN; [exfalso; apply HN; exact I|].
  pose proof W as W'. cbn [swf] in W'. destruct W' as (Hf & HBs & Wm & Wmm & Nm & Cm).
  destruct (single_dec m) as [HSg|HSg].
  - destruct (IHmm _ Wmm) as (k & Hk & H). { intros HS. apply HN. split; auto. }
    exists k. split. { cbn [sentries app map]. right. rewrite map_app. apply in_or_app. auto. }
    intros id pre Hw HS HP. cbn [deep]. apply in_map_iff in Hk. destruct Hk as (x & <- & Hx).
    rewrite (not_prefix_sibling id pre (fo_str fo) (fst x)); auto. apply H; auto. eapply searchable_mm; eauto.
  - destruct (not_single_taken m _ Wm HSg) as (k & Hk & H). exists (fo_str fo ++ k). split.
    { cbn [sentries app map]. right. rewrite map_app. apply in_or_app. left. apply in_map_iff in Hk.
      destruct Hk as (x & <- & Hx). change (fo_str fo ++ fst x) with (fst (fo_str fo ++ fst x, snd x)).
      apply in_map. apply sentries_In_pre. eauto. }
    intros id pre Hw HS HP.
    assert (has_prefix (idstr id) (pre ++ fo_str fo) = true) as EP.
    { apply has_prefix_spec. eapply prefix_trans; [|exact HP]. exists k. rewrite app_assoc. reflexivity. }
    cbn [deep]. rewrite EP. pose proof (searchable_m _ _ _ _ _ _ HS EP) as HSm.
    destruct (H id (pre ++ fo_str fo) Hw HSm) as (a & b & ex & E & Hn). { rewrite <- app_assoc. auto. }
    exists a, b, ex. split; auto. destruct m; [discriminate E|exact E].
Qed.

(** Identifiers with given leading bits, as long as wanted. *)
Lemma long_id k n : is_bitstring k -> exists id, wf_bytes id /\ n < length id /\ prefix_of k (idstr id).
Proof.
  intros HB. assert (exists l, k = bits_to_str l) as [l ->].
  { clear n. induction HB as [|c k Hc _ [l IH]]; [exists []; auto|]. rewrite IH.
    destruct Hc as [->| ->]; [exists (false :: l)|exists (true :: l)]; reflexivity. }
  destruct (bytes_of_bits_total (l ++ repeat false (8 * (n + length l + 1) - length l)) (n + length l + 1)) as (id & B & L).
  { rewrite app_length, repeat_length. lia. }
  apply bytes_of_bits_spec in B. destruct B as [B W]. exists id. split; auto. split; [lia|].
  unfold idstr. rewrite B, bits_to_str_app. eexists. reflexivity.
Qed.
Lemma long_enough keys : exists n, forall id, n < length id -> decides id keys.
Proof.
  induction keys as [|k keys [n IH]]; [exists 0; intros id _ k []|].
  exists (Nat.max n (bytes_needed k 0)). intros id H k' [<-|Hk]; [|apply IH; auto; lia].
  intros [H' _]. lia.
Qed.

(** Searching a tag twice loses a subscription, for every tag of some subscribed
    prefix. *)
Lemma fork_forgets_at m t : sinv m t -> ~ snarrow t ->
  exists k, In k (map fst m) /\ forall id, wf_bytes id -> decides id (map fst m) -> prefix_of k (idstr id) -> forall pc,
  exists t1 uris uris', splay_step t id = Ok (uris, t1) /\ reported id m uris /\
    answers (translate pc id) uris (drop_tree (splay_search t pc id)) /\
    answers (translate pc id) uris' (drop_tree (splay_search t1 pc id)) /\ length uris' < length uris.
Proof.
  intros I HN. pose proof I as [I1 I2 I3 I4]. destruct (not_narrow_deep t 0 I2 HN) as (k & Hk & HD).
  exists k. split; [apply (sinv_keys m t k I); auto|]. intros id Hw Hn HP pc.
  assert (searchable id [] t) as HS.
  { split; [constructor|]. split; auto. split; [apply prefix_nil|]. split; auto.
    intros x Hx. apply Hn. cbn [app]. apply in_map. apply I4; auto. }
  destruct (search_shrinks id Hw t [] HS I1 false) as (t' & ex & E & _ & _ & _ & _ & _ & HF).
  destruct (HF (HD id [] Hw HS HP)) as (ex0 & x & -> & Sh). clear HF.
  destruct (Sh (splay_root t' ex0)) as (uris' & t2 & ex2 & E2 & Hne & Hlt).
  exists (tknode x (splay_root t' ex0)), (map snd (hits id [] t)), uris'.
  assert (splay_step t id = Ok (map snd (hits id [] t), tknode x (splay_root t' ex0))) as ES.
  { unfold splay_step. rewrite E. cbn [bind]. unfold splay_root. rewrite fold_left_app. reflexivity. }
  split; auto.
  assert (hits id [] t = filter (hit id) m) as HC by (apply (hits_content id t 0 m); auto).
  rewrite HC in Hlt |- *.
  split; [|split; [|split]].
  - apply reported_hits. apply Forall_forall. intros k' Hk'. apply in_map_iff in Hk'. destruct Hk' as (y & <- & Hy).
    apply I4 in Hy. eapply sentries_bits; eauto.
  - unfold splay_search. rewrite ES. cbn [bind].
    pose proof (finish_search_answers pc id (map snd (hits id [] t))) as HA. revert HA.
    rewrite HC. destruct (finish_search pc id _); cbn; auto.
  - unfold splay_search, splay_step. rewrite E2. cbn [bind].
    pose proof (finish_search_answers pc id uris') as HA. revert HA.
    destruct (finish_search pc id _); cbn; auto.
  - rewrite map_length. auto.
Qed.
Lemma fork_forgets m t : sinv m t -> ~ snarrow t ->
  exists id, wf_bytes id /\ id <> [] /\ decides id (map fst m) /\ forall pc,
  exists t1 uris uris', splay_step t id = Ok (uris, t1) /\ reported id m uris /\
    answers (translate pc id) uris (drop_tree (splay_search t pc id)) /\
    answers (translate pc id) uris' (drop_tree (splay_search t1 pc id)) /\ length uris' < length uris.
Proof.
  intros I HN. destruct (fork_forgets_at m t I HN) as (k & Hk & H).
  destruct (long_enough (map fst m)) as (n & Hn). destruct (long_id k n) as (id & Hw & HL & HP).
  { apply (sinv_keys m t k I) in Hk. apply in_map_iff in Hk. destruct Hk as (x & <- & Hx). eapply sentries_bits; eauto. apply I. }
  exists id. split; auto. split; [intros ->; cbn in HL; lia|]. split; auto.
Qed.

(** In a single path the keys are pairwise comparable. *)
Lemma single_comparable t : single t -> forall a b, In a (sentries [] t) -> In b (sentries [] t) -> comparable (fst a) (fst b).
Proof.
  induction t as [|u fo m IHm mm _]; cbn [single]; intros HS a b Ha Hb; [destruct Ha|]. destruct HS as [-> HS].
  cbn [sentries app] in Ha, Hb. rewrite app_nil_r in Ha, Hb.
  destruct Ha as [<-|Ha], Hb as [<-|Hb]; cbn [fst].
  - apply comparable_refl.
  - apply sentries_In_pre in Hb. destruct Hb as (y & _ & ->). left. eexists; reflexivity.
  - apply sentries_In_pre in Ha. destruct Ha as (y & _ & ->). right. eexists; reflexivity.
  - apply sentries_In_pre in Ha, Hb. destruct Ha as (y & Hy & ->), Hb as (z & Hz & ->). cbn [fst].
    destruct (IHm HS y z Hy Hz) as [[w H]|[w H]]; [left|right]; exists w; rewrite <- app_assoc, <- H; reflexivity.
Qed.
Lemma snarrow_chain t : forall off, swf off t -> snarrow t ->
  forall k, In k (map fst (sentries [] t)) -> one_chain_above (map fst (sentries [] t)) k.
Proof.
  induction t as [|u fo m IHm mm IHmm]; intros off W HS k Hk; [destruct Hk|].
  cbn [swf] in W. destruct W as (Hf & HBs & Wm & Wmm & Nm & Cm). cbn [snarrow] in HS. destruct HS as [Sm HS].
  set (s := fo_str fo) in *.
  assert (forall a, In a (map fst (sentries [] (SNode u fo m mm))) ->
     (exists y, a = s ++ y /\ (y = [] \/ In y (map fst (sentries [] m)))) \/ (In a (map fst (sentries [] mm)) /\ ~ comparable s a)) as Split.
  { intros a Ha. cbn [sentries app map fst] in Ha. fold s in Ha. destruct Ha as [<-|Ha]; [left; exists []; rewrite app_nil_r; auto|].
    rewrite map_app in Ha. apply in_app_or in Ha. destruct Ha as [Ha|Ha].
    - left. apply in_map_iff in Ha. destruct Ha as (x & <- & Hx). apply sentries_In_pre in Hx. destruct Hx as (y & Hy & ->).
      exists (fst y). split; [reflexivity|right; apply in_map; auto].
    - right. split; auto. apply in_map_iff in Ha. destruct Ha as (x & <- & Hx). auto. }
  assert (forall y z, (y = [] \/ In y (map fst (sentries [] m))) -> (z = [] \/ In z (map fst (sentries [] m))) -> comparable (s ++ y) (s ++ z)) as Cmp.
  { intros y z Hy Hz. assert (comparable y z) as [[w ->]|[w ->]].
    - destruct Hy as [->|Hy]; [left; apply prefix_nil|]. destruct Hz as [->|Hz]; [right; apply prefix_nil|].
      apply in_map_iff in Hy, Hz. destruct Hy as (a & <- & Ha), Hz as (b & <- & Hb). apply (single_comparable m); auto.
    - left. exists w. rewrite app_assoc. auto.
    - right. exists w. rewrite app_assoc. auto. }
  intros a b Ha Hb [Xa Na] [Xb Nb].
  destruct (Split k Hk) as [(yk & -> & Hyk)|[Hk' Ck]].
  - assert (forall a, In a (map fst (sentries [] (SNode u fo m mm))) -> is_prefix (s ++ yk) a ->
       exists y, a = s ++ y /\ (y = [] \/ In y (map fst (sentries [] m)))) as Below.
    { intros c Hc Pc. destruct (Split c Hc) as [H|[H1 H2]]; auto. exfalso. apply H2. left.
      eapply prefix_trans; [|exact Pc]. eexists; reflexivity. }
    destruct (Below a Ha Xa) as (y & -> & Hy), (Below b Hb Xb) as (z & -> & Hz). apply Cmp; auto.
  - assert (forall a, In a (map fst (sentries [] (SNode u fo m mm))) -> is_prefix k a -> In a (map fst (sentries [] mm))) as Below.
    { intros c Hc Pc. destruct (Split c Hc) as [(y & -> & Hy)|[H1 H2]]; auto. exfalso. apply Ck.
      apply (comparable_prefixes s k (s ++ y)); auto. eexists; reflexivity. }
    apply (IHmm _ Wmm HS k Hk'); auto; split; auto.
Qed.

(** ** Deleting a prefix with several branches above it leaves it with an empty URI *)
Lemma sdelete_forked t : forall fs off, swf off t -> In fs (map fst (sentries [] t)) ->
  ~ one_branch_above (map fst (sentries [] t)) fs ->
  exists t', sdelete t fs = Ok t' /\ t' <> SNil /\ swf off t' /\
    forall x, In x (sentries [] t') <-> x = (fs, []) \/ (fst x <> fs /\ In x (sentries [] t)).
Proof.
  induction t as [|u fo m IHm mm IHmm]; intros fs off W HI HO; [destruct HI|]. pose proof W as W0.
  cbn [swf] in W. destruct W as (Hf & HBs & Wm & Wmm & Nm & Cm).
  destruct fo as [f|]; [|discriminate]. cbn [fo_str] in *. set (s := fo_string f) in *. cbn [sdelete]. fold s.
  assert (f = new_filter s off) as Hf' by congruence.
  assert (fo_size f = length s) as -> by (rewrite Hf'; apply new_filter_size).
  assert (forall m' mm', swf (off + length s) m' -> swf off mm' ->
            (forall x, In x (sentries [] m') -> fst x <> []) -> (forall x, In x (sentries [] mm') -> ~ comparable s (fst x)) ->
            forall u', swf off (SNode u' (Some f) m' mm')) as Mk.
  { intros m' mm' H1 H2 H3 H4 u'. cbn [swf fo_str]. fold s. do 5 (split; [auto|]). auto. }
  assert (forall u' m' mm', sentries [] (SNode u' (Some f) m' mm') = (s, u') :: sentries s m' ++ sentries [] mm') as En.
  { intros. cbn [sentries fo_str app]. reflexivity. }
  destruct (has_prefix fs s) eqn:EP.
  - apply has_prefix_spec in EP. destruct EP as [rest ->]. rewrite skipn_app_l.
    assert (forall x, In x (sentries [] mm) -> fst x <> s ++ rest) as Hmm.
    { intros x Hx E. apply (Cm x Hx). rewrite E. left. exists rest. auto. }
    assert (~ one_branch_above (map fst (sentries [] m)) rest) as HO'.
    { intros H. apply HO. apply (branch_below u (Some f) m mm off); auto. }
    destruct (seqb_spec (s ++ rest) s) as [Heq|Hne].
    + assert (rest = []) as -> by (rewrite <- (app_nil_r s) in Heq at 2; apply app_inv_head in Heq; auto).
      rewrite app_nil_r in *.
      assert (forall x, In x (sentries s m) -> fst x <> s) as Hms.
      { intros x H. apply sentries_In_pre in H. destruct H as (y & Hy & ->). cbn [fst]. intros E.
        rewrite <- (app_nil_r s) in E at 2. apply app_inv_head in E. eapply Nm; eauto. }
      destruct m as [|mu mf m1 mm1]; [exfalso; apply HO'; intros a b []|].
      destruct mm1 as [|u2 fo2 m2 mm2].
      * exfalso. apply HO'. intros a b Ha Hb EA EB. exists (fo_str mf). split; [left; reflexivity|].
        split; [split; [apply prefix_nil|apply (Nm (fo_str mf, mu)); left; reflexivity]|].
        apply node_keys in Ha, Hb. destruct Ha as [->|[(y & -> & _)|[]]], Hb as [->|[(z & -> & _)|[]]];
          split; try apply prefix_refl; eexists; reflexivity.
      * eexists. split; [reflexivity|]. split; [discriminate|]. split; [apply Mk; auto|].
        intros x. rewrite !En. cbn [In]. rewrite !in_app_iff. split.
        -- intros [<-|[H|H]]; auto.
        -- intros [->|[H1 [<-|[H|H]]]]; auto. cbn in H1. congruence.
    + assert (rest <> []) as Hr by (intros ->; rewrite app_nil_r in Hne; congruence).
      assert (In rest (map fst (sentries [] m))) as HI'.
      { apply node_keys in HI. cbn [fo_str] in HI. fold s in HI. destruct HI as [HI|[(y & E & Hy)|HI]]; [congruence| |].
        - apply app_inv_head in E. rewrite E. auto.
        - exfalso. apply in_map_iff in HI. destruct HI as (x & E & Hx). apply (Hmm x Hx E). }
      assert (forall m', swf (off + length s) m' ->
        (forall x, In x (sentries [] m') <-> x = (rest, []) \/ (fst x <> rest /\ In x (sentries [] m))) ->
        swf off (SNode u (Some f) m' mm) /\
        forall x, In x (sentries [] (SNode u (Some f) m' mm)) <->
          x = (s ++ rest, []) \/ (fst x <> s ++ rest /\ In x (sentries [] (SNode u (Some f) m mm)))) as Fin.
      { intros m' W' M'. split.
        - apply Mk; auto. intros x Hx. apply M' in Hx. destruct Hx as [->|[_ Hx]]; auto.
        - intros x. rewrite !En. cbn [In]. rewrite !in_app_iff. rewrite !(sentries_In_pre s). split.
          + intros [<-|[(y & Hy & ->)|H]].
            * right. split; [cbn; congruence|auto].
            * apply M' in Hy. destruct Hy as [->|[Hy1 Hy2]]; [left; reflexivity|right].
              cbn [fst]. split; [intros E; apply app_inv_head in E; auto|]. right. left. eauto.
            * right. split; [apply Hmm; auto|auto].
          + intros [->|[H1 [<-|[(y & Hy & ->)|H]]]]; auto.
            * right. left. exists (rest, []). split; [apply M'; auto|reflexivity].
            * right. left. exists y. split; auto. apply M'. right. split; auto. intros E. apply H1. cbn. rewrite E. auto. }
      destruct m as [|u1 fo1 m1 mm1]; [destruct HI'|].
      destruct fo1 as [g|]; [|destruct Wm as [Wm _]; discriminate Wm]. pose proof Wm as Wm0.
      destruct (seqb rest (fo_string g) && snil m1 && snil mm1) eqn:ED.
      * exfalso. rewrite !andb_true_iff in ED. destruct ED as [[ED1 ED2] ED3]. apply seqb_eq in ED1.
        destruct m1; [|discriminate]. destruct mm1; [|discriminate]. apply HO'. intros a b Ha Hb [_ EA].
        apply node_keys in Ha. cbn [fo_str] in Ha. destruct Ha as [->|[(y & _ & [])|[]]]. congruence.
      * destruct (IHm rest (off + length s) Wm0 HI' HO') as (m' & Em & Nm' & Wm' & Mm').
        rewrite Em. cbn [bind]. eexists. split; [reflexivity|]. split; [discriminate|]. apply Fin; auto.
  - apply has_prefix_false in EP.
    assert (In fs (map fst (sentries [] mm))) as HI'.
    { apply node_keys in HI. cbn [fo_str] in HI. fold s in HI. destruct HI as [HI|[(y & E & Hy)|HI]]; auto; exfalso; apply EP.
      - rewrite HI. apply prefix_refl.
      - rewrite E. eexists; reflexivity. }
    assert (~ one_branch_above (map fst (sentries [] mm)) fs) as HO'.
    { intros H. apply HO. eapply branch_beside_back; eauto. }
    assert (forall mm', swf off mm' ->
        (forall x, In x (sentries [] mm') <-> x = (fs, []) \/ (fst x <> fs /\ In x (sentries [] mm))) ->
        swf off (SNode u (Some f) m mm') /\
        forall x, In x (sentries [] (SNode u (Some f) m mm')) <->
          x = (fs, []) \/ (fst x <> fs /\ In x (sentries [] (SNode u (Some f) m mm)))) as Fin.
    { intros mm' W' M'. split.
      - apply Mk; auto. intros x Hx. apply M' in Hx. destruct Hx as [->|[_ Hx]]; auto. cbn [fst].
        apply in_map_iff in HI'. destruct HI' as (y & <- & Hy). auto.
      - intros x. rewrite !En. cbn [In]. rewrite !in_app_iff. rewrite M'. split.
        + intros [<-|[H|[H|[H1 H2]]]]; auto.
          * right. split; [|auto]. cbn. intros <-. apply EP, prefix_refl.
          * right. split; [|auto]. apply sentries_In_pre in H. destruct H as (y & _ & ->). cbn [fst]. intros <-.
            apply EP. eexists; reflexivity.
        + intros [H|[H1 [<-|[H|H]]]]; auto 7. }
    destruct mm as [|u1 fo1 m1 mm1]; [destruct HI'|].
    destruct fo1 as [g|]; [|destruct Wmm as [Wmm _]; discriminate Wmm]. pose proof Wmm as Wmm0.
    destruct (seqb fs (fo_string g) && snil m1 && snil mm1) eqn:ED.
    + exfalso. rewrite !andb_true_iff in ED. destruct ED as [[ED1 ED2] ED3]. apply seqb_eq in ED1.
      destruct m1; [|discriminate]. destruct mm1; [|discriminate]. apply HO'. intros a b Ha Hb [_ EA].
      apply node_keys in Ha. cbn [fo_str] in Ha. destruct Ha as [->|[(y & _ & [])|[]]]. congruence.
    + destruct (IHmm fs off Wmm0 HI' HO') as (m' & Em & Nm' & Wm' & Mm').
      rewrite Em. cbn [bind]. eexists. split; [reflexivity|]. split; [discriminate|]. apply Fin; auto.
Qed.
Lemma sinv_forked m t k : sinv m t -> In k (map fst m) -> ~ one_branch_above (map fst m) k ->
  exists t', sdelete t k = Ok t' /\ sinv (mset k [] m) t'.
Proof.
  intros I HI HO. pose proof I as [I1 I2 I3 I4].
  destruct (sdelete_forked t k 0 I2) as (t' & E & N & W & M).
  { apply (sinv_keys m t k I). auto. }
  { intros H. apply HO. intros a b Ha Hb EA EB. rewrite <- !(sinv_keys m t _ I) in *.
    destruct (H a b) as (g & G1 & G2); auto. exists g. rewrite <- (sinv_keys m t _ I). auto. }
  exists t'. split; auto. split; auto; [apply wf_mset; auto|].
  intros [k' u']. rewrite M, mset_pairs, I4 by auto. cbn [fst]. split; intros [H|H]; auto; left; [injection H as -> ->; auto|].
  destruct H as [-> ->]; auto.
Qed.
Lemma sdelete_only t k off : swf off t -> t <> SNil -> (forall x, In x (sentries [] t) -> fst x = k) -> sdelete t k = Ok t.
Proof.
  destruct t as [|u fo m mm]; intros W HN H; [congruence|]. cbn [swf] in W. destruct W as (Hf & HBs & Wm & Wmm & Nm & Cm).
  destruct fo as [f|]; [|discriminate]. cbn [fo_str] in *.
  assert (fo_string f = k) as Hk by (apply (H (fo_string f, u)); left; reflexivity).
  destruct m as [|u1 fo1 m1 mm1].
  - destruct mm as [|u1 fo1 m1 mm1].
    + cbn [sdelete]. rewrite Hk, has_prefix_refl, seqb_refl. reflexivity.
    + exfalso. apply (Cm (fo_str fo1, u1)); [left; reflexivity|]. cbn [fst].
      assert (fo_str fo1 = k) as ->; [|rewrite Hk; apply comparable_refl].
      apply (H (fo_str fo1, u1)). cbn [sentries app]. right. left. reflexivity.
  - exfalso. apply (Nm (fo_str fo1, u1)); [left; reflexivity|]. cbn [fst].
    assert (fo_string f ++ fo_str fo1 = k) as E.
    { apply (H (fo_string f ++ fo_str fo1, u1)). cbn [sentries app fo_str]. right. left. reflexivity. }
    rewrite Hk in E. rewrite <- (app_nil_r k) in E at 2. apply app_inv_head in E. auto.
Qed.

(** ** A prefix added below its extensions *)
(** [id] has a key of [t] that strictly extends [fs]. *)
Definition blocked (id : list N) (pre fs : gostring) (t : stree) : bool :=
  existsb (fun x => ext_b (fst x) fs && has_prefix (idstr id) (pre ++ fst x)) (sentries [] t).
Lemma blocked_spec id pre fs t : blocked id pre fs t = true <->
  exists k, In k (map fst (sentries [] t)) /\ strictly_extends k fs /\ prefix_of (pre ++ k) (idstr id).
Proof.
  unfold blocked. rewrite existsb_exists. split.
  - intros (x & Hx & H). apply andb_true_iff in H. rewrite ext_b_spec, has_prefix_spec in H. exists (fst x).
    split; [apply in_map; auto|auto].
  - intros (k & Hk & H1 & H2). apply in_map_iff in Hk. destruct Hk as (x & <- & Hx). exists x. split; auto.
    apply andb_true_iff. rewrite ext_b_spec, has_prefix_spec. auto.
Qed.
Lemma eq_bool_iff (a b : bool) : (a = true <-> b = true) -> a = b.
Proof. destruct a, b; intuition congruence. Qed.
Definition placed (id : list N) (pre fs uri : gostring) (t : stree) : list gostring :=
  if has_prefix (idstr id) (pre ++ fs) && negb (blocked id pre fs t) then [uri] else [].
Lemma leaf_search id pre fs uri hp : wf_bytes id -> is_bitstring pre -> is_bitstring fs -> prefix_of pre (idstr id) ->
  (fs <> [] \/ pre = []) -> ~ runs_out id (pre ++ fs) ->
  exists a b, ssearch (sleaf fs (length pre) uri) hp id = Ok (placed id pre fs uri SNil, a, b).
Proof.
  intros Hw H1 H2 H3 H4 H5. unfold sleaf. rewrite ssearch_node, match_at_path by auto. cbn [bind msearch].
  unfold placed. cbn [blocked sentries existsb negb]. rewrite andb_true_r.
  destruct (has_prefix (idstr id) (pre ++ fs)), hp; eauto.
Qed.

Lemma sadd_total t : forall fs uri off, swf off t -> t <> SNil -> exists t', sadd t fs uri = Ok t' /\ t' <> SNil.
Proof.
  induction t as [|u fo m IHm mm IHmm]; intros fs uri off W HN; [congruence|]. cbn [swf] in W.
  destruct W as (Hf & _ & Wm & Wmm & _). destruct fo as [f|]; [|discriminate]. cbn [sadd].
  destruct (has_prefix fs (fo_string f)).
  - destruct (seqb fs (fo_string f)); [eexists; split; [reflexivity|discriminate]|].
    destruct m as [|u1 fo1 m1 mm1]; [eexists; split; [reflexivity|discriminate]|].
    destruct (IHm (skipn (fo_size f) fs) uri _ Wm) as (t' & -> & _); [discriminate|]. cbn [bind].
    eexists; split; [reflexivity|discriminate].
  - destruct mm as [|u1 fo1 m1 mm1]; [eexists; split; [reflexivity|discriminate]|].
    destruct (IHmm fs uri _ Wmm) as (t' & -> & _); [discriminate|]. cbn [bind].
    eexists; split; [reflexivity|discriminate].
Qed.

Lemma sadd_search id uri : wf_bytes id -> forall t pre fs, searchable id pre t -> t <> SNil -> is_bitstring fs ->
  ~ In fs (map fst (sentries [] t)) -> (fs <> [] \/ pre = []) -> ~ runs_out id (pre ++ fs) ->
  exists t', sadd t fs uri = Ok t' /\ forall hp,
  exists a b, ssearch t' hp id = Ok (map snd (hits id pre t) ++ placed id pre fs uri t, a, b).
Proof.
  intros Hw. induction t as [|u fo m IHm mm IHmm]; intros pre fs HS HN HB HX HE HR; [congruence|].
  destruct (searchable_match _ _ _ _ _ _ Hw HS) as (f & Ef & HM).
  pose proof HS as (S1 & S2 & S3 & S4 & S5). pose proof S2 as S2'. cbn [swf] in S2'.
  destruct S2' as (Hf & HBs & Wm & Wmm & Nm & Cm). subst fo. cbn [fo_str] in *. set (s := fo_string f) in *.
  assert (f = new_filter s (length pre)) as Hf' by congruence.
  cbn [sadd]. fold s.
  assert (fo_size f = length s) as -> by (rewrite Hf'; apply new_filter_size).
  assert (fo_offset f = length pre) as -> by (rewrite Hf'; apply new_filter_offset).
  assert (sentries [] (SNode u (Some f) m mm) = (s, u) :: sentries s m ++ sentries [] mm) as En by reflexivity.
  (* the hits of the other branch *)
  assert (has_prefix (idstr id) (pre ++ s) = true -> exists a b, msearch m id = Ok (map snd (hits id (pre ++ s) m), a, b)) as HMm.
  { intros EP. destruct m as [|u1 fo1 m1 mm1]; [exists SNil, []; reflexivity|].
    destruct (search_shrinks id Hw _ _ (searchable_m _ _ _ _ _ _ HS EP) ltac:(discriminate) false) as (a & b & E & _). eauto. }
  assert (mm <> SNil -> exists a b, ssearch mm true id = Ok (map snd (hits id pre mm), a, b)) as HMmm.
  { intros Hn. destruct (search_shrinks id Hw _ _ (searchable_mm _ _ _ _ _ _ HS) Hn true) as (a & b & E & _). eauto. }
  destruct (has_prefix fs s) eqn:EPs.
  - apply has_prefix_spec in EPs. destruct EPs as [rest ->]. rewrite skipn_app_l.
    destruct (seqb_spec (s ++ rest) s) as [Heq|Hne].
    { exfalso. apply HX. rewrite Heq. left. reflexivity. }
    assert (rest <> []) as Hr by (intros ->; rewrite app_nil_r in Hne; congruence).
    apply is_bitstring_app in HB. destruct HB as [_ HB].
    assert (~ In rest (map fst (sentries [] m))) as HX'.
    { intros H. apply HX. apply node_keys. cbn [fo_str]. fold s. eauto. }
    assert (has_prefix (idstr id) (pre ++ s) = true -> placed id pre (s ++ rest) uri (SNode u (Some f) m mm) = placed id (pre ++ s) rest uri m) as HPl.
    { intros EP. unfold placed. rewrite app_assoc.
      replace (blocked id pre (s ++ rest) (SNode u (Some f) m mm)) with (blocked id (pre ++ s) rest m); auto. symmetry.
      apply eq_bool_iff. rewrite !blocked_spec. split.
      - intros (k & Hk & X & P). apply node_keys in Hk. cbn [fo_str] in Hk. fold s in Hk. destruct Hk as [->|[(y & -> & Hy)|Hk]].
        + exfalso. destruct X as [[w X] _]. rewrite <- app_assoc in X. rewrite <- (app_nil_r s) in X at 1.
          apply app_inv_head in X. destruct rest; [auto|discriminate].
        + exists y. split; auto. split; [exact (proj1 (ext_app s y rest) X)|rewrite <- app_assoc; auto].
        + exfalso. apply in_map_iff in Hk. destruct Hk as (x & <- & Hx). apply (Cm x Hx). left.
          destruct X as [X _]. eapply prefix_trans; [|exact X]. eexists; reflexivity.
      - intros (y & Hy & X & P). exists (s ++ y). split; [apply node_keys; cbn [fo_str]; fold s; eauto|].
        split; [apply ext_app; auto|rewrite app_assoc; auto]. }
    assert (has_prefix (idstr id) (pre ++ s) = false -> placed id pre (s ++ rest) uri (SNode u (Some f) m mm) = []) as HPl0.
    { intros EP. unfold placed. replace (has_prefix (idstr id) (pre ++ s ++ rest)) with false; auto. symmetry.
      apply has_prefix_false. apply has_prefix_false in EP. intros H. apply EP. eapply prefix_trans; [|exact H].
      exists rest. rewrite app_assoc. reflexivity. }
    assert (exists m', (match m with SNil => Ok (SNode u (Some f) (sleaf rest (length pre + length s) uri) mm)
       | _ => let! mtch' := sadd m rest uri in Ok (SNode u (Some f) mtch' mm) end) = Ok (SNode u (Some f) m' mm) /\
       (has_prefix (idstr id) (pre ++ s) = true -> exists a b, msearch m' id = Ok (map snd (hits id (pre ++ s) m) ++ placed id (pre ++ s) rest uri m, a, b)))
       as (m' & -> & Em).
    { destruct m as [|u1 fo1 m1 mm1].
      - eexists. split; [reflexivity|]. intros EP.
        destruct (leaf_search id (pre ++ s) rest uri false) as (a & b & E); auto.
        + apply is_bitstring_app; auto.
        + apply has_prefix_spec; auto.
        + rewrite <- app_assoc. auto.
        + rewrite app_length in E. unfold msearch. cbn [hits sentries filter map app]. unfold sleaf in *. rewrite E. eauto.
      - destruct (has_prefix (idstr id) (pre ++ s)) eqn:EP.
        + destruct (IHm (pre ++ s) rest) as (m' & E & Hs); auto; [exact (searchable_m _ _ _ _ _ _ HS EP)|discriminate|rewrite <- app_assoc; auto|].
          rewrite E. cbn [bind]. exists m'. split; auto. intros _. destruct (Hs false) as (a & b & Hs').
          destruct m'; [discriminate Hs'|]. unfold msearch. rewrite Hs'. eauto.
        + destruct (sadd_total (SNode u1 fo1 m1 mm1) rest uri _ Wm) as (m' & -> & _); [discriminate|].
          cbn [bind]. exists m'. split; [auto|discriminate]. }
    eexists. split; [reflexivity|]. intros hp. rewrite ssearch_node, HM. cbn [bind].
    destruct (has_prefix (idstr id) (pre ++ s)) eqn:EP.
    + destruct (hits_yes id pre u (Some f) m mm _ S2 EP) as [-> _]. cbn [fo_str map snd]. fold s.
      rewrite (HPl eq_refl). destruct (Em eq_refl) as (a & b & ->). cbn [bind]. destruct hp; eauto.
    + rewrite (hits_no id pre u (Some f) m mm) by auto. rewrite (HPl0 eq_refl), app_nil_r.
      destruct mm as [|u1 fo1 m1 mm1]; [cbn; eauto|].
      destruct HMmm as (a & b & ->); [discriminate|]. cbn [bind]. eauto.
  - apply has_prefix_false in EPs.
    assert (has_prefix (idstr id) (pre ++ s) = true -> placed id pre fs uri (SNode u (Some f) m mm) = []) as HPl0.
    { intros EP. unfold placed. destruct (has_prefix (idstr id) (pre ++ fs)) eqn:EF; auto.
      assert (blocked id pre fs (SNode u (Some f) m mm) = true) as ->; auto. apply blocked_spec. exists s.
      split; [apply node_keys; auto|]. apply has_prefix_spec in EF, EP. split; auto. split; [|intros E; apply EPs; rewrite E; apply prefix_refl].
      destruct (comparable_prefixes _ _ _ EF EP) as [H|H]; apply prefix_app_inv1 in H; auto. exfalso; auto. }
    assert (has_prefix (idstr id) (pre ++ s) = false -> placed id pre fs uri (SNode u (Some f) m mm) = placed id pre fs uri mm) as HPl.
    { intros EP. unfold placed.
      replace (blocked id pre fs (SNode u (Some f) m mm)) with (blocked id pre fs mm); auto. symmetry.
      apply eq_bool_iff. rewrite !blocked_spec. apply has_prefix_false in EP. split.
      - intros (k & Hk & X & P). apply node_keys in Hk. cbn [fo_str] in Hk. fold s in Hk. destruct Hk as [->|[(y & -> & Hy)|Hk]]; eauto.
        + exfalso; auto.
        + exfalso. apply EP. eapply prefix_trans; [|exact P]. exists y. rewrite app_assoc. reflexivity.
      - intros (k & Hk & X). exists k. split; auto. apply node_keys. auto. }
    assert (~ In fs (map fst (sentries [] mm))) as HX'.
    { intros H. apply HX. apply node_keys. auto. }
    assert (exists mm', (match mm with SNil => Ok (SNode u (Some f) m (sleaf fs (length pre) uri))
       | _ => let! mism' := sadd mm fs uri in Ok (SNode u (Some f) m mism') end) = Ok (SNode u (Some f) m mm') /\ mm' <> SNil /\
       exists a b, ssearch mm' true id = Ok (map snd (hits id pre mm) ++ placed id pre fs uri mm, a, b))
       as (mm' & -> & Nmm' & a & b & Emm).
    { destruct mm as [|u1 fo1 m1 mm1].
      - eexists. split; [reflexivity|]. split; [discriminate|]. cbn [hits sentries filter map app].
        apply leaf_search; auto.
      - destruct (IHmm pre fs) as (mm' & E & Hs); auto; [eapply searchable_mm; eauto|discriminate|].
        rewrite E. cbn [bind]. exists mm'. split; auto. split; [|apply Hs].
        intros ->. destruct (Hs true) as (a & b & H). discriminate. }
    eexists. split; [reflexivity|]. intros hp. rewrite ssearch_node, HM. cbn [bind].
    destruct (has_prefix (idstr id) (pre ++ s)) eqn:EP.
    + destruct (hits_yes id pre u (Some f) m mm _ S2 EP) as [-> _]. cbn [fo_str map snd]. fold s.
      rewrite (HPl0 eq_refl), app_nil_r. destruct (HMm eq_refl) as (a' & b' & ->). cbn [bind]. destruct hp; eauto.
    + rewrite (hits_no id pre u (Some f) m mm) by auto. rewrite (HPl eq_refl).
      destruct mm' as [|u1 fo1 m1 mm1]; [congruence|]. rewrite Emm. cbn [bind]. eauto.
Qed.

(** The subscriptions a tag is told about after [k] was added: those with [k],
    unless the tag has a subscribed prefix that strictly extends [k]. *)
Lemma misplaced_subscribe m t k u : sinv m t -> is_bitstring k -> ~ In k (map fst m) ->
  exists t', sadd t k u = Ok t' /\ forall pc id, wf_bytes id -> decides id (k :: map fst m) ->
  exists uris, answers (translate pc id) uris (drop_tree (splay_search t' pc id)) /\
    ((exists e, In e (map fst m) /\ strictly_extends e k /\ id_has_prefix id e) -> reported id m uris) /\
    (~ (exists e, In e (map fst m) /\ strictly_extends e k /\ id_has_prefix id e) -> reported id (mset k u m) uris).
Proof.
  intros I HB HX. pose proof I as [I1 I2 I3 I4].
  destruct (sadd_total t k u 0 I2 I1) as (t' & E & _). exists t'. split; auto. intros pc id Hw HD.
  assert (searchable id [] t) as HS.
  { split; [constructor|]. split; auto. split; [apply prefix_nil|]. split; auto.
    intros x Hx. apply HD. right. cbn [app]. apply in_map. apply I4; auto. }
  destruct (sadd_search id u Hw t [] k HS I1 HB) as (t2 & E2 & H2); auto.
  { rewrite (sinv_keys m t k I). auto. } { apply HD. left; auto. }
  rewrite E in E2. injection E2 as <-. destruct (H2 false) as (a & b & H3). clear H2.
  exists (map snd (hits id [] t) ++ placed id [] k u t).
  assert (hits id [] t = filter (hit id) m) as HC by (apply (hits_content id t 0 m); auto).
  assert (forall e, In e (map fst m) -> is_bitstring e) as HBm.
  { intros e He. apply (sinv_keys m t e I) in He. apply in_map_iff in He. destruct He as (x & <- & Hx). eapply sentries_bits; eauto. }
  assert (blocked id [] k t = true <-> exists e, In e (map fst m) /\ strictly_extends e k /\ id_has_prefix id e) as HBl.
  { rewrite blocked_spec. cbn [app]. split; intros (e & H1 & H2 & H4); exists e.
    - apply (sinv_keys m t e I) in H1. split; auto. split; auto. apply id_has_prefix_str; auto.
    - split; [apply (sinv_keys m t e I); auto|]. split; auto. apply id_has_prefix_str; auto. }
  split; [|split].
  - unfold splay_search, splay_step. rewrite H3. cbn [bind].
    pose proof (finish_search_answers pc id (map snd (hits id [] t) ++ placed id [] k u t)) as HA. revert HA.
    destruct (finish_search pc id _); cbn; auto.
  - intros H. apply HBl in H. unfold placed. rewrite H, andb_false_r, app_nil_r, HC. apply reported_hits.
    apply Forall_forall. auto.
  - intros H. assert (blocked id [] k t = false) as Hb.
    { destruct (blocked id [] k t); auto. exfalso. apply H, HBl. auto. }
    unfold placed. rewrite Hb. cbn [negb app]. rewrite andb_true_r, HC.
    assert (map snd (filter (hit id) m) ++ (if has_prefix (idstr id) k then [u] else [])
      = map snd (filter (hit id) (mset k u m))) as ->.
    2: { apply reported_hits. apply Forall_forall. intros k' Hk'. apply in_map_iff in Hk'.
         destruct Hk' as ((k1 & u1) & <- & Hx). apply mset_pairs in Hx; auto. cbn [fst]. destruct Hx as [[-> _]|[_ Hx]]; auto.
         apply HBm. apply in_map with (f := fst) in Hx. auto. }
    assert (filter (hit id) (mset k u m) = filter (hit id) m ++ (if has_prefix (idstr id) k then [(k, u)] else [])) as ->.
    2: { rewrite map_app. destruct (has_prefix (idstr id) k); reflexivity. }
    apply sorted_pairs_ext.
    + apply ssorted_filter_fst. apply wf_mset; auto.
    + rewrite map_app. destruct (has_prefix (idstr id) k) eqn:EK; [|cbn; rewrite app_nil_r; apply ssorted_filter_fst; auto].
      apply has_prefix_spec in EK.
      assert (forall k', In k' (map fst (filter (hit id) m)) -> sltb k' k = true) as HL.
      { intros k' Hk'. apply in_map_iff in Hk'. destruct Hk' as (x & <- & Hx). apply filter_In in Hx. destruct Hx as [Hx Hh].
        unfold hit in Hh. apply has_prefix_spec in Hh.
        assert (fst x <> k) as Hne by (intros En; apply HX; rewrite <- En; apply in_map; auto).
        destruct (comparable_prefixes _ _ _ Hh EK) as [[w P]|P].
        - rewrite P. destruct w as [|c w]; [rewrite app_nil_r in P; congruence|]. apply prefix_slt with c. exists w.
          rewrite <- app_assoc. reflexivity.
        - exfalso. apply H. exists (fst x). split; [apply in_map; auto|]. split; [split; auto|].
          apply id_has_prefix_str; auto. apply HBm. apply in_map; auto. }
      pose proof (ssorted_filter_fst (hit id) m I3) as HSo. revert HSo HL.
      generalize (map fst (filter (hit id) m)) as l. induction l as [|c l IH]; intros HSo HL; cbn [app map fst].
      * constructor; constructor.
      * inversion HSo; subst. constructor; [apply IH; auto; intros; apply HL; right; auto|].
        apply Forall_app. split; auto. constructor; [apply HL; left; auto|constructor].
    + intros [k' u']. rewrite filter_In, in_app_iff, filter_In, mset_pairs by auto. unfold hit. cbn [fst].
      destruct (has_prefix (idstr id) k) eqn:EK; cbn [In].
      * split.
        -- intros [[[-> ->]|[N H0]] H1]; auto.
        -- intros [[H0 H1]|[H0|[]]]; [|injection H0 as <- <-; auto]. split; auto. right. split; auto.
           intros ->. apply HX. apply in_map with (f := fst) in H0. auto.
      * split.
        -- intros [[[-> ->]|[N H0]] H1]; [congruence|auto].
        -- intros [[H0 H1]|[]]. split; auto. right. split; auto.
           intros ->. apply HX. apply in_map with (f := fst) in H0. auto.
Qed.

(** ** After calm histories *)
Lemma calm_tree E sub0 cs : let b := to_byte_subs E sub0 in
  b <> [] -> Forall is_bitstring (mkeys b) -> calm (entries b) (events_of E cs) ->
  exists t, splay_run E sub0 cs = Ok t /\ sinv (after (entries b) (events_of E cs)) t.
Proof.
  intros b Hn HB HC. destruct (new_splay_b_spec b (to_byte_subs_flat E sub0) Hn HB) as (t0 & E0 & I0).
  destruct (sinv_history _ _ _ I0 HC) as (t & Et & It). exists t. split; auto.
  unfold splay_run, new_splay. fold b. rewrite E0, fold_splay_call by discriminate. auto.
Qed.
Lemma fork_not_narrow m t k a b : sinv m t -> In k (map fst m) -> In a (map fst m) -> In b (map fst m) ->
  strictly_extends a k -> strictly_extends b k -> ~ comparable a b -> ~ snarrow t.
Proof.
  intros I Hk Ha Hb XA XB HC HN. apply HC. apply (sinv_keys m t _ I) in Hk, Ha, Hb.
  exact (snarrow_chain t 0 (si_wf _ _ I) HN k Hk a b Ha Hb XA XB).
Qed.
Lemma splay_fork E sub0 cs k x y : let b := to_byte_subs E sub0 in
  b <> [] -> Forall is_bitstring (mkeys b) -> calm (entries b) (events_of E cs) ->
  let m := after (entries b) (events_of E cs) in
  In k (map fst m) -> In x (map fst m) -> In y (map fst m) ->
  strictly_extends x k -> strictly_extends y k -> ~ comparable x y ->
  exists t id t1, splay_run E sub0 cs = Ok t /\ wf_bytes id /\ decides id (map fst m) /\
    splay_run E sub0 (cs ++ [SSearch id]) = Ok t1 /\ forall pc,
    exists uris uris', reported id m uris /\
      answers (translate pc id) uris (drop_tree (splay_search t pc id)) /\
      answers (translate pc id) uris' (drop_tree (splay_search t1 pc id)) /\ length uris' < length uris.
Proof.
  intros b Hn HB HC m Hk Hx Hy XA XB NC. destruct (calm_tree E sub0 cs Hn HB HC) as (t & Et & It). fold b in It. fold m in It.
  destruct (fork_forgets m t It) as (id & Hw & _ & HD & H). { exact (fork_not_narrow m t k x y It Hk Hx Hy XA XB NC). }
  destruct (H []) as (t1 & uris & uris' & ES & _). exists t, id, t1. do 3 (split; [auto|]). split.
  { unfold splay_run in *. rewrite fold_left_app, Et. cbn [fold_left splay_call bind]. rewrite ES. reflexivity. }
  intros pc. destruct (H pc) as (t2 & u1 & u2 & ES' & R). rewrite ES in ES'. injection ES' as <- <-. eauto.
Qed.
Lemma answers_fun tr us us' r : answers tr us r -> answers tr us' r -> tr <> Panic -> us = us'.
Proof.
  intros [[E1 ->]|[E1 A]] [[E2 B]|[E2 B]] N; subst; auto; destruct tr; try congruence.
Qed.
Lemma splay_exactly E sub : let b := to_byte_subs E sub in
  b <> [] -> Forall is_bitstring (mkeys b) ->
  (forall k, In k (mkeys b) -> one_chain_above (mkeys b) k) <->
  (forall ids id pc, (forall i, In i (id :: ids) -> wf_bytes i /\ decides i (mkeys b)) ->
     exists t uris, splay_run E sub (map SSearch ids) = Ok t /\ reported id (entries b) uris /\
       answers (translate pc id) uris (drop_tree (splay_search t pc id))).
Proof.
  intros b Hn HB. assert (forall l m, after m (events_of E (map SSearch l)) = m) as HA by (induction l; cbn; auto). split.
  - intros HO ids id pc HI.
    destruct (splay_history E sub (map SSearch ids) pc id Hn HB) as (t & uris & Et & R & A).
    + fold b. assert (forall i, In i ids -> wf_bytes i /\ decides i (mkeys b)) as HI' by (intros; apply HI; right; auto).
      clear - HO HI'. induction ids as [|i ids IH]; [constructor|]. cbn. apply calm_read.
      * apply HI'; left; auto.
      * rewrite entries_keys. apply HI'; left; auto.
      * rewrite entries_keys. auto.
      * apply IH. intros; apply HI'; right; auto.
    + apply HI; left; auto.
    + rewrite HA, entries_keys. apply HI; left; auto.
    + rewrite HA in R. exists t, uris. auto.
  - intros H. destruct (calm_tree E sub [] Hn HB (calm_nil _)) as (t & Et & It). fold b in It. change (after (entries b) (events_of E [])) with (entries b) in It.
    intros k Hk. rewrite <- entries_keys in Hk |- *.
    destruct (snarrow_dec t) as [HS|HS].
    { intros x y Hx Hy. apply (sinv_keys _ t _ It) in Hk, Hx, Hy. exact (snarrow_chain t 0 (si_wf _ _ It) HS k Hk x y Hx Hy). }
    exfalso. destruct (fork_forgets _ t It HS) as (id & Hw & _ & HD & HF).
    destruct (HF []) as (t1 & uris & uris' & ES & R & A1 & A2 & L). rewrite entries_keys in HD.
    destruct (H [id] id []) as (t2 & uris2 & E2 & R2 & A3). { intros i [<-|[<-|[]]]; auto. }
    assert (t2 = t1) as ->.
    { unfold splay_run in *. cbn [map fold_left] in *. rewrite Et in E2. cbn [splay_call bind] in E2. rewrite ES in E2.
      cbn [bind] in E2. congruence. }
    rewrite (reported_fun _ _ _ _ R R2) in L. rewrite (answers_fun _ _ _ _ A2 A3) in L; [lia|discriminate].
Qed.
Lemma splay_misplaced E sub0 cs sub k u : let b := to_byte_subs E sub0 in
  b <> [] -> Forall is_bitstring (mkeys b) -> calm (entries b) (events_of E cs) ->
  let m := after (entries b) (events_of E cs) in
  entries (to_byte_subs E sub) = [(k, u)] -> is_bitstring k -> ~ In k (map fst m) ->
  exists t t', splay_run E sub0 cs = Ok t /\ splay_add E t sub = Ok t' /\
    forall pc id, wf_bytes id -> decides id (k :: map fst m) ->
    exists uris, answers (translate pc id) uris (drop_tree (splay_search t' pc id)) /\
      ((exists e, In e (map fst m) /\ strictly_extends e k /\ id_has_prefix id e) -> reported id m uris) /\
      (~ (exists e, In e (map fst m) /\ strictly_extends e k /\ id_has_prefix id e) ->
         reported id (apply_change m (Subscribe k u)) uris).
Proof.
  intros b Hn HB HC m HE Hk HX. destruct (calm_tree E sub0 cs Hn HB HC) as (t & Et & It). fold b in It. fold m in It.
  destruct (misplaced_subscribe m t k u It Hk HX) as (t' & Ea & HS). exists t, t'. split; auto. split; auto.
  unfold splay_add. unfold entries in HE. destruct (to_byte_subs E sub) as [|[k1 p1] [|? ?]]; try discriminate.
  cbn [map] in HE. injection HE as <- <-. exact Ea.
Qed.
Lemma splay_forked_delete E sub0 cs sub k : let b := to_byte_subs E sub0 in
  b <> [] -> Forall is_bitstring (mkeys b) -> calm (entries b) (events_of E cs) ->
  let m := after (entries b) (events_of E cs) in
  mkeys (to_byte_subs E sub) = [k] -> In k (map fst m) -> ~ one_branch_above (map fst m) k ->
  exists t t', splay_run E sub0 cs = Ok t /\ splay_del E t sub = Ok t' /\
    forall pc id, wf_bytes id -> decides id (map fst m) ->
    exists uris, reported id (apply_change m (Subscribe k [])) uris /\
      answers (translate pc id) uris (drop_tree (splay_search t' pc id)).
Proof.
  intros b Hn HB HC m HE Hk HX. destruct (calm_tree E sub0 cs Hn HB HC) as (t & Et & It). fold b in It. fold m in It.
  destruct (sinv_forked m t k It Hk HX) as (t' & Ea & It'). exists t, t'. split; auto. split.
  { unfold splay_del. destruct (to_byte_subs E sub) as [|[k1 p1] [|? ?]]; try discriminate.
    cbn in HE. injection HE as <-. exact Ea. }
  intros pc id Hw HD. apply sinv_search; auto. intros k' Hk'. apply HD. apply in_map_iff in Hk'. destruct Hk' as ((k1 & u1) & <- & Hx).
  apply mset_pairs in Hx; [|apply It]. cbn [fst]. destruct Hx as [[-> _]|[_ Hx]]; auto. apply in_map with (f := fst) in Hx. auto.
Qed.
Lemma splay_last_delete E sub0 cs sub k u : let b := to_byte_subs E sub0 in
  b <> [] -> Forall is_bitstring (mkeys b) -> calm (entries b) (events_of E cs) ->
  after (entries b) (events_of E cs) = [(k, u)] -> mkeys (to_byte_subs E sub) = [k] ->
  exists t, splay_run E sub0 cs = Ok t /\ splay_del E t sub = Ok t /\
    forall pc id, wf_bytes id -> decides id [k] ->
    exists uris, reported id [(k, u)] uris /\ answers (translate pc id) uris (drop_tree (splay_search t pc id)).
Proof.
  intros b Hn HB HC Hm HE. destruct (calm_tree E sub0 cs Hn HB HC) as (t & Et & It). fold b in It. rewrite Hm in It.
  exists t. split; auto. split; [|intros; apply sinv_search; auto].
  unfold splay_del. destruct (to_byte_subs E sub) as [|[k1 p1] [|? ?]]; try discriminate.
  cbn in HE. injection HE as <-. apply (sdelete_only t k1 0); [apply It|apply It|].
  intros x Hx. apply (si_content _ _ It) in Hx. destruct Hx as [<-|[]]. reflexivity.
Qed.
