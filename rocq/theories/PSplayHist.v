(** Histories of searches and updates on a splay tree. *)
From Verif Require Import GoBase BinUtil MFilter MEngine MTdtCore MSubs MList MSplay.
From Verif Require Import PBase Spec PFilter PEngine PSubs PList PMatch PPatricia PPatriciaHist PExamples PLink PSplay.
From Verif Require Export SpecRun.
From Coq Require Import Lia.

Lemma comparable_sym a b : comparable a b -> comparable b a.
Proof. unfold comparable. tauto. Qed.
Lemma comparable_app a y b : comparable (a ++ y) b -> comparable a b.
Proof.
  intros [H|H].
  - left. eapply prefix_trans; [|exact H]. exists y; auto.
  - apply (prefix_comparable a b (a ++ y)); auto. exists y; auto.
Qed.
Lemma comparable_app2 p a b : comparable (p ++ a) (p ++ b) -> comparable a b.
Proof. intros [H|H]; apply prefix_app_inv1 in H; [left|right]; auto. Qed.
Lemma comparable_refl a : comparable a a.
Proof. left. apply prefix_refl. Qed.

(** ** A search moves one node of the top chain to the root *)
Inductive removes : taken -> stree -> stree -> Prop :=
| rem_here u fo m mm : removes {| tk_uri := u; tk_fo := fo; tk_match := m |} (SNode u fo m mm) mm
| rem_there x u fo m mm mm' : removes x mm mm' -> removes x (SNode u fo m mm) (SNode u fo m mm').

Definition tknode (x : taken) (t : stree) : stree := SNode (tk_uri x) (tk_fo x) (tk_match x) t.

Lemma removes_entries x t t' : removes x t t' -> forall pre y,
  In y (sentries pre (tknode x t')) <-> In y (sentries pre t).
Proof.
  induction 1 as [u fo m mm|x u fo m mm mm' R IH]; intros pre y; [reflexivity|].
  specialize (IH pre y). revert IH. unfold tknode. cbn [sentries]. cbn [In]. rewrite !in_app_iff. cbn [In].
  rewrite !in_app_iff. tauto.
Qed.
Lemma removes_wf x t t' : removes x t t' -> forall off, swf off t -> swf off (tknode x t').
Proof.
  induction 1 as [u fo m mm|x u fo m mm mm' R IH]; intros off W; [exact W|].
  cbn [swf] in W. destruct W as (Hf & HB & Wm & Wmm & Nm & Cm).
  pose proof (IH off Wmm) as W'. unfold tknode in *. cbn [swf] in W'. destruct W' as (Hf' & HB' & Wm' & Wmm' & Nm' & Cm').
  assert (forall y, In y (sentries [] mm') -> In y (sentries [] mm)) as Hsub.
  { intros y Hy. apply (removes_entries _ _ _ R). unfold tknode. cbn [sentries]. right. apply in_or_app; auto. }
  assert (In (fo_str (tk_fo x), tk_uri x) (sentries [] mm)) as Hx.
  { apply (removes_entries _ _ _ R). unfold tknode. cbn [sentries]. left. reflexivity. }
  assert (swf off (SNode u fo m mm')) as W2.
  { cbn [swf]. do 5 (split; [auto|]). intros y Hy. apply Cm. apply Hsub; auto. }
  cbn [swf] in *. do 3 (split; [auto|]). split; [auto|]. split; [auto|].
  intros y Hy. cbn [sentries app] in Hy. apply Cm in Hx. cbn [fst] in Hx.
  destruct Hy as [<-|Hy]; [cbn [fst]; intros H; apply Hx, comparable_sym; auto|].
  apply in_app_or in Hy. destruct Hy as [Hy|Hy]; [|apply Cm'; auto].
  apply sentries_In_pre in Hy. destruct Hy as (z & _ & ->). cbn [fst]. intros H. apply Hx.
  apply comparable_sym in H. apply comparable_app in H. auto.
Qed.

Fixpoint single (t : stree) : Prop :=
  match t with SNil => True | SNode _ _ m mm => mm = SNil /\ single m end.
Fixpoint snarrow (t : stree) : Prop :=
  match t with SNil => True | SNode _ _ m mm => single m /\ snarrow mm end.

Lemma sentries_root_in t : t <> SNil -> exists x, In x (sentries [] t).
Proof. destruct t as [|u fo m mm]; [congruence|]. intros _. eexists. left. reflexivity. Qed.
Lemma single_of off t : swf off t -> (forall a b, In a (sentries [] t) -> In b (sentries [] t) -> comparable (fst a) (fst b)) ->
  single t.
Proof.
  revert off; induction t as [|u fo m IHm mm IHmm]; intros off W H; [exact I|].
  cbn [swf] in W. destruct W as (Hf & HB & Wm & Wmm & Nm & Cm). split.
  - destruct mm as [|u1 fo1 m1 mm1]; auto. exfalso.
    destruct (sentries_root_in (SNode u1 fo1 m1 mm1)) as [y Hy]; [discriminate|].
    apply (Cm y Hy). apply (H (fo_str fo, u) y); cbn [sentries app]; [left; auto|right; apply in_or_app; auto].
  - eapply IHm; eauto. intros a b Ha Hb. apply comparable_app2 with (fo_str fo).
    apply (H (fo_str fo ++ fst a, snd a) (fo_str fo ++ fst b, snd b)); cbn [sentries app]; right; apply in_or_app; left;
      apply sentries_In_pre; eauto.
Qed.
Lemma snarrow_of t : swf 0 t ->
  (forall k, In k (map fst (sentries [] t)) -> one_chain_above (map fst (sentries [] t)) k) -> snarrow t.
Proof.
  generalize 0 as off. induction t as [|u fo m IHm mm IHmm]; intros off W H; [exact I|].
  cbn [swf] in W. destruct W as (Hf & HB & Wm & Wmm & Nm & Cm). split.
  - eapply single_of; eauto. intros a b Ha Hb. apply comparable_app2 with (fo_str fo).
    assert (forall x, In x (sentries [] m) -> In (fo_str fo ++ fst x) (map fst (sentries [] (SNode u fo m mm)))) as Hin.
    { intros x Hx. cbn [sentries app map]. right. rewrite map_app. apply in_or_app. left.
      change (fo_str fo ++ fst x) with (fst (fo_str fo ++ fst x, snd x)). apply in_map. apply sentries_In_pre; eauto. }
    assert (forall x, In x (sentries [] m) -> strictly_extends (fo_str fo ++ fst x) (fo_str fo)) as Hext.
    { intros x Hx. split; [eexists; reflexivity|]. intros E. rewrite <- (app_nil_r (fo_str fo)) in E at 2.
      apply app_inv_head in E. apply Nm in Hx. auto. }
    apply (H (fo_str fo)); auto. left. reflexivity.
  - eapply IHmm; eauto. intros k Hk a b Ha Hb.
    assert (forall x, In x (map fst (sentries [] mm)) -> In x (map fst (sentries [] (SNode u fo m mm)))) as Hin.
    { intros x Hx. cbn [sentries app map]. right. rewrite map_app. apply in_or_app. auto. }
    apply (H k); auto.
Qed.

Lemma ssearch_single id : forall t uris t' ex, single t -> ssearch t false id = Ok (uris, t', ex) -> t' = t /\ ex = [].
Proof.
  induction t as [|u fo m IHm mm IHmm]; intros uris t' ex HS H; [discriminate|].
  cbn [single] in HS. destruct HS as [-> HS]. cbn [ssearch] in H.
  destruct fo as [f|]; [|discriminate]. destruct (match_filter f id) as [b| |]; try discriminate. cbn [bind] in H.
  destruct b; [|injection H as <- <- <-; auto].
  destruct m as [|u1 fo1 m1 mm1].
  - cbn [bind] in H. injection H as <- <- <-. auto.
  - destruct (ssearch (SNode u1 fo1 m1 mm1) false id) as [[[inner m'] ex']| |] eqn:E; try discriminate.
    cbn [bind] in H. injection H as <- <- <-. destruct (IHm _ _ _ HS eq_refl) as [-> ->]. auto.
Qed.
Lemma ssearch_removes id : forall t hp uris t' ex, snarrow t -> ssearch t hp id = Ok (uris, t', ex) ->
  (t' = t /\ ex = []) \/ exists x, ex = [x] /\ removes x t t'.
Proof.
  induction t as [|u fo m IHm mm IHmm]; intros hp uris t' ex HS H; [discriminate|].
  cbn [snarrow] in HS. destruct HS as [Sm HS]. cbn [ssearch] in H.
  destruct fo as [f|]; [|discriminate]. destruct (match_filter f id) as [b| |]; try discriminate. cbn [bind] in H.
  destruct b.
  - assert (exists inner, match m with SNil => Ok ([], SNil, []) | _ => ssearch m false id end = Ok (inner, m, [])
        \/ match m with SNil => Ok ([], SNil, []) | _ => ssearch m false id end = Err
        \/ match m with SNil => Ok ([], SNil, []) | _ => ssearch m false id end = Panic) as [inner HM].
    { destruct m as [|u1 fo1 m1 mm1]; [exists []; left; auto|].
      destruct (ssearch (SNode u1 fo1 m1 mm1) false id) as [[[inner m'] ex']| |] eqn:E.
      - destruct (ssearch_single id _ _ _ _ Sm E) as [-> ->]. exists inner. left; auto.
      - exists []. right; left; auto.
      - exists []. right; right; auto. }
    destruct HM as [HM|[HM|HM]]; rewrite HM in H; cbn [bind] in H; try discriminate.
    destruct hp; injection H as <- <- <-; [|auto].
    right. eexists. split; [reflexivity|]. constructor.
  - destruct mm as [|u1 fo1 m1 mm1]; [injection H as <- <- <-; auto|].
    destruct (ssearch (SNode u1 fo1 m1 mm1) true id) as [[[inner m'] ex']| |] eqn:E; try discriminate.
    cbn [bind] in H. injection H as <- <- <-.
    destruct (IHmm _ _ _ _ HS E) as [[-> ->]|(x & -> & R)]; [auto|]. right. exists x. split; auto. constructor; auto.
Qed.

(** ** Add *)
Lemma sadd_spec t : forall fs uri off, t <> SNil -> swf off t -> is_bitstring fs ->
  (In fs (map fst (sentries [] t)) \/ forall x, In x (sentries [] t) -> ~ strictly_extends (fst x) fs) ->
  exists t', sadd t fs uri = Ok t' /\ t' <> SNil /\ swf off t' /\
    forall x, In x (sentries [] t') <-> x = (fs, uri) \/ (fst x <> fs /\ In x (sentries [] t)).
Proof.
  induction t as [|u fo m IHm mm IHmm]; intros fs uri off HN W HB HX; [congruence|].
  cbn [swf] in W. destruct W as (Hf & HBs & Wm & Wmm & Nm & Cm).
  destruct fo as [f|]; [|discriminate]. cbn [fo_str] in *. set (s := fo_string f) in *. cbn [sadd]. fold s.
  assert (f = new_filter s off) as Hf' by congruence.
  assert (fo_size f = length s) as -> by (rewrite Hf'; apply new_filter_size).
  assert (fo_offset f = off) as -> by (rewrite Hf'; apply new_filter_offset).
  assert (forall m' mm', swf (off + length s) m' -> swf off mm' ->
            (forall x, In x (sentries [] m') -> fst x <> []) -> (forall x, In x (sentries [] mm') -> ~ comparable s (fst x)) ->
            forall u', swf off (SNode u' (Some f) m' mm')) as Mk.
  { intros m' mm' H1 H2 H3 H4 u'. cbn [swf fo_str]. fold s. do 5 (split; [auto|]). auto. }
  assert (forall u' m' mm', sentries [] (SNode u' (Some f) m' mm') = (s, u') :: sentries s m' ++ sentries [] mm') as En.
  { intros. cbn [sentries fo_str app]. reflexivity. }
  destruct (has_prefix fs s) eqn:EP.
  - apply has_prefix_spec in EP. destruct EP as [rest ->]. rewrite skipn_app_l.
    apply is_bitstring_app in HB. destruct HB as [_ HBr].
    assert (forall x, In x (sentries [] mm) -> fst x <> s ++ rest) as Hmm.
    { intros x Hx E. apply (Cm x Hx). rewrite E. left. exists rest. auto. }
    destruct (seqb_spec (s ++ rest) s) as [Heq|Hne].
    + assert (rest = []) as -> by (rewrite <- (app_nil_r s) in Heq at 2; apply app_inv_head in Heq; auto).
      rewrite app_nil_r in *.
      eexists. split; [reflexivity|]. split; [discriminate|]. split; [apply Mk; auto|].
      intros x. rewrite !En. cbn [In]. rewrite !in_app_iff. split.
      * intros [<-|[H|H]]; auto; right; split; auto.
        apply sentries_In_pre in H. destruct H as (y & Hy & ->). cbn [fst]. intros E.
        rewrite <- (app_nil_r s) in E at 2. apply app_inv_head in E. eapply Nm; eauto.
      * intros [->|[H1 [<-|H]]]; auto. cbn in H1. congruence.
    + assert (rest <> []) as Hr by (intros ->; rewrite app_nil_r in Hne; congruence).
      assert (forall m', swf (off + length s) m' ->
        (forall x, In x (sentries [] m') <-> x = (rest, uri) \/ (fst x <> rest /\ In x (sentries [] m))) ->
        swf off (SNode u (Some f) m' mm) /\
        forall x, In x (sentries [] (SNode u (Some f) m' mm)) <->
          x = (s ++ rest, uri) \/ (fst x <> s ++ rest /\ In x (sentries [] (SNode u (Some f) m mm)))) as Fin.
      { intros m' W' M'. split.
        - apply Mk; auto. intros x Hx. apply M' in Hx. destruct Hx as [->|[_ Hx]]; auto.
        - intros x. rewrite !En. cbn [In]. rewrite !in_app_iff. rewrite !(sentries_In_pre s). split.
          + intros [<-|[(y & Hy & ->)|H]].
            * right. split; [cbn; congruence|auto].
            * apply M' in Hy. destruct Hy as [->|[Hy1 Hy2]]; [left; reflexivity|].
              right. cbn [fst]. split; [intros E; apply app_inv_head in E; auto|]. right. left. eauto.
            * right. split; [apply Hmm; auto|auto].
          + intros [->|[H1 [<-|[(y & Hy & ->)|H]]]]; auto.
            * right. left. exists (rest, uri). split; [apply M'; auto|reflexivity].
            * right. left. exists y. split; auto. apply M'. right. split; auto. intros E. apply H1. cbn. rewrite E. auto. }
      destruct m as [|u1 fo1 m1 mm1].
      * eexists. split; [reflexivity|]. split; [discriminate|]. apply Fin.
        -- unfold sleaf. cbn [swf fo_str]. rewrite new_filter_string. do 4 (split; [cbn; auto|]). cbn. tauto.
        -- intros x. unfold sleaf. cbn [sentries fo_str app In]. rewrite new_filter_string. split; [intros [<-|[]]; auto|].
           intros [->|[_ []]]. auto.
      * destruct (IHm rest uri (off + length s)) as (m' & Em & Nm' & Wm' & Mm'); auto; [discriminate| |].
        { destruct HX as [HX|HX]; [left|right].
          - rewrite En in HX. cbn [map fst In] in HX. destruct HX as [HX|HX]; [congruence|].
            rewrite map_app in HX. apply in_app_or in HX. destruct HX as [HX|HX]; apply in_map_iff in HX;
              destruct HX as (x & Ex & Hx); [|exfalso; eapply Hmm; eauto].
            apply sentries_In_pre in Hx. destruct Hx as (y & Hy & ->). cbn [fst] in Ex. apply app_inv_head in Ex.
            rewrite <- Ex. apply in_map. auto.
          - intros x Hx HE. apply (HX (s ++ fst x, snd x)).
            + rewrite En. right. apply in_or_app. left. apply sentries_In_pre. eauto.
            + cbn [fst]. destruct HE as [[z Hz] HE]. split; [exists z; rewrite Hz, app_assoc; auto|].
              intros E. apply app_inv_head in E. auto. }
        rewrite Em. cbn [bind]. eexists. split; [reflexivity|]. split; [discriminate|]. apply Fin; auto.
  - apply has_prefix_false in EP.
    assert (~ comparable s fs) as Hinc.
    { destruct HX as [HX|HX].
      - rewrite En in HX. cbn [map fst In] in HX. destruct HX as [<-|HX]; [exfalso; apply EP, prefix_refl|].
        rewrite map_app in HX. apply in_app_or in HX. destruct HX as [HX|HX]; apply in_map_iff in HX;
          destruct HX as (x & <- & Hx); [|apply Cm; auto].
        exfalso. apply EP. apply sentries_In_pre in Hx. destruct Hx as (y & _ & ->). eexists; reflexivity.
      - intros [H|H]; [auto|]. apply (HX (s, u)); [rewrite En; left; auto|]. split; auto. cbn [fst].
        intros ->. apply EP. apply prefix_refl. }
    assert (forall mm', swf off mm' ->
        (forall x, In x (sentries [] mm') <-> x = (fs, uri) \/ (fst x <> fs /\ In x (sentries [] mm))) ->
        swf off (SNode u (Some f) m mm') /\
        forall x, In x (sentries [] (SNode u (Some f) m mm')) <->
          x = (fs, uri) \/ (fst x <> fs /\ In x (sentries [] (SNode u (Some f) m mm)))) as Fin.
    { intros mm' W' M'. split.
      - apply Mk; auto. intros x Hx. apply M' in Hx. destruct Hx as [->|[_ Hx]]; auto.
      - intros x. rewrite !En. cbn [In]. rewrite !in_app_iff. rewrite M'. split.
        + intros [<-|[H|[->|[H1 H2]]]]; auto.
          * right. split; [|auto]. cbn. intros ->. apply EP, prefix_refl.
          * right. split; [|auto]. apply sentries_In_pre in H. destruct H as (y & _ & ->). cbn [fst]. intros <-.
            apply EP. eexists; reflexivity.
        + intros [->|[H1 [<-|[H|H]]]]; auto 6. }
    destruct mm as [|u1 fo1 m1 mm1].
    + eexists. split; [reflexivity|]. split; [discriminate|]. apply Fin.
      * unfold sleaf. cbn [swf fo_str]. rewrite new_filter_string. do 4 (split; [cbn; auto|]). cbn. tauto.
      * intros x. unfold sleaf. cbn [sentries fo_str app In]. rewrite new_filter_string. split; [intros [<-|[]]; auto|].
        intros [->|[_ []]]. auto.
    + destruct (IHmm fs uri off) as (m' & Em & Nm' & Wm' & Mm'); auto; [discriminate| |].
      { destruct HX as [HX|HX]; [left|right].
        - rewrite En in HX. cbn [map fst In] in HX. destruct HX as [<-|HX]; [exfalso; apply EP, prefix_refl|].
          rewrite map_app in HX. apply in_app_or in HX. destruct HX as [HX|HX]; auto. apply in_map_iff in HX.
          destruct HX as (x & <- & Hx). exfalso. apply EP. apply sentries_In_pre in Hx. destruct Hx as (y & _ & ->).
          eexists; reflexivity.
        - intros x Hx. apply HX. rewrite En. right. apply in_or_app. auto. }
      rewrite Em. cbn [bind]. eexists. split; [reflexivity|]. split; [discriminate|]. apply Fin; auto.
Qed.

(** ** Delete *)
(** A prefix that is not there. *)
Lemma sdelete_absent t : forall fs off, t <> SNil -> swf off t -> ~ In fs (map fst (sentries [] t)) ->
  sdelete t fs = Ok t.
Proof.
  induction t as [|u fo m IHm mm IHmm]; intros fs off HN W HX; [congruence|].
  cbn [swf] in W. destruct W as (Hf & HBs & Wm & Wmm & Nm & Cm).
  destruct fo as [f|]; [|discriminate]. cbn [fo_str] in *. set (s := fo_string f) in *. cbn [sdelete]. fold s.
  assert (f = new_filter s off) as Hf' by congruence.
  assert (fo_size f = length s) as -> by (rewrite Hf'; apply new_filter_size).
  cbn [sentries fo_str app map fst] in HX. fold s in HX. cbn [In] in HX. rewrite map_app, in_app_iff in HX.
  destruct (has_prefix fs s) eqn:EP.
  - apply has_prefix_spec in EP. destruct EP as [rest ->]. rewrite skipn_app_l.
    destruct (seqb_spec (s ++ rest) s) as [Heq|Hne]; [exfalso; apply HX; auto|].
    destruct m as [|u1 fo1 m1 mm1]; auto. destruct fo1 as [g|]; [|destruct Wm as [Wm _]; discriminate Wm].
    assert (~ In rest (map fst (sentries [] (SNode u1 (Some g) m1 mm1)))) as Hr.
    { intros H. apply HX. right. left. apply in_map_iff in H. destruct H as (x & <- & Hx).
      change (s ++ fst x) with (fst (s ++ fst x, snd x)). apply in_map. apply sentries_In_pre. eauto. }
    destruct (seqb_spec rest (fo_string g)) as [->|]; [exfalso; apply Hr; left; reflexivity|]. cbn [andb].
    rewrite (IHm rest (off + length s)); auto. discriminate.
  - destruct mm as [|u1 fo1 m1 mm1]; auto. destruct fo1 as [g|]; [|destruct Wmm as [Wmm _]; discriminate Wmm].
    destruct (seqb_spec fs (fo_string g)) as [->|]; [exfalso; apply HX; right; right; left; reflexivity|]. cbn [andb].
    rewrite (IHmm fs off); auto. discriminate.
Qed.
Lemma other_entry off u1 fo1 m1 mm1 k : swf off (SNode u1 fo1 m1 mm1) ->
  seqb k (fo_str fo1) && snil m1 && snil mm1 = false ->
  exists x, In x (sentries [] (SNode u1 fo1 m1 mm1)) /\ fst x <> k.
Proof.
  intros W H. cbn [swf] in W. destruct W as (_ & _ & _ & _ & Nm & Cm). cbn [sentries app].
  destruct (seqb_spec k (fo_str fo1)) as [->|Hne].
  - destruct m1 as [|u2 fo2 m2 mm2].
    + destruct mm1 as [|u2 fo2 m2 mm2]; [discriminate|].
      destruct (sentries_root_in (SNode u2 fo2 m2 mm2)) as [y Hy]; [discriminate|].
      exists y. split; [right; apply in_or_app; auto|]. intros E. apply (Cm y Hy). rewrite E. apply comparable_refl.
    + destruct (sentries_root_in (SNode u2 fo2 m2 mm2)) as [y Hy]; [discriminate|].
      exists (fo_str fo1 ++ fst y, snd y). split; [right; apply in_or_app; left; apply sentries_In_pre; eauto|].
      cbn [fst]. intros E. rewrite <- (app_nil_r (fo_str fo1)) in E at 2. apply app_inv_head in E. eapply Nm; eauto.
  - exists (fo_str fo1, u1). split; [left; auto|]. cbn. auto.
Qed.

(** The keys of a node with filter [s]: [s], those below it and those beside it. *)
Lemma node_keys u fo m mm a : In a (map fst (sentries [] (SNode u fo m mm))) <->
  a = fo_str fo \/ (exists y, a = fo_str fo ++ y /\ In y (map fst (sentries [] m))) \/ In a (map fst (sentries [] mm)).
Proof.
  cbn [sentries app map fst In]. rewrite map_app, in_app_iff. split.
  - intros [H|[H|H]]; auto. right. left. apply in_map_iff in H. destruct H as (x & <- & Hx). apply sentries_In_pre in Hx.
    destruct Hx as (y & Hy & ->). exists (fst y). split; [reflexivity|apply in_map; auto].
  - intros [H|[(y & -> & H)|H]]; auto. right. left. apply in_map_iff in H. destruct H as (x & <- & Hx).
    change (fo_str fo ++ fst x) with (fst (fo_str fo ++ fst x, snd x)). apply in_map. apply sentries_In_pre. eauto.
Qed.
Lemma ext_app s a b : strictly_extends (s ++ a) (s ++ b) <-> strictly_extends a b.
Proof.
  unfold strictly_extends. split; intros [[w H] N]; (split; [exists w|]).
  2: { intros ->. auto. }
  3: { intros E. apply app_inv_head in E. auto. }
  - rewrite <- app_assoc in H. apply app_inv_head in H. auto.
  - rewrite H, app_assoc. auto.
Qed.
Lemma branch_below u fo m mm off rest : swf off (SNode u fo m mm) ->
  one_branch_above (map fst (sentries [] (SNode u fo m mm))) (fo_str fo ++ rest) <->
  one_branch_above (map fst (sentries [] m)) rest.
Proof.
  intros W. cbn [swf] in W. destruct W as (_ & _ & _ & _ & Nm & Cm). set (s := fo_str fo) in *.
  assert (forall a, In a (map fst (sentries [] (SNode u fo m mm))) -> strictly_extends a (s ++ rest) ->
    exists y, a = s ++ y /\ In y (map fst (sentries [] m)) /\ strictly_extends y rest) as Down.
  { intros a Ha X. apply node_keys in Ha. fold s in Ha. destruct Ha as [->|[(y & -> & Hy)|Ha]].
    - exfalso. destruct X as [[w H] N]. rewrite <- app_assoc in H. rewrite <- (app_nil_r s) in H at 1.
      apply app_inv_head in H. destruct rest; [apply N; rewrite app_nil_r; auto|discriminate].
    - pose proof (proj1 (ext_app s y rest) X). eauto.
    - exfalso. apply in_map_iff in Ha. destruct Ha as (x & <- & Hx). apply (Cm x Hx). left.
      destruct X as [X _]. eapply prefix_trans; [|exact X]. eexists; reflexivity. }
  assert (forall y, In y (map fst (sentries [] m)) -> In (s ++ y) (map fst (sentries [] (SNode u fo m mm)))) as Up.
  { intros y Hy. apply node_keys. fold s. eauto. }
  split; intros H a b Ha Hb EA EB.
  - destruct (H (s ++ a) (s ++ b)) as (g & G1 & G2 & G3 & G4); auto; try (apply ext_app; auto).
    destruct (Down g G1 G2) as (y & -> & Hy & Ey). exists y.
    split; auto. split; auto. split; eapply prefix_app_inv1; eauto.
  - destruct (Down a Ha EA) as (y & -> & Hy & Ey), (Down b Hb EB) as (z & -> & Hz & Ez).
    destruct (H y z) as (g & G1 & G2 & G3 & G4); auto. exists (s ++ g).
    split; auto. split; [apply ext_app; auto|].
    destruct G3 as [w ->], G4 as [v ->]. split; [exists w|exists v]; rewrite app_assoc; auto.
Qed.
Lemma branch_beside u fo m mm off k : swf off (SNode u fo m mm) ->
  one_branch_above (map fst (sentries [] (SNode u fo m mm))) k -> one_branch_above (map fst (sentries [] mm)) k.
Proof.
  intros W H a b Ha Hb EA EB. cbn [swf] in W. destruct W as (_ & _ & _ & _ & Nm & Cm).
  destruct (H a b) as (g & G1 & G2 & G3 & G4); auto; try (apply node_keys; auto).
  exists g. split; auto. apply node_keys in G1. apply in_map_iff in Ha. destruct Ha as (x & <- & Hx).
  destruct G1 as [->|[(y & -> & Hy)|G1]]; auto; exfalso; apply (Cm x Hx); left; auto.
  eapply prefix_trans; [|exact G3]. eexists; reflexivity.
Qed.
Lemma branch_beside_back u fo m mm off k : swf off (SNode u fo m mm) -> In k (map fst (sentries [] mm)) ->
  one_branch_above (map fst (sentries [] mm)) k -> one_branch_above (map fst (sentries [] (SNode u fo m mm))) k.
Proof.
  intros W Hk H. cbn [swf] in W. destruct W as (_ & _ & _ & _ & Nm & Cm). apply in_map_iff in Hk. destruct Hk as (x & <- & Hx).
  assert (forall a, In a (map fst (sentries [] (SNode u fo m mm))) -> strictly_extends a (fst x) -> In a (map fst (sentries [] mm))) as Down.
  { intros a Ha [X _]. apply node_keys in Ha. destruct Ha as [->|[(y & -> & Hy)|Ha]]; auto; exfalso; apply (Cm x Hx).
    - right; auto.
    - apply comparable_prefixes with (fo_str fo ++ y); auto. eexists; reflexivity. }
  intros a b Ha Hb EA EB. destruct (H a b) as (g & G1 & G2); auto. exists g. split; auto. apply node_keys. auto.
Qed.
(** Two nodes side by side do not share a start. *)
Lemma siblings_branch u fo m mm off y : swf off (SNode u fo m mm) -> In y (sentries [] mm) -> (forall x, In x (sentries [] (SNode u fo m mm)) -> fst x <> []) ->
  ~ one_branch_above (map fst (sentries [] (SNode u fo m mm))) [].
Proof.
  intros W Hy NE H. pose proof W as W'. cbn [swf] in W. destruct W as (_ & _ & _ & _ & Nm & Cm).
  destruct (H (fo_str fo) (fst y)) as (g & G1 & G2 & G3 & G4).
  - apply node_keys; auto.
  - apply node_keys. right. right. apply in_map; auto.
  - split; [apply prefix_nil|]. apply (NE (fo_str fo, u)). left; reflexivity.
  - split; [apply prefix_nil|]. apply NE. cbn [sentries]. right. apply in_or_app; auto.
  - apply node_keys in G1. destruct G1 as [->|[(z & -> & Hz)|G1]].
    + apply (Cm y Hy). left; auto.
    + apply (Cm y Hy). left. eapply prefix_trans; [|exact G4]. eexists; reflexivity.
    + apply in_map_iff in G1. destruct G1 as (x & <- & Hx). apply (Cm x Hx). right; auto.
Qed.

Lemma sdelete_spec t : forall fs off, swf off t ->
  one_branch_above (map fst (sentries [] t)) fs -> (exists x, In x (sentries [] t) /\ fst x <> fs) ->
  exists t', sdelete t fs = Ok t' /\ t' <> SNil /\ swf off t' /\
    forall x, In x (sentries [] t') <-> fst x <> fs /\ In x (sentries [] t).
Proof.
  induction t as [|u fo m IHm mm IHmm]; intros fs off W HO HE; [destruct HE as (? & [] & _)|].
  cbn [swf] in W. destruct W as (Hf & HBs & Wm & Wmm & Nm & Cm).
  destruct fo as [f|]; [|discriminate]. cbn [fo_str] in *. set (s := fo_string f) in *. cbn [sdelete]. fold s.
  assert (f = new_filter s off) as Hf' by congruence.
  assert (fo_size f = length s) as -> by (rewrite Hf'; apply new_filter_size).
  assert (fo_offset f = off) as -> by (rewrite Hf'; apply new_filter_offset).
  assert (forall m' mm', swf (off + length s) m' -> swf off mm' ->
            (forall x, In x (sentries [] m') -> fst x <> []) -> (forall x, In x (sentries [] mm') -> ~ comparable s (fst x)) ->
            forall u', swf off (SNode u' (Some f) m' mm')) as Mk.
  { intros m' mm' H1 H2 H3 H4 u'. cbn [swf fo_str]. fold s. do 5 (split; [auto|]). auto. }
  assert (forall u' m' mm', sentries [] (SNode u' (Some f) m' mm') = (s, u') :: sentries s m' ++ sentries [] mm') as En.
  { intros. cbn [sentries fo_str app]. reflexivity. }
  destruct (has_prefix fs s) eqn:EP.
  - apply has_prefix_spec in EP. destruct EP as [rest ->]. rewrite skipn_app_l.
    assert (forall x, In x (sentries [] mm) -> fst x <> s ++ rest) as Hmm.
    { intros x Hx E. apply (Cm x Hx). rewrite E. left. exists rest. auto. }
    destruct (seqb_spec (s ++ rest) s) as [Heq|Hne].
    + assert (rest = []) as -> by (rewrite <- (app_nil_r s) in Heq at 2; apply app_inv_head in Heq; auto).
      rewrite app_nil_r in *.
      assert (forall x, In x (sentries s m) -> fst x <> s) as Hms.
      { intros x H. apply sentries_In_pre in H. destruct H as (y & Hy & ->). cbn [fst]. intros E.
        rewrite <- (app_nil_r s) in E at 2. apply app_inv_head in E. eapply Nm; eauto. }
      destruct m as [|mu mf m1 mm1].
      * destruct mm as [|u2 fo2 m2 mm2].
        { exfalso. destruct HE as (x & Hx & Hn). rewrite En in Hx. cbn in Hx. destruct Hx as [<-|[]]. apply Hn. auto. }
        eexists. split; [reflexivity|]. split; [discriminate|]. split; [auto|].
        intros x. rewrite En. cbn [sentries In app]. split; [intros H; split; auto; apply Hmm; auto|].
        intros [H1 [<-|H]]; auto. cbn in H1. congruence.
      * destruct mm1 as [|u2 fo2 m2 mm2].
        -- destruct mf as [g|]; [|destruct Wm as [Wm _]; discriminate Wm]. cbn [swf fo_str] in Wm. destruct Wm as (Hg & HBg & Wm1 & _ & Nm1 & _).
           assert (fo_str (Some (new_filter (s ++ fo_string g) off)) = s ++ fo_string g) as Estr by (cbn; apply new_filter_string).
           
           eexists. split; [reflexivity|]. split; [discriminate|]. split.
           ++ cbn [swf]. cbn [fo_str] in Estr |- *. rewrite Estr. split; [auto|]. split; [apply is_bitstring_app; auto|].
              split; [rewrite app_length, Nat.add_assoc; auto|]. do 2 (split; [auto|]).
              intros x Hx H. apply (Cm x Hx). eapply comparable_app; eauto.
           ++ intros x. rewrite En. cbn [sentries]. cbn [fo_str] in Estr |- *. rewrite Estr. cbn [app In]. rewrite !in_app_iff.
              split.
              ** intros H. split; [|destruct H as [H|[H|H]]; auto 8].
                 destruct H as [<-|[H|H]]; [|apply Hms; cbn [sentries]; right; apply in_or_app; auto|apply Hmm; auto].
                 apply Hms. cbn [sentries]. left. auto.
              ** intros [H1 [<-|[H|[[H|[]]|H]]]]; auto. cbn in H1; congruence.
        -- exfalso. destruct (sentries_root_in (SNode u2 fo2 m2 mm2)) as [y Hy]; [discriminate|].
           apply (siblings_branch _ _ _ _ _ y Wm Hy Nm). apply (branch_below u (Some f) _ mm off); auto.
           cbn [fo_str]. fold s. rewrite app_nil_r. auto.
    + assert (rest <> []) as Hr by (intros ->; rewrite app_nil_r in Hne; congruence).
      assert (forall m', swf (off + length s) m' ->
        (forall x, In x (sentries [] m') <-> fst x <> rest /\ In x (sentries [] m)) ->
        swf off (SNode u (Some f) m' mm) /\
        forall x, In x (sentries [] (SNode u (Some f) m' mm)) <->
          fst x <> s ++ rest /\ In x (sentries [] (SNode u (Some f) m mm))) as Fin.
      { intros m' W' M'. split.
        - apply Mk; auto. intros x Hx. apply M' in Hx. destruct Hx as [_ Hx]; auto.
        - intros x. rewrite !En. cbn [In]. rewrite !in_app_iff. rewrite !(sentries_In_pre s). split.
          + intros [<-|[(y & Hy & ->)|H]].
            * split; [cbn; congruence|auto].
            * apply M' in Hy. destruct Hy as [Hy1 Hy2].
              cbn [fst]. split; [intros E; apply app_inv_head in E; auto|]. right. left. eauto.
            * split; [apply Hmm; auto|auto].
          + intros [H1 [<-|[(y & Hy & ->)|H]]]; auto.
            right. left. exists y. split; auto. apply M'. split; auto. intros E. apply H1. cbn. rewrite E. auto. }
      destruct m as [|u1 fo1 m1 mm1].
      * eexists. split; [reflexivity|]. split; [discriminate|]. apply Fin; [exact I|]. cbn. tauto.
      * destruct fo1 as [g|]; [|destruct Wm as [Wm _]; discriminate Wm]. pose proof Wm as Wm0.
        destruct (seqb rest (fo_string g) && snil m1 && snil mm1) eqn:ED.
        -- rewrite !andb_true_iff in ED. destruct ED as [[ED1 ED2] ED3]. apply seqb_eq in ED1.
           destruct m1; [|discriminate]. destruct mm1; [|discriminate].
           eexists. split; [reflexivity|]. split; [discriminate|]. apply Fin; [exact I|].
           intros x. cbn [sentries app In]. split; [tauto|]. intros [H1 [<-|[]]]. cbn in H1. congruence.
        -- destruct (IHm rest (off + length s) Wm0) as (m' & Em & Nm' & Wm' & Mm').
           { apply (branch_below u (Some f) _ mm off); auto. }
           { eapply other_entry; eauto. }
           rewrite Em. cbn [bind]. eexists. split; [reflexivity|]. split; [discriminate|]. apply Fin; auto.
  - apply has_prefix_false in EP.
    assert (forall mm', swf off mm' ->
        (forall x, In x (sentries [] mm') <-> fst x <> fs /\ In x (sentries [] mm)) ->
        swf off (SNode u (Some f) m mm') /\
        forall x, In x (sentries [] (SNode u (Some f) m mm')) <->
          fst x <> fs /\ In x (sentries [] (SNode u (Some f) m mm))) as Fin.
    { intros mm' W' M'. split.
      - apply Mk; auto. intros x Hx. apply M' in Hx. destruct Hx as [_ Hx]; auto.
      - intros x. rewrite !En. cbn [In]. rewrite !in_app_iff. rewrite M'. split.
        + intros [<-|[H|[H1 H2]]]; auto.
          * split; [|auto]. cbn. intros ->. apply EP, prefix_refl.
          * split; [|auto]. apply sentries_In_pre in H. destruct H as (y & _ & ->). cbn [fst]. intros <-.
            apply EP. eexists; reflexivity.
        + intros [H1 [<-|[H|H]]]; auto 6. }
    destruct mm as [|u1 fo1 m1 mm1].
    + eexists. split; [reflexivity|]. split; [discriminate|]. apply Fin; [exact I|]. cbn. tauto.
    + destruct fo1 as [g|]; [|destruct Wmm as [Wmm _]; discriminate Wmm]. pose proof Wmm as Wmm0.
      destruct (seqb fs (fo_string g) && snil m1 && snil mm1) eqn:ED.
      * rewrite !andb_true_iff in ED. destruct ED as [[ED1 ED2] ED3]. apply seqb_eq in ED1.
        destruct m1; [|discriminate]. destruct mm1; [|discriminate].
        eexists. split; [reflexivity|]. split; [discriminate|]. apply Fin; [exact I|].
        intros x. cbn [sentries app In]. split; [tauto|]. intros [H1 [<-|[]]]. cbn in H1. congruence.
      * destruct (IHmm fs off Wmm0) as (m' & Em & Nm' & Wm' & Mm').
        { apply (branch_beside u (Some f) m _ off); auto. }
        { eapply other_entry; eauto. }
        rewrite Em. cbn [bind]. eexists. split; [reflexivity|]. split; [discriminate|]. apply Fin; auto.
Qed.

(** ** The invariant along histories *)
Lemma sinv_read m t id : sinv m t -> wf_bytes id -> decides id (map fst m) ->
  (forall k, In k (map fst m) -> one_chain_above (map fst m) k) ->
  exists uris t', splay_step t id = Ok (uris, t') /\ sinv m t'.
Proof.
  intros [I1 I2 I3 I4] Hw HD HO.
  destruct (ssearch_spec id Hw t false [] I1) as (t' & ex & HS); auto.
  { constructor. } { apply prefix_nil. }
  { intros x Hx. apply HD. apply I4 in Hx. apply in_map; auto. }
  assert (snarrow t) as HN.
  { assert (forall k, In k (map fst (sentries [] t)) <-> In k (map fst m)) as HK.
    { intros k. rewrite !in_map_iff. split; intros (x & E & Hx); exists x; rewrite I4 in *; auto; apply I4; auto. }
    apply snarrow_of; auto. intros k Hk a b Ha Hb. rewrite HK in *. apply HO; auto. }
  unfold splay_step. rewrite HS. cbn [bind]. eexists. eexists. split; [reflexivity|].
  destruct (ssearch_removes id t false _ _ _ HN HS) as [[-> ->]|(x & -> & R)]; [split; auto|].
  cbn [splay_root fold_left]. change (SNode (tk_uri x) (tk_fo x) (tk_match x) t') with (tknode x t'). split.
  - discriminate.
  - eapply removes_wf; eauto.
  - auto.
  - intros y. rewrite (removes_entries _ _ _ R). auto.
Qed.
Lemma sinv_keys m t k : sinv m t -> (In k (map fst (sentries [] t)) <-> In k (map fst m)).
Proof.
  intros [I1 I2 I3 I4]. rewrite !in_map_iff. split; intros (x & E & Hx); exists x; rewrite I4 in *; auto; apply I4; auto.
Qed.
Lemma sinv_subscribe m t k u : sinv m t -> is_bitstring k ->
  (In k (map fst m) \/ forall k', In k' (map fst m) -> ~ strictly_extends k' k) ->
  exists t', sadd t k u = Ok t' /\ sinv (mset k u m) t'.
Proof.
  intros I HB HX. pose proof I as [I1 I2 I3 I4]. destruct (sadd_spec t k u 0 I1 I2 HB) as (t' & E & N & W & M).
  { destruct HX as [HX|HX]; [left; apply (sinv_keys m t k I); auto|right].
    intros x Hx. apply HX. apply I4 in Hx. apply in_map; auto. }
  exists t'. split; auto. split; auto; [apply wf_mset; auto|].
  intros [k' u']. rewrite M, mset_pairs, I4 by auto. cbn [fst]. split; intros [H|H]; auto; left; [injection H as -> ->; auto|].
  destruct H as [-> ->]; auto.
Qed.
Lemma mdel_absent (m : prefix_subs) k : ~ In k (map fst m) -> mdel k m = m.
Proof.
  induction m as [|[k' v] m IH]; intros H; cbn in *; auto. destruct (seqb_spec k k') as [->|]; [exfalso; auto|].
  rewrite IH; auto.
Qed.
Lemma sinv_unsubscribe m t k : sinv m t ->
  (In k (map fst m) -> one_branch_above (map fst m) k /\ exists k', In k' (map fst m) /\ k' <> k) ->
  exists t', sdelete t k = Ok t' /\ sinv (mdel k m) t'.
Proof.
  intros I HOE. pose proof I as [I1 I2 I3 I4].
  destruct (in_dec gostring_eq_dec k (map fst m)) as [Hin|Hout].
  2: { exists t. rewrite mdel_absent by auto. split; auto. eapply sdelete_absent; eauto.
       rewrite (sinv_keys m t k I). auto. }
  destruct (HOE Hin) as [HO HE]. clear HOE.
  assert (forall k, In k (map fst (sentries [] t)) <-> In k (map fst m)) as HK.
  { intros k'. rewrite !in_map_iff. split; intros (x & E & Hx); exists x; rewrite I4 in *; auto; apply I4; auto. }
  destruct (sdelete_spec t k 0 I2) as (t' & E & N & W & M).
  { intros a b Ha Hb EA EB. rewrite HK in *. destruct (HO a b) as (g & G1 & G2); auto. exists g. rewrite HK. auto. }
  { destruct HE as (k' & Hk' & Hn). apply in_map_iff in Hk'. destruct Hk' as (x & <- & Hx). exists x. rewrite I4; auto. }
  exists t'. split; auto. split; auto; [apply wf_mdel; auto|].
  intros [k' u']. rewrite M, mdel_pairs, I4 by auto. reflexivity.
Qed.

Definition sevent (r : result stree) (e : event) : result stree :=
  let! t := r in
  match e with
  | Read id => let! (_, t') := splay_step t id in Ok t'
  | Change (Subscribe k u) => sadd t k u
  | Change (Unsubscribe k) => sdelete t k
  end.
Lemma fold_splay_call E cs r : r <> Err -> fold_left (splay_call E) cs r = fold_left sevent (events_of E cs) r.
Proof.
  assert (forall (A B C : Type) (f : A -> C -> A) (g : B -> C) l a, fold_left f (map g l) a = fold_left (fun a b => f a (g b)) l a) as fold_left_map.
  { intros A B C f g l. induction l; cbn; auto. }
  intros _. revert r; induction cs as [|op cs IH]; intros r; cbn [events_of flat_map fold_left]; auto.
  rewrite fold_left_app, IH. unfold events_of. f_equal. unfold splay_call.
  destruct r as [t| |]; cbn [bind].
  - destruct op as [id|[sub|sub]]; cbn [call_events update_changes]; auto;
      unfold splay_add, splay_del, entries; rewrite !map_map, fold_left_map; reflexivity.
  - generalize (call_events E op). intros l. induction l; cbn; auto.
  - generalize (call_events E op). intros l. induction l; cbn; auto.
Qed.
Lemma sinv_history es m t : sinv m t -> calm m es -> exists t', fold_left sevent es (Ok t) = Ok t' /\ sinv (after m es) t'.
Proof.
  intros I H; revert t I; induction H as [m|m id es Hw HD HO H IH|m k u es HB HX H IH|m k es HB HO H IH]; intros t I; cbn [fold_left after].
  - eauto.
  - destruct (sinv_read m t id I Hw HD HO) as (uris & t' & E & I'). cbn [sevent bind]. rewrite E. cbn [bind]. apply IH; auto.
  - destruct (sinv_subscribe m t k u I HB HX) as (t' & E & I'). cbn [sevent bind]. rewrite E. apply IH; auto.
  - destruct (sinv_unsubscribe m t k I HO) as (t' & E & I'). cbn [sevent bind]. rewrite E. apply IH; auto.
Qed.
Lemma splay_history E sub0 cs pc id : let b := to_byte_subs E sub0 in
  b <> [] -> Forall is_bitstring (mkeys b) -> calm (entries b) (events_of E cs) ->
  let m := after (entries b) (events_of E cs) in
  wf_bytes id -> decides id (map fst m) ->
  exists t uris, splay_run E sub0 cs = Ok t /\ reported id m uris /\
    answers (translate pc id) uris (drop_tree (splay_search t pc id)).
Proof.
  intros b Hn HB HC m Hw HD.
  destruct (new_splay_b_spec b (to_byte_subs_flat E sub0) Hn HB) as (t0 & E0 & I0).
  destruct (sinv_history _ _ _ I0 HC) as (t & Et & It).
  destruct (sinv_search _ t pc id It Hw HD) as (uris & HR & HA).
  exists t, uris. split; auto. unfold splay_run, new_splay. fold b. rewrite E0, fold_splay_call by discriminate. auto.
Qed.

Lemma calm_app m es es' : calm m (es ++ es') -> calm m es.
Proof.
  revert m; induction es as [|e es IH]; intros m H; [constructor|]. cbn in H.
  inversion H; subst; [apply calm_read|apply calm_sub|apply calm_unsub]; auto.
Qed.
Lemma events_of_app E a b : events_of E (a ++ b) = events_of E a ++ events_of E b.
Proof. unfold events_of. apply flat_map_app. Qed.
Lemma after_app m a b : after m (a ++ b) = after (after m a) b.
Proof. apply fold_left_app. Qed.
Lemma after_changes m cs : after m (map Change cs) = apply_changes m cs.
Proof. revert m; induction cs as [|c cs IH]; intros m; cbn [map after fold_left event_subs apply_changes]; [reflexivity|exact (IH _)]. Qed.
Lemma splay_update E sub0 cs op pc id : let b := to_byte_subs E sub0 in
  b <> [] -> Forall is_bitstring (mkeys b) -> calm (entries b) (events_of E (cs ++ [SUpdate op])) ->
  wf_bytes id ->
  exists t t' m m', splay_run E sub0 cs = Ok t /\ splay_call E (Ok t) (SUpdate op) = Ok t' /\
    ascending (map fst m) /\ ascending (map fst m') /\
    (forall k u, In (k, u) m' <->
       match op with
       | Add sub => In (k, u) (entries (to_byte_subs E sub))
                    \/ (~ In k (mkeys (to_byte_subs E sub)) /\ In (k, u) m)
       | Del sub => ~ In k (mkeys (to_byte_subs E sub)) /\ In (k, u) m
       end) /\
    (decides id (map fst m) -> exists uris, reported id m uris /\
       answers (translate pc id) uris (drop_tree (splay_search t pc id))) /\
    (decides id (map fst m') -> exists uris', reported id m' uris' /\
       answers (translate pc id) uris' (drop_tree (splay_search t' pc id))).
Proof.
  intros b Hn HB HC Hw.
  destruct (new_splay_b_spec b (to_byte_subs_flat E sub0) Hn HB) as (t0 & E0 & I0).
  assert (calm (entries b) (events_of E cs)) as HC1 by (rewrite events_of_app in HC; eapply calm_app; eauto).
  destruct (sinv_history _ _ _ I0 HC1) as (t & Et & It).
  destruct (sinv_history _ _ _ I0 HC) as (t' & Et' & It').
  exists t, t'. do 2 eexists.
  assert (splay_run E sub0 cs = Ok t) as R1.
  { unfold splay_run, new_splay. fold b. rewrite E0, fold_splay_call by discriminate. auto. }
  assert (splay_run E sub0 (cs ++ [SUpdate op]) = Ok t') as R2.
  { unfold splay_run, new_splay. fold b. rewrite E0, fold_splay_call by discriminate. auto. }
  split; [exact R1|]. split.
  { unfold splay_run in R1, R2. rewrite fold_left_app, R1 in R2. exact R2. }
  split; [apply ascending_ssorted; apply It|]. split; [apply ascending_ssorted; apply It'|].
  split; [|split; intros HD; eapply sinv_search; eauto].
  intros k u. rewrite events_of_app, after_app.
  replace (events_of E [SUpdate op]) with (map Change (update_changes E op)) by (unfold events_of; cbn [flat_map call_events]; rewrite app_nil_r; reflexivity).
  rewrite after_changes.
  destruct op as [sub|sub]; cbn [update_changes]; rewrite <- entries_keys.
  + apply apply_adds; [apply It|]. rewrite entries_keys. apply ssorted_NoDup, to_byte_subs_flat.
  + apply apply_dels. apply It.
Qed.