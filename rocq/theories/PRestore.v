(** Proofs about restoring over an engine that holds something. *)
From Coq Require Import Lia.
From Verif Require Import GoBase BinUtil MFilter MTdtCore MSubs MList MPatricia MSplay MGob MRestore PBase PSubs SpecGob PGob SpecRestore.

Lemma fo_over_same o n : fo_over o n = n <-> no_residue o n.
Proof.
  destruct o as [a1 a2 a3 a4 a5 a6 a7], n as [b1 b2 b3 b4 b5 b6 b7]. unfold fo_over, no_residue.
  cbn [fo_string fo_size fo_offset fo_filter fo_mask fo_byte_offset fo_byte_size]. split.
  - intros E. injection E as E1 E2 E3 E4 E5 E6 E7. repeat split; intros ->; assumption.
  - intros (H1 & H2 & H3 & H4 & H5 & H6 & H7). f_equal.
    + destruct b1; auto.
    + destruct b2; auto.
    + destruct b3; auto.
    + destruct b4; auto.
    + destruct b5; auto.
    + destruct b6; auto.
    + destruct b7; auto.
Qed.

Definition fover (old : option filter_object) (f : filter_object) : filter_object :=
  match old with Some o => fo_over o f | None => f end.
(** What the restored tree is. *)
Fixpoint poverlay (old new : gtree) : gtree :=
  match new with
  | GNil => GNil
  | GNode u f a b =>
      GNode u (match f with Some f => Some (fover (filter_of old) f) | None => None end)
        (poverlay (first_of old) a)
        (match a with
         | GNil => GNil
         | _ => match b with GNil => second_of old | _ => poverlay (second_of old) b end
         end)
  end.
Fixpoint soverlay (old new : gtree) : gtree :=
  match new with
  | GNil => GNil
  | GNode u f a b =>
      GNode u (match f with Some f => Some (fover (filter_of old) f) | None => filter_of old end)
        (soverlay (first_of old) a) (soverlay (second_of old) b)
  end.
Definition dec_p := decode_nested (fun l => (pnode_over l, false)).
Definition dec_s := decode_nested (fun l => (snode_over l, false)).

Lemma snode_over_save t : t <> GNil -> exists g, dec_s (TBin (node_save t)) = DBin g false /\ forall old, g old = (soverlay old t, false).
Proof.
  induction t as [|u f a IHa b IHb]; [congruence|]. intros _.
  exists (snode_over (map dec_s (node_save (GNode u f a b)))). split; [reflexivity|]. intros old.
  cbn [node_save map]. rewrite !map_app.
  destruct a as [|ua fa aa ba]; destruct b as [|ub fb ab bb];
    try (destruct IHa as (ga & Ea & Ga); [discriminate|]); try (destruct IHb as (gb & Eb & Gb); [discriminate|]);
    cbn [map]; rewrite ?Ea, ?Eb; destruct old as [|u0 f0 a0 b0]; destruct f as [f|]; cbn [app]; unfold dec_s at 1;
    cbn -[poverlay soverlay fo_over]; rewrite ?Ga; cbn -[poverlay soverlay fo_over]; rewrite ?Gb; try reflexivity; try (destruct f0; reflexivity).
Qed.
Lemma pnode_over_save t : t <> GNil -> exists g, dec_p (TBin (node_save t)) = DBin g false /\ forall old, g old = (poverlay old t, gfails t).
Proof.
  induction t as [|u f a IHa b IHb]; [congruence|]. intros _.
  exists (pnode_over (map dec_p (node_save (GNode u f a b)))). split; [reflexivity|]. intros old.
  cbn [node_save map]. rewrite !map_app.
  destruct a as [|ua fa aa ba]; destruct b as [|ub fb ab bb];
    try (destruct IHa as (ga & Ea & Ga); [discriminate|]); try (destruct IHb as (gb & Eb & Gb); [discriminate|]);
    cbn [map]; rewrite ?Ea, ?Eb; destruct old as [|u0 f0 a0 b0]; destruct f as [f|]; cbn [app]; unfold dec_p at 1;
    cbn -[poverlay soverlay fo_over gfails]; rewrite ?Ga; cbn -[poverlay soverlay fo_over gfails]; rewrite ?Gb; try reflexivity; try (destruct f0; reflexivity).
Qed.

Lemma tree_restore_over_save load tag t (g : over) : t <> GNil ->
  decode_nested (fun l => (load l, false)) (TBin (node_save t)) = DBin g false ->
  exists data, tree_save tag t = Ok data /\ forall old, tree_restore_over load tag old data = g old.
Proof.
  intros NE E. exists [TStr tag; TBin (node_save t)]. split; [destruct t; [congruence|reflexivity]|]. intros old.
  unfold tree_restore_over. cbn [map]. rewrite E. cbn [decode_nested pop_str pop_node_over]. rewrite seqb_refl. destruct (g old). reflexivity.
Qed.

(** The old root is gone exactly when nothing shows through. *)
Lemma soverlay_same t : forall old, soverlay old t = t <-> no_residues old t /\ no_old_filters old t.
Proof.
  induction t as [|u f a IHa b IHb]; intros old; cbn [soverlay no_residues no_old_filters]; [tauto|]. split.
  - intros E. injection E as E1 E2 E3. apply IHa in E2. apply IHb in E3. destruct E2 as [A1 A2], E3 as [B1 B2].
    destruct f as [f|].
    + injection E1 as E1. split; [split; [|auto]|split; [discriminate|auto]].
      intros fo fn EO EN. injection EN as <-. rewrite EO in E1. apply fo_over_same; auto.
    + split; [split; [discriminate|auto]|split; auto].
  - intros [(R1 & R2 & R3) (N1 & N2 & N3)]. f_equal; [|apply IHa; auto|apply IHb; auto].
    destruct f as [f|]; [|apply N1; auto]. f_equal. unfold fover. destruct (filter_of old) as [o|] eqn:EO; auto.
    apply fo_over_same; apply R1; auto.
Qed.
Lemma poverlay_same t : forall old, poverlay old t = gpruned t <-> no_residues old (gpruned t) /\ no_old_seconds old (gpruned t).
Proof.
  induction t as [|u f a IHa b IHb]; intros old; cbn [poverlay gpruned no_residues no_old_seconds]; [tauto|].
  assert ((match f with Some f => Some (fover (filter_of old) f) | None => None end) = f <->
          (forall fo fn, filter_of old = Some fo -> f = Some fn -> no_residue fo fn)) as HF.
  { destruct f as [f|]; [|split; [intros _ fo fn _ X; discriminate X|auto]]. split.
    - intros E fo fn EO EN. injection EN as <-. rewrite EO in E. injection E as E. apply fo_over_same; auto.
    - intros R. f_equal. unfold fover. destruct (filter_of old) as [o|] eqn:EO; auto. apply fo_over_same, R; auto. }
  assert (gpruned a = GNil <-> a = GNil) as HA by (destruct a; cbn; intuition discriminate).
  assert (gpruned b = GNil <-> b = GNil) as HB by (destruct b; cbn; intuition discriminate).
  destruct a as [|ua fa aa ba].
  - cbn [gpruned poverlay]. split.
    + intros E. injection E as E1. pose proof (proj1 HF E1) as E1'. cbn [no_residues no_old_seconds]. intuition congruence.
    + intros ((R & _) & _). f_equal. apply (proj2 HF); auto.
  - remember (GNode ua fa aa ba) as a eqn:Ea. destruct b as [|ub fb ab bb].
    + cbn [gpruned poverlay no_residues no_old_seconds]. split.
      * intros E. injection E as E1 E2 E3. pose proof (proj1 HF E1) as E1'. apply IHa in E2. intuition congruence.
      * intros ((R1 & R2 & _) & N1 & N2 & _). f_equal; [apply (proj2 HF); auto|apply IHa; auto|].
        apply N1; auto. intros X. apply HA in X. congruence.
    + remember (GNode ub fb ab bb) as b eqn:Eb.
      split.
      * intros E. injection E as E1 E2 E3. pose proof (proj1 HF E1) as E1'. apply IHa in E2. apply IHb in E3.
        destruct E2 as [? ?], E3 as [? ?]. split; [auto|]. split; [|auto]. intros _ X. apply HB in X. congruence.
      * intros ((R1 & R2 & R3) & N1 & N2 & N3). f_equal; [apply (proj2 HF); auto|apply IHa; auto|].
        apply IHb; auto.
Qed.

(** Over nothing, the methods do what [MGob] says. *)
Inductive same : dtok over -> dtok gtree -> Prop :=
| same_str s : same (DStr s) (DStr s)
| same_int z : same (DInt z) (DInt z)
| same_bool b : same (DBool b) (DBool b)
| same_fo f : same (DFo f) (DFo f)
| same_bin g x n e : g GNil = (n, e) -> same (DBin g x) (DBin n e)
| same_map l l' : same (DMap l) (DMap l').
Lemma pop_str_same l l' : Forall2 same l l' -> fst (pop_str l) = fst (pop_str l') /\ Forall2 same (snd (pop_str l)) (snd (pop_str l')).
Proof. intros H. destruct H as [|? ? ? ? [] ?]; cbn; auto. Qed.
Lemma pop_bool_same l l' : Forall2 same l l' -> fst (pop_bool l) = fst (pop_bool l') /\ Forall2 same (snd (pop_bool l)) (snd (pop_bool l')).
Proof. intros H. destruct H as [|? ? ? ? [] ?]; cbn; auto. Qed.
Lemma pop_fo_same l l' : Forall2 same l l' -> fst (pop_fo_over None l) = fst (pop_fo l') /\ Forall2 same (snd (pop_fo_over None l)) (snd (pop_fo l')).
Proof. intros H. destruct H as [|? ? ? ? [] ?]; cbn; auto. Qed.
Lemma pop_node_same l l' : Forall2 same l l' -> fst (pop_node_over GNil l) = fst (pop_node GNil l') /\ Forall2 same (snd (pop_node_over GNil l)) (snd (pop_node GNil l')).
Proof. intros H. destruct H as [|? ? ? ? [] ?]; cbn; auto. rewrite H. auto. Qed.
Ltac pop f f' L :=
  match goal with
  | H : Forall2 same ?l ?l' |- context [f ?l] =>
      let E := fresh in let F := fresh in
      destruct (L _ _ H) as [E F]; destruct (f l) as [? ?], (f' l') as [? ?]; cbn [fst snd] in E, F; subst; clear H
  end.
Lemma pop_if_fo (h : bool) l l' : Forall2 same l l' ->
  exists f r r', (if h then pop_fo_over None l else (None, l)) = (f, r) /\ (if h then pop_fo l' else (None, l')) = (f, r') /\ Forall2 same r r'.
Proof. intros H. destruct h; [|eauto 8]. destruct (pop_fo_same _ _ H) as [E F]. destruct (pop_fo_over None l), (pop_fo l'). cbn in E, F. subst. eauto 8. Qed.
Lemma pop_if_node (h : bool) l l' : Forall2 same l l' ->
  exists n e r r', (if h then pop_node_over GNil l else (GNil, false, l)) = (n, e, r) /\ (if h then pop_node GNil l' else (GNil, false, l')) = (n, e, r') /\ Forall2 same r r'.
Proof.
  intros H. destruct h; [|eauto 8]. destruct (pop_node_same _ _ H) as [E F].
  destruct (pop_node_over GNil l) as [[? ?] ?], (pop_node GNil l') as [[? ?] ?]. cbn in E, F. injection E as -> ->. eauto 8.
Qed.
Ltac fresh_node :=
  match goal with H : Forall2 same _ _ |- _ => pop (@pop_str over) (@pop_str gtree) pop_str_same end;
  match goal with |- context [match ?o with Some _ => _ | None => _ end] => destruct o as [u|]; [|reflexivity] end;
  pop (@pop_bool over) (@pop_bool gtree) pop_bool_same;
  match goal with |- context [match ?o with Some _ => _ | None => _ end] => destruct o as [hf|]; [|reflexivity] end;
  match goal with H : Forall2 same ?l ?l' |- context [if ?h then pop_fo_over None ?l else _] => destruct (pop_if_fo h l l' H) as (? & ? & ? & -> & -> & ?); clear H end;
  pop (@pop_bool over) (@pop_bool gtree) pop_bool_same;
  match goal with |- context [match ?o with Some _ => _ | None => _ end] => destruct o as [ho|]; [|reflexivity] end;
  match goal with H : Forall2 same ?l ?l' |- context [if ?h then pop_node_over GNil ?l else _] => destruct (pop_if_node h l l' H) as (? & ? & ? & ? & -> & -> & ?); clear H end;
  pop (@pop_bool over) (@pop_bool gtree) pop_bool_same;
  match goal with |- context [match ?o with Some _ => _ | None => _ end] => destruct o as [hz|]; [|reflexivity] end.
Lemma pnode_fresh l l' : Forall2 same l l' -> pnode_over l GNil = pnode_load l'.
Proof.
  intros H. unfold pnode_over, pnode_load. fresh_node.
  match goal with H : Forall2 same ?l ?l' |- context [if ?h then pop_node_over GNil ?l else _] => destruct (pop_if_node h l l' H) as (? & ? & ? & ? & -> & -> & ?); clear H end. reflexivity.
Qed.
Lemma snode_fresh l l' : Forall2 same l l' -> snode_over l GNil = snode_load l'.
Proof.
  intros H. unfold snode_over, snode_load. fresh_node.
  match goal with H : Forall2 same ?l ?l' |- context [if ?h then pop_node_over GNil ?l else _] => destruct (pop_if_node h l l' H) as (? & ? & ? & ? & -> & -> & ?); clear H end. reflexivity.
Qed.
Section Fresh.
  Context (ov : list (dtok over) -> over) (ld : list (dtok gtree) -> gtree * bool)
          (H : forall l l', Forall2 same l l' -> ov l GNil = ld l').
  Lemma decode_same : forall t, same (decode_nested (fun l => (ov l, false)) t) (decode_nested ld t).
  Proof.
    fix IH 1. intros [s|z|b|f|l|l]; cbn [decode_nested]; try constructor.
    assert (Forall2 same (map (decode_nested (fun l => (ov l, false))) l) (map (decode_nested ld) l)) as F.
    { induction l as [|t l IHl]; cbn [map]; constructor; [apply IH|exact IHl]. }
    pose proof (H _ _ F) as E. destruct (ld (map (decode_nested ld) l)) as [n e]. constructor. exact E.
  Qed.
  Lemma restore_over_nil tag data : tree_restore_over ov tag GNil data = tree_restore ld tag data.
  Proof.
    assert (Forall2 same (map (decode_nested (fun l => (ov l, false))) data) (map (decode_nested ld) data)) as F.
    { induction data as [|t l IHl]; cbn [map]; constructor; [apply decode_same|exact IHl]. }
    unfold tree_restore_over, tree_restore. destruct (pop_str_same _ _ F) as [E F'].
    destruct (pop_str (map (decode_nested (fun l => (ov l, false))) data)) as [o r], (pop_str (map (decode_nested ld) data)) as [o' r']. cbn [fst snd] in E, F'. subst o'.
    destruct o as [t|]; [|reflexivity]. destruct (seqb t tag); [|reflexivity].
    destruct (pop_node_same _ _ F') as [E _]. destruct (pop_node_over GNil r) as [[? ?] ?], (pop_node GNil r') as [[? ?] ?]. cbn [fst] in E. exact E.
  Qed.
End Fresh.
