(** Shared prefixes: exactly when a tag is reported to those who ask for it. *)
From Verif Require Import GoBase BinUtil MFilter MTdtCore MSubs MList.
From Verif Require Import PBase Spec PFilter PSubs PList PMatch PSubs2 PSubs3.
From Coq Require Import Lia Permutation.

Lemma wants_perm E sub sub' k u : Permutation sub sub' -> wants E sub' k u <-> wants E sub k u.
Proof.
  intros HP. unfold wants. split; intros (pats & pat & I & H); exists pats, pat; (split; [|exact H]); [apply (Permutation_in _ (Permutation_sym HP) I)|apply (Permutation_in _ HP I)].
Qed.
Lemma shared_exactly E sub pc id : NoDup (map fst sub) -> wf_bytes id -> translate pc id <> Panic ->
  (forall u k, wants E sub k u -> is_bitstring k /\ ~ runs_out id k) ->
  ((forall sub', Permutation sub sub' -> exists uris, answers (translate pc id) uris (list_search (new_list E sub') pc id) /\
      forall u, In u uris <-> exists k, wants E sub k u /\ id_has_prefix id k)
   <-> forall u k, wants E sub k u -> id_has_prefix id k ->
         exists k', wants E sub k' u /\ id_has_prefix id k' /\ forall u', wants E sub k' u' -> u' = u).
Proof.
  intros ND0 Hw NP HK. assert (forall sub' k u, Permutation sub sub' -> wants E sub' k u <-> wants E sub k u) as W by (intros; apply wants_perm; auto).
  assert (forall sub', Permutation (sub) sub' -> exists uris, reported id (entries (to_byte_subs E sub')) uris /\ answers (translate pc id) uris (list_search (new_list E sub') pc id)) as S.
  { intros sub' HP. pose proof (list_run_search E sub' [] pc id) as H. cbn zeta in H.
    change (list_run E sub' []) with (new_list E sub') in H. rewrite new_list_of, list_pairs_of, entries_keys in H. rewrite new_list_of.
    assert (forall k, In k (mkeys (to_byte_subs E sub')) -> is_bitstring k /\ ~ runs_out id k) as HA.
    { intros k I. rewrite <- entries_keys in I. apply in_map_iff in I. destruct I as ([k' u] & <- & I). apply to_byte_sound in I. apply (W _ _ _ HP) in I. eauto. }
    apply H; auto; [apply Forall_forall; apply HA|intros k I; apply HA; auto]. }
  split.
  - intros A u k LA PK. pose proof (proj2 (W (sub) k u (Permutation_refl _)) LA) as (pats & pat & I & J & Q).
    apply in_split in I. destruct I as (s1 & s2 & EQ). set (sub' := (u, pats) :: s1 ++ s2).
    assert (Permutation (sub) sub') as HP by (rewrite EQ; symmetry; apply Permutation_middle).
    destruct (A sub' HP) as (uris & AN & IN). destruct (S sub' HP) as (uris' & R & AN').
    assert (In u uris') as IU.
    { assert (In u uris) as IU by (apply IN; eauto). destruct AN as [[-> _]|[_ AN]]; [destruct IU|]. 
      destruct AN' as [[-> AN']|[_ AN']]; destruct (translate pc id); try congruence; rewrite AN in AN'; try (injection AN' as <-; auto; fail); try discriminate.
      }
    apply (reported_In _ _ _ _ R) in IU. destruct IU as (k' & IE & PK'). exists k'.
    pose proof (to_byte_sound _ _ _ _ IE) as WU. split; [apply (W _ _ _ HP); auto|]. split; auto.
    intros u' LU. apply (proj2 (W _ _ _ HP)) in LU. apply to_byte_last in IE. destruct IE as (t1 & p1 & t2 & ET & _ & NO).
    assert (NoDup (map fst sub')) as ND.
    { eapply Permutation_NoDup; [apply Permutation_map, HP|]. exact ND0. }
    assert (t1 = []) as ->.
    { destruct t1 as [|x t1]; auto. exfalso. unfold sub' in *. cbn [app] in ET. injection ET as <- ET. rewrite ET in ND. cbn in ND. inversion ND as [|? ? NI _]; subst. apply NI.
      rewrite map_app. apply in_app_iff. right. left. auto. }
    cbn [app] in ET. unfold sub' in ET. injection ET as _ ET.
    destruct LU as (pu & px & [IU|IU] & J1 & J2); [congruence|]. exfalso. apply (NO u'). rewrite <- ET. exists pu, px. auto.
  - intros A sub' HP. destruct (S sub' HP) as (uris & R & AN). exists uris. split; auto. intros u. rewrite (reported_In _ _ _ _ R). split.
    + intros (k & I & PK). apply to_byte_sound in I. exists k. split; auto. apply (W _ _ _ HP); auto.
    + intros (k & LA & PK). destruct (A u k LA PK) as (k' & LA' & PK' & ONE). exists k'. split; auto.
      apply (proj2 (W _ _ _ HP)) in LA'. destruct (to_byte_keeps_prefix _ _ _ _ LA') as (u' & I).
      pose proof (to_byte_sound _ _ _ _ I) as WU. apply (W _ _ _ HP) in WU. rewrite (ONE _ WU) in I. exact I.
Qed.
