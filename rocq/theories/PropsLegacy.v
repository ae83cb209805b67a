(** The text-matching engine: search (C17), comparison with the binary engines
    (C18), adding and deleting subscriptions (C19, C20), clones (C25). *)
From Verif Require Import GoBase BinUtil MFilter MTdtEpc MTdtCore MScheme MSubs MList MSlice MLegacy TestVectors Spec SpecEpc SpecLegacy.
From Verif Require Import PBase PList PNum PTdt PropsTdt PEpc PEpc2 PEpc3 PEpc4 PropsEpc PSlice PLegacy PLegacy2.
From Coq Require Import Lia Permutation.

(** ** C17 *)
(** For every order in which the map is walked: one report per selecting pattern,
    an error exactly when the translation fails or there is none. *)
Theorem C17_search : forall order pc id,
  match translate pc id with
  | Panic => legacy_search order pc id = Panic
  | Err => legacy_search order pc id = Ok ([], [], true)
  | Ok pure => exists local uris, local_part pure local /\ told local (pairs order) uris /\
      legacy_search order pc id = match uris with [] => Ok (pure, [], true) | _ => Ok (pure, uris, false) end
  end.
Proof.
  intros order pc id. unfold legacy_search. destruct (translate pc id) as [pure| |]; auto.
  exists (trim_prefix pure (str "urn:epc:id:")), (legacy_matches pure order).
  split; [apply local_part_trim; auto|]. split; [apply matches_told|]. destruct (legacy_matches pure order); auto.
Qed.
Print Assumptions C17_search.

(** Two walks over the same map report the same URIs, each the same number of times. *)
Theorem C17_any_order : forall m order pc id, Permutation m order ->
  exists a b, same_report a b /\ legacy_search m pc id = a /\ legacy_search order pc id = b.
Proof.
  intros m order pc id P. eexists _, _. split; [|split; reflexivity]. unfold legacy_search. destruct (translate pc id) as [pure| |]; [|repeat constructor|constructor].
  pose proof (matches_perm pure m order P) as Q. destruct (legacy_matches pure m) as [|u us] eqn:E.
  - apply Permutation_nil in Q. rewrite Q. repeat constructor.
  - destruct (legacy_matches pure order) as [|v vs]; [apply Permutation_sym, Permutation_nil in Q; discriminate|]. constructor; auto.
Qed.
Print Assumptions C17_any_order.

(** What it takes for a report URI to be told. *)
Theorem C17_reported : forall order pc id pure uris failed, legacy_search order pc id = Ok (pure, uris, failed) -> forall u,
  In u uris <-> exists local pats pat, translate pc id = Ok pure /\ local_part pure local /\
    In (u, pats) order /\ In pat pats /\ selects pat local.
Proof.
  intros order pc id pure uris failed. unfold legacy_search. destruct (translate pc id) as [pure'| |]; [|intros E; injection E as <- <- <-|discriminate].
  - intros E u. assert (pure' = pure /\ legacy_matches pure' order = uris) as [<- <-]
      by (destruct (legacy_matches pure' order); injection E as <- <- <-; auto).
    rewrite (told_In _ _ _ u (matches_told pure' order)). unfold pairs. split.
    + intros (p & I & S). apply in_flat_map in I. destruct I as ((v & l) & I & J). cbn [fst snd] in J. apply in_map_iff in J. destruct J as (x & Q & J). injection Q as <- <-.
      exists (trim_prefix pure' (str "urn:epc:id:")), l, x. split; auto. split; [apply local_part_trim; auto|]. auto.
    + intros (local & l & p & _ & LP & I & J & S). apply local_part_trim in LP. subst local. exists p. split; auto.
      apply in_flat_map. exists (u, l). split; auto. cbn [fst snd]. apply in_map; auto.
  - intros u. split; [intros []|intros (? & ? & ? & X & _); discriminate].
Qed.
Print Assumptions C17_reported.

Definition leg_subs : list (gostring * list gostring) :=
  [(str "http://a", [str "urn:epc:pat:sgtin-96:3.0614141"; str "urn:epc:pat:sgtin-96:1.0614141.81"; str "urn:epc:pat:sscc-96:3"]);
   (str "http://b", [str "urn:epc:pat:iso17365:25S.UN.ABC"])].
Definition leg_tag : list N := [48; 116; 37; 123; 247; 25; 78; 64; 0; 0; 26; 133]%N.
Example C17_case : translate pcgs1 leg_tag = Ok (str "urn:epc:id:sgtin:0614141.812345.6789") /\
  legacy_search leg_subs pcgs1 leg_tag = Ok (str "urn:epc:id:sgtin:0614141.812345.6789", [str "http://a"; str "http://a"], false) /\
  selects (str "urn:epc:pat:sgtin-96:1.0614141.81") (str "sgtin:0614141.812345.6789").
Proof.
  split; [vm_compute; reflexivity|]. split; [vm_compute; reflexivity|].
  apply selects_text. exists (str "sgtin:0614141.81"). split; [vm_compute; reflexivity|]. exists (str "2345.6789"). reflexivity.
Qed.

(** ** C18 *)
(** Neither engine's reports contain the other's in general. *)
Definition two_engines (s : epc_subs) (k : scheme) (f : epc_fields) (list_uris legacy_uris : list gostring) : Prop :=
  exists id, encode k E0 f = Ok (id, [], []) /\
    list_search (new_list E0 (sub_texts s)) pcgs1 id = match list_uris with [] => Ok ([], [], true) | _ => Ok (urn_of k f, list_uris, false) end /\
    legacy_search (sub_texts s) pcgs1 id = match legacy_uris with [] => Ok (urn_of k f, [], true) | _ => Ok (urn_of k f, legacy_uris, false) end.
(** Another filter value; a part of a field; the empty item reference of a GRAI;
    two subscribers with the same pattern. *)
Theorem C18_refuted :
  two_engines [(str "http://a", [ex_pat Sgtin 2 (ex_fields "1" "0614141" "812345" "6789")])] Sgtin ex_f1 [] [str "http://a"] /\
  two_engines [(str "http://a", [ex_pat Sgtin 4 (ex_fields "3" "0614141" "812345" "67")])] Sgtin ex_f1 [] [str "http://a"] /\
  two_engines [(str "http://a", [ex_pat Grai 4 (ex_fields "3" "061414112345" "" "6789")])] Grai (ex_fields "3" "061414112345" "" "6789") [str "http://a"] [] /\
  two_engines ex_shared Sgtin ex_f1 [str "http://b"] [str "http://a"; str "http://b"].
Proof. split; [|split; [|split]]; (eexists; split; [vm_compute; reflexivity|]; split; vm_compute; reflexivity). Qed.
Print Assumptions C18_refuted.

(** What the text engine reports on a tag of the EPC schemes. *)
Theorem C18_legacy_exact : forall E s k f pc order, epc_pc pc -> urn_fields k f ->
  (forall u p, subscribed s u p -> pattern_ok p) -> Permutation (sub_texts s) order ->
  exists id uris, encode k E f = Ok (id, [], []) /\
    (forall u, In u uris <-> exists p, subscribed s u p /\ p_scheme p = k /\
       is_prefix (dotted (tl (firstn (p_count p) (field_texts (p_fields p))))) (dotted (id_texts k f))) /\
    legacy_search order pc id = match uris with [] => Ok (urn_of k f, [], true) | _ => Ok (urn_of k f, uris, false) end.
Proof.
  intros E s k f pc order HP U OK PM. destruct (round_trip k E f pc HP U) as (id & EN & C & T).
  pose proof (C17_search order pc id) as S. rewrite T in S. destruct S as (local & uris & LP & TD & S).
  exists id, uris. split; auto. split; auto. intros u. rewrite (told_In _ _ _ u TD).
  assert (local = scheme_name k ++ str ":" ++ dotted (id_texts k f)) as ->.
  { apply local_part_trim in LP. rewrite LP, urn_of_local. apply eq_sym, local_part_trim. constructor. }
  split.
  - intros (pat & I & SE). apply (pairs_perm _ _ _ PM) in I. apply pairs_texts in I. destruct I as (p & SP & ->).
    exists p. split; auto. apply selects_epc in SE; eauto.
  - intros (p & SP & SE). exists (pattern_text p). split; [|apply selects_epc; eauto]. apply (pairs_perm _ _ _ PM). apply pairs_texts. eauto.
Qed.
Print Assumptions C18_legacy_exact.

(** Everything a binary engine reports the text engine reports too, if the
    patterns are written like identities and name no empty item reference. *)
Theorem C18_list_within_legacy : forall E E' s k f pc order, epc_pc pc -> urn_fields k f ->
  (forall u p, subscribed s u p -> pattern_ok p /\ urn_fields (p_scheme p) (p_fields p) /\
     (k = Grai -> 3 <= p_count p -> fields_partition f <> 0)) -> Permutation (sub_texts s) order ->
  exists id list_uris legacy_uris, encode k E f = Ok (id, [], []) /\
    list_search (new_list E' (sub_texts s)) pc id =
      match list_uris with [] => Ok ([], [], true) | _ => Ok (urn_of k f, list_uris, false) end /\
    legacy_search order pc id = match legacy_uris with [] => Ok (urn_of k f, [], true) | _ => Ok (urn_of k f, legacy_uris, false) end /\
    incl list_uris legacy_uris.
Proof.
  intros E E' s k f pc order HP U OK PM.
  destruct (C47_shared_patterns E E' s k f pc HP U ltac:(intros u p SP; apply (OK u p SP))) as (id & lu & EN & L1 & _ & L3).
  destruct (C18_legacy_exact E s k f pc order HP U ltac:(intros u p SP; apply (OK u p SP)) PM) as (id' & gu & EN' & G1 & G2).
  assert (id' = id) as -> by congruence. exists id, lu, gu. do 3 (split; [auto|]). intros u I. destruct (L1 u I) as (p & SP & LD).
  apply G1. exists p. split; auto. destruct (OK u p SP) as (O1 & O2 & O3). apply selects_epc; auto. apply leads_selects; auto.
Qed.
Print Assumptions C18_list_within_legacy.

(** The same set of URIs when moreover the patterns of the tag's scheme carry its
    filter value, name their last field in full, and are not shared. *)
Theorem C18_agree_partial : forall E E' s k f pc order, epc_pc pc -> urn_fields k f ->
  (forall u p, subscribed s u p -> pattern_ok p /\ urn_fields (p_scheme p) (p_fields p) /\
     (k = Grai -> 3 <= p_count p -> fields_partition f <> 0)) ->
  (forall u p, subscribed s u p -> p_scheme p = k -> dec_value (f_filter f) = dec_value (f_filter (p_fields p)) /\ full_last p f) ->
  (forall u u' p q, subscribed s u p -> subscribed s u' q -> same_pattern p q -> u = u') ->
  Permutation (sub_texts s) order ->
  exists id list_uris legacy_uris, encode k E f = Ok (id, [], []) /\
    list_search (new_list E' (sub_texts s)) pc id =
      match list_uris with [] => Ok ([], [], true) | _ => Ok (urn_of k f, list_uris, false) end /\
    legacy_search order pc id = match legacy_uris with [] => Ok (urn_of k f, [], true) | _ => Ok (urn_of k f, legacy_uris, false) end /\
    (forall u, In u list_uris <-> In u legacy_uris).
Proof.
  intros E E' s k f pc order HP U OK FU US PM.
  destruct (C47_end_to_end_partial E E' s k f pc HP U ltac:(intros u p SP; apply (OK u p SP)) US) as (id & lu & EN & L1 & L3).
  destruct (C18_legacy_exact E s k f pc order HP U ltac:(intros u p SP; apply (OK u p SP)) PM) as (id' & gu & EN' & G1 & G2).
  assert (id' = id) as -> by congruence. exists id, lu, gu. do 3 (split; [auto|]). intros u. rewrite L1, G1.
  split; intros (p & SP & X); exists p; (split; [auto|]); destruct (OK u p SP) as (O1 & O2 & O3).
  - apply selects_epc; auto. apply leads_selects; auto.
  - destruct (FU u p SP (proj1 X)). apply selects_leads; auto. apply selects_epc; auto.
Qed.
Print Assumptions C18_agree_partial.

(** The exact boundary, tag by tag: the two engines report the tag to the same
    subscribers, in whatever orders the maps of subscriptions are iterated, exactly
    when everyone whose text selects the tag has a pattern that leads to it field by
    field, filter value included, and that nobody else wrote. *)
Lemma texts_perm s s' : Permutation (sub_texts s) s' -> exists t, s' = sub_texts t /\ forall u p, subscribed t u p <-> subscribed s u p.
Proof.
  intros H. apply Permutation_sym, Permutation_map_inv in H. destruct H as (t & -> & P). exists t. split; auto.
  intros u p. split; intros (ps & I & J); exists ps; (split; [|exact J]); [apply (Permutation_in _ (Permutation_sym P)), I|apply (Permutation_in _ P), I].
Qed.
Theorem C18_exactly_partial : forall E E' s k f pc, epc_pc pc -> urn_fields k f -> NoDup (map fst s) ->
  (forall u p, subscribed s u p -> pattern_ok p /\ urn_fields (p_scheme p) (p_fields p) /\
     (k = Grai -> 3 <= p_count p -> fields_partition f <> 0)) ->
  exists id, encode k E f = Ok (id, [], []) /\
  ((forall s' order, Permutation (sub_texts s) s' -> Permutation (sub_texts s) order -> exists list_uris legacy_uris,
      list_search (new_list E' s') pc id = match list_uris with [] => Ok ([], [], true) | _ => Ok (urn_of k f, list_uris, false) end /\
      legacy_search order pc id = match legacy_uris with [] => Ok (urn_of k f, [], true) | _ => Ok (urn_of k f, legacy_uris, false) end /\
      (forall u, In u list_uris <-> In u legacy_uris))
   <-> forall u p, subscribed s u p -> p_scheme p = k ->
         is_prefix (dotted (tl (firstn (p_count p) (field_texts (p_fields p))))) (dotted (id_texts k f)) ->
         exists q, subscribed s u q /\ leads q k f /\ forall u' q', subscribed s u' q' -> same_pattern q q' -> u' = u).
Proof.
  intros E E' s k f pc HP U ND OK.
  assert (forall u p, subscribed s u p -> pattern_ok p) as OK1 by (intros u p SP; apply (OK u p SP)).
  assert (forall u p, subscribed s u p -> leads p k f -> p_scheme p = k /\
    is_prefix (dotted (tl (firstn (p_count p) (field_texts (p_fields p))))) (dotted (id_texts k f))) as LS.
  { intros u p SP LD. destruct (OK u p SP) as (O1 & O2 & O3). apply selects_epc; auto. apply leads_selects; auto. }
  destruct (C47_exactly_partial E E' s k f pc HP U ND OK1) as (id & EN & X1 & X2). exists id. split; auto.
  assert (forall (l l' : list gostring), match l with [] => Ok (@nil ascii, [], true) | _ => Ok (urn_of k f, l, false) end =
      match l' with [] => Ok ([], [], true) | _ => Ok (urn_of k f, l', false) end -> l = l') as UL by (intros [|] [|] H; congruence).
  assert (forall (l l' : list gostring), match l with [] => Ok (urn_of k f, [], true) | _ => Ok (urn_of k f, l, false) end =
      match l' with [] => Ok (urn_of k f, [], true) | _ => Ok (urn_of k f, l', false) end -> l = l') as UG by (intros [|] [|] H; congruence).
  split.
  - intros A.
    assert (forall s', Permutation (sub_texts s) s' -> exists uris,
      (forall u, In u uris <-> exists p, subscribed s u p /\ p_scheme p = k /\
         is_prefix (dotted (tl (firstn (p_count p) (field_texts (p_fields p))))) (dotted (id_texts k f))) /\
      (forall u, In u uris -> exists p, subscribed s u p /\ leads p k f) /\
      list_search (new_list E' s') pc id = match uris with [] => Ok ([], [], true) | _ => Ok (urn_of k f, uris, false) end) as B.
    { intros s' HS. destruct (A s' (sub_texts s) HS (Permutation_refl _)) as (lu & gu & L & G & LG).
      destruct (C18_legacy_exact E s k f pc (sub_texts s) HP U OK1 (Permutation_refl _)) as (id1 & gu1 & EN1 & G1 & G2).
      assert (id1 = id) as -> by congruence. assert (gu1 = gu) as -> by (apply UG; etransitivity; [symmetry; exact G2|exact G]).
      destruct (texts_perm s s' HS) as (t & -> & TS).
      destruct (C47_shared_patterns E E' t k f pc HP U) as (id2 & lu2 & EN2 & L1 & _ & L2).
      { intros u p SP. apply (OK1 u p). apply TS, SP. }
      assert (id2 = id) as -> by congruence. assert (lu2 = lu) as -> by (apply UL; etransitivity; [symmetry; exact L2|exact L]).
      exists lu. split; [intros u; rewrite LG; apply G1|]. split; auto.
      intros u I. destruct (L1 u I) as (p & SP & LD). exists p. split; auto. apply TS, SP. }
    intros u p SP K PX. destruct (B (sub_texts s) (Permutation_refl _)) as (lu & I1 & I2 & _).
    destruct (I2 u) as (p' & SP' & LD'); [apply I1; eauto|]. apply (X1) with (p := p'); auto.
    intros s' HS. destruct (B s' HS) as (lu' & J1 & J2 & J3). exists lu'. split; auto.
    intros v. split; auto. intros (q & SQ & LQ). apply J1. exists q. split; auto. eapply LS; eauto.
  - intros A s' order HS HO.
    destruct X2 with (s' := s') as (lu & L1 & L2); auto.
    { intros u p SP LD. destruct (LS u p SP LD). eauto. }
    destruct (C18_legacy_exact E s k f pc order HP U OK1 HO) as (id1 & gu & EN1 & G1 & G2).
    assert (id1 = id) as -> by congruence. exists lu, gu. split; auto. split; auto.
    intros u. rewrite L1, G1. split.
    + intros (p & SP & LD). exists p. split; auto. eapply LS; eauto.
    + intros (p & SP & K & PX). destruct (A u p SP K PX) as (q & SQ & LQ & _). eauto.
Qed.
Print Assumptions C18_exactly_partial.

(** Both write the same pattern, and each has another one for the tag. *)
Example C18_exactly_case : NoDup (map fst ex_both_subs) /\
  (forall u p, subscribed ex_both_subs u p -> pattern_ok p /\ urn_fields (p_scheme p) (p_fields p)) /\
  (forall u p, subscribed ex_both_subs u p -> p_scheme p = Sgtin ->
     is_prefix (dotted (tl (firstn (p_count p) (field_texts (p_fields p))))) (dotted (id_texts Sgtin ex_f1)) ->
     exists q, subscribed ex_both_subs u q /\ leads q Sgtin ex_f1 /\ forall u' q', subscribed ex_both_subs u' q' -> same_pattern q q' -> u' = u).
Proof.
  destruct C47_exactly_case as (_ & _ & ND & OK & A). split; auto.
  assert (forall u p, subscribed ex_both_subs u p -> leads p Sgtin ex_f1 /\ urn_fields (p_scheme p) (p_fields p)) as LD.
  { intros u p (ps & I & J). destruct I as [I|[I|[]]]; injection I as <- <-;
      (destruct J as [<-|[<-|[]]]; (split; [split; [reflexivity|split; [reflexivity|split; [cbn; lia|split; cbn; lia]]]|apply urn_fields_b_ok; vm_compute; reflexivity])). }
  split; [intros u p SP; split; [eauto|apply (LD u p SP)]|]. intros u p SP _ _. apply (A u p SP), (LD u p SP).
Qed.

(** Leaving the filter value out is felt by every subscriber who does not list all
    eight values: let [u] have a pattern and let [v] be a filter value that none of
    [u]'s patterns of that scheme carries; then some tag is reported to [u] by the
    text engine and not by the binary engine. *)
Theorem C18_filter_value_refuted : forall E E' s u p v pc order, epc_pc pc ->
  (forall w q, subscribed s w q -> pattern_ok q) ->
  subscribed s u p -> urn_fields (p_scheme p) (p_fields p) ->
  (p_scheme p = Grai -> 3 <= p_count p -> fields_partition (p_fields p) <> 0) ->
  is_decimal v -> (dec_value v < 8)%N ->
  (forall q, subscribed s u q -> p_scheme q = p_scheme p -> dec_value (f_filter (p_fields q)) <> dec_value v) ->
  Permutation (sub_texts s) order ->
  exists f id list_uris legacy_uris, urn_fields (p_scheme p) f /\ encode (p_scheme p) E f = Ok (id, [], []) /\
    list_search (new_list E' (sub_texts s)) pc id =
      match list_uris with [] => Ok ([], [], true) | _ => Ok (urn_of (p_scheme p) f, list_uris, false) end /\
    legacy_search order pc id =
      match legacy_uris with [] => Ok (urn_of (p_scheme p) f, [], true) | _ => Ok (urn_of (p_scheme p) f, legacy_uris, false) end /\
    In u legacy_uris /\ ~ In u list_uris.
Proof.
  intros E E' s u p v pc order HP OK SP UP GZ DV V8 NV PM.
  set (f := {| f_filter := v; f_cp := f_cp (p_fields p); f_ref := f_ref (p_fields p); f_ser := f_ser (p_fields p) |}).
  assert (urn_fields (p_scheme p) f) as U.
  { destruct UP as ((D1 & D2) & CL & (B1 & B2) & R). split; [split; [exact DV|exact D2]|]. split; [exact CL|]. split; [split; [exact V8|exact B2]|exact R]. }
  destruct (C47_shared_patterns E E' s (p_scheme p) f pc HP U OK) as (id & lu & EN & L1 & _ & L3).
  destruct (C18_legacy_exact E s (p_scheme p) f pc order HP U OK PM) as (id' & gu & EN' & G1 & G2).
  assert (id' = id) as -> by congruence. exists f, id, lu, gu. do 4 (split; [auto|]). split.
  - apply G1. exists p. split; auto.
    assert (selects (pattern_text p) (scheme_name (p_scheme p) ++ str ":" ++ dotted (id_texts (p_scheme p) (p_fields p)))) as S.
    { apply leads_selects; eauto. split; auto. }
    apply selects_epc in S; eauto.
  - intros I. destruct (L1 u I) as (q & SQ & LD). apply (NV q SQ); [apply LD|]. symmetry. apply LD.
Qed.
Print Assumptions C18_filter_value_refuted.

Example C18_hypotheses : let s := ex_epc_subs in
  (forall u p, subscribed s u p -> pattern_ok p /\ urn_fields (p_scheme p) (p_fields p)) /\
  (forall u p, subscribed s u p -> p_scheme p = Sgtin -> dec_value (f_filter ex_f1) = dec_value (f_filter (p_fields p)) /\ full_last p ex_f1) /\
  two_engines s Sgtin ex_f1 [str "http://a"; str "http://c"] [str "http://a"; str "http://c"].
Proof.
  cbv zeta. assert (forall u p, subscribed ex_epc_subs u p -> In (u, p) (flat_map (fun e => map (pair (fst e)) (snd e)) ex_epc_subs)) as FL.
  { intros u p (ps & I & J). apply in_flat_map. exists (u, ps). split; auto. apply in_map; auto. }
  split; [|split].
  - intros u p S. split; [apply (proj1 C47_hypotheses u p S)|]. apply FL in S. cbn in S. apply urn_fields_b_ok.
    repeat (destruct S as [S|S]; [injection S as <- <-; vm_compute; reflexivity|]). destruct S.
  - intros u p S K. apply FL in S. cbn in S.
    repeat (destruct S as [S|S]; [injection S as <- <-; first [discriminate K | split; [vm_compute; reflexivity|intros _; vm_compute; reflexivity]]|]). destruct S.
  - eexists; split; [vm_compute; reflexivity|]; split; vm_compute; reflexivity.
Qed.

Example C18_filter_value_case : let s := ex_epc_subs in
  subscribed s (str "http://a") (ex_pat Sgtin 2 ex_f1) /\ urn_fields Sgtin ex_f1 /\ is_decimal (str "0") /\
  (forall q, subscribed s (str "http://a") q -> p_scheme q = Sgtin -> dec_value (f_filter (p_fields q)) <> dec_value (str "0")) /\
  two_engines s Sgtin (ex_fields "0" "0614141" "812345" "6789") [] [str "http://a"; str "http://c"].
Proof.
  cbv zeta. split; [|split; [|split; [|split]]].
  - eexists. split; [left; reflexivity|left; reflexivity].
  - apply urn_fields_b_ok. vm_compute. reflexivity.
  - apply is_decimal_b_ok. vm_compute. reflexivity.
  - intros q (ps & I & J) K. destruct I as [I|[I|[I|I]]]; [|exfalso|exfalso|destruct I].
    2, 3: apply (f_equal fst) in I; discriminate I.
    apply (f_equal snd) in I. change ([ex_pat Sgtin 2 ex_f1; ex_pat Giai 1 ex_f4] = ps) in I. subst ps. destruct J as [<-|[<-|J]]; [vm_compute; discriminate|discriminate K|destruct J].
  - eexists; split; [vm_compute; reflexivity|]; split; vm_compute; reflexivity.
Qed.

(** ** C19 *)
Lemma history_last grow sub ops o : wf_map sub -> Forall (fun o => wf_map (op_map o)) ops -> wf_map (op_map o) ->
  exists h e h1 m h' e', legacy_run grow sub ops = Ok (h, e) /\ separate h1 e m /\ contents h1 e = contents h e /\ contents h1 m = op_map o /\
    match o with LAdd _ => legacy_add grow h1 e m | LDel _ => legacy_del h1 e m end = Ok (h', e') /\
    legacy_run grow sub (ops ++ [o]) = Ok (h', e').
Proof.
  intros W F Wo. destruct (legacy_run_owned grow sub ops W F) as (h & e & R & O).
  pose proof (alloc_separate grow h e (op_map o) O Wo) as A. destruct (alloc grow h (op_map o)) as [h1 m] eqn:AL. cbn [fst snd] in A. cbn zeta in A. destruct A as (A1 & A2 & A3).
  assert (exists h' e', match o with LAdd _ => legacy_add grow h1 e m | LDel _ => legacy_del h1 e m end = Ok (h', e')) as (h' & e' & X).
  { destruct o; [destruct (legacy_add_spec grow m h1 e A1) as (h' & e' & Q & _)|destruct (legacy_del_spec m h1 e A1) as (h' & e' & Q & _)]; eauto. }
  exists h, e, h1, m, h', e'. do 5 (split; [auto|]). unfold legacy_run in *. destruct (alloc grow [] sub) as [h0 m0].
  rewrite fold_left_app, R. cbn [fold_left]. unfold legacy_call. cbn [bind]. rewrite AL. exact X.
Qed.
Lemma added_in old new p : (exists l, added old new = Some l /\ In p l) <-> (exists l, old = Some l /\ In p l) \/ (exists l, new = Some l /\ In p l).
Proof.
  destruct old as [l|], new as [n|]; cbn [added].
  - split.
    + intros (x & E & I). injection E as <-. apply in_app_or in I. destruct I as [I|I]; [left; eauto|]. apply filter_In in I. right; exists n; tauto.
    + intros H. eexists. split; [reflexivity|]. apply in_or_app. destruct (is_in l p) eqn:IN; [left; apply is_in_spec; auto|].
      destruct H as [(x & E & I)|(x & E & I)]; injection E as <-; [left; auto|]. right. apply filter_In. rewrite IN. auto.
  - split; [intros H; left; exact H|]. intros [H|(x & E & _)]; [exact H|discriminate].
  - split; [intros H; right; exact H|]. intros [(x & E & _)|H]; [discriminate|exact H].
  - split; [intros H; left; exact H|]. intros [H|H]; exact H.
Qed.
Lemma added_nodup old new l : (forall x, old = Some x -> NoDup x) -> (forall x, new = Some x -> NoDup x) -> added old new = Some l -> NoDup l.
Proof.
  intros HO HN. destruct old as [x|], new as [n|]; cbn [added]; intros E; try discriminate; injection E as <-; auto.
  apply NoDup_app; auto using NoDup_filter. intros a I J. apply filter_In in J. destruct J as [_ J]. apply is_in_spec in I. rewrite I in J. discriminate.
Qed.
(** After any history of calls (each with lists of its own), adding [m] adds its
    pairs, keeps every stored list as a beginning of the new one, and stores
    nothing twice if neither the engine nor the argument did. *)
Theorem C19_add_partial : forall grow sub ops m, wf_map sub -> Forall (fun o => wf_map (op_map o)) ops -> wf_map m ->
  exists h e h' e', legacy_run grow sub ops = Ok (h, e) /\ legacy_run grow sub (ops ++ [LAdd m]) = Ok (h', e') /\
    (forall u p, pair_in (contents h' e') u p <-> pair_in (contents h e) u p \/ pair_in m u p) /\
    (forall u l, mget u (contents h e) = Some l -> exists l', mget u (contents h' e') = Some (l ++ l')) /\
    (no_twice (contents h e) -> no_twice m -> no_twice (contents h' e')).
Proof.
  intros grow sub ops m W F Wm. destruct (history_last grow sub ops (LAdd m) W F Wm) as (h & e & h1 & sm & h' & e' & R & SEP & C1 & C2 & A & R').
  exists h, e, h', e'. split; auto. split; auto. destruct (legacy_add_spec grow sm h1 e SEP) as (h2 & e2 & Q & _ & G & _).
  rewrite A in Q. injection Q as <- <-. cbn [op_map] in C2. rewrite C1, C2 in G. split; [|split].
  - intros u p. unfold pair_in. rewrite G. apply added_in.
  - intros u l E. rewrite G, E. destruct (mget u m); cbn [added]; eauto. exists []. rewrite app_nil_r. auto.
  - intros N1 N2 u l. rewrite G. apply added_nodup; eauto.
Qed.
Print Assumptions C19_add_partial.
(** How often every pair is stored afterwards: as often as before if it was stored, as
    often as the argument has it otherwise.  So nothing is stored twice afterwards if
    and only if nothing was before and the argument repeats no pair but stored ones. *)
Lemma count_filter p x : forall n, count_occ text_dec (filter (fun q => negb (is_in x q)) n) p = if is_in x p then 0 else count_occ text_dec n p.
Proof.
  induction n as [|a n IH]; [destruct (is_in x p); reflexivity|]. cbn [filter count_occ]. destruct (text_dec a p) as [->|D].
  - destruct (is_in x p); cbn [negb]; auto. cbn [count_occ]. destruct (text_dec p p); congruence.
  - destruct (is_in x a); cbn [negb count_occ]; auto. destruct (text_dec a p); congruence.
Qed.
Lemma added_times u p m0 m1 m2 : (forall k, mget k m2 = added (mget k m0) (mget k m1)) ->
  times m2 u p = if Nat.eqb (times m0 u p) 0 then times m1 u p else times m0 u p.
Proof.
  intros G. unfold times. rewrite G. destruct (mget u m0) as [x|], (mget u m1) as [n|]; cbn [added]; auto.
  - rewrite count_occ_app, count_filter. destruct (is_in x p) eqn:I.
    + apply is_in_spec in I. apply (count_occ_In text_dec) in I. destruct (count_occ text_dec x p); [lia|]. cbn. lia.
    + assert (count_occ text_dec x p = 0) as ->; auto. apply count_occ_not_In. intros K. apply is_in_spec in K. congruence.
  - destruct (count_occ text_dec x p); auto.
Qed.
Lemma no_twice_times m : no_twice m <-> forall u p, times m u p <= 1.
Proof.
  unfold no_twice, times. split.
  - intros H u p. destruct (mget u m) as [l|] eqn:E; auto. apply NoDup_count_occ. eauto.
  - intros H u l E. apply (NoDup_count_occ text_dec). intros p. specialize (H u p). rewrite E in H. auto.
Qed.
Theorem C19_exactly_partial : forall grow sub ops m, wf_map sub -> Forall (fun o => wf_map (op_map o)) ops -> wf_map m ->
  exists h e h' e', legacy_run grow sub ops = Ok (h, e) /\ legacy_run grow sub (ops ++ [LAdd m]) = Ok (h', e') /\
    (forall u p, times (contents h' e') u p = if Nat.eqb (times (contents h e) u p) 0 then times m u p else times (contents h e) u p) /\
    (no_twice (contents h' e') <-> no_twice (contents h e) /\ forall u p, 1 < times m u p -> pair_in (contents h e) u p).
Proof.
  intros grow sub ops m W F Wm. destruct (history_last grow sub ops (LAdd m) W F Wm) as (h & e & h1 & sm & h' & e' & R & SEP & C1 & C2 & A & R').
  exists h, e, h', e'. split; auto. split; auto. destruct (legacy_add_spec grow sm h1 e SEP) as (h2 & e2 & Q & _ & G & _).
  rewrite A in Q. injection Q as <- <-. cbn [op_map] in C2. rewrite C1, C2 in G.
  assert (forall u p, times (contents h' e') u p = if Nat.eqb (times (contents h e) u p) 0 then times m u p else times (contents h e) u p) as T by (intros u p; apply added_times; auto).
  split; auto. rewrite !no_twice_times.
  assert (forall u p, pair_in (contents h e) u p <-> times (contents h e) u p <> 0) as PI.
  { intros u p. unfold pair_in, times. destruct (mget u (contents h e)) as [l|].
    - split; [intros (l' & X & I); injection X as <-; apply (count_occ_In text_dec) in I; lia|]. intros I. exists l. split; auto. apply (count_occ_In text_dec). lia.
    - split; [intros (l' & X & _); discriminate|lia]. }
  split.
  - intros H. split; intros u p; specialize (H u p); rewrite T in H; destruct (Nat.eqb_spec (times (contents h e) u p) 0); try lia. intros _. apply PI. auto.
  - intros [H1 H2] u p. rewrite T. destruct (Nat.eqb_spec (times (contents h e) u p) 0) as [Z|Z]; auto.
    destruct (le_lt_dec (times m u p) 1); auto. apply H2, PI in l. congruence.
Qed.
Print Assumptions C19_exactly_partial.

(** With arguments that share storage with nothing else, in any memory: the same,
    and all other lists in memory keep their elements. *)
Theorem C19_add_in_memory : forall grow h e m, separate h e m ->
  exists h' e', legacy_add grow h e m = Ok (h', e') /\ owned h' e' /\
    (forall u p, pair_in (contents h' e') u p <-> pair_in (contents h e) u p \/ pair_in (contents h m) u p) /\
    (forall t, slice_ok h t -> away e t -> away m t -> slice_ok h' t /\ view h' t = view h t /\ away e' t).
Proof.
  intros grow h e m SEP. destruct (legacy_add_spec grow m h e SEP) as (h' & e' & A & O & G & FR).
  exists h', e'. split; auto. split; auto. split; auto. intros u p. unfold pair_in. rewrite G. apply added_in.
Qed.
Print Assumptions C19_add_in_memory.

Definition legacy_after (grow : nat -> nat) (sub : smap (list gostring)) (ops : list legacy_op) : result (smap (list gostring)) :=
  let! (h, e) := legacy_run grow sub ops in Ok (contents h e).
(** A pattern that the argument has twice is stored twice, whether its URI is new
    or not. *)
Theorem C19_refuted : forall grow, let m := [(str "http://a", [str "p"; str "p"])] in
  legacy_after grow [] [LAdd m] = Ok m /\
  legacy_after grow [(str "http://a", [str "q"])] [LAdd m] = Ok [(str "http://a", [str "q"; str "p"; str "p"])].
Proof.
  intros grow m. assert (wf_map m) as Wm by repeat constructor.
  assert (forall sub h e, legacy_run grow sub [LAdd m] = Ok (h, e) -> legacy_after grow sub [LAdd m] = Ok (contents h e)) as RW.
  { intros sub h e R. unfold legacy_after. rewrite R. reflexivity. }
  assert (forall sub, wf_map sub -> exists h e, legacy_run grow sub [LAdd m] = Ok (h, e) /\ wf_map (contents h e) /\
    forall k, mget k (contents h e) = added (mget k sub) (mget k m)) as X.
  { intros sub W. destruct (history_last grow sub [] (LAdd m) W ltac:(constructor) Wm) as (h & e & h1 & sm & h' & e' & R & SEP & C1 & C2 & A & R').
    exists h', e'. split; auto. destruct (legacy_add_spec grow sm h1 e SEP) as (h2 & e2 & Q & O & G & _). rewrite A in Q. injection Q as <- <-.
    split; [apply contents_wf; apply O|]. intros k. rewrite G, C1, C2. cbn [op_map]. f_equal. f_equal.
    unfold legacy_run in R. destruct (alloc_spec grow sub [] W) as (A1 & A2 & _). destruct (alloc grow [] sub) as [h0 m0]. cbn [fst snd] in *. cbn [fold_left] in R. injection R as R.
    unfold new_legacy in R. destruct (clone_spec grow h0 m0 A1) as (_ & B2 & _). rewrite R in B2. cbn [fst snd] in B2. congruence. }
  split.
  - destruct (X [] ltac:(constructor)) as (h & e & R & W & G). rewrite (RW _ _ _ R). f_equal. apply wf_map_ext; [auto|auto|]. intros k. rewrite G. unfold m. cbn [mget]. destruct (seqb k (str "http://a")); reflexivity.
  - destruct (X [(str "http://a", [str "q"])] ltac:(repeat constructor)) as (h & e & R & W & G). rewrite (RW _ _ _ R). f_equal.
    apply wf_map_ext; [auto|repeat constructor|]. intros k. rewrite G. unfold m. cbn [mget]. destruct (seqb k (str "http://a")); reflexivity.
Qed.
Print Assumptions C19_refuted.

(** Adding under a new URI stores the caller's own list, so the two go on sharing:
    deleting one pattern from the engine rewrites the caller's map. *)
Theorem C19_shared_storage : forall grow, let m := [(str "http://a", [str "p"; str "q"])] in
  let '(h, cm) := alloc grow [] m in
  exists h1 e1 h2 e2, legacy_add grow h [] cm = Ok (h1, e1) /\ e1 = cm /\
    (let '(hd, dm) := alloc grow h1 [(str "http://a", [str "p"])] in legacy_del hd e1 dm = Ok (h2, e2)) /\
    contents h2 cm = [(str "http://a", [str "q"; str "q"])].
Proof.
  intros grow. destruct (grow 1) as [|g] eqn:G1; [destruct (grow 2) as [|g2] eqn:G2|].
  all: cbn [alloc clone_list fold_left append1 nil_slice sl_len sl_cap Nat.ltb Nat.leb fst snd List.length app view firstn skipn sl_off sl_arr arr nth];
    rewrite ?G1; cbn; rewrite ?G1, ?G2; do 4 eexists; (split; [reflexivity|]); (split; [reflexivity|]); (split; [cbn; rewrite ?G1; cbn; reflexivity|]); reflexivity.
Qed.
Print Assumptions C19_shared_storage.

Example C19_hypotheses : let sub := [(str "http://a", [str "p"; str "q"]); (str "http://b", [str "p"])] in
  let m := [(str "http://a", [str "r"; str "p"]); (str "http://c", [str "s"])] in
  wf_map sub /\ Forall (fun o => wf_map (op_map o)) [LAdd m; LDel sub] /\ no_twice m /\
  legacy_after (fun n => n) sub [LAdd m] =
    Ok [(str "http://a", [str "p"; str "q"; str "r"]); (str "http://b", [str "p"]); (str "http://c", [str "s"])].
Proof.
  cbv zeta. split; [repeat constructor|]. split; [repeat constructor|]. split; [|vm_compute; reflexivity].
  intros u l. cbn [mget]. destruct (seqb u (str "http://a")); [|destruct (seqb u (str "http://c")); [|discriminate]]; intros E; injection E as <-;
    repeat constructor; cbn; intuition discriminate.
Qed.

(** ** C20 *)
(** A history of calls that deletes at most one stored pattern per URI: exactly
    the given pairs go, the others keep their order. *)
Definition keep_not (ps l : list gostring) : list gostring := filter (fun q => negb (existsb (seqb q) ps)) l.
Lemma is_in_exists ps q : is_in ps q = existsb (seqb q) ps.
Proof.
  destruct (is_in ps q) eqn:E; symmetry.
  - apply is_in_spec in E. apply existsb_exists. exists q. split; auto. apply seqb_refl.
  - destruct (existsb (seqb q) ps) eqn:X; auto. apply existsb_exists in X. destruct X as (x & I & S). apply seqb_eq in S. subst x. apply is_in_spec in I. congruence.
Qed.
Lemma keep_not_is ps l : filter (fun q => negb (is_in ps q)) l = keep_not ps l.
Proof. unfold keep_not. apply filter_ext. intros q. rewrite is_in_exists. auto. Qed.
Lemma hits_is ps l : filter (is_in ps) l = filter (fun q => existsb (seqb q) ps) l.
Proof. apply filter_ext. intros q. apply is_in_exists. Qed.
Lemma history_del grow sub ops m : wf_map sub -> Forall (fun o => wf_map (op_map o)) ops -> wf_map m ->
  exists h e h' e', legacy_run grow sub ops = Ok (h, e) /\ legacy_run grow sub (ops ++ [LDel m]) = Ok (h', e') /\
    wf_map (contents h' e') /\ forall u, mget u (contents h' e') = deleted (mget u (contents h e)) (mget u m).
Proof.
  intros W F Wm. destruct (history_last grow sub ops (LDel m) W F Wm) as (h & e & h1 & sm & h' & e' & R & SEP & C1 & C2 & A & R').
  exists h, e, h', e'. split; auto. split; auto. destruct (legacy_del_spec sm h1 e SEP) as (h2 & e2 & Q & O & G & _).
  rewrite A in Q. injection Q as <- <-. split; [apply contents_wf; apply O|]. cbn [op_map] in C2. rewrite C1, C2 in G. exact G.
Qed.
Theorem C20_delete_partial : forall grow sub ops m, wf_map sub -> Forall (fun o => wf_map (op_map o)) ops -> wf_map m ->
  exists h e h' e', legacy_run grow sub ops = Ok (h, e) /\ legacy_run grow sub (ops ++ [LDel m]) = Ok (h', e') /\
    (no_twice (contents h e) ->
     (forall u p q, pair_in (contents h e) u p -> pair_in (contents h e) u q -> pair_in m u p -> pair_in m u q -> p = q) ->
     (forall u p, pair_in (contents h' e') u p <-> pair_in (contents h e) u p /\ ~ pair_in m u p) /\
     no_twice (contents h' e')).
Proof.
  intros grow sub ops m W F Wm. destruct (history_del grow sub ops m W F Wm) as (h & e & h' & e' & R & R' & _ & G).
  exists h, e, h', e'. split; auto. split; auto. intros ND ONE.
  assert (forall u l ps, mget u (contents h e) = Some l -> mget u m = Some ps -> deleted_list l ps = keep_not ps l) as DL.
  { intros u l ps E1 E2. rewrite <- keep_not_is. pose proof (ND u l E1) as NL. apply deleted_list_one; auto.
    assert (NoDup (filter (is_in ps) l)) as NF by (apply NoDup_filter; auto).
    destruct (filter (is_in ps) l) as [|a [|b r]] eqn:FL; cbn [length]; try lia. exfalso.
    assert (forall x, In x (a :: b :: r) -> In x l /\ In x ps) as X. { intros x I. rewrite <- FL in I. apply filter_In in I. rewrite is_in_spec in I. auto. }
    destruct (X a ltac:(left; auto)) as [A1 A2], (X b ltac:(right; left; auto)) as [B1 B2].
    assert (a = b) as ->. { apply (ONE u); eexists; eauto. }
    apply NoDup_cons_iff in NF. destruct NF as [NF _]. apply NF; left; auto. }
  assert (forall q ps, In q ps <-> existsb (seqb q) ps = true) as EX. { intros q ps. rewrite <- is_in_exists, is_in_spec. reflexivity. }
  split.
  - intros u p. unfold pair_in. rewrite G. destruct (mget u (contents h e)) as [l|] eqn:E1, (mget u m) as [ps|] eqn:E2; cbn [deleted].
    + rewrite (DL u l ps E1 E2). split.
      * intros (x & E & I). assert (In p (keep_not ps l)) as J by (destruct (keep_not ps l); [discriminate|injection E as <-; auto]).
        apply filter_In in J. destruct J as [J K]. split; [eauto|]. intros (y & Y & Z). injection Y as <-. apply EX in Z. rewrite Z in K. discriminate.
      * intros ((x & E & I) & N). injection E as <-. assert (In p (keep_not ps l)) as J.
        { apply filter_In. split; auto. destruct (existsb (seqb p) ps) eqn:K; auto. exfalso. apply N. apply EX in K. eauto. }
        destruct (keep_not ps l); [destruct J|eauto].
    + split; [intros X; split; [exact X|]|tauto]. intros (y & Y & _). discriminate.
    + split; [intros (x & X & _); discriminate|intros ((x & X & _) & _); discriminate].
    + split; [intros (x & X & _); discriminate|intros ((x & X & _) & _); discriminate].
  - intros u l. rewrite G. destruct (mget u (contents h e)) as [l0|] eqn:E1, (mget u m) as [ps|] eqn:E2; cbn [deleted]; try discriminate.
    + rewrite (DL u l0 ps E1 E2). pose proof (NoDup_filter (fun q => negb (existsb (seqb q) ps)) l0 (ND u l0 E1)) as NF. fold (keep_not ps l0) in NF.
      destruct (keep_not ps l0); [discriminate|]. intros E; injection E as <-; auto.
    + intros E. injection E as <-. eauto.
Qed.
Print Assumptions C20_delete_partial.

(** What every deletion leaves: of the stored list [l'] followed by [z], when
    something is deleted, the part of [l'] that stays, and then one copy of [z]
    for every pattern of [l'] that went -- whether or not [z] was to go. *)
Theorem C20_exact : forall grow sub ops m, wf_map sub -> Forall (fun o => wf_map (op_map o)) ops -> wf_map m ->
  exists h e h' e', legacy_run grow sub ops = Ok (h, e) /\ legacy_run grow sub (ops ++ [LDel m]) = Ok (h', e') /\
    forall u,
      match mget u (contents h e), mget u m with
      | None, _ => mget u (contents h' e') = None
      | Some l, None => mget u (contents h' e') = Some l
      | Some l, Some ps =>
          (forall l' z, l = l' ++ [z] -> NoDup l ->
             let gone := filter (fun q => existsb (seqb q) ps) l' in
             let left := if existsb (fun q => existsb (seqb q) ps) l then keep_not ps l' ++ repeat z (length gone) else l in
             mget u (contents h' e') = match left with [] => None | _ => Some left end) /\
          (l = [] -> mget u (contents h' e') = None)
      end.
Proof.
  intros grow sub ops m W F Wm. destruct (history_del grow sub ops m W F Wm) as (h & e & h' & e' & R & R' & _ & G).
  exists h, e, h', e'. split; auto. split; auto. intros u. rewrite G. destruct (mget u (contents h e)) as [l|], (mget u m) as [ps|]; cbn [deleted]; auto.
  split.
  - intros l' z -> ND. cbv zeta. rewrite deleted_list_exact by auto. rewrite keep_not_is, hits_is.
    assert (existsb (is_in ps) (l' ++ [z]) = existsb (fun q => existsb (seqb q) ps) (l' ++ [z])) as ->.
    { clear. induction (l' ++ [z]) as [|a l IH]; auto. cbn [existsb]. rewrite is_in_exists, IH. auto. }
    destruct (if existsb _ (l' ++ [z]) then _ else _); auto.
  - intros ->. rewrite deleted_list_none by (intros p _ []). reflexivity.
Qed.
Print Assumptions C20_exact.

(** The limits of C20_delete_partial are exact: a deletion removes the given pairs and
    nothing else, and leaves nothing twice, if and only if it names at most one stored
    pattern of each URI. *)
Theorem C20_exactly_partial : forall grow sub ops m, wf_map sub -> Forall (fun o => wf_map (op_map o)) ops -> wf_map m ->
  exists h e h' e', legacy_run grow sub ops = Ok (h, e) /\ legacy_run grow sub (ops ++ [LDel m]) = Ok (h', e') /\
    (no_twice (contents h e) ->
       ((forall u p, pair_in (contents h' e') u p <-> pair_in (contents h e) u p /\ ~ pair_in m u p) /\ no_twice (contents h' e')
        <-> forall u p q, pair_in (contents h e) u p -> pair_in (contents h e) u q -> pair_in m u p -> pair_in m u q -> p = q)).
Proof.
  intros grow sub ops m W F Wm. destruct (C20_delete_partial grow sub ops m W F Wm) as (h & e & h' & e' & R & R' & D).
  destruct (C20_exact grow sub ops m W F Wm) as (h1 & e1 & h2 & e2 & R1 & R2 & X).
  assert (h1 = h /\ e1 = e) as [-> ->] by (split; congruence). assert (h2 = h' /\ e2 = e') as [-> ->] by (split; congruence).
  exists h, e, h', e'. split; auto. split; auto. intros NT. split; [|intros O; apply D; auto].
  intros [SET NT'] u p q (l & L1 & LP) (l2 & L2 & LQ) (ps & M1 & MP) (ps2 & M2 & MQ).
  assert (l2 = l) as -> by congruence. assert (ps2 = ps) as -> by congruence. clear L2 M2.
  pose proof (NT u l L1) as ND. specialize (X u). rewrite L1, M1 in X. destruct X as [X _].
  destruct (exists_last (l := l)) as (l' & z & EL). { intros ->. destruct LP. }
  specialize (X l' z EL ND). cbv zeta in X.
  assert (forall x, existsb (seqb x) ps = true <-> In x ps) as IN by (intros x; rewrite <- is_in_exists; apply is_in_spec).
  set (gone := filter (fun q => existsb (seqb q) ps) l') in *.
  replace (existsb (fun q => existsb (seqb q) ps) l) with true in X by (symmetry; apply existsb_exists; exists p; split; auto; apply IN; auto).
  destruct (text_dec p q) as [|NE]; auto. exfalso.
  assert (forall x, In x l -> In x ps -> x <> z -> In x gone) as G.
  { intros x I J N. apply filter_In. split; [|apply IN; auto]. rewrite EL in I. apply in_app_iff in I as [I|[I|[]]]; congruence. }
  assert (forall r, keep_not ps l' ++ repeat z (length gone) = r -> gone <> [] -> r <> []) as RN.
  { intros r <- GN H. apply app_eq_nil in H as [_ H]. destruct gone; [congruence|discriminate]. }
  assert (gone <> []) as GN.
  { destruct (text_dec p z) as [->|PZ]; [pose proof (G q LQ MQ ltac:(congruence)) as I|pose proof (G p LP MP PZ) as I]; intros H; rewrite H in I; destruct I. }
  destruct (keep_not ps l' ++ repeat z (length gone)) as [|c r] eqn:ER; [exact (RN _ eq_refl GN eq_refl)|].
  assert (In z (c :: r)) as IZ. { rewrite <- ER. apply in_app_iff. right. destruct gone; [congruence|left; auto]. }
  destruct (existsb (seqb z) ps) eqn:ZP.
  - apply IN in ZP. destruct (proj1 (SET u z)) as [_ NZ]; [exists (c :: r); auto|]. apply NZ. exists ps. auto.
  - assert (p <> z /\ q <> z) as [PZ QZ] by (split; intros ->; [apply IN in MP|apply IN in MQ]; congruence).
    pose proof (G p LP MP PZ) as IP. pose proof (G q LQ MQ QZ) as IQ.
    destruct gone as [|a [|b g]]; [destruct IP|destruct IP as [<-|[]]; destruct IQ as [<-|[]]; congruence|].
    pose proof (NT' u _ X) as ND'. rewrite <- ER in ND'. cbn [length repeat] in ND'. apply NoDup_remove_2 in ND'. apply ND'. apply in_app_iff. right. left. auto.
Qed.
Print Assumptions C20_exactly_partial.

(** Deleting two patterns of a URI at once leaves one of them, or a duplicate of a
    third. *)
Theorem C20_refuted : let sub := [(str "http://a", [str "p"; str "q"; str "r"])] in
  legacy_after (fun n => n) sub [LDel [(str "http://a", [str "q"; str "r"])]] = Ok [(str "http://a", [str "p"; str "r"])] /\
  legacy_after (fun n => n) sub [LDel [(str "http://a", [str "p"; str "q"])]] = Ok [(str "http://a", [str "r"; str "r"])].
Proof. split; vm_compute; reflexivity. Qed.
Print Assumptions C20_refuted.

Example C20_hypotheses : let sub := [(str "http://a", [str "p"; str "q"; str "r"]); (str "http://b", [str "s"])] in
  let m := [(str "http://a", [str "q"; str "t"]); (str "http://b", [str "s"])] in
  wf_map sub /\ wf_map m /\ legacy_after (fun n => n) sub [LDel m] = Ok [(str "http://a", [str "p"; str "r"])].
Proof. split; [repeat constructor|]. split; [repeat constructor|]. vm_compute; reflexivity. Qed.

(** ** C25, clones *)
(** The clone says the same and lives in storage of its own: whatever slices there
    were before keep their elements and share no cell with it. *)
Theorem C25_clone : forall grow h m, owned h m ->
  exists h' c, clone_slices grow h m = (h', c) /\ contents h' c = contents h m /\ contents h' m = contents h m /\ owned h' c /\
    forall k s, mget k c = Some s -> forall t, slice_ok h t -> view h' t = view h t /\ disjoint s t.
Proof.
  intros grow h m O. destruct (clone_spec grow h m O) as (C1 & C2 & C3 & C4). destruct (clone_slices grow h m) as [h' c]. cbn [fst snd] in *.
  exists h', c. split; auto. split; auto. split; [apply owned_grows; auto|]. split; auto.
  intros k s G t T. split; [apply C3; auto|]. eapply C4; eauto.
Qed.
Print Assumptions C25_clone.
