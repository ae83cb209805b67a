(** Proofs about saving and restoring. *)
From Coq Require Import Permutation Lia ZifyBool ZifyNat ZifyN.
From Verif Require Import GoBase BinUtil MFilter MTdtCore MSubs MList MPatricia MSplay MGob PBase PSubs SpecGob.

Lemma cut_app {A} (p a b : list A) : cut_off p (a ++ b) -> cut_off p a \/ exists p', p = a ++ p' /\ cut_off p' b.
Proof.
  revert p. induction a as [|x a IH]; intros p H; cbn [app] in *.
  - right. exists p. auto.
  - destruct H as (r & NE & E). destruct p as [|y p].
    + left. exists (x :: a). split; [discriminate|reflexivity].
    + cbn [app] in E. injection E as <- E. destruct (IH p) as [(q & Q & ->)|(p' & -> & C)].
      * exists r; auto.
      * left. exists q. auto.
      * right. exists p'. auto.
Qed.
Lemma cut_cons {A} (p : list A) x b : cut_off p (x :: b) -> p = [] \/ exists p', p = x :: p' /\ cut_off p' b.
Proof.
  intros (r & NE & E). destruct p as [|y p]; [left; auto|right]. cbn [app] in E. injection E as <- E.
  exists p. split; auto. exists r. auto.
Qed.
Lemma cut_nil {A} (p : list A) : ~ cut_off p [].
Proof. intros (r & NE & E). symmetry in E. apply app_eq_nil in E. tauto. Qed.

Lemma plain_app a b : plain (a ++ b) = plain a ++ plain b.
Proof. apply map_app. Qed.
Lemma plain_cons t l : plain (t :: l) = decode_nested (fun _ => (tt, false)) t :: plain l.
Proof. reflexivity. Qed.

(** *** List *)
Definition loaded_of (em : exact_match) : loaded := (em_uri em, Some (em_filter em)).
Definition em_toks (em : exact_match) : list tok := [TStr (em_uri em); TFo (em_filter em)].
Lemma list_load_spec l : forall rest acc,
  list_load (length l) (plain (flat_map em_toks l) ++ rest) acc false = (acc ++ map loaded_of l, false).
Proof.
  induction l as [|em l IH]; intros rest acc.
  - cbn. rewrite app_nil_r. auto.
  - cbn [length list_load flat_map em_toks app plain map decode_nested pop_str pop_fo].
    change (map (decode_nested (fun _ : list (dtok unit) => (tt, false))) (flat_map em_toks l)) with (plain (flat_map em_toks l)).
    rewrite IH. rewrite <- app_assoc. reflexivity.
Qed.
Lemma list_restore_save l old : list_restore old (list_save l) = (old ++ map loaded_of l, false).
Proof.
  unfold list_restore, list_save. rewrite !plain_cons. cbn [decode_nested pop_str pop_int].
  rewrite seqb_refl, Nat2Z.id. change (fun em => [TStr (em_uri em); TFo (em_filter em)]) with em_toks.
  rewrite <- (app_nil_r (plain (flat_map em_toks l))). apply list_load_spec.
Qed.
Lemma list_load_cut l : forall pre acc e, cut_off pre (flat_map em_toks l) ->
  exists k, k <= length l /\ exists lost, list_load (length l) (plain pre) acc e = (acc ++ map loaded_of (firstn k l) ++ lost, true)
    /\ (lost = [] \/ exists em, nth_error l k = Some em /\ lost = [(em_uri em, None)]).
Proof.
  induction l as [|em l IH]; intros pre acc e C.
  - destruct (cut_nil _ C).
  - cbn [flat_map em_toks app] in C. apply cut_cons in C. destruct C as [->|(p & -> & C)].
    + exists 0. split; [lia|]. exists []. cbn. rewrite app_nil_r. auto.
    + cbn [length list_load]. rewrite plain_cons. cbn [decode_nested pop_str].
      apply cut_cons in C. destruct C as [->|(p' & -> & C)].
      * exists 0. split; [lia|]. exists [(em_uri em, None)]. cbn [plain map pop_fo firstn app]. split; [|right; exists em; auto].
        destruct (length l) as [|n] eqn:L; cbn [list_load pop_str]; reflexivity.
      * rewrite plain_cons. cbn [decode_nested pop_fo]. destruct (IH p' (acc ++ [loaded_of em]) false C) as (k & K & lost & E & HL).
        exists (S k). split; [cbn; lia|]. exists lost. split; [etransitivity; [exact E|]; rewrite <- app_assoc; reflexivity|exact HL].
Qed.

(** *** Trees *)
Lemma snode_load_save t : t <> GNil -> decode_nested snode_load (TBin (node_save t)) = DBin t false.
Proof.
  induction t as [|u f a IHa b IHb]; [congruence|]. intros _.
  assert (map (decode_nested snode_load) (match a with GNil => [TBool false] | _ => [TBool true; TBin (node_save a)] end)
          = match a with GNil => [DBool false] | _ => [DBool true; DBin a false] end) as EA.
  { destruct a; [reflexivity|]. cbn [map]. rewrite IHa by discriminate. reflexivity. }
  assert (map (decode_nested snode_load) (match b with GNil => [TBool false] | _ => [TBool true; TBin (node_save b)] end)
          = match b with GNil => [DBool false] | _ => [DBool true; DBin b false] end) as EB.
  { destruct b; [reflexivity|]. cbn [map]. rewrite IHb by discriminate. reflexivity. }
  clear IHa IHb. cbn [decode_nested node_save]. cbn [map]. rewrite !map_app, EA, EB.
  destruct f, a, b; reflexivity.
Qed.

Fixpoint gpruned (t : gtree) : gtree :=
  match t with
  | GNil => GNil
  | GNode u f a b => GNode u f (gpruned a) (match a with GNil => GNil | _ => gpruned b end)
  end.
Fixpoint gfails (t : gtree) : bool :=
  match t with
  | GNil => false
  | GNode _ _ a b => match a with GNil => false | _ => match b with GNil => true | _ => gfails b end end
  end.
Lemma pnode_load_save t : t <> GNil -> decode_nested pnode_load (TBin (node_save t)) = DBin (gpruned t) (gfails t).
Proof.
  induction t as [|u f a IHa b IHb]; [congruence|]. intros _.
  assert (map (decode_nested pnode_load) (match a with GNil => [TBool false] | _ => [TBool true; TBin (node_save a)] end)
          = match a with GNil => [DBool false] | _ => [DBool true; DBin (gpruned a) (gfails a)] end) as EA.
  { destruct a; [reflexivity|]. cbn [map]. rewrite IHa by discriminate. reflexivity. }
  assert (map (decode_nested pnode_load) (match b with GNil => [TBool false] | _ => [TBool true; TBin (node_save b)] end)
          = match b with GNil => [DBool false] | _ => [DBool true; DBin (gpruned b) (gfails b)] end) as EB.
  { destruct b; [reflexivity|]. cbn [map]. rewrite IHb by discriminate. reflexivity. }
  clear IHa IHb. cbn [decode_nested node_save]. cbn [map]. rewrite !map_app, EA, EB.
  destruct f, a, b; reflexivity.
Qed.
Lemma gpruned_of t : gpruned (of_ptree t) = of_ptree (without_lone_zeros t).
Proof.
  induction t as [|u f o IHo z IHz]; auto. cbn [of_ptree gpruned without_lone_zeros]. rewrite IHo. f_equal.
  destruct o; cbn [of_ptree]; auto.
Qed.
Lemma gfails_of t : gfails (of_ptree t) = true <-> zero_path_ends_in_lone_one t.
Proof.
  induction t as [|u f o IHo z IHz]; cbn [of_ptree gfails zero_path_ends_in_lone_one]; [intuition discriminate|].
  destruct o; cbn [of_ptree]; [intuition discriminate|]. destruct z; [tauto|]. exact IHz.
Qed.
Lemma of_ptree_inj a : forall b, of_ptree a = of_ptree b -> a = b.
Proof.
  induction a as [|u f o IHo z IHz]; intros [|u' f' o' z'] E; cbn in E; try discriminate; auto.
  injection E as -> -> E1 E2. f_equal; auto.
Qed.
Lemma of_stree_inj a : forall b, of_stree a = of_stree b -> a = b.
Proof.
  induction a as [|u f o IHo z IHz]; intros [|u' f' o' z'] E; cbn in E; try discriminate; auto.
  injection E as -> -> E1 E2. f_equal; auto.
Qed.
Lemma tree_restore_save load tag t n e : t <> GNil -> decode_nested load (TBin (node_save t)) = DBin n e ->
  exists data, tree_save tag t = Ok data /\ tree_restore load tag data = (n, e).
Proof.
  intros NE E. exists [TStr tag; TBin (node_save t)]. split; [destruct t; [congruence|reflexivity]|].
  unfold tree_restore. cbn [map]. rewrite E. cbn [decode_nested pop_str]. rewrite seqb_refl. reflexivity.
Qed.

(** *** Subscriptions *)
Lemma read_strings_spec vs : forall rest, read_strings (length vs) (plain (map TStr vs) ++ rest) = (Some vs, rest).
Proof.
  induction vs as [|v vs IH]; intros rest; auto.
  cbn [length read_strings map]. rewrite plain_cons. cbn [decode_nested app pop_str]. rewrite IH. reflexivity.
Qed.
Lemma read_strings_cut vs : forall pre, cut_off pre (map TStr vs) -> fst (read_strings (length vs) (plain pre)) = None.
Proof.
  induction vs as [|v vs IH]; intros pre C; [destruct (cut_nil _ C)|].
  cbn [map] in C. apply cut_cons in C. destruct C as [->|(p & -> & C)]; [reflexivity|].
  cbn [length read_strings]. rewrite plain_cons. cbn [decode_nested pop_str].
  specialize (IH p C). destruct (read_strings (length vs) (plain p)) as [r l2]. cbn [fst] in *. rewrite IH. reflexivity.
Qed.
Definition put (m : smap (list gostring)) (kv : gostring * list gostring) := mset (fst kv) (snd kv) m.
Lemma subs_load_spec es : forall m,
  subs_load (length es) (plain (flat_map entry_toks es)) (Some m) = Ok (Some (fold_left put es m), false).
Proof.
  induction es as [|[k vs] es IH]; intros m; auto.
  cbn [flat_map entry_toks fst snd app length subs_load]. rewrite !plain_cons. cbn [decode_nested pop_str pop_int].
  rewrite Nat2Z.id. rewrite plain_app, read_strings_spec. rewrite IH. reflexivity.
Qed.
Lemma subs_load_cut es : forall pre m, cut_off pre (flat_map entry_toks es) ->
  exists k, k < length es /\ subs_load (length es) (plain pre) (Some m) = Ok (Some (fold_left put (firstn k es) m), true).
Proof.
  induction es as [|[k vs] es IH]; intros pre m C; [destruct (cut_nil _ C)|].
  cbn [flat_map entry_toks fst snd app] in C. cbn [length subs_load].
  apply cut_cons in C. destruct C as [->|(p & -> & C)]; [exists 0; split; [lia|reflexivity]|].
  rewrite plain_cons. cbn [decode_nested pop_str].
  apply cut_cons in C. destruct C as [->|(q & -> & C)]; [exists 0; split; [lia|reflexivity]|].
  rewrite plain_cons. cbn [decode_nested pop_int]. rewrite Nat2Z.id.
  apply cut_app in C. destruct C as [C|(r & -> & C)].
  - apply read_strings_cut in C. destruct (read_strings (length vs) (plain q)) as [o l3]. cbn [fst] in C. subst o.
    exists 0. split; [lia|reflexivity].
  - rewrite plain_app, read_strings_spec. destruct (IH r (mset k vs m) C) as (n & L & E).
    exists (S n). split; [lia|]. rewrite E. reflexivity.
Qed.
Definition entry_of (sub : subscriptions) (k : gostring) : gostring * list gostring :=
  (k, match sub_get k sub with Some v => v | None => [] end).
Lemma subs_save_eq sub : subs_save sub = TInt (Z.of_nat (length sub)) :: flat_map entry_toks (map (entry_of sub) (sub_keys sub)).
Proof. unfold subs_save. f_equal. rewrite flat_map_concat_map, flat_map_concat_map, map_map. reflexivity. Qed.
Lemma sub_keys_length sub : length (sub_keys sub) = length sub.
Proof.
  unfold sub_keys. rewrite <- (Permutation_length (sort_strings_perm (map fst sub))). apply map_length.
Qed.
Lemma fold_put_get es : forall m k, NoDup (map fst es) ->
  mget k (fold_left put es m) = match mget k es with Some v => Some v | None => mget k m end.
Proof.
  induction es as [|[k' v'] es IH]; intros m k ND; auto.
  cbn [map fst] in ND. apply NoDup_cons_iff in ND. destruct ND as [NI ND].
  cbn [fold_left]. rewrite IH by auto. cbn [mget]. unfold put. cbn [fst snd]. rewrite mget_mset.
  destruct (seqb_spec k k') as [->|N]; auto.
  destruct (mget k' es) eqn:E; auto. exfalso. apply NI. apply mget_In in E. apply (in_map fst) in E. auto.
Qed.
Lemma fold_put_wf es : forall m, wf_map m -> wf_map (fold_left put es m).
Proof. induction es as [|e es IH]; intros m W; auto. cbn [fold_left]. apply IH. apply mset_wf; auto. Qed.
Lemma entries_NoDup sub : NoDup (map fst sub) -> NoDup (map fst (map (entry_of sub) (sub_keys sub))).
Proof.
  intros ND. rewrite map_map. cbn [entry_of fst]. rewrite map_id.
  eapply Permutation_NoDup; [apply sort_strings_perm|auto].
Qed.
Lemma entries_get sub k : NoDup (map fst sub) -> mget k (map (entry_of sub) (sub_keys sub)) = sub_get k sub.
Proof.
  intros ND.
  assert (forall s, sub_get k s = mget k s) as SG by (induction s as [|[a b] s IH]; cbn [sub_get mget]; [reflexivity|rewrite IH; reflexivity]).
  rewrite <- SG. apply (sub_clone_get sub k ND).
Qed.

(** *** Partial subscriptions *)
Lemma psub_nested_ind (P : psub -> Prop) :
  (forall o u s, Forall (fun kv => P (snd kv)) s -> P (PSub o u s)) -> forall p, P p.
Proof.
  intros H. fix IH 1. intros [o u s]. apply H. induction s as [|[k q] s IHs]; constructor; [apply IH|exact IHs].
Qed.
Lemma map_load_spec l : forall acc,
  map_load (map (fun kv => (fst kv, DBin (snd kv) false)) l) acc = (fold_left (fun m kv => mset (fst kv) (snd kv) m) l acc, false).
Proof. induction l as [|[k v] l IH]; intros acc; [reflexivity|]. cbn [map map_load fold_left fst snd]. apply IH. Qed.
Lemma fold_mset_get {V} (es : list (gostring * V)) : forall m k, NoDup (map fst es) ->
  mget k (fold_left (fun m kv => mset (fst kv) (snd kv) m) es m) = match mget k es with Some v => Some v | None => mget k m end.
Proof.
  induction es as [|[k' v'] es IH]; intros m k ND; auto.
  cbn [map fst] in ND. apply NoDup_cons_iff in ND. destruct ND as [NI ND].
  cbn [fold_left]. rewrite IH by auto. cbn [mget fst snd]. rewrite mget_mset.
  destruct (seqb_spec k k') as [->|N]; auto.
  destruct (mget k' es) eqn:E; auto. exfalso. apply NI. apply mget_In in E. apply (in_map fst) in E. auto.
Qed.
Lemma fold_mset_wf {V} (es : list (gostring * V)) : forall m, wf_map m -> wf_map (fold_left (fun m kv => mset (fst kv) (snd kv) m) es m).
Proof. induction es as [|e es IH]; intros m W; auto. cbn [fold_left]. apply IH. apply mset_wf; auto. Qed.
Lemma mget_NoDup_In {V} (m : list (gostring * V)) k v : NoDup (map fst m) -> In (k, v) m -> mget k m = Some v.
Proof.
  induction m as [|[k' v'] m IH]; intros ND I; [destruct I|]. cbn [map fst] in ND. apply NoDup_cons_iff in ND. destruct ND as [NI ND].
  cbn [mget]. destruct I as [E|I].
  - injection E as -> ->. rewrite seqb_refl. reflexivity.
  - destruct (seqb_spec k k') as [->|]; auto. exfalso. apply NI. apply (in_map fst) in I. auto.
Qed.
Lemma rebuild {V} (s l : list (gostring * V)) : wf_map s -> Permutation s l -> fold_left (fun m kv => mset (fst kv) (snd kv) m) l [] = s.
Proof.
  intros W P. apply wf_map_ext; auto. { apply fold_mset_wf. constructor. }
  assert (NoDup (map fst s)) as NS by (apply ssorted_NoDup; exact W).
  assert (NoDup (map fst l)) as NL. { eapply Permutation_NoDup; [|exact NS]. apply Permutation_map; auto. }
  intros k. rewrite fold_mset_get by auto. cbn [mget].
  destruct (mget k l) eqn:E.
  - symmetry. apply mget_NoDup_In; auto. apply mget_In in E. eapply Permutation_in; [apply Permutation_sym; eauto|auto].
  - destruct (mget k s) eqn:E'; auto. apply mget_In in E'. apply (Permutation_in _ P) in E'. apply mget_NoDup_In in E'; auto. congruence.
Qed.
Lemma psub_load_save : forall p q, well_keyed p -> reordered p q ->
  decode_nested psub_load (TBin (psub_save q)) = DBin (of_psub p) false.
Proof.
  induction p as [o u s IH] using psub_nested_ind. intros q W R. inversion R as [? ? ? s' s'' F P]; subst. inversion W as [? ? ? WM WF]; subst.
  cbn [psub_save decode_nested map psub_load pop_int pop_str of_psub].
  set (g := fun kv : gostring * psub => (fst kv, decode_nested psub_load (TBin (psub_save (snd kv))))).
  assert (map g s' = map (fun kv => (fst kv, DBin (snd kv) false)) (map (fun kv => (fst kv, of_psub (snd kv))) s)) as E1.
  { clear P R W WM. induction F as [|[k a] [k' b] s s' [EK RA] F IHF]; [reflexivity|]. cbn [fst snd] in *. subst k'.
    apply Forall_cons_iff in IH. destruct IH as [IHa IH]. apply Forall_cons_iff in WF. destruct WF as [WA WF].
    cbn [map]. rewrite IHF by auto. unfold g at 1. cbn [fst snd]. rewrite (IHa b) by auto. reflexivity. }
  rewrite map_map.
  change (map (fun x => (fst (fst x, TBin (psub_save (snd x))), decode_nested psub_load (snd (fst x, TBin (psub_save (snd x)))))) s'') with (map g s'').
  assert (Permutation (map g s') (map g s'')) as PG by (apply Permutation_map; auto).
  rewrite E1 in PG. apply Permutation_sym, Permutation_map_inv in PG. destruct PG as (l & EL & PL). rewrite EL, map_load_spec.
  f_equal. f_equal. apply rebuild; auto.
  unfold wf_map, mkeys in *. rewrite map_map. exact WM.
Qed.
Lemma NoDup_app_l {A} (l r : list A) : NoDup (l ++ r) -> NoDup l.
Proof.
  induction l as [|a l IH]; cbn [app]; intros H; [constructor|]. apply NoDup_cons_iff in H. destruct H as [N H].
  constructor; auto. intros I. apply N. apply in_or_app; auto.
Qed.
