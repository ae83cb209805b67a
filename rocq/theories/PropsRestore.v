(** C92: restoring replaces what the engine held.  What is assumed of encoding/gob
    is written down in [MGob] and [MRestore]. *)
From Coq Require Import Lia ZifyBool ZifyNat ZifyN.
From Verif Require Import GoBase BinUtil MFilter MTdtCore MSubs MList MPatricia MSplay MGob MRestore PBase PSubs SpecGob PGob SpecRestore PRestore TestVectors PropsGob.

(** On an engine that holds nothing, restoring is what C22, C23 and C59 speak
    about, for any data at all. *)
Theorem C92_fresh : forall data,
  patricia_restore_over GNil data = patricia_restore data /\ splay_restore_over GNil data = splay_restore data.
Proof. intros data. split; [apply (restore_over_nil _ _ pnode_fresh)|apply (restore_over_nil _ _ snode_fresh)]. Qed.
Print Assumptions C92_fresh.

(** Data of another kind changes nothing in an engine that holds something. *)
Theorem C92_other_data : forall old data,
  (hd_error data <> Some (TStr (str "Engine:filtering.PatriciaTrie")) -> patricia_restore_over old data = (old, true)) /\
  (hd_error data <> Some (TStr (str "Engine:filtering.SplayTree")) -> splay_restore_over old data = (old, true)).
Proof.
  assert (forall load tag old data, hd_error data <> Some (TStr tag) -> tree_restore_over load tag old data = (old, true)) as TR.
  { intros load tag old data H. unfold tree_restore_over. destruct data as [|[s|z|b|f|l|l] data]; try reflexivity.
    cbn [map decode_nested pop_str]. destruct (seqb_spec s tag) as [->|]; [destruct H; reflexivity|reflexivity]. }
  intros old data. split; apply TR.
Qed.
Print Assumptions C92_other_data.

(** A trie: the error is the one a fresh engine would give, and the trie is the one
    a fresh engine would have exactly when, place by place, every zero field of a
    saved filter is zero in the filter that was there, and nothing was at a zero
    branch where the saved trie has a one branch only. *)
Theorem C92_patricia_exactly_partial : forall old t data, patricia_save t = Ok data ->
  snd (patricia_restore_over old data) = snd (patricia_restore data) /\
  (patricia_restore_over old data = patricia_restore data <->
   no_residues old (of_ptree (without_lone_zeros t)) /\ no_old_seconds old (of_ptree (without_lone_zeros t))).
Proof.
  intros old t data S. assert (of_ptree t <> GNil) as NG by (destruct t; discriminate).
  destruct (pnode_over_save _ NG) as (g & E & G). destruct (tree_restore_over_save pnode_over patricia_tag _ g NG E) as (d & S' & R).
  unfold patricia_save in S. rewrite S in S'. injection S' as <-.
  assert (patricia_restore data = (gpruned (of_ptree t), gfails (of_ptree t))) as RF.
  { destruct (tree_restore_save pnode_load patricia_tag (of_ptree t) _ _ NG (pnode_load_save _ NG)) as (d & S' & R').
    rewrite S in S'. injection S' as <-. exact R'. }
  unfold patricia_restore_over. rewrite R, G, RF. cbn [snd]. split; [reflexivity|]. rewrite <- gpruned_of.
  rewrite <- poverlay_same. split; [intros X; injection X; auto|intros ->; auto].
Qed.
Print Assumptions C92_patricia_exactly_partial.

(** A splay tree: never an error, and the saved tree is there exactly when, place by
    place, no field and no filter of the tree before shows through. *)
Theorem C92_splay_exactly_partial : forall old t data, splay_save t = Ok data ->
  snd (splay_restore_over old data) = false /\
  (fst (splay_restore_over old data) = of_stree t <-> no_residues old (of_stree t) /\ no_old_filters old (of_stree t)).
Proof.
  intros old t data S. assert (of_stree t <> GNil) as NG by (destruct t; discriminate).
  destruct (snode_over_save _ NG) as (g & E & G). destruct (tree_restore_over_save snode_over splay_tag _ g NG E) as (d & S' & R).
  unfold splay_save in S. rewrite S in S'. injection S' as <-.
  unfold splay_restore_over. rewrite R, G. cbn [fst snd]. split; [reflexivity|]. apply soverlay_same.
Qed.
Print Assumptions C92_splay_exactly_partial.

(** In particular an engine can be restored over itself. *)
Lemma no_residues_refl t : no_residues t t.
Proof.
  induction t as [|u f a IHa b IHb]; cbn [no_residues filter_of first_of second_of]; auto. split; [|auto].
  intros fo fn E E'. rewrite E in E'. injection E' as <-. repeat split; auto.
Qed.
Theorem C92_same_tree_partial : forall t data, splay_save t = Ok data -> splay_restore_over (of_stree t) data = (of_stree t, false).
Proof.
  intros t data S. destruct (C92_splay_exactly_partial (of_stree t) t data S) as [E1 E2].
  destruct (splay_restore_over (of_stree t) data) as [r e]. cbn [fst snd] in *. subst e. f_equal. apply E2.
  split; [apply no_residues_refl|]. clear. induction t as [|u f a IHa b IHb]; cbn [of_stree no_old_filters filter_of first_of second_of]; auto.
Qed.
Print Assumptions C92_same_tree_partial.

(** The list: what was there stays in front, so it is replaced only when it was
    empty.  The text engine: what was there stays, always. *)
Theorem C92_list_exactly_partial : forall (l : list_engine) (before : list loaded),
  list_restore before (list_save l) = list_restore [] (list_save l) <-> before = [].
Proof.
  intros l before. rewrite !list_restore_save. cbn [app]. split; [|intros ->; reflexivity].
  intros E. injection E as E. apply (f_equal (@length _)) in E. rewrite app_length in E. destruct before; auto. cbn [length] in E. lia.
Qed.
Print Assumptions C92_list_exactly_partial.
(** A map of subscriptions: the saved entries are there exactly as saved when every
    URI that was there is among the saved ones. *)
Theorem C92_subscriptions_exactly_partial : forall sub before, NoDup (map fst sub) -> wf_map before ->
  exists m, subs_restore (Some before) (subs_save sub) = Ok (Some m, false) /\
    ((forall k, mget k m = sub_get k sub) <-> (forall k v, mget k before = Some v -> sub_get k sub <> None)).
Proof.
  intros sub before ND W. destruct (C25_round_trip sub before ND W) as (m & R & _ & G). exists m. split; [exact R|].
  split; intros H k.
  - intros v B N. specialize (H k). rewrite G, N, B in H. discriminate.
  - rewrite G. destruct (sub_get k sub) eqn:E; auto. destruct (mget k before) eqn:B; auto. destruct (H k l B). exact E.
Qed.
Print Assumptions C92_subscriptions_exactly_partial.

(** A trie with one subscription; then data is restored in which nothing is wrong
    and no error is reported.  A tag that the saved trie reports is no longer
    reported: the new root has the size of the old one. *)
Definition ex_old : subscriptions := [(str "http://c", [str "urn:epc:pat:sgtin-96:3.0614141.012345"])].
Definition ex_mixed : subscriptions :=
  [(str "http://a", [str "urn:epc:pat:sgtin-96:3.0614141.812345"]); (str "http://b", [str "urn:epc:pat:iso17365:25S.UN.ABC"])].
Definition ex_id : list N := [48; 116; 37; 123; 247; 25; 78; 96; 0; 0; 0; 1]%N.
Theorem C92_patricia_refuted : exists old t t' data, new_patricia E0 ex_old = Some old /\ new_patricia E0 ex_mixed = Some t /\
  patricia_save t = Ok data /\ patricia_restore data = (of_ptree t, false) /\ patricia_restore_over (of_ptree old) data = (of_ptree t', false) /\
  patricia_search t pcgs1 ex_id = Ok (str "urn:epc:id:sgtin:0614141.812345.137438953473", [str "http://a"], false) /\
  patricia_search t' pcgs1 ex_id = Ok ([], [], true).
Proof.
  assert (exists old t data, new_patricia E0 ex_old = Some old /\ new_patricia E0 ex_mixed = Some t /\ patricia_save t = Ok data) as (old & t & data & EO & ET & ES).
  { eexists _, _, _. split; [vm_compute; reflexivity|]. split; [vm_compute; reflexivity|]. vm_compute. reflexivity. }
  vm_compute in EO. injection EO as <-. vm_compute in ET. injection ET as <-. vm_compute in ES. injection ES as <-.
  eexists _, _, (PNode _ _ (PNode _ _ PNil PNil) (PNode _ _ PNil PNil)), _.
  split; [vm_compute; reflexivity|]. split; [vm_compute; reflexivity|]. split; [vm_compute; reflexivity|].
  split; [vm_compute; reflexivity|]. split; [vm_compute; reflexivity|]. split; [vm_compute; reflexivity|]. vm_compute. reflexivity.
Qed.
Print Assumptions C92_patricia_refuted.

(** Two splay trees with nested subscriptions: the saved inner filter begins in the
    first byte of the tag, so its byte offset is not sent and the one of the tree
    before stays. *)
Definition ex_iso : subscriptions :=
  [(str "http://a", [str "urn:epc:pat:iso17365:2"]); (str "http://b", [str "urn:epc:pat:iso17365:25S.UN.ABC"])].
Definition ex_iso_id : list N := [203; 84; 213; 56; 16; 131; 203; 44; 178; 203]%N.
Definition pc_iso : list N := [41; 162]%N.
Definition answer {A} (r : result (search_result * A)) : result search_result := match r with Ok (a, _) => Ok a | Err => Err | Panic => Panic end.
Theorem C92_splay_refuted : exists old t t' data, new_splay E0 ex_nested = Ok old /\ new_splay E0 ex_iso = Ok t /\
  splay_save t = Ok data /\ splay_restore data = (of_stree t, false) /\ splay_restore_over (of_stree old) data = (of_stree t', false) /\
  answer (splay_search t pc_iso ex_iso_id) = Ok (str "urn:epc:id:iso17365:25SUNABC22222", [str "http://a"; str "http://b"], false) /\
  answer (splay_search t' pc_iso ex_iso_id) = Ok (str "urn:epc:id:iso17365:25SUNABC22222", [str "http://a"], false).
Proof.
  assert (exists old t data, new_splay E0 ex_nested = Ok old /\ new_splay E0 ex_iso = Ok t /\ splay_save t = Ok data) as (old & t & data & EO & ET & ES).
  { eexists _, _, _. split; [vm_compute; reflexivity|]. split; [vm_compute; reflexivity|]. vm_compute. reflexivity. }
  exists old, t. vm_compute in EO. injection EO as <-. vm_compute in ET. injection ET as <-. vm_compute in ES. injection ES as <-.
  eexists (SNode _ (Some _) (SNode _ (Some _) SNil SNil) SNil), _.
  split; [vm_compute; reflexivity|]. split; [vm_compute; reflexivity|]. split; [vm_compute; reflexivity|].
  split; [vm_compute; reflexivity|]. split; [vm_compute; reflexivity|]. split; [vm_compute; reflexivity|]. vm_compute. reflexivity.
Qed.
Print Assumptions C92_splay_refuted.

(** The saved trees of the exact theorems, and trees over which they are restored
    faithfully: here the tree with the filter further to the right is saved. *)
Example C92_hypotheses : exists old t data, new_splay E0 ex_iso = Ok old /\ new_splay E0 ex_nested = Ok t /\ splay_save t = Ok data /\
  old <> t /\ no_residues (of_stree old) (of_stree t) /\ no_old_filters (of_stree old) (of_stree t).
Proof.
  assert (exists old t data, new_splay E0 ex_iso = Ok old /\ new_splay E0 ex_nested = Ok t /\ splay_save t = Ok data) as (old & t & data & EO & ET & ES).
  { eexists _, _, _. split; [vm_compute; reflexivity|]. split; [vm_compute; reflexivity|]. vm_compute. reflexivity. }
  exists old, t, data. vm_compute in EO. injection EO as <-. vm_compute in ET. injection ET as <-.
  split; [vm_compute; reflexivity|]. split; [vm_compute; reflexivity|]. split; [exact ES|]. split; [discriminate|].
  cbn [of_stree no_residues no_old_filters filter_of first_of second_of]. split.
  - split; [|split; [split; [|auto]|exact I]]; intros fo fn E E'; injection E as <-; injection E' as <-; repeat split; intros X; try discriminate X; reflexivity.
  - split; [discriminate|]. split; [|exact I]. split; [discriminate|split; exact I].
Qed.
Example C92_hypotheses_patricia : exists old t data, new_patricia E0 ex_mixed = Some old /\ new_patricia E0 ex_full = Some t /\ patricia_save t = Ok data /\
  old <> t /\ patricia_restore_over (of_ptree old) data = patricia_restore data.
Proof.
  assert (exists old t data, new_patricia E0 ex_mixed = Some old /\ new_patricia E0 ex_full = Some t /\ patricia_save t = Ok data) as (old & t & data & EO & ET & ES).
  { eexists _, _, _. split; [vm_compute; reflexivity|]. split; [vm_compute; reflexivity|]. vm_compute. reflexivity. }
  exists old, t, data. vm_compute in EO. injection EO as <-. vm_compute in ET. injection ET as <-. vm_compute in ES. injection ES as <-.
  split; [vm_compute; reflexivity|]. split; [vm_compute; reflexivity|]. split; [vm_compute; reflexivity|]. split; [discriminate|]. vm_compute. reflexivity.
Qed.
