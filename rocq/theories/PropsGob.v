(** C21-C25, C57-C59: saving and restoring engines and subscriptions.  What is
    assumed of encoding/gob is written down in [MGob]. *)
From Coq Require Import Permutation Lia ZifyBool ZifyNat ZifyN.
From Verif Require Import GoBase BinUtil MFilter MTdtCore MSubs MList MPatricia MSplay MGob PBase PSubs SpecGob PGob TestVectors.

(** ** C21 *)
(** What is restored is what was saved, entry by entry and in order; a list that
    already held something keeps it in front. *)
Theorem C21_list_round_trip : forall (l : list_engine) (before : list loaded),
  list_restore before (list_save l) = (before ++ map (fun em => (em_uri em, Some (em_filter em))) l, false).
Proof. intros l before. apply list_restore_save. Qed.
Print Assumptions C21_list_round_trip.
(** The first value is not the tag of a List: error, and nothing changes. *)
Theorem C21_other_type_rejected : forall before data, hd_error data <> Some (TStr (str "Engine:filtering.List")) ->
  list_restore before data = (before, true).
Proof.
  intros before data H. unfold list_restore. destruct data as [|[s|z|b|f|l|l] data]; try reflexivity.
  cbn [plain map decode_nested pop_str]. destruct (seqb_spec s list_tag) as [->|]; [destruct H; reflexivity|reflexivity].
Qed.
Print Assumptions C21_other_type_rejected.

(** ** C59 *)
(** Data saved by one engine type is refused by the three others, which stay as
    they were. *)
Theorem C59_foreign_data_rejected : forall (l : list_engine) (p : ptree) (t : stree) (m : smap (list gostring)) pd td,
  patricia_save p = Ok pd -> splay_save t = Ok td ->
  (forall old, Forall (fun d => list_restore old d = (old, true)) [pd; td; legacy_save m]) /\
  Forall (fun d => patricia_restore d = (GNil, true)) [list_save l; td; legacy_save m] /\
  Forall (fun d => splay_restore d = (GNil, true)) [list_save l; pd; legacy_save m] /\
  (forall old, Forall (fun d => legacy_restore old d = (old, true)) [list_save l; pd; td]).
Proof.
  intros l p t m pd td EP ET.
  unfold patricia_save, splay_save in *. destruct (of_ptree p) as [|u f a b]; [discriminate|]. destruct (of_stree t) as [|u' f' a' b']; [discriminate|].
  unfold tree_save in EP, ET. injection EP as <-. injection ET as <-. generalize (node_save (GNode u f a b)) as n. generalize (node_save (GNode u' f' a' b')) as n'.
  intros n' n.
  split; [|split; [|split]]; intros; repeat (apply Forall_cons; [reflexivity|]); constructor.
Qed.
Print Assumptions C59_foreign_data_rejected.
(** The same for any data at all that does not begin with the right tag. *)
Theorem C59_any_other_data : forall data,
  (hd_error data <> Some (TStr (str "Engine:filtering.PatriciaTrie")) -> patricia_restore data = (GNil, true)) /\
  (hd_error data <> Some (TStr (str "Engine:filtering.SplayTree")) -> splay_restore data = (GNil, true)) /\
  (hd_error data <> Some (TStr (str "Engine:filtering.LegacyEngine")) -> forall old, legacy_restore old data = (old, true)).
Proof.
  assert (forall load tag data, hd_error data <> Some (TStr tag) -> tree_restore load tag data = (GNil, true)) as TR.
  { intros load tag data H. unfold tree_restore. destruct data as [|[s|z|b|f|l|l] data]; try reflexivity.
    - cbn [map decode_nested pop_str]. destruct (seqb_spec s tag) as [->|]; [destruct H; reflexivity|reflexivity].
    - cbn [map decode_nested]. destruct (load (map (decode_nested load) l)). reflexivity. }
  intros data. split; [apply TR|split; [apply TR|]]. intros H old. unfold legacy_restore.
  destruct data as [|[s|z|b|f|l|l] data]; try reflexivity.
  cbn [plain map decode_nested pop_str]. destruct (seqb_spec s legacy_tag) as [->|]; [destruct H; reflexivity|reflexivity].
Qed.
Print Assumptions C59_any_other_data.

(** ** C22 *)
(** A trie in which every node has both children or none comes back as it was. *)
Theorem C22_full_partial : forall t, t <> PNil -> full t ->
  exists data, patricia_save t = Ok data /\ patricia_restore data = (of_ptree t, false).
Proof.
  intros t NE F. destruct (tree_restore_save pnode_load patricia_tag (of_ptree t) (gpruned (of_ptree t)) (gfails (of_ptree t))) as (d & S & R).
  { destruct t; [congruence|discriminate]. } { apply pnode_load_save. destruct t; [congruence|discriminate]. }
  exists d. split; auto. unfold patricia_restore. rewrite R, gpruned_of. f_equal.
  - f_equal. clear NE S R d. induction t as [|u f o IHo z IHz]; auto. cbn [full] in F. destruct F as (I & FO & FZ). cbn [without_lone_zeros].
    rewrite IHo by auto. f_equal. destruct o; [symmetry; apply I; auto|auto].
  - destruct (gfails (of_ptree t)) eqn:G; auto. exfalso. apply gfails_of in G. clear NE S R d.
    induction t as [|u f o IHo z IHz]; auto. cbn [full] in F. destruct F as (I & FO & FZ). cbn [zero_path_ends_in_lone_one] in G.
    destruct o; auto. destruct z; auto. destruct I as [_ I]. discriminate (I eq_refl).
Qed.
Print Assumptions C22_full_partial.
(** What happens to any trie: subtrees under a zero branch without a one branch
    are dropped without an error, and an error is returned exactly when the path
    of zero branches ends in a node with a one branch only. *)
Theorem C22_exact : forall t, t <> PNil ->
  exists data err, patricia_save t = Ok data /\ patricia_restore data = (of_ptree (without_lone_zeros t), err) /\
    (err = true <-> zero_path_ends_in_lone_one t).
Proof.
  intros t NE. destruct (tree_restore_save pnode_load patricia_tag (of_ptree t) (gpruned (of_ptree t)) (gfails (of_ptree t))) as (d & S & R).
  { destruct t; [congruence|discriminate]. } { apply pnode_load_save. destruct t; [congruence|discriminate]. }
  exists d, (gfails (of_ptree t)). split; auto. unfold patricia_restore. rewrite R, gpruned_of. split; auto. apply gfails_of.
Qed.
Print Assumptions C22_exact.
(** So the trie comes back whole exactly when no zero branch is alone. *)
Theorem C22_same_iff : forall t data, patricia_save t = Ok data ->
  (fst (patricia_restore data) = of_ptree t <-> no_lone_zero t).
Proof.
  intros t data S. destruct (C22_exact t) as (d & err & S' & R & _). { intros ->. discriminate. }
  rewrite S in S'. injection S' as <-. rewrite R. cbn [fst]. clear. split.
  - intros E. apply of_ptree_inj in E. induction t as [|u f o IHo z IHz]; cbn [no_lone_zero]; auto.
    cbn [without_lone_zeros] in E. injection E as EO EZ. split; [|split; [auto|]].
    + intros ->. auto.
    + destruct o; [subst z; exact I|auto].
  - intros N. f_equal. induction t as [|u f o IHo z IHz]; auto. cbn [no_lone_zero] in N. destruct N as (N & NO & NZ).
    cbn [without_lone_zeros]. rewrite IHo by auto. f_equal. destruct o; [symmetry; auto|auto].
Qed.
Print Assumptions C22_same_iff.
(** Read as a trie, with the one child first, what is restored is the trie without the
    subtrees below a lone zero: the saved one if and only if there are none. *)
Theorem C22_read_exact : forall t data, patricia_save t = Ok data ->
  read_ptree (fst (patricia_restore data)) = Some (without_lone_zeros t) /\
  (read_ptree (fst (patricia_restore data)) = Some t <-> no_lone_zero t).
Proof.
  assert (forall t, read_ptree (of_ptree t) = Some t) as RO.
  { induction t as [|v f o IHo z IHz]; cbn [of_ptree read_ptree]; auto. rewrite IHo, IHz. reflexivity. }
  intros t data S. destruct (C22_exact t) as (d & err & S' & R & _). { intros ->; discriminate S. }
  rewrite S in S'. injection S' as <-. rewrite R. cbn [fst]. split; [apply RO|]. rewrite RO.
  rewrite <- (C22_same_iff t data S), R. cbn [fst]. split.
  - intros K. injection K as ->. reflexivity.
  - intros K. f_equal. apply (f_equal read_ptree) in K. rewrite !RO in K. injection K as K. exact K.
Qed.
Print Assumptions C22_read_exact.

(** A trie built from two subscriptions loses one of them, silently; and one built
    from two others is restored but reported as an error. *)
Definition ex_nested : subscriptions :=
  [(str "http://a", [str "urn:epc:pat:sgtin-96:3.0614141"]); (str "http://b", [str "urn:epc:pat:sgtin-96:3.0614141.012345"])].
Definition ex_nested_one : subscriptions :=
  [(str "http://a", [str "urn:epc:pat:sgtin-96:3.0614141"]); (str "http://b", [str "urn:epc:pat:sgtin-96:3.0614141.812345"])].
Definition ex_tag : list N := [48; 116; 37; 123; 244; 12; 14; 64; 0; 0; 26; 133]%N.
Theorem C22_refuted :
  (exists t t' data, new_patricia E0 ex_nested = Some t /\ patricia_save t = Ok data /\ patricia_restore data = (of_ptree t', false) /\
     patricia_search t pcgs1 ex_tag <> patricia_search t' pcgs1 ex_tag /\
     patricia_search t pcgs1 ex_tag = Ok (str "urn:epc:id:sgtin:0614141.012345.6789", [str "http://b"], false)) /\
  (exists t data, new_patricia E0 ex_nested_one = Some t /\ patricia_save t = Ok data /\ patricia_restore data = (of_ptree t, true)).
Proof.
  split.
  - eexists _, (PNode _ _ PNil PNil), _. split; [vm_compute; reflexivity|]. split; [vm_compute; reflexivity|]. split; [vm_compute; reflexivity|].
    split; [vm_compute; discriminate|vm_compute; reflexivity].
  - eexists _, _. split; [vm_compute; reflexivity|]. split; [vm_compute; reflexivity|]. vm_compute. reflexivity.
Qed.
Print Assumptions C22_refuted.

Definition ex_full : subscriptions :=
  [(str "http://a", [str "urn:epc:pat:sgtin-96:3.0614141.012345"]); (str "http://b", [str "urn:epc:pat:sgtin-96:3.0614141.812345"])].
Example C22_hypotheses : exists t, new_patricia E0 ex_full = Some t /\ t <> PNil /\ full t /\
  match t with PNode _ _ (PNode _ _ PNil PNil) (PNode _ _ PNil PNil) => True | _ => False end.
Proof.
  eexists. split; [vm_compute; reflexivity|]. split; [discriminate|]. split; [|exact I].
  cbn [full]. repeat split; try exact I; try discriminate.
Qed.

(** ** C23 *)
Theorem C23_splay_round_trip : forall t, t <> SNil ->
  exists data, splay_save t = Ok data /\ splay_restore data = (of_stree t, false).
Proof.
  intros t NE. assert (of_stree t <> GNil) as NG by (destruct t; [congruence|discriminate]).
  apply (tree_restore_save snode_load splay_tag (of_stree t)); auto. apply snode_load_save; auto.
Qed.
Print Assumptions C23_splay_round_trip.
(** Different trees give different data. *)
Theorem C23_faithful : forall t t' data, splay_save t = Ok data -> splay_save t' = Ok data -> t = t'.
Proof.
  intros t t' data S S'. destruct (C23_splay_round_trip t) as (d & E & R). { intros ->; discriminate. }
  destruct (C23_splay_round_trip t') as (d' & E' & R'). { intros ->; discriminate. }
  rewrite S in E. injection E as <-. rewrite S' in E'. injection E' as <-. rewrite R in R'. injection R' as R'. apply of_stree_inj; auto.
Qed.
Print Assumptions C23_faithful.
(** Read as a splay tree, with what matches first, what is restored is what was saved. *)
Theorem C23_read : forall t data, splay_save t = Ok data -> exists g, splay_restore data = (g, false) /\ read_stree g = t.
Proof.
  intros t data S. destruct (C23_splay_round_trip t) as (d & S' & R). { intros ->; discriminate S. }
  rewrite S in S'. injection S' as <-. exists (of_stree t). split; auto. clear.
  induction t as [|v f m IHm n IHn]; cbn [of_stree read_stree]; congruence.
Qed.
Print Assumptions C23_read.
(** Every tree that NewSplayTree makes can be saved. *)
Theorem C23_built_trees : forall E sub t, new_splay E sub = Ok t ->
  exists data, splay_save t = Ok data /\ splay_restore data = (of_stree t, false).
Proof.
  intros E sub t H. apply C23_splay_round_trip. intros ->. unfold new_splay, new_splay_b in H.
  destruct (link_subset (to_byte_subs E sub)) as [[|[k q] l]| |]; cbn in H; discriminate.
Qed.
Print Assumptions C23_built_trees.
Example C23_case : exists t data, new_splay E0 ex_nested = Ok t /\ splay_save t = Ok data /\
  match t with SNode _ (Some _) (SNode _ (Some _) SNil SNil) _ => True | _ => False end.
Proof. eexists _, _. split; [vm_compute; reflexivity|]. split; [vm_compute; reflexivity|exact I]. Qed.
(** The data of a splay tree, read by all four engines. *)
Example C59_case : exists t data, new_splay E0 ex_nested = Ok t /\ splay_save t = Ok data /\ snd (splay_restore data) = false /\
  hd_error data <> Some (TStr (str "Engine:filtering.List")) /\
  snd (list_restore [] data) = true /\ snd (patricia_restore data) = true /\ snd (legacy_restore [] data) = true.
Proof.
  exists (match new_splay E0 ex_nested with Ok t => t | _ => SNil end),
    (match splay_save (match new_splay E0 ex_nested with Ok t => t | _ => SNil end) with Ok d => d | _ => [] end).
  split; [vm_compute; reflexivity|]. split; [vm_compute; reflexivity|]. split; [vm_compute; reflexivity|].
  split; [vm_compute; discriminate|]. split; [vm_compute; reflexivity|]. split; vm_compute; reflexivity.
Qed.

(** ** C24 *)
(** Restoring never stores anything: no engine with subscriptions survives. *)
Theorem C24_refuted : forall m, m <> [] -> fst (legacy_restore [] (legacy_save m)) = [] /\ fst (legacy_restore [] (legacy_save m)) <> m.
Proof.
  assert (forall m, fst (legacy_restore [] (legacy_save m)) = []) as H.
  { intros m. unfold legacy_restore, legacy_save. rewrite !plain_cons. cbn [decode_nested pop_str pop_int]. rewrite seqb_refl. reflexivity. }
  intros m NE. rewrite H. split; auto.
Qed.
Print Assumptions C24_refuted.
(** Whatever the data, the subscriptions held before stay; only the empty engine
    is restored faithfully. *)
Theorem C24_nothing_stored : forall old data, fst (legacy_restore old data) = old.
Proof.
  intros old data. unfold legacy_restore. destruct (pop_str (plain data)) as [[t|] l1]; auto. destruct (seqb t legacy_tag); auto.
  destruct (pop_int l1) as [[n|] l2]; auto.
Qed.
Print Assumptions C24_nothing_stored.
Theorem C24_empty_partial : legacy_restore [] (legacy_save []) = ([], false).
Proof. reflexivity. Qed.
Print Assumptions C24_empty_partial.
(** The loss goes without an error exactly when the values that the loops meet where
    they expect an address, a number, and at the very end a pattern, are of that
    kind.  With [n] addresses, each round of the outer loop takes [n + 2] values. *)
Definition str_at {N} (l : list (dtok N)) (i : nat) : Prop := exists s, nth_error l i = Some (DStr s).
Definition int_at {N} (l : list (dtok N)) (i : nat) : Prop := exists z, nth_error l i = Some (DInt z).
Lemma pop_str_at {N} (l : list (dtok N)) : snd (pop_str l) = skipn 1 l /\ (str_at l 0 <-> fst (pop_str l) <> None).
Proof. destruct l as [|[] l]; cbn; (split; [auto|]); split; intros H; try (destruct H; discriminate); try congruence. eexists; reflexivity. Qed.
Lemma pop_int_at {N} (l : list (dtok N)) : snd (pop_int l) = skipn 1 l /\ (int_at l 0 <-> fst (pop_int l) <> None).
Proof. destruct l as [|[] l]; cbn; (split; [auto|]); split; intros H; try (destruct H; discriminate); try congruence. eexists; reflexivity. Qed.
Lemma skipn_nth {A} (l : list A) k i : nth_error (skipn k l) i = nth_error l (k + i).
Proof. revert l. induction k as [|k IH]; intros l; auto. destruct l; [destruct i; reflexivity|]. apply IH. Qed.
Lemma skipn_twice {A} a b (l : list A) : skipn a (skipn b l) = skipn (a + b) l.
Proof. revert l. induction b as [|b IH]; intros l; [rewrite Nat.add_0_r; reflexivity|]. rewrite Nat.add_succ_r. destruct l; [rewrite !skipn_nil; reflexivity|]. apply IH. Qed.
Lemma legacy_inner_at n : forall l e, fst (legacy_inner n l e) = skipn n l /\
  (0 < n -> (snd (legacy_inner n l e) = false <-> str_at l (n - 1))).
Proof.
  induction n as [|n IH]; intros l e; [split; [reflexivity|lia]|]. cbn [legacy_inner]. destruct (pop_str_at l) as [E1 E2]. destruct (pop_str l) as [s l1]. cbn [fst snd] in *. subst l1.
  destruct (IH (skipn 1 l) (match s with Some _ => false | None => true end)) as [I1 I2]. split.
  - rewrite I1, skipn_twice. f_equal. lia.
  - intros _. destruct n as [|n].
    + cbn. rewrite E2. destruct s; split; congruence.
    + rewrite I2 by lia. unfold str_at. rewrite skipn_nth. replace (1 + (S n - 1)) with (S (S n) - 1) by lia. reflexivity.
Qed.
Lemma legacy_outer_at size : 0 < size -> forall n l e,
  legacy_outer size n l e = false <->
  (forall i, i < n -> str_at l (i * (size + 2)) /\ int_at l (1 + i * (size + 2))) /\ match n with O => e = false | _ => str_at l (n * (size + 2) - 1) end.
Proof.
  intros P. induction n as [|n IH]; intros l e; cbn [legacy_outer]; [split; [intros H; split; auto; lia|tauto]|].
  destruct (pop_str_at l) as [E1 E2]. destruct (pop_str l) as [[s|] l1]; cbn [fst snd] in *; subst l1.
  2: { split; [discriminate|]. intros [H _]. destruct (H 0 ltac:(lia)) as [H1 _]. apply E2 in H1. congruence. }
  destruct (pop_int_at (skipn 1 l)) as [F1 F2]. assert (int_at (skipn 1 l) 0 <-> int_at l 1) as SK by (unfold int_at; rewrite skipn_nth; reflexivity).
  destruct (pop_int (skipn 1 l)) as [[z|] l2]; cbn [fst snd] in *; subst l2.
  2: { split; [discriminate|]. intros [H _]. destruct (H 0 ltac:(lia)) as [_ H1]. apply SK, F2 in H1. congruence. }
  destruct (legacy_inner_at size (skipn 1 (skipn 1 l)) false) as [G1 G2]. specialize (G2 P).
  destruct (legacy_inner size (skipn 1 (skipn 1 l)) false) as [l3 e3]. cbn [fst snd] in *. rewrite !skipn_twice in G1. replace (size + 1 + 1) with (size + (1 + 1)) in G1 by lia. subst l3. rewrite IH.
  assert (forall i, str_at (skipn (size + (1 + 1)) l) i <-> str_at l (size + 2 + i)) as A1 by (intros i; unfold str_at; rewrite skipn_nth; reflexivity).
  assert (forall i, int_at (skipn (size + (1 + 1)) l) i <-> int_at l (size + 2 + i)) as A2 by (intros i; unfold int_at; rewrite skipn_nth; reflexivity).
  assert (e3 = false <-> str_at l (size + 1)) as A3.
  { rewrite G2. unfold str_at. rewrite skipn_twice, skipn_nth. replace (1 + 1 + (size - 1)) with (size + 1) by lia. reflexivity. }
  assert (str_at l 0) as B1 by (apply E2; congruence). assert (int_at l 1) as B2 by (apply SK, F2; congruence).
  split; intros [H1 H2]; split.
  - intros [|i] L; [cbn; auto|]. destruct (H1 i ltac:(lia)) as [J1 J2]. apply A1 in J1. apply A2 in J2. split.
    + replace (S i * (size + 2)) with (size + 2 + i * (size + 2)) by lia. auto.
    + replace (1 + S i * (size + 2)) with (size + 2 + (1 + i * (size + 2))) by lia. auto.
  - destruct n as [|n]; [apply A3 in H2; replace (1 * (size + 2) - 1) with (size + 1) by lia; auto|].
    apply A1 in H2. replace (S (S n) * (size + 2) - 1) with (size + 2 + (S n * (size + 2) - 1)) by lia. auto.
  - intros i L. destruct (H1 (S i) ltac:(lia)) as [J1 J2]. split.
    + apply A1. replace (size + 2 + i * (size + 2)) with (S i * (size + 2)) by lia. auto.
    + apply A2. replace (size + 2 + (1 + i * (size + 2))) with (1 + S i * (size + 2)) by lia. auto.
  - destruct n as [|n]; [apply A3; replace (size + 1) with (1 * (size + 2) - 1) by lia; auto|].
    apply A1. replace (size + 2 + (S n * (size + 2) - 1)) with (S (S n) * (size + 2) - 1) by lia. auto.
Qed.
Theorem C24_silent_exactly : forall m, m <> [] -> let n := length m in let value := nth_error (legacy_save m) in
  legacy_restore [] (legacy_save m) = ([], false) <->
  (forall i, i < n -> (exists s, value (2 + i * (n + 2)) = Some (TStr s)) /\ exists z, value (3 + i * (n + 2)) = Some (TInt z)) /\
  exists s, value (1 + n * (n + 2)) = Some (TStr s).
Proof.
  intros m NE n value. assert (0 < n) as P by (unfold n; destruct m; [congruence|cbn; lia]).
  assert (forall t s, @decode_nested unit (fun _ => (tt, false)) t = DStr s <-> t = TStr s) as D1 by (intros t u; destruct t; cbn; split; intros H; try discriminate; congruence).
  assert (forall t z, @decode_nested unit (fun _ => (tt, false)) t = DInt z <-> t = TInt z) as D2 by (intros t u; destruct t; cbn; split; intros H; try discriminate; congruence).
  set (body := flat_map entry_toks m).
  assert (forall i, str_at (plain body) i <-> exists s, value (2 + i) = Some (TStr s)) as V1.
  { intros i. unfold str_at, plain, value, legacy_save. cbn [nth_error Nat.add]. rewrite nth_error_map. fold body. split; intros (s & H); exists s.
    - destruct (nth_error body i); [|discriminate]. injection H as H. apply D1 in H. congruence.
    - rewrite H. reflexivity. }
  assert (forall i, int_at (plain body) i <-> exists s, value (2 + i) = Some (TInt s)) as V2.
  { intros i. unfold int_at, plain, value, legacy_save. cbn [nth_error Nat.add]. rewrite nth_error_map. fold body. split; intros (s & H); exists s.
    - destruct (nth_error body i); [|discriminate]. injection H as H. apply D2 in H. congruence.
    - rewrite H. reflexivity. }
  assert (legacy_restore [] (legacy_save m) = ([], legacy_outer n n (plain body) false)) as -> by
    (unfold legacy_restore, legacy_save; cbn [plain map decode_nested pop_str]; rewrite seqb_refl; cbn [pop_int]; rewrite Nat2Z.id; reflexivity).
  transitivity (legacy_outer n n (plain body) false = false); [split; intros H; [injection H|f_equal]; auto|].
  rewrite (legacy_outer_at n P). destruct n as [|n'] eqn:En; [lia|]. rewrite <- En in *. clear n' En.
  rewrite V1. replace (2 + (n * (n + 2) - 1)) with (1 + n * (n + 2)) by lia.
  split; intros [H1 H2]; (split; [|exact H2]); intros i L; destruct (H1 i L) as [J1 J2]; (split; [apply V1; auto|apply V2; auto]).
Qed.
Print Assumptions C24_silent_exactly.
(** So whenever every address has as many patterns as there are addresses. *)
Theorem C24_silent : forall m, Forall (fun kv => length (snd kv) = length m) m -> legacy_restore [] (legacy_save m) = ([], false).
Proof.
  intros m F. destruct m as [|kv m']; [reflexivity|]. set (m := kv :: m') in *. apply C24_silent_exactly; [discriminate|].
  set (n := length m) in *.
  assert (forall l, Forall (fun kv => length (snd kv) = n) l -> forall i, i < length l -> exists k v, length v = n /\
    forall j x, nth_error (entry_toks (k, v)) j = Some x -> nth_error (flat_map entry_toks l) (i * (n + 2) + j) = Some x) as W.
  { clear. clearbody n. induction l as [|[k v] l IH]; intros F i L; [cbn in L; lia|]. pose proof (Forall_inv F) as F1. pose proof (Forall_inv_tail F) as F2. cbn [snd] in F1.
    assert (length (entry_toks (k, v)) = n + 2) as LE by (unfold entry_toks; cbn; rewrite map_length, F1; lia).
    destruct i as [|i].
    - exists k, v. split; auto. intros j x H. cbn [Nat.mul Nat.add flat_map]. rewrite nth_error_app1; auto. apply nth_error_Some. congruence.
    - destruct (IH F2 i ltac:(cbn in L; lia)) as (k' & v' & E & H). exists k', v'. split; auto. intros j x HJ. cbn [flat_map]. rewrite nth_error_app2; [|rewrite LE; lia].
      rewrite LE. replace (S i * (n + 2) + j - (n + 2)) with (i * (n + 2) + j) by lia. auto. }
  assert (0 < n) as P by (unfold n, m; cbn; lia).
  split.
  - intros i L. destruct (W m F i L) as (k & v & E & H). unfold legacy_save. split.
    + exists k. cbn [Nat.add nth_error]. specialize (H 0 (TStr k) eq_refl). rewrite Nat.add_0_r in H. exact H.
    + exists (Z.of_nat (length v)). cbn [Nat.add nth_error]. specialize (H 1 (TInt (Z.of_nat (length v))) eq_refl). rewrite Nat.add_1_r in H. exact H.
  - destruct (W m F (n - 1) ltac:(unfold n in *; lia)) as (k & v & E & H).
    destruct (nth_error (map TStr v) (n - 1)) as [x|] eqn:X; [|apply nth_error_None in X; rewrite map_length in X; lia].
    rewrite nth_error_map in X. destruct (nth_error v (n - 1)) as [s|] eqn:Y; [|discriminate]. cbn in X. injection X as <-.
    exists s. unfold legacy_save. replace (1 + n * (n + 2)) with (S (S ((n - 1) * (n + 2) + (n + 1)))).
    2: { destruct n as [|n']; [lia|]. replace (S n' - 1) with n' by lia. lia. }
    cbn [nth_error]. apply H. unfold entry_toks. replace (n + 1) with (S (S (n - 1))) by lia. cbn [fst snd nth_error]. rewrite nth_error_map, Y. reflexivity.
Qed.
Print Assumptions C24_silent.
Example C24_silent_case : let m := [(str "http://a", [str "p"; str "q"]); (str "http://b", [str "r"; str "s"])] in
  Forall (fun kv => length (snd kv) = length m) m /\ m <> [] /\
  snd (legacy_restore [] (legacy_save [(str "http://a", [str "p"; str "q"]); (str "http://b", [str "r"])])) = true /\
  snd (legacy_restore [] (legacy_save [(str "http://a", [str "p"; str "q"]); (str "http://b", [str "r"; str "s"; str "t"])])) = false.
Proof. repeat split; try discriminate; repeat constructor. Qed.

(** ** C25 *)
(** Whatever order the map is iterated in, the restored map says the same for
    every URI; entries already in the receiving map stay unless overwritten. *)
Theorem C25_round_trip : forall sub before, NoDup (map fst sub) -> wf_map before ->
  exists m, subs_restore (Some before) (subs_save sub) = Ok (Some m, false) /\ wf_map m /\
    forall k, mget k m = match sub_get k sub with Some v => Some v | None => mget k before end.
Proof.
  intros sub before ND W. exists (fold_left put (map (entry_of sub) (sub_keys sub)) before).
  split; [|split; [apply fold_put_wf; auto|]].
  - rewrite subs_save_eq. unfold subs_restore. rewrite plain_cons. cbn [decode_nested pop_int]. rewrite Nat2Z.id.
    rewrite <- (sub_keys_length sub), <- (map_length (entry_of sub) (sub_keys sub)). apply subs_load_spec.
  - intros k. rewrite fold_put_get by (apply entries_NoDup; auto). rewrite entries_get by auto. reflexivity.
Qed.
Print Assumptions C25_round_trip.
(** The bytes do not depend on the iteration order either. *)
Theorem C25_order_irrelevant : forall sub sub', NoDup (map fst sub) -> Permutation sub sub' -> subs_save sub = subs_save sub'.
Proof.
  intros sub sub' ND P. rewrite !subs_save_eq. rewrite (Permutation_length P). f_equal. f_equal.
  assert (sub_keys sub = sub_keys sub') as -> by (apply sort_strings_perm_eq; apply Permutation_map; auto).
  apply map_ext. intros k. unfold entry_of. f_equal.
  assert (sub_get k sub = sub_get k sub') as ->; auto.
  assert (NoDup (map fst sub')) as ND' by (eapply Permutation_NoDup; [apply Permutation_map; eauto|auto]).
  destruct (sub_get k sub) eqn:E.
  - symmetry. apply sub_get_In; auto. apply sub_get_In in E; auto. eapply Permutation_in; eauto.
  - destruct (sub_get k sub') eqn:E'; auto. apply sub_get_In in E'; auto. apply Permutation_sym in P.
    apply (Permutation_in _ P) in E'. apply sub_get_In in E'; auto. congruence.
Qed.
Print Assumptions C25_order_irrelevant.
(** A nil map cannot receive anything: restoring panics. *)
Theorem C25_nil_map : forall sub, sub <> [] -> NoDup (map fst sub) -> subs_restore None (subs_save sub) = Panic.
Proof.
  intros sub NE ND. rewrite subs_save_eq. unfold subs_restore. rewrite plain_cons. cbn [decode_nested pop_int]. rewrite Nat2Z.id.
  rewrite <- (sub_keys_length sub), <- (map_length (entry_of sub) (sub_keys sub)).
  assert (length (sub_keys sub) <> 0) as L by (rewrite sub_keys_length; destruct sub; [congruence|discriminate]).
  destruct (sub_keys sub) as [|k ks]; [destruct L; reflexivity|].
  cbn [map length subs_load flat_map]. unfold entry_of at 1, entry_toks at 1. cbn [fst snd app]. rewrite !plain_cons. cbn [decode_nested pop_str pop_int].
  rewrite Nat2Z.id, plain_app, read_strings_spec. reflexivity.
Qed.
Print Assumptions C25_nil_map.
Example C25_case : NoDup (map fst ex_nested) /\ wf_map (V := list gostring) [(str "http://b", [])] /\
  subs_restore (Some [(str "http://b", [])]) (subs_save (rev ex_nested)) = Ok (Some ex_nested, false).
Proof.
  split; [|split; [repeat constructor|vm_compute; reflexivity]].
  cbn [ex_nested map fst]. constructor; [|constructor; [auto|constructor]]. intros [E|[]]. discriminate E.
Qed.

(** ** C57 *)
(** Data cut off anywhere is refused.  A List may keep the first entries, and one
    more whose filter is missing. *)
Theorem C57_list : forall l data before, cut_off data (list_save l) ->
  exists k lost, list_restore before data = (before ++ map (fun em => (em_uri em, Some (em_filter em))) (firstn k l) ++ lost, true) /\
    (lost = [] \/ exists em, nth_error l k = Some em /\ lost = [(em_uri em, None)]).
Proof.
  intros l data before C. unfold list_save in C. change (fun em => [TStr (em_uri em); TFo (em_filter em)]) with em_toks in C.
  apply cut_cons in C. destruct C as [->|(p & -> & C)].
  { exists 0, []. cbn. rewrite app_nil_r. auto. }
  apply cut_cons in C. destruct C as [->|(q & -> & C)].
  { exists 0, []. split; auto. cbn [firstn map app]. rewrite app_nil_r. reflexivity. }
  unfold list_restore. rewrite !plain_cons. cbn [decode_nested pop_str pop_int]. rewrite seqb_refl, Nat2Z.id.
  destruct (list_load_cut l q before false C) as (k & K & lost & E & HL). exists k, lost. auto.
Qed.
Print Assumptions C57_list.
Theorem C57_trees : forall p t pd td data, patricia_save p = Ok pd -> splay_save t = Ok td ->
  (cut_off data pd -> patricia_restore data = (GNil, true)) /\ (cut_off data td -> splay_restore data = (GNil, true)).
Proof.
  intros p t pd td data SP ST. unfold patricia_save, splay_save in *. destruct (of_ptree p) as [|u f a b]; [discriminate|]. destruct (of_stree t) as [|u' f' a' b']; [discriminate|].
  unfold tree_save in *. injection SP as <-. injection ST as <-.
  assert (forall x y : tok, cut_off data [x; y] -> data = [] \/ data = [x]) as H.
  { intros x y C. apply cut_cons in C. destruct C as [->|(q & -> & C)]; auto. apply cut_cons in C. destruct C as [->|(r & -> & C)]; auto. destruct (cut_nil _ C). }
  split; intros C; apply H in C; destruct C as [-> | ->]; reflexivity.
Qed.
Print Assumptions C57_trees.
(** Subscriptions: an error, and the map holds a number of whole entries, each as
    saved. *)
Theorem C57_subscriptions : forall sub data before, NoDup (map fst sub) -> cut_off data (subs_save sub) ->
  exists m, subs_restore (Some before) data = Ok (Some m, true) /\
    forall k, mget k m = mget k before \/ mget k m = sub_get k sub.
Proof.
  intros sub data before ND C. rewrite subs_save_eq in C. apply cut_cons in C. destruct C as [->|(p & -> & C)].
  { exists before. split; auto. }
  unfold subs_restore. rewrite plain_cons. cbn [decode_nested pop_int]. rewrite Nat2Z.id.
  rewrite <- (sub_keys_length sub), <- (map_length (entry_of sub) (sub_keys sub)).
  destruct (subs_load_cut _ p before C) as (n & L & E). rewrite E. eexists. split; [reflexivity|].
  intros k. pose proof (entries_NoDup sub ND) as NE. set (es := map (entry_of sub) (sub_keys sub)) in *.
  rewrite fold_put_get.
  2:{ rewrite <- firstn_map. rewrite <- (firstn_skipn n (map fst es)) in NE. apply NoDup_app_l in NE. auto. }
  destruct (mget k (firstn n es)) eqn:G; [right|left; auto].
  rewrite <- (entries_get sub k ND). fold es. symmetry. apply mget_NoDup_In; auto. apply mget_In in G.
  rewrite <- (firstn_skipn n es). apply in_or_app. auto.
Qed.
Print Assumptions C57_subscriptions.
(** The Legacy engine takes cut-off data for whole. *)
Theorem C57_legacy_refuted : forall k p q, exists data, cut_off data (legacy_save [(k, [p; q])]) /\ legacy_restore [] data = ([], false).
Proof.
  intros k p q. exists [TStr legacy_tag; TInt 1; TStr k; TInt 2; TStr p]. split; [|reflexivity].
  exists [TStr q]. split; [discriminate|reflexivity].
Qed.
Print Assumptions C57_legacy_refuted.
(** Which cuts it notices.  With [n] addresses it reads [n] times [n + 2] values
    after the first two: a cut before the last of them is an error, and with a cut
    after it everything is as with the whole data. *)
Lemma pop_str_app (l r : list (dtok unit)) : l <> [] -> pop_str (l ++ r) = (fst (pop_str l), snd (pop_str l) ++ r) /\ length l = S (length (snd (pop_str l))).
Proof. intros N. destruct l as [|[] l]; [congruence|..]; split; reflexivity. Qed.
Lemma pop_int_app (l r : list (dtok unit)) : l <> [] -> pop_int (l ++ r) = (fst (pop_int l), snd (pop_int l) ++ r) /\ length l = S (length (snd (pop_int l))).
Proof. intros N. destruct l as [|[] l]; [congruence|..]; split; reflexivity. Qed.
Lemma legacy_inner_app r n : forall l e, n <= length l ->
  legacy_inner n (l ++ r) e = (fst (legacy_inner n l e) ++ r, snd (legacy_inner n l e)) /\ length l = n + length (fst (legacy_inner n l e)).
Proof.
  induction n as [|n IH]; intros l e L; cbn [legacy_inner]; [auto|]. destruct (pop_str_app l r) as [E E']; [destruct l; [cbn in L; lia|discriminate]|].
  rewrite E. destruct (pop_str l) as [s l1]. cbn [fst snd] in *. destruct (IH l1 (match s with Some _ => false | None => true end) ltac:(lia)) as [I1 I2].
  rewrite I1. split; auto. lia.
Qed.
Lemma legacy_inner_short n : forall l e, length l < n -> snd (legacy_inner n l e) = true /\ fst (legacy_inner n l e) = [].
Proof.
  induction n as [|n IH]; intros l e L; [lia|]. cbn [legacy_inner]. destruct l as [|x l].
  - cbn [pop_str]. destruct n; [cbn; auto|]. apply IH. cbn. lia.
  - assert (snd (pop_str (x :: l)) = l) as E by (destruct x; reflexivity). destruct (pop_str (x :: l)) as [s l1]. cbn [snd] in E. subst l1. apply IH. cbn in L. lia.
Qed.
Lemma legacy_outer_app size r n : forall l e, n * (size + 2) <= length l -> legacy_outer size n (l ++ r) e = legacy_outer size n l e.
Proof.
  induction n as [|n IH]; intros l e L; cbn [legacy_outer]; auto. cbn [Nat.mul] in L. destruct (pop_str_app l r) as [E1 L1]; [destruct l; [cbn in L; lia|discriminate]|].
  rewrite E1. destruct (pop_str l) as [[s|] l1]; cbn [fst snd] in *; auto.
  destruct (pop_int_app l1 r) as [E2 L2]; [destruct l1; [cbn in L1; lia|discriminate]|]. rewrite E2. destruct (pop_int l1) as [[z|] l2]; cbn [fst snd] in *; auto.
  destruct (legacy_inner_app r size l2 false ltac:(lia)) as [E3 L3]. rewrite E3. destruct (legacy_inner size l2 false) as [l3 e3]. cbn [fst snd] in *. apply IH. lia.
Qed.
Lemma legacy_outer_short size n : 0 < size -> forall l e, length l < n * (size + 2) -> legacy_outer size n l e = true.
Proof.
  intros P. induction n as [|n IH]; intros l e L; [lia|]. cbn [legacy_outer]. cbn [Nat.mul] in L. destruct l as [|x l]; [reflexivity|].
  destruct (pop_str_app (x :: l) [] ltac:(discriminate)) as [_ L1]. destruct (pop_str (x :: l)) as [[s|] l1]; cbn [fst snd] in *; auto.
  destruct l1 as [|y l1]; [reflexivity|]. destruct (pop_int_app (y :: l1) [] ltac:(discriminate)) as [_ L2]. destruct (pop_int (y :: l1)) as [[z|] l2]; cbn [fst snd] in *; auto.
  destruct (Nat.lt_ge_cases (length l2) size) as [S|S].
  - destruct (legacy_inner_short size l2 false S) as [E3 E4]. destruct (legacy_inner size l2 false) as [l3 e3]. cbn [fst snd] in *. subst. destruct n; [reflexivity|]. apply IH. cbn. lia.
  - destruct (legacy_inner_app [] size l2 false S) as [_ L3]. destruct (legacy_inner size l2 false) as [l3 e3]. cbn [fst] in L3. apply IH. lia.
Qed.
Theorem C57_legacy_exactly_partial : forall m old data, cut_off data (legacy_save m) -> let n := length m in
  (length data < 2 + n * (n + 2) -> legacy_restore old data = (old, true)) /\
  (2 + n * (n + 2) <= length data -> legacy_restore old data = legacy_restore old (legacy_save m)).
Proof.
  intros m old data (rest & NR & E) n. unfold legacy_save in *. fold n in E |- *. destruct data as [|t [|t2 data]].
  - split; [reflexivity|cbn; lia].
  - split; [|cbn; lia]. intros _. injection E as <- _. unfold legacy_restore. cbn. reflexivity.
  - injection E as <- <- E. rewrite E. clear E. unfold legacy_restore. cbn [plain map decode_nested pop_str]. rewrite seqb_refl. cbn [pop_int]. rewrite Nat2Z.id.
    change (map (decode_nested (fun _ : list (dtok unit) => (tt, false))) data) with (plain data). change (map (decode_nested (fun _ : list (dtok unit) => (tt, false))) (data ++ rest)) with (plain (data ++ rest)).
    assert (length (plain data) = length data) as LP by (unfold plain; apply map_length). split.
    + intros L. f_equal. cbn [length] in L. apply legacy_outer_short; [|lia]. destruct n; lia.
    + intros L. f_equal. cbn [length] in L. rewrite plain_app, legacy_outer_app by lia. reflexivity.
Qed.
Print Assumptions C57_legacy_exactly_partial.
Example C57_legacy_case : exists data, cut_off data (legacy_save [(str "a", [str "p"; str "q"; str "r"]); (str "b", [str "s"; str "t"])]) /\
  length data < 2 + 2 * (2 + 2) /\ legacy_restore [] data = ([], true).
Proof.
  exists (firstn 9 (legacy_save [(str "a", [str "p"; str "q"; str "r"]); (str "b", [str "s"; str "t"])])). split; [|split; [vm_compute; lia|reflexivity]].
  eexists. split; [|symmetry; apply (firstn_skipn 9)]. discriminate.
Qed.
Example C57_case : exists l data, new_list E0 ex_nested = l /\ cut_off data (list_save l) /\ length data = 5 /\ length l = 2 /\
  snd (list_restore [] data) = true.
Proof.
  eexists _, (firstn 5 (list_save (new_list E0 ex_nested))). split; [reflexivity|]. split; [|split; [|split]; vm_compute; reflexivity].
  exists (skipn 5 (list_save (new_list E0 ex_nested))). split; [vm_compute; discriminate|symmetry; apply firstn_skipn].
Qed.

(** ** C58 *)
(** A partial subscription comes back with everything nested in it, in whatever
    order the maps were written. *)
Theorem C58_partial_subscription_round_trip : forall p written, well_keyed p -> reordered p written ->
  psub_restore (psub_save written) = (of_psub p, false).
Proof.
  intros p q W R. pose proof (psub_load_save p q W R) as H. cbn [decode_nested] in H. unfold psub_restore.
  destruct (psub_load (map (decode_nested psub_load) (psub_save q))) as [n e]. injection H as -> ->. reflexivity.
Qed.
Print Assumptions C58_partial_subscription_round_trip.
Definition ex_psub (s : list (gostring * psub)) : psub := PSub 0 (str "http://a") s.
Definition ex_l1 := (str "00", PSub 2 (str "http://b") []).
Definition ex_l2 := (str "01", PSub 2 (str "http://c") [(str "1", PSub 4 (str "http://d") [])]).
Example C58_case : well_keyed (ex_psub [ex_l1; ex_l2]) /\ reordered (ex_psub [ex_l1; ex_l2]) (ex_psub [ex_l2; ex_l1]).
Proof.
  split.
  - repeat constructor.
  - assert (forall o u, reordered (PSub o u []) (PSub o u [])) as L by (intros; econstructor; constructor).
    apply Reordered with (s' := [ex_l1; ex_l2]); [|apply perm_swap].
    apply Forall2_cons; [split; [reflexivity|apply L]|]. apply Forall2_cons; [split; [reflexivity|]|constructor].
    cbn [snd ex_l2]. econstructor; [|apply Permutation_refl]. apply Forall2_cons; [split; [reflexivity|apply L]|constructor].
Qed.
(** Cut-off data of a partial subscription is rejected, and so is data in which an
    entry of the nested map is damaged, at any depth. *)
Theorem C58_cut_off : forall p data, cut_off data (psub_save p) -> snd (psub_restore data) = true.
Proof.
  intros [o u s] data C. unfold psub_restore. cbn [psub_save] in C.
  apply cut_cons in C. destruct C as [->|(d1 & -> & C)]; [reflexivity|].
  apply cut_cons in C. destruct C as [->|(d2 & -> & C)]; [reflexivity|].
  apply cut_cons in C. destruct C as [->|(d3 & -> & C)]; [reflexivity|]. destruct (cut_nil _ C).
Qed.
Print Assumptions C58_cut_off.
Theorem C58_damaged_entry : forall o u entries k data, In (k, TBin data) entries -> snd (psub_restore data) = true ->
  snd (psub_restore [TInt o; TStr u; TMap entries]) = true.
Proof.
  intros o u es k data I E. unfold psub_restore in *. cbn [map decode_nested psub_load pop_int pop_str].
  assert (forall acc, snd (map_load (map (fun kv => (fst kv, decode_nested psub_load (snd kv))) es) acc) = true) as H.
  { induction es as [|[k' t] es IH]; [destruct I|]. intros acc. cbn [map fst snd map_load]. destruct I as [X|I].
    - injection X as -> ->. cbn [decode_nested]. destruct (psub_load (map (decode_nested psub_load) data)) as [n e]. cbn [snd] in E. subst e. reflexivity.
    - destruct (decode_nested psub_load t) as [| | | |n [|]|]; try reflexivity. apply IH; auto. }
  specialize (H []). destruct (map_load _ []) as [m err]. exact H.
Qed.
Print Assumptions C58_damaged_entry.
Example C58_damaged_case : exists data, cut_off data (psub_save (snd ex_l2)) /\ data <> [] /\
  snd (psub_restore [TInt 0; TStr (str "http://a"); TMap [(str "00", TBin (psub_save (snd ex_l1))); (str "01", TBin data)]]) = true.
Proof.
  exists [TInt 2; TStr (str "http://c")]. split; [eexists; split; [|reflexivity]; discriminate|]. split; [discriminate|reflexivity].
Qed.
