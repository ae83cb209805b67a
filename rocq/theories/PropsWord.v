(** C94: changing the selected engine under a search. *)
From Verif Require Import GoBase MTdtCore MSubs MList MFloat MGenerator MFactory MSystem MStat MWord TestVectors SpecWord.
From Verif Require Import PBase PExamples PropsSplay.
From Verif Require PropsFactory.
From Coq Require Import Lia.

(** ** Lemmas *)
Lemma not_a_name e n x : n <> length (name_of e) -> n <= length x -> find_generator (firstn n (name_of e ++ x)) = Panic.
Proof.
  intros N L. unfold find_generator. destruct (find (fun e' => seqb (name_of e') (firstn n (name_of e ++ x))) all_names) as [e'|] eqn:F; auto. exfalso.
  apply find_some in F. destruct F as [_ F]. apply seqb_eq in F. pose proof (f_equal (@length ascii) F) as FL. rewrite firstn_length, app_length in FL.
  assert (n = length (name_of e')) as -> by lia. destruct (Nat.le_gt_cases (length (name_of e')) (length (name_of e))) as [H|H].
  - rewrite firstn_app in F. replace (length (name_of e') - length (name_of e)) with 0 in F by lia. cbn [firstn] in F. rewrite app_nil_r in F.
    destruct e, e'; vm_compute in F; try discriminate F; congruence.
  - apply (f_equal (firstn (length (name_of e)))) in F. rewrite firstn_firstn, Nat.min_l, firstn_app, Nat.sub_diag, firstn_all in F by lia. cbn [firstn] in F. rewrite app_nil_r in F.
    destruct e, e'; vm_compute in F, H; try discriminate F; lia.
Qed.
Lemma a_name e x : find_generator (firstn (length (name_of e)) (name_of e ++ x)) = Ok e.
Proof. rewrite firstn_app, Nat.sub_diag, firstn_all. cbn [firstn]. rewrite app_nil_r. destruct e; vm_compute; reflexivity. Qed.

Section Interleaved.
  Context {A : Type}.
  Lemma interleaved_in gs (w : list A) : interleaved gs w -> forall a, In a w <-> exists g, In g gs /\ In a g.
  Proof.
    induction 1 as [gs F|gs1 a g gs2 w H IH]; intros x.
    - split; [intros []|]. intros (g & I & J). rewrite Forall_forall in F. rewrite (F g I) in J. exact J.
    - cbn [In]. rewrite IH. split.
      + intros [<-|(g' & I & J)]; [exists (a :: g); split; [apply in_elt|left; auto]|]. apply in_app_or in I.
        destruct I as [I|[<-|I]]; [exists g'|exists (a :: g)|exists g']; (split; [|try right; auto]); apply in_or_app; cbn; auto.
      + intros (g' & I & J). apply in_app_or in I. destruct I as [I|[<-|I]].
        * right. exists g'. split; auto. apply in_or_app; auto.
        * destruct J as [<-|J]; auto. right. exists g. split; auto. apply in_elt.
        * right. exists g'. split; auto. apply in_or_app; cbn; auto.
  Qed.
  Lemma inter1 a g g2 (w : list A) : interleaved [g; g2] w -> interleaved [a :: g; g2] (a :: w).
  Proof. apply (inter_step [] a g [g2]). Qed.
  Lemma inter2 a g g1 (w : list A) : interleaved [g1; g] w -> interleaved [g1; a :: g] (a :: w).
  Proof. apply (inter_step [g1] a g []). Qed.
  Lemma inter_first gs a (w : list A) : interleaved gs (a :: w) -> exists gs1 g gs2, gs = gs1 ++ (a :: g) :: gs2 /\ interleaved (gs1 ++ g :: gs2) w.
  Proof. intros H. remember (a :: w) as w0 eqn:E. destruct H as [|gs1 b g gs2 w' H]; [discriminate|]. injection E as -> ->. exists gs1, g, gs2. auto. Qed.
  Lemma inter_single (u w : list A) : interleaved [[]; u] w -> w = u.
  Proof.
    revert w. induction u as [|b u IH]; intros w H; (destruct w as [|a w]; [|apply inter_first in H; destruct H as (gs1 & g & gs2 & E & H)]).
    - auto.
    - destruct gs1 as [|x [|y gs1]]; [discriminate E|injection E as _ E; discriminate E|destruct gs1; discriminate E].
    - inversion H as [gs F E1 E2|]; subst. rewrite Forall_forall in F. symmetry. apply F. right. left. auto.
    - destruct gs1 as [|x [|y gs1]]; [discriminate E| |destruct gs1; discriminate E]. injection E as <- -> -> <-. f_equal. apply IH. exact H.
  Qed.
  Lemma inter0 : interleaved [[]; []] ([] : list A).
  Proof. apply inter_done. auto. Qed.
End Interleaved.
Ltac shuffle := repeat first [apply inter0 | apply inter1; solve [shuffle] | apply inter2; solve [shuffle]].

(** ** C94 *)
(** Which engine a search asks for by the two words it has loaded: an engine if they
    are the words of its name, and otherwise the program crashes. *)
Theorem C94_loaded : forall after a n,
  let r := searched_engine after {| l_addr := Some a; l_len := Some n |} in
  (forall e, r = Ok e <-> a = Some e /\ n = length (name_of e)) /\
  (r = Panic <-> forall e, ~ (a = Some e /\ n = length (name_of e))).
Proof.
  intros after a n r.
  assert ((exists e, a = Some e /\ n = length (name_of e) /\ r = Ok e) \/ ((forall e, ~ (a = Some e /\ n = length (name_of e))) /\ r = Panic)) as [(e & -> & -> & R)|[N R]].
  { unfold r, searched_engine. cbn [l_addr l_len shown bind]. destruct a as [e|]; cbn [shown].
    - destruct (Nat.eq_dec n (length (name_of e))) as [->|NE].
      + left. exists e. split; auto. split; auto. apply a_name.
      + right. split; [intros e' [E1 E2]; congruence|]. apply not_a_name; auto. rewrite map_length, seq_length. lia.
    - right. split; [intros e [E _]; discriminate|]. destruct n; reflexivity. }
  - rewrite R. split.
    + intros e'. split; [intros E; injection E as <-; auto|intros [E _]; congruence].
    + split; [discriminate|]. intros H. destruct (H e); auto.
  - rewrite R. split; [|tauto]. intros e. split; [discriminate|]. intros H. destruct (N e); auto.
Qed.
Print Assumptions C94_loaded.

(** A search that meets an assignment half way, whatever the orders in which the
    compiler has the words accessed. *)
Theorem C94_switch_refuted : forall after wo ro e1 e2, length (name_of e1) <> length (name_of e2) ->
  exists sched, interleaved [assign wo e2; use ro] sched /\
    searched_engine after (snd (accesses (words_of e1) sched)) = Panic.
Proof.
  intros after wo ro e1 e2 N. destruct wo.
  - exists (StoreAddr e2 :: use ro ++ [StoreLen (length (name_of e2))]). split; [destruct ro; shuffle|].
    replace (snd (accesses (words_of e1) _)) with {| l_addr := Some (Some e2); l_len := Some (length (name_of e1)) |} by (destruct ro; reflexivity).
    apply C94_loaded. intros e [E1 E2]. injection E1 as <-. congruence.
  - exists (StoreLen (length (name_of e2)) :: use ro ++ [StoreAddr e2]). split; [destruct ro; shuffle|].
    replace (snd (accesses (words_of e1) _)) with {| l_addr := Some (Some e1); l_len := Some (length (name_of e2)) |} by (destruct ro; reflexivity).
    apply C94_loaded. intros e [E1 E2]. injection E1 as <-. congruence.
Qed.
Print Assumptions C94_switch_refuted.

(** The listener and the ticker assign at the same time: afterwards every search
    crashes. *)
Theorem C94_for_good_refuted : forall w wo2 wo3 e2 e3, length (name_of e2) <> length (name_of e3) ->
  exists sched, interleaved [assign wo2 e2; assign wo3 e3] sched /\
    forall after ro, searched_engine after (snd (accesses w (sched ++ use ro))) = Panic.
Proof.
  intros w wo2 wo3 e2 e3 N.
  assert (forall sched a n, fst (accesses w sched) = {| w_addr := Some a; w_len := n |} -> n <> length (name_of a) ->
    forall after ro, searched_engine after (snd (accesses w (sched ++ use ro))) = Panic) as X.
  { intros sched a n E NE after ro. unfold accesses in *. rewrite fold_left_app. destruct (fold_left do_access sched (w, loaded0)) as [w' l']. cbn [fst] in E. subst w'.
    replace (snd (fold_left do_access (use ro) _)) with {| l_addr := Some (Some a); l_len := Some n |} by (destruct ro; reflexivity).
    apply C94_loaded. intros e [E1 E2]. injection E1 as <-. congruence. }
  destruct wo2, wo3.
  - exists [StoreAddr e2; StoreAddr e3; StoreLen (length (name_of e3)); StoreLen (length (name_of e2))]. split; [shuffle|]. eapply X; [reflexivity|auto].
  - exists [StoreLen (length (name_of e3)); StoreAddr e2; StoreAddr e3; StoreLen (length (name_of e2))]. split; [shuffle|]. eapply X; [reflexivity|auto].
  - exists [StoreLen (length (name_of e2)); StoreAddr e3; StoreAddr e2; StoreLen (length (name_of e3))]. split; [shuffle|]. eapply X; [reflexivity|auto].
  - exists [StoreLen (length (name_of e2)); StoreLen (length (name_of e3)); StoreAddr e3; StoreAddr e2]. split; [shuffle|]. eapply X; [reflexivity|auto].
Qed.
Print Assumptions C94_for_good_refuted.

(** The first selection.  Main searches as soon as the length is not 0 (IsActive,
    filtering/engine_factory.go:32-37): safe if the address is stored first, and a
    crash is possible if the length is. *)
Theorem C94_first_partial : forall after ro e pre rest, interleaved [assign true e; use ro] (pre ++ rest) ->
  ~ In LoadAddr pre -> ~ In LoadLen pre -> w_len (fst (accesses words0 pre)) <> 0 ->
  searched_engine after (snd (accesses words0 (pre ++ rest))) = Ok e.
Proof.
  intros after ro e pre rest I NA NL W.
  set (len := length (name_of e)) in *.
  assert (forall p g w, interleaved [g; use ro] (p ++ w) -> ~ In LoadAddr p -> ~ In LoadLen p -> (exists g', g = p ++ g' /\ interleaved [g'; use ro] w)) as SP.
  { induction p as [|a p IH]; intros g w H N1 N2; [exists g; auto|]. cbn in H. apply inter_first in H. destruct H as (gs1 & g0 & gs2 & EQ & H').
    assert (a <> LoadAddr /\ a <> LoadLen) as [D1 D2] by (split; intros ->; [apply N1|apply N2]; left; auto).
    destruct gs1 as [|x [|y gs1]].
    - cbn in EQ. injection EQ as -> <-. destruct (IH g0 w) as (g' & -> & I'); auto; [intros Z; apply N1; right; auto|intros Z; apply N2; right; auto|]. exists g'. auto.
    - cbn in EQ. injection EQ as _ EQ. destruct ro; cbn in EQ; injection EQ; intros; congruence.
    - destruct gs1; discriminate EQ. }
  apply SP in I; auto. destruct I as (g' & EG & I). destruct pre as [|a1 [|a2 pre]].
  - cbn in W. congruence.
  - injection EG as <- _. cbn in W. congruence.
  - injection EG as <- <- EG. destruct pre; [|discriminate]. cbn in EG. subst g'.
    apply inter_single in I. subst rest.
    replace (snd (accesses words0 _)) with {| l_addr := Some (Some e); l_len := Some len |} by (destruct ro; reflexivity). apply C94_loaded. auto.
Qed.
Print Assumptions C94_first_partial.
Theorem C94_first_refuted : forall after ro e, exists pre rest, interleaved [assign false e; use ro] (pre ++ rest) /\
  ~ In LoadAddr pre /\ ~ In LoadLen pre /\ w_len (fst (accesses words0 pre)) <> 0 /\
  searched_engine after (snd (accesses words0 (pre ++ rest))) = Panic.
Proof.
  intros after ro e. exists [StoreLen (length (name_of e))], (use ro ++ [StoreAddr e]). split; [destruct ro; shuffle|].
  split; [intros [H|[]]; discriminate|]. split; [intros [H|[]]; discriminate|]. split; [destruct e; discriminate|].
  replace (snd (accesses words0 _)) with {| l_addr := Some None; l_len := Some (length (name_of e)) |} by (destruct ro; reflexivity).
  apply C94_loaded. intros e' [E _]. discriminate.
Qed.
Print Assumptions C94_first_refuted.

(** Any number of goroutines that assign names of one length any number of times:
    every search gets one of the engines.  ("LegacyEngine" and "PatriciaTrie" are
    the only two names of the same length.) *)
Theorem C94_same_length_partial : forall after n e0 (writers : list (list (bool * ename))) ro sched,
  (forall e, e = e0 \/ (exists g wo, In g writers /\ In (wo, e) g) -> length (name_of e) = n) ->
  interleaved (use ro :: map (flat_map (fun a => assign (fst a) (snd a))) writers) sched ->
  exists e, (e = e0 \/ exists g wo, In g writers /\ In (wo, e) g) /\
    searched_engine after (snd (accesses (words_of e0) sched)) = Ok e.
Proof.
  intros after n e0 writers ro sched LN IL. set (ok := fun e => e = e0 \/ exists g wo, In g writers /\ In (wo, e) g) in *.
  assert (forall a, In a sched -> match a with StoreAddr e => ok e | StoreLen m => m = n | _ => True end) as ST.
  { intros a I. apply (interleaved_in _ _ IL) in I. destruct I as (g & [<-|I] & J).
    - destruct ro; repeat (destruct J as [<-|J]; [exact I|]); destruct J.
    - apply in_map_iff in I. destruct I as (l & <- & I). apply in_flat_map in J. destruct J as ((wo & e) & J & K). cbn [fst snd] in K.
      assert (ok e) as OE by (right; exists l, wo; auto). destruct wo; repeat (destruct K as [<-|K]; [first [exact OE|apply LN; exact OE]|]); destruct K. }
  assert (In LoadAddr sched /\ In LoadLen sched) as [IA ILN].
  { split; apply (interleaved_in _ _ IL); exists (use ro); (split; [left; auto|destruct ro; cbn; auto]). }
  assert (forall sched w l e1, (forall a, In a sched -> match a with StoreAddr e => ok e | StoreLen m => m = n | _ => True end) -> w = {| w_addr := Some e1; w_len := n |} -> ok e1 ->
    (forall a, l_addr l = Some a -> exists e, a = Some e /\ ok e) -> (forall m, l_len l = Some m -> m = n) ->
    let l' := snd (fold_left do_access sched (w, l)) in
    ((In LoadAddr sched \/ l_addr l <> None) -> exists e, l_addr l' = Some (Some e) /\ ok e) /\
    ((In LoadLen sched \/ l_len l <> None) -> l_len l' = Some n)) as R.
  { clear. induction sched as [|a sched IH]; intros w l e1 ST -> O1 LA LL; cbn [fold_left].
    - cbn. split; intros [[]|H].
      + destruct (l_addr l) as [x|]; [|congruence]. destruct (LA x eq_refl) as (e & -> & O). eauto.
      + destruct (l_len l) as [x|]; [|congruence]. rewrite (LL x eq_refl). auto.
    - assert (forall b, In b sched -> match b with StoreAddr e => ok e | StoreLen m => m = n | _ => True end) as ST' by (intros b I; apply ST; right; auto).
      pose proof (ST a (or_introl eq_refl)) as Sa. cbn [do_access]. destruct a as [e|m| |]; cbn [w_addr w_len].
      + destruct (IH {| w_addr := Some e; w_len := n |} l e ST' eq_refl Sa LA LL) as [A B]. split; intros H; [apply A|apply B]; (destruct H as [[H|H]|H]; [discriminate|auto|auto]).
      + subst m. destruct (IH {| w_addr := Some e1; w_len := n |} l e1 ST' eq_refl O1 LA LL) as [A B]. split; intros H; [apply A|apply B]; (destruct H as [[H|H]|H]; [discriminate|auto|auto]).
      + destruct (IH {| w_addr := Some e1; w_len := n |} {| l_addr := Some (Some e1); l_len := l_len l |} e1 ST' eq_refl O1) as [A B]; cbn [l_addr l_len]; auto.
        { intros x E. injection E as <-. eauto. }
        split; intros H; [apply A; right; discriminate|apply B]. destruct H as [[H|H]|H]; [discriminate|auto|auto].
      + destruct (IH {| w_addr := Some e1; w_len := n |} {| l_addr := l_addr l; l_len := Some n |} e1 ST' eq_refl O1) as [A B]; cbn [l_addr l_len]; auto.
        { intros x E. injection E as <-. auto. }
        split; intros H; [apply A|apply B; right; discriminate]. destruct H as [[H|H]|H]; [discriminate|auto|auto]. }
  destruct (R sched (words_of e0) loaded0 e0 ST) as [A B]; [|left; auto|intros a; discriminate|intros a; discriminate|].
  { unfold words_of. rewrite (LN e0) by (left; auto). auto. }
  destruct A as (e & EA & OE); [left; auto|]. specialize (B (or_introl ILN)). exists e. split; auto.
  unfold accesses. destruct (snd (fold_left do_access sched (words_of e0, loaded0))) as [la ll]. cbn [l_addr l_len] in EA, B. subst la ll.
  apply C94_loaded. split; auto. symmetry. apply LN. exact OE.
Qed.
Print Assumptions C94_same_length_partial.

(** Whatever is assigned meanwhile: an engine that was selected before or is assigned
    meanwhile, or a crash, and never a third engine. *)
Theorem C94_no_other_engine_partial : forall after e0 (writers : list (list (bool * ename))) ro sched,
  interleaved (use ro :: map (flat_map (fun a => assign (fst a) (snd a))) writers) sched ->
  let r := searched_engine after (snd (accesses (words_of e0) sched)) in
  r = Panic \/ exists e, r = Ok e /\ (e = e0 \/ exists g wo, In g writers /\ In (wo, e) g).
Proof.
  intros after e0 writers ro sched IL. set (ok := fun e => e = e0 \/ exists g wo, In g writers /\ In (wo, e) g) in *. cbv zeta.
  assert (forall e, In (StoreAddr e) sched -> ok e) as ST.
  { intros e I. apply (interleaved_in _ _ IL) in I. destruct I as (g & [<-|I] & J).
    - destruct ro; destruct J as [J|[J|[]]]; discriminate.
    - apply in_map_iff in I. destruct I as (l & <- & I). apply in_flat_map in J. destruct J as ((wo & e') & J & K). cbn [fst snd] in K.
      right. exists l, wo. split; auto. destruct wo; destruct K as [K|[K|[]]]; try discriminate; injection K as <-; auto. }
  assert (In LoadAddr sched /\ In LoadLen sched) as [IA ILN].
  { split; apply (interleaved_in _ _ IL); exists (use ro); (split; [left; auto|destruct ro; cbn; auto]). }
  assert (forall sched w l e1, (forall e, In (StoreAddr e) sched -> ok e) -> w_addr w = Some e1 -> ok e1 ->
    (forall a, l_addr l = Some a -> exists e, a = Some e /\ ok e) ->
    let l' := snd (fold_left do_access sched (w, l)) in
    ((In LoadAddr sched \/ l_addr l <> None) -> exists e, l_addr l' = Some (Some e) /\ ok e) /\
    ((In LoadLen sched \/ l_len l <> None) -> l_len l' <> None)) as R.
  { clear. induction sched as [|a sched IH]; intros w l e1 ST W O1 LA; cbn [fold_left].
    - cbn. split; intros [[]|H]; auto. destruct (l_addr l) as [x|]; [|congruence]. destruct (LA x eq_refl) as (e & -> & O). eauto.
    - assert (forall e, In (StoreAddr e) sched -> ok e) as ST' by (intros b I; apply ST; right; auto).
      cbn [do_access]. destruct a as [e|m| |].
      + destruct (IH {| w_addr := Some e; w_len := w_len w |} l e ST' eq_refl (ST e (or_introl eq_refl)) LA) as [A B]. split; intros H; [apply A|apply B]; (destruct H as [[H|H]|H]; [discriminate|auto|auto]).
      + destruct (IH {| w_addr := w_addr w; w_len := m |} l e1 ST' W O1 LA) as [A B]. split; intros H; [apply A|apply B]; (destruct H as [[H|H]|H]; [discriminate|auto|auto]).
      + destruct (IH w {| l_addr := Some (w_addr w); l_len := l_len l |} e1 ST' W O1) as [A B]; cbn [l_addr l_len]; auto.
        { intros x E. injection E as <-. eauto. }
        split; intros H; [apply A; right; discriminate|apply B]. destruct H as [[H|H]|H]; [discriminate|auto|auto].
      + destruct (IH w {| l_addr := l_addr l; l_len := Some (w_len w) |} e1 ST' W O1) as [A B]; cbn [l_addr l_len]; auto.
        split; intros H; [apply A|apply B; right; discriminate]. destruct H as [[H|H]|H]; [discriminate|auto|auto]. }
  destruct (R sched (words_of e0) loaded0 e0 ST eq_refl (or_introl eq_refl)) as [A B]; [intros a; discriminate|].
  destruct A as (e & EA & OE); [left; auto|]. specialize (B (or_introl ILN)).
  unfold accesses. destruct (snd (fold_left do_access sched (words_of e0, loaded0))) as [la ll]. cbn [l_addr l_len] in EA, B. subst la. destruct ll as [n|]; [|congruence].
  destruct (Nat.eq_dec n (length (name_of e))) as [->|NE].
  - right. exists e. split; auto. apply C94_loaded. auto.
  - left. apply C94_loaded. intros e' [E1 E2]. injection E1 as <-. congruence.
Qed.
Print Assumptions C94_no_other_engine_partial.

(** A search that loads both words after an assignment is complete, with no other
    assignment in between, gets the assigned engine, whatever happened before. *)
Theorem C94_quiet_partial : forall after w before wo e loads, (forall a, In a loads -> a = LoadAddr \/ a = LoadLen) ->
  In LoadAddr loads -> In LoadLen loads ->
  searched_engine after (snd (accesses w (before ++ assign wo e ++ loads))) = Ok e.
Proof.
  intros after w before wo e loads ON IA IL. unfold accesses. rewrite !fold_left_app. destruct (fold_left do_access before (w, loaded0)) as [w1 l1].
  assert (exists l2, fold_left do_access (assign wo e) (w1, l1) = (words_of e, l2)) as (l2 & ->) by (destruct wo; exists l1; reflexivity).
  assert (forall loads l, (forall a, In a loads -> a = LoadAddr \/ a = LoadLen) ->
    let l' := snd (fold_left do_access loads (words_of e, l)) in
    ((In LoadAddr loads \/ l_addr l = Some (Some e)) -> l_addr l' = Some (Some e)) /\
    ((In LoadLen loads \/ l_len l = Some (length (name_of e))) -> l_len l' = Some (length (name_of e)))) as R.
  { clear. induction loads as [|a loads IH]; intros l ON; [cbn; tauto|]. cbn [fold_left]. destruct (ON a (or_introl eq_refl)) as [-> | ->]; cbn [do_access].
    - destruct (IH {| l_addr := Some (w_addr (words_of e)); l_len := l_len l |}) as [A B]; [intros x I; apply ON; right; auto|].
      cbn [l_addr l_len] in A, B. split; intros H; [apply A; right; reflexivity|apply B]. destruct H as [[H|H]|H]; [discriminate|auto|auto].
    - destruct (IH {| l_addr := l_addr l; l_len := Some (w_len (words_of e)) |}) as [A B]; [intros x I; apply ON; right; auto|].
      cbn [l_addr l_len] in A, B. split; intros H; [apply A|apply B; right; reflexivity]. destruct H as [[H|H]|H]; [discriminate|auto|auto]. }
  destruct (R loads l2 ON) as [A B]. specialize (A (or_introl IA)). specialize (B (or_introl IL)).
  destruct (snd (fold_left do_access loads (words_of e, l2))) as [la ll]. cbn [l_addr l_len] in A, B. subst la ll. apply C94_loaded. auto.
Qed.
Print Assumptions C94_quiet_partial.

Example C94_lengths : map (fun e => length (name_of e)) all_names = [12; 4; 12; 9].
Proof. reflexivity. Qed.
Example C94_case : exists sched, interleaved [use true; assign true EPatricia ++ assign false ELegacy; assign false EPatricia] sched /\
  searched_engine (fun _ _ => "x"%char) (snd (accesses (words_of ELegacy) sched)) = Ok EPatricia.
Proof.
  exists [StoreAddr EPatricia; StoreLen 12; LoadAddr; StoreLen 12; StoreLen 12; StoreAddr ELegacy; LoadLen; StoreAddr EPatricia]. split; [|vm_compute; reflexivity].
  apply (inter_step [use true] _ _ [_]). apply (inter_step [use true] _ _ [_]). apply (inter_step [] _ _ [_; _]).
  apply (inter_step [_] _ _ [_]). apply (inter_step [_; _] _ _ []). apply (inter_step [_] _ _ [_]). apply (inter_step [] _ _ [_; _]). apply (inter_step [_; _] _ _ []).
  apply inter_done. repeat constructor.
Qed.

(** The case does arise: in this run of the factory the splay tree is selected, a
    search is about to use the name, the listener can select the Patricia trie and
    the ticker can select the list. *)
Import PropsFactory.
Definition ex_both : list (@label subscriptions tag (list nat)) :=
  boot EList ex_chain ++ announce EList ++ boot ESplay ex_chain ++ announce ESplay ++ [LStart] ++
  LSearch ex_tag ex_order :: [LVisit] ++ hit 4 ++ [LVisit; LVisit] ++ hit 3 ++ report EList ++
  LTick ex_order :: [LTickRead; LTickRead; LTickRead; LTickRead] ++ boot EPatricia ex_chain ++
  LSearch ex_tag ex_order :: [LVisit] ++ hit 4 ++ hit 2 ++ [LVisit].
Definition selected_by (l : @label subscriptions tag (list nat)) : option ename :=
  match step (build_engine E0) engine_search queue_size (state_of (system_run E0 system0 ex_both)) l with Ok (s, _) => y_cur s | _ => None end.
Example C94_arises : let r := system_run E0 system0 ex_both in
  r = Ok (state_of r, seen_of r) /\ y_cur (state_of r) = Some ESplay /\ y_search (state_of r) = SLoop ex_tag [] /\
  selected_by (LNotify EPatricia 0) = Some EPatricia /\ selected_by LTickPick = Some EList /\ selected_by LVisit = Some ESplay.
Proof. vm_compute. intuition. Qed.
