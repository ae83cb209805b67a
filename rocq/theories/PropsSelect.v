(** C97: the selection of an engine, access by access. *)
From Verif Require Import GoBase MFloat MGenerator MFactory MSelect.
From Coq Require Import Lia.

(** * Specification *)
Definition by_whom (x : seen) : who := match x with Change w _ _ => w | Told w _ => w end.
Definition other (w : who) : who := match w with ByListener => ByTicker | ByTicker => ByListener end.
(** The last change and the last message of a history (latest last). *)
Fixpoint last_change (o : list seen) : option (who * ename) :=
  match o with
  | [] => None
  | x :: o' => match last_change o' with Some r => Some r | None => match x with Change w _ e => Some (w, e) | Told _ _ => None end end
  end.
Fixpoint last_told (o : list seen) : option (option ename) :=
  match o with
  | [] => None
  | x :: o' => match last_told o' with Some r => Some r | None => match x with Told _ m => Some m | Change _ _ _ => None end end
  end.
(** An announcement replaces an engine only by one of a higher priority. *)
Definition only_better (o : list seen) : Prop :=
  forall o1 c e o2, o = o1 ++ Change ByListener (Some c) e :: o2 -> (priority c < priority e)%N.
(** Every change is told to main by a later message. *)
Definition all_told (o : list seen) : Prop :=
  forall o1 w old e o2, o = o1 ++ Change w old e :: o2 -> exists w', In (Told w' (Some e)) o2.
(** Nothing is in progress. *)
Definition quiet (s : sel) : Prop := x_li s = LiIdle /\ x_ti s = TkWait.
(** What main was told last is what is selected. *)
Definition last_right (s : sel) (o : list seen) : Prop :=
  last_change o <> None -> last_told o = Some (x_cur s).
(** Listener and ticker are never both at work. *)
Definition apart (ls : list slabel) : Prop :=
  forall a b s o, ls = a ++ b -> select_run sel0 a = Ok (s, o) -> x_li s = LiIdle \/ x_ti s = TkWait.
(** The engines that were announced or found fastest. *)
Definition proposed (ls : list slabel) (e : ename) : Prop := In (Announce e) ls \/ In (Tick (Some e)) ls.

(** * Proofs *)
Lemma select_run_snoc : forall ls l s s2 o,
  select_run s (ls ++ [l]) = Ok (s2, o) ->
  exists s1 o1 o2, select_run s ls = Ok (s1, o1) /\ select_step s1 l = Ok (s2, o2) /\ o = o1 ++ o2.
Proof.
  induction ls as [|a ls IH]; intros l s s2 o H; cbn in H.
  - destruct (select_step s l) as [[s1 o1]| |] eqn:E; cbn in H; try discriminate.
    injection H as <- <-. exists s, [], o1. rewrite app_nil_r. repeat split; auto.
  - destruct (select_step s a) as [[s1 o1]| |] eqn:E; cbn in H; try discriminate.
    destruct (select_run s1 (ls ++ [l])) as [[s3 o3]| |] eqn:E3; cbn in H; try discriminate.
    injection H as <- <-.
    destruct (IH _ _ _ _ E3) as (s4 & o4 & o5 & A & B & ->).
    exists s4, (o1 ++ o4), o5. cbn. rewrite E. cbn. rewrite A. cbn. rewrite app_assoc. auto.
Qed.

Lemma select_ind : forall P : list slabel -> list seen -> sel -> Prop,
  P [] [] sel0 ->
  (forall h o s l s' o', select_run sel0 h = Ok (s, o) -> select_run sel0 (h ++ [l]) = Ok (s', o ++ o') ->
     P h o s -> select_step s l = Ok (s', o') -> P (h ++ [l]) (o ++ o') s') ->
  forall ls s o, select_run sel0 ls = Ok (s, o) -> P ls o s.
Proof.
  intros P H0 HS ls. induction ls as [|l ls IH] using rev_ind; intros s o H.
  - cbn in H. injection H as <- <-. exact H0.
  - pose proof H as H'. apply select_run_snoc in H as (s1 & o1 & o2 & A & B & ->).
    eapply HS; eauto.
Qed.

Lemma snoc_split : forall (o : list seen) y o1 x o2, o ++ [y] = o1 ++ x :: o2 ->
  (o2 = [] /\ o1 = o /\ x = y) \/ exists o3, o2 = o3 ++ [y] /\ o = o1 ++ x :: o3.
Proof.
  intros o y o1 x o2 H. destruct o2 as [|z o2' _] using rev_ind.
  - left. apply app_inj_tail in H as [-> ->]. auto.
  - right. exists o2'. replace (o1 ++ x :: o2' ++ [z]) with ((o1 ++ x :: o2') ++ [z]) in H
      by (rewrite <- app_assoc; reflexivity).
    apply app_inj_tail in H as [-> ->]. auto.
Qed.
Lemma last_change_snoc : forall o y, last_change (o ++ [y]) =
  match y with Change w _ e => Some (w, e) | Told _ _ => last_change o end.
Proof. induction o as [|x o IH]; intros y; cbn; [|rewrite IH]; destruct y; cbn; auto. Qed.
Lemma last_told_snoc : forall o y, last_told (o ++ [y]) =
  match y with Told _ m => Some m | Change _ _ _ => last_told o end.
Proof. induction o as [|x o IH]; intros y; cbn; [|rewrite IH]; destruct y; cbn; auto. Qed.

(** All steps, one goal per step. *)
Ltac step_cases s l H :=
  destruct s as [cur lis tic]; destruct l; cbn in H; unfold x_li, x_ti, x_cur in H;
  [destruct lis|destruct tic|destruct lis|destruct tic]; try discriminate H;
  injection H as <- <-; cbn [x_cur x_li x_ti] in *; rewrite ?app_nil_r in *.

(** The name is that of the last change. *)
Lemma cur_is_last : forall ls s o, select_run sel0 ls = Ok (s, o) ->
  x_cur s = option_map snd (last_change o).
Proof.
  apply (select_ind (fun _ o s => x_cur s = option_map snd (last_change o))); [reflexivity|].
  intros h o s l s' o' _ _ IH H. step_cases s l H; rewrite ?last_change_snoc; auto.
Qed.

(** Every name in the system was proposed. *)
Definition holds_of (P : ename -> Prop) (s : sel) (o : list seen) : Prop :=
  (forall e, x_cur s = Some e -> P e) /\
  (forall e, x_li s = LiEmpty e \/ x_li s = LiCompare e \/ x_li s = LiAssign e \/ x_li s = LiSend (Some e) -> P e) /\
  (forall e, x_ti s = TkCompare (Some e) \/ x_ti s = TkAssign e \/ x_ti s = TkSend (Some e) -> P e) /\
  (forall w e, In (Told w (Some e)) o -> P e) /\
  (forall w old e, In (Change w old e) o -> P e).

Lemma names_proposed : forall ls s o, select_run sel0 ls = Ok (s, o) -> holds_of (proposed ls) s o.
Proof.
  apply (select_ind (fun ls o s => holds_of (proposed ls) s o)).
  - repeat split; cbn; intros; try tauto; try discriminate;
      repeat match goal with H : _ \/ _ |- _ => destruct H end; discriminate.
  - intros h o s l s' o' _ _ IH H.
    assert (M : forall e, proposed h e -> proposed (h ++ [l]) e)
      by (intros e [A|A]; [left|right]; apply in_or_app; auto).
    destruct IH as (A & B & C & D & E).
    assert (N1 : forall e, l = Announce e -> proposed (h ++ [l]) e)
      by (intros e ->; left; apply in_or_app; right; left; reflexivity).
    assert (N2 : forall e, l = Tick (Some e) -> proposed (h ++ [l]) e)
      by (intros e ->; right; apply in_or_app; right; left; reflexivity).
    unfold holds_of.
    step_cases s l H;
      repeat match goal with |- context [match ?x with _ => _ end] => destruct x eqn:? end;
      (split; [|split; [|split; [|split]]]); cbn [x_cur x_li x_ti];
      intros; rewrite ?in_app_iff in *; cbn [In] in *;
      repeat match goal with K : _ \/ _ |- _ => destruct K end; try contradiction; try discriminate;
      repeat match goal with K : _ = _ :> option _ |- _ => injection K as K; subst
                        | K : _ = _ :> seen |- _ => injection K as K; subst
                        | K : _ = _ :> li |- _ => injection K as K; subst
                        | K : _ = _ :> ti |- _ => injection K as K; subst end;
      eauto 8.
Qed.

(** The listener's decision to replace rests on what was selected when it compared:
    since then only the ticker can have changed it. *)
Definition decided (s : sel) (o : list seen) : Prop :=
  forall e, x_li s = LiAssign e ->
    match x_cur s with None => True | Some c => (priority c < priority e)%N \/ last_change o = Some (ByTicker, c) end.
Definition blamed (o : list seen) : Prop :=
  forall o1 c e o2, o = o1 ++ Change ByListener (Some c) e :: o2 ->
    (priority c < priority e)%N \/ last_change o1 = Some (ByTicker, c).
Lemma blame : forall ls s o, select_run sel0 ls = Ok (s, o) -> decided s o /\ blamed o.
Proof.
  apply (select_ind (fun _ o s => decided s o /\ blamed o)).
  - split; [intros e H; discriminate|]. intros [|? ?] c e o2 H; discriminate.
  - intros h o s l s' o' _ _ [D B] H. unfold decided in *.
    step_cases s l H; (split; [|try exact B]); try (intros e0 K; discriminate K);
      try (intros e0 K; injection K as ->; exact (D _ eq_refl)); try exact D.
    + intros e0 K. destruct cur; [discriminate K|exact I].
    + intros e0 K. destruct (priority_of cur <? priority e)%N eqn:E; [|discriminate K].
      injection K as ->. apply N.ltb_lt in E. destruct cur; [left; exact E|exact I].
    + intros o1 c e0 o2 E. apply snoc_split in E as [(-> & -> & K)|(o3 & -> & ->)]; [|eapply B; reflexivity].
      injection K as <- <-. exact (D _ eq_refl).
    + intros o1 c e0 o2 E. apply snoc_split in E as [(-> & -> & K)|(o3 & -> & ->)]; [discriminate K|eapply B; reflexivity].
    + intros e0 K. right. rewrite last_change_snoc. reflexivity.
    + intros o1 c e0 o2 E. apply snoc_split in E as [(-> & -> & K)|(o3 & -> & ->)]; [discriminate K|eapply B; reflexivity].
    + intros e0 K. specialize (D _ K). rewrite last_change_snoc. exact D.
    + intros o1 c e0 o2 E. apply snoc_split in E as [(-> & -> & K)|(o3 & -> & ->)]; [discriminate K|eapply B; reflexivity].
Qed.

(** What a message may name after a change to [e] and then [o2]. *)
Definition names (e : ename) (o2 : list seen) (m : option ename) : Prop :=
  m = Some e \/ exists w old e', m = Some e' /\ In (Change w old e') o2.
Lemma names_grows : forall e o y m, names e o m -> names e (o ++ [y]) m.
Proof.
  intros e o y m [->|(w & old & e' & -> & I)]; [left; reflexivity|].
  right. exists w, old, e'. split; [reflexivity|]. apply in_or_app. auto.
Qed.
Lemma last_names : forall o2 o1 w old e,
  names e o2 (option_map snd (last_change (o1 ++ Change w old e :: o2))).
Proof.
  induction o2 as [|y o2 IH] using rev_ind; intros o1 w old e.
  - rewrite last_change_snoc. left. reflexivity.
  - replace (o1 ++ Change w old e :: o2 ++ [y]) with ((o1 ++ Change w old e :: o2) ++ [y])
      by (rewrite <- app_assoc; reflexivity).
    rewrite last_change_snoc. destruct y as [w' old' e'|w' m]; [|apply names_grows, IH].
    right. exists w', old', e'. split; [reflexivity|]. apply in_or_app. right. left. reflexivity.
Qed.
Definition silent (w : who) (o : list seen) : Prop := forall x, In x o -> by_whom x = other w.
Lemma silent_app : forall w o y, silent w (o ++ [y]) -> silent w o /\ by_whom y = other w.
Proof.
  intros w o y H. split; [intros x I; apply H, in_or_app; auto|]. apply H, in_or_app. right. left. reflexivity.
Qed.
(** After its own change a party still has its message to make, with a fitting name. *)
Definition due (w : who) (s : sel) (e : ename) (o2 : list seen) : Prop :=
  match w with
  | ByListener => match x_li s with LiName => True | LiSend m => names e o2 m | _ => False end
  | ByTicker => match x_ti s with TkName => True | TkSend m => names e o2 m | _ => False end
  end.
Definition owed (s : sel) (o : list seen) : Prop :=
  forall o1 w old e o2, o = o1 ++ Change w old e :: o2 -> silent w o2 -> due w s e o2.
Definition named (o : list seen) : Prop :=
  forall o1 w old e o2 m o3, o = o1 ++ Change w old e :: o2 ++ Told w m :: o3 -> silent w o2 -> names e o2 m.
Lemma named_grows : forall o y, named o ->
  (forall w m, y = Told w m -> forall o1 old e o2, o = o1 ++ Change w old e :: o2 -> silent w o2 -> names e o2 m) ->
  named (o ++ [y]).
Proof.
  intros o y N K o1 w old e o2 m o3 E S.
  replace (o1 ++ Change w old e :: o2 ++ Told w m :: o3) with ((o1 ++ Change w old e :: o2) ++ Told w m :: o3) in E
    by (rewrite <- app_assoc; reflexivity).
  apply snoc_split in E as [(-> & E & <-)|(o4 & -> & ->)].
  - eapply K; eauto.
  - apply (N o1 w old e o2 m o4); [rewrite <- app_assoc; reflexivity|exact S].
Qed.
Lemma owing : forall ls s o, select_run sel0 ls = Ok (s, o) -> owed s o /\ named o.
Proof.
  apply (select_ind (fun _ o s => owed s o /\ named o)).
  - split; intros [|? ?] ? ? ? ? ; intros; discriminate.
  - intros h o s l s' o' R0 R1 [D B] H. pose proof (cur_is_last _ _ _ R0) as C.
    assert (G : forall o1 w old e o2, o = o1 ++ Change w old e :: o2 -> names e o2 (x_cur s)).
    { intros o1 w old e o2 ->. rewrite C. apply last_names. }
    clear C R0 R1. unfold owed in D.
    step_cases s l H; (split; [|try exact B]);
    try (intros o1 w old e0 o2 E S; specialize (D _ _ _ _ _ E S); destruct w; cbn in *; auto; try contradiction;
         eapply G; eassumption);
    try (apply named_grows; [exact B|]; intros w' m' Y; try discriminate Y; injection Y as <- <-;
         intros o1 old0 e0 o2 E S; specialize (D _ _ _ _ _ E S); exact D);
    intros o1 w0 old0 e0 o2 E S; apply snoc_split in E as [(-> & -> & K)|(o3 & -> & ->)];
    try discriminate K; try (injection K as -> -> ->; exact I);
    apply silent_app in S as [S Y]; destruct w0; try discriminate Y;
    specialize (D _ _ _ _ _ eq_refl S); cbn in *; auto; try contradiction.
    all: match goal with |- match ?x with _ => _ end => destruct x; auto using names_grows end.
Qed.

(** Between two changes by one party there is a message of it. *)
Lemma alternating : forall ls s o, select_run sel0 ls = Ok (s, o) ->
  forall o1 w old e o2 old' e' o3, o = o1 ++ Change w old e :: o2 ++ Change w old' e' :: o3 -> silent w o2 -> False.
Proof.
  apply (select_ind (fun _ o _ =>
    forall o1 w old e o2 old' e' o3, o = o1 ++ Change w old e :: o2 ++ Change w old' e' :: o3 -> silent w o2 -> False)).
  - intros [|? ?] ? ? ? ? ? ? ? E; discriminate.
  - intros h o s l s' o' R0 _ IH H. destruct (owing _ _ _ R0) as [D _]. unfold owed in D. clear R0.
    assert (G : forall y, (forall w old' e', y = Change w old' e' -> forall o1 old e o2, o = o1 ++ Change w old e :: o2 -> silent w o2 -> False) ->
      forall o1 w old e o2 old' e' o3, o ++ [y] = o1 ++ Change w old e :: o2 ++ Change w old' e' :: o3 -> silent w o2 -> False).
    { intros y K o1 w old e o2 old' e' o3 E S.
      replace (o1 ++ Change w old e :: o2 ++ Change w old' e' :: o3)
        with ((o1 ++ Change w old e :: o2) ++ Change w old' e' :: o3) in E by (rewrite <- app_assoc; reflexivity).
      apply snoc_split in E as [(-> & E & <-)|(o4 & -> & ->)]; [eapply K; eauto|].
      apply (IH o1 w old e o2 old' e' o4); [rewrite <- app_assoc; reflexivity|exact S]. }
    step_cases s l H; try exact IH; apply G; intros w old' e' Y; try discriminate Y;
      injection Y as <- <- <-; intros o1 old e0 o2 E S; exact (D _ _ _ _ _ E S).
Qed.
(** The first event of a party, if any. *)
Lemma first_of : forall w o,
  silent w o \/ exists o3 x o4, o = o3 ++ x :: o4 /\ by_whom x = w /\ silent w o3.
Proof.
  induction o as [|x o IH]; [left; intros x []|].
  destruct (by_whom x) eqn:W, w;
    try (right; exists [], x, o; repeat split; [exact W|intros y []]);
    (destruct IH as [S|(o3 & y & o4 & -> & Y & S)];
     [left; intros y [<-|I]; [exact W|exact (S _ I)]
     |right; exists (x :: o3), y, o4; repeat split; [exact Y|intros z [<-|I]; [exact W|exact (S _ I)]]]).
Qed.

(** While the two are apart every claim holds. *)
Definition fine (c : option ename) (o : list seen) : Prop :=
  all_told o /\ (last_change o <> None -> last_told o = Some c).
Definition fresh (c : option ename) (o : list seen) : Prop :=
  exists o0 w old e, o = o0 ++ [Change w old e] /\ all_told o0 /\ c = Some e.
Definition tidy (s : sel) (o : list seen) : Prop :=
  match x_li s, x_ti s with
  | LiName, _ | _, TkName => fine (x_cur s) o \/ fresh (x_cur s) o
  | LiSend m, _ | _, TkSend m => (fine (x_cur s) o \/ fresh (x_cur s) o) /\ m = x_cur s
  | _, _ => fine (x_cur s) o
  end.
Lemma apart_before : forall h l, apart (h ++ [l]) -> apart h.
Proof.
  intros h l A a b s o E. apply (A a (b ++ [l]) s o). rewrite E, app_assoc. reflexivity.
Qed.
Lemma told_after : forall c o w, fine c o \/ fresh c o -> fine c (o ++ [Told w c]).
Proof.
  intros c o w H. split; [|intros _; rewrite last_told_snoc; reflexivity].
  assert (T : forall o0, all_told o0 -> all_told (o0 ++ [Told w c])).
  { intros o0 A o1 w0 old e o2 E. apply snoc_split in E as [(-> & -> & K)|(o3 & -> & ->)]; [discriminate K|].
    destruct (A _ _ _ _ _ eq_refl) as [w' I]. exists w'. apply in_or_app. auto. }
  destruct H as [[A _]|(o0 & w1 & old & e & -> & A & E0)]; [apply T, A|].
  intros o1 w0 old0 e0 o2 E. apply snoc_split in E as [(-> & -> & K)|(o3 & -> & E)]; [discriminate K|].
  apply snoc_split in E as [(-> & -> & K)|(o4 & -> & ->)].
  - injection K as -> -> ->. exists w. left. rewrite E0. reflexivity.
  - destruct (A _ _ _ _ _ eq_refl) as [w' I]. exists w'. apply in_or_app. left. apply in_or_app. auto.
Qed.
Lemma apart_tidy : forall ls s o, select_run sel0 ls = Ok (s, o) -> apart ls ->
  (forall e, x_li s = LiAssign e -> match x_cur s with None => True | Some c => (priority c < priority e)%N end) /\
  only_better o /\ tidy s o.
Proof.
  apply (select_ind (fun ls o s => apart ls ->
    (forall e, x_li s = LiAssign e -> match x_cur s with None => True | Some c => (priority c < priority e)%N end) /\
    only_better o /\ tidy s o)).
  - intros _. split; [intros e H; discriminate|]. split; [intros [|? ?] ? ? ? H; discriminate|].
    split; [intros [|? ?] ? ? ? ? H; discriminate|]. intros H. contradiction.
  - intros h o s l s' o' R0 R1 IH H A. destruct (IH (apart_before _ _ A)) as (D & B & T). clear IH.
    assert (P : x_li s = LiIdle \/ x_ti s = TkWait).
    { apply (apart_before _ _ A h [] s o); [rewrite app_nil_r; reflexivity|exact R0]. }
    assert (P' : x_li s' = LiIdle \/ x_ti s' = TkWait).
    { apply (A (h ++ [l]) [] s' (o ++ o')); [rewrite app_nil_r; reflexivity|exact R1]. }
    clear R0 R1 A.
    assert (B' : forall y, (forall c e, y <> Change ByListener (Some c) e) -> only_better (o ++ [y])).
    { intros y Y o1 c e o2 E. apply snoc_split in E as [(-> & -> & K)|(o3 & -> & ->)];
        [symmetry in K; destruct (Y _ _ K)|eapply B; reflexivity]. }
    unfold tidy in *.
    step_cases s l H; (destruct P as [P|P]; [try discriminate P|try (subst; cbn in *)]);
      (destruct P' as [P'|P']; try discriminate P'); subst; cbn [x_cur x_li x_ti] in *;
      (split; [|split]);
      try exact B; try exact T; try (apply B'; congruence); try exact D;
      try (intros e0 K; discriminate K); try (intros e0 K; injection K as ->; exact (D _ eq_refl)).
    all: try (repeat match goal with |- context [match ?x with _ => _ end] => destruct x eqn:? end; auto; fail).
    all: try (destruct T as [T ->]; apply told_after, T).
    all: try (right; destruct T as [T1 _]; do 4 eexists; split; [reflexivity|]; split; [exact T1|reflexivity]).
    all: try (intros e0 K; match type of K with context [if ?b then _ else _] => destruct b eqn:E; [|discriminate K] end;
      injection K as ->; apply N.ltb_lt in E; destruct cur; [exact E|exact I]).
    all: try (intros e0 K; destruct cur; [discriminate K|exact I]).
    all: try (intros o1 c e0 o2 E; apply snoc_split in E as [(-> & -> & K)|(o3 & -> & ->)]; [|eapply B; reflexivity];
      injection K as <- <-; exact (D _ eq_refl)).
    all: try (destruct cur; exact T).
    all: try (match goal with |- context [if ?b then _ else _] => destruct b; exact T end).
    all: try (destruct p; [destruct (same_name _ _)|]; auto).
    all: discriminate P.
Qed.

(** An announcement that is not disturbed, and a tick that is not, do what [MFactory]
    does in one step. *)
Section Atomic.
  Context {Sub Eng Tag Orc Ans : Type}.
  Context (build : ename -> Sub -> result Eng) (esearch : Orc -> Eng -> Tag -> result (Ans * bool * Eng)) (cap : nat).
  Lemma handle_undisturbed : forall (y y' : @sys Sub Eng Tag Ans) e obs t,
    handle (MGenerated e) y = Ok (y', obs) -> y_listener y = None ->
    exists n o, select_run {| x_cur := y_cur y; x_li := LiIdle; x_ti := t |} (Announce e :: repeat ListenerGoes n)
      = Ok ({| x_cur := y_cur y'; x_li := LiIdle; x_ti := t |}, o) /\
    match y_listener y' with
    | Some m => exists c, m = MSelected c /\ o = [Change ByListener (y_cur y) e; Told ByListener c]
    | None => o = []
    end.
  Proof.
    intros y y' e obs t H N. unfold handle in H. destruct (g_engine (y_gen y e)); [|discriminate H].
    destruct (y_cur y) as [c|] eqn:C.
    - destruct (priority c <? priority e)%N eqn:E; injection H as <- <-.
      + exists 5%nat. eexists. split; [cbn; rewrite E; cbn; reflexivity|]. cbn. eexists. split; reflexivity.
      + exists 2%nat. eexists. split; [cbn; rewrite E; cbn; rewrite C; reflexivity|]. rewrite N. reflexivity.
    - injection H as <- <-. exists 4%nat. eexists. split; [cbn; reflexivity|]. cbn. eexists. split; reflexivity.
  Qed.
  Lemma pick_undisturbed : forall (y y' : @sys Sub Eng Tag Ans) read obs l,
    step build esearch cap y LTickPick = Ok (y', obs) -> y_ticker y = TiRange [] read ->
    exists n o m, select_run {| x_cur := y_cur y; x_li := l; x_ti := TkWait |} (Tick (pick read) :: repeat TickerGoes n)
      = Ok ({| x_cur := y_cur y'; x_li := l; x_ti := TkWait |}, o ++ [Told ByTicker m]) /\
      y_ticker y' = TiSend (MSelected m).
  Proof.
    intros y y' read obs l H T. cbn in H. rewrite T in H. injection H as <- <-. cbn.
    destruct (pick read) as [e|].
    - destruct (same_name (y_cur y) (Some e)) eqn:E.
      + exists 3%nat, [], (Some e). cbn. rewrite E. cbn.
        assert (C : y_cur y = Some e). { destruct (y_cur y) as [c|]; [|discriminate E]. destruct c, e; cbn in E; congruence. }
        rewrite C. split; reflexivity.
      + exists 4%nat, [Change ByTicker (y_cur y) e], (Some e). cbn. rewrite E. cbn. split; reflexivity.
    - exists 3%nat, [], (y_cur y). cbn. split; reflexivity.
  Qed.
End Atomic.

(** * Theorems *)
(** Whatever the interleaving, only engines that were announced or found fastest are
    selected, replaced to or told of. *)
Theorem C97_names : forall ls s o, select_run sel0 ls = Ok (s, o) ->
  (forall e, x_cur s = Some e -> proposed ls e) /\
  (forall w old e, In (Change w old e) o -> proposed ls e) /\
  (forall w e, In (Told w (Some e)) o -> proposed ls e).
Proof. intros ls s o H. destruct (names_proposed _ _ _ H) as (A & _ & _ & D & E). auto. Qed.
Print Assumptions C97_names.
(** The selected engine is the one of the last change: once there is one, no
    interleaving takes it away again. *)
Theorem C97_selected : forall ls s o, select_run sel0 ls = Ok (s, o) ->
  x_cur s = option_map snd (last_change o).
Proof. exact cur_is_last. Qed.
Print Assumptions C97_selected.

(** The property for a history that ends in a state. *)
Definition as_claimed (s : sel) (o : list seen) : Prop :=
  only_better o /\ (quiet s -> all_told o /\ last_right s o).
(** It holds as long as the listener and the ticker are never both at work. *)
Theorem C97_apart_partial : forall ls s o, select_run sel0 ls = Ok (s, o) -> apart ls -> as_claimed s o.
Proof.
  intros ls s o H A. destruct (apart_tidy _ _ _ H A) as (_ & B & T). split; [exact B|].
  intros [L K]. unfold tidy in T. rewrite L, K in T. destruct T as [T1 T2]. split; [exact T1|exact T2].
Qed.
Print Assumptions C97_apart_partial.
(** Otherwise an announcement may replace an engine that is no lesser one: exactly
    when the ticker was the last to change the engine, after the comparison. *)
Theorem C97_better_partial : forall ls s o1 c e o2,
  select_run sel0 ls = Ok (s, o1 ++ Change ByListener (Some c) e :: o2) ->
  (priority e <= priority c)%N -> last_change o1 = Some (ByTicker, c).
Proof.
  intros ls s o1 c e o2 H L. destruct (blame _ _ _ H) as [_ B]. destruct (B _ _ _ _ eq_refl) as [K|K]; [lia|exact K].
Qed.
Print Assumptions C97_better_partial.
(** The first message a party sends after changing the engine names that engine,
    or one the other party changed to in between. *)
Theorem C97_message_partial : forall ls s o1 w old e o2 m o3,
  select_run sel0 ls = Ok (s, o1 ++ Change w old e :: o2 ++ Told w m :: o3) ->
  (forall x, In x o2 -> by_whom x = other w) ->
  m = Some e \/ exists old' e', m = Some e' /\ In (Change (other w) old' e') o2.
Proof.
  intros ls s o1 w old e o2 m o3 H S. destruct (owing _ _ _ H) as [_ B].
  destruct (B _ _ _ _ _ _ _ eq_refl S) as [K|(w' & old' & e' & -> & I)]; [left; exact K|right].
  pose proof (S _ I) as K. cbn in K. subst w'. exists old', e'. auto.
Qed.
Print Assumptions C97_message_partial.
(** Every change is followed by a message of the party that made it, before that
    party changes the engine again. *)
Theorem C97_answered : forall ls s o1 w old e o2,
  select_run sel0 ls = Ok (s, o1 ++ Change w old e :: o2) -> quiet s ->
  exists o3 m o4, o2 = o3 ++ Told w (Some m) :: o4 /\ (forall x, In x o3 -> by_whom x = other w).
Proof.
  intros ls s o1 w old e o2 H [L T]. destruct (owing _ _ _ H) as [D B].
  destruct (first_of w o2) as [S|(o3 & x & o4 & -> & W & S)].
  - specialize (D _ _ _ _ _ eq_refl S). exfalso. destruct w; cbn in D; rewrite ?L, ?T in D; exact D.
  - destruct x as [w' old' e'|w' m]; cbn in W; subst w'.
    + destruct (alternating _ _ _ H _ _ _ _ _ _ _ _ eq_refl S).
    + destruct (B _ _ _ _ _ _ _ eq_refl S) as [->|(w' & old' & e' & -> & _)]; do 3 eexists; eauto.
Qed.
Print Assumptions C97_answered.
(** A tick that is not disturbed sets things right: main is told what is selected,
    and that is what was found fastest, if anything. *)
Theorem C97_tick : forall s p n s' o, x_ti s = TkWait ->
  select_run s (Tick p :: repeat TickerGoes n) = Ok (s', o) -> x_ti s' = TkWait ->
  last_told o = Some (x_cur s') /\ (p <> None -> x_cur s' = p).
Proof.
  intros [cur lis tic] p n s' o E H W. cbn in E. subst tic. cbn in H.
  destruct n as [|n]; [cbn in H; injection H as <- <-; discriminate W|]. cbn in H.
  assert (F : forall k c z o, select_run {| x_cur := c; x_li := lis; x_ti := TkName |} (repeat TickerGoes k) = Ok (z, o) ->
    x_ti z = TkWait -> last_told o = Some (x_cur z) /\ x_cur z = c).
  { clear. intros k c z o R W. destruct k as [|k]; [cbn in R; injection R as <- <-; discriminate W|]. cbn in R.
    destruct k as [|k]; [cbn in R; injection R as <- <-; discriminate W|]. cbn in R.
    destruct k as [|k]; [cbn in R; injection R as <- <-; split; reflexivity|discriminate R]. }
  assert (G : forall r, (let! (s2, o2) := r in Ok (s2, [] ++ o2)) = Ok (s', o) -> r = Ok (s', o)).
  { intros [[a b]| |] R; cbn in R; congruence. }
  apply G in H. apply G in H.
  destruct p as [e|].
  - destruct (same_name cur (Some e)) eqn:Q.
    + destruct (F _ _ _ _ H W) as [F1 F2]. split; [exact F1|]. intros _. rewrite F2.
      destruct cur as [c|]; [|discriminate Q]. destruct c, e; cbn in Q; congruence.
    + destruct n as [|n]; [cbn in H; injection H as <- <-; discriminate W|]. cbn in H.
      destruct (select_run _ (repeat TickerGoes n)) as [[s2 o2]| |] eqn:R; cbn in H; try discriminate H.
      injection H as <- <-. destruct (F _ _ _ _ R W) as [F1 F2]. split; [cbn; rewrite F1; reflexivity|auto].
  - destruct (F _ _ _ _ H W) as [F1 _]. split; [exact F1|]. intros K. contradiction.
Qed.
Print Assumptions C97_tick.
Definition select_two : list slabel := (Announce EList :: repeat ListenerGoes 4) ++ (Announce ESplay :: repeat ListenerGoes 5) ++ [Announce EList; ListenerGoes; ListenerGoes].
(** An announcement that is not disturbed: the engine is selected and told exactly if
    there was none or one with a lower priority; otherwise nothing happens. *)
Theorem C97_announced : forall s e n s' o, x_li s = LiIdle ->
  select_run s (Announce e :: repeat ListenerGoes n) = Ok (s', o) -> x_li s' = LiIdle ->
  ((forall c, x_cur s = Some c -> (priority c < priority e)%N) -> x_cur s' = Some e /\ o = [Change ByListener (x_cur s) e; Told ByListener (Some e)]) /\
  (forall c, x_cur s = Some c -> (priority e <= priority c)%N -> x_cur s' = Some c /\ o = []).
Proof.
  intros [cur lis tic] e n s' o E H W. cbn in E. subst lis. cbn in H. cbn [x_cur].
  assert (G : forall r, (let! (s2, o2) := r in Ok (s2, [] ++ o2)) = Ok (s', o) -> r = Ok (s', o)).
  { intros [[a b]| |] R; cbn in R; congruence. }
  apply G in H. destruct n as [|n]; [cbn in H; injection H as <- <-; discriminate W|]. cbn in H. apply G in H.
  assert (F : forall k z o, select_run {| x_cur := cur; x_li := LiAssign e; x_ti := tic |} (repeat ListenerGoes k) = Ok (z, o) ->
    x_li z = LiIdle -> x_cur z = Some e /\ o = [Change ByListener cur e; Told ByListener (Some e)]).
  { clear. intros k z o R W. do 3 (destruct k as [|k]; [cbn in R; injection R as <- <-; discriminate W|]; cbn in R).
    destruct k as [|k]; [|discriminate R]. cbn in R. injection R as <- <-. split; reflexivity. }
  destruct cur as [c|].
  - destruct n as [|n]; [cbn in H; injection H as <- <-; discriminate W|]. cbn in H. apply G in H.
    destruct (priority c <? priority e)%N eqn:Q.
    + split; [intros _; eapply F; eauto|]. intros c' K L. injection K as <-. apply N.ltb_lt in Q. lia.
    + split; [intros K; specialize (K c eq_refl); apply N.ltb_ge in Q; lia|]. intros c' K _. injection K as <-.
      destruct n as [|n]; [cbn in H; injection H as <- <-; auto|discriminate H].
  - split; [intros _; eapply F; eauto|]. discriminate.
Qed.
Print Assumptions C97_announced.
Example C97_announced_case : exists s o, select_run sel0 select_two = Ok (s, o) /\ x_li s = LiIdle /\
  o = [Change ByListener None EList; Told ByListener (Some EList); Change ByListener (Some EList) ESplay; Told ByListener (Some ESplay)].
Proof. eexists. eexists. split; [vm_compute; reflexivity|]. split; reflexivity. Qed.

(** A comparison that is out of date: the list engine is selected, the splay engine is
    found better; before it is set, the ticker selects the Patricia engine. *)
Definition select_list : list slabel := Announce EList :: repeat ListenerGoes 4.
Definition stale_compare : list slabel :=
  select_list ++ [Announce ESplay; ListenerGoes; ListenerGoes; Tick (Some EPatricia); TickerGoes; TickerGoes; ListenerGoes].
Theorem C97_better_refuted : exists ls s o, select_run sel0 ls = Ok (s, o) /\ ~ only_better o.
Proof.
  exists stale_compare. eexists. eexists. split; [vm_compute; reflexivity|].
  intros B. specialize (B [Change ByListener None EList; Told ByListener (Some EList); Change ByTicker (Some EList) EPatricia]
    EPatricia ESplay [] eq_refl). vm_compute in B. discriminate B.
Qed.
Print Assumptions C97_better_refuted.
(** A change nobody hears of: both parties change the engine and then both read the
    same name for their messages. *)
Definition unheard : list slabel :=
  select_list ++ [Announce ESplay; ListenerGoes; ListenerGoes; ListenerGoes; Tick (Some EPatricia); TickerGoes; TickerGoes;
                  ListenerGoes; ListenerGoes; TickerGoes; TickerGoes].
Theorem C97_told_refuted : exists ls s o, select_run sel0 ls = Ok (s, o) /\ quiet s /\ ~ all_told o.
Proof.
  exists unheard. eexists. eexists. split; [vm_compute; reflexivity|]. split; [split; reflexivity|].
  intros B. specialize (B [Change ByListener None EList; Told ByListener (Some EList)] ByListener (Some EList) ESplay _ eq_refl).
  destruct B as [w B]. cbn in B. repeat destruct B as [B|B]; try discriminate B; exact B.
Qed.
Print Assumptions C97_told_refuted.
(** A message that is out of date: the ticker reads the name, the listener changes it
    and sends its message first. *)
Definition overtaken : list slabel :=
  select_list ++ [Tick None; TickerGoes; TickerGoes; Announce ESplay; ListenerGoes; ListenerGoes; ListenerGoes; ListenerGoes;
                  ListenerGoes; TickerGoes].
Theorem C97_last_refuted : exists ls s o,
  select_run sel0 ls = Ok (s, o) /\ quiet s /\ only_better o /\ all_told o /\ ~ last_right s o.
Proof.
  exists overtaken. eexists. eexists. split; [vm_compute; reflexivity|]. split; [split; reflexivity|].
  split; [|split].
  - intros o1 c e o2 E. repeat (destruct o1 as [|? o1]; [injection E; intros; subst; first [discriminate|reflexivity]|injection E as <- E]).
    destruct o1; discriminate E.
  - intros o1 w old e o2 E.
    repeat (destruct o1 as [|? o1]; [injection E; intros; subst; first [discriminate|eexists; cbn; eauto]|injection E as <- E]).
    destruct o1; discriminate E.
  - intros B. assert (K : Some (Some EList) = Some (Some ESplay)) by (apply B; discriminate). discriminate K.
Qed.
Print Assumptions C97_last_refuted.

(** The hypotheses can be met: a run in which the listener and the ticker take turns
    and three engines are selected one after the other. *)
Definition in_turn : list slabel :=
  select_list ++ Announce EPatricia :: repeat ListenerGoes 5 ++ Tick (Some ESplay) :: repeat TickerGoes 4.
Example C97_case : exists s o,
  select_run sel0 in_turn = Ok (s, o) /\ apart in_turn /\ quiet s /\ last_change o = Some (ByTicker, ESplay) /\ length o = 6%nat.
Proof.
  eexists. eexists. split; [vm_compute; reflexivity|].
  split; [|repeat split; reflexivity].
  intros a b s o E R. unfold in_turn, select_list in E. cbn in E.
  repeat (destruct a as [|? a]; [cbn in R; injection R as <- <-; cbn; auto|injection E as <- E]).
  destruct a; [cbn in R; injection R as <- <-; cbn; auto|discriminate E].
Qed.
Example C97_stale_case : exists s o1 o2,
  select_run sel0 stale_compare = Ok (s, o1 ++ Change ByListener (Some EPatricia) ESplay :: o2) /\
  (priority ESplay <= priority EPatricia)%N.
Proof.
  eexists. exists [Change ByListener None EList; Told ByListener (Some EList); Change ByTicker (Some EList) EPatricia], [].
  split; [vm_compute; reflexivity|]. vm_compute. discriminate.
Qed.
Example C97_message_case : exists s o1 old o2 m o3,
  select_run sel0 unheard = Ok (s, o1 ++ Change ByListener old ESplay :: o2 ++ Told ByListener m :: o3) /\
  (forall x, In x o2 -> by_whom x = ByTicker) /\ m = Some EPatricia /\ quiet s.
Proof.
  eexists. exists [Change ByListener None EList; Told ByListener (Some EList)], (Some EList),
    [Change ByTicker (Some ESplay) EPatricia], (Some EPatricia), [Told ByTicker (Some EPatricia)].
  split; [vm_compute; reflexivity|]. split; [intros x [<-|[]]; reflexivity|]. split; [reflexivity|split; reflexivity].
Qed.
Example C97_tick_case : exists s s' o,
  select_run sel0 select_list = Ok (s, o) /\ x_ti s = TkWait /\
  select_run s (Tick (Some ESplay) :: repeat TickerGoes 4) = Ok (s', [Change ByTicker (Some EList) ESplay; Told ByTicker (Some ESplay)]) /\
  x_ti s' = TkWait.
Proof.
  eexists. eexists. eexists. split; [vm_compute; reflexivity|]. split; [reflexivity|]. split; [vm_compute; reflexivity|reflexivity].
Qed.

(** * C49 once more, access by access *)
(** What is selected, with the engines announced so far given by [A]. *)
Definition best_so_far (A : ename -> Prop) (s : sel) : Prop :=
  match x_li s with
  | LiIdle | LiName | LiSend _ =>
      match x_cur s with
      | Some c => A c /\ forall e, A e -> (priority e <= priority c)%N
      | None => x_li s = LiIdle /\ forall e, ~ A e
      end
  | LiEmpty e =>
      A e /\
      match x_cur s with
      | Some c => A c /\ forall e', A e' -> e' = e \/ (priority e' <= priority c)%N
      | None => forall e', A e' -> e' = e
      end
  | LiCompare e =>
      A e /\
      match x_cur s with
      | Some c => A c /\ forall e', A e' -> e' = e \/ (priority e' <= priority c)%N
      | None => False
      end
  | LiAssign e => A e /\ forall e', A e' -> (priority e' <= priority e)%N
  end.
Definition announced (ls : list slabel) (e : ename) : Prop := In (Announce e) ls.
Definition unmeasured (ls : list slabel) : Prop := forall e, ~ In (Tick (Some e)) ls.
Definition idle_choice (t : ti) : Prop := match t with TkCompare (Some _) | TkAssign _ => False | _ => True end.
Lemma best_ext : forall (A B : ename -> Prop) s, (forall e, A e <-> B e) -> best_so_far A s -> best_so_far B s.
Proof.
  intros A B [cur lis tic] E. unfold best_so_far. cbn. destruct lis, cur; rewrite <- ?E; intros H;
    repeat match goal with H : _ /\ _ |- _ => destruct H end; repeat split; auto; try contradiction;
    intros e' I; apply E in I; auto; eapply H0; eauto.
Qed.
Lemma best_kept : forall ls s o, select_run sel0 ls = Ok (s, o) -> unmeasured ls ->
  idle_choice (x_ti s) /\ best_so_far (announced ls) s.
Proof.
  apply (select_ind (fun ls _ s => unmeasured ls -> idle_choice (x_ti s) /\ best_so_far (announced ls) s)).
  - intros _. split; [exact I|]. split; [reflexivity|]. intros e [].
  - intros h o s l s' o' _ _ IH H U.
    destruct IH as [T B]. { intros e I. apply (U e), in_or_app. auto. }
    destruct (match l with Announce _ => true | _ => false end) eqn:L.
    + destruct l; try discriminate L. clear L.
      assert (K : announced (h ++ [Announce e]) e) by (apply in_or_app; right; left; reflexivity).
      assert (K1 : forall e', announced h e' -> announced (h ++ [Announce e]) e') by (intros; apply in_or_app; auto).
      assert (K2 : forall e', announced (h ++ [Announce e]) e' -> announced h e' \/ e' = e).
      { intros e' I. apply in_app_or in I as [I|[I|[]]]; [auto|right; congruence]. }
      destruct s as [cur lis tic]. cbn in H. destruct lis; try discriminate H. injection H as <- <-.
      split; [exact T|]. unfold best_so_far in *. cbn in *. split; [exact K|]. destruct cur as [c|].
      * destruct B as [B1 B2]. split; [auto|]. intros e' I. destruct (K2 _ I); auto.
      * destruct B as [_ B]. intros e' I. destruct (K2 _ I) as [I'|I']; [destruct (B _ I')|exact I'].
    + assert (E : forall e, announced h e <-> announced (h ++ [l]) e).
      { intros e. unfold announced. rewrite in_app_iff. cbn. split; [auto|]. intros [I|[->|[]]]; [exact I|discriminate L]. }
      assert (V : forall e, l <> Tick (Some e)) by (intros e ->; apply (U e), in_or_app; right; left; reflexivity).
      enough (idle_choice (x_ti s') /\ best_so_far (announced h) s') as [G1 G2] by (split; [exact G1|exact (best_ext _ _ _ E G2)]).
      clear E U. unfold best_so_far in *.
      step_cases s l H; try discriminate L; try contradiction;
        try (split; [exact I|exact B]); try (split; [exact T|]).
      * destruct p as [e|]; [destruct (V e eq_refl)|]. split; [exact I|exact B].
      * destruct B as [B1 B2]. destruct cur as [c|]; [auto|]. split; [exact B1|].
        intros e' I. rewrite (B2 _ I). lia.
      * destruct B as [B1 B2]. destruct cur as [c|]; [|contradiction]. destruct B2 as [B2 B3]. cbn.
        destruct (priority c <? priority e)%N eqn:E; [apply N.ltb_lt in E|apply N.ltb_ge in E].
        -- split; [exact B1|]. intros e' I. destruct (B3 _ I) as [->|J]; lia.
        -- split; [exact B2|]. intros e' I. destruct (B3 _ I) as [->|J]; lia.
      * exact B.
      * destruct cur as [c|]; [exact B|]. destruct B as [B _]. discriminate B.
      * destruct cur as [c|]; [exact B|]. destruct B as [B _]. discriminate B.
      * destruct p as [e|]; [contradiction|]. split; [exact I|exact B].
Qed.
(** C49 for every interleaving of the single accesses: if no engine has been
    measured, the one selected, when the listener is done, is the announced engine of
    the highest priority. *)
Theorem C49_any_interleaving : forall ls s o e, select_run sel0 ls = Ok (s, o) ->
  (forall e', ~ In (Tick (Some e')) ls) -> x_li s = LiIdle ->
  x_cur s = Some e <-> In (Announce e) ls /\ forall e', In (Announce e') ls -> (priority e' <= priority e)%N.
Proof.
  intros ls s o e H U L. destruct (best_kept _ _ _ H U) as [_ B]. unfold best_so_far in B. rewrite L in B.
  destruct (x_cur s) as [c|].
  - split.
    + intros E. injection E as <-. exact B.
    + intros [I M]. destruct B as [B1 B2]. specialize (B2 _ I). specialize (M _ B1).
      assert (priority c = priority e) as E by lia. destruct c, e; try discriminate E; reflexivity.
  - split; [discriminate|]. intros [I _]. destruct B as [_ B]. destruct (B _ I).
Qed.
Print Assumptions C49_any_interleaving.
Example C49_any_interleaving_case :
  let ls := Announce ESplay :: Tick None :: ListenerGoes :: TickerGoes :: ListenerGoes :: TickerGoes :: ListenerGoes ::
            TickerGoes :: ListenerGoes :: Announce EPatricia :: repeat ListenerGoes 5 ++ Announce EList :: repeat ListenerGoes 2 in
  exists s o, select_run sel0 ls = Ok (s, o) /\ (forall e', ~ In (Tick (Some e')) ls) /\ x_li s = LiIdle /\ x_cur s = Some EPatricia.
Proof.
  eexists. eexists. split; [vm_compute; reflexivity|]. split; [|split; reflexivity].
  intros e' I. cbn in I. repeat destruct I as [I|I]; try discriminate I; exact I.
Qed.
