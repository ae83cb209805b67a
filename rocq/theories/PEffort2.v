(** The splay tree is a list of trees whose matching one goes to the front. *)
From Verif Require Import GoBase BinUtil MFilter MEngine MTdtCore MSubs MList MPatricia MSplay MEffort.
From Verif Require Import PBase Spec PFilter PEngine PSubs PList PMatch PPatricia PPatriciaHist PExamples PLink PSplay PSplayHist PSplayExact SpecEffort PEffort.
From Coq Require Import Lia Permutation.

(** ** At most one comparison for every node *)
Lemma splay_size t id : forall hp us t' ex n, ssearch_n t hp id = Ok (us, t', ex, n) -> 1 <= n <= length (sentries [] t).
Proof.
  assert (forall t pre, length (sentries pre t) = length (sentries [] t)) as Len.
  { intros t0 pre. rewrite <- (app_nil_r pre), sentries_pre, map_length. reflexivity. }
  induction t as [|u fo m IHm mm IHmm]; intros hp us t' ex n H; cbn [ssearch_n] in H; [discriminate|].
  destruct fo as [f|]; [|discriminate]. destruct (match_filter f id) as [b| |]; cbn [bind] in H; try discriminate.
  cbn [sentries]. cbn [length]. rewrite app_length, Len. destruct b.
  - destruct m as [|u1 fo1 m1 mm1].
    + cbn [bind] in H. destruct hp; injection H as <- <- <- <-; lia.
    + destruct (ssearch_n (SNode u1 fo1 m1 mm1) false id) as [[[[us' t1] ex'] n']| |] eqn:E; cbn [bind] in H; try discriminate.
      pose proof (IHm _ _ _ _ _ E). destruct hp; injection H as <- <- <- <-; lia.
  - destruct mm as [|u1 fo1 m1 mm1]; [injection H as <- <- <- <-; lia|].
    destruct (ssearch_n (SNode u1 fo1 m1 mm1) true id) as [[[[us' t1] ex'] n']| |] eqn:E; cbn [bind] in H; try discriminate.
    pose proof (IHmm _ _ _ _ _ E). injection H as <- <- <- <-. lia.
Qed.

(** ** Move to front *)
Section Mtf.
Context {A : Type} (eqd : forall x y : A, {x = y} + {x <> y}).
(** Comparisons until [p] is met, and the list afterwards. *)
Fixpoint upto (p : A -> bool) (l : list A) : nat :=
  match l with [] => 0 | x :: l' => if p x then 1 else S (upto p l') end.
Definition front (p : A -> bool) (l : list A) : list A :=
  match find p l with Some x => x :: remove eqd x l | None => l end.
Fixpoint moving (ps : list (A -> bool)) (l : list A) : nat :=
  match ps with [] => 0 | p :: ps' => upto p l + moving ps' (front p l) end.
Definition still (ps : list (A -> bool)) (l : list A) : nat := list_sum (map (fun p => upto p l) ps).
Definition one_at_most (p : A -> bool) (l : list A) : Prop := forall x y, In x l -> In y l -> p x = true -> p y = true -> x = y.

(** Is [x] before [y] in the list [s]? *)
Fixpoint bef (s : list A) (x y : A) : bool :=
  match s with
  | [] => false
  | z :: s' => if eqd z x then (if eqd z y then false else true) else if eqd z y then false else bef s' x y
  end.
Lemma bef_total s x y : In x s -> In y s -> x <> y -> bef s y x = negb (bef s x y).
Proof.
  induction s as [|z s IH]; intros Hx Hy N; [destruct Hx|]. cbn.
  destruct (eqd z x) as [Ex|Ex], (eqd z y) as [Ey|Ey]; try congruence; auto.
  apply IH; auto; [destruct Hx|destruct Hy]; congruence.
Qed.
Definition cnt (f : A -> bool) (l : list A) : nat := length (filter f l).
Lemma cnt_app f a b : cnt f (a ++ b) = cnt f a + cnt f b.
Proof. unfold cnt. rewrite filter_app, app_length. reflexivity. Qed.
Lemma cnt_neg f l : cnt f l + cnt (fun x => negb (f x)) l = length l.
Proof. unfold cnt. induction l as [|x l IH]; cbn; auto. destruct (f x); cbn; lia. Qed.
Lemma cnt_ext f g l : (forall x, In x l -> f x = g x) -> cnt f l = cnt g l.
Proof. unfold cnt. induction l as [|x l IH]; cbn; intros H; auto. rewrite (H x) by auto. destruct (g x); cbn; rewrite IH; auto. Qed.
Lemma cnt_perm f a b : Permutation a b -> cnt f a = cnt f b.
Proof. unfold cnt. induction 1; cbn; try destruct (f x); try destruct (f y); cbn; lia. Qed.
Lemma cnt_le f l : cnt f l <= length l.
Proof. pose proof (cnt_neg f l). lia. Qed.

(** Pairs of [l] that stand the other way round in [s]. *)
Fixpoint inv (s : list A) (l : list A) : nat :=
  match l with [] => 0 | x :: l' => cnt (fun y => bef s y x) l' + inv s l' end.
Fixpoint cross (s a b : list A) : nat :=
  match a with [] => 0 | x :: a' => cnt (fun y => bef s y x) b + cross s a' b end.
Lemma inv_app s a b : inv s (a ++ b) = inv s a + inv s b + cross s a b.
Proof. induction a as [|x a IH]; cbn; [lia|]. rewrite cnt_app, IH. lia. Qed.
Lemma cross_cons s a x b : cross s a (x :: b) = cnt (fun y => bef s x y) a + cross s a b.
Proof.
  induction a as [|y a IH]; cbn; auto. rewrite IH. unfold cnt. cbn. destruct (bef s x y); cbn; lia.
Qed.
Lemma cross_app s a b c : cross s (a ++ b) c = cross s a c + cross s b c.
Proof. induction a as [|x a IH]; cbn; auto. rewrite IH. lia. Qed.
Lemma inv_bound s l : 2 * inv s l <= length l * (length l - 1).
Proof.
  induction l as [|x l IH]; cbn [inv length]; [lia|]. pose proof (cnt_le (fun y => bef s y x) l).
  replace (S (length l) - 1) with (length l) by lia. destruct (length l); cbn in *; nia.
Qed.

Lemma upto_split p l x : find p l = Some x -> exists a b, l = a ++ x :: b /\ (forall y, In y a -> p y = false) /\ upto p l = S (length a) /\ p x = true.
Proof.
  induction l as [|z l IH]; cbn; [discriminate|]. destruct (p z) eqn:E.
  - intros H. injection H as <-. exists [], l. cbn. repeat split; auto. intros y [].
  - intros H. destruct (IH H) as (a & b & -> & N & U & P). exists (z :: a), b. cbn. rewrite U. repeat split; auto.
    intros y [<-|Hy]; auto.
Qed.
Lemma upto_none p l : find p l = None -> upto p l = length l.
Proof. induction l as [|z l IH]; cbn; auto. destruct (p z); [discriminate|]. intros H. rewrite IH; auto. Qed.
Lemma find_perm p a b : Permutation a b -> one_at_most p a -> find p a = find p b.
Proof.
  intros HP HU. destruct (find p a) as [x|] eqn:Ea; symmetry.
  - destruct (find p b) as [y|] eqn:Eb.
    + apply find_some in Ea, Eb. f_equal. apply HU; try tauto. apply (Permutation_in _ (Permutation_sym HP)); tauto.
    + apply find_some in Ea. destruct Ea as [H1 H2]. apply (Permutation_in _ HP) in H1. pose proof (find_none _ _ Eb _ H1). congruence.
  - destruct (find p b) as [y|] eqn:Eb; auto. apply find_some in Eb. destruct Eb as [H1 H2]. exfalso.
    apply (Permutation_in _ (Permutation_sym HP)) in H1. pose proof (find_none _ _ Ea _ H1). congruence.
Qed.
Lemma remove_middle a x b : NoDup (a ++ x :: b) -> remove eqd x (a ++ x :: b) = a ++ b.
Proof.
  intros H. rewrite remove_app. cbn. destruct (eqd x x); [|congruence].
  apply NoDup_remove in H. destruct H as [_ H]. rewrite !notin_remove; auto; intros Hi; apply H; apply in_or_app; auto.
Qed.
Lemma front_perm p l : NoDup l -> Permutation (front p l) l.
Proof.
  intros HN. unfold front. destruct (find p l) as [x|] eqn:E; auto.
  destruct (upto_split p l x E) as (a & b & -> & _). rewrite remove_middle by auto. apply Permutation_middle.
Qed.
(** What stands before [x] in the fixed list is compared there too. *)
Lemma before_still s p x a : NoDup s -> NoDup a -> incl a s -> find p s = Some x -> cnt (fun y => bef s y x) a < upto p s.
Proof.
  intros HS HA HI HF. destruct (upto_split p s x HF) as (c & d & -> & N & U & P). rewrite U. apply Nat.lt_succ_r.
  unfold cnt. apply NoDup_incl_length; [apply NoDup_filter; auto|]. intros y Hy. apply filter_In in Hy. destruct Hy as [Hy HB].
  clear - HB HS. induction c as [|z c IH]; cbn in HB.
  - destruct (eqd x y); [destruct (eqd x x); congruence|]. destruct (eqd x x); congruence.
  - destruct (eqd z y) as [->|Ny]; [left; auto|]. destruct (eqd z x) as [->|Nx]; [discriminate|]. right. apply IH; auto.
    inversion HS; auto.
Qed.
Lemma amortised s p l : NoDup s -> Permutation l s -> one_at_most p s ->
  upto p l + inv s (front p l) <= 2 * upto p s + inv s l.
Proof.
  intros HS HP HU. assert (NoDup l) as HL by (apply (Permutation_NoDup (Permutation_sym HP)); auto).
  unfold front. rewrite (find_perm p l s HP).
  2: { intros x y Hx Hy. apply HU; apply (Permutation_in _ HP); auto. }
  destruct (find p s) as [x|] eqn:E.
  2: { rewrite (upto_none p s E), (upto_none p l). rewrite (Permutation_length HP). lia.
       rewrite (find_perm p l s HP); auto. intros x y Hx Hy. apply HU; apply (Permutation_in _ HP); auto. }
  assert (find p l = Some x) as El.
  { rewrite (find_perm p l s HP); auto. intros y z Hy Hz. apply HU; apply (Permutation_in _ HP); auto. }
  destruct (upto_split p l x El) as (a & b & -> & N & U & P). rewrite U, remove_middle by auto.
  assert (incl a s) as Ha. { intros y Hy. apply (Permutation_in _ HP). apply in_or_app; auto. }
  assert (NoDup a) as Na.
  { clear - HL. induction a as [|z a IH]; [constructor|]. inversion HL; subst. constructor; auto.
    intros H. apply H1. apply in_or_app; auto. }
  assert (~ In x a) as Nx. { apply NoDup_remove_2 in HL. intros H. apply HL. apply in_or_app; auto. }
  pose proof (before_still s p x a HS Na Ha E) as B.
  assert (cnt (fun y => bef s x y) a = cnt (fun y => negb (bef s y x)) a) as C.
  { apply cnt_ext. intros y Hy. apply bef_total; auto.
    - apply (Permutation_in _ HP). apply in_or_app; right; left; auto.
    - intros ->. auto. }
  pose proof (cnt_neg (fun y => bef s y x) a) as L.
  cbn [inv]. rewrite !inv_app, cnt_app, cross_cons. cbn [inv]. lia.
Qed.
Lemma moving_bound s ps : NoDup s -> (forall p, In p ps -> one_at_most p s) -> forall l, Permutation l s ->
  moving ps l <= 2 * still ps s + inv s l.
Proof.
  intros HS. induction ps as [|p ps IH]; intros HU l HP; [cbn; lia|]. cbn [moving].
  change (still (p :: ps) s) with (upto p s + still ps s).
  pose proof (amortised s p l HS HP (HU p (or_introl eq_refl))) as Am.
  assert (Permutation (front p l) s) as HP2.
  { eapply Permutation_trans; [|exact HP]. apply front_perm. apply (Permutation_NoDup (Permutation_sym HP)); auto. }
  pose proof (IH (fun q Hq => HU q (or_intror Hq)) _ HP2). lia.
Qed.
End Mtf.

(** ** The splay tree *)
Lemma taken_dec : forall x y : taken, {x = y} + {x <> y}.
Proof.
  assert (forall x y : gostring, {x = y} + {x <> y}) as S by (apply list_eq_dec, ascii_dec).
  assert (forall x y : list N, {x = y} + {x <> y}) as L by (apply list_eq_dec, N.eq_dec).
  assert (forall x y : filter_object, {x = y} + {x <> y}) as F by (decide equality; apply Nat.eq_dec).
  assert (forall x y : option filter_object, {x = y} + {x <> y}) as O by decide equality.
  assert (forall x y : stree, {x = y} + {x <> y}) as T by decide equality.
  decide equality.
Qed.
Definition sees (id : list N) (x : taken) : bool := has_prefix (idstr id) (fo_str (tk_fo x)).
Definition inner_n (id : list N) (x : taken) : nat :=
  match tk_match x with
  | SNil => 0
  | m => match ssearch_n m false id with Ok (_, _, _, k) => k | _ => 0 end
  end.
Definition inner_of (id : list N) (l : list taken) : nat := match find (sees id) l with Some x => inner_n id x | None => 0 end.
Definition good (id : list N) (x : taken) : Prop := exists f, tk_fo x = Some f /\ match_filter f id = Ok (sees id x) /\
  (sees id x = true -> tk_match x = SNil \/ exists us, ssearch_n (tk_match x) false id = Ok (us, tk_match x, [], inner_n id x)).

Lemma chain_search id t : forall hp, t <> SNil -> NoDup (branches t) -> Forall (good id) (branches t) ->
  exists us t' ex, ssearch_n t hp id = Ok (us, t', ex, upto (sees id) (branches t) + inner_of id (branches t)) /\
    match find (sees id) (branches t) with
    | None => t' = t /\ ex = []
    | Some x => (hp = false /\ t' = t /\ ex = [] /\ exists l, branches t = x :: l) \/
                (ex = [x] /\ branches t' = remove taken_dec x (branches t))
    end.
Proof.
  induction t as [|u fo m IHm mm IHmm]; intros hp HN HD HG; [congruence|]. clear IHm.
  cbn [branches] in *. inversion HD as [|? ? NI HD']; subst. inversion HG as [|? ? (f & Ef & EM & EI) HG']; subst.
  cbn [tk_fo tk_match] in *. subst fo. set (x := {| tk_uri := u; tk_fo := Some f; tk_match := m |}) in *.
  unfold inner_of. cbn [find upto]. cbn [ssearch_n]. rewrite EM. cbn [bind].
  destruct (sees id x) eqn:ES.
  - assert (exists us, match m with SNil => Ok ([], SNil, [], 0) | _ => ssearch_n m false id end = Ok (us, m, [], inner_n id x)) as (us & EU).
    { destruct (EI eq_refl) as [E|(us & E)].
      - rewrite E. exists []. unfold inner_n. cbn [tk_match x]. rewrite E. reflexivity.
      - exists us. destruct m; [discriminate|exact E]. }
    rewrite EU. cbn [bind]. destruct hp.
    + do 3 eexists. split; [reflexivity|]. right. cbn [app]. split.
      * reflexivity.
      * cbn [remove]. destruct (taken_dec x x); [|congruence]. rewrite notin_remove; auto.
    + do 3 eexists. split; [reflexivity|]. left. split; [auto|]. split; [reflexivity|]. split; [auto|]. eauto.
  - destruct mm as [|u1 fo1 m1 mm1].
    + do 3 eexists. split; [reflexivity|]. cbn [branches find]. auto.
    + destruct (IHmm true) as (us & t' & ex & E1 & E2); auto; [discriminate|].
      rewrite E1. cbn [bind]. do 3 eexists. split; [reflexivity|].
      destruct (find (sees id) (branches (SNode u1 fo1 m1 mm1))) as [y|] eqn:EF.
      * destruct E2 as [[E2 _]|[-> E2]]; [discriminate|]. right. split; auto. cbn [branches] in *. rewrite E2.
        cbn [remove]. destruct (taken_dec y x) as [->|N]; [|reflexivity].
        apply find_some in EF. destruct EF as [_ EF]. congruence.
      * destruct E2 as [-> ->]. auto.
Qed.
Lemma chain_step id t : t <> SNil -> NoDup (branches t) -> Forall (good id) (branches t) ->
  exists us t', splay_step_n t id = Ok (us, t', upto (sees id) (branches t) + inner_of id (branches t)) /\
    t' <> SNil /\ branches t' = front taken_dec (sees id) (branches t).
Proof.
  intros HN HD HG. destruct (chain_search id t false HN HD HG) as (us & t' & ex & E1 & E2).
  unfold splay_step_n. rewrite E1. cbn [bind]. exists us. eexists. split; [reflexivity|]. unfold front.
  destruct (find (sees id) (branches t)) as [x|] eqn:EF.
  - destruct E2 as [(_ & -> & -> & l & EL)|[-> E2]].
    + split; auto. cbn [splay_root fold_left]. rewrite EL in *. cbn [remove]. destruct (taken_dec x x); [|congruence].
      inversion HD; subst. rewrite notin_remove; auto.
    + cbn [splay_root fold_left branches]. split; [discriminate|]. rewrite E2. destruct x; reflexivity.
  - destruct E2 as [-> ->]. auto.
Qed.

Lemma inner_perm id a b : Permutation a b -> one_at_most (sees id) a -> inner_of id a = inner_of id b.
Proof. intros HP HU. unfold inner_of. rewrite (find_perm (sees id) a b HP HU). reflexivity. Qed.
Lemma one_perm id a b : Permutation a b -> one_at_most (sees id) b -> one_at_most (sees id) a.
Proof. intros HP HU x y Hx Hy. apply HU; apply (Permutation_in _ HP); auto. Qed.
Lemma Forall_perm {A} (P : A -> Prop) a b : Permutation a b -> Forall P b -> Forall P a.
Proof. intros HP H. rewrite Forall_forall in *. intros x Hx. apply H. apply (Permutation_in _ HP); auto. Qed.
Lemma branches_nil t : branches t = [] -> t = SNil.
Proof. destruct t; [auto|discriminate]. Qed.

Section Run.
Context (s : stree) (HN : s <> SNil) (HD : NoDup (branches s)).
Lemma perm_node t : Permutation (branches t) (branches s) -> t <> SNil.
Proof. intros HP ->. cbn in HP. apply Permutation_nil in HP. apply HN, branches_nil. auto. Qed.
Lemma effort_moving ids : (forall i, In i ids -> Forall (good i) (branches s) /\ one_at_most (sees i) (branches s)) ->
  forall t, Permutation (branches t) (branches s) ->
  effort t ids = Ok (moving taken_dec (map sees ids) (branches t) + list_sum (map (fun i => inner_of i (branches s)) ids)).
Proof.
  induction ids as [|i ids IH]; intros HI t HP; [reflexivity|]. cbn [effort map moving].
  destruct (HI i (or_introl eq_refl)) as [HG HU].
  assert (NoDup (branches t)) as HT by (apply (Permutation_NoDup (Permutation_sym HP)); auto).
  destruct (chain_step i t (perm_node t HP) HT (Forall_perm _ _ _ HP HG)) as (us & t' & E & N' & B). rewrite E. cbn [bind].
  assert (Permutation (branches t') (branches s)) as HP' by (rewrite B; eapply Permutation_trans; [apply front_perm; auto|exact HP]).
  rewrite (IH (fun j Hj => HI j (or_intror Hj)) t' HP'), B. cbn [bind].
  rewrite (inner_perm i _ _ HP) by (eapply one_perm; eauto). cbn [list_sum fold_right]. f_equal.
  change (fold_right Nat.add 0 ?l) with (list_sum l). lia.
Qed.
Lemma effort_fixed ids : (forall i, In i ids -> Forall (good i) (branches s) /\ one_at_most (sees i) (branches s)) ->
  fixed_effort s ids = Ok (still (map sees ids) (branches s) + list_sum (map (fun i => inner_of i (branches s)) ids)).
Proof.
  induction ids as [|i ids IH]; intros HI; [reflexivity|]. cbn [fixed_effort].
  destruct (HI i (or_introl eq_refl)) as [HG HU].
  destruct (chain_step i s HN HD HG) as (us & t' & E & N' & B). rewrite E. cbn [bind].
  rewrite (IH (fun j Hj => HI j (or_intror Hj))). cbn [bind]. unfold still. cbn [map list_sum fold_right]. f_equal.
  change (fold_right Nat.add 0 ?l) with (list_sum l). lia.
Qed.
Lemma effort_bound ids : (forall i, In i ids -> Forall (good i) (branches s) /\ one_at_most (sees i) (branches s)) ->
  forall t, Permutation (branches t) (branches s) ->
  exists n k, effort t ids = Ok n /\ fixed_effort s ids = Ok k /\ n <= 2 * k + length (branches s) * (length (branches s) - 1) / 2.
Proof.
  intros HI t HP. do 2 eexists. split; [apply effort_moving; auto|]. split; [apply effort_fixed; auto|].
  pose proof (moving_bound taken_dec (branches s) (map sees ids) HD) as M.
  assert (forall p, In p (map sees ids) -> one_at_most p (branches s)) as HU.
  { intros p Hp. apply in_map_iff in Hp. destruct Hp as (i & <- & Hi). apply HI; auto. }
  specialize (M HU (branches t) HP). pose proof (inv_bound taken_dec (branches s) (branches t)) as Q.
  rewrite (Permutation_length HP) in Q.
  assert (inv taken_dec (branches s) (branches t) <= length (branches s) * (length (branches s) - 1) / 2) as Q2.
  { apply Nat.div_le_lower_bound; [lia|]. exact Q. }
  lia.
Qed.
End Run.

(** Trees that hold chains satisfy the conditions. *)
Lemma branches_entries t x : In x (branches t) -> In (fo_str (tk_fo x), tk_uri x) (sentries [] t).
Proof.
  induction t as [|u fo m _ mm IH]; intros H; [destruct H|]. cbn [branches sentries] in *. destruct H as [<-|H]; [left; reflexivity|].
  right. apply in_or_app. auto.
Qed.
Lemma branches_distinct t : forall off, swf off t -> forall x y, In x (branches t) -> In y (branches t) ->
  comparable (fo_str (tk_fo x)) (fo_str (tk_fo y)) -> x = y.
Proof.
  induction t as [|u fo m _ mm IH]; intros off W x y Hx Hy HC; [destruct Hx|].
  cbn [swf] in W. destruct W as (Hf & HB & Wm & Wmm & Nm & Cm). cbn [branches] in *.
  destruct Hx as [<-|Hx], Hy as [<-|Hy]; auto.
  - exfalso. apply (Cm _ (branches_entries _ _ Hy)). exact HC.
  - exfalso. apply (Cm _ (branches_entries _ _ Hx)). apply comparable_sym. exact HC.
  - eapply IH; eauto.
Qed.
Lemma branches_nodup t : forall off, swf off t -> NoDup (branches t).
Proof.
  induction t as [|u fo m _ mm IH]; intros off W; [constructor|]. cbn [swf] in W. destruct W as (Hf & HB & Wm & Wmm & Nm & Cm).
  cbn [branches]. constructor; [|eauto]. intros Hi. apply (Cm _ (branches_entries _ _ Hi)). apply comparable_refl.
Qed.
Lemma branches_one t off id : swf off t -> one_at_most (sees id) (branches t).
Proof.
  intros W x y Hx Hy Px Py. apply (branches_distinct t off W); auto. apply has_prefix_spec in Px, Py.
  eapply comparable_prefixes; eauto.
Qed.
Lemma branches_good id t : wf_bytes id -> searchable id [] t -> snarrow t -> Forall (good id) (branches t).
Proof.
  intros Hw. induction t as [|u fo m _ mm IH]; intros HS HA; [constructor|]. cbn [snarrow] in HA. destruct HA as [Sm HA].
  cbn [branches]. constructor; [|apply IH; auto; eapply searchable_mm; eauto].
  destruct (searchable_match id [] u fo m mm Hw HS) as (f & Ef & EM). exists f. cbn [tk_fo tk_match].
  split; auto. split; [exact EM|]. unfold sees. cbn [tk_fo]. intros HP.
  destruct m as [|u1 fo1 m1 mm1]; [left; auto|]. right.
  destruct (searchable_m id [] u fo _ mm HS HP) as (H1 & H2 & H3 & H4 & H5).
  destruct (ssearch_spec id Hw (SNode u1 fo1 m1 mm1) false _ ltac:(discriminate) H1 H2 H3 H4) as (t' & ex & E).
  { intros x Hx. apply sentries_In_pre in Hx. destruct Hx as (y & Hy & ->). cbn [fst]. apply H5; auto. }
  destruct (ssearch_single id _ _ _ _ Sm E) as [-> ->]. rewrite ssearch_counted in E. unfold inner_n. cbn [tk_match].
  destruct (ssearch_n (SNode u1 fo1 m1 mm1) false id) as [[[[us t2] ex2] k]| |]; cbn [bind] in E; try discriminate.
  injection E as E1 E2 E3. subst. eauto.
Qed.
Lemma sinv_searchable m t id : sinv m t -> decides id (map fst m) -> searchable id [] t.
Proof.
  intros [I1 I2 I3 I4] HD. split; [constructor|]. split; [exact I2|]. split; [apply prefix_nil|]. split; [auto|].
  intros x Hx. apply HD. apply I4 in Hx. apply (in_map fst _ _ Hx).
Qed.
Lemma sinv_narrow m t : sinv m t -> (forall k, In k (map fst m) -> one_chain_above (map fst m) k) -> snarrow t.
Proof.
  intros HI HO. apply snarrow_of; [apply HI|]. intros k Hk a b Ha Hb. rewrite !(sinv_keys _ _ _ HI) in *. apply HO; auto.
Qed.
Lemma splay_effort m t ids order : sinv m t -> (forall k, In k (map fst m) -> one_chain_above (map fst m) k) ->
  (forall i, In i ids -> wf_bytes i /\ decides i (map fst m)) -> Permutation (branches order) (branches t) ->
  exists n k, effort t ids = Ok n /\ fixed_effort order ids = Ok k /\
    n <= 2 * k + length (branches t) * (length (branches t) - 1) / 2.
Proof.
  intros HI HO HW HP. pose proof HI as [I1 I2 I3 I4]. rewrite <- (Permutation_length HP).
  assert (NoDup (branches t)) as ND by (eapply branches_nodup; eauto).
  apply effort_bound; auto.
  - intros ->. cbn in HP. apply Permutation_nil in HP. apply I1, branches_nil; auto.
  - apply (Permutation_NoDup (Permutation_sym HP)); auto.
  - intros i Hi. destruct (HW i Hi) as [Hw HD]. split.
    + apply (Forall_perm _ _ _ HP). apply branches_good; auto; [eapply sinv_searchable; eauto|eapply sinv_narrow; eauto].
    + apply (one_perm i _ _ HP). eapply branches_one; eauto.
  - apply Permutation_sym; auto.
Qed.

(** ** No more comparisons than subscriptions *)
Lemma sentries_nodup t : forall off, swf off t -> NoDup (sentries [] t).
Proof.
  induction t as [|u fo m IHm mm IHmm]; intros off W; [constructor|]. cbn [swf] in W.
  destruct W as (Hf & HB & Wm & Wmm & Nm & Cm). cbn [sentries app]. constructor.
  - intros H. apply in_app_or in H. destruct H as [H|H].
    + apply sentries_In_pre in H. destruct H as (y & Hy & E). apply (f_equal fst) in E. cbn [fst] in E.
      rewrite <- (app_nil_r (fo_str fo)) in E at 1. apply app_inv_head in E. apply (Nm y Hy). auto.
    + apply (Cm _ H). apply comparable_refl.
  - assert (NoDup (sentries (fo_str fo) m)) as D1.
    { rewrite <- (app_nil_r (fo_str fo)), sentries_pre. apply FinFun.Injective_map_NoDup; [|eapply IHm; eauto].
      intros [a b] [c d] E. cbn [fst snd] in E. injection E as E1 E2. apply app_inv_head in E1. congruence. }
    assert (forall y, In y (sentries (fo_str fo) m) -> ~ In y (sentries [] mm)) as X.
    { intros y H1 H2. apply sentries_In_pre in H1. destruct H1 as (z & Hz & ->). apply (Cm _ H2). left. eexists. reflexivity. }
    specialize (IHmm _ Wmm). revert D1 X. generalize (sentries (fo_str fo) m). intros l. induction l as [|a l IH]; intros D1 X; auto.
    cbn. inversion D1; subst. constructor.
    + intros H. apply in_app_or in H. destruct H as [H|H]; auto. apply (X a); [left|]; auto.
    + apply IH; auto. intros y Hy. apply X. right; auto.
Qed.
Lemma sinv_size m t : sinv m t -> length (sentries [] t) = length m.
Proof.
  intros [I1 I2 I3 I4]. apply Permutation_length. apply NoDup_Permutation; auto.
  - eapply sentries_nodup; eauto.
  - apply ssorted_NoDup in I3. eapply NoDup_map_inv; eauto.
Qed.

(** ** A tag that has just been found *)
Lemma single_effort id t : forall hp us t' ex n, single t -> ssearch_n t hp id = Ok (us, t', ex, n) -> n <= length us + 1.
Proof.
  induction t as [|u fo m IHm mm IHmm]; intros hp us t' ex n HS H; cbn [ssearch_n] in H; [discriminate|].
  cbn [single] in HS. destruct HS as [-> HS].
  destruct fo as [f|]; [|discriminate]. destruct (match_filter f id) as [b| |]; cbn [bind] in H; try discriminate.
  destruct b; [|injection H as <- <- <- <-; cbn; lia].
  destruct m as [|u1 fo1 m1 mm1].
  - cbn [bind] in H. destruct hp; injection H as <- <- <- <-; cbn; lia.
  - destruct (ssearch_n (SNode u1 fo1 m1 mm1) false id) as [[[[us' t1] ex'] n']| |] eqn:E; cbn [bind] in H; try discriminate.
    pose proof (IHm _ _ _ _ _ HS E). destruct hp; injection H as <- <- <- <-; cbn; lia.
Qed.
Lemma first_effort id t : forall us t' n, snarrow t -> splay_step_n t id = Ok (us, t', n) -> us <> [] ->
  (exists x l, branches t = x :: l /\ sees id x = true) -> wf_bytes id -> searchable id [] t -> n <= length us + 1.
Proof.
  intros us t' n HN H HU (x & l & EB & ES) Hw HS. destruct t as [|u fo m mm]; [discriminate|].
  cbn [branches] in EB. injection EB as <- _. unfold splay_step_n in H. cbn [ssearch_n] in H.
  destruct (searchable_match id [] u fo m mm Hw HS) as (f & -> & EM). unfold sees in ES. cbn [tk_fo] in ES.
  rewrite EM in H. change ([] ++ fo_str (Some f)) with (fo_str (Some f)) in H. rewrite ES in H. cbn [bind] in H.
  cbn [snarrow] in HN. destruct HN as [Sm _].
  destruct m as [|u1 fo1 m1 mm1].
  - cbn [bind] in H. injection H as <- <- <-. cbn. lia.
  - destruct (ssearch_n (SNode u1 fo1 m1 mm1) false id) as [[[[us' t1] ex'] n']| |] eqn:E; cbn [bind] in H; try discriminate.
    pose proof (single_effort id _ _ _ _ _ _ Sm E). injection H as <- <- <-. cbn. lia.
Qed.
(** The same tag twice: the second time all comparisons but one succeed. *)
Lemma again_effort m t id : sinv m t -> (forall k, In k (map fst m) -> one_chain_above (map fst m) k) ->
  wf_bytes id -> decides id (map fst m) ->
  exists us t1 n1 t2 n2, splay_step_n t id = Ok (us, t1, n1) /\ splay_step_n t1 id = Ok (us, t2, n2) /\
    (us <> [] -> n2 <= length us + 1) /\ reported id m us.
Proof.
  intros HI HO Hw HD. destruct (sinv_read m t id HI Hw HD HO) as (us & t1 & E1 & HI1).
  destruct (sinv_read m t1 id HI1 Hw HD HO) as (us2 & t2 & E2 & HI2).
  assert (forall t us t', sinv m t -> splay_step t id = Ok (us, t') -> us = map snd (filter (hit id) m)) as Same.
  { intros t0 us0 t0' [I1 I2 I3 I4] E.
    destruct (ssearch_spec id Hw t0 false [] I1) as (t0'' & ex & HS); auto.
    { constructor. } { apply prefix_nil. }
    { intros x Hx. apply HD. apply I4 in Hx. apply (in_map fst _ _ Hx). }
    unfold splay_step in E. rewrite HS in E. cbn [bind] in E. injection E as <- _. f_equal. eapply hits_content; eauto. }
  pose proof (Same _ _ _ HI E1) as ->. pose proof (Same _ _ _ HI1 E2) as ->.
  rewrite splay_step_counted in E1, E2.
  destruct (splay_step_n t id) as [[[u1 t1'] n1]| |] eqn:S1; cbn [bind] in E1; try discriminate.
  destruct (splay_step_n t1 id) as [[[u2 t2'] n2]| |] eqn:S2; cbn [bind] in E2; try discriminate.
  injection E1 as E1 <-. injection E2 as E2 <-. subst u1 u2.
  do 5 eexists. split; [reflexivity|]. split; [exact S2|]. split.
  2: { apply reported_hits. apply Forall_forall. intros k Hk. apply in_map_iff in Hk. destruct Hk as (x & <- & Hx).
       apply (si_content _ _ HI) in Hx. eapply sentries_bits; [apply HI|exact Hx]. }
  intros HU. pose proof (sinv_narrow _ _ HI HO) as HN. pose proof (sinv_searchable _ _ id HI HD) as HS.
  destruct (chain_step id t (si_node _ _ HI) (branches_nodup t 0 (si_wf _ _ HI)) (branches_good id t Hw HS HN)) as (us' & t' & E & N' & B).
  rewrite S1 in E. injection E as <- <- _.
  eapply first_effort; [|exact S2|exact HU| |exact Hw|eapply sinv_searchable; eauto].
  - eapply sinv_narrow; eauto.
  - unfold front in B. destruct (find (sees id) (branches t)) as [x|] eqn:EF.
    + exists x. eexists. split; [exact B|]. apply find_some in EF. tauto.
    + exfalso. apply HU. rewrite filter_none; auto. intros y Hy. unfold hit.
      destruct (has_prefix (idstr id) (fst y)) eqn:EP; auto. exfalso.
      apply (si_content _ _ HI) in Hy. pose proof (si_wf _ _ HI) as W. revert EF EP Hy W. clear. generalize 0.
      induction t as [|u fo m _ mm IH]; intros off EF EP Hy W; [destruct Hy|]. cbn [branches find] in EF.
      destruct (sees id _) eqn:ES; [discriminate|]. unfold sees in ES. cbn [tk_fo] in ES. cbn [sentries app] in Hy.
      cbn [swf] in W. destruct W as (_ & _ & _ & W & _).
      destruct Hy as [<-|Hy]; [cbn [fst] in EP; congruence|]. apply in_app_or in Hy. destruct Hy as [Hy|Hy]; [|eapply IH; eauto].
      apply sentries_In_pre in Hy. destruct Hy as (z & _ & ->). cbn [fst] in EP. apply has_prefix_spec in EP.
      assert (has_prefix (idstr id) (fo_str fo) = true) as C; [|congruence]. apply has_prefix_spec.
      destruct EP as [w EP]. rewrite EP, <- app_assoc. eexists. reflexivity.
Qed.
Lemma nodes_entries t : forall pre, length (sentries pre t) = nodes t.
Proof.
  induction t as [|u fo m IHm mm IHmm]; intros pre; cbn [sentries nodes]; auto. cbn [length]. rewrite app_length, IHm, IHmm. reflexivity.
Qed.
