(** How many filters a search compares: proofs. *)
From Verif Require Import GoBase BinUtil MFilter MEngine MTdtCore MSubs MList MPatricia MSplay MEffort.
From Verif Require Import PBase Spec PFilter PEngine PSubs PList PMatch PPatricia PPatriciaHist PExamples PLink PSplay PSplayHist PSplayExact SpecEffort.
From Coq Require Import Lia Permutation.

(** ** The counting searches are the searches *)
Lemma list_matches_counted l id : list_matches l id = (let! (us, _) := list_matches_n l id in Ok us).
Proof.
  induction l as [|em l IH]; cbn; auto. destruct (match_filter _ _) as [m| |]; cbn; auto. rewrite IH.
  destruct (list_matches_n l id) as [[us n]| |]; cbn; auto.
Qed.
Lemma psearch_counted t id : psearch t id = (let! (us, _) := psearch_n t id in Ok us).
Proof.
  induction t as [|u fo one IH1 zero IH0]; cbn [psearch psearch_n]; auto.
  destruct (match_filter _ _) as [m| |]; cbn [bind]; auto. destruct m; auto.
  destruct (get_next_bit _ _) as [nb| |]; auto.
  destruct (Ascii.eqb nb c1); [|destruct (Ascii.eqb nb c0); [|reflexivity]].
  - destruct one as [|u1 f1 o1 z1]; [reflexivity|]. rewrite IH1. destruct (psearch_n (PNode u1 f1 o1 z1) id) as [[us n]| |]; reflexivity.
  - destruct zero as [|u1 f1 o1 z1]; [reflexivity|]. rewrite IH0. destruct (psearch_n (PNode u1 f1 o1 z1) id) as [[us n]| |]; reflexivity.
Qed.
Lemma ssearch_counted t id : forall hp, ssearch t hp id = (let! (r, _) := ssearch_n t hp id in Ok r).
Proof.
  induction t as [|u fo m IHm mm IHmm]; intros hp; cbn [ssearch ssearch_n]; auto. destruct fo as [f|]; auto.
  destruct (match_filter _ _) as [b| |]; cbn [bind]; auto. destruct b.
  - destruct m as [|u1 fo1 m1 mm1].
    + cbn [bind]. destruct hp; reflexivity.
    + rewrite IHm. destruct (ssearch_n _ false id) as [[[[us t'] ex] n]| |]; cbn [bind]; auto. destruct hp; reflexivity.
  - destruct mm as [|u1 fo1 m1 mm1]; [reflexivity|]. rewrite IHmm.
    destruct (ssearch_n _ true id) as [[[[us t'] ex] n]| |]; cbn [bind]; auto.
Qed.
Lemma splay_step_counted t id : splay_step t id = (let! (us, t', _) := splay_step_n t id in Ok (us, t')).
Proof.
  unfold splay_step, splay_step_n. rewrite ssearch_counted.
  destruct (ssearch_n _ _ id) as [[[[us t'] ex] n]| |]; reflexivity.
Qed.

(** ** The list *)
Lemma list_effort l id : forall us n, list_matches_n l id = Ok (us, n) -> n = length l.
Proof.
  induction l as [|em l IH]; intros us n H; cbn in H; [injection H as <- <-; auto|].
  destruct (match_filter _ _) as [m| |]; cbn [bind] in H; try discriminate.
  destruct (list_matches_n l id) as [[us' n']| |]; try discriminate. cbn [bind] in H. injection H as <- <-.
  cbn. f_equal. eapply IH. reflexivity.
Qed.

(** ** The Patricia trie: below each node the branches have their bit first and
    start where the node ends or later. *)
Lemma new_filter_text s o : fo_string (new_filter s o) = s.
Proof. unfold new_filter. destruct (make_filter s o) as [[bo f] m]; reflexivity. Qed.
Definition from (c : ascii) (n : nat) (t : ptree) : Prop :=
  match t with PNil => True | PNode _ fo _ _ => n <= fo_offset fo /\ exists r, fo_string fo = c :: r end.
Fixpoint pok (t : ptree) : Prop :=
  match t with
  | PNil => True
  | PNode _ fo one zero =>
      fo_size fo = length (fo_string fo) /\ is_bitstring (fo_string fo) /\
      from c1 (fo_offset fo + fo_size fo) one /\ from c0 (fo_offset fo + fo_size fo) zero /\ pok one /\ pok zero
  end.
Lemma from_le c n n' t : n' <= n -> from c n t -> from c n' t.
Proof. destruct t; cbn; auto. intros H [H1 H2]. split; auto. lia. Qed.

Lemma patricia_effort t id : forall us n, pok t -> psearch_n t id = Ok (us, n) ->
  1 <= n /\ (2 <= n -> match t with PNil => True | PNode _ fo _ _ => fo_offset fo + fo_size fo + n <= 8 * length id + 1 end).
Proof.
  induction t as [|u fo one IH1 zero IH0]; intros us n K H; cbn [psearch_n] in H; [discriminate|].
  destruct (match_filter _ _) as [m| |]; cbn [bind] in H; try discriminate.
  destruct m; [|injection H as <- <-; split; [lia|lia]].
  cbn [pok] in K. destruct K as (KS & KB & F1 & F0 & K1 & K0).
  destruct (get_next_bit _ _) as [nb| |] eqn:EN; try discriminate.
  assert ((nb = c1 \/ nb = c0) -> fo_offset fo + fo_size fo < 8 * length id) as HL.
  { intros Hb. destruct (get_next_bit_exact id (fo_offset fo + fo_size fo)) as (_ & G2 & G3).
    destruct (Nat.lt_trichotomy (fo_offset fo + fo_size fo) (8 * length id)) as [L|[L|L]]; auto; exfalso.
    - rewrite (G2 L) in EN. injection EN as <-. destruct Hb as [Hb|Hb]; vm_compute in Hb; discriminate.
    - rewrite (G3 L) in EN. discriminate. }
  assert (forall c t' us' n', (c = c1 \/ c = c0) -> nb = c -> from c (fo_offset fo + fo_size fo) t' -> pok t' ->
     (forall us n, pok t' -> psearch_n t' id = Ok (us, n) -> 1 <= n /\ (2 <= n -> match t' with PNil => True
        | PNode _ fo _ _ => fo_offset fo + fo_size fo + n <= 8 * length id + 1 end)) ->
     match t' with PNil => Ok ([], 0) | _ => psearch_n t' id end = Ok (us', n') ->
     1 <= n' -> fo_offset fo + fo_size fo + S n' <= 8 * length id + 1) as Child.
  { intros c t' us' n' Hc Eb Hf Hk IH HM HN. assert (fo_offset fo + fo_size fo < 8 * length id) as L.
    { apply HL. subst c. auto. }
    destruct t' as [|u1 f1 o1 z1]; [injection HM as <- <-; lia|].
    destruct (IH _ _ Hk HM) as [_ I2]. destruct (Nat.le_gt_cases 2 n') as [L2|L2]; [|lia].
    specialize (I2 L2). cbn [from] in Hf. destruct Hf as [Hf1 (r & Hf2)]. cbn [pok] in Hk. destruct Hk as [Hs _].
    rewrite Hf2 in Hs. cbn in Hs. lia. }
  destruct (Ascii.eqb_spec nb c1) as [E1|E1]; [|destruct (Ascii.eqb_spec nb c0) as [E0|E0]].
  - destruct (match one with PNil => Ok ([], 0) | _ => psearch_n one id end) as [[us' n']| |] eqn:EM; cbn [bind] in H; try discriminate.
    injection H as <- <-. split; [lia|]. intros L. apply (Child c1 one us' n'); auto. lia.
  - destruct (match zero with PNil => Ok ([], 0) | _ => psearch_n zero id end) as [[us' n']| |] eqn:EM; cbn [bind] in H; try discriminate.
    injection H as <- <-. split; [lia|]. intros L. apply (Child c0 zero us' n'); auto. lia.
  - cbn [bind] in H. injection H as <- <-. split; lia.
Qed.

Lemma lcp2_starts c x y : lcp [c :: x; c :: y] <> [].
Proof.
  intros E. assert (prefix_of [c] (lcp [c :: x; c :: y])) as [w P].
  { apply lcp_greatest; [discriminate|]. intros s [<-|[<-|[]]]; eexists; reflexivity. }
  rewrite E in P. discriminate.
Qed.
Lemma prefix_head (c : ascii) (a x : gostring) : a <> [] -> prefix_of a (c :: x) -> exists r, a = c :: r.
Proof. destruct a as [|d a]; [congruence|]. intros _ [w P]. injection P as <- _. eauto. Qed.
Lemma branch_starts c prefix keys : branch c prefix keys = [] \/ exists r, branch c prefix keys = c :: r.
Proof.
  unfold branch. assert (forall acc, (acc = [] \/ exists r, acc = c :: r) ->
    (fold_left (branch_step c prefix) keys acc = [] \/ exists r, fold_left (branch_step c prefix) keys acc = c :: r)) as G.
  2: { apply G. auto. }
  induction keys as [|k keys IH]; intros acc HA; cbn [fold_left]; auto. apply IH. unfold branch_step.
  destruct (Nat.ltb _ _); auto. destruct (negb _); auto. destruct (skipn _ k) as [|d p] eqn:ES; auto.
  destruct (has_prefix (d :: p) [c]) eqn:EP; auto. apply has_prefix_spec in EP. destruct EP as [w EP]. injection EP as -> ->.
  right. destruct acc as [|a acc]; [eauto|]. destruct HA as [HA|(r & HA)]; [discriminate|]. injection HA as -> ->.
  apply (prefix_head c _ w); [apply lcp2_starts|apply lcp_prefix; left; reflexivity].
Qed.
Lemma bits_tail (c : ascii) (p x : gostring) : is_bitstring (p ++ x) -> is_bitstring x.
Proof. intros H. apply is_bitstring_app in H. apply H. Qed.
Lemma skipn_bits n s : is_bitstring s -> is_bitstring (skipn n s).
Proof. intros H. rewrite <- (firstn_skipn n s) in H. apply is_bitstring_app in H. apply H. Qed.
Lemma prefix_bits p s : prefix_of p s -> is_bitstring s -> is_bitstring p.
Proof. intros [w ->] H. apply is_bitstring_app in H. apply H. Qed.
Lemma branch_bits c prefix keys : Forall is_bitstring keys -> is_bitstring (branch c prefix keys).
Proof.
  unfold branch. intros HK. assert (forall acc, is_bitstring acc -> is_bitstring (fold_left (branch_step c prefix) keys acc)) as G.
  2: { apply G. constructor. }
  induction keys as [|k keys IH]; intros acc HA; cbn [fold_left]; auto. inversion HK; subst. apply IH; auto. unfold branch_step.
  destruct (Nat.ltb _ _); auto. destruct (negb _); auto. destruct (skipn _ k) as [|d p] eqn:ES; auto.
  assert (is_bitstring (d :: p)) as HB by (rewrite <- ES; apply skipn_bits; auto).
  destruct (has_prefix (d :: p) [c]); auto. destruct acc as [|a acc]; auto.
  eapply prefix_bits; [|exact HB]. apply lcp_prefix. left. reflexivity.
Qed.
Lemma pbuild_ok b : Forall is_bitstring (bsub_keys b) -> forall fuel prefix o z, pbuild fuel prefix b = Some (o, z) ->
  from c1 (length prefix) o /\ from c0 (length prefix) z /\ pok o /\ pok z.
Proof.
  intros HK. induction fuel as [|fuel IH]; intros prefix o z H; [discriminate|]. rewrite pbuild_S in H.
  assert (forall c t, pchild fuel prefix b c = Some t -> from c (length prefix) t /\ pok t) as Ch.
  { intros c t Ht. unfold pchild in Ht. pose proof (branch_bits c prefix _ HK) as HB.
    destruct (branch_starts c prefix (bsub_keys b)) as [E|(r & E)]; rewrite E in Ht, HB.
    - injection Ht as <-. split; exact I.
    - destruct (pbuild fuel (prefix ++ c :: r) b) as [[o' z']|] eqn:EB; [|discriminate]. injection Ht as <-.
      destruct (IH _ _ _ EB) as (H1 & H2 & H3 & H4). rewrite app_length in H1, H2.
      split; [split; [rewrite new_filter_offset; auto|exists r; apply new_filter_text]|].
      cbn [pok]. rewrite new_filter_offset, new_filter_size. rewrite ?new_filter_text.
      split; [reflexivity|]. auto. }
  destruct (pchild fuel prefix b c1) as [t1|] eqn:E1; [|discriminate].
  destruct (pchild fuel prefix b c0) as [t0|] eqn:E0; [|discriminate]. injection H as <- <-.
  destruct (Ch _ _ E1), (Ch _ _ E0). auto.
Qed.
Lemma new_patricia_ok b t : Forall is_bitstring (bsub_keys b) -> new_patricia_b b = Some t -> pok t.
Proof.
  intros HK. unfold new_patricia_b. intros H. destruct (pbuild _ _ b) as [[o z]|] eqn:E; [|discriminate]. injection H as <-.
  destruct (pbuild_ok _ HK _ _ _ _ E) as (H1 & H2 & H3 & H4). cbn [pok]. rewrite new_filter_offset, new_filter_size.
  rewrite ?new_filter_text. split; [auto|]. split; [apply lcp_bits; auto|]. auto.
Qed.

(** ** Changes keep this *)
Lemma pok_leaf s o u : is_bitstring s -> pok (pleaf s o u).
Proof. intros H. unfold pleaf. cbn [pok from]. rewrite new_filter_size, new_filter_text. auto 10. Qed.
Lemma padd_ok t : forall fs uri t', pok t -> is_bitstring fs -> padd t fs uri = Ok t' -> pok t' /\
  (forall c n, from c n t -> (exists r, fs = c :: r) -> from c n t').
Proof.
  induction t as [|u fo one IH1 zero IH0]; intros fs uri t' K HB H; cbn [padd] in H; [discriminate|].
  pose proof K as K'. cbn [pok] in K. destruct K as (KS & KB & F1 & F0 & K1 & K0).
  destruct (has_prefix fs (fo_string fo)) eqn:EP.
  - destruct (seqb fs (fo_string fo)).
    { injection H as <-. split; [exact K'|]. auto. }
    pose proof (skipn_bits (fo_size fo) fs HB) as HB2.
    destruct (skipn (fo_size fo) fs) as [|c r] eqn:ER.
    { injection H as <-. split; [exact K'|]. auto. }
    destruct (Ascii.eqb_spec c c1) as [->|N1]; [|destruct (Ascii.eqb_spec c c0) as [->|N0]].
    + destruct one as [|u1 f1 o1 z1].
      * injection H as <-. split; [|auto].
        cbn [pok]. split; [auto|]. split; [auto|]. split; [|split; [auto|split; [apply pok_leaf; auto|auto]]].
        cbn [pleaf from]. rewrite new_filter_offset. split; [lia|exists r; apply new_filter_text].
      * destruct (padd (PNode u1 f1 o1 z1) (c1 :: r) uri) as [one'| |] eqn:E; cbn [bind] in H; try discriminate.
        injection H as <-. destruct (IH1 _ _ _ K1 HB2 E) as (I1 & I2). split; [|auto].
        cbn [pok]. split; [auto|]. split; [auto|]. split; [|split; [auto|split; auto]]. apply I2; eauto.
    + destruct zero as [|u1 f1 o1 z1].
      * injection H as <-. split; [|auto].
        cbn [pok]. split; [auto|]. split; [auto|]. split; [auto|]. split; [|split; [auto|apply pok_leaf; auto]].
        cbn [pleaf from]. rewrite new_filter_offset. split; [lia|exists r; apply new_filter_text].
      * destruct (padd (PNode u1 f1 o1 z1) (c0 :: r) uri) as [zero'| |] eqn:E; cbn [bind] in H; try discriminate.
        injection H as <-. destruct (IH0 _ _ _ K0 HB2 E) as (I1 & I2). split; [|auto].
        cbn [pok]. split; [auto|]. split; [auto|]. split; [auto|]. split; [|split; auto]. apply I2; eauto.
    + injection H as <-. split; [exact K'|]. auto.
  - set (ncp := lcp [fs; fo_string fo]) in *.
    assert (prefix_of ncp (fo_string fo)) as PN by (apply lcp_prefix; right; left; auto).
    assert (prefix_of ncp fs) as PF by (apply lcp_prefix; left; auto).
    assert (length ncp < length (fo_string fo)) as LN.
    { destruct PN as [w PN]. destruct w as [|d w]; [|rewrite PN, app_length; cbn; lia]. rewrite app_nil_r in PN. exfalso.
      rewrite <- PN in PF. apply has_prefix_spec in PF. congruence. }
    assert (is_bitstring ncp) as NB by (eapply prefix_bits; eauto).
    assert (forall u' o' z' c n, from c n (PNode u fo one zero) -> (exists r, fs = c :: r) ->
      from c n (PNode u' (new_filter ncp (fo_offset fo)) o' z')) as Fr.
    { intros u' o' z' c n [F (r & Fs)] (r' & Ff). cbn [from].
      rewrite new_filter_offset. split; auto. rewrite ?new_filter_text. rewrite Ff in PF.
      apply (prefix_head c ncp r'); auto. unfold ncp. rewrite Ff, Fs. apply lcp2_starts. }
    destruct (skipn (length ncp) fs) as [|c r] eqn:ER.
    { injection H as <-. split; [|auto]. cbn [pok]. rewrite new_filter_offset, new_filter_size. rewrite ?new_filter_text.
      split; [auto|]. split; [auto|]. split; [eapply from_le; [|exact F1]; lia|]. split; [eapply from_le; [|exact F0]; lia|]. auto. }
    set (nn := PNode u (new_filter (skipn (length ncp) (fo_string fo)) (fo_offset fo + length ncp)) one zero) in *.
    assert (pok nn) as Kn.
    { unfold nn. cbn [pok]. rewrite new_filter_offset, new_filter_size. rewrite ?new_filter_text. rewrite skipn_length.
      split; [auto|]. split; [apply skipn_bits; auto|].
      split; [eapply from_le; [|exact F1]; lia|]. split; [eapply from_le; [|exact F0]; lia|]. auto. }
    assert (exists d r', skipn (length ncp) (fo_string fo) = d :: r' /\ (d = c0 \/ d = c1) /\ d <> c) as (d & r' & ED & HD & HX).
    { destruct (skipn (length ncp) (fo_string fo)) as [|d r'] eqn:ED.
      - exfalso. assert (length (skipn (length ncp) (fo_string fo)) = 0) as L by (rewrite ED; reflexivity).
        rewrite skipn_length in L. lia.
      - exists d, r'. split; auto. split.
        + apply (bit_cases d r'). rewrite <- ED. apply skipn_bits; auto.
        + intros ->. assert (prefix_of (ncp ++ [c]) ncp) as [w Q].
          { apply lcp_greatest; [discriminate|]. destruct PN as [w1 P1], PF as [w2 P2].
            rewrite P1, skipn_app_l in ED. rewrite P2, skipn_app_l in ER. subst w1 w2.
            intros s [<-|[<-|[]]]; [exists r|exists r']; rewrite <- app_assoc; cbn [app]; auto. }
          apply (f_equal (@length ascii)) in Q. rewrite !app_length in Q. cbn in Q. lia. }
    pose proof (skipn_bits (length ncp) fs HB) as HB2. rewrite ER in HB2.
    destruct (bit_cases c r HB2) as [-> | ->].
    + change (Ascii.eqb c0 c1) with false in H. change (Ascii.eqb c0 c0) with true in H. cbn iota in H. injection H as <-.
      split; [|auto]. destruct HD as [-> | ->]; [congruence|].
      cbn [pok]. rewrite new_filter_offset, new_filter_size. rewrite ?new_filter_text.
      split; [auto|]. split; [auto|]. split; [|split; [|split; [exact Kn|apply pok_leaf; auto]]].
      * unfold nn. cbn [from]. rewrite new_filter_offset. split; [lia|]. exists r'. rewrite new_filter_text. exact ED.
      * cbn [pleaf from]. rewrite new_filter_offset. split; [lia|]. exists r. apply new_filter_text.
    + change (Ascii.eqb c1 c1) with true in H. cbn iota in H. injection H as <-.
      split; [|auto]. destruct HD as [-> | ->]; [|congruence].
      cbn [pok]. rewrite new_filter_offset, new_filter_size. rewrite ?new_filter_text.
      split; [auto|]. split; [auto|]. split; [|split; [|split; [apply pok_leaf; auto|exact Kn]]].
      * cbn [pleaf from]. rewrite new_filter_offset. split; [lia|]. exists r. apply new_filter_text.
      * unfold nn. cbn [from]. rewrite new_filter_offset. split; [lia|]. exists r'. rewrite new_filter_text. exact ED.
Qed.
Lemma pdelete_ok t : forall fs t', pok t -> pdelete t fs = Ok t' -> pok t' /\ (forall c n, from c n t -> from c n t').
Proof.
  induction t as [|u fo one IH1 zero IH0]; intros fs t' K H; cbn [pdelete] in H; [discriminate|].
  pose proof K as K'. cbn [pok] in K. destruct K as (KS & KB & F1 & F0 & K1 & K0).
  destruct (negb _).
  { injection H as <-. auto. }
  assert (forall c u1 fo1 o1 z1, from c (fo_offset fo + fo_size fo) (PNode u1 fo1 o1 z1) -> pok (PNode u1 fo1 o1 z1) ->
    let t2 := PNode u1 (new_filter (fo_string fo ++ fo_string fo1) (fo_offset fo)) o1 z1 in
    pok t2 /\ (forall c n, from c n (PNode u fo one zero) -> from c n t2)) as Merge.
  { intros c u1 fo1 o1 z1 [F (r & Fs)] (S1 & B1 & G1 & G0 & H1 & H0) t2. split.
    - unfold t2. cbn [pok]. rewrite new_filter_offset, new_filter_size. rewrite ?new_filter_text. rewrite app_length.
      split; [auto|]. split; [apply is_bitstring_app; auto|].
      split; [eapply from_le; [|exact G1]; lia|]. split; [eapply from_le; [|exact G0]; lia|]. auto.
    - intros d n [L (r' & E)]. unfold t2. cbn [from]. rewrite new_filter_offset. split; auto.
      rewrite ?new_filter_text. rewrite E. cbn. eauto. }
  destruct (seqb _ _).
  { destruct one as [|u1 f1 o1 z1], zero as [|u0 f0 o0 z0]; injection H as <-; auto.
    - eapply Merge; eauto.
    - eapply Merge; eauto. }
  destruct (skipn (fo_size fo) fs) as [|c r].
  { injection H as <-. auto. }
  destruct (Ascii.eqb_spec c c1) as [->|N1]; [|destruct (Ascii.eqb_spec c c0) as [->|N0]].
  - destruct one as [|u1 f1 o1 z1]; [injection H as <-; auto|].
    destruct (seqb _ _ && _).
    + injection H as <-. split; [|auto]. cbn [pok from]. auto 10.
    + destruct (pdelete (PNode u1 f1 o1 z1) (c1 :: r)) as [one'| |] eqn:E; cbn [bind] in H; try discriminate.
      injection H as <-. destruct (IH1 _ _ K1 E) as [I1 I2]. split; [|auto]. cbn [pok]. auto 10.
  - destruct zero as [|u1 f1 o1 z1]; [injection H as <-; auto|].
    destruct (seqb _ _ && _).
    + injection H as <-. split; [|auto]. cbn [pok from]. auto 10.
    + destruct (pdelete (PNode u1 f1 o1 z1) (c0 :: r)) as [zero'| |] eqn:E; cbn [bind] in H; try discriminate.
      injection H as <-. destruct (IH0 _ _ K0 E) as [I1 I2]. split; [|auto]. cbn [pok]. auto 10.
  - injection H as <-. auto.
Qed.
Lemma pchanges_ok cs : Forall is_bitstring (map about cs) -> forall t t', pok t -> fold_left pchange cs (Ok t) = Ok t' -> pok t'.
Proof.
  assert (forall cs r, r = Err \/ r = Panic -> fold_left pchange cs r = r) as Bad.
  { intros l; induction l as [|c l IH]; intros r [-> | ->]; cbn; auto. }
  induction cs as [|c cs IH]; intros HB t t' K H; cbn [fold_left] in H; [injection H as <-; auto|].
  inversion HB; subst. destruct (pchange (Ok t) c) as [t1| |] eqn:E; [|rewrite Bad in H by auto; discriminate|rewrite Bad in H by auto; discriminate].
  apply (IH H3 t1 t'); auto. destruct c as [k u|k]; cbn [pchange bind] in E.
  - eapply padd_ok; eauto.
  - eapply pdelete_ok; eauto.
Qed.
Lemma patricia_run_effort E sub0 ops t id us n :
  Forall is_bitstring (mkeys (to_byte_subs E sub0)) -> Forall is_bitstring (map about (changes_of E ops)) ->
  patricia_run E sub0 ops = Ok t -> psearch_n t id = Ok (us, n) -> n <= 8 * length id + 1.
Proof.
  intros HB HC HR HS. unfold patricia_run in HR. destruct (new_patricia E sub0) as [t0|] eqn:E0.
  2: discriminate.
  rewrite fold_patricia_update in HR. apply pchanges_ok in HR; auto.
  - destruct (patricia_effort t id us n HR HS) as [L1 L2]. destruct t as [|u fo o z]; [discriminate|].
    destruct (Nat.le_gt_cases 2 n) as [L|L]; [specialize (L2 L); lia|lia].
  - eapply new_patricia_ok; [|exact E0]. rewrite bsub_keys_wf; auto. apply to_byte_subs_flat.
Qed.

(** ** A fresh trie never compares more filters than there are subscriptions *)
Lemma branch_longest c prefix keys q : branch c prefix keys <> [] ->
  (forall k, In k keys -> prefix_of (prefix ++ [c]) k -> prefix_of (prefix ++ q) k) -> prefix_of q (branch c prefix keys).
Proof.
  intros HN HK. assert (forall acc, acc = [] \/ prefix_of q acc ->
    fold_left (branch_step c prefix) keys acc = [] \/ prefix_of q (fold_left (branch_step c prefix) keys acc)) as G.
  2: { destruct (G [] (or_introl eq_refl)) as [E|E]; [exfalso; apply HN; exact E|exact E]. }
  clear HN. induction keys as [|k keys IH]; intros acc HA; cbn [fold_left]; auto. apply IH.
  { intros k' Hk'. apply HK. right; auto. }
  unfold branch_step. destruct (Nat.ltb _ _); auto. destruct (negb _) eqn:EP; auto.
  apply negb_false_iff, has_prefix_spec in EP. destruct EP as [p EP].
  assert (skipn (length prefix) k = p) as -> by (rewrite EP; apply skipn_app_l).
  destruct p as [|d p]; auto. destruct (has_prefix (d :: p) [c]) eqn:EC; auto. apply has_prefix_spec in EC.
  destruct EC as [w EC]. assert (prefix_of q (d :: p)) as Q.
  { specialize (HK k (or_introl eq_refl)). rewrite EP, EC in HK.
    assert (prefix_of (prefix ++ [c]) (prefix ++ [c] ++ w)) as P by (exists w; rewrite app_assoc; reflexivity).
    specialize (HK P). rewrite EC. apply prefix_app_inv1 in HK. exact HK. }
  destruct acc as [|a acc]; auto. destruct HA as [HA|HA]; [discriminate|]. right.
  apply lcp_greatest; [discriminate|]. intros s [<-|[<-|[]]]; auto.
Qed.
Definition under (b : bsubs) (p : gostring) : nat := length (filter (fun k => has_prefix k p) (bsub_keys b)).
Lemma filter_less {A} (f g : A -> bool) l x : (forall y, f y = true -> g y = true) -> In x l -> g x = true -> f x = false ->
  length (filter f l) < length (filter g l).
Proof.
  intros HI Hx Hg Hf. assert (forall l, length (filter f l) <= length (filter g l)) as Le.
  { intros l0. induction l0 as [|y l0 IH]; cbn; auto. destruct (f y) eqn:E; [rewrite (HI y E); cbn; lia|]. destruct (g y); cbn; lia. }
  induction l as [|y l IH]; [destruct Hx|]. destruct Hx as [->|Hx]; cbn.
  - rewrite Hg, Hf. cbn. specialize (Le l). lia.
  - specialize (IH Hx). destruct (f y) eqn:E; [rewrite (HI y E); cbn; lia|]. destruct (g y); cbn; lia.
Qed.
Lemma under_less b p q : prefix_of p q -> ~ (forall k, In k (bsub_keys b) -> prefix_of p k -> prefix_of q k) -> under b q < under b p.
Proof.
  intros HP HN. destruct (forallb (fun k => negb (has_prefix k p) || has_prefix k q) (bsub_keys b)) eqn:E.
  - exfalso. apply HN. intros k Hk Pk. rewrite forallb_forall in E. specialize (E k Hk). apply orb_true_iff in E.
    apply has_prefix_spec in Pk. rewrite Pk in E. destruct E as [E|E]; [discriminate|]. apply has_prefix_spec; auto.
  - assert (exists x, In x (bsub_keys b) /\ has_prefix x p = true /\ has_prefix x q = false) as (x & Hx & H1 & H2).
    { revert E. generalize (bsub_keys b). intros l. induction l as [|y l IH]; cbn; [discriminate|]. intros E.
      apply andb_false_iff in E. destruct E as [E|E].
      - apply orb_false_iff in E. destruct E as [E1 E2]. apply negb_false_iff in E1. exists y. auto.
      - destruct (IH E) as (x & ? & ? & ?). exists x. auto. }
    apply (filter_less _ _ _ x); auto. intros y Hy. apply has_prefix_spec in Hy. apply has_prefix_spec.
    destruct HP as [w ->], Hy as [v ->]. rewrite <- app_assoc. eexists. reflexivity.
Qed.
Lemma psearch_n_node u fo o z id us n : psearch_n (PNode u fo o z) id = Ok (us, n) -> n = 1 \/
  exists us' n', n = S n' /\ ((o <> PNil /\ psearch_n o id = Ok (us', n')) \/ (z <> PNil /\ psearch_n z id = Ok (us', n'))).
Proof.
  cbn [psearch_n]. destruct (match_filter _ _) as [m| |]; cbn [bind]; try discriminate.
  destruct m; [|intros H; injection H as <- <-; auto].
  destruct (get_next_bit _ _) as [nb| |]; try discriminate.
  destruct (Ascii.eqb nb c1); [|destruct (Ascii.eqb nb c0)].
  - destruct o as [|u1 f1 o1 z1]; [cbn [bind]; intros H; injection H as <- <-; auto|].
    destruct (psearch_n (PNode u1 f1 o1 z1) id) as [[us' n']| |]; cbn [bind]; try discriminate.
    intros H. injection H as <- <-. right. exists us', n'. split; auto. left. split; [discriminate|auto].
  - destruct z as [|u1 f1 o1 z1]; [cbn [bind]; intros H; injection H as <- <-; auto|].
    destruct (psearch_n (PNode u1 f1 o1 z1) id) as [[us' n']| |]; cbn [bind]; try discriminate.
    intros H. injection H as <- <-. right. exists us', n'. split; auto. right. split; [discriminate|auto].
  - cbn [bind]. intros H. injection H as <- <-. auto.
Qed.
Lemma pchild_effort b id : forall fuel prefix c t us n, pchild fuel prefix b c = Some t -> t <> PNil ->
  psearch_n t id = Ok (us, n) -> n <= under b (prefix ++ [c]).
Proof.
  induction fuel as [|fuel IH]; intros prefix c t us n HC HT HS.
  { unfold pchild in HC. destruct (branch c prefix (bsub_keys b)); [injection HC as <-; congruence|discriminate]. }
  unfold pchild in HC. pose proof (branch_spec c prefix (bsub_keys b)) as [_ B2]. pose proof (branch_longest c prefix (bsub_keys b)) as B3.
  destruct (branch c prefix (bsub_keys b)) as [|x br] eqn:EB; [injection HC as <-; congruence|].
  destruct B2 as ((r & Er) & Hall & k0 & Hk0 & Hp0); [discriminate|]. injection Er as -> ->.
  rewrite pbuild_S in HC.
  destruct (pchild fuel (prefix ++ c :: r) b c1) as [o|] eqn:E1; [|discriminate].
  destruct (pchild fuel (prefix ++ c :: r) b c0) as [z|] eqn:E0; [|discriminate]. injection HC as <-.
  assert (forall d, under b ((prefix ++ c :: r) ++ [d]) < under b (prefix ++ [c])) as Less.
  { intros d. apply under_less.
    - exists (r ++ [d]). rewrite <- !app_assoc. reflexivity.
    - intros HK. specialize (B3 (c :: r ++ [d]) ltac:(discriminate)). destruct B3 as [w E].
      + intros k Hk Pk. specialize (HK k Hk Pk). rewrite <- app_assoc in HK. exact HK.
      + apply (f_equal (@length ascii)) in E. cbn in E. rewrite !app_length in E. cbn in E. lia. }
  apply psearch_n_node in HS. destruct HS as [->|(us' & n' & -> & [[HT' HS']|[HT' HS']])].
  - specialize (Less c). lia.
  - specialize (Less c1). pose proof (IH _ _ _ _ _ E1 HT' HS'). lia.
  - specialize (Less c0). pose proof (IH _ _ _ _ _ E0 HT' HS'). lia.
Qed.
Lemma fresh_effort b t id us n : new_patricia_b b = Some t -> psearch_n t id = Ok (us, n) -> n <= Nat.max 1 (length (bsub_keys b)).
Proof.
  unfold new_patricia_b. intros HT HS. rewrite pbuild_S in HT. set (p1 := lcp (bsub_keys b)) in *. set (fuel := max_length _) in *.
  destruct (pchild fuel p1 b c1) as [o|] eqn:E1; [|discriminate]. destruct (pchild fuel p1 b c0) as [z|] eqn:E0; [|discriminate].
  injection HT as <-.
  assert (forall p, under b p <= length (bsub_keys b)) as Le.
  { intros p. unfold under. generalize (bsub_keys b). intros l. induction l as [|y l IH]; cbn; auto. destruct (has_prefix y p); cbn; lia. }
  assert (forall d, 0 < under b (p1 ++ [d]) -> under b (p1 ++ [d]) < length (bsub_keys b)) as Less.
  { intros d HP. assert (under b (p1 ++ [d]) < under b []) as L; [|specialize (Le []); lia]. apply under_less; [eexists; reflexivity|].
    intros HK. assert (prefix_of (p1 ++ [d]) p1) as [w E].
    { apply lcp_greatest; [|intros s Hs; apply HK; auto; eexists; reflexivity].
      intros E. unfold under in HP. rewrite E in HP. cbn in HP. lia. }
    apply (f_equal (@length ascii)) in E. rewrite !app_length in E. cbn in E. lia. }
  apply psearch_n_node in HS. destruct HS as [->|(us' & n' & -> & [[HT' HS']|[HT' HS']])].
  - lia.
  - pose proof (pchild_effort b id _ _ _ _ _ _ E1 HT' HS') as L. destruct n' as [|n']; [lia|]. specialize (Less c1). lia.
  - pose proof (pchild_effort b id _ _ _ _ _ _ E0 HT' HS') as L. destruct n' as [|n']; [lia|]. specialize (Less c0). lia.
Qed.
