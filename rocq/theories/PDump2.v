(** Proofs about the printed texts: the text engine, and what any history of
    calls leaves printable. *)
From Verif Require Import GoBase BinUtil MFilter MEngine MTdtCore MSubs MList MPatricia MSplay MDump.
From Verif Require Import PBase Spec PFilter PEngine PSubs PList PMatch PPatricia PPatriciaHist PLink PSplay PSplayHist.
From Verif Require Import PNum SpecEpc PTdt PTdt2 PEpc2 SpecDump PDump.
From Coq Require Import Lia.

(** ** Quoted texts *)
Definition all_chars : list ascii := map ascii_of_nat (seq 0 256).
Lemma all_chars_In c : In c all_chars.
Proof.
  apply in_map_iff. exists (nat_of_ascii c). split; [apply ascii_nat_embedding|]. apply in_seq. split; [lia|]. apply nat_ascii_bounded.
Qed.
Lemma quote_code : forallb (fun c => negb (has_prefix (quote_char c) [dquote]) && negb (seqb (quote_char c) []) &&
  forallb (fun c' => Ascii.eqb c c' || (negb (has_prefix (quote_char c) (quote_char c')) && negb (has_prefix (quote_char c') (quote_char c)))) all_chars) all_chars = true.
Proof. vm_compute. reflexivity. Qed.
Lemma quote_char_cut c c' r r' : quote_char c ++ r = quote_char c' ++ r' -> c = c' /\ r = r'.
Proof.
  intros H. pose proof quote_code as Q. rewrite forallb_forall in Q. specialize (Q c (all_chars_In c)).
  apply andb_prop in Q. destruct Q as [_ Q]. rewrite forallb_forall in Q. specialize (Q c' (all_chars_In c')).
  apply orb_prop in Q. destruct Q as [Q|Q].
  - apply Ascii.eqb_eq in Q. subst. apply app_inv_head in H. auto.
  - exfalso. apply andb_prop in Q. destruct Q as [Q1 Q2]. apply negb_true_iff in Q1, Q2.
    assert (forall a b x y : gostring, a ++ x = b ++ y -> has_prefix a b = true \/ has_prefix b a = true) as X.
    { induction a as [|p a IH]; intros [|q b] x y E; cbn; auto. cbn in E. injection E as -> E. rewrite Ascii.eqb_refl. apply IH in E. exact E. }
    apply X in H. destruct H; congruence.
Qed.
Lemma quote_char_head c : exists x r, quote_char c = x :: r /\ x <> dquote.
Proof.
  pose proof quote_code as Q. rewrite forallb_forall in Q. specialize (Q c (all_chars_In c)).
  apply andb_prop in Q. destruct Q as [Q _]. apply andb_prop in Q. destruct Q as [Q1 Q2]. apply negb_true_iff in Q1, Q2.
  destruct (quote_char c) as [|x r]; [discriminate Q2|]. exists x, r. split; auto. intros ->. cbn [has_prefix] in Q1. rewrite Ascii.eqb_refl in Q1. destruct r; discriminate Q1.
Qed.
Lemma quote_cut s : forall s' r r', quote s ++ r = quote s' ++ r' -> s = s' /\ r = r'.
Proof.
  intros s' r r' H. unfold quote in H. rewrite <- !app_assoc in H. cbn [app] in H. assert (flat_map quote_char s ++ dquote :: r = flat_map quote_char s' ++ dquote :: r') as K by congruence.
  clear H. revert s' r r' K. induction s as [|c s IH]; intros [|c' s'] r r' H; cbn [flat_map app] in H.
  - injection H as ->. auto.
  - destruct (quote_char_head c') as (x & y & E & N). rewrite E in H. cbn in H. injection H as H _. destruct N. symmetry. exact H.
  - destruct (quote_char_head c) as (x & y & E & N). rewrite E in H. cbn in H. injection H as H _. destruct N. exact H.
  - rewrite <- !app_assoc in H. apply quote_char_cut in H. destruct H as [-> H]. apply IH in H. destruct H as [-> ->]. auto.
Qed.
Lemma quote_list_cut l l' r r' : quote_list l ++ r = quote_list l' ++ r' -> l = l' /\ r = r'.
Proof.
  unfold quote_list. rewrite <- !app_assoc. intros H. apply app_inv_head in H.
  change (str "]" ++ r) with ("]"%char :: r) in H. change (str "]" ++ r') with ("]"%char :: r') in H.
  assert (forall a (t : gostring), quote a ++ t = dquote :: flat_map quote_char a ++ dquote :: t) as QE.
  { intros a t. unfold quote. rewrite <- !app_assoc. reflexivity. }
  revert l' H. induction l as [|a l IH]; intros [|a' l'] H.
  - injection H as ->. auto.
  - exfalso. cbn [map join app] in H. destruct (map quote l') in H; [|rewrite <- app_assoc in H]; rewrite QE in H; discriminate H.
  - exfalso. cbn [map join app] in H. destruct (map quote l) in H; [|rewrite <- app_assoc in H]; rewrite QE in H; discriminate H.
  - cbn [map join] in H. destruct l as [|b l], l' as [|b' l']; cbn [map] in H.
    + apply quote_cut in H. destruct H as [-> H]. injection H as ->. auto.
    + exfalso. rewrite <- app_assoc in H. apply quote_cut in H. destruct H as [_ H]. discriminate H.
    + exfalso. rewrite <- app_assoc in H. apply quote_cut in H. destruct H as [_ H]. discriminate H.
    + rewrite <- !app_assoc in H. apply quote_cut in H. destruct H as [-> H]. apply app_inv_head in H.
      destruct (IH (b' :: l') H) as [-> ->]. auto.
Qed.
Lemma legacy_dump_inj m : forall m', Forall (fun kv => ~ In " "%char (fst kv)) m -> Forall (fun kv => ~ In " "%char (fst kv)) m' ->
  legacy_dump m = legacy_dump m' -> m = m'.
Proof.
  induction m as [|[f l] m IH]; intros [|[f' l'] m'] F F' H; try discriminate H; auto.
  inversion F; subst. inversion F'; subst. cbn [fst] in *. cbn [legacy_dump] in H. apply app_inv_head in H.
  cbn [app str list_ascii_of_string] in H. apply cut_unique in H; auto. destruct H as [-> H]. apply quote_list_cut in H. destruct H as [-> H].
  injection H as H. rewrite (IH m'); auto.
Qed.

(** ** What the byte subscriptions contain *)
Lemma to_byte_subs_uris E sub : Forall one_line (map fst sub) -> Forall one_line (map snd (entries (to_byte_subs E sub))).
Proof.
  intros F. rewrite Forall_forall in *. intros u Hu. apply in_map_iff in Hu. destruct Hu as ([k v] & <- & Hu). cbn [snd].
  assert (In v (map fst sub)) as X; [|auto].
  assert (exists s, In (s, v) (stored_pairs E sub)) as (s & Hs).
  { rewrite to_byte_subs_pairs in Hu. revert Hu. assert (forall m : bsubs, In (k, v) (entries (fold_left set_pair (stored_pairs E sub) m)) ->
      (exists s, In (s, v) (stored_pairs E sub)) \/ exists k', In (k', v) (entries m)) as Y.
    { induction (stored_pairs E sub) as [|[a b] l IH]; intros m H; cbn in H; [eauto|].
      apply IH in H. destruct H as [[s H]|[k' H]]; [left; exists s; right; auto|].
      unfold set_pair, entries in H. cbn [fst snd] in H. apply in_map_iff in H. destruct H as ([k2 q] & H & HI). cbn [fst snd] in H.
      injection H as <- <-. apply mset_In in HI. destruct HI as [HI|HI]; [injection HI as -> ->; left; exists a; left; auto|].
      right. exists k2. apply in_map_iff. exists (k2, q). auto. }
    intros H. apply Y in H. destruct H as [H|[k' []]]; auto. }
  unfold stored_pairs in Hs. apply in_flat_map in Hs. destruct Hs as ([u l] & Hin & Hs). apply in_map_iff. 
  apply in_flat_map in Hs. destruct Hs as (pat & _ & Hs). cbn [fst snd] in *. destruct (pattern_prefix E pat); [|destruct Hs].
  destruct Hs as [Hs|[]]. injection Hs as _ <-. exists (u, l). auto.
Qed.

(** ** Histories *)
(** What a call adds: prefixes that are bit strings and URIs of one line. *)
Definition pairs_ok (l : prefix_subs) : Prop := Forall (fun p => is_bitstring (fst p) /\ one_line (snd p)) l.
Lemma printable_pairs E sub : printable E sub -> pairs_ok (entries (to_byte_subs E sub)).
Proof.
  intros [K U]. apply (to_byte_subs_uris E) in U. rewrite <- entries_keys in K. unfold pairs_ok. rewrite Forall_forall in *.
  intros p Hp. split; [apply K|apply U]; apply in_map; auto.
Qed.

Lemma list_of_shown ps : pairs_ok ps -> Forall em_shown (list_of ps).
Proof.
  unfold pairs_ok, list_of. rewrite !Forall_forall. intros H em He. apply in_map_iff in He. destruct He as (p & <- & Hp).
  apply H in Hp. destruct Hp. exists (fst p). cbn. auto.
Qed.
Lemma list_run_shown E sub0 ops : printable E sub0 -> Forall (printable_op E) ops -> Forall em_shown (list_run E sub0 ops).
Proof.
  intros P F. unfold list_run. rewrite new_list_of.
  pose proof (entries_NoDup _ (to_byte_subs_flat E sub0)) as HN. pose proof (printable_pairs E sub0 P) as HP. clear P.
  revert HN HP. generalize (entries (to_byte_subs E sub0)).
  induction F as [|[s|s] ops P F IH]; intros ps HN HP; cbn [fold_left list_update].
  - apply list_of_shown; auto.
  - rewrite list_add_of. apply IH; [apply pkeys_add_NoDup; auto using entries_NoDup, to_byte_subs_flat|].
    apply printable_pairs in P. unfold pairs_ok in *. rewrite Forall_forall in *. intros p Hp.
    rewrite pkeys_add_eq in Hp by auto using entries_NoDup, to_byte_subs_flat. apply in_app_or in Hp.
    destruct Hp as [Hp|Hp]; auto. apply filter_In in Hp. apply P, Hp.
  - rewrite list_del_of by auto. apply IH; [apply pkeys_del_NoDup; auto|].
    unfold pairs_ok in *. rewrite Forall_forall in *. intros p Hp. rewrite pkeys_del_eq in Hp. apply filter_In in Hp. apply HP, Hp.
Qed.

(** *** Patricia trie *)
Lemma pwf_shown t : forall off pre, pwf off t -> (forall k u, In (k, u) (pentries pre t) -> one_line u) -> pshown t.
Proof.
  induction t as [|u fo one IH1 zero IH0]; intros off pre W H; cbn [pshown]; auto.
  cbn [pwf] in W. destruct W as (F & B & S1 & S0 & W1 & W0). cbn [pentries] in H.
  assert (fo_offset fo = off) as Ho by (rewrite F; apply new_filter_offset).
  repeat split; auto.
  - rewrite Ho. auto.
  - destruct u as [|c u]; [intros []|]. eapply H. apply in_or_app. left. left. reflexivity.
  - eapply IH1; eauto. intros k v Hk. eapply H. apply in_or_app. right. apply in_or_app. right. eauto.
  - eapply IH0; eauto. intros k v Hk. eapply H. apply in_or_app. right. apply in_or_app. left. eauto.
Qed.
Lemma new_patricia_shown E sub : printable E sub -> exists t, new_patricia E sub = Some t /\ t <> PNil /\ pshown t.
Proof.
  intros P. pose proof (printable_pairs E sub P) as PP. destruct P as [K _].
  destruct (new_patricia_b_spec (to_byte_subs E sub)) as (t & Et & N & W & _ & C & _); auto using to_byte_subs_flat.
  exists t. split; [exact Et|]. split; auto. apply (pwf_shown t 0 []); auto. intros k u H. rewrite C in H.
  unfold patricia_content in H. apply filter_In in H. destruct H as [H _]. unfold pairs_ok in PP. rewrite Forall_forall in PP.
  apply PP in H. apply H.
Qed.
Lemma new_filter_self s o : new_filter s o = new_filter (fo_string (new_filter s o)) (fo_offset (new_filter s o)).
Proof. rewrite new_filter_string, new_filter_offset. reflexivity. Qed.
Lemma bit_head c r : is_bitstring (c :: r) -> c = c1 \/ c = c0.
Proof. intros H. inversion H as [|x y Hx]; subst. destruct Hx; auto. Qed.
Lemma bits_skip n s : is_bitstring s -> is_bitstring (skipn n s).
Proof. intros H. rewrite <- (firstn_skipn n s) in H. apply is_bitstring_app in H. apply H. Qed.
Lemma pleaf_shown s o u : is_bitstring s -> one_line u -> pshown (pleaf s o u).
Proof. intros B O. cbn [pleaf pshown]. rewrite new_filter_string. repeat split; auto; cbn; auto. rewrite new_filter_offset. reflexivity. Qed.
Lemma pleaf_starts c r o u : starts_with c (pleaf (c :: r) o u).
Proof. cbn. rewrite new_filter_string. eauto. Qed.
Lemma padd_shown t : forall fs uri, t <> PNil -> pshown t -> is_bitstring fs -> one_line uri ->
  exists t', padd t fs uri = Ok t' /\ t' <> PNil /\ pshown t' /\ (forall c r, fs = c :: r -> starts_with c t -> starts_with c t').
Proof.
  induction t as [|u fo one IH1 zero IH0]; intros fs uri N W B O; [congruence|].
  cbn [pshown] in W. destruct W as (F & BF & OU & S1 & S0 & W1 & W0). cbn [padd].
  assert (fo_size fo = length (fo_string fo)) as HSz by (rewrite F at 1; apply new_filter_size).
  destruct (has_prefix fs (fo_string fo)) eqn:EP.
  - destruct (seqb fs (fo_string fo)) eqn:EQ.
    { eexists. split; [reflexivity|]. split; [discriminate|]. split; [cbn [pshown]; auto 10|]. intros c r _ H. exact H. }
    rewrite HSz. pose proof (bits_skip (length (fo_string fo)) fs B) as BR.
    destruct (skipn (length (fo_string fo)) fs) as [|c r] eqn:ES.
    { eexists. split; [reflexivity|]. split; [discriminate|]. split; [cbn [pshown]; auto 10|]. intros c r _ H. exact H. }
    destruct (bit_head c r BR) as [-> | ->]; cbn [Ascii.eqb c0 c1 Bool.eqb].
    + destruct one as [|v g a b].
      * eexists. split; [reflexivity|]. split; [discriminate|]. split; [|intros c r' _ H; exact H].
        cbn [pshown]. split; [auto|]. split; [auto|]. split; [auto|]. split; [apply pleaf_starts|]. split; [auto|]. split; [|auto]. apply (pleaf_shown (c1 :: r)); auto.
      * destruct (IH1 (c1 :: r) uri) as (t' & Et & Nt & Wt & St); auto; [discriminate|]. rewrite Et. cbn [bind].
        eexists. split; [reflexivity|]. split; [discriminate|]. split; [|intros c r' _ H; exact H].
        cbn [pshown]. repeat split; auto. eapply St; eauto.
    + destruct zero as [|v g a b].
      * eexists. split; [reflexivity|]. split; [discriminate|]. split; [|intros c r' _ H; exact H].
        cbn [pshown]. split; [auto|]. split; [auto|]. split; [auto|]. split; [auto|]. split; [apply pleaf_starts|]. split; [auto|]. apply (pleaf_shown (c0 :: r)); auto.
      * destruct (IH0 (c0 :: r) uri) as (t' & Et & Nt & Wt & St); auto; [discriminate|]. rewrite Et. cbn [bind].
        eexists. split; [reflexivity|]. split; [discriminate|]. split; [|intros c r' _ H; exact H].
        cbn [pshown]. repeat split; auto. eapply St; eauto.
  - set (ncp := lcp [fs; fo_string fo]).
    assert (prefix_of ncp fs) as [x Hx] by (apply lcp_prefix; cbn; auto).
    assert (prefix_of ncp (fo_string fo)) as [y Hy] by (apply lcp_prefix; cbn; auto).
    assert (is_bitstring ncp /\ is_bitstring x) as [BN BX] by (rewrite Hx in B; apply is_bitstring_app in B; auto).
    assert (is_bitstring y) as BY by (rewrite Hy in BF; apply is_bitstring_app in BF; apply BF).
    assert (skipn (length ncp) fs = x) as -> by (rewrite Hx; apply skipn_app_l).
    assert (skipn (length ncp) (fo_string fo) = y) as -> by (rewrite Hy; apply skipn_app_l).
    assert (forall c (r : gostring) t0, fs = c :: r -> starts_with c (PNode u fo one zero) -> t0 = ncp -> exists r', t0 = c :: r') as HS.
    { intros c r t0 E1 (r2 & E2) ->. assert (prefix_of [c] ncp) as [z Hz].
      { apply lcp_greatest; [discriminate|]. intros s [<-|[<-|[]]]; [exists r; auto|exists r2; auto]. }
      exists z. exact Hz. }
    assert (y <> []) as NY.
    { intros ->. rewrite app_nil_r in Hy. apply has_prefix_false in EP. apply EP. exists x. congruence. }
    assert (forall a r b r', x = a :: r -> y = b :: r' -> a <> b) as HD.
    { intros a r b r' E1 E2 <-. assert (prefix_of (ncp ++ [a]) ncp) as [z Hz].
      { apply lcp_greatest; [discriminate|]. intros s [<-|[<-|[]]]; [exists r|exists r']; rewrite <- app_assoc; cbn [app]; congruence. }
      rewrite <- (app_nil_r ncp) in Hz at 1. rewrite <- app_assoc in Hz. apply app_inv_head in Hz. discriminate Hz. }
    assert (pshown (PNode u (new_filter y (fo_offset fo + length ncp)) one zero)) as WN.
    { cbn [pshown]. rewrite new_filter_string, new_filter_offset. auto 10. }
    destruct x as [|c r].
    + eexists. split; [reflexivity|]. split; [discriminate|]. split.
      * cbn [pshown]. rewrite new_filter_string, new_filter_offset. repeat split; auto. intros [].
      * intros c r E1 H. cbn. eapply HS; eauto. apply new_filter_string.
    + destruct (bit_head c r BX) as [-> | ->]; cbn [Ascii.eqb c0 c1 Bool.eqb];
        (eexists; split; [reflexivity|]; split; [discriminate|]; split; [|intros c r' E1 H; cbn; eapply HS; eauto; apply new_filter_string]);
        cbn [pshown]; fold pshown; rewrite !new_filter_string, !new_filter_offset;
        (destruct y as [|b y]; [congruence|]); pose proof (HD _ _ _ _ eq_refl eq_refl) as DB; destruct (bit_head b y BY) as [-> | ->]; try congruence;
        repeat split; auto; try (intros []); try apply new_filter_self; try apply pleaf_starts; try (cbn; rewrite new_filter_string; eauto; fail); cbn; auto.
Qed.

Lemma pdelete_shown t : forall fs, t <> PNil -> pshown t -> is_bitstring fs ->
  exists t', pdelete t fs = Ok t' /\ t' <> PNil /\ pshown t' /\ (forall c, starts_with c t -> starts_with c t').
Proof.
  induction t as [|u fo one IH1 zero IH0]; intros fs N W B; [congruence|].
  pose proof W as W'. cbn [pshown] in W. destruct W as (F & BF & OU & S1 & S0 & W1 & W0). cbn [pdelete].
  assert (forall r, (r = Ok (PNode u fo one zero)) -> exists t', r = Ok t' /\ t' <> PNil /\ pshown t' /\ (forall c, starts_with c (PNode u fo one zero) -> starts_with c t')) as Same.
  { intros r ->. eexists. split; [reflexivity|]. split; [discriminate|]. split; auto. }
  assert (fo_size fo = length (fo_string fo)) as HSz by (rewrite F at 1; apply new_filter_size).
  destruct (has_prefix fs (fo_string fo)) eqn:EP; cbn [negb]; [|apply Same; reflexivity].
  destruct (seqb fs (fo_string fo)) eqn:EQ.
  - assert (forall v g a b, pshown (PNode v g a b) ->
      pshown (PNode v (new_filter (fo_string fo ++ fo_string g) (fo_offset fo)) a b) /\
      forall c, starts_with c (PNode u fo one zero) -> starts_with c (PNode v (new_filter (fo_string fo ++ fo_string g) (fo_offset fo)) a b)) as X.
    { intros v g a b V. cbn [pshown] in V. destruct V as (G & BG & OV & T1 & T0 & V1 & V0). split.
      - cbn [pshown]. rewrite new_filter_string, new_filter_offset. repeat split; auto. apply is_bitstring_app. auto.
      - intros c [r E]. cbn. rewrite new_filter_string, E. cbn. eauto. }
    destruct one as [|v1 g1 a1 b1], zero as [|v0 g0 a0 b0].
    + apply Same. reflexivity.
    + destruct (X _ _ _ _ W0). eexists. split; [reflexivity|]. split; [discriminate|]. auto.
    + destruct (X _ _ _ _ W1). eexists. split; [reflexivity|]. split; [discriminate|]. auto.
    + eexists. split; [reflexivity|]. split; [discriminate|]. split; [|intros c H; exact H]. cbn [pshown] in *. repeat split; try tauto. intros [].
  - rewrite HSz. pose proof (bits_skip (length (fo_string fo)) fs B) as BR.
    destruct (skipn (length (fo_string fo)) fs) as [|c r] eqn:ES; [apply Same; reflexivity|].
    destruct (bit_head c r BR) as [-> | ->]; cbn [Ascii.eqb c0 c1 Bool.eqb].
    + destruct one as [|v g a b]; [apply Same; reflexivity|].
      destruct (seqb (c1 :: r) (pstring (PNode v g a b)) && is_pleaf (PNode v g a b)).
      * eexists. split; [reflexivity|]. split; [discriminate|]. split; [|intros c H; exact H]. cbn [pshown starts_with]. repeat split; auto.
      * destruct (IH1 (c1 :: r)) as (t' & Et & Nt & Wt & St); auto; [discriminate|]. rewrite Et. cbn [bind].
        eexists. split; [reflexivity|]. split; [discriminate|]. split; [|intros c H; exact H]. cbn [pshown]. repeat split; auto.
    + destruct zero as [|v g a b]; [apply Same; reflexivity|].
      destruct (seqb (c0 :: r) (pstring (PNode v g a b)) && is_pleaf (PNode v g a b)).
      * eexists. split; [reflexivity|]. split; [discriminate|]. split; [|intros c H; exact H]. cbn [pshown starts_with]. repeat split; auto.
      * destruct (IH0 (c0 :: r)) as (t' & Et & Nt & Wt & St); auto; [discriminate|]. rewrite Et. cbn [bind].
        eexists. split; [reflexivity|]. split; [discriminate|]. split; [|intros c H; exact H]. cbn [pshown]. repeat split; auto.
Qed.
Definition change_ok (c : change) : Prop :=
  match c with Subscribe k u => is_bitstring k /\ one_line u | Unsubscribe k => is_bitstring k end.
Lemma op_changes_ok E op : printable_op E op -> Forall change_ok (update_changes E op).
Proof.
  destruct op as [sub|sub]; cbn [printable_op update_changes]; intros P; apply printable_pairs in P;
    unfold pairs_ok in P; rewrite Forall_forall in *; intros c Hc; apply in_map_iff in Hc; destruct Hc as (p & <- & Hp); apply P in Hp; cbn; tauto.
Qed.
Lemma ops_changes_ok E ops : Forall (printable_op E) ops -> Forall change_ok (changes_of E ops).
Proof.
  induction 1 as [|op ops P F IH]; cbn; auto. apply Forall_app. split; auto. apply op_changes_ok; auto.
Qed.
Lemma pchanges_shown cs : forall t, Forall change_ok cs -> t <> PNil -> pshown t ->
  exists t', fold_left pchange cs (Ok t) = Ok t' /\ t' <> PNil /\ pshown t'.
Proof.
  induction cs as [|c cs IH]; intros t F N W; cbn [fold_left]; [eauto|]. inversion F as [|x y C F']; subst.
  destruct c as [k u|k]; cbn [change_ok] in C; cbn [pchange bind].
  - destruct (padd_shown t k u) as (t' & Et & Nt & Wt & _); try tauto. rewrite Et. apply IH; auto.
  - destruct (pdelete_shown t k) as (t' & Et & Nt & Wt & _); try tauto. rewrite Et. apply IH; auto.
Qed.
Lemma patricia_run_shown E sub0 ops : printable E sub0 -> Forall (printable_op E) ops ->
  exists t, patricia_run E sub0 ops = Ok t /\ t <> PNil /\ pshown t.
Proof.
  intros P F. destruct (new_patricia_shown E sub0 P) as (t & Et & N & W). unfold patricia_run. rewrite Et, fold_patricia_update.
  apply pchanges_shown; auto. apply ops_changes_ok; auto.
Qed.

(** *** Splay tree *)
Lemma swf_shown t : forall off pre, swf off t -> (forall k u, In (k, u) (sentries pre t) -> one_line u) -> sshown t.
Proof.
  induction t as [|u fo m IHm mm IHmm]; intros off pre W H; cbn [sshown]; auto.
  cbn [swf] in W. destruct W as (F & B & Wm & Wmm & _). cbn [sentries] in H.
  split; [eauto|]. split; [eapply H; left; reflexivity|]. split.
  - eapply IHm; eauto. intros k v Hk. eapply H. right. apply in_or_app. left. eauto.
  - eapply IHmm; eauto. intros k v Hk. eapply H. right. apply in_or_app. right. eauto.
Qed.
Lemma new_splay_shown E sub : printable E sub -> to_byte_subs E sub <> [] -> exists t, new_splay E sub = Ok t /\ t <> SNil /\ sshown t.
Proof.
  intros P NE. pose proof (printable_pairs E sub P) as PP. destruct P as [K _].
  destruct (new_splay_b_spec (to_byte_subs E sub)) as (t & Et & [I1 I2 I3 I4]); auto using to_byte_subs_flat.
  exists t. split; [exact Et|]. split; auto. apply (swf_shown t 0 []); auto. intros k u H. apply I4 in H.
  unfold pairs_ok in PP. rewrite Forall_forall in PP. apply PP in H. apply H.
Qed.
Lemma sleaf_shown s o u : is_bitstring s -> one_line u -> sshown (sleaf s o u).
Proof. intros B O. cbn [sleaf sshown]. repeat split; auto. eauto. Qed.
Lemma sadd_shown t : forall fs uri, t <> SNil -> sshown t -> is_bitstring fs -> one_line uri ->
  exists t', sadd t fs uri = Ok t' /\ t' <> SNil /\ sshown t'.
Proof.
  induction t as [|u fo m IHm mm IHmm]; intros fs uri N W B O; [congruence|].
  cbn [sshown] in W. destruct W as ((s & o & -> & BS) & OU & Wm & Wmm). cbn [sadd].
  rewrite new_filter_string, new_filter_size, new_filter_offset.
  destruct (has_prefix fs s) eqn:EP; [destruct (seqb fs s) eqn:EQ|].
  - eexists. split; [reflexivity|]. split; [discriminate|]. cbn [sshown]. repeat split; auto. eauto.
  - pose proof (bits_skip (length s) fs B) as BR. destruct m as [|v g a b].
    + eexists. split; [reflexivity|]. split; [discriminate|]. cbn [sshown]. repeat split; auto; eauto.
    + destruct (IHm (skipn (length s) fs) uri) as (t' & Et & Nt & Wt); auto; [discriminate|]. rewrite Et. cbn [bind].
      eexists. split; [reflexivity|]. split; [discriminate|]. cbn [sshown]. repeat split; auto; eauto.
  - destruct mm as [|v g a b].
    + eexists. split; [reflexivity|]. split; [discriminate|]. cbn [sshown]. repeat split; auto; eauto.
    + destruct (IHmm fs uri) as (t' & Et & Nt & Wt); auto; [discriminate|]. rewrite Et. cbn [bind].
      eexists. split; [reflexivity|]. split; [discriminate|]. cbn [sshown]. repeat split; auto; eauto.
Qed.
Lemma sdelete_shown t : forall fs, t <> SNil -> sshown t -> is_bitstring fs ->
  exists t', sdelete t fs = Ok t' /\ t' <> SNil /\ sshown t'.
Proof.
  induction t as [|u fo m IHm mm IHmm]; intros fs N W B; [congruence|]. pose proof W as W'.
  cbn [sshown] in W. destruct W as ((s & o & -> & BS) & OU & Wm & Wmm). cbn [sdelete].
  rewrite new_filter_string, new_filter_size, new_filter_offset.
  assert (forall r, r = Ok (SNode u (Some (new_filter s o)) m mm) -> exists t', r = Ok t' /\ t' <> SNil /\ sshown t') as Same.
  { intros r ->. eexists. split; [reflexivity|]. split; [discriminate|]. auto. }
  destruct (has_prefix fs s) eqn:EP; [destruct (seqb fs s) eqn:EQ|].
  - destruct m as [|mu mf mm' mn].
    + destruct mm as [|nu nf nm nn]; [apply Same; reflexivity|].
      eexists. split; [reflexivity|]. split; [discriminate|]. auto.
    + destruct mn as [|? ? ? ?].
      * cbn [sshown] in Wm. destruct Wm as ((s' & o' & -> & BS') & OU' & Wm' & _). rewrite new_filter_string.
        eexists. split; [reflexivity|]. split; [discriminate|]. cbn [sshown]. repeat split; auto.
        eexists _, _. split; [reflexivity|]. apply is_bitstring_app. auto.
      * eexists. split; [reflexivity|]. split; [discriminate|]. cbn [sshown] in *. repeat split; try tauto; eauto; intros [].
  - pose proof (bits_skip (length s) fs B) as BR. destruct m as [|mu mf ma mb]; [apply Same; reflexivity|].
    pose proof Wm as Wm'. cbn [sshown] in Wm'. destruct Wm' as ((s' & o' & -> & BS') & _).
    destruct (seqb _ _ && snil ma && snil mb).
    + eexists. split; [reflexivity|]. split; [discriminate|]. cbn [sshown]. repeat split; auto; eauto.
    + destruct (IHm (skipn (length s) fs)) as (t' & Et & Nt & Wt); auto; [discriminate|]. rewrite Et. cbn [bind].
      eexists. split; [reflexivity|]. split; [discriminate|]. cbn [sshown]. repeat split; auto; eauto.
  - destruct mm as [|mu mf ma mb]; [apply Same; reflexivity|].
    pose proof Wmm as Wmm'. cbn [sshown] in Wmm'. destruct Wmm' as ((s' & o' & -> & BS') & _).
    destruct (seqb _ _ && snil ma && snil mb).
    + eexists. split; [reflexivity|]. split; [discriminate|]. cbn [sshown]. repeat split; auto; eauto.
    + destruct (IHmm fs) as (t' & Et & Nt & Wt); auto; [discriminate|]. rewrite Et. cbn [bind].
      eexists. split; [reflexivity|]. split; [discriminate|]. cbn [sshown]. repeat split; auto; eauto.
Qed.
Definition tk_shown (x : taken) : Prop :=
  (exists s o, tk_fo x = Some (new_filter s o) /\ is_bitstring s) /\ one_line (tk_uri x) /\ sshown (tk_match x).
Lemma ssearch_shown t : forall p id uris t' ex, sshown t -> ssearch t p id = Ok (uris, t', ex) ->
  sshown t' /\ Forall tk_shown ex /\ (p = false -> t' <> SNil).
Proof.
  induction t as [|u fo m IHm mm IHmm]; intros p id uris t' ex W H; [discriminate H|].
  pose proof W as W'. cbn [sshown] in W. destruct W as ((s & o & -> & BS) & OU & Wm & Wmm). cbn [ssearch] in H.
  destruct (match_filter (new_filter s o) id) as [[|]| |]; cbn [bind] in H; try discriminate H.
  - assert (exists inner m' ex', (match m with SNil => Ok ([], SNil, []) | _ => ssearch m false id end) = Ok (inner, m', ex')
            /\ sshown m' /\ Forall tk_shown ex') as (inner & m' & ex' & E & Wm' & Fx).
    { destruct m as [|v g a b]; [exists [], SNil, []; cbn; auto|].
      destruct (ssearch (SNode v g a b) false id) as [[[i m'] e]| |] eqn:E; cbn [bind] in H; try discriminate H.
      destruct (IHm _ _ _ _ _ Wm E) as (X & Y & _). exists i, m', e. auto. }
    rewrite E in H. cbn [bind] in H. destruct p.
    + injection H as <- <- <-. split; auto. split; [|discriminate]. apply Forall_app. split; auto. constructor; auto.
      unfold tk_shown. cbn. split; eauto.
    + injection H as <- <- <-. split; [cbn [sshown]; split; eauto|]. split; auto. intros _. discriminate.
  - destruct mm as [|v g a b].
    + injection H as <- <- <-. split; auto. split; auto. intros _. discriminate.
    + destruct (ssearch (SNode v g a b) true id) as [[[i m'] e]| |] eqn:E; cbn [bind] in H; try discriminate H.
      injection H as <- <- <-. destruct (IHmm _ _ _ _ _ Wmm E) as (X & Y & _).
      split; [cbn [sshown]; split; eauto|]. split; auto. intros _. discriminate.
Qed.
Lemma splay_root_shown ex : forall t, sshown t -> t <> SNil -> Forall tk_shown ex -> sshown (splay_root t ex) /\ splay_root t ex <> SNil.
Proof.
  unfold splay_root. induction ex as [|x ex IH]; intros t W N F; cbn [fold_left]; auto. inversion F as [|y z (X1 & X2 & X3) F']; subst.
  apply IH; auto; [|discriminate]. cbn [sshown]. auto.
Qed.
Definition event_ok (e : event) : Prop := match e with Read _ => True | Change c => change_ok c end.
Lemma sevents_shown es : forall r t, r <> SNil -> sshown r -> Forall event_ok es -> fold_left sevent es (Ok r) = Ok t -> t <> SNil /\ sshown t.
Proof.
  assert (forall es (r : result stree), (forall t, r <> Ok t) -> forall t, fold_left sevent es r <> Ok t) as Bad.
  { clear. induction es as [|e es IH]; intros r H t; cbn [fold_left]; auto. apply IH. intros t'. destruct r as [a| |]; cbn; try discriminate.
    exfalso. apply (H a). reflexivity. }
  induction es as [|e es IH]; intros r t N W F H; cbn [fold_left] in H; [injection H as <-; auto|]. inversion F as [|x y C F']; subst.
  destruct e as [id|[k u|k]]; cbn [sevent bind event_ok change_ok] in *.
  - destruct (splay_step r id) as [[uris t1]| |] eqn:E; cbn [bind] in H; try (exfalso; revert H; apply Bad; discriminate).
    unfold splay_step in E. destruct (ssearch r false id) as [[[i r'] ex]| |] eqn:ES; cbn [bind] in E; try discriminate E.
    injection E as <- <-. destruct (ssearch_shown _ _ _ _ _ _ W ES) as (X & Y & Z).
    destruct (splay_root_shown ex r' X (Z eq_refl) Y). eapply IH; [| | |exact H]; auto.
  - destruct (sadd_shown r k u) as (t' & Et & Nt & Wt); try tauto. rewrite Et in H. eapply IH; [| | |exact H]; auto.
  - destruct (sdelete_shown r k) as (t' & Et & Nt & Wt); try tauto. rewrite Et in H. eapply IH; [| | |exact H]; auto.
Qed.
Lemma calls_events_ok E cs : Forall (printable_call E) cs -> Forall event_ok (events_of E cs).
Proof.
  induction 1 as [|c cs P F IH]; cbn [events_of flat_map]; auto. apply Forall_app. split; auto.
  destruct c as [id|op]; cbn [call_events printable_call] in *; [repeat constructor|].
  apply op_changes_ok in P. apply Forall_forall. intros e He. apply in_map_iff in He. destruct He as (c & <- & Hc). rewrite Forall_forall in P. apply P; auto.
Qed.
Lemma splay_run_shown E sub0 cs t : to_byte_subs E sub0 <> [] -> printable E sub0 -> Forall (printable_call E) cs ->
  splay_run E sub0 cs = Ok t -> t <> SNil /\ sshown t.
Proof.
  intros NE P F H. destruct (new_splay_shown E sub0 P NE) as (r & Er & N & W). unfold splay_run in H. rewrite Er in H.
  rewrite fold_splay_call in H by discriminate. eapply sevents_shown; [| | |exact H]; auto. apply calls_events_ok; auto.
Qed.
