(** Proofs about filtering/patricia_trie.go. *)
From Verif Require Import GoBase BinUtil MFilter MEngine MTdtCore MSubs MList MPatricia.
From Verif Require Import PBase Spec PFilter PEngine PSubs PList PMatch.
From Coq Require Import Lia Permutation.

Lemma prefix_app_inv1 p a b : prefix_of (p ++ a) (p ++ b) -> prefix_of a b.
Proof. apply prefix_app_inv. Qed.

(** ** Content of a trie *)
(** The subscriptions held by a trie whose root hangs under path [pre], in
    ascending order; nodes with an empty report URI hold none. *)
Fixpoint pentries (pre : gostring) (t : ptree) : prefix_subs :=
  match t with
  | PNil => []
  | PNode u fo one zero =>
      let p := pre ++ fo_string fo in
      (match u with [] => [] | _ => [(p, u)] end) ++ pentries p zero ++ pentries p one
  end.
(** The paths of all nodes. *)
Fixpoint ppaths (pre : gostring) (t : ptree) : list gostring :=
  match t with
  | PNil => []
  | PNode u fo one zero => let p := pre ++ fo_string fo in p :: ppaths p zero ++ ppaths p one
  end.
(** Well-formed tries: filters are relative prefix filters at the right offset,
    children start with their bit. *)
Definition starts_with (c : ascii) (t : ptree) : Prop :=
  match t with PNil => True | PNode _ fo _ _ => exists r, fo_string fo = c :: r end.
Fixpoint pwf (off : nat) (t : ptree) : Prop :=
  match t with
  | PNil => True
  | PNode u fo one zero =>
      fo = new_filter (fo_string fo) off /\ is_bitstring (fo_string fo) /\
      starts_with c1 one /\ starts_with c0 zero /\
      pwf (off + length (fo_string fo)) one /\ pwf (off + length (fo_string fo)) zero
  end.

Lemma new_filter_size s o : fo_size (new_filter s o) = length s.
Proof. unfold new_filter. destruct (make_filter s o) as [[? ?] ?]. reflexivity. Qed.
Lemma new_filter_offset s o : fo_offset (new_filter s o) = o.
Proof. unfold new_filter. destruct (make_filter s o) as [[? ?] ?]. reflexivity. Qed.

Lemma pentries_prefix t pre k u : In (k, u) (pentries pre t) -> prefix_of (pre ++ pstring t) k.
Proof.
  revert pre; induction t as [|u' fo one IH1 zero IH0]; intros pre; cbn; [tauto|].
  rewrite !in_app_iff. intros [H|[H|H]].
  - destruct u'; [destruct H|]. destruct H as [H|[]]. injection H as <- _. apply prefix_refl.
  - apply IH0 in H. eapply prefix_trans; [|apply H]. exists (pstring zero); auto.
  - apply IH1 in H. eapply prefix_trans; [|apply H]. exists (pstring one); auto.
Qed.
Lemma pentries_paths t pre k u : In (k, u) (pentries pre t) -> In k (ppaths pre t).
Proof.
  revert pre; induction t as [|u' fo one IH1 zero IH0]; intros pre; cbn; [tauto|].
  rewrite !in_app_iff. intros [H|[H|H]]; eauto.
  destruct u'; [destruct H|]. destruct H as [H|[]]. injection H as <- _. auto.
Qed.
Lemma ppaths_prefix t pre p : In p (ppaths pre t) -> prefix_of (pre ++ pstring t) p.
Proof.
  revert pre; induction t as [|u' fo one IH1 zero IH0]; intros pre; cbn; [tauto|].
  rewrite !in_app_iff. intros [<-|[H|H]].
  - apply prefix_refl.
  - apply IH0 in H. eapply prefix_trans; [|apply H]. exists (pstring zero); auto.
  - apply IH1 in H. eapply prefix_trans; [|apply H]. exists (pstring one); auto.
Qed.
Lemma starts_with_path c t pre p : starts_with c t -> t <> PNil -> In p (ppaths pre t) -> prefix_of (pre ++ [c]) p.
Proof.
  intros H HN Hp. destruct t as [|u fo one zero]; [congruence|]. apply ppaths_prefix in Hp.
  destruct H as [r H]. cbn in Hp. rewrite H in Hp. eapply prefix_trans; [|apply Hp].
  exists r. rewrite <- app_assoc. reflexivity.
Qed.
Lemma starts_with_entries c t pre k u : starts_with c t -> In (k, u) (pentries pre t) -> prefix_of (pre ++ [c]) k.
Proof.
  intros H Hk. destruct t as [|u' fo one zero]; [destruct Hk|].
  eapply starts_with_path; eauto using pentries_paths. discriminate.
Qed.

Lemma ppaths_bits t pre off p : is_bitstring pre -> pwf off t -> In p (ppaths pre t) -> is_bitstring p.
Proof.
  revert pre off; induction t as [|u' fo one IH1 zero IH0]; intros pre off HB; cbn [pwf ppaths]; [cbn; tauto|].
  intros (_ & HF & _ & _ & W1 & W0). cbn. rewrite in_app_iff.
  assert (is_bitstring (pre ++ fo_string fo)) by (apply is_bitstring_app; auto).
  intros [<-|[H0|H0]]; eauto.
Qed.

(** ** Search *)
Lemma prefix_step p c s : prefix_of (p ++ [c]) s -> nth_error s (length p) = Some c.
Proof.
  intros [r ->]. rewrite <- app_assoc, nth_error_app2 by lia. rewrite Nat.sub_diag. reflexivity.
Qed.
Lemma not_prefix_reported id (a : prefix_subs) p :
  Forall is_bitstring (map fst a) ->
  (forall k u, In (k, u) a -> prefix_of p k) -> ~ prefix_of p (idstr id) -> reported id a [].
Proof.
  intros HB H Hn. apply reported_none. intros k u Hk HP. apply Hn.
  apply id_has_prefix_str in HP.
  - eapply prefix_trans; eauto.
  - rewrite Forall_forall in HB. apply HB. apply in_map with (f := fst) in Hk. auto.
Qed.
Lemma pentries_bits t pre off : is_bitstring pre -> pwf off t -> Forall is_bitstring (map fst (pentries pre t)).
Proof.
  intros HB W. apply Forall_forall. intros k Hk. apply in_map_iff in Hk. destruct Hk as ([k' u] & <- & Hk).
  eapply ppaths_bits; eauto using pentries_paths.
Qed.

Lemma psearch_spec t id : wf_bytes id -> forall pre,
  t <> PNil -> is_bitstring pre -> pwf (length pre) t -> prefix_of pre (idstr id) ->
  (pre = [] \/ pstring t <> []) ->
  (forall p, In p (ppaths pre t) -> ~ runs_out id p) ->
  exists uris, reported id (pentries pre t) uris /\ psearch t id = Ok uris.
Proof.
  intros Hw. induction t as [|u fo one IH1 zero IH0]; intros pre HN HB W HP HE HR; [congruence|].
  pose proof (pentries_bits (PNode u fo one zero) pre _ HB W) as HBE.
  cbn [pwf] in W. destruct W as (HF & HS & S1 & S0 & W1 & W0).
  cbn [ppaths] in HR. cbn [pstring] in HE. cbn [pentries psearch] in *.
  set (s := fo_string fo) in *. set (p := pre ++ s) in *.
  assert (is_bitstring p) as HBp by (apply is_bitstring_app; auto).
  assert (~ runs_out id p) as HRp by (apply HR; cbn; auto).
  rewrite HF. rewrite match_at_path; auto; [|tauto]. fold p. cbn [bind].
  destruct (has_prefix (idstr id) p) eqn:EP.
  2: { exists []. split; auto. apply (not_prefix_reported id _ p); auto.
       - intros k u' Hk. apply (pentries_prefix (PNode u fo one zero) pre k u' Hk).
       - apply has_prefix_false; auto. }
  apply has_prefix_spec in EP.
  rewrite new_filter_offset, new_filter_size.
  replace (length pre + length s) with (length p) in * by (unfold p; rewrite app_length; lia).
  assert (reported id (match u with [] => [] | _ :: _ => [(p, u)] end) (match u with [] => [] | _ :: _ => [u] end)) as HH.
  { destruct u; [constructor|]. apply reported_yes; [|constructor]. apply id_has_prefix_str; auto. }
  assert (forall c t', starts_with c t' -> (c = c0 \/ c = c1) -> pwf (length p) t' ->
            nth_error (idstr id) (length p) <> Some c -> reported id (pentries p t') []) as Hnone.
  { intros c t' HSt Hc Ht Hnth. apply (not_prefix_reported id _ (p ++ [c])).
    - eapply pentries_bits; eauto.
    - intros k u' Hk. eapply starts_with_entries; eauto.
    - intros Hpc. apply Hnth. apply prefix_step; auto. }
  rewrite get_next_bit_spec.
  pose proof (prefix_length _ _ EP) as HL. rewrite idstr_length in HL.
  assert (forall c t', starts_with c t' -> t' <> PNil -> pstring t' <> []) as HSN.
  { intros c t' Hc Ht. destruct t'; [congruence|]. cbn in *. destruct Hc as [r ->]. discriminate. }
  destruct (Nat.ltb_spec (length p) (8 * length id)) as [Hlt|Hge].
  - destruct (nth_error (bits_of_bytes id) (length p)) as [b|] eqn:Eb.
    2: { apply nth_error_None in Eb. rewrite bits_of_bytes_length in Eb. lia. }
    assert (nth_error (idstr id) (length p) = Some (if b then c1 else c0)) as Hnth.
    { unfold idstr, bits_to_str. rewrite nth_error_map, Eb. reflexivity. }
    destruct b.
    + change (Ascii.eqb c1 c1) with true. cbn iota.
      assert (reported id (pentries p zero) []) as H0.
      { apply (Hnone c0); auto. rewrite Hnth. discriminate. }
      destruct one as [|u1 f1 o1 z1] eqn:E1.
      * eexists. split; [|reflexivity]. cbn [bind]. apply reported_app; auto.
        cbn [pentries]. rewrite app_nil_r; auto.
      * destruct (IH1 p) as (us & H1 & H2); auto.
        { discriminate. } { right. eapply HSN; eauto. discriminate. }
        { intros q Hq. apply HR. right. apply in_or_app. auto. }
        rewrite H2. cbn [bind]. eexists. split; [|reflexivity]. apply reported_app; auto.
        change us with ([] ++ us). apply reported_app; auto.
    + change (Ascii.eqb c0 c1) with false. change (Ascii.eqb c0 c0) with true. cbn iota.
      assert (reported id (pentries p one) []) as H0.
      { apply (Hnone c1); auto. rewrite Hnth. discriminate. }
      destruct zero as [|u1 f1 o1 z1] eqn:E1.
      * eexists. split; [|reflexivity]. cbn [bind]. apply reported_app; auto.
      * destruct (IH0 p) as (us & H1 & H2); auto.
        { discriminate. } { right. eapply HSN; eauto. discriminate. }
        { intros q Hq. apply HR. right. apply in_or_app. auto. }
        rewrite H2. cbn [bind]. eexists. split; [|reflexivity]. apply reported_app; auto.
        rewrite <- (app_nil_r us). apply reported_app; auto.
  - assert (length p = 8 * length id) as HE8 by lia. rewrite HE8, Nat.eqb_refl.
    change (Ascii.eqb cx c1) with false. change (Ascii.eqb cx c0) with false. cbn iota. cbn [bind].
    assert (nth_error (idstr id) (length p) = None) as Hnth.
    { apply nth_error_None. rewrite idstr_length. lia. }
    eexists. split; [|reflexivity]. apply reported_app; auto.
    change (@nil gostring) with (@nil gostring ++ []). apply reported_app.
    + apply (Hnone c0); auto. rewrite Hnth. discriminate.
    + apply (Hnone c1); auto. rewrite Hnth. discriminate.
Qed.

(** ** The content is sorted *)
Lemma ssorted_app l r : ssorted l -> ssorted r -> (forall a b, In a l -> In b r -> sltb a b = true) -> ssorted (l ++ r).
Proof.
  induction 1 as [|a l Hs IH Hf]; cbn; intros Hr H; auto. constructor; [apply IH; auto|].
  apply Forall_app. split; auto. apply Forall_forall. intros b Hb. apply H; auto.
Qed.
Lemma prefix_slt p s c : prefix_of (p ++ [c]) s -> sltb p s = true.
Proof.
  intros [r ->]. rewrite <- app_assoc. cbn. rewrite <- (app_nil_r p) at 1. rewrite sltb_app. reflexivity.
Qed.
Lemma prefix_slt01 p a b : prefix_of (p ++ [c0]) a -> prefix_of (p ++ [c1]) b -> sltb a b = true.
Proof.
  intros [r ->] [r' ->]. rewrite <- !app_assoc, sltb_app. reflexivity.
Qed.
Lemma pentries_sorted t pre off : pwf off t -> ssorted (map fst (pentries pre t)).
Proof.
  revert pre off; induction t as [|u fo one IH1 zero IH0]; intros pre off; [constructor|].
  cbn [pwf pentries]. intros (_ & _ & S1 & S0 & W1 & W0).
  set (p := pre ++ fo_string fo). rewrite !map_app.
  assert (forall c t' k, starts_with c t' -> In k (map fst (pentries p t')) -> prefix_of (p ++ [c]) k) as HK.
  { intros c t' k Hc Hk. apply in_map_iff in Hk. destruct Hk as ([k' u'] & <- & Hk).
    eapply starts_with_entries; eauto. }
  apply ssorted_app; [|apply ssorted_app; eauto|].
  - destruct u; repeat constructor.
  - intros a b Ha Hb. eapply prefix_slt01; eauto.
  - intros a b Ha Hb. destruct u; [destruct Ha|]. destruct Ha as [<-|[]]. cbn.
    apply in_app_or in Hb. destruct Hb; eapply prefix_slt; eauto.
Qed.

(** ** Lookup *)
Fixpoint pget (t : ptree) (k : gostring) : option gostring :=
  match t with
  | PNil => None
  | PNode u fo one zero =>
      if has_prefix k (fo_string fo) then
        match skipn (length (fo_string fo)) k with
        | [] => match u with [] => None | _ => Some u end
        | c :: r => if Ascii.eqb c c1 then pget one (c :: r)
                    else if Ascii.eqb c c0 then pget zero (c :: r) else None
        end
      else None
  end.
Lemma mget_app {V} k (a b : smap V) :
  mget k (a ++ b) = match mget k a with Some v => Some v | None => mget k b end.
Proof.
  induction a as [|[k' v] a IH]; cbn; auto. destruct (seqb k k'); auto.
Qed.
Lemma mget_none {V} k (a : smap V) : (forall v, ~ In (k, v) a) -> mget k a = None.
Proof.
  intros H. destruct (mget k a) as [v|] eqn:E; auto. apply mget_In in E. exfalso. eapply H; eauto.
Qed.
Lemma skipn_app_l {A} (a b : list A) : skipn (length a) (a ++ b) = b.
Proof. rewrite skipn_app, skipn_all, Nat.sub_diag. reflexivity. Qed.

Lemma mget_pentries t pre off k : pwf off t ->
  mget (pre ++ k) (pentries pre t) = pget t k.
Proof.
  revert pre off k; induction t as [|u fo one IH1 zero IH0]; intros pre off k W; cbn [pentries pget]; auto.
  cbn [pwf] in W. destruct W as (HF & HS & S1 & S0 & W1 & W0).
  set (s := fo_string fo) in *. set (p := pre ++ s).
  destruct (has_prefix k s) eqn:EP.
  2: { apply has_prefix_false in EP. apply mget_none. intros v Hv.
       apply (pentries_prefix (PNode u fo one zero) pre) in Hv. cbn in Hv. fold s in Hv.
       apply EP. apply prefix_app_inv1 in Hv. auto. }
  apply has_prefix_spec in EP. destruct EP as [r ->]. rewrite skipn_app_l.
  rewrite app_assoc. fold p. rewrite !mget_app.
  assert (forall c t', starts_with c t' -> (forall r', r <> c :: r') -> mget (p ++ r) (pentries p t') = None) as HN.
  { intros c t' Hc Hr. apply mget_none. intros v Hv. apply starts_with_entries with (c := c) in Hv; auto.
    apply prefix_app_inv1 in Hv. destruct Hv as [r' Hv]. apply (Hr r'). exact Hv. }
  destruct r as [|c r].
  - rewrite (HN c0 zero), (HN c1 one) by (auto; discriminate).
    destruct u as [|a u]; cbn [mget]; auto. rewrite app_nil_r, seqb_refl. auto.
  - assert (seqb (p ++ c :: r) p = false) as Hs.
    { destruct (seqb_spec (p ++ c :: r) p) as [Hx|]; auto. exfalso.
      apply (f_equal (@length ascii)) in Hx. rewrite app_length in Hx. cbn in Hx. lia. }
    assert (match mget (p ++ c :: r) (pentries p zero) with
            | Some v => Some v | None => mget (p ++ c :: r) (pentries p one) end
            = (if Ascii.eqb c c1 then pget one (c :: r)
               else if Ascii.eqb c c0 then pget zero (c :: r) else None)) as Hr.
    { destruct (Ascii.eqb_spec c c1) as [->|Hc1].
      + rewrite (HN c0 zero) by (auto; discriminate). eauto.
      + destruct (Ascii.eqb_spec c c0) as [->|Hc0].
        * rewrite (HN c1 one) by (auto; discriminate). rewrite (IH0 p _ _ W0). destruct (pget zero _); auto.
        * rewrite (HN c0 zero), (HN c1 one) by (auto; congruence). auto. }
    destruct u; cbn [mget]; [|rewrite Hs]; exact Hr.
Qed.

(** ** Building *)
Lemma branch_spec c prefix keys : let br := branch c prefix keys in
  let K := fun k => In k keys /\ prefix_of (prefix ++ [c]) k in
  (br = [] -> forall k, ~ K k) /\
  (br <> [] -> (exists r, br = c :: r) /\ (forall k, K k -> prefix_of (prefix ++ br) k) /\ (exists k, K k)).
Proof.
  unfold branch.
  assert (forall acc P,
    (acc = [] -> forall k, ~ P k) ->
    (acc <> [] -> (exists r, acc = c :: r) /\ (forall k, P k -> prefix_of (prefix ++ acc) k) /\ (exists k, P k)) ->
    (forall k, P k -> prefix_of (prefix ++ [c]) k) ->
    let br := fold_left (branch_step c prefix) keys acc in
    let K := fun k => P k \/ (In k keys /\ prefix_of (prefix ++ [c]) k) in
    (br = [] -> forall k, ~ K k) /\
    (br <> [] -> (exists r, br = c :: r) /\ (forall k, K k -> prefix_of (prefix ++ br) k) /\ (exists k, K k))) as HG.
  { induction keys as [|fk keys IH]; intros acc P HP1 HP2 HP3; cbn [fold_left].
    - split.
      + intros H k [Hk|[[] _]]. eapply HP1; eauto.
      + intros H. destruct (HP2 H) as (Ha & Hb & k & Hk). repeat split; eauto.
        intros k' [Hk'|[[] _]]; auto.
    - set (P' := fun k => P k \/ (k = fk /\ prefix_of (prefix ++ [c]) fk)).
      assert (branch_step c prefix acc fk =
              if has_prefix fk (prefix ++ [c]) then
                match acc with [] => skipn (length prefix) fk | _ => lcp [skipn (length prefix) fk; acc] end
              else acc) as HS.
      { unfold branch_step. destruct (has_prefix fk (prefix ++ [c])) eqn:E.
        - apply has_prefix_spec in E. destruct E as [r ->]. rewrite <- app_assoc. cbn [app].
          rewrite !app_length. cbn [length].
          destruct (Nat.ltb_spec (length prefix + S (length r)) (length prefix)); [lia|].
          rewrite has_prefix_app, skipn_app_l. cbn [negb].
          replace (has_prefix (c :: r) [c]) with true; auto.
          symmetry. apply has_prefix_spec. exists r; auto.
        - apply has_prefix_false in E.
          destruct (Nat.ltb_spec (length fk) (length prefix)); auto.
          destruct (has_prefix fk prefix) eqn:E2; cbn [negb]; auto.
          apply has_prefix_spec in E2. destruct E2 as [r ->]. rewrite skipn_app_l.
          destruct r as [|x r]; auto.
          destruct (has_prefix (x :: r) [c]) eqn:E3; auto.
          apply has_prefix_spec in E3. destruct E3 as [r' E3]. exfalso. apply E.
          exists r'. rewrite <- app_assoc, E3. reflexivity. }
      specialize (IH (branch_step c prefix acc fk) P').
      assert (forall k, P' k -> prefix_of (prefix ++ [c]) k) as H3.
      { intros k [Hk|[-> Hk]]; auto. }
      assert ((branch_step c prefix acc fk = [] -> forall k, ~ P' k) /\
        (branch_step c prefix acc fk <> [] -> (exists r, branch_step c prefix acc fk = c :: r) /\
           (forall k, P' k -> prefix_of (prefix ++ branch_step c prefix acc fk) k) /\ (exists k, P' k))) as [H1 H2].
      { rewrite HS. destruct (has_prefix fk (prefix ++ [c])) eqn:E.
        - apply has_prefix_spec in E. destruct E as [r Er]. rewrite <- app_assoc in Er. cbn in Er.
          assert (skipn (length prefix) fk = c :: r) as Hsk by (rewrite Er; apply skipn_app_l).
          rewrite Hsk.
          destruct acc as [|x acc].
          + split; [discriminate|]. intros _. split; [eauto|]. split.
            * intros k [Hk|[-> _]]; [exfalso; eapply HP1; eauto|]. rewrite Er. apply prefix_refl.
            * exists fk. right. split; auto. exists r. rewrite Er, <- app_assoc. reflexivity.
          + destruct (HP2 ltac:(discriminate)) as ((r' & Hr') & Ha & k0 & Hk0). injection Hr' as -> ->.
            set (L := lcp [c :: r; c :: r']).
            assert (prefix_of [c] L) as HL.
            { apply lcp_greatest; [discriminate|]. intros s [<-|[<-|[]]]; [exists r|exists r']; auto. }
            assert (prefix_of L (c :: r)) as HL1 by (apply lcp_prefix; cbn; auto).
            assert (prefix_of L (c :: r')) as HL2 by (apply lcp_prefix; cbn; auto).
            destruct HL as [rL HL]. change ([c] ++ rL) with (c :: rL) in HL.
            split; [rewrite HL; discriminate|]. intros _. split; [eauto|]. split.
            * intros k [Hk|[-> _]].
              -- eapply prefix_trans; [|apply Ha; eauto]. apply prefix_app_inv; auto.
              -- rewrite Er. apply prefix_app_inv; auto.
            * exists k0. left; auto.
        - apply has_prefix_false in E. split.
          + intros Hacc k [Hk|[-> Hk]]; auto. eapply HP1; eauto.
          + intros Hacc. destruct (HP2 Hacc) as (Ha & Hb & k0 & Hk0). repeat split; auto.
            * intros k [Hk|[-> Hk]]; auto. contradiction.
            * exists k0; left; auto. }
      specialize (IH H1 H2 H3). cbn zeta in IH |- *. destruct IH as [I1 I2].
      assert (forall k, (P' k \/ In k keys /\ prefix_of (prefix ++ [c]) k) <->
                        (P k \/ In k (fk :: keys) /\ prefix_of (prefix ++ [c]) k)) as HEq.
      { intros k. unfold P'. cbn. split; intros; intuition (subst; auto). }
      split.
      + intros Hb k Hk. apply (I1 Hb k). apply HEq; auto.
      + intros Hb. destruct (I2 Hb) as (Ha & Hc & k0 & Hk0). repeat split; auto.
        * intros k Hk. apply Hc. apply HEq; auto.
        * exists k0. apply HEq; auto. }
  specialize (HG [] (fun _ => False)). cbn zeta in *.
  destruct HG as [G1 G2]; [tauto|tauto|tauto|].
  split.
  - intros H k Hk. apply (G1 H k). auto.
  - intros H. destruct (G2 H) as (Ha & Hb & k & [[]|Hk]). repeat split; eauto.
Qed.

Lemma bsub_keys_wf (b : bsubs) : wf_map b -> bsub_keys b = mkeys b.
Proof. apply wf_keys. Qed.
Lemma max_length_le k l : In k l -> length k <= max_length l.
Proof.
  induction l as [|a l IH]; cbn [In max_length fold_right]; [tauto|].
  intros [->|H]; [apply Nat.le_max_l|]. apply IH in H. unfold max_length in H.
  etransitivity; [apply H|apply Nat.le_max_r].
Qed.

(** What a child hanging under [prefix] must contain. *)
Definition holds (b : bsubs) (prefix : gostring) (t : ptree) (c : ascii) : Prop :=
  starts_with c t /\ pwf (length prefix) t /\
  (forall r, pget t (c :: r) = match mget (prefix ++ c :: r) b with
                               | Some p => match ps_uri p with [] => None | u => Some u end
                               | None => None end) /\
  (forall q, In q (ppaths prefix t) -> exists k, In k (mkeys b) /\ prefix_of q k).

Definition pchild (fuel : nat) (prefix : gostring) (b : bsubs) (c : ascii) : option ptree :=
  match branch c prefix (bsub_keys b) with
  | [] => Some PNil
  | br => match pbuild fuel (prefix ++ br) b with
          | Some (o, z) => Some (PNode (uri_at b (prefix ++ br)) (new_filter br (length prefix)) o z)
          | None => None
          end
  end.
Lemma pbuild_S fuel prefix b : pbuild (S fuel) prefix b =
  match pchild fuel prefix b c1, pchild fuel prefix b c0 with
  | Some o, Some z => Some (o, z)
  | _, _ => None
  end.
Proof. reflexivity. Qed.
Lemma pbuild_child b c fuel prefix : wf_map b -> Forall is_bitstring (mkeys b) ->
  is_bitstring prefix -> max_length (mkeys b) <= fuel + length prefix -> (c = c0 \/ c = c1) ->
  (forall prefix', is_bitstring prefix' -> length prefix < length prefix' ->
     length prefix' <= max_length (mkeys b) ->
     exists o z, pbuild fuel prefix' b = Some (o, z) /\ holds b prefix' o c1 /\ holds b prefix' z c0) ->
  exists t, pchild fuel prefix b c = Some t /\ holds b prefix t c.
Proof.
  intros W HB HP HF Hc IH. unfold pchild. rewrite bsub_keys_wf by auto.
  pose proof (branch_spec c prefix (mkeys b)) as [B1 B2].
  set (br := branch c prefix (mkeys b)) in *.
  destruct br as [|x br'] eqn:Ebr.
  - exists PNil. split; auto. repeat split; try (cbn; tauto).
    intros r. cbn [pget]. destruct (mget (prefix ++ c :: r) b) as [p|] eqn:Em; auto.
    exfalso. eapply (B1 eq_refl (prefix ++ c :: r)). split.
    + apply mget_In in Em. apply in_map with (f := fst) in Em. auto.
    + exists r. rewrite <- app_assoc. reflexivity.
  - destruct B2 as ((r0 & Hr0) & Hall & k0 & Hk0 & Hk0p); [discriminate|]. injection Hr0 as -> ->.
    rewrite <- Ebr in *. clear B1.
    pose proof (Hall k0 (conj Hk0 Hk0p)) as Hk0b.
    assert (is_bitstring (prefix ++ br)) as HBB.
    { rewrite Forall_forall in HB. destruct Hk0b as [t Ht]. specialize (HB _ Hk0). rewrite Ht in HB.
      apply is_bitstring_app in HB. apply HB. }
    destruct (IH (prefix ++ br)) as (o & z & E & H1 & H0); auto.
    { rewrite app_length, Ebr. cbn. lia. }
    { apply prefix_length in Hk0b. pose proof (max_length_le _ _ Hk0). lia. }
    cbn zeta. rewrite E. eexists. split; [reflexivity|].
    destruct H1 as (S1 & W1 & G1 & N1), H0 as (S0 & W0 & G0 & N0).
    rewrite app_length in W1, W0.
    repeat split.
    + cbn. rewrite new_filter_string. exists r0; auto.
    + rewrite new_filter_string. auto.
    + rewrite new_filter_string. apply is_bitstring_app in HBB. apply HBB.
    + auto.
    + auto.
    + rewrite new_filter_string. auto.
    + rewrite new_filter_string. auto.
    + intros r. cbn [pget]. rewrite new_filter_string.
      destruct (has_prefix (c :: r) br) eqn:EP.
      * apply has_prefix_spec in EP. destruct EP as [t Ht]. rewrite Ht, skipn_app_l, app_assoc.
        destruct t as [|x t].
        -- rewrite app_nil_r. unfold uri_at. destruct (mget (prefix ++ br) b) as [p|]; [destruct (ps_uri p)|]; auto.
        -- destruct (Ascii.eqb_spec x c1) as [->|Hx1]; [apply G1|].
           destruct (Ascii.eqb_spec x c0) as [->|Hx0]; [apply G0|].
           destruct (mget ((prefix ++ br) ++ x :: t) b) as [p|] eqn:Em; auto.
           exfalso. apply mget_In in Em. apply in_map with (f := fst) in Em. cbn in Em.
           rewrite Forall_forall in HB. specialize (HB _ Em). apply is_bitstring_app in HB.
           destruct HB as [_ HB]. apply Forall_inv in HB. destruct HB; [apply Hx0|apply Hx1]; assumption.
      * apply has_prefix_false in EP.
        destruct (mget (prefix ++ c :: r) b) as [p|] eqn:Em; auto.
        exfalso. apply EP. apply mget_In in Em. apply in_map with (f := fst) in Em. cbn in Em.
        assert (prefix_of (prefix ++ br) (prefix ++ c :: r)) as Hx.
        { apply Hall. split; auto. exists r. rewrite <- app_assoc; reflexivity. }
        apply prefix_app_inv1 in Hx. auto.
    + intros q. cbn [ppaths]. rewrite new_filter_string. cbn. rewrite in_app_iff.
      intros [<-|[Hq|Hq]]; eauto.
Qed.
Lemma pbuild_spec b : wf_map b -> Forall is_bitstring (mkeys b) ->
  forall fuel prefix, max_length (mkeys b) <= fuel + length prefix -> is_bitstring prefix ->
  exists o z, pbuild (S fuel) prefix b = Some (o, z) /\ holds b prefix o c1 /\ holds b prefix z c0.
Proof.
  intros W HB. induction fuel as [|fuel IH]; intros prefix HF HP.
  - destruct (pbuild_child b c1 0 prefix) as (o & Eo & Ho); auto. { intros. lia. }
    destruct (pbuild_child b c0 0 prefix) as (z & Ez & Hz); auto. { intros. lia. }
    exists o, z. rewrite pbuild_S, Eo, Ez. auto.
  - assert (forall prefix', is_bitstring prefix' -> length prefix < length prefix' ->
      length prefix' <= max_length (mkeys b) ->
      exists o z, pbuild (S fuel) prefix' b = Some (o, z) /\ holds b prefix' o c1 /\ holds b prefix' z c0) as HIH.
    { intros prefix' Hb Hl Hm. apply IH; auto. lia. }
    destruct (pbuild_child b c1 (S fuel) prefix) as (o & Eo & Ho); auto.
    destruct (pbuild_child b c0 (S fuel) prefix) as (z & Ez & Hz); auto.
    exists o, z. rewrite pbuild_S, Eo, Ez. auto.
Qed.

(** The keys and URIs that a fresh trie can report: all but the common prefix. *)
Definition patricia_content (b : bsubs) : prefix_subs :=
  filter (fun p => negb (seqb (fst p) (lcp (mkeys b))) && negb (seqb (snd p) [])) (entries b).

Lemma lcp_keys_prefix (b : bsubs) k : In k (mkeys b) -> prefix_of (lcp (mkeys b)) k.
Proof. apply lcp_prefix. Qed.
Lemma lcp_bits l : Forall is_bitstring l -> is_bitstring (lcp l).
Proof.
  destruct l as [|x l]; [constructor|]. intros H. inversion H; subst.
  destruct (lcp_prefix (x :: l) x) as [r Hr]; [cbn; auto|]. rewrite Hr in H2.
  apply is_bitstring_app in H2. apply H2.
Qed.

Lemma new_patricia_b_spec b : flat b -> Forall is_bitstring (mkeys b) ->
  exists t, new_patricia_b b = Some t /\ t <> PNil /\ pwf 0 t /\
    (forall k, pget t k = mget k (patricia_content b)) /\
    pentries [] t = patricia_content b /\
    pstring t = lcp (mkeys b) /\
    (forall q, In q (ppaths [] t) -> q = [] \/ exists k, In k (mkeys b) /\ prefix_of q k).
Proof.
  intros [W F] HB. unfold new_patricia_b. rewrite bsub_keys_wf by auto.
  set (p1 := lcp (mkeys b)).
  assert (is_bitstring p1) as HP by (apply lcp_bits; auto).
  destruct (pbuild_spec b W HB (max_length (mkeys b)) p1) as (o & z & E & H1 & H0); [lia|auto|].
  rewrite E. eexists. split; [reflexivity|]. split; [discriminate|].
  destruct H1 as (S1 & W1 & G1 & N1), H0 as (S0 & W0 & G0 & N0).
  assert (pwf 0 (PNode [] (new_filter p1 0) o z)) as HW.
  { cbn [pwf]. rewrite !new_filter_string. cbn [Nat.add]. auto 10. }
  split; [exact HW|].
  assert (forall k u, mget k (patricia_content b) = Some u <->
    mget k b = Some (PSub 0 u []) /\ k <> p1 /\ u <> []) as HC.
  { intros k u. unfold patricia_content. fold p1.
    assert (wf_map (filter (fun p => negb (seqb (fst p) p1) && negb (seqb (snd p) [])) (entries b))) as HWf.
    { unfold wf_map, mkeys. unfold wf_map in W. rewrite <- entries_keys in W.
      revert W. generalize (entries b). clear. intros l; induction l as [|[k u] l IH]; cbn; intros W; [constructor|].
      inversion W as [|? ? Hs Hf]; subst.
      destruct (negb (seqb k p1) && negb (seqb u [])); [|apply IH; auto]. cbn. constructor; [apply IH; auto|].
      rewrite Forall_forall in *. intros y Hy. apply Hf. apply in_map_iff in Hy.
      destruct Hy as (q & <- & Hq). apply filter_In in Hq. apply in_map. apply Hq. }
    assert (mget k (filter (fun p => negb (seqb (fst p) p1) && negb (seqb (snd p) [])) (entries b)) = Some u <->
            In (k, u) (filter (fun p => negb (seqb (fst p) p1) && negb (seqb (snd p) [])) (entries b))) as ->.
    { split; [apply mget_In|apply In_mget; auto]. }
    rewrite filter_In, entries_In by (split; auto). cbn [fst snd].
    rewrite andb_true_iff, !negb_true_iff.
    destruct (seqb_spec k p1), (seqb_spec u []); intuition congruence. }
  assert (forall k, pget (PNode [] (new_filter p1 0) o z) k = mget k (patricia_content b)) as HG.
  { intros k. cbn [pget]. rewrite new_filter_string.
    assert (forall x, mget k b = Some x -> x = PSub 0 (ps_uri x) []) as HFl.
    { intros x Hx. apply mget_In in Hx. rewrite Forall_forall in F. apply (flat_entry_eq k), (F _ Hx). }
    assert (forall u, (match mget k b with
              | Some p => match ps_uri p with [] => None | u => Some u end | None => None end = Some u
              <-> mget k b = Some (PSub 0 u []) /\ u <> [])) as HM.
    { intros u. destruct (mget k b) as [x|] eqn:Ex; [|intuition congruence].
      rewrite (HFl x eq_refl). cbn. destruct (ps_uri x) eqn:Eu; intuition congruence. }
    assert (forall (x y : option gostring), (forall u, x = Some u <-> y = Some u) -> x = y) as Hext.
    { intros [x|] [y|] Hxy; auto; [destruct (Hxy x) as [H _]; rewrite H; auto| |];
        [destruct (Hxy x) as [H _]; discriminate (H eq_refl)|destruct (Hxy y) as [_ H]; discriminate (H eq_refl)]. }
    apply Hext. intros u. rewrite HC.
    destruct (has_prefix k p1) eqn:EP.
    - apply has_prefix_spec in EP. destruct EP as [r ->]. rewrite skipn_app_l.
      destruct r as [|c r].
      + rewrite app_nil_r. split; [discriminate|]. intros (_ & H & _). congruence.
      + assert (p1 ++ c :: r <> p1).
        { intros Hx. apply (f_equal (@length ascii)) in Hx. rewrite app_length in Hx. cbn in Hx. lia. }
        destruct (Ascii.eqb_spec c c1) as [->|Hc1]; [rewrite G1, HM; tauto|].
        destruct (Ascii.eqb_spec c c0) as [->|Hc0]; [rewrite G0, HM; tauto|].
        split; [discriminate|]. intros (Hm & _). exfalso.
        apply mget_In in Hm. apply in_map with (f := fst) in Hm. cbn in Hm.
        rewrite Forall_forall in HB. specialize (HB _ Hm). apply is_bitstring_app in HB.
        destruct HB as [_ HB]. apply Forall_inv in HB. destruct HB; [apply Hc0|apply Hc1]; assumption.
    - apply has_prefix_false in EP. split; [discriminate|]. intros (Hm & _). exfalso.
      apply EP. apply lcp_keys_prefix. apply mget_In in Hm. apply in_map with (f := fst) in Hm. auto. }
  split; [exact HG|].
  assert (forall a a' : prefix_subs, ssorted (map fst a) -> ssorted (map fst a') ->
    (forall k, mget k a = mget k a') -> a = a') as Hext.
  { intros a a' Ha Ha' H. apply (wf_map_ext a a'); auto. }
  split; [|split].
  - apply Hext.
    + eapply pentries_sorted; eauto.
    + unfold patricia_content. unfold wf_map in W. rewrite <- entries_keys in W.
      revert W. generalize (entries b). clear. intros l; induction l as [|[k u] l IH]; cbn; intros W; [constructor|].
      inversion W as [|? ? Hs Hf]; subst.
      destruct (negb (seqb k _) && negb (seqb u [])); [|apply IH; auto]. cbn. constructor; [apply IH; auto|].
      rewrite Forall_forall in *. intros y Hy. apply Hf. apply in_map_iff in Hy.
      destruct Hy as (q & <- & Hq). apply filter_In in Hq. apply in_map. apply Hq.
    + intros k. rewrite <- HG. rewrite <- (mget_pentries _ [] 0 k HW). reflexivity.
  - cbn. apply new_filter_string.
  - intros q. cbn [ppaths]. rewrite new_filter_string. cbn. rewrite in_app_iff.
    intros [<-|[Hq|Hq]]; eauto.
    destruct (mkeys b) as [|k0 ks] eqn:EK; [left; reflexivity|].
    right. exists k0. split; [cbn; auto|]. apply lcp_prefix. cbn; auto.
Qed.

(** ** Adding *)
(** [fs] does not end strictly inside the text of an edge. *)
Fixpoint add_safe (t : ptree) (fs : gostring) : bool :=
  match t with
  | PNil => true
  | PNode u fo one zero =>
      if has_prefix fs (fo_string fo) then
        match skipn (length (fo_string fo)) fs with
        | [] => true
        | c :: r => if Ascii.eqb c c1 then add_safe one (c :: r) else add_safe zero (c :: r)
        end
      else negb (has_prefix (fo_string fo) fs)
  end.

Definition phere (u : gostring) : option gostring := match u with [] => None | _ => Some u end.
Lemma pget_at u fo one zero y : pget (PNode u fo one zero) (fo_string fo ++ y) =
  match y with
  | [] => phere u
  | c :: r => if Ascii.eqb c c1 then pget one (c :: r)
              else if Ascii.eqb c c0 then pget zero (c :: r) else None
  end.
Proof. cbn [pget]. rewrite has_prefix_app, skipn_app_l. reflexivity. Qed.
Lemma pget_not u fo one zero k : ~ prefix_of (fo_string fo) k -> pget (PNode u fo one zero) k = None.
Proof. intros H. cbn [pget]. apply has_prefix_false in H. rewrite H. reflexivity. Qed.
Lemma pget_leaf s o uri k : uri <> [] -> pget (pleaf s o uri) k = if seqb k s then Some uri else None.
Proof.
  intros Hu. unfold pleaf. destruct (has_prefix k s) eqn:E.
  - apply has_prefix_spec in E. destruct E as [y ->].
    pose proof (pget_at uri (new_filter s o) PNil PNil y) as H. rewrite new_filter_string in H. rewrite H.
    destruct y as [|c r].
    + rewrite app_nil_r, seqb_refl. destruct uri; [congruence|reflexivity].
    + destruct (seqb_spec (s ++ c :: r) s) as [Hx|].
      * apply (f_equal (@length ascii)) in Hx. rewrite app_length in Hx. cbn in Hx. lia.
      * cbn. destruct (Ascii.eqb c c1), (Ascii.eqb c c0); reflexivity.
  - apply has_prefix_false in E. rewrite pget_not by (rewrite new_filter_string; auto).
    destruct (seqb_spec k s); auto. subst. exfalso. apply E, prefix_refl.
Qed.
Lemma bit_cases c r : is_bitstring (c :: r) -> c = c0 \/ c = c1.
Proof. intros H. apply Forall_inv in H. exact H. Qed.
Lemma seqb_app p a b : seqb (p ++ a) (p ++ b) = seqb a b.
Proof.
  destruct (seqb_spec a b) as [->|H]; [apply seqb_refl|]. apply seqb_neq. intros E.
  apply app_inv_head in E. congruence.
Qed.
Lemma starts_with_get c t k : starts_with c t -> (forall r, k <> c :: r) -> pget t k = None.
Proof.
  intros H Hk. destruct t as [|u fo one zero]; auto. destruct H as [r Hr]. apply pget_not.
  rewrite Hr. intros [r' E]. apply (Hk (r ++ r')). auto.
Qed.

(** The filter text differs from [fs] at some bit inside both. *)
Lemma split_point fs s : is_bitstring fs -> is_bitstring s -> ~ prefix_of s fs -> ~ prefix_of fs s ->
  let ncp := lcp [fs; s] in
  exists c c' r r', fs = ncp ++ c :: r /\ s = ncp ++ c' :: r' /\
    ((c = c0 /\ c' = c1) \/ (c = c1 /\ c' = c0)).
Proof.
  intros HF HS H1 H2 ncp.
  assert (prefix_of ncp fs) as [a Ha] by (apply lcp_prefix; cbn; auto).
  assert (prefix_of ncp s) as [b Hb] by (apply lcp_prefix; cbn; auto).
  destruct a as [|c r].
  { exfalso. apply H2. exists b. rewrite Ha, app_nil_r. auto. }
  destruct b as [|c' r'].
  { exfalso. apply H1. exists (c :: r). rewrite Hb, app_nil_r. auto. }
  exists c, c', r, r'. split; auto. split; auto.
  assert (c <> c') as Hn.
  { intros <-. assert (prefix_of (ncp ++ [c]) ncp) as Hx.
    { apply lcp_greatest; [discriminate|]. intros x [<-|[<-|[]]].
      - exists r. rewrite <- app_assoc. auto.
      - exists r'. rewrite <- app_assoc. auto. }
    apply prefix_length in Hx. rewrite app_length in Hx. cbn [length] in Hx. lia. }
  rewrite Ha in HF. rewrite Hb in HS. apply is_bitstring_app in HF, HS.
  destruct HF as [_ HF], HS as [_ HS]. apply bit_cases in HF, HS. intuition congruence.
Qed.

Definition map_add (g : gostring -> option gostring) (fs uri : gostring) (k : gostring) : option gostring :=
  if seqb k fs then Some uri else g k.

Lemma padd_spec t : forall fs uri off, t <> PNil -> pwf off t -> is_bitstring fs -> uri <> [] -> add_safe t fs = true ->
  exists t', padd t fs uri = Ok t' /\ t' <> PNil /\ pwf off t' /\
    (forall k, pget t' k = if seqb k fs then Some uri else pget t k) /\
    (forall c r, fs = c :: r -> starts_with c t -> starts_with c t') /\
    (forall pre q, In q (ppaths pre t') -> In q (ppaths pre t) \/ prefix_of q (pre ++ fs)).
Proof.
  induction t as [|u fo one IH1 zero IH0]; intros fs uri off HN W HB Hu HA; [congruence|].
  cbn [pwf] in W. destruct W as (HF & HS & S1 & S0 & W1 & W0). cbn [add_safe] in HA. cbn [padd].
  assert (fo_size fo = length (fo_string fo)) as HSz by (rewrite HF at 1; apply new_filter_size).
  assert (fo_offset fo = off) as HOf by (rewrite HF at 1; apply new_filter_offset).
  rewrite HSz, HOf.
  destruct (has_prefix fs (fo_string fo)) eqn:EP.
  - apply has_prefix_spec in EP. destruct EP as [y Hy]. subst fs. rewrite skipn_app_l in HA |- *.
    destruct (seqb_spec (fo_string fo ++ y) (fo_string fo)) as [Hx|Hx].
    + assert (y = []) as ->.
      { rewrite <- (app_nil_r (fo_string fo)) in Hx at 2. apply app_inv_head in Hx. auto. }
      eexists. split; [reflexivity|]. split; [discriminate|]. split; [cbn [pwf]; auto 10|].
      split; [|split].
      * intros k. destruct (has_prefix k (fo_string fo)) eqn:EK.
        -- apply has_prefix_spec in EK. destruct EK as [z ->]. rewrite !pget_at, seqb_app.
           destruct z; [destruct uri; [congruence|reflexivity]|reflexivity].
        -- apply has_prefix_false in EK. rewrite !pget_not by auto. rewrite app_nil_r.
           destruct (seqb_spec k (fo_string fo)); auto. subst. exfalso. apply EK, prefix_refl.
      * intros c r _ H. exact H.
      * intros pre q Hq. left. exact Hq.
    + destruct y as [|c r]; [rewrite app_nil_r in Hx; congruence|].
      apply is_bitstring_app in HB. destruct HB as [HBs HBy].
      (* the child that takes the remainder *)
      assert (forall (child : ptree), pwf (off + length (fo_string fo)) child -> starts_with c child ->
        add_safe child (c :: r) = true ->
        (child <> PNil -> exists t', padd child (c :: r) uri = Ok t' /\ t' <> PNil /\ pwf (off + length (fo_string fo)) t' /\
          (forall k, pget t' k = if seqb k (c :: r) then Some uri else pget child k) /\
          (forall c' r', c :: r = c' :: r' -> starts_with c' child -> starts_with c' t') /\
          (forall pre q, In q (ppaths pre t') -> In q (ppaths pre child) \/ prefix_of q (pre ++ c :: r))) ->
        exists t', match child with
                   | PNil => Ok (pleaf (c :: r) (off + length (fo_string fo)) uri)
                   | _ => padd child (c :: r) uri end = Ok t' /\
          pwf (off + length (fo_string fo)) t' /\ starts_with c t' /\ t' <> PNil /\
          (forall k, pget t' k = if seqb k (c :: r) then Some uri else pget child k) /\
          (forall pre q, In q (ppaths pre t') -> In q (ppaths pre child) \/ prefix_of q (pre ++ c :: r))) as HC.
      { intros child Wc Sc Ac IHc. destruct child as [|u1 f1 o1 z1].
        - eexists. split; [reflexivity|]. split; [|split; [|split; [|split]]].
          + cbn [pleaf pwf]. rewrite !new_filter_string. cbn. auto 10.
          + cbn. rewrite new_filter_string. exists r; auto.
          + discriminate.
          + intros k. apply pget_leaf; auto.
          + intros pre q. cbn. rewrite new_filter_string. intros [<-|[]]. right. apply prefix_refl.
        - destruct IHc as (t' & E & N' & W' & G' & S' & P'); [discriminate|].
          exists t'. repeat split; auto. eapply S'; eauto. }
      destruct (bit_cases c r HBy) as [-> | ->].
      * change (Ascii.eqb c0 c1) with false in *. change (Ascii.eqb c0 c0) with true. cbn iota in HA |- *.
        destruct (HC zero) as (t' & E & W' & S' & N' & G' & P'); auto.
        exists (PNode u fo one t'). split.
        { destruct zero; [injection E as <-; reflexivity|rewrite E; reflexivity]. }
        split; [discriminate|]. split; [cbn [pwf]; auto 10|]. split; [|split].
        -- intros k. destruct (has_prefix k (fo_string fo)) eqn:EK.
           ++ apply has_prefix_spec in EK. destruct EK as [z ->]. rewrite !pget_at, seqb_app.
              destruct z as [|x z]; [reflexivity|].
              destruct (Ascii.eqb_spec x c1) as [->|]; [reflexivity|].
              destruct (Ascii.eqb_spec x c0) as [->|]; [apply G'|].
              destruct (seqb_spec (x :: z) (c0 :: r)); auto. congruence.
           ++ apply has_prefix_false in EK. rewrite !pget_not by auto.
              destruct (seqb_spec k (fo_string fo ++ c0 :: r)); auto. subst. exfalso. apply EK. exists (c0 :: r); auto.
        -- intros c' r' _ H. exact H.
        -- intros pre q. cbn [ppaths]. cbn. rewrite !in_app_iff. intros [<-|[Hq|Hq]]; auto.
           apply P' in Hq. rewrite <- app_assoc in Hq. tauto.
      * change (Ascii.eqb c1 c1) with true in *. cbn iota in HA |- *.
        destruct (HC one) as (t' & E & W' & S' & N' & G' & P'); auto.
        exists (PNode u fo t' zero). split.
        { destruct one; [injection E as <-; reflexivity|rewrite E; reflexivity]. }
        split; [discriminate|]. split; [cbn [pwf]; auto 10|]. split; [|split].
        -- intros k. destruct (has_prefix k (fo_string fo)) eqn:EK.
           ++ apply has_prefix_spec in EK. destruct EK as [z ->]. rewrite !pget_at, seqb_app.
              destruct z as [|x z]; [reflexivity|].
              destruct (Ascii.eqb_spec x c1) as [->|]; [apply G'|].
              destruct (seqb_spec (x :: z) (c1 :: r)); auto. congruence.
           ++ apply has_prefix_false in EK. rewrite !pget_not by auto.
              destruct (seqb_spec k (fo_string fo ++ c1 :: r)); auto. subst. exfalso. apply EK. exists (c1 :: r); auto.
        -- intros c' r' _ H. exact H.
        -- intros pre q. cbn [ppaths]. cbn. rewrite !in_app_iff. intros [<-|[Hq|Hq]]; auto.
           apply P' in Hq. rewrite <- app_assoc in Hq. tauto.
  - apply has_prefix_false in EP. apply negb_true_iff, has_prefix_false in HA.
    destruct (split_point fs (fo_string fo) HB HS EP HA) as (c & c' & r & r' & Efs & Es & Hcc).
    set (ncp := lcp [fs; fo_string fo]) in *.
    assert (skipn (length ncp) fs = c :: r) as E1 by (rewrite Efs; apply skipn_app_l).
    assert (skipn (length ncp) (fo_string fo) = c' :: r') as E2 by (rewrite Es; apply skipn_app_l).
    rewrite E1, E2.
    assert (is_bitstring ncp /\ is_bitstring (c :: r)) as [Bn Br] by (apply is_bitstring_app; rewrite <- Efs; auto).
    assert (is_bitstring (c' :: r')) as Br' by (rewrite Es in HS; apply is_bitstring_app in HS; apply HS).
    set (new := PNode u (new_filter (c' :: r') (off + length ncp)) one zero).
    assert (pwf (off + length ncp) new) as Wn.
    { unfold new. cbn [pwf]. rewrite !new_filter_string.
      replace (off + length ncp + length (c' :: r')) with (off + length (fo_string fo))
        by (rewrite Es, app_length; lia). auto 10. }
    assert (forall z, pget (PNode u fo one zero) (ncp ++ z) = pget new z) as Hg.
    { intros z. destruct (has_prefix z (c' :: r')) eqn:EK.
      - apply has_prefix_spec in EK. destruct EK as [w ->]. rewrite app_assoc, <- Es, pget_at.
        unfold new. pose proof (pget_at u (new_filter (c' :: r') (off + length ncp)) one zero w) as Hp.
        rewrite new_filter_string in Hp. rewrite Hp. reflexivity.
      - apply has_prefix_false in EK. unfold new. rewrite !pget_not; auto.
        + rewrite new_filter_string; auto.
        + rewrite Es. intros Hx. apply prefix_app_inv1 in Hx. auto. }
    assert (starts_with c' new) as Sn by (cbn; rewrite new_filter_string; eauto).
    set (leaf := pleaf (c :: r) (off + length ncp) uri).
    assert (pwf (off + length ncp) leaf) as Wl.
    { unfold leaf. cbn [pleaf pwf]. rewrite !new_filter_string. cbn. auto 10. }
    assert (starts_with c leaf) as Sl by (cbn; rewrite new_filter_string; eauto).
    exists (if Ascii.eqb c c1 then PNode [] (new_filter ncp off) leaf new else PNode [] (new_filter ncp off) new leaf).
    split.
    { destruct Hcc as [[-> ->]|[-> ->]]; reflexivity. }
    split; [destruct (Ascii.eqb c c1); discriminate|].
    split; [|split; [|split]].
    + destruct Hcc as [[-> ->]|[-> ->]]; cbn [Ascii.eqb pwf]; [change (Ascii.eqb c0 c1) with false|change (Ascii.eqb c1 c1) with true];
        cbn iota; cbn [pwf]; rewrite !new_filter_string; auto 10.
    + intros k. destruct (has_prefix k ncp) eqn:EK.
      * apply has_prefix_spec in EK. destruct EK as [z ->]. rewrite Hg. rewrite Efs, seqb_app.
        assert (pget (if Ascii.eqb c c1 then PNode [] (new_filter ncp off) leaf new
                      else PNode [] (new_filter ncp off) new leaf) (ncp ++ z)
                = match z with
                  | [] => None
                  | x :: w => if Ascii.eqb x c then pget leaf (x :: w) else if Ascii.eqb x c' then pget new (x :: w) else None
                  end) as ->.
        { pose proof (pget_at [] (new_filter ncp off) leaf new z) as P1.
          pose proof (pget_at [] (new_filter ncp off) new leaf z) as P2.
          rewrite new_filter_string in P1, P2.
          destruct Hcc as [[-> ->]|[-> ->]].
          - change (Ascii.eqb c0 c1) with false. cbn iota. rewrite P2. destruct z as [|x w]; auto.
            destruct (Ascii.eqb_spec x c1) as [->|]; auto.
          - change (Ascii.eqb c1 c1) with true. cbn iota. rewrite P1. destruct z as [|x w]; auto. }
        assert (c <> c') by (destruct Hcc as [[-> ->]|[-> ->]]; discriminate).
        destruct z as [|x w].
        { destruct (seqb_spec [] (c :: r)); [congruence|]. symmetry. apply starts_with_get with (c := c'); auto. discriminate. }
        destruct (Ascii.eqb_spec x c) as [->|Hxc].
        -- unfold leaf. rewrite pget_leaf by auto. destruct (seqb (c :: w) (c :: r)); auto.
           symmetry. apply starts_with_get with (c := c'); auto. intros ? Hx. congruence.
        -- destruct (seqb_spec (x :: w) (c :: r)); [congruence|].
           destruct (Ascii.eqb_spec x c') as [->|Hxc']; auto.
           symmetry. apply starts_with_get with (c := c'); auto. intros ? Hx. congruence.
      * apply has_prefix_false in EK.
        assert (k <> fs). { intros ->. apply EK. rewrite Efs. exists (c :: r); auto. }
        destruct (seqb_spec k fs); [congruence|].
        rewrite (pget_not u fo).
        2: { intros Hx. apply EK. eapply prefix_trans; [|apply Hx]. rewrite Es. exists (c' :: r'); auto. }
        destruct (Ascii.eqb c c1); apply pget_not; rewrite new_filter_string; auto.
    + intros c2 r2 E3 [r3 E4].
      assert (prefix_of [c2] ncp) as [r4 E5].
      { apply lcp_greatest; [discriminate|]. intros x [<-|[<-|[]]]; [exists r2|exists r3]; auto. }
      destruct (Ascii.eqb c c1); cbn; rewrite new_filter_string; exists r4; exact E5.
    + intros pre q Hq.
      assert (q = pre ++ ncp \/ In q (ppaths (pre ++ ncp) new) \/ In q (ppaths (pre ++ ncp) leaf)) as Hq'.
      { destruct (Ascii.eqb c c1); cbn [ppaths] in Hq; rewrite new_filter_string in Hq;
          cbn [In] in Hq; rewrite in_app_iff in Hq; intuition. }
      destruct Hq' as [->|[Hn|Hl]].
      * right. rewrite Efs. exists (c :: r). rewrite app_assoc. auto.
      * left. unfold new in Hn. cbn [ppaths] in Hn |- *. rewrite new_filter_string, <- app_assoc, <- Es in Hn. exact Hn.
      * right. unfold leaf in Hl. cbn [pleaf ppaths] in Hl. rewrite new_filter_string, <- app_assoc, <- Efs in Hl.
        destruct Hl as [<-|[]]. apply prefix_refl.
Qed.

(** Outside [add_safe] the new subscription is lost. *)
Lemma padd_lost t : forall fs uri off, pwf off t -> is_bitstring fs -> add_safe t fs = false ->
  exists t', padd t fs uri = Ok t' /\ pget t' fs = None.
Proof.
  induction t as [|u fo one IH1 zero IH0]; intros fs uri off W HB HA; [discriminate|].
  cbn [pwf] in W. destruct W as (HF & HS & S1 & S0 & W1 & W0). cbn [add_safe] in HA. cbn [padd].
  assert (fo_size fo = length (fo_string fo)) as HSz by (rewrite HF at 1; apply new_filter_size).
  rewrite HSz.
  destruct (has_prefix fs (fo_string fo)) eqn:EP.
  - apply has_prefix_spec in EP. destruct EP as [y Hy]. subst fs. rewrite skipn_app_l in HA |- *.
    destruct y as [|c r]; [discriminate|].
    destruct (seqb_spec (fo_string fo ++ c :: r) (fo_string fo)) as [Hx|Hx].
    { apply (f_equal (@length ascii)) in Hx. rewrite app_length in Hx. cbn in Hx. lia. }
    apply is_bitstring_app in HB. destruct HB as [HBs HBy].
    destruct (bit_cases c r HBy) as [-> | ->].
    + change (Ascii.eqb c0 c1) with false in *. change (Ascii.eqb c0 c0) with true. cbn iota in HA |- *.
      destruct (IH0 (c0 :: r) uri _ W0 HBy HA) as (t' & E & G).
      destruct zero as [|u1 f1 o1 z1]; [discriminate|]. rewrite E. cbn [bind].
      eexists. split; [reflexivity|]. rewrite pget_at. exact G.
    + change (Ascii.eqb c1 c1) with true in *. cbn iota in HA |- *.
      destruct (IH1 (c1 :: r) uri _ W1 HBy HA) as (t' & E & G).
      destruct one as [|u1 f1 o1 z1]; [discriminate|]. rewrite E. cbn [bind].
      eexists. split; [reflexivity|]. rewrite pget_at. exact G.
  - apply negb_false_iff, has_prefix_spec in HA.
    assert (lcp [fs; fo_string fo] = fs) as ->.
    { apply prefix_antisym; [apply lcp_prefix; cbn; auto|].
      apply lcp_greatest; [discriminate|]. intros x [<-|[<-|[]]]; auto using prefix_refl. }
    rewrite skipn_all. eexists. split; [reflexivity|].
    set (g := new_filter fs (fo_offset fo)).
    pose proof (pget_at [] g one zero []) as Hp. unfold g in Hp. rewrite new_filter_string, app_nil_r in Hp. exact Hp.
Qed.

(** ** Deleting *)
Lemma pget_merge (u1 : gostring) fo fo1 o1 z1 child off : fo1 = new_filter (fo_string fo1) (off + length (fo_string fo)) ->
  child = PNode u1 fo1 o1 z1 ->
  forall z, pget (PNode u1 (new_filter (fo_string fo ++ fo_string fo1) off) o1 z1) (fo_string fo ++ z) = pget child z.
Proof.
  intros _ -> z. destruct (has_prefix z (fo_string fo1)) eqn:EK.
  - apply has_prefix_spec in EK. destruct EK as [w ->]. rewrite pget_at, app_assoc.
    pose proof (pget_at u1 (new_filter (fo_string fo ++ fo_string fo1) off) o1 z1 w) as Hp.
    rewrite new_filter_string in Hp. exact Hp.
  - apply has_prefix_false in EK. rewrite !pget_not; auto. rewrite new_filter_string.
    intros Hx. apply prefix_app_inv1 in Hx. auto.
Qed.

Lemma pdelete_spec t : forall fs off, t <> PNil -> pwf off t -> is_bitstring fs ->
  ~ (is_pleaf t = true /\ fs = pstring t) ->
  exists t', pdelete t fs = Ok t' /\ t' <> PNil /\ pwf off t' /\
    (forall k, pget t' k = if seqb k fs then None else pget t k) /\
    (forall c, starts_with c t -> starts_with c t') /\
    (forall pre q, In q (ppaths pre t') -> In q (ppaths pre t)).
Proof.
  induction t as [|u fo one IH1 zero IH0]; intros fs off HN W HB HL; [congruence|].
  pose proof W as Wt.
  cbn [pwf] in W. destruct W as (HF & HS & S1 & S0 & W1 & W0). cbn [pdelete].
  assert (fo_size fo = length (fo_string fo)) as HSz by (rewrite HF at 1; apply new_filter_size).
  assert (fo_offset fo = off) as HOf by (rewrite HF at 1; apply new_filter_offset).
  rewrite HSz, HOf.
  assert (pget (PNode u fo one zero) fs = None -> exists t', Ok (PNode u fo one zero) = Ok t' /\ t' <> PNil /\ pwf off t' /\
    (forall k, pget t' k = if seqb k fs then None else pget (PNode u fo one zero) k) /\
    (forall c, starts_with c (PNode u fo one zero) -> starts_with c t') /\
    (forall pre q, In q (ppaths pre t') -> In q (ppaths pre (PNode u fo one zero)))) as Hsame.
  { intros Hg. eexists. split; [reflexivity|]. split; [discriminate|]. split; [exact Wt|]. repeat split; auto.
    intros k. destruct (seqb_spec k fs); subst; auto. }
  destruct (has_prefix fs (fo_string fo)) eqn:EP; cbn [negb].
  2: { apply has_prefix_false in EP. apply Hsame. apply pget_not; auto. }
  apply has_prefix_spec in EP. destruct EP as [y Hy]. subst fs. rewrite skipn_app_l.
  apply is_bitstring_app in HB. destruct HB as [_ HBy].
  destruct (seqb_spec (fo_string fo ++ y) (fo_string fo)) as [Hx|Hx].
  - assert (y = []) as ->.
    { rewrite <- (app_nil_r (fo_string fo)) in Hx at 2. apply app_inv_head in Hx. auto. }
    clear Hsame Hx. rewrite app_nil_r in *.
    destruct one as [|u1 f1 o1 z1], zero as [|u0 f0 o0 z0].
    + exfalso. apply HL. split; reflexivity.
    + (* only zero *)
      cbn [pwf] in W0. destruct W0 as (HF0 & HS0 & S01 & S00 & W01 & W00).
      eexists. split; [reflexivity|]. split; [discriminate|]. split; [|split; [|split]].
      * cbn [pwf]. rewrite !new_filter_string, app_length, Nat.add_assoc.
        repeat split; auto. apply is_bitstring_app; auto.
      * intros k. destruct (has_prefix k (fo_string fo)) eqn:EK.
        -- apply has_prefix_spec in EK. destruct EK as [z ->].
           rewrite (pget_merge u0 fo f0 o0 z0 (PNode u0 f0 o0 z0) off HF0 eq_refl), pget_at.
           rewrite <- (app_nil_r (fo_string fo)) at 2. rewrite seqb_app.
           destruct z as [|c r].
           ++ cbn [seqb]. apply starts_with_get with (c := c0); auto. discriminate.
           ++ cbn [seqb]. destruct (Ascii.eqb_spec c c1) as [->|]; [apply starts_with_get with (c := c0); auto; discriminate|].
              destruct (Ascii.eqb_spec c c0) as [->|]; auto.
              apply starts_with_get with (c := c0); auto. congruence.
        -- apply has_prefix_false in EK. rewrite !pget_not; auto.
           ++ destruct (seqb k (fo_string fo)); auto.
           ++ rewrite new_filter_string. intros Hx. apply EK. eapply prefix_trans; [|apply Hx]. eexists; eauto.
      * intros c [r Hr]. cbn. rewrite new_filter_string, Hr. exists (r ++ fo_string f0); auto.
      * intros pre q. cbn [ppaths]. rewrite new_filter_string, app_assoc. cbn. rewrite !in_app_iff. tauto.
    + (* only one *)
      cbn [pwf] in W1. destruct W1 as (HF1 & HS1 & S11 & S10 & W11 & W10).
      eexists. split; [reflexivity|]. split; [discriminate|]. split; [|split; [|split]].
      * cbn [pwf]. rewrite !new_filter_string, app_length, Nat.add_assoc.
        repeat split; auto. apply is_bitstring_app; auto.
      * intros k. destruct (has_prefix k (fo_string fo)) eqn:EK.
        -- apply has_prefix_spec in EK. destruct EK as [z ->].
           rewrite (pget_merge u1 fo f1 o1 z1 (PNode u1 f1 o1 z1) off HF1 eq_refl), pget_at.
           rewrite <- (app_nil_r (fo_string fo)) at 2. rewrite seqb_app.
           destruct z as [|c r].
           ++ cbn [seqb]. apply starts_with_get with (c := c1); auto. discriminate.
           ++ cbn [seqb]. destruct (Ascii.eqb_spec c c1) as [->|]; auto.
              transitivity (@None gostring); [apply starts_with_get with (c := c1); auto; congruence|].
              destruct (Ascii.eqb c c0); auto.
        -- apply has_prefix_false in EK. rewrite !pget_not; auto.
           ++ destruct (seqb k (fo_string fo)); auto.
           ++ rewrite new_filter_string. intros Hx. apply EK. eapply prefix_trans; [|apply Hx]. eexists; eauto.
      * intros c [r Hr]. cbn. rewrite new_filter_string, Hr. exists (r ++ fo_string f1); auto.
      * intros pre q. cbn [ppaths]. rewrite new_filter_string, app_assoc. cbn. rewrite !in_app_iff. tauto.
    + eexists. split; [reflexivity|]. split; [discriminate|]. split; [cbn [pwf] in *; auto 10|]. split; [|split].
      * intros k. destruct (has_prefix k (fo_string fo)) eqn:EK.
        -- apply has_prefix_spec in EK. destruct EK as [z ->].
           rewrite !pget_at. rewrite <- (app_nil_r (fo_string fo)) at 2. rewrite seqb_app.
           destruct z; reflexivity.
        -- apply has_prefix_false in EK. rewrite !pget_not by auto. destruct (seqb k _); auto.
      * intros c H. exact H.
      * intros pre q H. exact H.
  - destruct y as [|c r]; [rewrite app_nil_r in Hx; congruence|].
    (* effect on one child *)
    assert (forall child, pwf (off + length (fo_string fo)) child -> starts_with c child -> child <> PNil ->
      (~ (is_pleaf child = true /\ c :: r = pstring child) ->
        exists t', pdelete child (c :: r) = Ok t' /\ t' <> PNil /\ pwf (off + length (fo_string fo)) t' /\
        (forall k, pget t' k = if seqb k (c :: r) then None else pget child k) /\
        (forall c, starts_with c child -> starts_with c t') /\
        (forall pre q, In q (ppaths pre t') -> In q (ppaths pre child))) ->
      exists t', (if seqb (c :: r) (pstring child) && is_pleaf child then Ok PNil else pdelete child (c :: r)) = Ok t' /\
        pwf (off + length (fo_string fo)) t' /\ starts_with c t' /\
        (forall k, pget t' k = if seqb k (c :: r) then None else pget child k) /\
        (forall pre q, In q (ppaths pre t') -> In q (ppaths pre child))) as HC.
    { intros child Wc Sc Nc IHc.
      destruct (seqb (c :: r) (pstring child) && is_pleaf child) eqn:EL.
      - apply andb_true_iff in EL. destruct EL as [E1 E2]. apply seqb_eq in E1.
        eexists. split; [reflexivity|]. split; [exact I|]. split; [exact I|]. split.
        + intros k. destruct child as [|uc fc oc zc]; [congruence|].
          destruct oc, zc; try discriminate. cbn [pstring] in E1.
          destruct (seqb_spec k (c :: r)) as [|Hk]; [reflexivity|]. cbn [pget].
          destruct (has_prefix k (fo_string fc)) eqn:EK; auto.
          apply has_prefix_spec in EK. destruct EK as [z ->]. rewrite skipn_app_l.
          destruct z as [|x z]; [rewrite app_nil_r in Hk; congruence|].
          destruct (Ascii.eqb x c1), (Ascii.eqb x c0); reflexivity.
        + intros pre q [].
      - destruct IHc as (t' & E & N' & W' & G' & S' & P').
        { intros [E1 E2]. rewrite E2, E1, seqb_refl in EL. discriminate. }
        exists t'. auto 10. }
    destruct (bit_cases c r HBy) as [-> | ->].
    + change (Ascii.eqb c0 c1) with false. change (Ascii.eqb c0 c0) with true. cbn iota.
      destruct zero as [|u0 f0 o0 z0] eqn:EZ.
      { apply Hsame. rewrite pget_at. reflexivity. }
      rewrite <- EZ in *. assert (zero <> PNil) as Nz by (rewrite EZ; discriminate).
      destruct (HC zero) as (t' & E & W' & S' & G' & P'); auto.
      exists (PNode u fo one t'). split.
      { rewrite EZ in E |- *. destruct (seqb _ _ && _); [injection E as <-; reflexivity|]. rewrite E. reflexivity. }
      split; [discriminate|]. split; [cbn [pwf]; auto 10|]. split; [|split].
      * intros k. destruct (has_prefix k (fo_string fo)) eqn:EK.
        -- apply has_prefix_spec in EK. destruct EK as [z ->]. rewrite !pget_at, seqb_app.
           destruct z as [|x z]; [reflexivity|].
           destruct (Ascii.eqb_spec x c1) as [->|]; [reflexivity|].
           destruct (Ascii.eqb_spec x c0) as [->|]; [apply G'|].
           destruct (seqb (x :: z) (c0 :: r)); auto.
        -- apply has_prefix_false in EK. rewrite !pget_not by auto. destruct (seqb k _); auto.
      * intros c' H. exact H.
      * intros pre q. cbn [ppaths]. cbn [In]. rewrite !in_app_iff. intros [<-|[Hq|Hq]]; auto.
    + change (Ascii.eqb c1 c1) with true. cbn iota.
      destruct one as [|u0 f0 o0 z0] eqn:EZ.
      { apply Hsame. rewrite pget_at. reflexivity. }
      rewrite <- EZ in *. assert (one <> PNil) as Nz by (rewrite EZ; discriminate).
      destruct (HC one) as (t' & E & W' & S' & G' & P'); auto.
      exists (PNode u fo t' zero). split.
      { rewrite EZ in E |- *. destruct (seqb _ _ && _); [injection E as <-; reflexivity|]. rewrite E. reflexivity. }
      split; [discriminate|]. split; [cbn [pwf]; auto 10|]. split; [|split].
      * intros k. destruct (has_prefix k (fo_string fo)) eqn:EK.
        -- apply has_prefix_spec in EK. destruct EK as [z ->]. rewrite !pget_at, seqb_app.
           destruct z as [|x z]; [reflexivity|].
           destruct (Ascii.eqb_spec x c1) as [->|]; [apply G'|].
           destruct (seqb_spec (x :: z) (c1 :: r)); auto. congruence.
        -- apply has_prefix_false in EK. rewrite !pget_not by auto. destruct (seqb k _); auto.
      * intros c' H. exact H.
      * intros pre q. cbn [ppaths]. cbn [In]. rewrite !in_app_iff. intros [<-|[Hq|Hq]]; auto.
Qed.

(** Deleting the key of a root without children does nothing. *)
Lemma pdelete_root_leaf u s o : pdelete (PNode u (new_filter s o) PNil PNil) s = Ok (PNode u (new_filter s o) PNil PNil).
Proof. cbn [pdelete]. rewrite new_filter_string, has_prefix_refl, seqb_refl. reflexivity. Qed.
