(** findPartialLCP finds the first group. *)
From Verif Require Import GoBase MEngine MSubs MGroup.
From Verif Require Import PBase Spec PEngine PSubs PLink SpecGroup.
From Coq Require Import Lia.

Lemma starts_spec q s : starts q s = true <-> prefix_of q s.
Proof.
  revert s; induction q as [|c q IH]; intros s; cbn; [split; auto; intros; apply prefix_nil|].
  destruct s as [|d s]; [split; [discriminate|intros [w H]; discriminate]|].
  rewrite andb_true_iff, IH. split.
  - intros [H [w ->]]. apply Ascii.eqb_eq in H. subst. exists w. reflexivity.
  - intros [w H]. injection H as -> ->. split; [apply Ascii.eqb_refl|exists w; reflexivity].
Qed.
Lemma members_In q l s : In s (members q l) <-> In s l /\ prefix_of q s.
Proof. unfold members. rewrite filter_In, starts_spec. reflexivity. Qed.
Lemma members_nil l : members [] l = l.
Proof. induction l; cbn; auto. f_equal; auto. Qed.
Lemma members_length q l : length (members q l) <= length l.
Proof. unfold members. induction l as [|x l IH]; cbn; auto. destruct (starts q x); cbn; lia. Qed.
Lemma members_tails c q l : members (c :: q) l = map (cons c) (members q (tails_with c l)).
Proof.
  unfold members, tails_with. induction l as [|[|d s] l IH]; cbn [filter flat_map]; auto.
  cbn [starts]. rewrite (Ascii.eqb_sym c d). destruct (Ascii.eqb_spec d c) as [->|]; cbn [andb].
  - cbn [app filter]. destruct (starts q s); cbn [map app] in *; [f_equal|]; exact IH.
  - exact IH.
Qed.
Lemma group_tails c q l : group l (c :: q) <-> group (tails_with c l) q.
Proof.
  unfold group. rewrite members_tails, map_length. split; intros [H1 (d & H2)]; (split; [auto|exists d]).
  - intros s Hs. destruct (H2 (c :: s)) as [w H]; [apply in_map; auto|]. injection H as ->. exists w. reflexivity.
  - intros s Hs. apply in_map_iff in Hs. destruct Hs as (s' & <- & Hs'). destruct (H2 s' Hs') as [w ->]. exists w. reflexivity.
Qed.
Lemma group_whole l : 2 <= length l -> (group l [] <-> lcp l <> []).
Proof.
  intros HL. unfold group. rewrite members_nil. assert (l <> []) as Hn by (destruct l; [cbn in HL; lia|discriminate]). split.
  - intros [_ (c & H)] E. assert (prefix_of [c] (lcp l)) as [w P] by (apply lcp_greatest; auto). rewrite E in P. discriminate.
  - intros HE. split; auto. destruct (lcp l) as [|c m] eqn:E; [congruence|]. exists c. intros s Hs.
    assert (prefix_of (lcp l) s) as [w ->] by (apply lcp_prefix; auto). rewrite E. exists (m ++ w). reflexivity.
Qed.

Definition found (l : list gostring) (r : gostring * nat) : Prop :=
  (r = ([], 0) /\ forall q, is_bitstring q -> ~ group l q) \/
  (exists q, first_group l q /\ fst r = lcp (members q l) /\ snd r = length (members q l)).

Lemma tails_shorter c l n : (forall s, In s l -> length s <= S n) -> forall s, In s (tails_with c l) -> length s <= n.
Proof.
  intros H s Hs. unfold tails_with in Hs. apply in_flat_map in Hs. destruct Hs as ([|d s'] & H1 & H2); [destruct H2|].
  destruct (Ascii.eqb d c); [|destruct H2]. destruct H2 as [<-|[]]. apply H in H1. cbn in H1. lia.
Qed.
Lemma lcp_map_cons c l : l <> [] -> lcp (map (cons c) l) = c :: lcp l.
Proof.
  intros Hn. symmetry. apply lcp_unique; [destruct l; [congruence|discriminate]|]. split.
  - intros s Hs. apply in_map_iff in Hs. destruct Hs as (s' & <- & H). destruct (lcp_prefix l s' H) as [w E].
    exists w. cbn. rewrite <- E. reflexivity.
  - intros q Hq. destruct q as [|d q]; [exists (c :: lcp l); reflexivity|].
    destruct l as [|x l]; [congruence|]. destruct (Hq (c :: x)) as [w E]; [left; auto|]. injection E as <- E.
    assert (prefix_of q (lcp (x :: l))) as [v ->].
    { apply lcp_greatest; [discriminate|]. intros s Hs. destruct (Hq (c :: s)) as [v E']; [apply in_map with (f := cons c) in Hs; auto|].
      injection E' as ->. exists v. reflexivity. }
    exists v. reflexivity.
Qed.
Lemma is_bitstring_cons c q : is_bitstring (c :: q) <-> (c = c0 \/ c = c1) /\ is_bitstring q.
Proof. unfold is_bitstring. split; [intros H; inversion H; auto|intros [H1 H2]; constructor; auto]. Qed.

Lemma find_partial_spec : forall n (l : list gostring), (forall s : gostring, In s l -> length s <= n) ->
  exists r, find_partial_lcp_fuel (S n) l = Some r /\ found l r.
Proof.
  assert (forall l q, length l < 2 -> ~ group l q) as Small.
  { intros l q H [G _]. pose proof (members_length q l). lia. }
  induction n as [n IH] using lt_wf_ind. intros l HL. cbn [find_partial_lcp_fuel].
  destruct (Nat.ltb_spec (length l) 2) as [H2|H2]; [eexists; split; [reflexivity|]; left; auto|].
  destruct (Nat.ltb_spec 0 (length (lcp l))) as [Hm|Hm].
  - eexists; split; [reflexivity|]. right. exists []. rewrite members_nil. split; [|auto]. split; [constructor|].
    split; [apply group_whole; auto; intros E; rewrite E in Hm; cbn in Hm; lia|].
    intros [|c q'] _ _; [auto|right; exact I].
  - assert (lcp l = []) as EL by (destruct (lcp l); [auto|cbn in Hm; lia]).
    assert (~ group l []) as NG by (rewrite group_whole; auto).
    (* what the recursive call on the tails of [c] says *)
    assert (forall c, (c = c0 \/ c = c1) -> 1 < length (tails_with c l) ->
              exists r, find_partial_lcp_fuel n (tails_with c l) = Some r /\ found (tails_with c l) r) as Rec.
    { intros c Hc H1. destruct n as [|n].
      - destruct (tails_with c l) as [|s T] eqn:E; [cbn in H1; lia|]. exfalso.
        assert (In s (tails_with c l)) as Hs by (rewrite E; left; auto). unfold tails_with in Hs.
        apply in_flat_map in Hs. destruct Hs as ([|d s'] & A & B); [destruct B|]. apply HL in A. cbn in A. lia.
      - apply IH; [lia|]. apply tails_shorter; auto. }
    assert (forall c r, found (tails_with c l) r ->
              (Nat.ltb 0 (length (fst r)) && Nat.ltb 1 (snd r) = true -> exists q, first_group (tails_with c l) q /\
                 c :: fst r = lcp (members (c :: q) l) /\ snd r = length (members (c :: q) l)) /\
              (Nat.ltb 0 (length (fst r)) && Nat.ltb 1 (snd r) = false -> forall q, is_bitstring q -> ~ group l (c :: q))) as Use.
    { intros c r [[-> F]|(q & F & E1 & E2)].
      - cbn. split; [discriminate|]. intros _ q Hq G. apply group_tails in G. apply (F q); auto.
      - pose proof F as (Hq & [G1 (d & G2)] & Hl).
        assert (lcp (members q (tails_with c l)) <> [] /\ 2 <= length (members q (tails_with c l)) /\ members q (tails_with c l) <> []) as (N1 & N2 & N3).
        { assert (members q (tails_with c l) <> []) as Hne by (destruct (members q (tails_with c l)); [cbn in G1; lia|discriminate]).
          split; [|split; auto]. intros E. assert (prefix_of (q ++ [d]) (lcp (members q (tails_with c l)))) as [w P] by (apply lcp_greatest; auto).
          rewrite E in P. destruct q; discriminate. }
        split.
        + intros _. exists q. split; auto. rewrite members_tails, map_length, lcp_map_cons by auto. rewrite E1, E2. auto.
        + intros E. exfalso. apply andb_false_iff in E. rewrite E1, E2 in E.
          destruct E as [E|E]; apply Nat.ltb_ge in E; [destruct (lcp (members q (tails_with c l))); [congruence|cbn in E; lia]|lia]. }
    assert (forall c, length (tails_with c l) <= 1 -> forall q, is_bitstring q -> ~ group l (c :: q)) as Few.
    { intros c H q Hq G. apply group_tails in G. revert G. apply Small. lia. }
    cbv zeta.
    assert ((forall q, is_bitstring q -> ~ group l (c0 :: q)) ->
      exists r, (if Nat.ltb 1 (length (tails_with c1 l)) then
                  match find_partial_lcp_fuel n (tails_with c1 l) with
                  | None => None
                  | Some (p, k) => if Nat.ltb 0 (@length ascii p) && Nat.ltb 1 k then Some (c1 :: p, k) else Some ([], 0)
                  end else Some ([], 0)) = Some r /\ found l r) as Ones.
    { intros NZ.
      assert ((forall q, is_bitstring q -> ~ group l (c1 :: q)) -> found l ([], 0)) as None_.
      { intros NO. left. split; auto. intros [|c q] Hq; auto. apply is_bitstring_cons in Hq. destruct Hq as [[->| ->] Hq]; auto. }
      destruct (Nat.ltb_spec 1 (length (tails_with c1 l))) as [H1|H1]; [|eexists; split; [reflexivity|auto]].
      destruct (Rec c1 (or_intror eq_refl) H1) as ([p k] & -> & F). destruct (Use c1 _ F) as [U1 U2]. cbn [fst snd] in *.
      destruct (Nat.ltb 0 (length p) && Nat.ltb 1 k); [|eexists; split; [reflexivity|auto]].
      eexists; split; [reflexivity|]. destruct (U1 eq_refl) as (q & (Q1 & Q2 & Q3) & E1 & E2). right. exists (c1 :: q).
      split; [|auto]. split; [apply is_bitstring_cons; auto|]. split; [apply group_tails; auto|].
      intros [|c q'] Hq' G; [exfalso; auto|]. apply is_bitstring_cons in Hq'. destruct Hq' as [[->| ->] Hq']; [exfalso; eapply NZ; eauto|].
      apply group_tails in G. destruct (Q3 q' Hq' G) as [->|L]; [auto|right; right; auto]. }
    destruct (Nat.ltb_spec 1 (length (tails_with c0 l))) as [H1|H1]; [|apply Ones; auto].
    destruct (Rec c0 (or_introl eq_refl) H1) as ([p k] & -> & F). destruct (Use c0 _ F) as [U1 U2]. cbn [fst snd] in *.
    destruct (Nat.ltb 0 (length p) && Nat.ltb 1 k); [|apply Ones; auto].
    eexists; split; [reflexivity|]. destruct (U1 eq_refl) as (q & (Q1 & Q2 & Q3) & E1 & E2). right. exists (c0 :: q).
    split; [|auto]. split; [apply is_bitstring_cons; auto|]. split; [apply group_tails; auto|].
    intros [|c q'] Hq' G; [exfalso; auto|]. apply is_bitstring_cons in Hq'. destruct Hq' as [[->| ->] Hq'].
    + apply group_tails in G. destruct (Q3 q' Hq' G) as [->|L]; [auto|right; right; auto].
    + right. left. vm_compute. reflexivity.
Qed.

Lemma max_length_In l s : In s l -> length s <= max_length l.
Proof. induction l as [|x l IH]; cbn; [tauto|]. intros [->|H]; [lia|]. apply IH in H. unfold max_length in H. lia. Qed.
Lemma find_partial_lcp_spec l : exists r, find_partial_lcp l = Some r /\ found l r.
Proof. apply find_partial_spec. intros s. apply max_length_In. Qed.

(** ** makePatriciaSubset *)
Lemma two_length {A} (l : list A) : NoDup l -> (2 <= length l <-> exists a b, a <> b /\ In a l /\ In b l).
Proof.
  intros N. split.
  - destruct l as [|a [|b l]]; cbn; try lia. intros _. exists a, b. inversion N; subst. cbn in *. intuition congruence.
  - intros (a & b & H & Ha & Hb). destruct l as [|x [|y l]]; cbn in *; try lia; intuition congruence.
Qed.
Definition grp (K : gostring -> Prop) (q : gostring) : Prop :=
  (exists a b, a <> b /\ K a /\ K b /\ prefix_of q a /\ prefix_of q b) /\
  exists c, forall s, K s -> prefix_of q s -> prefix_of (q ++ [c]) s.
Lemma group_grp l q : NoDup l -> (group l q <-> grp (fun k => In k l) q).
Proof.
  intros N. unfold group, grp. rewrite two_length by (apply NoDup_filter; auto). split.
  - intros [(a & b & H & Ha & Hb) (c & Hc)]. apply members_In in Ha, Hb. split; [exists a, b; tauto|].
    exists c. intros s H1 H2. apply Hc. apply members_In; auto.
  - intros [(a & b & H & Ha & Hb & Pa & Pb) (c & Hc)]. split; [exists a, b; rewrite !members_In; tauto|].
    exists c. intros s Hs. apply members_In in Hs. apply Hc; tauto.
Qed.

(** Replacing the members of [q] by their longest common prefix [p]. *)
Section Replace.
  Context (K K' : gostring -> Prop) (p q : gostring).
  Context (HK' : forall k, K' k <-> k = p \/ (K k /\ ~ prefix_of p k)).
  Context (Gq : grp K q).
  Context (All : forall k, K k -> prefix_of q k -> prefix_of p k).
  Lemma regroup r : grp K' r -> grp K r /\ ~ prefix_of q r.
  Proof.
    intros [(a & b & Nab & Ka & Kb & Pa & Pb) (c & Hc)].
    destruct Gq as [(x & y & Nxy & Kx & Ky & Px & Py) _].
    pose proof (All x Kx Px) as Qx. pose proof (All y Ky Py) as Qy.
    assert (~ prefix_of p r) as NP.
    { intros HP. apply HK' in Ka, Kb. destruct Ka as [->|[_ Ka]]; [|apply Ka; eapply prefix_trans; eauto].
      destruct Kb as [->|[_ Kb]]; [congruence|apply Kb; eapply prefix_trans; eauto]. }
    assert (~ prefix_of q r) as NQ.
    { intros HQ. assert (forall k, K' k -> prefix_of r k -> k = p) as One.
      { intros k Hk Hr. apply HK' in Hk. destruct Hk as [->|[Hk Hn]]; auto. exfalso. apply Hn, All; auto. eapply prefix_trans; eauto. }
      apply Nab. rewrite (One a), (One b); auto. }
    split; auto.
    assert (prefix_of r p \/ ~ prefix_of r p) as [Hr|Hr] by (rewrite <- starts_spec; destruct (starts r p); auto).
    - (* the new entry is one of the strings that start with [r] *)
      assert (prefix_of (r ++ [c]) p) as Hcp by (apply Hc; auto; apply HK'; auto).
      split; [exists x, y; repeat split; auto; eapply prefix_trans; eauto|].
      exists c. intros s Ks Ps. destruct (starts p s) eqn:E; [apply starts_spec in E; eapply prefix_trans; eauto|].
      apply Hc; auto. apply HK'. right. split; auto. rewrite <- starts_spec. congruence.
    - assert (forall k, prefix_of r k -> (K' k <-> K k)) as Same.
      { intros k Hk. rewrite HK'. split; [intros [->|[]]; tauto|]. intros H. right. split; auto.
        intros Hp. destruct (prefix_comparable p r k Hp Hk); tauto. }
      split; [exists a, b; repeat split; auto; apply Same; auto|].
      exists c. intros s Ks Ps. apply Hc; auto. apply Same; auto.
  Qed.
End Replace.

(** One turn of the loop over the keys. *)
Lemma group_steps p cur b : wf_map b -> forall l, NoDup l -> (forall k, In k l -> mget k b <> None) ->
  exists b' sup sb, fold_left (group_step p cur) l (Ok (b, None, [])) = Ok (b', sup, sb) /\
    wf_map b' /\ wf_map sb /\
    (forall k, mget k b' = if existsb (seqb k) l && starts p k then None else mget k b) /\
    sup = (if existsb (seqb p) l then option_map (fun q => PSub cur (ps_uri q) (ps_subset q)) (mget p b) else None) /\
    (forall s, mget s sb = if existsb (seqb (p ++ s)) l && negb (seqb s [])
                           then option_map (fun q => PSub (cur + length p) (ps_uri q) (ps_subset q)) (mget (p ++ s) b) else None).
Proof.
  intros W. induction l as [|fs l IH] using rev_ind; intros N H.
  - cbn. exists b, None, []. repeat split; auto. constructor.
  - assert (NoDup l /\ ~ In fs l) as [Nl Nfs].
    { apply NoDup_remove in N. rewrite app_nil_r in N. exact N. }
    destruct IH as (b' & sup & sb & E & W' & Wsb & M1 & M2 & M3); auto.
    { intros k Hk. apply H. apply in_or_app; auto. }
    assert (forall k, existsb (seqb k) (l ++ [fs]) = existsb (seqb k) l || seqb k fs) as EX.
    { intros k. rewrite existsb_app. cbn. rewrite orb_false_r. reflexivity. }
    assert (existsb (seqb fs) l = false) as Efs.
    { destruct (existsb (seqb fs) l) eqn:X; auto. apply existsb_exists in X. destruct X as (y & Y1 & Y2).
      destruct (seqb_spec fs y); [subst; tauto|discriminate]. }
    rewrite fold_left_app, E. cbn [fold_left]. unfold group_step at 1. cbn [bind].
    rewrite M1, Efs. cbn [andb].
    assert (mget fs b <> None) as Hfs by (apply H, in_or_app; right; left; auto).
    destruct (mget fs b) as [q|] eqn:Eq; [|congruence].
    assert (has_prefix fs p = starts p fs) as HP.
    { destruct (has_prefix fs p) eqn:X; destruct (starts p fs) eqn:Y; auto.
      - apply has_prefix_spec in X. apply starts_spec in X. congruence.
      - apply starts_spec in Y. apply has_prefix_spec in Y. congruence. }
    destruct (seqb_spec fs p) as [->|Np].
    + eexists _, _, _. split; [reflexivity|]. split; [apply mdel_wf; auto|]. split; [auto|]. split; [|split].
      * intros k. rewrite mget_mdel, EX, M1 by auto. destruct (seqb_spec k p) as [->|]; [|rewrite orb_false_r; auto].
        rewrite orb_true_r. assert (starts p p = true) as -> by (apply starts_spec, prefix_refl). reflexivity.
      * rewrite EX, seqb_refl, orb_true_r, Eq. reflexivity.
      * intros s. rewrite EX, M3. destruct (seqb_spec s []) as [->|Hs]; [cbn; rewrite !andb_false_r; auto|].
        destruct (seqb_spec (p ++ s) p) as [X|X]; [|rewrite orb_false_r; auto].
        exfalso. apply Hs. rewrite <- (app_nil_r p) in X at 2. apply app_inv_head in X. auto.
    + rewrite HP. destruct (starts p fs) eqn:S.
      * apply starts_spec in S. destruct S as [w ->]. assert (w <> []) as Hw by (intros ->; rewrite app_nil_r in Np; congruence).
        eexists _, _, _. split; [reflexivity|]. split; [apply mdel_wf; auto|]. split; [apply mset_wf; auto|]. split; [|split].
        -- intros k. rewrite mget_mdel, EX, M1 by auto. destruct (seqb_spec k (p ++ w)) as [->|]; [|rewrite orb_false_r; auto].
           rewrite orb_true_r. assert (starts p (p ++ w) = true) as -> by (apply starts_spec; exists w; auto). reflexivity.
        -- rewrite EX, M2. destruct (seqb_spec p (p ++ w)) as [X|X]; [congruence|]. rewrite orb_false_r. reflexivity.
        -- intros s. rewrite skipn_app, skipn_all, Nat.sub_diag. cbn [app skipn]. rewrite mget_mset, EX, M3.
           destruct (seqb_spec s w) as [->|Hs].
           ++ rewrite seqb_refl, orb_true_r, Eq. destruct (seqb_spec w []); [congruence|reflexivity].
           ++ destruct (seqb_spec (p ++ s) (p ++ w)) as [X|X]; [apply app_inv_head in X; congruence|]. rewrite orb_false_r. reflexivity.
      * exists b', sup, sb. split; [reflexivity|]. split; [auto|]. split; [auto|].
        assert (forall k, prefix_of p k -> existsb (seqb k) (l ++ [fs]) = existsb (seqb k) l) as EQ.
        { intros k Hk. rewrite EX. destruct (seqb_spec k fs) as [->|]; [apply starts_spec in Hk; congruence|apply orb_false_r]. }
        split; [|split].
        -- intros k. rewrite M1. destruct (starts p k) eqn:X; [|rewrite !andb_false_r; auto]. rewrite EQ by (apply starts_spec; auto). auto.
        -- rewrite M2, EQ by apply prefix_refl. reflexivity.
        -- intros s. rewrite M3, EQ by (exists s; auto). reflexivity.
Qed.

Lemma existsb_keys (b : bsubs) k : wf_map b -> existsb (seqb k) (bsub_keys b) = match mget k b with Some _ => true | None => false end.
Proof.
  intros W. destruct (existsb (seqb k) (bsub_keys b)) eqn:X.
  - apply existsb_exists in X. destruct X as (y & Y1 & Y2). destruct (seqb_spec k y); [subst|discriminate].
    apply bsub_keys_In in Y1; auto. destruct (mget y b); congruence.
  - destruct (mget k b) eqn:E; auto. assert (In k (bsub_keys b)) as H by (apply bsub_keys_In; congruence).
    assert (existsb (seqb k) (bsub_keys b) = true) as Y by (apply existsb_exists; exists k; split; [auto|apply seqb_refl]). congruence.
Qed.
Lemma group_round_spec p off b : wf_map b -> b <> [] -> (forall k v, mget k b = Some v -> ps_offset v = off) ->
  exists b' sb, group_round p b = Ok b' /\ wf_map b' /\ wf_map sb /\
    (forall k, mget k b' = if seqb k p then Some (PSub off (match mget p b with Some q => ps_uri q | None => [] end) sb)
                           else if starts p k then None else mget k b) /\
    (forall s, mget s sb = match s with [] => None
                           | _ :: _ => option_map (fun q => PSub (off + length p) (ps_uri q) (ps_subset q)) (mget (p ++ s) b) end).
Proof.
  intros W Hn HO. unfold group_round.
  destruct (bsub_keys b) as [|k0 ks] eqn:EK.
  { exfalso. destruct b as [|[k v] b]; [congruence|]. assert (In k (bsub_keys ((k, v) :: b))) as X.
    { apply bsub_keys_In; auto. cbn. rewrite seqb_refl. discriminate. } rewrite EK in X. destruct X. }
  assert (mget k0 b <> None) as H0. { apply bsub_keys_In; auto. rewrite EK. left; auto. }
  destruct (mget k0 b) as [q0|] eqn:E0; [|congruence]. rewrite (HO _ _ E0).
  destruct (group_steps p off b W (k0 :: ks)) as (b' & sup & sb & E & W' & Wsb & M1 & M2 & M3).
  { rewrite <- EK. unfold bsub_keys. rewrite wf_keys by auto. apply ssorted_NoDup; auto. }
  { intros k Hk. apply bsub_keys_In; auto. rewrite EK. auto. }
  cbv zeta. match goal with |- context [fold_left ?f ?l ?a] => change (fold_left f l a) with (fold_left (group_step p off) (k0 :: ks) (Ok (b, None, []))) end. rewrite E. cbn [bind]. eexists _, sb. split; [reflexivity|]. split; [apply mset_wf; auto|]. split; [auto|].
  rewrite <- EK in *. split.
  - intros k. rewrite mget_mset. destruct (seqb_spec k p) as [->|Hk].
    + rewrite M2, existsb_keys by auto. destruct (mget p b); reflexivity.
    + rewrite M1, existsb_keys by auto. destruct (mget k b); destruct (starts p k); auto.
  - intros s. rewrite M3, existsb_keys by auto. destruct s as [|c s]; [cbn; rewrite andb_false_r; auto|].
    destruct (mget (p ++ c :: s) b); reflexivity.
Qed.

(** Which pairs a map with one level of subsets holds. *)
Definition content (b : bsubs) (k u : gostring) : Prop :=
  (exists v, mget k b = Some v /\ ps_uri v = u) \/
  (exists g v s w, mget g b = Some v /\ mget s (ps_subset v) = Some w /\ k = g ++ s /\ ps_uri w = u).

Record ginv (off : nat) (E b : bsubs) : Prop := {
  gi_wf : wf_map b;
  gi_off : forall k v, mget k b = Some v -> ps_offset v = off;
  gi_sub : forall k v, mget k b = Some v -> wf_map (ps_subset v) /\ mget [] (ps_subset v) = None /\
             forall s w, mget s (ps_subset v) = Some w -> ps_offset w = off + length k /\ ps_subset w = [];
  gi_ext : forall k v k', mget k b = Some v -> ps_subset v <> [] -> mget k' b <> None -> ~ strictly_extends k' k;
  gi_grp : forall k v q, mget k b = Some v -> ps_subset v <> [] -> is_bitstring q -> prefix_of q k ->
             ~ grp (fun x => mget x b <> None) q;
  gi_plain : forall k v, mget k b = Some v -> ps_subset v = [] -> In (k, ps_uri v) (entries E);
  gi_in : forall k u, In (k, u) (entries E) -> content b k u;
  gi_out : forall k u, content b k u -> In (k, u) (entries E) \/
             (u = [] /\ ~ In k (mkeys E) /\ 2 <= length (members k (mkeys E)) /\ mget k b <> None) }.

Lemma flat_ginv b : flat b -> ginv 0 b b.
Proof.
  intros [W F]. rewrite Forall_forall in F.
  assert (forall k v, mget k b = Some v -> ps_offset v = 0 /\ ps_subset v = []) as H.
  { intros k v Hk. apply mget_In in Hk. exact (F _ Hk). }
  assert (forall k v, mget k b = Some v -> In (k, ps_uri v) (entries b)) as HE.
  { intros k v Hk. apply mget_In in Hk. apply in_map_iff. exists (k, v). auto. }
  split; auto.
  - intros k v Hk. apply (H k v Hk).
  - intros k v Hk. destruct (H k v Hk) as [_ ->]. split; [constructor|]. cbn. split; auto. discriminate.
  - intros k v k' Hk Hs. destruct (H k v Hk) as [_ X]. congruence.
  - intros k v k' Hk Hs. destruct (H k v Hk) as [_ X]. congruence.
  - intros k u Hi. apply in_map_iff in Hi. destruct Hi as ([k' v] & X & Hi). injection X as -> <-.
    left. exists v. split; auto. apply In_mget; auto.
  - intros k u [(v & Hk & <-)|(g & v & s & w & Hg & Hs & _)]; [left; auto|].
    destruct (H g v Hg) as [_ X]. rewrite X in Hs. discriminate.
Qed.

Lemma map_not_nil {V} k (m : smap V) : mget k m <> None -> m <> [].
Proof. intros H ->. apply H. reflexivity. Qed.

Lemma ginv_round off E b q : wf_map E -> ginv off E b -> first_group (mkeys b) q ->
  exists b', group_round (lcp (members q (mkeys b))) b = Ok b' /\ ginv off E b' /\ length b' < length b.
Proof.
  intros WE I (Hq & G & Least). pose proof (gi_wf _ _ _ I) as W.
  assert (NoDup (mkeys b)) as ND by (apply ssorted_NoDup; exact W).
  pose proof G as G0. apply group_grp in G; auto.
  assert (forall K1 K2 : gostring -> Prop, (forall k, K1 k <-> K2 k) -> forall r, grp K1 r -> grp K2 r) as Grp_ext.
  { intros K1 K2 HK r [(a & b0 & H1 & H2 & H3 & H4 & H5) (c & Hc)]. split; [exists a, b0; rewrite <- !HK; auto|].
    exists c. intros s Hs. apply Hc, HK. auto. }
  assert (forall k, In k (mkeys b) <-> mget k b <> None) as HK by (intros; apply In_mkeys).
  apply (Grp_ext _ _ HK) in G.
  set (p := lcp (members q (mkeys b))).
  assert (forall k, mget k b <> None -> prefix_of q k -> prefix_of p k) as All.
  { intros k H1 H2. apply lcp_prefix. apply members_In. rewrite HK. auto. }
  assert (prefix_of q p) as Pq.
  { apply lcp_greatest; [|intros s Hs; apply members_In in Hs; tauto].
    destruct G0 as [G0 _]. destruct (members q (mkeys b)); [cbn in G0; lia|discriminate]. }
  assert (forall k v, mget k b = Some v -> prefix_of p k -> ps_subset v = []) as Plain.
  { intros k v Hk Hp. destruct (ps_subset v) as [|e l] eqn:ES; auto. exfalso.
    apply (gi_grp _ _ _ I k v q); auto; [congruence|eapply prefix_trans; eauto]. }
  destruct G as [(x & y & Nxy & Kx & Ky & Px & Py) Gc].
  assert (grp (fun k => mget k b <> None) q) as G by (split; [exists x, y; auto|auto]). clear Gc.
  pose proof (All x Kx Px) as Qx. pose proof (All y Ky Py) as Qy.
  destruct (group_round_spec p off b W) as (b' & sb & R & W' & Wsb & M & MS); [eapply map_not_nil; eauto|apply I|].
  exists b'. split; [exact R|].
  assert (forall k, mget k b' <> None <-> k = p \/ (mget k b <> None /\ ~ prefix_of p k)) as HK'.
  { intros k. rewrite M. destruct (seqb_spec k p) as [->|Hk]; [split; [auto|discriminate]|].
    rewrite <- starts_spec. destruct (starts p k); intuition congruence. }
  assert (forall k v, mget k b' = Some v -> k <> p -> mget k b = Some v /\ ~ prefix_of p k) as Old.
  { intros k v Hk Hn. rewrite M in Hk. destruct (seqb_spec k p); [congruence|]. rewrite <- starts_spec.
    destruct (starts p k); [discriminate|]. split; congruence. }
  assert (forall k v, mget k b = Some v -> ~ prefix_of p k -> mget k b' = Some v) as Keep.
  { intros k v Hk Hn. rewrite M. destruct (seqb_spec k p) as [->|_]; [exfalso; apply Hn, prefix_refl|].
    rewrite <- starts_spec in Hn. destruct (starts p k); congruence. }
  assert (exists up, mget p b' = Some (PSub off up sb) /\ up = match mget p b with Some v => ps_uri v | None => [] end) as (up & Mp & Eup).
  { rewrite M, seqb_refl. eauto. }
  assert (forall s w, mget s sb = Some w -> s <> [] /\ exists v, mget (p ++ s) b = Some v /\ ps_uri w = ps_uri v /\ ps_offset w = off + length p /\ ps_subset w = []) as Sub.
  { intros s w Hs. rewrite MS in Hs. destruct s as [|c s]; [discriminate|]. split; [discriminate|].
    destruct (mget (p ++ c :: s) b) as [v|] eqn:Ev; [|discriminate]. cbn in Hs. injection Hs as <-. exists v. cbn. repeat split; auto.
    eapply Plain; eauto. exists (c :: s). reflexivity. }
  assert (forall k v, mget k b = Some v -> ps_subset v <> [] -> ~ strictly_extends p k) as NoUp.
  { intros k v Hk Hs HX. destruct (gi_ext _ _ _ I k v x Hk Hs Kx).
    assert (x = p \/ strictly_extends x p) as [->|X] by (destruct (seqb_spec x p); [auto|right; split; auto]); [auto|eapply ext_trans; eauto]. }
  assert (forall k u, In (k, u) (entries E) -> In k (mkeys E)) as InE.
  { intros k u H. apply in_map_iff in H. destruct H as ([k' v] & X & H). injection X as -> _. apply in_map_iff. exists (k, v). auto. }
  assert (forall z, mget z b <> None -> prefix_of p z -> In z (mkeys E)) as MemE.
  { intros z Hz Hp. destruct (mget z b) as [v|] eqn:Ev; [|congruence]. eapply InE, (gi_plain _ _ _ I); eauto. }
  split.
  - split.
    + exact W'.
    + intros k v Hk. rewrite M in Hk. destruct (seqb k p); [injection Hk as <-; reflexivity|].
      destruct (starts p k); [discriminate|]. eapply gi_off; eauto.
    + intros k v Hk. destruct (seqb_spec k p) as [->|Hn].
      * rewrite Mp in Hk. injection Hk as <-. cbn [ps_subset]. split; [auto|]. split; [rewrite MS; auto|].
        intros s w Hs. destruct (Sub s w Hs) as (_ & v & _ & _ & X). exact X.
      * destruct (Old k v Hk Hn) as [Hk' _]. exact (gi_sub _ _ _ I k v Hk').
    + intros k v k' Hk Hs Hk' HX. apply HK' in Hk'. destruct (seqb_spec k p) as [->|Hn].
      * destruct Hk' as [->|[_ Hk']]; [destruct HX; congruence|apply Hk', HX].
      * destruct (Old k v Hk Hn) as [Ho _]. destruct Hk' as [->|[Hk' _]]; [eapply NoUp; eauto|eapply (gi_ext _ _ _ I); eauto].
    + intros k v r Hk Hs Hr Hp GR.
      destruct (regroup (fun z => mget z b <> None) (fun z => mget z b' <> None) p q HK' G All r GR) as [G1 G2].
      destruct (seqb_spec k p) as [->|Hn].
      * assert (group (mkeys b) r) as Gr by (apply group_grp; auto; revert G1; apply Grp_ext; intros; symmetry; apply HK).
        destruct (Least r Hr Gr) as [->|L]; [apply G2, prefix_refl|].
        destruct (prefix_comparable _ _ _ Hp Pq) as [[w ->]|H]; [|tauto]. clear -L.
        induction r as [|c r IH]; [destruct w; exact L|]. destruct L as [L|[_ L]]; [lia|auto].
      * destruct (Old k v Hk Hn) as [Ho _]. eapply (gi_grp _ _ _ I); eauto.
    + intros k v Hk Hs. destruct (seqb_spec k p) as [->|Hn].
      * exfalso. rewrite Mp in Hk. injection Hk as <-. cbn in Hs.
        assert (exists z, z <> p /\ mget z b <> None /\ prefix_of p z) as (z & Hz1 & Hz2 & [w ->]).
        { destruct (seqb_spec x p) as [->|]; [exists y|exists x]; auto. }
        destruct w as [|c w]; [rewrite app_nil_r in Hz1; congruence|].
        assert (mget (c :: w) sb <> None) as Hw. { rewrite MS. destruct (mget (p ++ c :: w) b); [discriminate|congruence]. }
        rewrite Hs in Hw. apply Hw. reflexivity.
      * destruct (Old k v Hk Hn) as [Ho _]. eapply (gi_plain _ _ _ I); eauto.
    + intros k u H. apply (gi_in _ _ _ I) in H. destruct H as [(v & Hk & <-)|(g & v & s & w & Hg & Hs & -> & <-)].
      * destruct (starts p k) eqn:S; [|left; exists v; split; [apply Keep; auto; rewrite <- starts_spec; congruence|auto]].
        apply starts_spec in S. destruct S as [[|c w] ->].
        -- rewrite app_nil_r in *. left. exists (PSub off up sb). split; auto. cbn. rewrite Eup, Hk. reflexivity.
        -- right. exists p, (PSub off up sb), (c :: w), (PSub (off + length p) (ps_uri v) (ps_subset v)).
           split; auto. split; [cbn [ps_subset]; rewrite MS, Hk; reflexivity|auto].
      * right. exists g, v, s, w. split; [apply Keep; auto|auto]. intros Hp. rewrite (Plain g v Hg Hp) in Hs. discriminate.
    + intros k u [(v & Hk & <-)|(g & v & s & w & Hg & Hs & -> & <-)].
      * destruct (seqb_spec k p) as [->|Hn].
        -- rewrite Mp in Hk. injection Hk as <-. cbn [ps_uri]. rewrite Eup. destruct (mget p b) as [v|] eqn:Ev.
           ++ left. apply (gi_plain _ _ _ I); auto. eapply Plain; eauto. apply prefix_refl.
           ++ right. split; auto. split; [|split; [|rewrite Mp; discriminate]].
              ** intros HE. apply in_map_iff in HE. destruct HE as ([k' ve] & X & HE). cbn in X. subst k'.
                 assert (content b p (ps_uri ve)) as [(v & Hv & _)|(g & v & s & w & Hg & Hs & Xp & _)].
                 { apply (gi_in _ _ _ I). apply in_map_iff. exists (p, ve). auto. }
                 { congruence. }
                 apply (NoUp g v Hg).
                 { intros X. rewrite X in Hs. discriminate. }
                 rewrite Xp. split; [exists s; auto|]. intros X. rewrite <- (app_nil_r g) in X at 2. apply app_inv_head in X. subst s.
                 destruct (gi_sub _ _ _ I g v Hg) as (_ & X & _). congruence.
              ** apply two_length; [apply NoDup_filter, ssorted_NoDup; auto|]. exists x, y. rewrite !members_In. auto 8.
        -- destruct (Old k v Hk Hn) as [Ho _]. destruct (gi_out _ _ _ I k (ps_uri v)) as [H|H]; [left; eauto|auto|].
           right. intuition congruence.
      * left. destruct (seqb_spec g p) as [->|Hn].
        -- rewrite Mp in Hg. injection Hg as <-. cbn in Hs. destruct (Sub s w Hs) as (_ & v & Hv & -> & _).
           apply (gi_plain _ _ _ I); auto. eapply Plain; eauto. exists s; auto.
        -- destruct (Old g v Hg Hn) as [Ho _].
           destruct (gi_out _ _ _ I (g ++ s) (ps_uri w)) as [H|H]; [right; exists g, v, s, w; auto|auto|].
           exfalso. apply (gi_ext _ _ _ I g v (g ++ s) Ho); [|apply H|].
           { intros X. rewrite X in Hs. discriminate. }
           split; [exists s; auto|]. intros X. rewrite <- (app_nil_r g) in X at 2. apply app_inv_head in X. subst s.
           destruct (gi_sub _ _ _ I g v Ho) as (_ & X & _). congruence.
  - assert (forall l, length (filter (starts p) l) + length (filter (fun z => negb (starts p z)) l) = length l) as Split.
    { induction l as [|z l IH]; cbn; auto. destruct (starts p z); cbn; lia. }
    assert (length (mkeys b') <= S (length (filter (fun z => negb (starts p z)) (mkeys b)))) as Le.
    { apply (NoDup_incl_length (l' := p :: filter (fun z => negb (starts p z)) (mkeys b))); [apply ssorted_NoDup; exact W'|].
      intros k Hk. apply In_mkeys, HK' in Hk. destruct Hk as [->|[H1 H2]]; [left; auto|right].
      apply filter_In. rewrite HK. split; auto. rewrite <- starts_spec in H2. destruct (starts p k); [congruence|auto]. }
    assert (2 <= length (filter (starts p) (mkeys b))) as Two.
    { apply two_length; [apply NoDup_filter; auto|]. exists x, y. rewrite !filter_In, !starts_spec, !HK. auto. }
    specialize (Split (mkeys b)). unfold mkeys in *. rewrite !map_length in *. lia.
Qed.

Lemma group_loop_spec off E : wf_map E -> forall fuel b, ginv off E b -> length b < fuel ->
  exists b', group_loop fuel b = Ok b' /\ ginv off E b' /\ forall q, is_bitstring q -> ~ group (mkeys b') q.
Proof.
  intros WE. induction fuel as [|fuel IH]; intros b I HL; [lia|]. cbn [group_loop].
  assert (bsub_keys b = mkeys b) as EK by (apply wf_keys, I). rewrite EK.
  destruct (find_partial_lcp_spec (mkeys b)) as ([p n] & -> & [[X F]|(q & F & E1 & E2)]).
  - injection X as -> ->. cbn. exists b. auto.
  - cbn [fst snd] in *. pose proof F as (_ & [G _] & _). subst n p. destruct (Nat.ltb_spec (length (members q (mkeys b))) 1); [lia|].
    destruct (ginv_round off E b q WE I F) as (b' & -> & I' & L). cbn [bind]. apply IH; auto. lia.
Qed.

Definition linked (n : nat) (v v' : psub) : Prop :=
  ps_offset v' = ps_offset v /\ ps_uri v' = ps_uri v /\ forest n (ps_subset v') /\
  (forall k, In k (mkeys (ps_subset v')) -> In k (mkeys (ps_subset v))) /\
  (forall pre x, In x (fflat pre (ps_subset v')) <-> In x (fflat pre (ps_subset v))).
Definition link_group (r : result bsubs) (fs : gostring) : result bsubs :=
  let! b' := r in
  match mget fs b' with
  | None => Panic
  | Some (PSub o u s) =>
      match s with
      | [] => Ok b'
      | _ :: _ => let! s' := link_subset s in Ok (mset fs (PSub o u s') b')
      end
  end.
Lemma link_subset_linkable off s : linkable off s ->
  exists s', link_subset s = Ok s' /\ forest off s' /\ (forall k, In k (mkeys s') -> In k (mkeys s)) /\
    (forall pre x, In x (fflat pre s') <-> In x (fflat pre s)).
Proof.
  intros H. unfold link_subset. apply link_fuel_spec; auto.
  intros e fs He Hf HX. apply In_mkeys, max_length_In in Hf. rewrite skipn_length. lia.
Qed.
Lemma link_groups_spec off : forall l b, wf_map b -> NoDup l ->
  (forall k, In k l -> exists v, mget k b = Some v /\ linkable (off + length k) (ps_subset v)) ->
  exists b', fold_left link_group l (Ok b) = Ok b' /\ wf_map b' /\
    (forall k, ~ In k l -> mget k b' = mget k b) /\
    (forall k v, In k l -> mget k b = Some v -> exists v', mget k b' = Some v' /\ linked (off + length k) v v').
Proof.
  induction l as [|fs l IH]; intros b W N H; cbn [fold_left].
  - exists b. split; [auto|]. split; [auto|]. split; [auto|]. intros k v [].
  - destruct (H fs (or_introl eq_refl)) as (v & Hv & LK). inversion N as [|? ? N1 N2]; subst.
    assert (exists b1 v1, link_group (Ok b) fs = Ok b1 /\ wf_map b1 /\ mget fs b1 = Some v1 /\
              linked (off + length fs) v v1 /\ forall k, k <> fs -> mget k b1 = mget k b) as (b1 & v1 & -> & W1 & M1 & L1 & O1).
    { unfold link_group. cbn [bind]. rewrite Hv. destruct v as [o u s]. cbn [ps_subset] in LK. destruct s as [|e s].
      - exists b, (PSub o u []). split; [auto|]. split; [auto|]. split; [auto|]. split; [|auto].
        split; [auto|]. split; [auto|]. split; [apply forest_nil|]. cbn. tauto.
      - destruct (link_subset_linkable _ _ LK) as (s' & -> & F & K & C). cbn [bind].
        eexists _, _. split; [reflexivity|]. split; [apply mset_wf; auto|]. split; [rewrite mget_mset, seqb_refl; reflexivity|].
        split; [split; [auto|split; [auto|split; [auto|split; auto]]]|]. intros k Hk. rewrite mget_mset. destruct (seqb_spec k fs); congruence. }
    destruct (IH b1) as (b' & EF & W' & O & L); auto.
    { intros k Hk. destruct (H k (or_intror Hk)) as (v' & Hv' & X). exists v'. rewrite O1 by (intros ->; auto). auto. }
    exists b'. split; [exact EF|]. split; [auto|]. split.
    + intros k Hk. rewrite O by (intros X; apply Hk; right; auto). apply O1. intros ->. apply Hk. left; auto.
    + intros k w [<-|Hk] Hw.
      * rewrite Hv in Hw. injection Hw as <-. exists v1. rewrite O by auto. auto.
      * apply L; auto. rewrite O1; auto. intros ->. auto.
Qed.

Lemma fflat_flat_subset off (s : bsubs) pre k u : wf_map s ->
  (forall x w, mget x s = Some w -> ps_offset w = off /\ ps_subset w = []) ->
  (In (k, u) (fflat pre s) <-> exists x w, mget x s = Some w /\ k = pre ++ x /\ ps_uri w = u).
Proof.
  intros W H. rewrite fflat_mget by auto. split.
  - intros (x & w & Hx & Hi). rewrite pflat_eq in Hi. destruct (H x w Hx) as [_ E]. rewrite E in Hi.
    destruct Hi as [Hi|[]]. injection Hi as <- <-. eauto.
  - intros (x & w & Hx & -> & <-). exists x, w. split; auto. rewrite pflat_eq. left. auto.
Qed.

Lemma make_patricia_subset_spec b : flat b ->
  exists R, make_patricia_subset b = Ok R /\ wf_map R /\
    (forall k v, In (k, v) R -> ps_offset v = 0 /\ forest (length k) (ps_subset v) /\ ~ In [] (mkeys (ps_subset v))) /\
    (forall x, In x (entries b) -> In x (fflat [] R)) /\
    (forall k u, In (k, u) (fflat [] R) -> In (k, u) (entries b) \/
       (u = [] /\ ~ In k (mkeys b) /\ 2 <= length (members k (mkeys b)) /\ In k (mkeys R))) /\
    (forall k u u', In (k, u) (fflat [] R) -> In (k, u') (fflat [] R) -> u = u') /\
    (forall q, is_bitstring q -> ~ group (mkeys R) q).
Proof.
  intros FB. pose proof (flat_ginv b FB) as I0. unfold make_patricia_subset.
  destruct (group_loop_spec 0 b (proj1 FB) (S (length b)) b I0) as (c & -> & I & NG); [lia|]. cbn [bind].
  pose proof (gi_wf _ _ _ I) as W.
  unfold link_groups. change (fold_left _ (bsub_keys c) (Ok c)) with (fold_left link_group (bsub_keys c) (Ok c)).
  destruct (link_groups_spec 0 (bsub_keys c) c W) as (R & ER & WR & RO & RL).
  { unfold bsub_keys. rewrite wf_keys by auto. apply ssorted_NoDup; auto. }
  { intros k Hk. apply bsub_keys_In in Hk; auto. destruct (mget k c) as [v|] eqn:Ev; [|congruence]. exists v. split; auto.
    destruct (gi_sub _ _ _ I k v Ev) as (WS & NE & HS). split; auto.
    - intros x w Hx. destruct (HS x w Hx). auto.
    - intros x w Hx. destruct (HS x w Hx) as [_ ->]. apply forest_nil.
    - intros x w k2 Hx. destruct (HS x w Hx) as [_ ->]. intros [].
    - intros e fs v1 v2 H1 H2 _. destruct (HS e v1 H1) as [_ ->]. destruct (HS fs v2 H2) as [_ ->]. split; auto. }
  assert (forall k, mget k R <> None <-> mget k c <> None) as RK.
  { intros k. destruct (mget k c) as [v|] eqn:Ev.
    - destruct (RL k v) as (v' & -> & _); auto; [apply bsub_keys_In; congruence|]. split; discriminate.
    - rewrite RO; [rewrite Ev; tauto|]. rewrite bsub_keys_In by auto. congruence. }
  assert (forall k v', mget k R = Some v' -> exists v, mget k c = Some v /\ linked (length k) v v') as Back.
  { intros k v' Hk. destruct (mget k c) as [v|] eqn:Ev; [|exfalso; assert (mget k c <> None) by (apply RK; congruence); congruence].
    destruct (RL k v) as (v2 & E2 & L2); auto; [apply bsub_keys_In; congruence|]. exists v. rewrite Hk in E2. injection E2 as <-. auto. }
  assert (forall k u, In (k, u) (fflat [] R) <-> content c k u) as C.
  { intros k u. rewrite fflat_mget by auto. cbn [app]. split.
    - intros (g & v' & Hg & Hi). destruct (Back g v' Hg) as (v & Hv & (L1 & L2 & _ & _ & L5)). rewrite pflat_eq in Hi.
      destruct Hi as [Hi|Hi]; [left; injection Hi as <- <-; exists v; auto|]. apply L5 in Hi.
      destruct (gi_sub _ _ _ I g v Hv) as (WS & _ & HS). apply (fflat_flat_subset _ _ _ _ _ WS HS) in Hi.
      destruct Hi as (x & w & Hx & -> & <-). right. exists g, v, x, w. auto.
    - intros [(v & Hk & <-)|(g & v & s & w & Hg & Hs & -> & <-)].
      + destruct (RL k v) as (v' & Hv' & (_ & L & _)); auto; [apply bsub_keys_In; congruence|]. exists k, v'. split; auto.
        rewrite pflat_eq, L. left. auto.
      + destruct (RL g v) as (v' & Hv' & (_ & _ & _ & _ & L)); auto; [apply bsub_keys_In; congruence|]. exists g, v'. split; auto.
        rewrite pflat_eq. right. apply L. destruct (gi_sub _ _ _ I g v Hg) as (WS & _ & HS).
        apply (fflat_flat_subset _ _ _ _ _ WS HS). exists s, w. auto. }
  exists R. split; [exact ER|]. split; [auto|]. split; [|split; [|split; [|split]]].
  - intros k v' Hi. apply In_mget in Hi; auto. destruct (Back k v' Hi) as (v & Hv & (L1 & _ & L3 & L4 & _)).
    rewrite L1. split; [eapply (gi_off _ _ _ I); eauto|]. split; [exact L3|]. intros X. apply L4, In_mkeys in X. apply X, (gi_sub _ _ _ I k v Hv).
  - intros [k u] Hi. apply C. apply (gi_in _ _ _ I); auto.
  - intros k u Hi. apply C in Hi. apply (gi_out _ _ _ I) in Hi. destruct Hi as [Hi|(X1 & X2 & X3 & X4)]; [auto|right]. split; [auto|]. split; [auto|]. split; [auto|]. apply In_mkeys, RK. exact X4.
  - assert (forall g v s w, mget g c = Some v -> mget s (ps_subset v) = Some w -> ps_subset v <> [] /\ strictly_extends (g ++ s) g) as SubX.
    { intros g v s w Hg Hs. split; [intros X; rewrite X in Hs; discriminate|]. split; [exists s; auto|].
      intros X. rewrite <- (app_nil_r g) in X at 2. apply app_inv_head in X. subst s. destruct (gi_sub _ _ _ I g v Hg) as (_ & X & _). congruence. }
    intros k u u' H1 H2. apply C in H1, H2.
    destruct H1 as [(v & Hk & <-)|(g & v & s & w & Hg & Hs & -> & <-)]; destruct H2 as [(v2 & Hk2 & <-)|(g2 & v2 & s2 & w2 & Hg2 & Hs2 & X & <-)].
    + congruence.
    + exfalso. subst k. destruct (SubX _ _ _ _ Hg2 Hs2) as [X1 X2]. eapply (gi_ext _ _ _ I g2 v2 (g2 ++ s2)); eauto. congruence.
    + exfalso. destruct (SubX _ _ _ _ Hg Hs) as [X1 X2]. eapply (gi_ext _ _ _ I g v (g ++ s)); eauto. congruence.
    + destruct (SubX _ _ _ _ Hg Hs) as [X1 _]. destruct (SubX _ _ _ _ Hg2 Hs2) as [X2 _].
      assert (g = g2) as ->.
      { destruct (seqb_spec g g2) as [|Hn]; auto. exfalso.
        destruct (prefix_comparable g g2 (g ++ s)) as [P|P]; [exists s; auto|exists s2; auto| |].
        - apply (gi_ext _ _ _ I g v g2); auto; [congruence|split; auto].
        - apply (gi_ext _ _ _ I g2 v2 g); auto; [congruence|split; auto]. }
      apply app_inv_head in X. congruence.
  - intros q Hq G. apply (NG q Hq). apply group_grp in G; [|apply ssorted_NoDup; auto]. apply group_grp; [apply ssorted_NoDup; auto|].
    destruct G as [(x & y & N & X1 & X2 & X3 & X4) (d & Hd)]. apply In_mkeys, RK, In_mkeys in X1. apply In_mkeys, RK, In_mkeys in X2.
    split; [exists x, y; auto|]. exists d. intros s Hs. apply Hd. apply In_mkeys, RK, In_mkeys. auto.
Qed.
