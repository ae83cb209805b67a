(** Composite filters (C31, C32) and grouping of integers (C33). *)
From Verif Require Import GoBase BinUtil MFilter MComposition Spec SpecComposition PBase PFilter PComposition.
From Coq Require Import Lia ZifyBool ZifyNat ZifyN.
Ltac Zify.zify_post_hook ::= Z.div_mod_to_equations.

Definition filter_of (w : written) : filter_object := new_filter (fst w) (snd w).
Definition patterns_ok (ws : list written) : Prop := forall pat off, In (pat, off) ws -> is_pattern pat.
Lemma filters_good ws : patterns_ok ws -> Forall good (map filter_of ws).
Proof. intros P. apply Forall_forall. intros f I. apply in_map_iff in I. destruct I as ([pat off] & <- & I). apply good_new_filter. eapply P; eauto. Qed.
Lemma filter_range pat off : is_pattern pat -> fo_byte_offset (new_filter pat off) = off / 8 /\
  fo_byte_offset (new_filter pat off) + length (fo_filter (new_filter pat off)) = bytes_needed pat off /\ fo_string (new_filter pat off) = pat.
Proof.
  intros P. destruct (new_filter_bits pat off P) as (F & M & -> & _ & _ & _ & _ & _ & LN). cbn [fo_byte_offset fo_filter fo_string].
  split; auto. split; auto. rewrite LN. unfold bytes_needed. lia.
Qed.
Lemma composed ws : ws <> [] -> patterns_ok ws -> overlapping ws ->
  exists c, new_composition (map filter_of ws) = Ok c /\ is_pattern (co_filter c) /\
    (forall id pat off, In (pat, off) ws -> match_filter (new_filter pat off) id = Ok true -> match_filter (new_filter (co_filter c) (co_offset c)) id = Ok true) /\
    (forall before pat off after, ws = before ++ (pat, off) :: after -> (forall off', ~ In (pat, off') after) ->
       exists ch, mget pat (co_children c) = Some ch /\ forall id,
         match_filter (new_filter pat off) id = Ok true <-> match_filter (new_filter (co_filter c) (co_offset c)) id = Ok true /\ match_filter ch id = Ok true).
Proof.
  intros NE P (k & OV). destruct (composition_spec (map filter_of ws)) as (c & E & PC & C1 & C2).
  - destruct ws; [congruence|discriminate].
  - apply filters_good; auto.
  - exists k. intros f I. apply in_map_iff in I. destruct I as ([pat off] & <- & I). unfold filter_of. cbn [fst snd].
    destruct (filter_range pat off (P _ _ I)) as (R1 & R2 & _). specialize (OV pat off I). lia.
  - exists c. split; auto. split; auto. split.
    + intros id pat off I. apply C1. apply in_map_iff. exists (pat, off). auto.
    + intros before pat off after EQ LAST. destruct (C2 (map filter_of before) (new_filter pat off) (map filter_of after)) as (ch & G & H).
      * rewrite EQ, map_app. reflexivity.
      * intros g J. apply in_map_iff in J. destruct J as ([p o] & <- & J). unfold filter_of. cbn [fst snd].
        rewrite (proj2 (proj2 (filter_range p o (P p o ltac:(rewrite EQ; apply in_or_app; right; right; auto))))).
        rewrite (proj2 (proj2 (filter_range pat off (P pat off ltac:(rewrite EQ; apply in_elt))))). intros ->. exact (LAST o J).
      * exists ch. split; [|exact H]. rewrite <- G. f_equal. symmetry. apply filter_range. eapply P. rewrite EQ. apply in_elt.
Qed.
Lemma overlapping_dec (ws : list written) : overlapping ws \/ ~ overlapping ws.
Proof.
  set (h := list_max (map (fun w : written => snd w / 8) ws)).
  assert (forall k, (forall pat off, In (pat, off) ws -> off / 8 <= k) <-> h <= k) as HM.
  { intros k. unfold h. rewrite list_max_le, Forall_map, Forall_forall. split; [intros H [pat off] I; apply (H pat off I)|intros H pat off I; apply (H (pat, off) I)]. }
  destruct (forallb (fun w : written => Nat.ltb h (bytes_needed (fst w) (snd w))) ws) eqn:F.
  - left. rewrite forallb_forall in F. exists h. intros pat off I. split; [exact (proj2 (HM h) (Nat.le_refl h) pat off I)|]. apply Nat.ltb_lt. exact (F _ I).
  - right. intros (k & K). assert (h <= k) by (apply HM; intros pat off I; apply K in I; lia).
    assert (forallb (fun w : written => Nat.ltb h (bytes_needed (fst w) (snd w))) ws = true); [|congruence].
    apply forallb_forall. intros [pat off] I. apply Nat.ltb_lt. cbn [fst snd]. apply K in I. lia.
Qed.
Lemma last_written (pat : gostring) (ws : list written) : forall off, In (pat, off) ws ->
  exists before off' after, ws = before ++ (pat, off') :: after /\ forall off'', ~ In (pat, off'') after.
Proof.
  induction ws as [|[p o] ws IH]; intros off I; [destruct I|].
  destruct (existsb (fun w => seqb (fst w) pat) ws) eqn:X.
  - apply existsb_exists in X. destruct X as ([p' o'] & J & S). apply seqb_eq in S. cbn [fst] in S. subst p'. destruct (IH o' J) as (b & o1 & a & -> & N).
    exists ((p, o) :: b), o1, a. auto.
  - assert (forall o', ~ In (pat, o') ws) as N.
    { intros o' J. assert (existsb (fun w => seqb (fst w) pat) ws = true) as Y by (apply existsb_exists; exists (pat, o'); split; [auto|apply seqb_refl]). congruence. }
    destruct I as [E|I]; [injection E as -> ->|destruct (N _ I)]. exists [], off, ws. auto.
Qed.

(** ** When two written filters select the same identifiers *)
Lemma bits_exist n (g : nat -> bool) : exists id, wf_bytes id /\ length id = n /\ forall i, i < 8 * n -> nth_error (bits_of_bytes id) i = Some (g i).
Proof.
  destruct (bytes_of_bits_total (map g (seq 0 (8 * n))) n) as (id & E & L); [rewrite map_length, seq_length; lia|].
  destruct (bytes_of_bits_spec _ _ E) as [B W]. exists id. split; auto. split; auto.
  intros i Hi. rewrite B. rewrite nth_error_map. rewrite (nth_error_nth' (seq 0 (8 * n)) 0) by (rewrite seq_length; lia). rewrite seq_nth by lia. reflexivity.
Qed.
Lemma equal_selection pat o1 o2 : is_pattern pat ->
  (forall id, wf_bytes id -> match_filter (new_filter pat o1) id = Ok true <-> match_filter (new_filter pat o2) id = Ok true) <-> same_selection pat o1 o2.
Proof.
  intros P. split.
  - intros H. unfold same_selection. destruct (Nat.eq_dec o1 o2) as [|NE]; auto. right.
    assert (forall a b, a < b -> (forall id, wf_bytes id -> match_filter (new_filter pat a) id = Ok true <-> match_filter (new_filter pat b) id = Ok true) ->
      Forall (fun c => c = "x"%char) pat) as X.
    { clear - P. intros a b L H. destruct (Forall_Exists_dec (fun c => c = "x"%char) (fun c => ascii_dec c "x"%char) pat) as [F|F]; auto. exfalso.
      assert (exists p c r, pat = p ++ c :: r /\ c <> "x"%char /\ Forall (fun c => c = "x"%char) p) as (p & c & r & -> & NC & FP).
      { clear - F. induction pat as [|c pat IH]; [inversion F|]. destruct (ascii_dec c "x"%char) as [->|N].
        - destruct IH as (p & c & r & -> & N & FP); [inversion F; subst; [congruence|auto]|]. exists ("x"%char :: p), c, r. auto.
        - exists [], c, pat. auto. }
      set (pat := p ++ c :: r) in *. set (n := Nat.max (bytes_needed pat a) (bytes_needed pat b)).
      assert (forall v, exists id, wf_bytes id /\ length id = n /\ matches_at pat b id /\ nth_error (bits_of_bytes id) (a + length p) = Some v) as ID.
      { intros v. destruct (bits_exist n (fun i => if Nat.eqb i (a + length p) then v else if Nat.leb b i then Ascii.eqb (nth (i - b) pat "x"%char) "1"%char else false)) as (id & W & LN & B).
        exists id. split; auto. split; auto.
        assert (8 * bytes_needed pat b >= b + length pat /\ 8 * bytes_needed pat a >= a + length pat) as [Nb Na] by (unfold bytes_needed; lia).
        assert (length pat = length p + S (length r)) as LP by (unfold pat; rewrite app_length; reflexivity).
        split.
        - intros i ch E. assert (i < length pat) as Li by (apply nth_error_Some; congruence). rewrite B by lia. eexists. split; [reflexivity|].
          destruct (Nat.eqb_spec (b + i) (a + length p)) as [Q|Q].
          + left. unfold pat in E. rewrite nth_error_app1 in E by lia. rewrite Forall_forall in FP. apply FP. eapply nth_error_In; eauto.
          + replace (Nat.leb b (b + i)) with true by (symmetry; apply Nat.leb_le; lia). replace (b + i - b) with i by lia. rewrite (nth_error_nth _ _ _ E).
            unfold is_pattern in P. rewrite Forall_forall in P. destruct (P ch (nth_error_In _ _ E)) as [-> |[-> | ->]]; unfold agrees; auto 6.
        - rewrite B by lia. rewrite Nat.eqb_refl. reflexivity. }
      destruct (ID true) as (i1 & W1 & L1 & M1 & B1). destruct (ID false) as (i0 & W0 & L0 & M0 & B0).
      assert (forall id v, wf_bytes id -> length id = n -> matches_at pat b id -> nth_error (bits_of_bytes id) (a + length p) = Some v -> agrees c v) as AG.
      { intros id v W LN M B. assert (match_filter (new_filter pat b) id = Ok true) as MB by (apply match_filter_true; auto; split; auto; lia).
        apply H in MB; auto. apply match_filter_true in MB; auto. destruct MB as [_ MB]. destruct (MB (length p) c) as (v' & B' & A).
        - unfold pat. rewrite nth_error_app2, Nat.sub_diag by lia. reflexivity.
        - congruence. }
      pose proof (AG _ _ W1 L1 M1 B1) as A1. pose proof (AG _ _ W0 L0 M0 B0) as A0.
      destruct A1 as [A1|[[A1 _]|[_ A1]]]; [congruence| |discriminate]. destruct A0 as [A0|[[_ A0]|[A0 _]]]; [congruence|discriminate|congruence]. }
    assert (Forall (fun c => c = "x"%char) pat) as FX.
    { destruct (Nat.lt_total o1 o2) as [L|[L|L]]; [eapply X; eauto|congruence|]. eapply (X o2 o1); eauto. intros id W. symmetry. auto. }
    split; auto. assert (forall o id, wf_bytes id -> match_filter (new_filter pat o) id = Ok true <-> bytes_needed pat o <= length id) as MX.
    { intros o id W. rewrite match_filter_true by auto. split; [tauto|]. intros L. split; auto. intros i ch E. rewrite Forall_forall in FX. rewrite (FX ch (nth_error_In _ _ E)).
      assert (i < length pat) as Li by (apply nth_error_Some; congruence). assert (8 * bytes_needed pat o >= o + length pat) by (unfold bytes_needed; lia).
      destruct (nth_error (bits_of_bytes id) (o + i)) as [v|] eqn:EV; [exists v; split; [auto|left; auto]|]. apply nth_error_None in EV. rewrite bits_of_bytes_length in EV. lia. }
    assert (forall n, exists id, wf_bytes id /\ length id = n) as LX by (intros n; destruct (bits_exist n (fun _ => false)) as (id & W & L & _); eauto).
    destruct (LX (bytes_needed pat o1)) as (i1 & W1 & L1). destruct (LX (bytes_needed pat o2)) as (i2 & W2 & L2).
    pose proof (H i1 W1) as H1. pose proof (H i2 W2) as H2. rewrite !MX in H1, H2 by auto. lia.
  - intros [->|[FX BN]] id W; [tauto|]. rewrite !match_filter_true by auto. rewrite BN.
    assert (forall o, bytes_needed pat o <= length id -> matches_at pat o id) as MX.
    { intros o L i ch E. rewrite Forall_forall in FX. rewrite (FX ch (nth_error_In _ _ E)).
      assert (i < length pat) as Li by (apply nth_error_Some; congruence). assert (8 * bytes_needed pat o >= o + length pat) by (unfold bytes_needed; lia).
      destruct (nth_error (bits_of_bytes id) (o + i)) as [v|] eqn:EV; [exists v; split; [auto|left; auto]|]. apply nth_error_None in EV. rewrite bits_of_bytes_length in EV. lia. }
    split; intros [L _]; (split; [auto|]); apply MX; lia.
Qed.
(** Every written filter accepts some identifier of the length it needs. *)
Lemma accepted pat off : is_pattern pat -> exists id, wf_bytes id /\ length id = bytes_needed pat off /\ match_filter (new_filter pat off) id = Ok true.
Proof.
  intros P. destruct (bits_exist (bytes_needed pat off) (fun i => if Nat.leb off i then Ascii.eqb (nth (i - off) pat "x"%char) "1"%char else false)) as (id & W & L & B).
  exists id. split; auto. split; auto. apply match_filter_true; auto. split; [lia|]. intros i ch E. assert (i < length pat) as Li by (apply nth_error_Some; congruence).
  assert (8 * bytes_needed pat off >= off + length pat) by (unfold bytes_needed; lia). rewrite B by lia. eexists. split; [reflexivity|].
  replace (Nat.leb off (off + i)) with true by (symmetry; apply Nat.leb_le; lia). replace (off + i - off) with i by lia. rewrite (nth_error_nth _ _ _ E).
  unfold is_pattern in P. rewrite Forall_forall in P. destruct (P ch (nth_error_In _ _ E)) as [-> |[-> | ->]]; unfold agrees; auto 6.
Qed.
(** Without a common byte a member accepts an identifier on which the composite
    filter crashes. *)
Lemma touching ws c : patterns_ok ws -> ~ overlapping ws -> new_composition (map filter_of ws) = Ok c ->
  exists pat off id, In (pat, off) ws /\ wf_bytes id /\ match_filter (new_filter pat off) id = Ok true /\
    match_filter (new_filter (co_filter c) (co_offset c)) id = Panic.
Proof.
  intros P NO E. destruct (touching_empty (map filter_of ws) c) as (f & I & EF & EO); auto.
  - apply filters_good; auto.
  - intros (k & K). apply NO. exists k. intros pat off J. specialize (K (filter_of (pat, off)) (in_map _ _ _ J)). unfold filter_of in K. cbn [fst snd] in K.
    destruct (filter_range pat off (P _ _ J)) as (R1 & R2 & _). lia.
  - apply in_map_iff in I. destruct I as ([pat off] & <- & I). unfold filter_of in EO. cbn [fst snd] in EO. destruct (filter_range pat off (P _ _ I)) as (_ & R2 & _). rewrite R2 in EO.
    destruct (accepted pat off (P _ _ I)) as (id & W & L & M). exists pat, off, id. split; auto. split; auto. split; auto.
    rewrite EF, EO. apply match_filter_panic; [constructor|auto|]. split; [|intros i ch b N; destruct i; discriminate].
    unfold bytes_needed at 1. unfold byte_length. rewrite Nat.div_mul by lia. lia.
Qed.

(** ** C31 *)
Theorem C31_composite_accepts : forall ws, ws <> [] -> patterns_ok ws -> overlapping ws ->
  exists c, new_composition (map filter_of ws) = Ok c /\
    forall id pat off, wf_bytes id -> In (pat, off) ws -> match_filter (new_filter pat off) id = Ok true ->
      match_filter (new_filter (co_filter c) (co_offset c)) id = Ok true.
Proof.
  intros ws NE P OV. destruct (composed ws NE P OV) as (c & E & _ & C & _). exists c. split; auto. intros id pat off _ I. apply C; auto.
Qed.
Print Assumptions C31_composite_accepts.
(** The same without the matching function: in terms of bits. *)
Theorem C31_bits : forall ws, ws <> [] -> patterns_ok ws -> overlapping ws ->
  exists c, new_composition (map filter_of ws) = Ok c /\ is_pattern (co_filter c) /\
    forall id pat off, wf_bytes id -> In (pat, off) ws -> bytes_needed pat off <= length id -> matches_at pat off id ->
      matches_at (co_filter c) (co_offset c) id.
Proof.
  intros ws NE P OV. destruct (composed ws NE P OV) as (c & E & PC & C & _). exists c. split; auto. split; auto.
  intros id pat off W I L M. apply match_filter_true; auto. apply (C id pat off I). apply match_filter_true; eauto.
Qed.
Print Assumptions C31_bits.
(** Without a common byte: no composition at all when one filter ends before
    another begins. *)
Theorem C31_disjoint : forall ws, patterns_ok ws ->
  (exists p o p' o', In (p, o) ws /\ In (p', o') ws /\ bytes_needed p o < o' / 8) \/ ws = [] ->
  new_composition (map filter_of ws) = Panic.
Proof.
  intros ws P H. apply composition_panics; [apply filters_good; auto|]. destruct H as [(p & o & p' & o' & I & J & L)| ->]; [left|right; auto].
  exists (new_filter p o), (new_filter p' o'). split; [apply in_map_iff; exists (p, o); auto|]. split; [apply in_map_iff; exists (p', o'); auto|].
  destruct (filter_range p o (P _ _ I)) as (_ & R & _). destruct (filter_range p' o' (P _ _ J)) as (R' & _). lia.
Qed.
Print Assumptions C31_disjoint.

(** The claim holds exactly for the lists with a common byte: without one there is
    no composition, or the composite filter crashes where a member accepts. *)
Theorem C31_exactly : forall ws, ws <> [] -> patterns_ok ws ->
  (exists c, new_composition (map filter_of ws) = Ok c /\
     forall id pat off, wf_bytes id -> In (pat, off) ws -> match_filter (new_filter pat off) id = Ok true ->
       match_filter (new_filter (co_filter c) (co_offset c)) id = Ok true) <->
  overlapping ws.
Proof.
  intros ws NE P. split; [|intros OV; apply C31_composite_accepts; auto]. intros (c & E & H).
  destruct (overlapping_dec ws) as [OV|NO]; auto. exfalso. destruct (touching ws c P NO E) as (pat & off & id & I & W & M & X). specialize (H id pat off W I M). congruence.
Qed.
Print Assumptions C31_exactly.

Definition ex_ws : list written := [(str "0011000011", 8); (str "1100110011", 6)].
(** The repository's own example (composition_test.go:23-37). *)
Example C31_hypotheses : patterns_ok ex_ws /\ overlapping ex_ws /\
  exists c, new_composition (map filter_of ex_ws) = Ok c /\ co_filter c = str "001100xx" /\ co_offset c = 8 /\
    match_filter (new_filter (str "0011000011") 8) [0; 48; 255]%N = Ok true.
Proof.
  split; [intros pat off [E|[E|[]]]; injection E as <- <-; unfold is_pattern; cbn [str list_ascii_of_string]; repeat (apply Forall_cons; [auto|]); constructor|].
  split; [exists 1; intros pat off [E|[E|[]]]; injection E as <- <-; vm_compute; lia|].
  eexists. split; [vm_compute; reflexivity|]. cbn. auto.
Qed.

(** ** C32 *)
(** The last member with its pattern text. *)
Theorem C32_composite_and_child_partial : forall ws, ws <> [] -> patterns_ok ws -> overlapping ws ->
  exists c, new_composition (map filter_of ws) = Ok c /\
    forall before pat off after, ws = before ++ (pat, off) :: after -> (forall off', ~ In (pat, off') after) ->
      exists child, mget pat (co_children c) = Some child /\
        forall id, wf_bytes id ->
          match_filter (new_filter pat off) id = Ok true <->
          match_filter (new_filter (co_filter c) (co_offset c)) id = Ok true /\ match_filter child id = Ok true.
Proof.
  intros ws NE P OV. destruct (composed ws NE P OV) as (c & E & _ & _ & C). exists c. split; auto. intros before pat off after EQ LAST.
  destruct (C before pat off after EQ LAST) as (ch & G & H). exists ch. split; auto.
Qed.
Print Assumptions C32_composite_and_child_partial.
(** All members: exactly when they have a common byte and members with the same
    text select the same identifiers, that is have the same offset or no bits. *)
Theorem C32_exactly_partial : forall ws, ws <> [] -> patterns_ok ws ->
  (exists c, new_composition (map filter_of ws) = Ok c /\
     forall pat off, In (pat, off) ws -> exists child, mget pat (co_children c) = Some child /\
       forall id, wf_bytes id ->
         match_filter (new_filter pat off) id = Ok true <->
         match_filter (new_filter (co_filter c) (co_offset c)) id = Ok true /\ match_filter child id = Ok true) <->
  overlapping ws /\ (forall pat o1 o2, In (pat, o1) ws -> In (pat, o2) ws -> same_selection pat o1 o2).
Proof.
  intros ws NE P. split.
  - intros (c & E & H). split.
    + apply C31_exactly; auto. exists c. split; auto. intros id pat off W I M. destruct (H pat off I) as (ch & _ & Q). apply Q; auto.
    + intros pat o1 o2 I1 I2. apply equal_selection; [eapply P; eauto|]. intros id W. destruct (H pat o1 I1) as (c1 & G1 & Q1). destruct (H pat o2 I2) as (c2 & G2 & Q2).
      assert (c2 = c1) as -> by congruence. rewrite Q1, Q2 by auto. tauto.
  - intros [OV SAME]. destruct (C32_composite_and_child_partial ws NE P OV) as (c & E & H). exists c. split; auto. intros pat off I.
    destruct (last_written pat ws off I) as (before & off' & after & EQ & LAST). destruct (H before pat off' after EQ LAST) as (ch & G & Q). exists ch. split; auto.
    intros id W. rewrite <- Q by auto. apply equal_selection; auto; [eapply P; eauto|]. apply SAME; auto. rewrite EQ. apply in_elt.
Qed.
Print Assumptions C32_exactly_partial.

(** The same pattern at two offsets: one child is lost.  Filters that only touch:
    the child of the second is placed at the wrong byte. *)
Theorem C32_refuted :
  (exists c child, new_composition (map filter_of [(str "01", 0); (str "01", 2)]) = Ok c /\ mget (str "01") (co_children c) = Some child /\
     match_filter (new_filter (str "01") 0) [64]%N = Ok true /\
     match_filter (new_filter (co_filter c) (co_offset c)) [64]%N = Ok true /\ match_filter child [64]%N = Ok false) /\
  (exists c child, new_composition (map filter_of [(str "00000000", 0); (str "11111111", 8)]) = Ok c /\ mget (str "11111111") (co_children c) = Some child /\
     match_filter (new_filter (str "11111111") 8) [0; 255]%N = Ok true /\
     match_filter (new_filter (co_filter c) (co_offset c)) [0; 255]%N = Ok true /\ match_filter child [0; 255]%N = Ok false).
Proof.
  split; eexists _, _; (split; [vm_compute; reflexivity|]); (split; [vm_compute; reflexivity|]); (split; [vm_compute; reflexivity|]); split; vm_compute; reflexivity.
Qed.
Print Assumptions C32_refuted.

Example C32_case : exists c child, new_composition (map filter_of [(str "0011000011", 0); (str "0011001111", 0)]) = Ok c /\
  mget (str "0011000011") (co_children c) = Some child /\ fo_string child = str "00110000xxxxxxxx" /\ co_filter c = str "001100xx11xxxxxx".
Proof. eexists _, _. split; [vm_compute; reflexivity|]. split; [vm_compute; reflexivity|]. split; reflexivity. Qed.

Example C32_exactly_case : let ws := [(str "0011000011", 0); (str "xx", 2); (str "0011001111", 0); (str "xx", 5)] in
  overlapping ws /\ (forall pat o1 o2, In (pat, o1) ws -> In (pat, o2) ws -> same_selection pat o1 o2).
Proof.
  split; [exists 0; intros pat off H; repeat (destruct H as [E|H]; [injection E as <- <-; vm_compute; lia|]); destruct H|].
  intros pat o1 o2 H1 H2. repeat (destruct H1 as [E1|H1]; [injection E1 as <- <-; repeat (destruct H2 as [E2|H2]; [first [discriminate E2|injection E2 as <-; first [left; reflexivity|right; split; [repeat constructor|reflexivity]]]|]); destruct H2|]). destruct H1.
Qed.

(** ** C33 *)
Theorem C33_groups : forall rs, rs <> [] ->
  let groups := group_sequential rs in
  concat groups = rs /\ (forall g, In g groups -> g <> [] /\ consecutive g) /\
  (forall before g g' after, groups = before ++ g :: g' :: after -> ~ mergeable g g').
Proof. exact group_sequential_spec. Qed.
Print Assumptions C33_groups.
(** Nothing to group gives one empty group. *)
Theorem C33_nothing : group_sequential [] = [[]].
Proof. reflexivity. Qed.
Print Assumptions C33_nothing.
(** These conditions leave only one grouping. *)
Theorem C33_unique : forall a b : list (list Z), concat a = concat b ->
  (forall g, In g a -> g <> [] /\ consecutive g) -> (forall g, In g b -> g <> [] /\ consecutive g) ->
  (forall x g g' y, a = x ++ g :: g' :: y -> ~ mergeable g g') -> (forall x g g' y, b = x ++ g :: g' :: y -> ~ mergeable g g') -> a = b.
Proof.
  assert (forall r (g h : list Z) a b, g <> [] -> consecutive h -> h = g ++ r -> r <> [] -> concat a = r ++ concat b ->
    (forall x, In x (g :: a) -> x <> [] /\ consecutive x) -> (forall x p q y, g :: a = x ++ p :: q :: y -> ~ mergeable p q) -> False) as SHORT.
  { intros r g h a b NG CH -> NR EQ HA MA. destruct a as [|g' a]; [destruct r; [congruence|discriminate]|].
    destruct (HA g') as [NG' CG']; [right; left; auto|]. apply (MA [] g g' a eq_refl). unfold mergeable.
    destruct r as [|z r]; [congruence|]. destruct g' as [|z' g']; [congruence|]. cbn [concat app] in EQ. injection EQ as -> _.
    assert (consecutive (g ++ [z])) as CZ. { change (g ++ z :: r) with (g ++ [z] ++ r) in CH. rewrite app_assoc in CH. eapply consecutive_app_l; eauto. }
    clear - NG CZ CG'. induction g as [|a g IH]; [congruence|]. destruct g as [|b g].
    - cbn [app] in *. split; [apply CZ|exact CG'].
    - cbn [app] in *. destruct CZ as [E CZ]. split; auto. apply IH; auto. discriminate. }
  induction a as [|g a IH]; intros b EQ HA HB MA MB.
  - destruct b as [|h b]; auto. destruct (HB h) as [N _]; [left; auto|]. destruct h; [congruence|discriminate].
  - destruct b as [|h b]; [destruct (HA g) as [N _]; [left; auto|]; destruct g; [congruence|discriminate]|].
    cbn [concat] in EQ. destruct (HA g) as [NG CG]; [left; auto|]. destruct (HB h) as [NH CHh]; [left; auto|].
    assert (g = h) as ->.
    { destruct (app_eq_app _ _ _ _ EQ) as (l & [[E1 E2]|[E1 E2]]); destruct l as [|z l]; try (rewrite app_nil_r in E1; congruence); exfalso.
      - eapply (SHORT (z :: l) h g b a); eauto. discriminate.
      - eapply (SHORT (z :: l) g h a b); eauto. discriminate. }
    f_equal. apply app_inv_head in EQ. apply IH; auto.
    + intros x I. apply HA; right; auto.
    + intros x I. apply HB; right; auto.
    + intros x p q y E. apply (MA (h :: x) p q y). rewrite E. reflexivity.
    + intros x p q y E. apply (MB (h :: x) p q y). rewrite E. reflexivity.
Qed.
Print Assumptions C33_unique.
Example C33_case : group_sequential [1; 2; 3; 5; 7; 8; 8; 7]%Z = [[1; 2; 3]; [5]; [7; 8]; [8]; [7]]%Z.
Proof. reflexivity. Qed.
