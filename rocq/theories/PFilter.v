(** Proofs about filtering/filter_object.go. *)
From Verif Require Import GoBase BinUtil MFilter PBase Spec.
From Coq Require Import Lia ZifyBool ZifyNat ZifyN.
Ltac Zify.zify_post_hook ::= Z.div_mod_to_equations.

(** ** Characters of the two bit strings built by makeFilter *)
Definition fch (c : ascii) : ascii := if Ascii.eqb c cx then c1 else c.
Definition mch (c : ascii) : ascii := if Ascii.eqb c cx then c1 else c0.

(** Number of wildcard characters added on the right. *)
Definition padr (n : nat) : nat := if Nat.eqb n 0 then 8 else (8 - n mod 8) mod 8.
(** The pattern padded with wildcards to whole bytes. *)
Definition padded (bs : gostring) (off : nat) : gostring :=
  repeat cx (off mod 8) ++ bs ++ repeat cx (padr (off mod 8 + length bs)).

Lemma map_repeat {A B} (g : A -> B) a n : map g (repeat a n) = repeat (g a) n.
Proof. induction n; cbn; congruence. Qed.
Lemma map2_app {A B C} (g : A -> B -> C) l l' r r' :
  length l = length r -> map2 g (l ++ l') (r ++ r') = map2 g l r ++ map2 g l' r'.
Proof.
  revert r; induction l as [|a l IH]; intros [|b r] H; cbn in *; try discriminate; auto.
  rewrite IH by lia. reflexivity.
Qed.
Lemma map2_repeat {A B C} (g : A -> B -> C) (l : list A) b :
  map2 g l (repeat b (length l)) = map (fun a => g a b) l.
Proof. induction l; cbn; congruence. Qed.
Lemma map2_repeat2 {A B C} (g : A -> B -> C) a b n :
  map2 g (repeat a n) (repeat b n) = repeat (g a b) n.
Proof. induction n; cbn; congruence. Qed.

(** The fuel-free equation of makeFilter. *)
Definition make_filter_body (rec : gostring -> nat -> nat * gostring * gostring)
  (bs : gostring) (offset : nat) : nat * gostring * gostring :=
  let left := offset mod byte_length in
  let f := repeat c1 left in
  let m := repeat c1 left in
  let body :=
    if Nat.ltb (byte_length - left) (List.length bs) then byte_length - left
    else List.length bs in
  let f := f ++ firstn body bs in
  let m := m ++ repeat c0 body in
  let right := byte_length - List.length f in
  let f' := if Nat.ltb (List.length f) byte_length then f ++ repeat c1 right else f in
  let m' := if Nat.ltb (List.length f) byte_length then m ++ repeat c1 right else m in
  let f'' := map wild_f f' in
  let m'' := map2 wild_m f' m' in
  if Nat.ltb byte_length (List.length bs + left) then
    let next := (offset / byte_length + 1) * byte_length in
    let '(_, fc, mc) := rec (skipn body bs) next in
    (offset / byte_length, f'' ++ fc, m'' ++ mc)
  else (offset / byte_length, f'', m'').

Lemma make_filter_fuel_S fuel bs off :
  make_filter_fuel (S fuel) bs off = make_filter_body (make_filter_fuel fuel) bs off.
Proof. reflexivity. Qed.

Lemma make_filter_fuel_padded fuel bs off :
  length bs < fuel ->
  make_filter_fuel fuel bs off = (off / 8, map fch (padded bs off), map mch (padded bs off)).
Proof.
  revert bs off; induction fuel as [|fuel IH]; intros bs off HF; [lia|].
  rewrite make_filter_fuel_S. unfold make_filter_body, byte_length.
  assert (off mod 8 < 8) as Hl by (apply Nat.mod_upper_bound; lia).
  set (left := off mod 8) in *.
  destruct (Nat.ltb_spec 8 (length bs + left)).
  - (* more than one byte *)
    replace (8 - left <? length bs) with true by (symmetry; apply Nat.ltb_lt; lia).
    rewrite IH by (rewrite skipn_length; lia).
    rewrite app_length, repeat_length, firstn_length_le by lia.
    replace (left + (8 - left)) with 8 by lia. cbn [Nat.ltb Nat.leb].
    assert (padded bs off = (repeat cx left ++ firstn (8 - left) bs)
              ++ padded (skipn (8 - left) bs) ((off / 8 + 1) * 8)) as ->.
    { unfold padded. fold left.
      rewrite Nat.mod_mul by lia. cbn [repeat app]. rewrite <- app_assoc. f_equal.
      rewrite <- (firstn_skipn (8 - left) bs) at 1. rewrite <- app_assoc. f_equal. f_equal.
      f_equal. rewrite skipn_length. unfold padr.
      rewrite !(proj2 (Nat.eqb_neq _ _)) by lia. f_equal. f_equal.
      replace (left + length bs) with ((length bs - (8 - left)) + 1 * 8) by lia.
      rewrite Nat.mod_add by lia. reflexivity. }
    rewrite !map_app. f_equal; [f_equal|].
    + rewrite !map_repeat. reflexivity.
    + f_equal. rewrite map2_app by (rewrite !repeat_length; auto).
      rewrite map2_repeat2, !map_repeat.
      f_equal.
      rewrite <- (firstn_length_le bs (n := 8 - left)) at 2 by lia. rewrite map2_repeat.
      reflexivity.
  - (* the last byte *)
    replace (8 - left <? length bs) with false by (symmetry; apply Nat.ltb_ge; lia).
    rewrite firstn_all, app_length, repeat_length.
    assert (padded bs off = repeat cx left ++ bs ++ repeat cx (8 - (left + length bs))) as ->.
    { unfold padded. fold left. do 3 f_equal. unfold padr.
      destruct (Nat.eqb_spec (left + length bs) 0); lia. }
    destruct (Nat.ltb_spec (left + length bs) 8).
    + rewrite !map_app, !map_repeat. rewrite <- !app_assoc. f_equal.
      rewrite map2_app by (rewrite !repeat_length; auto).
      rewrite map2_app by (rewrite !repeat_length; auto).
      rewrite !map2_repeat2, map2_repeat. reflexivity.
    + replace (8 - (left + length bs)) with 0 by lia. cbn [repeat].
      rewrite !app_nil_r, !map_app, !map_repeat. f_equal.
      rewrite map2_app by (rewrite !repeat_length; auto).
      rewrite !map2_repeat2, map2_repeat. reflexivity.
Qed.

Lemma make_filter_padded bs off :
  make_filter bs off = (off / 8, map fch (padded bs off), map mch (padded bs off)).
Proof. apply make_filter_fuel_padded. lia. Qed.

(** The recursion equation of the Go function, without fuel. *)
Lemma make_filter_eq bs off : make_filter bs off = make_filter_body make_filter bs off.
Proof.
  unfold make_filter at 1. rewrite make_filter_fuel_S. unfold make_filter_body.
  destruct (byte_length <? List.length bs + off mod byte_length) eqn:E2; [|reflexivity].
  rewrite make_filter_padded, make_filter_fuel_padded; [reflexivity|].
  rewrite skipn_length. apply Nat.ltb_lt in E2. unfold byte_length in *.
  assert (off mod 8 < 8) by (apply Nat.mod_upper_bound; lia).
  destruct (Nat.ltb_spec (8 - off mod 8) (length bs)); lia.
Qed.

Lemma padded_length bs off :
  length (padded bs off) = 8 * (Nat.max 1 ((off mod 8 + length bs + 7) / 8)).
Proof.
  unfold padded. rewrite !app_length, !repeat_length. unfold padr.
  assert (off mod 8 < 8) by (apply Nat.mod_upper_bound; lia).
  destruct (Nat.eqb_spec (off mod 8 + length bs) 0); lia.
Qed.

(** ** Bits of the pattern *)
Definition fbit (c : ascii) : bool := Ascii.eqb c cx || Ascii.eqb c c1.
Definition mbit (c : ascii) : bool := Ascii.eqb c cx.
Definition agreeb (c : ascii) (b : bool) : bool := Bool.eqb (b || mbit c) (fbit c).

Lemma agreeb_spec c b : (c = c0 \/ c = c1 \/ c = cx) -> agreeb c b = true <-> agrees c b.
Proof.
  unfold agrees.
  intros [-> | [-> | ->]]; destruct b; cbn; split; intros H; auto; try discriminate;
    destruct H as [H|[[H1 H2]|[H1 H2]]]; discriminate.
Qed.

Lemma is_pattern_padded bs off : is_pattern bs -> is_pattern (padded bs off).
Proof.
  intros H. unfold padded, is_pattern in *.
  rewrite !Forall_app. repeat split; auto; apply Forall_forall; intros c Hc;
    apply repeat_spec in Hc; subst; auto.
Qed.
Lemma chars_fch P : is_pattern P -> chars_to_bits (map fch P) = Some (map fbit P).
Proof.
  induction 1 as [|c P Hc _ IH]; cbn; auto. rewrite IH.
  destruct Hc as [-> | [-> | ->]]; reflexivity.
Qed.
Lemma chars_mch P : chars_to_bits (map mch P) = Some (map mbit P).
Proof.
  induction P as [|c P IH]; cbn; auto. rewrite IH. unfold mch, mbit.
  destruct (Ascii.eqb c cx); reflexivity.
Qed.

(** Matching pattern characters against bits, one by one; running out of bits
    is a panic. *)
Fixpoint bmatch (P : gostring) (bits : list bool) : result bool :=
  match P with
  | [] => Ok true
  | c :: P' => match bits with
               | [] => Panic
               | b :: bits' => if agreeb c b then bmatch P' bits' else Ok false
               end
  end.

Fixpoint match_bytes (ids M F : list N) {struct F} : result bool :=
  match F, M with
  | a :: F', m :: M' =>
      match ids with
      | [] => Panic
      | b :: ids' => if N.eqb (N.lxor (N.lor b m) a) 0 then match_bytes ids' M' F' else Ok false
      end
  | _, _ => Ok true
  end.

Lemma skipn_nth {A} (l : list A) i a : nth_error l i = Some a -> skipn i l = a :: skipn (S i) l.
Proof.
  revert l; induction i as [|i IH]; intros [|x l] H; cbn in *; try discriminate.
  - injection H as ->. reflexivity.
  - apply IH; auto.
Qed.
Lemma skipn_none {A} (l : list A) i : nth_error l i = None -> skipn i l = [].
Proof. intros H. apply nth_error_None in H. apply skipn_all2; auto. Qed.

Lemma match_loop_bytes f id i n :
  length (fo_mask f) = length (fo_filter f) -> i + n = length (fo_filter f) ->
  match_loop f id i n
  = match_bytes (skipn (fo_byte_offset f + i) id) (skipn i (fo_mask f)) (skipn i (fo_filter f)).
Proof.
  intros HL. revert i; induction n as [|n IH]; intros i Hi; cbn [match_loop].
  - rewrite (skipn_all2 (fo_filter f)) by lia. reflexivity.
  - destruct (nth_error (fo_filter f) i) as [a|] eqn:Ea.
    2:{ apply nth_error_None in Ea. lia. }
    destruct (nth_error (fo_mask f) i) as [m|] eqn:Em.
    2:{ apply nth_error_None in Em. lia. }
    rewrite (skipn_nth _ _ _ Ea), (skipn_nth _ _ _ Em). cbn [match_bytes].
    unfold index. destruct (nth_error id (fo_byte_offset f + i)) as [b|] eqn:Eb; cbn [bind].
    + rewrite Em, Ea. cbn [bind]. rewrite (skipn_nth _ _ _ Eb). 
      destruct (N.eqb _ 0); auto. rewrite IH by lia.
      rewrite Nat.add_succ_r. reflexivity.
    + rewrite (skipn_none _ _ Eb). reflexivity.
Qed.

Lemma byte_test b m a : (b < 256)%N -> (m < 256)%N -> (a < 256)%N ->
  (N.lxor (N.lor b m) a =? 0)%N
  = forallb (fun k => Bool.eqb (N.testbit b k || N.testbit m k) (N.testbit a k)) [7;6;5;4;3;2;1;0]%N.
Proof.
  intros Hb Hm Ha. apply eq_true_iff_eq. rewrite N.eqb_eq, N.lxor_eq_0_iff, forallb_forall. split.
  - intros <- k _. rewrite N.lor_spec. apply Bool.eqb_reflx.
  - intros H. assert (N.lor b m < 256)%N as Hl.
    { change 256%N with (2 ^ 8)%N in *. destruct (N.eq_dec (N.lor b m) 0) as [->|Hz]; [reflexivity|].
      apply N.log2_lt_pow2; [lia|]. rewrite N.log2_lor.
      destruct (N.eq_dec b 0) as [->|Hb0], (N.eq_dec m 0) as [->|Hm0];
        try (rewrite N.log2_nonpos by lia);
        try apply N.max_lub_lt; try (cbn; lia); try (apply N.log2_lt_pow2; lia);
        try (rewrite N.log2_nonpos by lia; lia). }
    apply N.bits_inj. intros k. rewrite N.lor_spec. destruct (N.ltb_spec k 8).
    + apply Bool.eqb_prop. apply H. cbn. lia.
    + rewrite <- N.lor_spec. 
      assert (forall x, (x < 256)%N -> N.testbit x k = false) as Hz.
      { intros x Hx. destruct (N.eq_dec x 0) as [->|]; [apply N.bits_0|].
        apply N.bits_above_log2. assert (N.log2 x < 8)%N; [|lia].
        apply N.log2_lt_pow2; [lia|]. change (2^8)%N with 256%N. auto. }
      rewrite !Hz; auto.
Qed.

Lemma match_bytes_bits ids M F P :
  wf_bytes ids -> wf_bytes M -> wf_bytes F -> length M = length F ->
  bits_of_bytes M = map mbit P -> bits_of_bytes F = map fbit P ->
  match_bytes ids M F = bmatch P (bits_of_bytes ids).
Proof.
  intros Wi. revert M F P; induction Wi as [|b ids Hb Wi IH]; intros M F P WM WF HL HM HF.
  - destruct F as [|a F], M as [|m M]; cbn in HL; try discriminate.
    + destruct P; [reflexivity|discriminate].
    + destruct P; [discriminate|reflexivity].
  - destruct F as [|a F], M as [|m M]; cbn in HL; try discriminate.
    + destruct P; [reflexivity|discriminate].
    + rewrite bits_of_bytes_cons in HM, HF.
      do 8 (destruct P as [|? P]; [discriminate|]).
      inversion WM; inversion WF; subst.
      cbn [match_bytes]. rewrite byte_test by auto.
      rewrite bits_of_bytes_cons.
      unfold bits_of_byte in *. cbn [map app forallb] in *.
      injection HM as M7 M6 M5 M4 M3 M2 M1 M0 HM.
      injection HF as F7 F6 F5 F4 F3 F2 F1 F0 HF.
      cbn [bmatch]. unfold agreeb. rewrite <- F7, <- F6, <- F5, <- F4, <- F3, <- F2, <- F1, <- F0.
      rewrite <- M7, <- M6, <- M5, <- M4, <- M3, <- M2, <- M1, <- M0.
      repeat (destruct (Bool.eqb (_ || _) _); cbn [andb]; [|reflexivity]).
      apply IH; auto.
Qed.

Lemma new_filter_bits pat off : is_pattern pat ->
  exists F M,
    new_filter pat off = {| fo_string := pat; fo_size := length pat; fo_offset := off;
      fo_filter := F; fo_mask := M; fo_byte_offset := off / 8;
      fo_byte_size := length F |} /\
    bits_of_bytes F = map fbit (padded pat off) /\ wf_bytes F /\
    bits_of_bytes M = map mbit (padded pat off) /\ wf_bytes M /\
    length M = length F /\
    length F = Nat.max 1 ((off mod 8 + length pat + 7) / 8).
Proof.
  intros HP. unfold new_filter. rewrite make_filter_padded.
  apply (is_pattern_padded pat off) in HP.
  destruct (bytes_of_bits_total (map fbit (padded pat off)) (Nat.max 1 ((off mod 8 + length pat + 7) / 8)))
    as [F [HF LF]]; [rewrite map_length; apply padded_length|].
  destruct (bytes_of_bits_total (map mbit (padded pat off)) (Nat.max 1 ((off mod 8 + length pat + 7) / 8)))
    as [M [HM LM]]; [rewrite map_length; apply padded_length|].
  unfold binstr_to_bytes. rewrite chars_fch, chars_mch, HF, HM by auto. cbn [or_empty].
  exists F, M. apply bytes_of_bits_spec in HF, HM. intuition congruence.
Qed.

Lemma match_filter_bmatch pat off id : is_pattern pat -> wf_bytes id ->
  match_filter (new_filter pat off) id
  = bmatch (padded pat off) (skipn (8 * (off / 8)) (bits_of_bytes id)).
Proof.
  intros HP Wi. destruct (new_filter_bits pat off HP) as (F & M & -> & HF & WF & HM & WM & HL & HN).
  unfold match_filter. rewrite match_loop_bytes; cbn [fo_mask fo_filter fo_byte_size fo_byte_offset]; auto.
  rewrite Nat.add_0_r. cbn [skipn].
  rewrite (match_bytes_bits _ _ _ (padded pat off)); auto.
  - rewrite bits_of_bytes_skipn. reflexivity.
  - apply Forall_forall. intros x Hx. unfold wf_bytes in Wi. rewrite Forall_forall in Wi.
    apply Wi. rewrite <- (firstn_skipn (off / 8) id). apply in_or_app; auto.
Qed.

(** ** Meaning of [bmatch] *)
Lemma bmatch_not_err P bits : bmatch P bits <> Err.
Proof.
  revert bits; induction P as [|c P IH]; intros [|b bits]; cbn; try discriminate.
  destruct (agreeb c b); [apply IH|discriminate].
Qed.
Lemma bmatch_true P bits :
  bmatch P bits = Ok true <->
  forall i c, nth_error P i = Some c -> exists b, nth_error bits i = Some b /\ agreeb c b = true.
Proof.
  revert bits; induction P as [|c P IH]; intros bits; cbn.
  - split; auto. intros _ [|i] c; discriminate.
  - destruct bits as [|b bits].
    + split; [discriminate|]. intros H. destruct (H 0 c eq_refl) as [b [Hb _]]. discriminate.
    + destruct (agreeb c b) eqn:E.
      * rewrite IH. split.
        -- intros H [|i] c' Hc; cbn in *; [injection Hc as <-; eauto|apply H; auto].
        -- intros H i c' Hc. apply (H (S i)); auto.
      * split; [discriminate|]. intros H. destruct (H 0 c eq_refl) as [b' [Hb Hb']].
        injection Hb as <-. congruence.
Qed.
Lemma bmatch_panic P bits :
  bmatch P bits = Panic <->
  length bits < length P /\
  forall i c b, nth_error P i = Some c -> nth_error bits i = Some b -> agreeb c b = true.
Proof.
  revert bits; induction P as [|c P IH]; intros bits; cbn.
  - split; [discriminate|lia].
  - destruct bits as [|b bits]; cbn.
    + split; auto. intros _. split; [lia|]. intros [|i] ? ?; discriminate.
    + destruct (agreeb c b) eqn:E.
      * rewrite IH. split.
        -- intros [H1 H2]. split; [lia|]. intros [|i] c' b' Hc Hb'; cbn in *; [congruence|eauto].
        -- intros [H1 H2]. split; [lia|]. intros i c' b' Hc Hb'. apply (H2 (S i) c' b'); auto.
      * split; [discriminate|]. intros [_ H]. specialize (H 0 c b eq_refl eq_refl). congruence.
Qed.

Lemma nth_error_skipn {A} (l : list A) k i : nth_error (skipn k l) i = nth_error l (k + i).
Proof.
  revert l; induction k as [|k IH]; intros l; auto.
  destruct l as [|a l]; cbn; [destruct i; auto|apply IH].
Qed.

(** Where a character of the padded pattern comes from. *)
Lemma padded_nth pat off i c :
  nth_error (padded pat off) i = Some c ->
  c = cx \/ (off mod 8 <= i /\ nth_error pat (i - off mod 8) = Some c).
Proof.
  unfold padded. intros H.
  destruct (Nat.lt_ge_cases i (off mod 8)).
  - rewrite nth_error_app1 in H by (rewrite repeat_length; auto).
    apply nth_error_In, repeat_spec in H. auto.
  - rewrite nth_error_app2, repeat_length in H by (rewrite repeat_length; auto).
    destruct (Nat.lt_ge_cases (i - off mod 8) (length pat)).
    + rewrite nth_error_app1 in H by auto. auto.
    + rewrite nth_error_app2 in H by auto. apply nth_error_In, repeat_spec in H. auto.
Qed.
Lemma nth_padded pat off j c :
  nth_error pat j = Some c -> nth_error (padded pat off) (off mod 8 + j) = Some c.
Proof.
  intros H. unfold padded. rewrite nth_error_app2, repeat_length by (rewrite repeat_length; lia).
  replace (off mod 8 + j - off mod 8) with j by lia.
  rewrite nth_error_app1; auto. apply nth_error_Some. congruence.
Qed.

Lemma need_length pat off (id : list N) :
  length (skipn (8 * (off / 8)) (bits_of_bytes id)) < length (padded pat off)
  <-> length id < bytes_needed pat off.
Proof.
  rewrite skipn_length, bits_of_bytes_length, padded_length. unfold bytes_needed. lia.
Qed.

Lemma is_pattern_nth pat i c : is_pattern pat -> nth_error pat i = Some c ->
  c = c0 \/ c = c1 \/ c = cx.
Proof.
  intros H Hc. apply nth_error_In in Hc. unfold is_pattern in H. rewrite Forall_forall in H.
  apply (H c Hc).
Qed.

Lemma off_split off j : 8 * (off / 8) + (off mod 8 + j) = off + j.
Proof. lia. Qed.

(** Matching returns true exactly when the id reaches far enough and its bits are
    those of the pattern. *)
Lemma match_filter_true pat off id : is_pattern pat -> wf_bytes id ->
  match_filter (new_filter pat off) id = Ok true <->
  bytes_needed pat off <= length id /\ matches_at pat off id.
Proof.
  intros HP Wi. rewrite match_filter_bmatch by auto. rewrite bmatch_true. split.
  - intros H. assert (bytes_needed pat off <= length id) as HN.
    { destruct (Nat.lt_ge_cases (length id) (bytes_needed pat off)) as [HL|]; auto.
      apply need_length in HL. exfalso.
      destruct (nth_error (padded pat off) (length (padded pat off) - 1)) as [c|] eqn:E.
      - destruct (H _ _ E) as [b [Hb _]].
        assert (length (padded pat off) - 1 < length (skipn (8 * (off / 8)) (bits_of_bytes id)))
          by (apply nth_error_Some; congruence).
        lia.
      - apply nth_error_None in E. pose proof (padded_length pat off). lia. }
    split; auto. intros j c Hc.
    destruct (H _ _ (nth_padded pat off j c Hc)) as [b [Hb Ha]].
    rewrite nth_error_skipn, off_split in Hb. exists b. split; auto.
    apply agreeb_spec; eauto using is_pattern_nth.
  - intros [HN H] i c Hc.
    assert (i < length (skipn (8 * (off / 8)) (bits_of_bytes id))) as Hi.
    { assert (i < length (padded pat off)) by (apply nth_error_Some; congruence).
      pose proof (need_length pat off id). lia. }
    apply nth_error_Some in Hi.
    destruct (nth_error (skipn (8 * (off / 8)) (bits_of_bytes id)) i) as [b|] eqn:Eb; [|congruence].
    exists b; split; auto.
    destruct (padded_nth pat off i c Hc) as [->|[Hge Hp]].
    + destruct b; reflexivity.
    + destruct (H _ _ Hp) as [b' [Hb' Ha]].
      rewrite nth_error_skipn in Eb. replace (off + (i - off mod 8)) with (8 * (off / 8) + i) in Hb' by lia.
      assert (b = b') by congruence. subst. apply agreeb_spec; eauto using is_pattern_nth.
Qed.
Lemma match_filter_panic pat off id : is_pattern pat -> wf_bytes id ->
  match_filter (new_filter pat off) id = Panic <->
  length id < bytes_needed pat off /\ compatible_at pat off id.
Proof.
  intros HP Wi. rewrite match_filter_bmatch by auto. rewrite bmatch_panic, need_length.
  apply and_iff_compat_l. split.
  - intros H j c b Hc Hb. apply agreeb_spec; eauto using is_pattern_nth.
    apply (H (off mod 8 + j)); [apply nth_padded; auto|].
    rewrite nth_error_skipn, off_split. auto.
  - intros H i c b Hc Hb. destruct (padded_nth pat off i c Hc) as [->|[Hge Hp]].
    + destruct b; reflexivity.
    + apply agreeb_spec; eauto using is_pattern_nth. apply (H _ _ b Hp).
      rewrite nth_error_skipn in Hb. rewrite <- Hb. f_equal. lia.
Qed.
Lemma match_filter_not_err pat off id : is_pattern pat -> wf_bytes id ->
  match_filter (new_filter pat off) id <> Err.
Proof. intros. rewrite match_filter_bmatch by auto. apply bmatch_not_err. Qed.

(** C01 *)
Lemma match_exact pat off id : is_pattern pat -> wf_bytes id -> bytes_needed pat off <= length id ->
  exists b, match_filter (new_filter pat off) id = Ok b /\ (b = true <-> matches_at pat off id).
Proof.
  intros HP Wi HN. destruct (match_filter (new_filter pat off) id) as [b| |] eqn:E.
  - exists b; split; auto. split.
    + intros ->. apply match_filter_true in E; tauto.
    + intros H. assert (match_filter (new_filter pat off) id = Ok true) by
        (apply match_filter_true; auto). congruence.
  - exfalso. eapply match_filter_not_err; eauto.
  - exfalso. apply match_filter_panic in E; auto. lia.
Qed.

(** ** IsTransparent *)
Lemma bytes_eqb_eq a b : bytes_eqb a b = true <-> a = b.
Proof.
  revert b; induction a as [|x a IH]; intros [|y b]; cbn; try (split; congruence).
  rewrite andb_true_iff, N.eqb_eq, IH. split; [intros [-> ->]; auto|].
  intros H; injection H; auto.
Qed.
Lemma bits_of_bytes_inj a b : wf_bytes a -> wf_bytes b -> bits_of_bytes a = bits_of_bytes b -> a = b.
Proof.
  intros Wa Wb H. assert (Some a = Some b); [|congruence].
  rewrite <- !bytes_of_bits_of_bytes by auto. congruence.
Qed.
Lemma bits_of_255 n : bits_of_bytes (repeat 255%N n) = repeat true (8 * n).
Proof.
  induction n as [|n IH]; auto. cbn [repeat]. rewrite bits_of_bytes_cons, IH.
  replace (8 * S n) with (8 + 8 * n) by lia. rewrite repeat_app. reflexivity.
Qed.
Lemma wf_255 n : wf_bytes (repeat 255%N n).
Proof. apply Forall_forall. intros x Hx. apply repeat_spec in Hx. subst. reflexivity. Qed.
Lemma map_const_true {A} (g : A -> bool) l : map g l = repeat true (length l) <-> forall a, In a l -> g a = true.
Proof.
  induction l as [|a l IH]; cbn; [tauto|]. split.
  - intros H. injection H as H1 H2. intros x [<-|Hx]; auto. apply IH; auto.
  - intros H. rewrite (H a), (proj2 IH); auto.
Qed.

Lemma is_transparent_x pat off : is_pattern pat ->
  is_transparent (new_filter pat off) = true <-> Forall (fun c => c = "x"%char) pat.
Proof.
  intros HP. destruct (new_filter_bits pat off HP) as (F & M & -> & HF & WF & HM & WM & HL & HN).
  unfold is_transparent. cbn [fo_filter fo_mask fo_byte_size].
  rewrite andb_true_iff, !bytes_eqb_eq.
  assert (8 * length F = length (padded pat off)) as HLP by (rewrite padded_length; lia).
  split.
  - intros [_ H]. rewrite H, bits_of_255, HLP in HM. symmetry in HM.
    apply Forall_forall. intros c Hc.
    apply Ascii.eqb_eq. apply (proj1 (map_const_true mbit (padded pat off)) HM c).
    unfold padded. apply in_or_app; right. apply in_or_app; auto.
  - intros H. rewrite Forall_forall in H.
    assert (forall c, In c (padded pat off) -> c = cx) as Hall.
    { unfold padded. intros c Hc. rewrite !in_app_iff in Hc.
      destruct Hc as [Hc|[Hc|Hc]]; auto; apply repeat_spec in Hc; auto. }
    split; apply bits_of_bytes_inj; auto using wf_255; rewrite bits_of_255.
    + rewrite HF, HLP. apply map_const_true. intros c Hc. rewrite (Hall c Hc). reflexivity.
    + rewrite HM, HLP. apply map_const_true. intros c Hc. rewrite (Hall c Hc). reflexivity.
Qed.

(** An identifier that contradicts a pattern with a fixed bit. *)
Lemma contradicting_id pat off : is_pattern pat -> ~ Forall (fun c => c = "x"%char) pat ->
  exists id, wf_bytes id /\ length id = bytes_needed pat off /\ ~ matches_at pat off id.
Proof.
  intros HP HX.
  assert (exists j c, nth_error pat j = Some c /\ c <> cx) as (j & c & Hj & Hc).
  { clear HP. induction pat as [|a pat IH]; [exfalso; apply HX; constructor|].
    destruct (ascii_dec a cx) as [->|Ha].
    - destruct IH as (j & c & H1 & H2); [|exists (S j), c; auto].
      intros H. apply HX. constructor; auto.
    - exists 0, a; auto. }
  exists (repeat (if Ascii.eqb c c1 then 0 else 255)%N (bytes_needed pat off)).
  repeat split.
  - apply Forall_forall. intros x Hx. apply repeat_spec in Hx. subst. destruct (Ascii.eqb c c1); reflexivity.
  - apply repeat_length.
  - intros H. destruct (H j c Hj) as [b [Hb Ha]].
    assert (forall v n i b, nth_error (bits_of_bytes (repeat v n)) i = Some b ->
              exists k, (k < 8)%N /\ b = N.testbit v k) as HT.
    { clear. intros v n. induction n as [|n IH]; intros i b H.
      - destruct i; discriminate.
      - cbn [repeat] in H. rewrite bits_of_bytes_cons in H.
        destruct (Nat.lt_ge_cases i 8).
        + rewrite nth_error_app1 in H by auto. apply nth_error_In in H.
          apply in_map_iff in H. destruct H as [k [<- Hk]]. exists k. split; auto.
          cbn in Hk. lia.
        + rewrite nth_error_app2 in H by auto. eauto. }
    apply HT in Hb. destruct Hb as [k [Hk ->]].
    assert (forall k, (k < 8)%N -> N.testbit 255 k = true) as H255.
    { clear. intros k Hk. change 255%N with (N.ones 8). apply N.ones_spec_low. auto. }
    destruct Ha as [Ha|[[-> Ha]|[-> Ha]]]; [contradiction| |].
    + change (Ascii.eqb "1" c1) with true in Ha. cbn iota in Ha.
      rewrite N.bits_0 in Ha. discriminate.
    + change (Ascii.eqb "0" c1) with false in Ha. cbn iota in Ha.
      rewrite H255 in Ha by auto. discriminate.
Qed.

Lemma transparent_iff pat off : is_pattern pat ->
  is_transparent (new_filter pat off) = true <->
  forall id, wf_bytes id -> bytes_needed pat off <= length id ->
             match_filter (new_filter pat off) id = Ok true.
Proof.
  intros HP. rewrite is_transparent_x by auto. split.
  - intros HX id Wi HL. apply match_filter_true; auto. split; auto.
    intros i c Hc. assert (c = cx).
    { apply nth_error_In in Hc. rewrite Forall_forall in HX. auto. }
    subst. destruct (nth_error (bits_of_bytes id) (off + i)) as [b|] eqn:E.
    + exists b; split; auto. left; auto.
    + exfalso. apply nth_error_None in E. rewrite bits_of_bytes_length in E.
      assert (i < length pat) by (apply nth_error_Some; congruence).
      unfold bytes_needed in HL. lia.
  - intros H. assert ({Forall (fun c => c = "x"%char) pat} + {~ Forall (fun c => c = "x"%char) pat}) as [|HX]
      by (apply Forall_dec; intros; apply ascii_dec); auto.
    exfalso. destruct (contradicting_id pat off HP HX) as (id & Wi & HL & HM).
    apply HM. apply (match_filter_true pat off id); auto. apply H; auto. lia.
Qed.

(** ** HasByteAt and GetByteAt *)
Lemma has_byte_at_spec pat off (bo : Z) : is_pattern pat ->
  has_byte_at (new_filter pat off) bo = true <->
  (Z.of_nat (off / 8) <= bo < Z.of_nat (bytes_needed pat off))%Z.
Proof.
  intros HP. destruct (new_filter_bits pat off HP) as (F & M & -> & HF & WF & HM & WM & HL & HN).
  unfold has_byte_at. cbn [fo_byte_offset fo_byte_size]. rewrite HN. unfold bytes_needed.
  destruct (Z.ltb_spec bo (Z.of_nat (off / 8))).
  - split; [discriminate|lia].
  - destruct (Z.leb_spec (Z.of_nat (off / 8) + Z.of_nat (Nat.max 1 ((off mod 8 + length pat + 7) / 8))) bo);
      split; auto; try discriminate; try lia.
Qed.
Lemma get_byte_loop_spec f bo i n :
  length (fo_mask f) = length (fo_filter f) -> i + n = length (fo_filter f) ->
  get_byte_loop f bo i n =
  (if ((Z.of_nat (fo_byte_offset f) + Z.of_nat i <=? bo) &&
       (bo <? Z.of_nat (fo_byte_offset f) + Z.of_nat (i + n)))%Z
   then match nth_error (fo_filter f) (Z.to_nat (bo - Z.of_nat (fo_byte_offset f))),
              nth_error (fo_mask f) (Z.to_nat (bo - Z.of_nat (fo_byte_offset f))) with
        | Some a, Some m => Ok (a, m) | _, _ => Panic end
   else Err).
Proof.
  intros HL. revert i; induction n as [|n IH]; intros i Hi; cbn [get_byte_loop].
  - replace (_ && _)%Z with false by lia. reflexivity.
  - destruct (Z.eqb_spec bo (Z.of_nat (fo_byte_offset f) + Z.of_nat i)).
    + replace (_ && _)%Z with true by lia.
      replace (Z.to_nat (bo - Z.of_nat (fo_byte_offset f))) with i by lia.
      unfold index. destruct (nth_error (fo_filter f) i), (nth_error (fo_mask f) i); reflexivity.
    + rewrite IH by lia.
      replace ((Z.of_nat (fo_byte_offset f) + Z.of_nat (S i) <=? bo) &&
               (bo <? Z.of_nat (fo_byte_offset f) + Z.of_nat (S i + n)))%Z
        with ((Z.of_nat (fo_byte_offset f) + Z.of_nat i <=? bo) &&
               (bo <? Z.of_nat (fo_byte_offset f) + Z.of_nat (i + S n)))%Z by lia.
      reflexivity.
Qed.

(** The pair of bytes decides the eight pattern positions of that byte. *)
Lemma get_byte_at_spec pat off (k : nat) : is_pattern pat ->
  (off / 8 <= k < bytes_needed pat off ->
   exists a m, get_byte_at (new_filter pat off) (Z.of_nat k) = Ok (a, m) /\
     forall b, (b < 256)%N ->
       (N.lxor (N.lor b m) a = 0%N <->
        forall j c v, j < 8 -> off <= 8 * k + j -> nth_error pat (8 * k + j - off) = Some c ->
          nth_error (bits_of_byte b) j = Some v -> agrees c v)) /\
  (~ (off / 8 <= k < bytes_needed pat off) -> get_byte_at (new_filter pat off) (Z.of_nat k) = Err).
Proof.
  intros HP. split.
  - intros HK.
    assert (has_byte_at (new_filter pat off) (Z.of_nat k) = true) as HB
      by (apply has_byte_at_spec; auto; lia).
    unfold get_byte_at. rewrite HB.
    destruct (new_filter_bits pat off HP) as (F & M & -> & HF & WF & HM & WM & HL & HN).
    rewrite get_byte_loop_spec; cbn [fo_mask fo_filter fo_byte_size fo_byte_offset]; auto.
    assert (k < off / 8 + length F) as HKF by (rewrite HN; unfold bytes_needed in HK; lia).
    replace (_ && _)%Z with true by lia.
    replace (Z.to_nat (Z.of_nat k - Z.of_nat (off / 8))) with (k - off / 8) by lia.
    set (i := k - off / 8).
    destruct (nth_error F i) as [a|] eqn:Ea; [|apply nth_error_None in Ea; lia].
    destruct (nth_error M i) as [m|] eqn:Em; [|apply nth_error_None in Em; lia].
    exists a, m. split; auto. intros b Hb.
    assert (a < 256)%N as Ha by (apply nth_error_In in Ea; unfold wf_bytes in WF; rewrite Forall_forall in WF; auto).
    assert (m < 256)%N as Hm by (apply nth_error_In in Em; unfold wf_bytes in WM; rewrite Forall_forall in WM; auto).
    (* the eight characters of this byte *)
    assert (forall B g v, wf_bytes B -> bits_of_bytes B = map g (padded pat off) -> nth_error B i = Some v ->
              forall j, j < 8 -> nth_error (map (N.testbit v) [7;6;5;4;3;2;1;0]%N) j
                        = option_map g (nth_error (padded pat off) (8 * i + j))) as Hbits.
    { intros B g v WB HBB Hv j Hj. rewrite <- nth_error_map, <- HBB.
      rewrite <- nth_error_skipn, <- bits_of_bytes_skipn, (skipn_nth _ _ _ Hv), bits_of_bytes_cons.
      rewrite nth_error_app1 by auto. reflexivity. }
    pose proof (Hbits F fbit a WF HF Ea) as HA. pose proof (Hbits M mbit m WM HM Em) as HMm.
    clear Hbits.
    transitivity (forall j, j < 8 -> forall c v, nth_error (padded pat off) (8 * i + j) = Some c ->
                    nth_error (bits_of_byte b) j = Some v -> agreeb c v = true).
    + rewrite <- N.eqb_eq, byte_test by auto. rewrite forallb_forall. split.
      * intros H j Hj c v Hc Hv.
        specialize (HA j Hj). specialize (HMm j Hj). rewrite Hc in HA, HMm. cbn [option_map] in HA, HMm.
        unfold agreeb.
        do 8 (destruct j as [|j]; [cbn in HA, HMm, Hv; injection HA as <-; injection HMm as <-;
          injection Hv as <-; apply H; cbn; tauto|]). lia.
      * intros H kk Hkk.
        assert (exists j, j < 8 /\ nth_error [7;6;5;4;3;2;1;0]%N j = Some kk) as (j & Hj & Hjk).
        { apply In_nth_error in Hkk. destruct Hkk as [j Hj]. exists j. split; auto.
          change 8 with (length [7;6;5;4;3;2;1;0]%N). apply nth_error_Some. congruence. }
        specialize (HA j Hj). specialize (HMm j Hj). rewrite nth_error_map, Hjk in HA, HMm.
        cbn [option_map] in HA, HMm.
        destruct (nth_error (padded pat off) (8 * i + j)) as [c|] eqn:Ec; [|discriminate].
        cbn [option_map] in HA, HMm. injection HA as HA. injection HMm as HMm.
        rewrite HA, HMm. apply (H j Hj c); auto.
        unfold bits_of_byte. rewrite nth_error_map, Hjk. reflexivity.
    + split.
      * intros H j c v Hj Hoff Hc Hv. apply agreeb_spec; eauto using is_pattern_nth.
        apply (H j Hj c v); auto.
        replace (8 * i + j) with (off mod 8 + (8 * k + j - off)) by (unfold i; lia).
        apply nth_padded; auto.
      * intros H j Hj c v Hc Hv. destruct (padded_nth pat off _ c Hc) as [->|[Hge Hp]].
        -- destruct v; reflexivity.
        -- apply agreeb_spec; eauto using is_pattern_nth. apply (H j c v); auto.
           ++ unfold i in *; lia.
           ++ rewrite <- Hp. f_equal. unfold i in *; lia.
  - intros HK. unfold get_byte_at.
    destruct (has_byte_at (new_filter pat off) (Z.of_nat k)) eqn:E; auto.
    apply has_byte_at_spec in E; auto. lia.
Qed.
Lemma get_byte_at_negative pat off bo : is_pattern pat -> (bo < 0)%Z ->
  get_byte_at (new_filter pat off) bo = Err.
Proof.
  intros HP H. unfold get_byte_at.
  destruct (has_byte_at (new_filter pat off) bo) eqn:E; auto.
  apply has_byte_at_spec in E; auto. lia.
Qed.

Lemma match_only_covered pat off id id' :
  is_pattern pat -> wf_bytes id -> wf_bytes id' ->
  bytes_needed pat off <= length id -> bytes_needed pat off <= length id' ->
  (forall i, i < length pat -> nth_error (bits_of_bytes id) (off + i) = nth_error (bits_of_bytes id') (off + i)) ->
  match_filter (new_filter pat off) id = match_filter (new_filter pat off) id'.
Proof.
  intros HP W W' HL HL' HB.
  destruct (match_exact pat off id HP W HL) as (b & -> & Hb).
  destruct (match_exact pat off id' HP W' HL') as (b' & -> & Hb').
  f_equal. apply eq_true_iff_eq. rewrite Hb, Hb'. unfold matches_at.
  split; intros H i c Hc; destruct (H i c Hc) as [v [Hv Ha]]; exists v; split; auto;
    rewrite <- Hv; [symmetry|]; apply HB; apply nth_error_Some; congruence.
Qed.
