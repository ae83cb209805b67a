(** Prefix filters of EPC patterns. *)
From Verif Require Import GoBase BinUtil MFilter MTdtEpc MTdtIso MTdtCore MScheme MSubs MList Spec SpecEpc PBase PNum PTdt PTdt2 PMatch PEpc PFilter PList PSubs PSubs2.
From Coq Require Import Lia ZifyBool ZifyNat ZifyN.
Ltac Zify.zify_post_hook ::= Z.div_mod_to_equations.

(** The bits a pattern prescribes. *)
Definition pat_bits (p : epc_pattern) : list bool :=
  let f := p_fields p in let k := p_scheme p in
  match p_count p with
  | 0 => []
  | 1 => head_bits k ++ f_bits f ++ []
  | 2 => head_bits k ++ f_bits f ++ p_bits_of f ++ cp_bits_of f ++ []
  | 3 => head_bits k ++ f_bits f ++ p_bits_of f ++ cp_bits_of f ++ ref_bits_of k f ++ []
  | _ => head_bits k ++ f_bits f ++ p_bits_of f ++ cp_bits_of f ++ ref_bits_of k f ++ bits_w 38 (dec_value (f_ser f)) ++ []
  end.

Lemma make_prefix_pattern E p : pattern_ok p ->
  make_prefix_filter_string E (pattern_type (p_scheme p)) (firstn (p_count p) (field_texts (p_fields p))) = Ok (bits_to_str (pat_bits p)).
Proof.
  destruct p as [k n f]. unfold pattern_ok. cbn [p_scheme p_count p_fields]. intros (HN & (F1 & F2) & C & R & S).
  assert (make_prefix_filter_string E (pattern_type k) (firstn n (field_texts f)) =
    match k with
    | Sgtin => new_prefix_filter_sgtin96 E (firstn n (field_texts f))
    | Sscc => new_prefix_filter_sscc96 E (firstn n (field_texts f))
    | Grai => new_prefix_filter_grai96 E (firstn n (field_texts f))
    | Giai => new_prefix_filter_giai96 E (firstn n (field_texts f))
    end) as -> by (destruct k; reflexivity).
  assert (2 <= n -> get_company_prefix E (f_cp f) (t_table k) = bits_to_str (cp_bits_of f) /\
                    partition_bits (t_table k) (f_cp f) = bits_to_str (p_bits_of f)) as GC.
  { intros H2. destruct (C H2) as [D L]. unfold cp_length_ok in L. split; [|apply partition_bits_fits; auto].
    rewrite get_cp_padded by apply D. destruct (t_row k _ L) as (_ & -> & _). pose proof (cp_bits_range _ L).
    apply padded_fits; auto; try lia. apply cp_fits; auto. }
  assert (3 <= n -> get_ref E (f_ref f) (pt_row (t_table k) (length (f_cp f))) = bits_to_str (ref_bits_of k f)) as GR.
  { intros H3. destruct (R H3) as [D V]. destruct C as [_ L]; [lia|]. unfold cp_length_ok in L.
    rewrite get_ref_padded by apply D. destruct (t_row k _ L) as (_ & _ & ->). pose proof (ref_bits_range k _ L).
    apply padded_fits; auto; lia. }
  assert (4 <= n -> get_serial E (f_ser f) 38 = bits_to_str (bits_w 38 (dec_value (f_ser f)))) as GS.
  { intros H4. destruct (S H4) as [D V]. rewrite get_serial_padded by apply D. apply padded_fits; auto; lia. }
  pose proof (get_filter_fits E _ F1 F2) as GF. fold (f_bits f) in GF.
  unfold pat_bits, field_texts. cbn [p_scheme p_count p_fields]. unfold field_count in HN.
  destruct n as [|[|[|[|[|n]]]]]; [lia| | | | |destruct k; cbn in HN; lia].
  - destruct k; cbn [firstn new_prefix_filter_sgtin96 new_prefix_filter_sscc96 new_prefix_filter_grai96 new_prefix_filter_giai96];
      rewrite GF, !bits_to_str_app; reflexivity.
  - destruct GC as [G1 G2]; [lia|]. destruct k; cbn [firstn new_prefix_filter_sgtin96 new_prefix_filter_sscc96 new_prefix_filter_grai96 new_prefix_filter_giai96 t_table] in *;
      rewrite GF, G1, G2, !bits_to_str_app, app_nil_r; reflexivity.
  - destruct GC as [G1 G2]; [lia|]. pose proof (GR ltac:(lia)) as G3. destruct k; cbn [firstn new_prefix_filter_sgtin96 new_prefix_filter_sscc96 new_prefix_filter_grai96 new_prefix_filter_giai96 t_table] in *;
      rewrite GF, G1, G2, G3, !bits_to_str_app, app_nil_r; reflexivity.
  - destruct GC as [G1 G2]; [lia|]. pose proof (GR ltac:(lia)) as G3. pose proof (GS ltac:(lia)) as G4.
    destruct k; cbn [has_serial] in HN; try lia; cbn [firstn new_prefix_filter_sgtin96 new_prefix_filter_sscc96 new_prefix_filter_grai96 new_prefix_filter_giai96 t_table] in *;
      rewrite GF, G1, G2, G3, G4, !bits_to_str_app, app_nil_r; reflexivity.
Qed.

Lemma pat_bits_length p : pattern_ok p -> 11 <= length (pat_bits p) <= 96.
Proof.
  destruct p as [k n f]. unfold pattern_ok, pat_bits. cbn [p_scheme p_count p_fields]. intros (HN & _ & C & _).
  unfold field_count in HN. assert (2 <= n -> cp_bits (fields_partition f) + ref_bits k (fields_partition f) = pair_bits k) as T.
  { intros H. destruct (C H) as [_ L]. apply total_bits. exact L. }
  unfold head_bits, f_bits, p_bits_of, cp_bits_of, ref_bits_of.
  destruct n as [|[|[|[|n]]]]; rewrite ?app_length, ?bits_w_length; cbn [length];
    try specialize (T ltac:(lia)); destruct k; cbn [pair_bits has_serial] in *; lia.
Qed.
Lemma pat_bits_names p id : pattern_ok p -> length id = 12 -> bprefix (pat_bits p) (bits_of_bytes id) <-> names p id.
Proof.
  destruct p as [k n f]. unfold pattern_ok, pat_bits, names. cbn [p_scheme p_count p_fields]. intros (HN & (F1 & F2) & C & R & S) L.
  unfold field_count in HN. unfold cp_value, ref_value.
  destruct n as [|[|[|[|[|n]]]]]; [lia| | | | |destruct k; cbn in HN; lia].
  - pose proof (bits_of_bytes_length id) as BL. rewrite L in BL.
    unfold head_bits. rewrite (bprefix_field id 0 8 (header k)) by (try apply header_lt; lia).
    unfold f_bits. cbn [Nat.add]. rewrite (bprefix_field id 8 3) by (auto; lia). cbn [Nat.add].
    pose proof (bprefix_nil (skipn 11 (bits_of_bytes id))). split; [intros (? & ? & _); do 2 (split; auto); split; [lia|split; lia]|tauto].
  - destruct C as [D CL]; [lia|]. rewrite (head_prefix k f id L CL), (filter_prefix k f id L CL), (part_prefix k f id L CL), (cp_prefix k f id L CL) by (auto; apply cp_fits; auto).
    split.
    + intros (? & ? & P & ? & _). do 2 (split; auto). rewrite P. split; [auto|split; lia].
    + intros (? & ? & P & _). destruct P as [P Q]; [lia|]. rewrite P in Q. do 4 (split; auto). apply bprefix_nil.
  - destruct C as [D CL]; [lia|]. destruct R as [DR VR]; [lia|].
    rewrite (head_prefix k f id L CL), (filter_prefix k f id L CL), (part_prefix k f id L CL), (cp_prefix k f id L CL), (ref_prefix k f id L CL) by (auto; apply cp_fits; auto).
    split.
    + intros (? & ? & P & ? & ? & _). do 2 (split; auto). rewrite P. split; [auto|split; auto; lia].
    + intros (? & ? & P & Q & _). destruct P as [P P']; [lia|]. specialize (Q ltac:(lia)). rewrite P in *. do 5 (split; auto). apply bprefix_nil.
  - destruct C as [D CL]; [lia|]. destruct R as [DR VR]; [lia|]. destruct S as [DS VS]; [lia|].
    rewrite (head_prefix k f id L CL), (filter_prefix k f id L CL), (part_prefix k f id L CL), (cp_prefix k f id L CL), (ref_prefix k f id L CL) by (auto; apply cp_fits; auto).
    assert (14 + pair_bits k = 58) as -> by (destruct k; cbn [has_serial] in HN; try lia; reflexivity).
    rewrite bprefix_field by (auto; rewrite bits_of_bytes_length, L; lia). fold (serial_value id).
    split.
    + intros (? & ? & P & ? & ? & ? & _). do 2 (split; auto). rewrite P. auto.
    + intros (? & ? & P & Q & W). destruct P as [P P']; [lia|]. specialize (Q ltac:(lia)). specialize (W ltac:(lia)). rewrite P in *. do 6 (split; auto). apply bprefix_nil.
Qed.

Lemma is_bits_bitstring s : is_bits s <-> is_bitstring s.
Proof. reflexivity. Qed.
Lemma pat_has_prefix p id : pattern_ok p -> length id = 12 -> id_has_prefix id (bits_to_str (pat_bits p)) <-> names p id.
Proof.
  intros P L. rewrite id_has_prefix_str by apply is_bits_to_str. unfold idstr. rewrite bprefix_str. apply pat_bits_names; auto.
Qed.
Lemma pat_long_enough p (id : list N) : pattern_ok p -> length id = 12 -> bytes_needed (bits_to_str (pat_bits p)) 0 <= length id.
Proof.
  intros P L. pose proof (pat_bits_length p P). unfold bytes_needed. rewrite bits_to_str_length, L. lia.
Qed.
Lemma pat_match E p id : pattern_ok p -> wf_bytes id -> length id = 12 ->
  exists s b, make_prefix_filter_string E (pattern_type (p_scheme p)) (firstn (p_count p) (field_texts (p_fields p))) = Ok s /\
    match_filter (new_filter s 0) id = Ok b /\ (b = true <-> names p id).
Proof.
  intros P W L. exists (bits_to_str (pat_bits p)).
  destruct (match_exact (bits_to_str (pat_bits p)) 0 id) as (b & M & B).
  - apply is_bitstring_pattern, is_bits_to_str.
  - auto.
  - apply pat_long_enough; auto.
  - exists b. split; [apply make_prefix_pattern; auto|]. split; auto. rewrite B. apply pat_has_prefix; auto.
Qed.

(** Patterns with the same bits name the same fields. *)
Lemma bits_w_inj w v v' : (v < 2 ^ N.of_nat w)%N -> (v' < 2 ^ N.of_nat w)%N -> bits_w w v = bits_w w v' -> v = v'.
Proof. intros H H' E. rewrite <- (bits_w_value w v H), <- (bits_w_value w v' H'), E. reflexivity. Qed.
Lemma app_inj_len {A} (a b c d : list A) : length a = length c -> a ++ b = c ++ d -> a = c /\ b = d.
Proof.
  revert c; induction a as [|x a IH]; intros [|y c] L E; try discriminate; auto.
  cbn in *. injection E as -> E. destruct (IH c) as [-> ->]; auto.
Qed.
Lemma bits_w_step w v v' y y' : (v < 2 ^ N.of_nat w)%N -> (v' < 2 ^ N.of_nat w)%N ->
  bits_w w v ++ y = bits_w w v' ++ y' -> v = v' /\ y = y'.
Proof.
  intros H H' E. apply app_inj_len in E; [|rewrite !bits_w_length; auto]. destruct E as [E ->]. split; auto. eapply bits_w_inj; eauto.
Qed.
Lemma header_inj k k' : header k = header k' -> k = k'.
Proof. destruct k, k'; auto; discriminate. Qed.

Lemma pat_bits_same p q : pattern_ok p -> pattern_ok q -> pat_bits p = pat_bits q -> same_pattern p q.
Proof.
  destruct p as [k n f], q as [k' n' g]. intros P Q E.
  unfold pattern_ok, same_pattern, pat_bits in *. cbn [p_scheme p_count p_fields] in *.
  destruct P as (HN & (F1 & F2) & C & R & S), Q as (HN' & (F1' & F2') & C' & R' & S').
  assert (exists y y', head_bits k ++ f_bits f ++ y = head_bits k' ++ f_bits g ++ y' /\
    (y, y') = (match n with 1 => [] | 2 => p_bits_of f ++ cp_bits_of f ++ [] | 3 => p_bits_of f ++ cp_bits_of f ++ ref_bits_of k f ++ []
       | _ => p_bits_of f ++ cp_bits_of f ++ ref_bits_of k f ++ bits_w 38 (dec_value (f_ser f)) ++ [] end,
     match n' with 1 => [] | 2 => p_bits_of g ++ cp_bits_of g ++ [] | 3 => p_bits_of g ++ cp_bits_of g ++ ref_bits_of k' g ++ []
       | _ => p_bits_of g ++ cp_bits_of g ++ ref_bits_of k' g ++ bits_w 38 (dec_value (f_ser g)) ++ [] end)) as (y & y' & X & Y).
  { destruct n as [|[|[|[|n]]]], n' as [|[|[|[|n']]]]; try lia; do 2 eexists; split; try exact E; reflexivity. }
  clear E. apply bits_w_step in X; try apply header_lt. destruct X as [XH X]. apply header_inj in XH. subst k'.
  apply bits_w_step in X; auto. destruct X as [XF X]. subst y'. injection Y as Y Y'.
  split; auto.
  assert (2 <= n -> 2 <= n' -> exists z z', y = p_bits_of f ++ cp_bits_of f ++ z /\ y = p_bits_of g ++ cp_bits_of g ++ z' /\
    (z, z') = (match n with 2 => [] | 3 => ref_bits_of k f ++ [] | _ => ref_bits_of k f ++ bits_w 38 (dec_value (f_ser f)) ++ [] end,
      match n' with 2 => [] | 3 => ref_bits_of k g ++ [] | _ => ref_bits_of k g ++ bits_w 38 (dec_value (f_ser g)) ++ [] end)) as Z.
  { intros H H'. destruct n as [|[|[|[|n]]]], n' as [|[|[|[|n']]]]; try lia; do 2 eexists; split; try exact Y; split; try exact Y'; reflexivity. }
  destruct (le_lt_dec 2 n) as [H2|H2].
  2:{ assert (n = 1) by lia. subst n. cbn in Y. subst y. assert (n' = 1) as ->.
      { destruct n' as [|[|[|[|n']]]]; try lia; discriminate. }
      do 2 (split; auto). split; [lia|split; lia]. }
  assert (2 <= n') as H2'.
  { destruct n' as [|[|n']]; try lia. exfalso. cbn in Y'. subst y. destruct n as [|[|[|[|n]]]]; try lia; discriminate. }
  destruct (Z H2 H2') as (z & z' & Y1 & Y2 & ZZ). clear Z Y Y'. rewrite Y1 in Y2. clear Y1 y.
  destruct (C H2) as [D CL], (C' H2') as [D' CL'].
  assert (fields_partition f <= 6 /\ fields_partition g <= 6) as [PF PG] by (unfold fields_partition, cp_length_ok in *; lia).
  unfold p_bits_of in Y2. apply bits_w_step in Y2; try (change (2 ^ N.of_nat 3)%N with 8%N; lia). destruct Y2 as [EP Y2].
  assert (fields_partition f = fields_partition g) as EP' by lia. clear EP.
  pose proof (cp_fits _ D CL) as V. pose proof (cp_fits _ D' CL') as V'. fold (fields_partition f) in V. fold (fields_partition g) in V'.
  unfold cp_bits_of in Y2. rewrite EP' in Y2, V. apply bits_w_step in Y2; auto. destruct Y2 as [EC Y2]. subst z'. injection ZZ as Z Z'.
  pose proof (ref_bits_range k _ CL) as RB. fold (fields_partition f) in RB. rewrite EP' in RB.
  assert (length z = match n with 2 => 0 | 3 => ref_bits k (fields_partition g) | _ => ref_bits k (fields_partition g) + 38 end) as LZ.
  { rewrite Z. unfold ref_bits_of. rewrite EP'. destruct n as [|[|[|[|n]]]]; try lia; rewrite ?app_length, ?bits_w_length; cbn [length]; lia. }
  assert (length z = match n' with 2 => 0 | 3 => ref_bits k (fields_partition g) | _ => ref_bits k (fields_partition g) + 38 end) as LZ'.
  { rewrite Z'. unfold ref_bits_of. destruct n' as [|[|[|[|n']]]]; try lia; rewrite ?app_length, ?bits_w_length; cbn [length]; lia. }
  assert (n = n') as <-.
  { rewrite LZ in LZ'. unfold field_count in *. destruct n as [|[|[|[|[|n]]]]], n' as [|[|[|[|[|n']]]]]; destruct k; cbn [has_serial] in *; lia. }
  do 2 (split; auto). split; [auto|].
  destruct (le_lt_dec 3 n) as [H3|H3]; [|split; lia]. destruct (R H3) as [_ VR], (R' H3) as [_ VR']. rewrite EP' in VR.
  assert (exists w w', z = ref_bits_of k f ++ w /\ z = ref_bits_of k g ++ w' /\
    (4 <= n -> w = bits_w 38 (dec_value (f_ser f)) ++ [] /\ w' = bits_w 38 (dec_value (f_ser g)) ++ [])) as (w & w' & Z1 & Z2 & WW).
  { destruct n as [|[|[|[|n]]]]; try lia; do 2 eexists; split; try exact Z; (split; [exact Z'|]); auto. lia. }
  rewrite Z1 in Z2. unfold ref_bits_of in Z2. rewrite EP' in Z2. apply bits_w_step in Z2; auto. destruct Z2 as [ER EW].
  split; auto. intros H4. destruct (WW H4) as [W1 W2], (S H4) as [_ VS], (S' H4) as [_ VS']. rewrite W1, W2 in EW. apply bits_w_step in EW; tauto.
Qed.
Lemma same_pat_bits p q : same_pattern p q -> 1 <= p_count p <= 4 -> pat_bits p = pat_bits q.
Proof.
  destruct p as [k n f], q as [k' n' g]. unfold same_pattern, pat_bits. cbn [p_scheme p_count p_fields].
  intros (<- & <- & EF & EC & ER & ES) HN. unfold f_bits, p_bits_of, cp_bits_of, ref_bits_of. rewrite EF.
  destruct n as [|[|[|[|n]]]]; auto.
  - destruct EC as [-> ->]; [lia|]. auto.
  - destruct EC as [-> ->]; [lia|]. rewrite ER by lia. auto.
  - destruct EC as [-> ->]; [lia|]. rewrite ER, ES by lia. auto.
Qed.

(** ** The text of a pattern *)
Lemma split_on_none sep s : ~ In sep s -> split_on sep s = [s].
Proof.
  induction s as [|c s IH]; intros H; cbn [split_on]; auto.
  destruct (Ascii.eqb_spec c sep) as [->|N]; [exfalso; apply H; left; auto|]. rewrite IH; auto. intros I; apply H; right; auto.
Qed.
Lemma split_on_app sep a b : ~ In sep a -> split_on sep (a ++ sep :: b) = a :: split_on sep b.
Proof.
  induction a as [|c a IH]; intros H; cbn [split_on app].
  - rewrite Ascii.eqb_refl. auto.
  - destruct (Ascii.eqb_spec c sep) as [->|N]; [exfalso; apply H; left; auto|]. rewrite IH; auto. intros I; apply H; right; auto.
Qed.
Lemma split_on_join sep l : l <> [] -> Forall (fun s => ~ In sep s) l -> split_on sep (join [sep] l) = l.
Proof.
  intros HN HF. induction HF as [|s l Hs Hl IH]; [congruence|]. destruct l as [|t l].
  - apply split_on_none; auto.
  - change (join [sep] (s :: t :: l)) with (s ++ sep :: join [sep] (t :: l)). rewrite split_on_app by auto.
    rewrite IH by discriminate. auto.
Qed.
Lemma digits_no_char s c : is_digit c = false -> Forall (fun c => is_digit c = true) s -> ~ In c s.
Proof. intros H F I. rewrite Forall_forall in F. apply F in I. congruence. Qed.
Lemma upper_digits s : Forall (fun c => is_digit c = true) s -> to_upper s = s.
Proof.
  induction 1 as [|c s Hc Hs IH]; cbn; auto. fold (to_upper s). rewrite IH. f_equal. unfold upper_char.
  apply is_digit_lt in Hc. unfold digit_lt in Hc. replace (97 <=? N_of_ascii c)%N with false by lia. reflexivity.
Qed.
Lemma to_upper_app a b : to_upper (a ++ b) = to_upper a ++ to_upper b.
Proof. apply map_app. Qed.
Lemma upper_join l : Forall (fun s => to_upper s = s) l -> to_upper (join (str ".") l) = join (str ".") l.
Proof.
  induction 1 as [|s l Hs Hl IH]; auto. destruct l as [|t l]; auto.
  change (join (str ".") (s :: t :: l)) with (s ++ str "." ++ join (str ".") (t :: l)). rewrite !to_upper_app, Hs, IH. reflexivity.
Qed.
Lemma join_no_char c l : c <> "."%char -> Forall (fun s => ~ In c s) l -> ~ In c (join (str ".") l).
Proof.
  intros HC. induction 1 as [|s l Hs Hl IH]; [auto|]. destruct l as [|t l]; auto.
  change (join (str ".") (s :: t :: l)) with (s ++ str "." ++ join (str ".") (t :: l)).
  rewrite !in_app_iff. cbn [str list_ascii_of_string In]. intros [H|[[H|[]]|H]]; auto.
Qed.
Lemma named_digits p : pattern_ok p -> Forall (fun s => Forall (fun c => is_digit c = true) s) (firstn (p_count p) (field_texts (p_fields p))).
Proof.
  destruct p as [k n f]. unfold pattern_ok. cbn [p_scheme p_count p_fields]. intros (HN & ((_ & F1) & F2) & C & R & S).
  unfold field_texts. unfold field_count in HN.
  destruct n as [|[|[|[|[|n]]]]]; [lia| | | | |destruct k; cbn in HN; lia]; cbn [firstn];
  repeat match goal with H : ?a <= ?b -> _ |- _ => first [specialize (H ltac:(lia)) | clear H] end;
  repeat match goal with H : _ /\ _ |- _ => destruct H end;
  repeat match goal with H : is_decimal _ |- _ => destruct H end; repeat constructor; auto.
Qed.
Lemma trim_app p s : trim_prefix (p ++ s) p = s.
Proof. unfold trim_prefix. rewrite has_prefix_app. rewrite skipn_app, skipn_all, Nat.sub_diag. reflexivity. Qed.
Lemma pattern_prefix_text E p : pattern_ok p -> pattern_prefix E (pattern_text p) = Some (bits_to_str (pat_bits p)).
Proof.
  intros P. pose proof (named_digits p P) as D. unfold pattern_prefix, pattern_text. change urn_pat with (str "urn:epc:pat:").
  rewrite trim_app. assert (firstn (p_count p) (field_texts (p_fields p)) <> []) as HN.
  { unfold pattern_ok in P. destruct P as ((P & _) & _). destruct (p_count p); [lia|discriminate]. }
  pose proof (make_prefix_pattern E p P) as M.
  set (l := firstn (p_count p) (field_texts (p_fields p))) in *. clearbody l.
  change (str ":" ++ dotted l) with (ccolon :: dotted l).
  rewrite split_on_app by (destruct (p_scheme p); cbn; intuition discriminate).
  rewrite split_on_none.
  2:{ apply join_no_char; [discriminate|]. eapply Forall_impl; [|exact D]. intros s Hs. apply digits_no_char; auto. }
  unfold dotted. rewrite upper_join by (eapply Forall_impl; [|exact D]; intros s Hs; apply upper_digits; auto).
  change (str ".") with [cdot]. rewrite split_on_join; auto.
  2:{ eapply Forall_impl; [|exact D]. intros s Hs. apply digits_no_char; auto. }
  rewrite M. reflexivity.
Qed.
