(** The data set generator: the filters and the tags, and the parameters of a run. *)
From Verif Require Import GoBase BinUtil MFilter MTdtEpc MTdtIso MTdtCore MScheme MSubs MTools MDataset Spec SpecEpc SpecIso SpecTools SpecDataset.
From Verif Require Import PBase PNum PFilter PMatch PList PEpc PEpc3 PEpc4 PIso PIso2 PTools PTools2 PDataset.
From Verif Require PSubs3 PCsv.
From Coq Require Import Lia Permutation.

(** ** Which filter matches which tag *)
Inductive tag_shape (q : uii_param) (id : list N) : Prop :=
| ts_epc k f : u_scheme q = pattern_type k -> urn_fields k f -> f_cp f = u_cp q -> dec_value (f_filter f) = 3%N -> carries k f id -> tag_shape q id
| ts_63 x : u_scheme q = str "17363" -> length (u_oc q) = 3 -> wf_bytes id -> six_bit_text (str "7B" ++ u_oc q ++ x) ->
    bits_of_bytes id = text_bits (str "7B" ++ u_oc q ++ x) ++ pad_bits (iso_pad (length (str "7B" ++ u_oc q ++ x))) -> tag_shape q id
| ts_65 x : u_scheme q = str "17365" -> wf_bytes id -> six_bit_text (str "25SU" ++ x) ->
    bits_of_bytes id = text_bits (str "25SU" ++ x) ++ pad_bits (iso_pad (length (str "25SU" ++ x))) -> tag_shape q id.
Inductive filter_shape (p : uii_param) : bool -> gostring -> Prop :=
| fs_epc k r : u_scheme p = pattern_type k -> u_cp p <> [] -> pattern_ok (given_pattern k (mk_fields (u_cp p) r [])) ->
    filter_shape p (match r with [] => true | _ => false end) (bits_to_str (pat_bits (given_pattern k (mk_fields (u_cp p) r []))))
| fs_63 : u_scheme p = str "17363" -> length (u_oc p) = 3 -> six_bit_text (str "7B" ++ u_oc p) -> filter_shape p true (runes_to_6bin (str "7B" ++ u_oc p))
| fs_65 x : u_scheme p = str "17365" -> six_bit_text (str "25SU" ++ x) ->
    filter_shape p (match x with [] => true | _ => false end) (runes_to_6bin (str "25SU" ++ x)).

Lemma epc_is_not_iso k : pattern_type k <> str "17363" /\ pattern_type k <> str "17365".
Proof. destruct k; split; discriminate. Qed.
Lemma given_count k cp r : cp <> [] -> p_count (given_pattern k (mk_fields cp r [])) = match r with [] => 2 | _ => 3 end.
Proof.
  intros N. cbn [given_pattern p_count field_texts mk_fields f_filter f_cp f_ref f_ser]. destruct cp; [congruence|]. destruct k, r; reflexivity.
Qed.
Lemma cp_pattern k n cp : 6 <= n <= 12 -> digits n cp -> pattern_ok (given_pattern k (mk_fields cp [] [])) /\ Forall clean (field_texts (mk_fields cp [] [])).
Proof.
  intros H C. assert (is_decimal cp) as DC by (apply (digits_decimal n); auto; lia). destruct three_ok as [D3 V3]. split.
  - unfold pattern_ok. rewrite given_count by apply DC. cbn [given_pattern p_fields p_scheme mk_fields f_filter f_cp f_ref f_ser].
    split; [destruct k; cbn [field_count has_serial]; lia|]. split; auto. split; [|split; intros; lia]. intros _. split; auto.
    unfold cp_length_ok. cbn [mk_fields f_cp]. destruct C. lia.
  - unfold field_texts. cbn [mk_fields f_filter f_cp f_ref f_ser]. repeat apply Forall_cons; try apply Forall_nil; try apply clean_nil; apply digits_clean; [apply D3|apply C].
Qed.

Lemma first_bit (b : bool) pre id : wf_bytes id -> match_filter (new_filter (bits_to_str (b :: pre)) 0) id = Ok true -> exists r, bits_of_bytes id = b :: r.
Proof.
  intros W M. apply match_filter_true in M as [_ M]; auto; [|apply is_bitstring_pattern, is_bits_to_str].
  apply (proj1 (id_has_prefix_str id _ (is_bits_to_str _))) in M. unfold idstr in M. rewrite bprefix_str in M. destruct M as (r & E). exists (pre ++ r). exact E.
Qed.
Lemma epc_first_bit k f id : carries k f id -> exists r, bits_of_bytes id = false :: r.
Proof.
  intros ((W & L & H) & _). unfold field in H. cbn [skipn] in H. apply (bits_w_unique 8) in H.
  - rewrite <- (firstn_skipn 8 (bits_of_bytes id)), <- H. destruct k; eexists; reflexivity.
  - rewrite firstn_length, bits_of_bytes_length. lia.
Qed.

Lemma split_last (a b a' b' : gostring) : a ++ str "," ++ b = a' ++ str "," ++ b' -> ~ In ","%char b -> ~ In ","%char b' -> b = b'.
Proof.
  revert a'. induction a as [|x a IH]; intros [|y a'] E N N'; cbn in E.
  - congruence.
  - injection E as _ E. exfalso. apply N. rewrite E. apply in_or_app. right. left. auto.
  - injection E as _ E. exfalso. apply N'. rewrite <- E. apply in_or_app. right. left. auto.
  - injection E as _ E. eapply IH; eauto.
Qed.
Lemma match_broad (E : env) p q pre id : filter_shape p true pre -> tag_shape q id -> selects p q -> match_filter (new_filter pre 0) id = Ok true.
Proof.
  intros F T [SP SE]. remember true as tr eqn:TR. destruct F as [k r S NC P|S L X|x S X].
  - destruct r as [|c r]; [|discriminate]. rewrite (proj2 (seqb_neq _ _)) in SE by (rewrite S; apply epc_is_not_iso).
    rewrite (proj2 (seqb_neq _ _)) in SE by (rewrite S; apply epc_is_not_iso).
    destruct T as [k' f S' U C F3 CA|y S' _ _ _ _|y S' _ _ _]; try (exfalso; destruct (epc_is_not_iso k); congruence).
    assert (k' = k) as -> by (rewrite S, S' in SP; destruct k, k'; auto; discriminate).
    destruct (epc_prefix_match E _ id P) as (b & MM & BB); try apply CA. rewrite MM. f_equal. apply BB. apply (names_leads _ k f id); auto.
    unfold leads. rewrite given_count by auto. cbn [given_pattern p_fields p_scheme mk_fields f_filter f_cp f_ref f_ser].
    split; auto. split; [rewrite F3; reflexivity|]. split; [|split; intros; lia]. intros _. unfold fields_partition. cbn [mk_fields f_cp]. rewrite C, SE. auto.
  - rewrite S in SE. change (seqb (str "17363") (str "17365")) with false in SE. change (seqb (str "17363") (str "17363")) with true in SE. cbn in SE.
    destruct T as [k' f S' U C F3 CA|y S' L' W X' B|y S' W X' B]; [exfalso; destruct (epc_is_not_iso k'); congruence| |rewrite S, S' in SP; discriminate].
    apply (iso_match _ (str "7B" ++ u_oc q ++ y) id X ltac:(discriminate) (six_bit_text_six _ X') W B). exists y. rewrite SE, <- app_assoc. auto.
  - destruct x as [|c x]; [|discriminate].
    destruct T as [k' f S' U C F3 CA|y S' L' W X' B|y S' W X' B]; [exfalso; destruct (epc_is_not_iso k'); congruence|rewrite S, S' in SP; discriminate|].
    apply (iso_match _ (str "25SU" ++ y) id X ltac:(discriminate) (six_bit_text_six _ X') W B). exists y. auto.
Qed.
Lemma match_only (E : env) p q br pre id : filter_shape p br pre -> tag_shape q id -> match_filter (new_filter pre 0) id = Ok true -> selects p q.
Proof.
  intros F T M.
  destruct F as [k r S NC P|S L X|x S X].
  - assert (exists y, pat_bits (given_pattern k (mk_fields (u_cp p) r [])) = false :: y) as (y & PB).
    { unfold pat_bits. destruct P as (PC & _). destruct (p_count _) as [|[|[|[|n]]]]; [lia| | | |]; destruct k; eexists; reflexivity. }
    destruct T as [k' f S' U C F3 CA|z S' L' W X' B|z S' W X' B].
    + destruct (epc_prefix_match E _ id P) as (b & MM & BB); try apply CA. rewrite MM in M. injection M as ->.
      pose proof (proj1 (names_leads _ k' f id P CA) (proj1 BB eq_refl)) as (E1 & E2 & E3 & _). cbn [given_pattern p_scheme] in E1. subst k'.
      split; [congruence|]. rewrite (proj2 (seqb_neq _ _)) by (rewrite S; apply epc_is_not_iso). rewrite (proj2 (seqb_neq _ _)) by (rewrite S; apply epc_is_not_iso).
      assert (2 <= p_count (given_pattern k (mk_fields (u_cp p) r []))) as PC by (rewrite given_count by auto; destruct r; lia).
      destruct (E3 PC) as [E4 E5]. cbn [given_pattern p_fields mk_fields f_cp] in E5. unfold fields_partition in E4. cbn [given_pattern p_fields mk_fields f_cp] in E4.
      destruct P as (_ & _ & P & _). destruct (P PC) as [PD PL]. unfold cp_length_ok in PL. cbn [given_pattern p_fields mk_fields f_cp] in PD, PL.
      destruct U as ((_ & UC & _) & UL & _). unfold cp_length_ok in UL. rewrite <- C. apply same_fixed; auto. lia.
    + exfalso. rewrite PB in M. destruct (first_bit _ _ _ W M) as (r' & R). rewrite B in R. discriminate R.
    + exfalso. rewrite PB in M. destruct (first_bit _ _ _ W M) as (r' & R). rewrite B in R. discriminate R.
  - destruct T as [k' f S' U C F3 CA|z S' L' W X' B|z S' W X' B].
    + exfalso. rewrite runes_bits in M. destruct (first_bit true _ id (proj1 (proj1 CA)) M) as (r' & R). destruct (epc_first_bit _ _ _ CA) as (r2 & R2). congruence.
    + apply (iso_match _ (str "7B" ++ u_oc q ++ z) id X ltac:(discriminate) (six_bit_text_six _ X') W B) in M. destruct M as (y & EQ).
      split; [congruence|]. rewrite S. cbn. injection EQ as EQ. 
      apply (f_equal (firstn 3)) in EQ. rewrite !firstn_app, L, L' in EQ. change (3 - 3) with 0 in EQ. rewrite !firstn_O, !app_nil_r, !firstn_all2 in EQ by lia. auto.
    + apply (iso_match _ (str "25SU" ++ z) id X ltac:(discriminate) (six_bit_text_six _ X') W B) in M. destruct M as (y & EQ). discriminate EQ.
  - destruct T as [k' f S' U C F3 CA|z S' L' W X' B|z S' W X' B].
    + exfalso. rewrite runes_bits in M. destruct (first_bit true _ id (proj1 (proj1 CA)) M) as (r' & R). destruct (epc_first_bit _ _ _ CA) as (r2 & R2). congruence.
    + apply (iso_match _ (str "7B" ++ u_oc q ++ z) id X ltac:(discriminate) (six_bit_text_six _ X') W B) in M. destruct M as (y & EQ). discriminate EQ.
    + split; [congruence|]. rewrite S. exact I.
Qed.

(** ** The tags and filters of a parameter *)
Lemma tag_shape_ok E q i d : main_param q -> drawn q d -> reference_fits q d -> i < num_serial ->
  exists line pc id, tag_line E q i d = Ok line /\ line_reads line pc id /\ tag_shape q id.
Proof.
  intros M (D1 & D2 & D3) RF I. unfold num_serial in I. destruct (itoa_plain i I) as (DI & VI & ZI & _).
  assert (forall k cs ir ext ser iar at_, u_scheme q = pattern_type k -> to_upper cs = to_upper (pattern_type k) ->
    urn_fields k (fields_of k (str "3") (u_cp q) ir ext ser iar at_) ->
    exists line pc id, (let '(bs, opt) := make_epc E false cs (str "3") (u_cp q) ir ext ser iar at_ in Ok (print_id bs opt)) = Ok line /\ line_reads line pc id /\ tag_shape q id) as EP.
  { intros k cs ir ext ser iar at_ S CS U. destruct (epc_line E k cs (str "3") (u_cp q) CS ir ext ser iar at_ U) as (id & ML & CA & LRD & T).
    destruct (make_epc E false cs (str "3") (u_cp q) ir ext ser iar at_) as [bs opt]. exists (print_id bs opt), [48; 0]%N, id. split; auto.
    split; [rewrite ML; auto|]. eapply ts_epc; eauto. }
  destruct M as [n S H C R|n S H C X|n S H C X|n S H C R|S L3 UP|S HDI HIAC LCI CI].
  - scheme_is S. apply (EP Sgtin); auto. apply (set_fields _ n); auto; [apply (digits_decimal (13 - n)); auto; lia| |apply R].
    apply ref_capacity; auto; try discriminate. cbn [ref_digits]. unfold cp_digits. replace (12 - (12 - n)) with n by lia. auto.
  - destruct (D1 S) as [DD _]. rewrite X in DD. scheme_is S. apply (EP Sscc); auto. apply (set_fields _ n); auto; [apply (digits_decimal (17 - n)); auto; lia| |apply DD|discriminate].
    apply ref_capacity; auto; try discriminate. cbn [ref_digits]. unfold cp_digits. replace (12 - (12 - n)) with n by lia. auto.
  - destruct (D2 S) as [(m & Hm & DM) Z]. scheme_is S. apply (EP Giai); auto. apply (set_fields _ n); auto; [apply (digits_decimal m); auto; lia| |right; auto|discriminate].
    rewrite <- (proj1 C). apply RF. auto.
  - scheme_is S. apply (EP Grai); auto. apply (set_fields _ n); auto; [lia|apply (digits_decimal (12 - n)); auto; lia| |apply R].
    apply ref_capacity; auto; try discriminate; [lia| |lia]. cbn [ref_digits]. unfold cp_digits. replace (12 - (12 - n)) with n by lia. auto.
  - assert (length (itoa i) <= 2) as LI. { do 100 (destruct i as [|i]; [vm_compute; lia|]). lia. }
    assert (Forall code_char (u_oc q)) as CO by (eapply Forall_impl; [|exact UP]; right; auto).
    assert (Forall code_char (itoa i)) as CI by (eapply Forall_impl; [|apply DI]; left; auto).
    assert (container_code (u_oc q) (str "U") (repeat "0"%char (6 - length (itoa i)) ++ itoa i)) as CC.
    { split; [destruct (u_oc q); discriminate|]. split; [discriminate|]. split; [rewrite L3; reflexivity|]. split; [rewrite app_length, repeat_length; lia|].
      apply Forall_app. split; auto. apply Forall_app. split; [constructor; [right; reflexivity|constructor]|]. apply Forall_app. split; auto.
      apply Forall_forall. intros c X. apply repeat_spec in X. subst c. left; reflexivity. }
    destruct (iso17363_text E (u_oc q) [] (itoa i) [] [] [] [] (proj1 DI) ltac:(lia) CC) as (id & p0 & M & L0 & W & ST & B & T).
    scheme_is S. rewrite M. cbn [bind]. exists (print_id (uii_text id) (hex_string [p0; 169]%N)), [p0; 169]%N, id. split; auto.
    split; [apply line_reads_ok; auto; [|lia]; eapply tag_nonempty; [exact B|discriminate]|]. eapply ts_63; eauto.
  - destruct (D3 S) as [LD CD].
    assert (Forall code_char (str "25S" ++ str "U" ++ u_ci q ++ d)) as CT.
    { apply Forall_app. split; [repeat apply Forall_cons; try apply Forall_nil; apply code_char_b_ok; reflexivity|].
      apply Forall_app. split; [repeat apply Forall_cons; try apply Forall_nil; apply code_char_b_ok; reflexivity|]. apply Forall_app. auto. }
    destruct (iso17365_text E [] [] [] (str "25S") (str "U") (u_ci q) d) as (id & p0 & M & L0 & W & B & T); try discriminate.
    { destruct (u_ci q); [cbn in LCI; lia|discriminate]. } { destruct d; [cbn in LD; lia|discriminate]. }
    { rewrite !app_length. cbn [length str list_ascii_of_string]. lia. } { apply code_six; auto. }
    scheme_is S. rewrite HDI, HIAC, M. cbn [bind]. exists (print_id (uii_text id) (hex_string [p0; 162]%N)), [p0; 162]%N, id. split; auto.
    split; [apply line_reads_ok; auto; [|lia]; eapply tag_nonempty; [exact B|discriminate]|]. eapply (ts_65 _ _ (u_ci q ++ d)); eauto.
    apply code_six. auto.
Qed.

Definition line_shape (p : uii_param) (br : bool) (l : gostring) : Prop := exists pat pre, l = pat ++ str "," ++ pre /\ filter_shape p br pre.
Lemma epc_pat_line k p r : let g := given_pattern k (mk_fields (u_cp p) r []) in u_scheme p = pattern_type k -> u_cp p <> [] -> pattern_ok g ->
  let l := print_id (bits_to_str (pat_bits g)) (pattern_text g) in l <> [] /\ line_shape p (match r with [] => true | _ => false end) l.
Proof.
  intros g S NC P l. assert (l = pattern_text g ++ str "," ++ bits_to_str (pat_bits g)) as ->.
  { unfold l, print_id. destruct (bits_to_str (pat_bits g)) eqn:B; auto. exfalso. apply (f_equal (@List.length ascii)) in B. rewrite bits_to_str_length in B.
    pose proof (pat_bits_length g P). cbn in B. lia. }
  split; [unfold pattern_text; discriminate|]. exists (pattern_text g), (bits_to_str (pat_bits g)). split; auto. apply (fs_epc p k r); auto.
Qed.
Lemma iso_pat_line p br t pat : t <> [] -> filter_shape p br (runes_to_6bin t) ->
  let l := print_id (runes_to_6bin t) pat in l <> [] /\ line_shape p br l.
Proof.
  intros N F l. assert (l = pat ++ str "," ++ runes_to_6bin t) as ->.
  { unfold l, print_id. destruct (runes_to_6bin t) eqn:R; auto. destruct t; [congruence|]. discriminate R. }
  split; [destruct pat; discriminate|]. eexists _, _. split; [reflexivity|auto].
Qed.
Lemma filter_shapes E p : main_param p -> u_no_filter p = false ->
  exists l ls, filter_sends E p = Ok (l :: ls) /\ filter_lines E p = Ok (l :: ls) /\ line_shape p true l /\ Forall (fun l' => l' <> [] /\ exists br, line_shape p br l') (l :: ls).
Proof.
  intros M NF.
  assert (forall (l : gostring) ls, filter_sends E p = Ok (l :: ls) -> line_shape p true l -> Forall (fun l' => l' <> [] /\ exists br, line_shape p br l') (l :: ls) ->
    exists l ls, filter_sends E p = Ok (l :: ls) /\ filter_lines E p = Ok (l :: ls) /\ line_shape p true l /\ Forall (fun l' => l' <> [] /\ exists br, line_shape p br l') (l :: ls)) as GO.
  { intros l ls FS LS FA. exists l, ls. split; auto. split; [|auto]. unfold filter_lines. rewrite FS. cbn [bind]. f_equal.
    clear - FA. induction (l :: ls) as [|x y IH]; auto. inversion FA as [|? ? [N _] FA2]. subst. cbn. destruct x; [congruence|]. f_equal. auto. }
  destruct M as [n S H C R|n S H C X|n S H C X|n S H C R|S L3 UP|S HDI HIAC LCI CI].
  - assert (u_cp p <> []) as NC by (intros Z; destruct C as [C _]; rewrite Z in C; cbn in C; lia).
    destruct (cp_pattern Sgtin n (u_cp p) H C) as [P1 C1]. destruct (epc_prefix_text E (str "sgtin-96") Sgtin (str "3") (u_cp p) [] [] [] [] [] eq_refl P1 C1) as [M1 _].
    assert (urn_fields Sgtin (mk_fields (u_cp p) (u_ir p) (str "0"))) as U.
    { apply (set_fields _ n); auto; [apply (digits_decimal (13 - n)); auto; lia| |apply R|].
      - apply ref_capacity; auto; try discriminate. cbn [ref_digits]. unfold cp_digits. replace (12 - (12 - n)) with n by lia. auto.
      - intros _. split; [split; [discriminate|repeat constructor]|]. split; [reflexivity|left; reflexivity]. }
    destruct (set_pattern _ _ _ _ U (u_ir p) (or_intror eq_refl)) as (P2 & C2 & _).
    destruct (epc_prefix_text E (str "sgtin-96") Sgtin (str "3") (u_cp p) (u_ir p) [] [] [] [] eq_refl P2 C2) as [M2 _].
    destruct (epc_pat_line Sgtin p [] S NC P1) as [N1 L1]. destruct (epc_pat_line Sgtin p (u_ir p) S NC P2) as [N2 L2].
    eapply GO; [unfold filter_sends; scheme_is S; rewrite NF, M1, M2; reflexivity|exact L1|]. repeat apply Forall_cons; try apply Forall_nil; eauto.
  - assert (u_cp p <> []) as NC by (intros Z; destruct C as [C _]; rewrite Z in C; cbn in C; lia).
    destruct (cp_pattern Sscc n (u_cp p) H C) as [P1 C1]. destruct (epc_prefix_text E (str "sscc-96") Sscc (str "3") (u_cp p) [] [] [] [] [] eq_refl P1 C1) as [M1 _].
    destruct (epc_pat_line Sscc p [] S NC P1) as [N1 L1].
    eapply GO; [unfold filter_sends; scheme_is S; rewrite NF, M1; reflexivity|exact L1|]. repeat apply Forall_cons; try apply Forall_nil; eauto.
  - assert (u_cp p <> []) as NC by (intros Z; destruct C as [C _]; rewrite Z in C; cbn in C; lia).
    destruct (cp_pattern Giai n (u_cp p) H C) as [P1 C1]. destruct (epc_prefix_text E (str "giai-96") Giai (str "3") (u_cp p) [] [] [] [] [] eq_refl P1 C1) as [M1 _].
    destruct (epc_pat_line Giai p [] S NC P1) as [N1 L1].
    eapply GO; [unfold filter_sends; scheme_is S; rewrite NF, M1; reflexivity|exact L1|]. repeat apply Forall_cons; try apply Forall_nil; eauto.
  - assert (u_cp p <> []) as NC by (intros Z; destruct C as [C _]; rewrite Z in C; cbn in C; lia).
    destruct (cp_pattern Grai n (u_cp p) ltac:(lia) C) as [P1 C1]. destruct (epc_prefix_text E (str "grai-96") Grai (str "3") (u_cp p) [] [] [] [] [] eq_refl P1 C1) as [M1 _].
    assert (urn_fields Grai (mk_fields (u_cp p) (u_at p) (str "0"))) as U.
    { apply (set_fields _ n); auto; [lia|apply (digits_decimal (12 - n)); auto; lia| |apply R|].
      - apply ref_capacity; auto; try discriminate; [lia| |lia]. cbn [ref_digits]. unfold cp_digits. replace (12 - (12 - n)) with n by lia. auto.
      - intros _. split; [split; [discriminate|repeat constructor]|]. split; [reflexivity|left; reflexivity]. }
    destruct (set_pattern _ _ _ _ U (u_at p) (or_intror eq_refl)) as (P2 & C2 & _).
    destruct (epc_prefix_text E (str "grai-96") Grai (str "3") (u_cp p) [] [] [] [] (u_at p) eq_refl P2 C2) as [M2 _].
    destruct (epc_pat_line Grai p [] S NC P1) as [N1 L1]. destruct (epc_pat_line Grai p (u_at p) S NC P2) as [N2 L2].
    eapply GO; [unfold filter_sends; scheme_is S; rewrite NF, M1, M2; reflexivity|exact L1|]. repeat apply Forall_cons; try apply Forall_nil; eauto.
  - assert (Forall code_char (u_oc p)) as CO by (eapply Forall_impl; [|exact UP]; right; auto).
    destruct (iso17363_prefix_text E (u_oc p) [] [] [] [] []) as [M1 _]. { repeat apply Forall_cons; try apply Forall_nil; [apply code_clean; auto|apply clean_nil]. }
    assert (forall x : gostring, x = [] -> given [str "7B"; u_oc p; x] = [str "7B"; u_oc p]) as GV by (intros x ->; destruct (u_oc p); [discriminate|reflexivity]).
    cbv zeta in M1. rewrite (GV [] eq_refl) in M1. cbn [concat] in M1. rewrite app_nil_r in M1.
    assert (six_bit_text (str "7B" ++ u_oc p)) as S1.
    { apply code_six. apply Forall_app. split; auto. constructor; [left; reflexivity|constructor; [right; reflexivity|constructor]]. }
    destruct (iso_pat_line p true (str "7B" ++ u_oc p) (str "urn:epc:pat:iso17363:" ++ dotted [str "7B"; u_oc p]) ltac:(discriminate) (fs_63 p S L3 S1)) as [N1 L1].
    eapply GO; [unfold filter_sends; scheme_is S; rewrite NF, M1; reflexivity|exact L1|]. repeat apply Forall_cons; try apply Forall_nil; eauto.
  - assert (Forall code_char (str "25S")) as C1. { repeat apply Forall_cons; try apply Forall_nil; apply code_char_b_ok; reflexivity. }
    assert (Forall code_char (str "U")) as C2. { repeat apply Forall_cons; try apply Forall_nil; apply code_char_b_ok; reflexivity. }
    destruct (iso17365_prefix_text E [] [] [] (str "25S") (str "U") [] []) as [M1 _]; [discriminate| |].
    { repeat apply Forall_cons; try apply Forall_nil; try apply clean_nil; apply code_clean; auto. }
    destruct (iso17365_prefix_text E [] [] [] (str "25S") (str "U") (u_ci p) []) as [M2 _]; [discriminate| |].
    { repeat apply Forall_cons; try apply Forall_nil; try apply clean_nil; apply code_clean; auto. }
    assert (u_ci p <> []) as NCI by (destruct (u_ci p); [cbn in LCI; lia|discriminate]).
    assert (forall x : gostring, x = [] -> given [str "25S"; str "U"; u_ci p; x] = [str "25S"; str "U"; u_ci p]) as GV by (intros x ->; destruct (u_ci p); [congruence|reflexivity]).
    cbv zeta in M1, M2. change (given [str "25S"; str "U"; []; []]) with [str "25S"; str "U"] in M1.
    match type of M2 with context [given ?l] => replace (given l) with [str "25S"; str "U"; u_ci p] in M2 by (symmetry; exact (GV [] eq_refl)) end.
    assert (forall x, Forall code_char x -> six_bit_text (str "25SU" ++ x)) as SX.
    { intros x F. apply code_six. apply Forall_app. split; auto. repeat apply Forall_cons; try apply Forall_nil; apply code_char_b_ok; reflexivity. }
    pose proof (fs_65 p [] S (SX [] (Forall_nil _))) as F1. pose proof (fs_65 p (u_ci p) S (SX (u_ci p) CI)) as F2.
    destruct (iso_pat_line p _ (str "25SU" ++ []) (str "urn:epc:pat:iso17365:" ++ dotted [str "25S"; str "U"]) ltac:(discriminate) F1) as [N1 L1].
    destruct (iso_pat_line p _ (str "25SU" ++ u_ci p) (str "urn:epc:pat:iso17365:" ++ dotted [str "25S"; str "U"; u_ci p]) ltac:(discriminate) F2) as [N2 L2].
    change (concat [str "25S"; str "U"]) with (str "25SU" ++ []) in M1.
    assert (concat [str "25S"; str "U"; u_ci p] = str "25SU" ++ u_ci p) as CC by (cbn [concat]; rewrite app_nil_r; reflexivity). rewrite CC in M2.
    eapply GO; [unfold filter_sends; scheme_is S; rewrite NF, HDI, HIAC, M1, M2; reflexivity|exact L1|]. repeat apply Forall_cons; try apply Forall_nil; eauto.
Qed.

Lemma shape_no_comma p br pre : filter_shape p br pre -> ~ In ","%char pre.
Proof. intros [k r S NC P|S L X|x S X]; rewrite ?runes_bits; apply bits_no_comma. Qed.
Lemma selection E p q i d : main_param p -> u_no_filter p = false -> main_param q -> drawn q d -> reference_fits q d -> i < num_serial ->
  exists line pc id fl, tag_line E q i d = Ok line /\ line_reads line pc id /\ filter_lines E p = Ok fl /\
    ((exists l, In l fl /\ line_matches l id) <-> selects p q).
Proof.
  intros MP NF MQ D R I. destruct (tag_shape_ok E q i d MQ D R I) as (line & pc & id & TL & LR & TS).
  destruct (filter_shapes E p MP NF) as (l0 & ls & _ & FL & L0 & FA). exists line, pc, id, (l0 :: ls). split; auto. split; auto. split; auto. split.
  - intros (l & IN & pat & pre & EL & NC & MF). rewrite Forall_forall in FA. destruct (FA l IN) as (_ & br & pat' & pre' & EL' & FS).
    assert (pre' = pre) as ->. { rewrite EL in EL'. symmetry. eapply split_last; eauto. eapply shape_no_comma; eauto. }
    eapply match_only; eauto.
  - intros SE. exists l0. split; [left; auto|]. destruct L0 as (pat & pre & EL & FS). exists pat, pre. split; auto. split; [eapply shape_no_comma; eauto|].
    eapply match_broad; eauto.
Qed.

(** ** The parameters of a run *)
Lemma sends_ok E p : main_param p -> exists ls, filter_sends E p = Ok ls.
Proof.
  intros M. destruct (u_no_filter p) eqn:NF.
  - exists []. unfold filter_sends. rewrite NF. auto.
  - destruct (filter_shapes E p M NF) as (l & ls & FS & _). eauto.
Qed.
Lemma sends_lines E p ls : main_param p -> filter_sends E p = Ok ls -> filter_lines E p = Ok ls.
Proof.
  intros M FS. destruct (u_no_filter p) eqn:NF.
  - unfold filter_lines. unfold filter_sends in *. rewrite NF in *. injection FS as <-. auto.
  - destruct (filter_shapes E p M NF) as (l & ls' & FS' & FL & _). congruence.
Qed.
Lemma tag_line_ok E p i d : main_param p -> drawn p d -> i < num_serial -> exists l, tag_line E p i d = Ok l.
Proof.
  intros M D I. destruct M as [n S H C R|n S H C X|n S H C X|n S H C R|S L3 UP|S HDI HIAC LCI CI] eqn:MM.
  1-4: scheme_is S; match goal with |- context [make_epc ?a ?b ?c ?d ?e ?f ?g ?h ?i ?j] => destruct (make_epc a b c d e f g h i j) as [bs opt] end; eauto.
  - destruct (tag_shape_ok E p i d M D) as (l & _ & _ & TL & _); eauto. intros Z. rewrite S in Z. discriminate.
  - destruct (tag_shape_ok E p i d M D) as (l & _ & _ & TL & _); eauto. intros Z. rewrite S in Z. discriminate.
Qed.
Lemma lines_defined E p dr : main_param p -> forall is, (forall i, In i is -> i < num_serial /\ drawn p (dr i)) -> exists ls, lines E p dr is = Ok ls.
Proof.
  intros M. induction is as [|i is IH]; intros H; cbn; eauto. destruct (H i (or_introl eq_refl)) as [I D]. destruct (tag_line_ok E p i (dr i) M D I) as (l & ->).
  destruct IH as (ls & ->); [intros; apply H; right; auto|]. cbn. eauto.
Qed.
Lemma in_combine_seq {A} (ps : list A) : forall k n p, In (n, p) (combine (seq k (length ps)) ps) <-> k <= n /\ nth_error ps (n - k) = Some p.
Proof.
  induction ps as [|x ps IH]; intros k n p; cbn [length seq combine].
  - split; [intros []|]. intros [_ X]. destruct (n - k); discriminate.
  - cbn [In]. rewrite IH. split.
    + intros [X|[L X]].
      * injection X as <- <-. rewrite Nat.sub_diag. auto.
      * split; [lia|]. replace (n - k) with (S (n - S k)) by lia. auto.
    + intros [L X]. destruct (Nat.eq_dec n k) as [->|NE].
      * left. rewrite Nat.sub_diag in X. injection X as ->. auto.
      * right. split; [lia|]. replace (n - k) with (S (n - S k)) in X by lia. auto.
Qed.
Lemma in_jobs ps n p : In (n, p) (jobs ps) <-> nth_error ps n = Some p.
Proof. unfold jobs. rewrite in_combine_seq, Nat.sub_0_r. split; [intros [_ X]; auto|split; auto; lia]. Qed.
Lemma jobs_params ps : map snd (jobs ps) = ps.
Proof.
  unfold jobs. generalize 0. induction ps as [|p ps IH]; intros k; cbn; auto. rewrite IH. auto.
Qed.
Lemma jobs_defined E draw ps : drawn_params draw ps ->
  Forall (fun j => (exists ls, job_sends E j = Ok ls) /\ exists t, job_text E draw j = Ok t) (jobs ps).
Proof.
  intros D. apply Forall_forall. intros [n p] I. apply in_jobs in I. destruct (D n p I) as [M DD]. split.
  - apply sends_ok. auto.
  - unfold job_text. cbn [fst snd]. destruct (lines_defined E p (draw n) M (seq 0 num_serial)) as (ls & ->); [|cbn; eauto].
    intros i II. apply in_seq in II. split; [lia|]. apply DD. lia.
Qed.

(** The filters of one round. *)
Definition sends_number (p : uii_param) : nat :=
  if u_no_filter p then 0
  else if seqb (u_scheme p) (str "sgtin-96") || seqb (u_scheme p) (str "grai-96") || seqb (u_scheme p) (str "17365") then 2 else 1.
Lemma sends_count E p ls : main_param p -> filter_sends E p = Ok ls -> length ls = sends_number p.
Proof.
  intros M FS. unfold sends_number, filter_sends in *. destruct (u_no_filter p); [injection FS as <-; auto|]. revert FS.
  destruct M as [n S H C R|n S H C X|n S H C X|n S H C R|S L3 UP|S HDI HIAC LCI CI]; rewrite S;
    repeat match goal with |- context [seqb (str ?x) (str ?y)] => let b := eval vm_compute in (seqb (str x) (str y)) in change (seqb (str x) (str y)) with b end; cbv iota; cbn [orb];
    repeat match goal with |- context [make_epc ?a ?b ?c ?d ?e ?f ?g ?h ?i ?j] => destruct (make_epc a b c d e f g h i j) as [? ?] end;
    repeat match goal with |- context [make_iso ?a ?b ?c ?d ?e ?f ?g ?h ?i ?j] => destruct (make_iso a b c d e f g h i j) as [[? ?]| |] end;
    cbn [bind]; intros FS; try discriminate; injection FS as <-; auto.
Qed.
Lemma round_main nf r : round_drawn r -> Forall main_param (round_params nf r).
Proof.
  intros ((n & H1 & C1 & R1) & H2 & H3 & (m & H4 & C4 & R4) & (L5 & U5) & (L6 & C6)). unfold round_params.
  repeat (apply Forall_app; split).
  - apply Forall_map. eapply Forall_impl; [|exact R1]. intros ir IR. apply (mp_sgtin _ n); auto.
  - apply Forall_map. eapply Forall_impl; [|exact H2]. intros cp (k & HK & CK). apply (mp_sscc _ k); auto. cbn. destruct CK as [-> _]. auto.
  - apply Forall_map. eapply Forall_impl; [|exact H3]. intros cp (k & HK & CK). apply (mp_giai _ k); auto. cbn. destruct CK as [-> _]. auto.
  - apply Forall_map. eapply Forall_impl; [|exact R4]. intros ir IR. apply (mp_grai _ m); auto.
  - repeat apply Forall_cons; try apply Forall_nil; [apply mp_17363; auto|apply mp_17365; auto].
Qed.
Lemma total_map {A B} (f : B -> nat) (g : A -> B) l : total f (map g l) = total (fun x => f (g x)) l.
Proof. unfold total. rewrite map_map. auto. Qed.
Lemma total_const {A} (f : A -> nat) c l : (forall x, f x = c) -> total f l = c * length l.
Proof. intros H. induction l as [|x l IH]; [unfold total; cbn; lia|]. rewrite total_cons, H, IH. cbn [length]. lia. Qed.
Lemma round_count nf r : full_round r -> total sends_number (round_params nf r) = if nf then 0 else 31.
Proof.
  intros (L1 & L2 & L3 & L4). unfold round_params. rewrite !total_app, !total_map.
  rewrite (total_const _ (if nf then 0 else 2) (r_irs r)), (total_const _ (if nf then 0 else 1) (r_sscc r)), (total_const _ (if nf then 0 else 1) (r_giai r)), (total_const _ (if nf then 0 else 2) (r_ats r)) by (intros x; destruct nf; reflexivity).
  rewrite L1, L2, L3, L4. destruct nf; reflexivity.
Qed.
Lemma main_count a b : Forall full_round a -> Forall full_round b -> total sends_number (main_params a b) = 31 * length a.
Proof.
  intros A B. unfold main_params. rewrite total_app.
  assert (forall nf l, Forall full_round l -> total sends_number (flat_map (round_params nf) l) = (if nf then 0 else 31) * length l) as X.
  { intros nf l F. induction F as [|r l R F IH]; cbn [flat_map length]; [unfold total; cbn; lia|]. rewrite total_app, IH, round_count by auto. lia. }
  rewrite !X by auto. lia.
Qed.

(** Whole runs. *)
Section Generator.
  Context (E : env) (draw : nat -> nat -> gostring) (cap n : nat) (ps : list uii_param) (f0 : gostring) (fs0 : files).
  Context (ls : list dlabel) (s : ds job) (o : list (dobs job)) (R : generator E draw cap n ps f0 fs0 ls = Ok (s, o)).
  Lemma gen_filters : filters_inv (job_sends E) f0 s o.
  Proof.
    rewrite <- (app_nil_l o). eapply (run_inv _ _ _ _ _ (filters_inv (job_sends E) f0)); [|apply filters_init|exact R].
    intros. eapply filters_step; eauto.
  Qed.
  Lemma gen_queue : queue_inv n s.
  Proof.
    refine (run_inv _ _ _ _ _ (fun s _ => queue_inv n s) _ ls _ [] s o _ R); [|apply (queue_init n (jobs ps) f0 fs0)]. intros. eapply queue_step; eauto.
  Qed.
  Lemma gen_jobs : jobs_inv (jobs ps) s o.
  Proof.
    rewrite <- (app_nil_l o). eapply (run_inv _ _ _ _ _ (jobs_inv (jobs ps))); [|apply jobs_init|exact R]. intros. eapply jobs_step; eauto.
  Qed.
  Lemma gen_files : apart job_file (jobs ps) fs0 -> files_inv job_file (job_text E draw) (jobs ps) fs0 s.
  Proof.
    intros A. refine (run_inv _ _ _ _ _ (fun s _ => files_inv job_file (job_text E draw) (jobs ps) fs0 s) _ ls _ [] s o _ R); [|apply (files_init _ _ n _ f0 fs0 A)].
    intros. eapply files_step; eauto. apply A.
  Qed.
  Lemma gen_jobs_all : apart job_file (jobs ps) fs0 -> jobs_all (jobs ps) s o.
  Proof.
    intros A. assert (files_inv job_file (job_text E draw) (jobs ps) fs0 s /\ jobs_all (jobs ps) s o) as [_ X]; auto.
    rewrite <- (app_nil_l o).
    eapply (run_inv _ _ _ _ _ (fun s o => files_inv job_file (job_text E draw) (jobs ps) fs0 s /\ jobs_all (jobs ps) s o)); [| |exact R].
    - intros s1 o1 l s2 o2 _ [H1 H2] C. split; [eapply files_step; eauto; apply A|eapply jobs_all_step; eauto].
    - split; [apply (files_init _ _ n _ f0 fs0 A)|apply jobs_all_init].
  Qed.
  Lemma done_pending (ws : list (worker job)) : forallb is_done ws = true -> concat (map pending ws) = [] /\ flat_map early ws = [] /\ flat_map late ws = [] /\ forall T, flat_map (item T) ws = [].
  Proof.
    induction ws as [|w ws IH]; cbn; auto. intros H. apply andb_true_iff in H as [H1 H2]. destruct w; try discriminate. destruct (IH H2) as (-> & -> & -> & X). repeat split; auto.
  Qed.
  Lemma gen_sent l : In l (sent o) -> exists p fs, In p ps /\ filter_sends E p = Ok fs /\ In l fs.
  Proof.
    intros I. destruct gen_filters as (wr & sss & _ & _ & F2 & P). assert (In l (concat sss)) as IC by (rewrite P; apply in_app_iff; auto).
    apply in_concat in IC as (fs & IF & IL). assert (exists j, In j (made o) /\ job_sends E j = Ok fs) as ([k p] & IJ & JS).
    { clear - F2 IF. induction F2 as [|x y a b H F2 IH]; [destruct IF|]. destruct IF as [->|IF]; [exists x; split; [left|]; auto|]. destruct (IH IF) as (j & J1 & J2). exists j. split; [right|]; auto. }
    exists p, fs. split; auto. destruct gen_jobs as (fin & sk & H1 & H2). rewrite <- (jobs_params ps). apply (in_map snd _ (k, p)).
    rewrite H1. rewrite H2 in IJ. rewrite !in_app_iff in *. tauto.
  Qed.
  Lemma gen_exit_filters : d_main s = DExit -> exists sss written lost, Forall2 (fun j l => job_sends E j = Ok l) (made o) sss /\ Permutation (sent o) (concat sss) /\
    sent o = written ++ lost /\ length lost <= 1 /\ d_filters s = f0 ++ text_of written.
  Proof.
    intros X. destruct gen_filters as (wr & sss & H1 & H2 & H3 & H4). destruct gen_queue as (_ & _ & Q). apply Q in X.
    destruct (done_pending _ X) as (P & _). rewrite P, app_nil_r in H4. exists sss, wr, (held s). split; auto. split; [symmetry; auto|]. split; auto. split; auto.
    unfold held. destruct (d_writer s); cbn; lia.
  Qed.
  Lemma gen_exit_made : apart job_file (jobs ps) fs0 -> d_main s = DExit -> n <> 0 -> Permutation (made o) (jobs ps) /\
    (forall j, In j (jobs ps) -> file_get (job_file j) (d_files s) = Some (whole (job_text E draw) j)) /\
    (forall f, ~ In f (map job_file (jobs ps)) -> file_get f (d_files s) = file_get f fs0).
  Proof.
    intros A X NZ. destruct (gen_files A) as (fin & NF & WO & P & H & OUT). destruct gen_queue as (Q1 & Q2 & Q). pose proof (Q X) as QD.
    destruct (done_pending _ QD) as (_ & E1 & E2 & E3).
    assert (d_queue s = []) as QE.
    { apply Q2. destruct (d_workers s) as [|w ws]; [cbn in Q1; congruence|]. cbn in QD. apply andb_true_iff in QD as [QD _]. destruct w; try discriminate. left. auto. }
    unfold items, left_over in P, H. rewrite X, QE, E3 in P, H. cbn [map app] in P, H. rewrite map_map in P. cbn [fst] in P. rewrite map_id in P.
    destruct (gen_jobs_all A) as (fin' & J1 & J2). unfold left_over in J1. rewrite X, QE, E1, E2 in J1. rewrite E2 in J2. cbn [app] in J1, J2.
    split; [|split; auto].
    - rewrite J1, J2. auto.
    - intros j I. rewrite Forall_forall in H. apply (H (j, Some (whole (job_text E draw) j))). apply in_map_iff. exists j. split; auto. eapply Permutation_in; eauto.
  Qed.
End Generator.

(** ** The different filters of a run *)
Lemma list_sum_perm l l' : Permutation l l' -> list_sum l = list_sum l'.
Proof. unfold list_sum. induction 1; cbn in *; lia. Qed.
Definition send (E : env) (i : nat) (p : uii_param) : gostring := match filter_sends E p with Ok l => nth i l [] | _ => [] end.
Definition round_sends (E : env) (r : round) : list gostring :=
  send E 0 (epc_param (str "sgtin-96") (r_cp r) [] [] 0 0 false) ::
  map (fun ir => send E 1 (epc_param (str "sgtin-96") (r_cp r) ir [] 0 0 false)) (r_irs r) ++
  map (fun cp => send E 0 (epc_param (str "sscc-96") cp [] [] (17 - length cp) 0 false)) (r_sscc r) ++
  map (fun cp => send E 0 (epc_param (str "giai-96") cp [] [] 0 (25 - length cp) false)) (r_giai r) ++
  send E 0 (epc_param (str "grai-96") (r_grai r) [] [] 0 0 false) ::
  map (fun a => send E 1 (epc_param (str "grai-96") (r_grai r) [] a 0 0 false)) (r_ats r) ++
  [send E 0 (iso_param (str "17363") (r_oc r) [] [] [] false); send E 1 (iso_param (str "17365") [] (str "25S") (str "U") (r_ci r) false)].
Definition shared_send (E : env) : gostring := send E 0 (iso_param (str "17365") [] (str "25S") (str "U") [] false).
Ltac one_send :=
  repeat match goal with |- context [make_epc ?a ?b ?c ?d ?e ?f ?g ?h ?i ?j] => destruct (make_epc a b c d e f g h i j) as [? ?] end;
  repeat match goal with |- context [make_iso ?a ?b ?c ?d ?e ?f ?g ?h ?i ?j] => destruct (make_iso a b c d e f g h i j) as [[? ?]| |] end.
Ltac open_sends :=
  unfold filter_sends; cbn [epc_param iso_param u_scheme u_no_filter u_cp u_ir u_at u_oc u_di u_iac u_ci]; cbv zeta;
  repeat match goal with |- context [seqb (str ?x) (str ?y)] => let b := eval vm_compute in (seqb (str x) (str y)) in change (seqb (str x) (str y)) with b end;
  cbv beta iota; one_send; cbn [bind].
Lemma round_sends_all E r p l fs : In p (round_params false r) -> filter_sends E p = Ok fs -> In l fs -> In l (shared_send E :: round_sends E r).
Proof.
  intros IP FS IL. assert (forall i, nth_error fs i = Some l -> l = send E i p) as NE.
  { intros i H. unfold send. rewrite FS. symmetry. apply nth_error_nth. auto. }
  apply In_nth_error in IL as (i & IL). pose proof (NE i IL) as ->. unfold round_params in IP. rewrite !in_app_iff in IP.
  unfold round_sends. cbn [In]. rewrite !in_app_iff. cbn [In]. rewrite !in_app_iff. cbn [In].
  destruct IP as [H|[H|[H|[H|[<-|[<-|[]]]]]]]; try (apply in_map_iff in H as (x & <- & H)).
  - assert (i = 0 \/ i = 1) as [->| ->].
    { assert (length fs = 2) as LF. { revert FS. clear. open_sends; intros Q; try discriminate; injection Q as <-; auto. }
      assert (i < 2) by (rewrite <- LF; apply nth_error_Some; intros Q; apply (eq_trans (eq_sym IL)) in Q; discriminate). lia. }
    + right. left. unfold send. open_sends; auto.
    + do 2 right. left. apply in_map_iff. exists x. auto.
  - assert (i = 0) as ->.
    { assert (length fs = 1) as LF. { revert FS. clear. open_sends; intros Q; try discriminate; injection Q as <-; auto. }
      assert (i < 1) by (rewrite <- LF; apply nth_error_Some; intros Q; apply (eq_trans (eq_sym IL)) in Q; discriminate). lia. }
    do 3 right. left. apply in_map_iff. exists x. auto.
  - assert (i = 0) as ->.
    { assert (length fs = 1) as LF. { revert FS. clear. open_sends; intros Q; try discriminate; injection Q as <-; auto. }
      assert (i < 1) by (rewrite <- LF; apply nth_error_Some; intros Q; apply (eq_trans (eq_sym IL)) in Q; discriminate). lia. }
    do 4 right. left. apply in_map_iff. exists x. auto.
  - assert (i = 0 \/ i = 1) as [->| ->].
    { assert (length fs = 2) as LF. { revert FS. clear. open_sends; intros Q; try discriminate; injection Q as <-; auto. }
      assert (i < 2) by (rewrite <- LF; apply nth_error_Some; intros Q; apply (eq_trans (eq_sym IL)) in Q; discriminate). lia. }
    + do 5 right. left. unfold send. open_sends; auto.
    + do 6 right. left. apply in_map_iff. exists x. auto.
  - assert (i = 0) as ->.
    { assert (length fs = 1) as LF. { revert FS. clear. open_sends; intros Q; try discriminate; injection Q as <-; auto. }
      assert (i < 1) by (rewrite <- LF; apply nth_error_Some; intros Q; apply (eq_trans (eq_sym IL)) in Q; discriminate). lia. }
    do 7 right. left. auto.
  - assert (i = 0 \/ i = 1) as [->| ->].
    { assert (length fs = 2) as LF. { revert FS. clear. open_sends; intros Q; try discriminate; injection Q as <-; auto. }
      assert (i < 2) by (rewrite <- LF; apply nth_error_Some; intros Q; apply (eq_trans (eq_sym IL)) in Q; discriminate). lia. }
    + left. revert FS. unfold send, shared_send, send. open_sends; intros FS; try discriminate; auto.
    + do 8 right. left. auto.
Qed.
Lemma round_sends_length E r : full_round r -> length (round_sends E r) = 20.
Proof. intros (L1 & L2 & L3 & L4). unfold round_sends. cbn [length]. rewrite !app_length. cbn [length]. rewrite !app_length, !map_length, L1, L2, L3, L4. reflexivity. Qed.
Lemma main_sends E a b p fs l : In p (main_params a b) -> filter_sends E p = Ok fs -> In l fs -> exists r, In r a /\ In p (round_params false r).
Proof.
  unfold main_params. rewrite in_app_iff, !in_flat_map. intros [H|(r & HR & H)] FS IL; auto.
  assert (u_no_filter p = true) as NF.
  { unfold round_params in H. rewrite !in_app_iff, !in_map_iff in H. destruct H as [(x & <- & _)|[(x & <- & _)|[(x & <- & _)|[(x & <- & _)|[<-|[<-|[]]]]]]]; reflexivity. }
  unfold filter_sends in FS. rewrite NF in FS. injection FS as <-. destruct IL.
Qed.

(** ** The files *)
Definition no_slash (s : gostring) : Prop := ~ In "/"%char s.
Lemma code_no_slash s : Forall code_char s -> no_slash s.
Proof. intros F I. rewrite Forall_forall in F. destruct (F _ I) as [H|H]; discriminate H. Qed.
Lemma digits_no_slash n s : digits n s -> no_slash s.
Proof. intros [_ F]. apply code_no_slash. eapply Forall_impl; [|exact F]. intros c H. left. auto. Qed.
Definition key_size (p : uii_param) : nat := if seqb (u_scheme p) (str "sgtin-96") || seqb (u_scheme p) (str "grai-96") then 2 else 1.
Lemma round_file nf r p : round_drawn r -> In p (round_params nf r) ->
  file_of p = set_dir p :: set_key p /\ length (set_key p) = key_size p /\ Forall no_slash (file_of p) /\
  In (u_scheme p) [str "sgtin-96"; str "sscc-96"; str "giai-96"; str "grai-96"; str "17363"; str "17365"].
Proof.
  intros ((n & H1 & C1 & R1) & H2 & H3 & (m & H4 & C4 & R4) & (L5 & U5) & (L6 & C6)) I. unfold round_params in I. rewrite !in_app_iff, !in_map_iff in I.
  rewrite Forall_forall in R1, H2, H3, R4.
  destruct I as [(x & <- & I)|[(x & <- & I)|[(x & <- & I)|[(x & <- & I)|[<-|[<-|[]]]]]]];
    (split; [reflexivity|]; split; [reflexivity|]; split; [|cbn; tauto]).
  - change (Forall no_slash [str "sgtin-96"; r_cp r; x]). repeat apply Forall_cons; try apply Forall_nil; [intros Q; cbn in Q; intuition discriminate|eapply digits_no_slash; eauto|eapply digits_no_slash; eauto].
  - destruct (H2 x I) as (k & _ & K). change (Forall no_slash [str "sscc-96"; x]). repeat apply Forall_cons; try apply Forall_nil; [intros Q; cbn in Q; intuition discriminate|eapply digits_no_slash; eauto].
  - destruct (H3 x I) as (k & _ & K). change (Forall no_slash [str "giai-96"; x]). repeat apply Forall_cons; try apply Forall_nil; [intros Q; cbn in Q; intuition discriminate|eapply digits_no_slash; eauto].
  - change (Forall no_slash [str "grai-96"; r_grai r; x]). repeat apply Forall_cons; try apply Forall_nil; [intros Q; cbn in Q; intuition discriminate|eapply digits_no_slash; eauto|eapply digits_no_slash; eauto].
  - change (Forall no_slash [str "iso17363"; r_oc r]). repeat apply Forall_cons; try apply Forall_nil; [intros Q; cbn in Q; intuition discriminate|apply code_no_slash]. { eapply Forall_impl; [|exact U5]. intros c H. right. auto. }
  - change (Forall no_slash [str "iso17365"; r_ci r]). repeat apply Forall_cons; try apply Forall_nil; [intros Q; cbn in Q; intuition discriminate|apply code_no_slash; auto].
Qed.
Lemma path_inj a b : a <> [] -> b <> [] -> Forall no_slash a -> Forall no_slash b -> path_text a = path_text b -> a = b.
Proof.
  intros NA NB FA FB H. unfold path_text in H. rewrite <- (split_on_join "/"%char a NA FA), <- (split_on_join "/"%char b NB FB). unfold str in H. cbn in H. rewrite H. auto.
Qed.
Lemma same_dir p q : In (u_scheme p) [str "sgtin-96"; str "sscc-96"; str "giai-96"; str "grai-96"; str "17363"; str "17365"] ->
  In (u_scheme q) [str "sgtin-96"; str "sscc-96"; str "giai-96"; str "grai-96"; str "17363"; str "17365"] -> set_dir p = set_dir q -> u_scheme p = u_scheme q.
Proof.
  unfold set_dir. cbn [In]. intros P Q. decompose [or] P; try contradiction; decompose [or] Q; try contradiction;
    repeat match goal with H : _ = u_scheme _ |- _ => rewrite <- H; clear H end;
    repeat match goal with |- context [seqb (str ?x) (str ?y)] => let b := eval vm_compute in (seqb (str x) (str y)) in change (seqb (str x) (str y)) with b end; cbv iota; intros H; try reflexivity; try discriminate.
Qed.
Lemma path_nested a b x : a <> [] -> b <> [] -> Forall no_slash a -> Forall no_slash b -> path_text b = path_text a ++ "/"%char :: x -> exists y, b = a ++ y /\ y <> [].
Proof.
  intros NA NB FA FB H. exists (split_on "/"%char x). split; [|apply PSubs3.split_on_cons].
  rewrite <- (split_on_join "/"%char b NB FB). change (join ["/"%char] b) with (path_text b). rewrite H, PCsv.split_app. f_equal. apply (split_on_join "/"%char a NA FA).
Qed.
