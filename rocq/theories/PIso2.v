(** ISO pattern filters; encoder prefixes. *)
From Verif Require Import GoBase BinUtil MFilter MTdtEpc MTdtIso MTdtCore MScheme MSubs Spec SpecEpc SpecIso PBase PFilter PNum PTdt PTdt2 PMatch PList PSubs PSubs2 PEpc PEpc2 PEpc3 PEpc4 PIso.
From Verif Require Export SpecEncode.
From Coq Require Import Lia ZifyBool ZifyNat ZifyN.
Ltac Zify.zify_post_hook ::= Z.div_mod_to_equations.

Lemma six_inj c d : six_bit c -> six_bit d -> six c = six d -> c = d.
Proof.
  intros Hc Hd E. apply (f_equal N_of_bits) in E.
  assert (forall c, six_bit c -> (N_of_bits (six c) = N_of_ascii c mod 64)%N) as V.
  { intros x _. apply N.eqb_eq. revert x. apply char_forallb. vm_compute. reflexivity. }
  rewrite !V in E by auto. unfold six_bit in *. rewrite <- (ascii_N_embedding c), <- (ascii_N_embedding d). f_equal. lia.
Qed.
Lemma bprefix_app_eq a x b : bprefix (a ++ x) (a ++ b) <-> bprefix x b.
Proof.
  split; intros [r H].
  - exists r. rewrite <- app_assoc in H. apply app_inv_head in H. auto.
  - exists r. rewrite H, app_assoc. reflexivity.
Qed.
Lemma bprefix_split a x b y : length a = length b -> bprefix (a ++ x) (b ++ y) <-> a = b /\ bprefix x y.
Proof.
  intros L. split.
  - intros [r H]. rewrite <- app_assoc in H. symmetry in H. apply app_inj_len in H; auto. destruct H as [-> <-]. split; auto. exists r; auto.
  - intros [-> H]. apply bprefix_app_eq; auto.
Qed.
Lemma text_prefix p t n : six_bit_text p -> Forall six_bit t ->
  bprefix (text_bits p) (text_bits t ++ pad_bits (iso_pad n)) <-> is_prefix p t.
Proof.
  intros Hp Ht. revert t Ht. induction Hp as [|c p [Hc Hs] Hp IH]; intros t Ht.
  - split; intros _; [exists t; auto|apply bprefix_nil].
  - change (text_bits (c :: p)) with (six c ++ text_bits p). destruct Ht as [|d t Hd Ht].
    + split; [|intros [r H]; discriminate]. intros [r H]. exfalso. cbn [text_bits flat_map app] in H.
      assert (six c = six space) as X.
      { assert (firstn 6 (pad_bits (iso_pad n)) = six c) as X by (rewrite H; reflexivity).
        destruct (iso_pad_In n) as [E|[E|[E|[E|[E|[E|[E|[E|[]]]]]]]]]; rewrite <- E in X;
        first [apply (f_equal (@length bool)) in X; discriminate | rewrite <- X; reflexivity]. }
      apply Hs, six_inj; auto. unfold six_bit. cbn. lia.
    + change (text_bits (d :: t)) with (six d ++ text_bits t). rewrite <- app_assoc, bprefix_split by reflexivity. rewrite IH by auto. split.
      * intros [E [r ->]]. apply six_inj in E; auto. subst d. exists r. reflexivity.
      * intros [r H]. injection H as -> ->. split; auto. exists r; auto.
Qed.
Lemma matches_bits p id : matches_at (bits_to_str p) 0 id <-> bprefix p (bits_of_bytes id).
Proof. rewrite <- bprefix_str. apply id_has_prefix_str. apply is_bits_to_str. Qed.
Lemma iso_match p t id : six_bit_text p -> p <> [] -> Forall six_bit t -> wf_bytes id ->
  bits_of_bytes id = text_bits t ++ pad_bits (iso_pad (length t)) ->
  let m := match_filter (new_filter (runes_to_6bin p) 0) id in
  (m = Ok true <-> is_prefix p t) /\ m <> Err /\
  (6 * length p <= 8 * length id -> exists b, m = Ok b /\ (b = true <-> is_prefix p t)).
Proof.
  intros Hp Np Ht W B m. unfold m. rewrite runes_bits. assert (is_pattern (bits_to_str (text_bits p))) as IP by apply is_bitstring_pattern, is_bits_to_str.
  pose proof (text_prefix p t (length t) Hp Ht) as TP. rewrite <- B, <- matches_bits in TP.
  assert (length (bits_to_str (text_bits p)) = 6 * length p) as LP by (rewrite bits_to_str_length, text_bits_length; auto).
  assert (length p <> 0) as NP by (destruct p; [congruence|discriminate]).
  split; [|split].
  - rewrite match_filter_true by auto. rewrite <- TP. split; [tauto|]. intros H. split; auto.
    apply matches_bits in H. destruct H as [r H]. apply (f_equal (@length bool)) in H. rewrite app_length, text_bits_length, bits_of_bytes_length in H.
    unfold bytes_needed. lia.
  - apply match_filter_not_err; auto.
  - intros L. destruct (match_exact (bits_to_str (text_bits p)) 0 id) as (b & M & X); auto; [unfold bytes_needed; rewrite LP; lia|].
    exists b. split; auto. rewrite X. exact TP.
Qed.

(** ** Encoder prefixes and pattern filters *)
Lemma urn_parts E t l : ~ In ":"%char t -> l <> [] -> Forall clean l ->
  pattern_prefix E (str "urn:epc:pat:" ++ t ++ str ":" ++ dotted l) =
  Some (match make_prefix_filter_string E t l with Ok s => s | _ => [] end).
Proof.
  intros Ht Hl F. unfold pattern_prefix. change urn_pat with (str "urn:epc:pat:"). rewrite trim_app.
  change (str ":" ++ dotted l) with (ccolon :: dotted l). rewrite split_on_app by auto. rewrite split_on_none.
  2:{ apply join_no_char; [discriminate|]. eapply Forall_impl; [|exact F]. intros s (_ & _ & H). exact H. }
  unfold dotted. rewrite upper_join by (eapply Forall_impl; [|exact F]; intros s (H & _); exact H).
  change (str ".") with [cdot]. rewrite split_on_join; auto. eapply Forall_impl; [|exact F]. intros s (_ & H & _). exact H.
Qed.
Section TWO_ENVS.
  Context (E E' : env) (BAD : forall s, e_dec_bad E s = e_dec_bad E' s).
  Lemma dec_to_bin_same s : dec_to_bin E s = dec_to_bin E' s.
  Proof. unfold dec_to_bin. destruct (is_int63 s); auto. Qed.
  Lemma get_filter_same s : s <> [] -> get_filter E s = get_filter E' s.
  Proof. destruct s; [congruence|reflexivity]. Qed.
  Lemma get_cp_same s pt : get_company_prefix E s pt = get_company_prefix E' s pt.
  Proof. destruct s; [reflexivity|]. unfold get_company_prefix. rewrite dec_to_bin_same. reflexivity. Qed.
  Lemma get_ref_same s r : s <> [] -> get_ref E s r = get_ref E' s r.
  Proof. destruct s; [congruence|]. intros _. unfold get_ref. rewrite dec_to_bin_same. reflexivity. Qed.
  Lemma get_serial_same s n : s <> [] -> get_serial E s n = get_serial E' s n.
  Proof. destruct s; [congruence|]. intros _. unfold get_serial. rewrite dec_to_bin_same. reflexivity. Qed.

  Lemma prefix_agrees k f : f_filter f <> [] -> Forall clean (field_texts f) ->
    let urn := str "urn:epc:pat:" ++ pattern_type k ++ str ":" ++ dotted (given (firstn (field_count k) (field_texts f))) in
    exists s, encode_prefix k E f = Ok ([], s, urn) /\ pattern_prefix E' urn = Some s.
  Proof.
    intros HF HC. cbv zeta.
    assert (Forall clean (given (firstn (field_count k) (field_texts f)))) as CL.
    { assert (forall n l, Forall clean l -> Forall clean (given (firstn n l))) as X.
      { induction n as [|n IH]; intros l H; [constructor|]. destruct H as [|s l Hs H]; [constructor|]. cbn [firstn given]. destruct s; constructor; auto. }
      auto. }
    rewrite urn_parts; auto.
    2:{ destruct k; cbn; intuition discriminate. }
    2:{ unfold field_texts. destruct (f_filter f); [congruence|]. destruct k; discriminate. }
    clear CL HC. destruct (s_getters E k) as (G1 & G2 & G3 & G4 & G5).
    destruct f as [fv cp ref ser]; cbn [f_filter f_cp f_ref f_ser] in *. unfold field_texts. cbn [f_filter f_cp f_ref f_ser].
    destruct k; cbn [encode_prefix f_filter f_cp f_ref f_ser field_count has_serial firstn s_table t_table] in *.
    - unfold make_sgtin96. rewrite G1. destruct fv as [|v fv]; [congruence|]. rewrite get_filter_same by discriminate.
      destruct cp as [|c cp]; [eexists; split; reflexivity|]. rewrite G2, G3, get_cp_same.
      destruct ref as [|r ref]; [eexists; split; reflexivity|]. rewrite G4, get_ref_same by discriminate.
      destruct ser as [|x ser]; [eexists; split; reflexivity|]. rewrite G5, get_serial_same by discriminate. eexists; split; reflexivity.
    - unfold make_sscc96. rewrite G1. destruct fv as [|v fv]; [congruence|]. rewrite get_filter_same by discriminate.
      destruct cp as [|c cp]; [eexists; split; reflexivity|]. rewrite G2, G3, get_cp_same.
      destruct ref as [|r ref]; [eexists; split; reflexivity|]. rewrite G4, get_ref_same by discriminate. eexists; split; reflexivity.
    - unfold make_grai96. rewrite G1. destruct fv as [|v fv]; [congruence|]. rewrite get_filter_same by discriminate.
      destruct cp as [|c cp]; [eexists; split; reflexivity|]. rewrite G2, G3, get_cp_same.
      destruct ref as [|r ref]; [eexists; split; reflexivity|]. rewrite G4, get_ref_same by discriminate.
      destruct ser as [|x ser]; [eexists; split; reflexivity|]. rewrite G5, get_serial_same by discriminate. eexists; split; reflexivity.
    - unfold make_giai96. rewrite G1. destruct fv as [|v fv]; [congruence|]. rewrite get_filter_same by discriminate.
      destruct cp as [|c cp]; [eexists; split; reflexivity|]. rewrite G2, G3, get_cp_same.
      destruct ref as [|r ref]; [eexists; split; reflexivity|]. rewrite G4, get_ref_same by discriminate. eexists; split; reflexivity.
  Qed.
End TWO_ENVS.
Lemma iso_fields_prefix E t l : In t [str "iso17363"; str "iso17365"] -> 1 <= length l ->
  length l <= (if seqb t (str "iso17363") then 3 else 4) ->
  make_prefix_filter_string E t l = Ok (runes_to_6bin (concat l)).
Proof.
  intros [<-|[<-|[]]] L1 L2; cbn in L2;
  (destruct l as [|a [|b [|c [|d [|e l]]]]]; cbn [length] in *; try lia; cbn [concat]; rewrite ?app_nil_r, ?runes_app; reflexivity).
Qed.
Lemma iso17363_four E di oc ei csn : length csn <= 6 -> length di + length oc <> 4 ->
  make_prefix_filter_string E (str "iso17363") [di; oc; ei; csn] = Err.
Proof.
  intros L N. change (make_prefix_filter_string E (str "iso17363") [di; oc; ei; csn]) with (new_prefix_filter_iso17363 [di; oc; ei; csn]).
  unfold new_prefix_filter_iso17363. destruct (Nat.ltb_spec 6 (length csn)); auto. unfold get_iso6346_cd.
  assert (negb (Nat.eqb (length (di ++ oc ++ (if Nat.ltb (length csn) 6 then zero_padding (6 - length csn) ++ csn else csn))) 10) = true) as ->; auto.
  apply negb_true_iff, Nat.eqb_neq. rewrite !app_length. unfold zero_padding. destruct (Nat.ltb_spec (length csn) 6); rewrite ?app_length, ?repeat_length; lia.
Qed.
Lemma iso17365_prefix_agrees E E' di iac cin sn : di <> [] -> Forall clean [di; iac; cin; sn] ->
  let urn := str "urn:epc:pat:iso17365:" ++ dotted (given [di; iac; cin; sn]) in
  exists s, make_iso17365 E true di iac cin sn = Ok ([], 0, s, urn) /\ pattern_prefix E' urn = Some s.
Proof.
  intros HD F urn. assert (Forall clean (given [di; iac; cin; sn])) as CL.
  { inversion F as [|? ? C1 F1]; inversion F1 as [|? ? C2 F2]; inversion F2 as [|? ? C3 F3]; inversion F3 as [|? ? C4 F4]; subst.
    cbn [given]. destruct di; [constructor|]. constructor; auto. destruct iac; [constructor|]. constructor; auto. destruct cin; [constructor|]. constructor; auto. destruct sn; constructor; auto. }
  exists (runes_to_6bin (concat (given [di; iac; cin; sn]))). split.
  - unfold urn. destruct di; [congruence|]. unfold make_iso17365. destruct iac as [|? iac]; [cbn [given concat]; rewrite app_nil_r; reflexivity|].
    destruct cin as [|? cin]; [cbn [given concat]; rewrite app_nil_r, runes_app; reflexivity|].
    destruct sn as [|? sn]; cbn [given concat andb]; rewrite app_nil_r, !runes_app; reflexivity.
  - unfold urn. change (str "urn:epc:pat:iso17365:") with (str "urn:epc:pat:" ++ str "iso17365" ++ str ":"). rewrite <- !app_assoc.
    rewrite urn_parts; auto.
    + rewrite iso_fields_prefix; auto.
      * right; left; auto.
      * destruct di; [congruence|]. cbn [given length]. lia.
      * change (seqb (str "iso17365") (str "iso17363")) with false. destruct di; cbn [given length]; [lia|]. destruct iac; cbn [given length]; [lia|]. destruct cin; cbn [given length]; [lia|]. destruct sn; cbn [given length]; lia.
    + cbn; intuition discriminate.
    + destruct di; [congruence|discriminate].
Qed.
Lemma iso17363_prefix_agrees E E' oc ei : Forall clean [oc; ei] ->
  let urn := str "urn:epc:pat:iso17363:" ++ dotted (given [str "7B"; oc; ei]) in
  exists s, make_iso17363 E true oc ei [] = Ok ([], 0, s, urn) /\ pattern_prefix E' urn = Some s.
Proof.
  intros F urn. assert (Forall clean (given [str "7B"; oc; ei])) as CL.
  { inversion F as [|? ? C1 F1]; inversion F1 as [|? ? C2 F2]; subst. cbn [given str list_ascii_of_string].
    constructor. { split; [reflexivity|]. cbn. split; intuition discriminate. }
    destruct oc; [constructor|]. constructor; auto. destruct ei; constructor; auto. }
  exists (runes_to_6bin (concat (given [str "7B"; oc; ei]))). split.
  - unfold urn, make_iso17363. destruct oc as [|? oc]; [reflexivity|]. destruct ei as [|? ei]; [cbn [given concat andb str list_ascii_of_string]; rewrite app_nil_r; reflexivity|].
    cbn [given concat andb str list_ascii_of_string]. rewrite app_nil_r, !runes_app. reflexivity.
  - unfold urn. change (str "urn:epc:pat:iso17363:") with (str "urn:epc:pat:" ++ str "iso17363" ++ str ":"). rewrite <- !app_assoc.
    rewrite urn_parts; auto.
    + rewrite iso_fields_prefix; auto.
      * left; auto.
      * cbn [given str list_ascii_of_string length]. lia.
      * change (seqb (str "iso17363") (str "iso17363")) with true. cbn [given str list_ascii_of_string length]. destruct oc; cbn [given length]; [lia|]. destruct ei; cbn [given length]; lia.
    + cbn; intuition discriminate.
    + discriminate.
Qed.

(** ** Patterns longer than the identifier *)
Lemma compatible_bits q id : length (bits_of_bytes id) <= length q ->
  compatible_at (bits_to_str q) 0 id <-> bprefix (bits_of_bytes id) q.
Proof.
  unfold compatible_at. generalize (bits_of_bytes id) as l. intros l. cbn [Nat.add]. revert q. induction l as [|b l IH]; intros q L.
  - split; intros _; [apply bprefix_nil|]. intros i c b _ X. destruct i; discriminate.
  - destruct q as [|x q]; [cbn in L; lia|]. cbn [length] in L. change (x :: q) with ([x] ++ q). change (b :: l) with ([b] ++ l).
    rewrite bprefix_split by reflexivity. rewrite <- IH by lia. split.
    + intros H. split.
      * specialize (H 0 (if x then "1"%char else "0"%char) b). destruct x, b; auto; exfalso; specialize (H eq_refl eq_refl); cbn in H; repeat (destruct H as [H|H]); first [discriminate H|destruct H; discriminate].
      * intros i c b' H1 H2. apply (H (S i) c b'); auto.
    + intros [E H] [|i] c b' H1 H2.
      * injection E as ->. cbn in H1, H2. injection H1 as <-. injection H2 as <-. apply agreeb_spec; [|destruct x; reflexivity]. destruct x; vm_compute; auto.
      * apply (H i c b'); auto.
Qed.
Lemma text_bits_prefix t p x : Forall six_bit t -> Forall six_bit p -> length t <= length p ->
  bprefix (text_bits t ++ x) (text_bits p) <-> exists q, p = t ++ q /\ bprefix x (text_bits q).
Proof.
  intros Ht. revert p. induction Ht as [|d t Hd Ht IH]; intros p Hp L.
  - split; [intros H; exists p; auto|intros (q & -> & H); exact H].
  - destruct Hp as [|c p Hc Hp]; [cbn in L; lia|]. change (text_bits (c :: p)) with (six c ++ text_bits p). change (text_bits (d :: t)) with (six d ++ text_bits t).
    rewrite <- app_assoc, bprefix_split by reflexivity. cbn [length] in L. rewrite IH by (auto; lia). split.
    + intros [E (q & -> & H)]. apply six_inj in E; auto. subst d. exists q. auto.
    + intros (q & E & H). injection E as -> ->. eauto.
Qed.
Definition starts_pad (n : nat) (c : ascii) : bool := if list_eq_dec Bool.bool_dec (firstn n (six c)) (pad_bits n) then true else false.
Lemma starts n hi c : In (n, hi) [(2, 47%N); (4, 35%N)] -> six_bit c ->
  (33 <= N_of_ascii c <= hi)%N <-> c <> space /\ bprefix (pad_bits n) (six c).
Proof.
  intros I Hc. assert (n <= 6) as Hn by (destruct I as [I|[I|[]]]; injection I as <- <-; lia).
  assert (bprefix (pad_bits n) (six c) <-> starts_pad n c = true) as ->.
  { unfold starts_pad. destruct (list_eq_dec Bool.bool_dec (firstn n (six c)) (pad_bits n)) as [E|E].
    - split; auto. intros _. exists (skipn n (six c)). rewrite <- E. symmetry. apply firstn_skipn.
    - split; [|discriminate]. intros [r H]. exfalso. apply E. rewrite H. rewrite firstn_app_le by (rewrite pad_bits_length; lia). apply firstn_all2. rewrite pad_bits_length. lia. }
  assert (implb (N.leb 32 (N_of_ascii c) && N.ltb (N_of_ascii c) 96)
    (Bool.eqb (N.leb 33 (N_of_ascii c) && N.leb (N_of_ascii c) hi) (negb (Ascii.eqb c space) && starts_pad n c)) = true) as A.
  { destruct I as [I|[I|[]]]; injection I as <- <-; revert c Hc; intros c _; revert c; apply char_forallb; vm_compute; reflexivity. }
  unfold six_bit in Hc. replace (N.leb 32 (N_of_ascii c) && N.ltb (N_of_ascii c) 96) with true in A by lia. apply Bool.eqb_prop in A.
  destruct (Ascii.eqb_spec c space) as [Es|Es]; cbn [negb andb] in A; split.
  - subst c. cbn. lia.
  - tauto.
  - intros H. split; auto. rewrite <- A. lia.
  - intros [_ H]. rewrite H in A. lia.
Qed.
Lemma pad_six r : 6 <= r -> bprefix (six space) (pad_bits r).
Proof. intros H. unfold pad_bits. replace r with (6 + (r - 6)) by lia. rewrite seq_app, map_app. eexists. reflexivity. Qed.
Lemma bprefix_cut n a b y : length a = n -> n <= length b -> bprefix a (b ++ y) <-> bprefix a b.
Proof.
  intros L M. split; intros [r H].
  - exists (skipn n b). rewrite <- (firstn_skipn n b) at 1. f_equal. apply (f_equal (firstn n)) in H. rewrite firstn_app_le, firstn_app_le in H by lia. rewrite H. apply firstn_all2. lia.
  - exists (r ++ y). rewrite H, app_assoc. reflexivity.
Qed.
Lemma iso_match_panic p t id : six_bit_text p -> p <> [] -> Forall six_bit t -> wf_bytes id ->
  bits_of_bytes id = text_bits t ++ pad_bits (iso_pad (length t)) ->
  match_filter (new_filter (runes_to_6bin p) 0) id = Panic <->
  exists c r, p = t ++ c :: r /\ (length t mod 8 = 0 \/ length t mod 8 = 5 /\ (33 <= N_of_ascii c <= 47)%N \/ length t mod 8 = 2 /\ (33 <= N_of_ascii c <= 35)%N).
Proof.
  intros Hp Np Ht W B. rewrite runes_bits. rewrite match_filter_panic by (auto; apply is_bitstring_pattern, is_bits_to_str).
  assert (8 * length id = 6 * length t + iso_pad (length t)) as LI.
  { rewrite <- bits_of_bytes_length, B, app_length, text_bits_length, pad_bits_length. reflexivity. }
  assert (length id < bytes_needed (bits_to_str (text_bits p)) 0 <-> 8 * length id < 6 * length p) as LN.
  { unfold bytes_needed. rewrite bits_to_str_length, text_bits_length. assert (length p <> 0) by (destruct p; [congruence|discriminate]). lia. }
  rewrite LN. assert (Forall six_bit p) as Hp6 by (eapply Forall_impl; [|exact Hp]; cbn; tauto).
  assert (8 * length id < 6 * length p /\ compatible_at (bits_to_str (text_bits p)) 0 id <->
    8 * length id < 6 * length p /\ exists q, p = t ++ q /\ bprefix (pad_bits (iso_pad (length t))) (text_bits q)) as ->.
  { split; intros [L H]; (split; [auto|]).
    - apply compatible_bits in H; [|rewrite bits_of_bytes_length, text_bits_length; lia]. rewrite B in H. apply text_bits_prefix in H; auto. lia.
    - apply compatible_bits; [rewrite bits_of_bytes_length, text_bits_length; lia|]. rewrite B. apply text_bits_prefix; auto. lia. }
  split.
  - intros [L (q & -> & H)]. destruct q as [|c r]; [rewrite app_nil_r in L; lia|]. exists c, r. split; auto.
    apply Forall_app in Hp. destruct Hp as [_ Hq]. inversion Hq as [|? ? [Hc Hs] _]; subst. clear Hq.
    change (text_bits (c :: r)) with (six c ++ text_bits r) in H.
    destruct (le_lt_dec 6 (iso_pad (length t))) as [G|G].
    { exfalso. apply Hs. destruct (pad_six _ G) as [y Y]. rewrite Y in H. destruct H as [z H]. rewrite <- app_assoc in H.
      apply (f_equal (firstn 6)) in H. rewrite !firstn_app_le in H by (cbn; lia). change (six c = six space) in H. apply six_inj; auto. unfold six_bit. cbn. lia. }
    rewrite (bprefix_cut (iso_pad (length t))) in H; [|apply pad_bits_length|cbn [length six map]; lia].
    destruct (iso_pad_In (length t)) as [E|[E|[E|E]]]; [| | |cbn [In] in E; lia].
    + left. unfold iso_pad in E. destruct (Nat.eqb_spec (6 * length t mod 16) 0); lia.
    + right; left. rewrite <- E in H. split; [unfold iso_pad in E; destruct (Nat.eqb_spec (6 * length t mod 16) 0); lia|]. apply (starts 2); cbn [In]; auto.
    + right; right. rewrite <- E in H. split; [unfold iso_pad in E; destruct (Nat.eqb_spec (6 * length t mod 16) 0); lia|]. apply (starts 4); cbn [In]; auto.
  - intros (c & r & -> & D). apply Forall_app in Hp6. destruct Hp6 as [_ Hq]. inversion Hq as [|? ? Hc _]; subst. rewrite app_length. cbn [length].
    change (text_bits (c :: r)) with (six c ++ text_bits r).
    destruct D as [D|[[D R]|[D R]]].
    + assert (iso_pad (length t) = 0) as E by (unfold iso_pad; destruct (Nat.eqb_spec (6 * length t mod 16) 0); lia). split; [lia|]. exists (c :: r). split; auto. rewrite E. apply bprefix_nil.
    + assert (iso_pad (length t) = 2) as E by (unfold iso_pad; destruct (Nat.eqb_spec (6 * length t mod 16) 0); lia). split; [lia|]. exists (c :: r). split; auto. rewrite E.
      apply (starts 2) in R; [|cbn; auto|auto]. change (text_bits (c :: r)) with (six c ++ text_bits r). apply (bprefix_cut 2); [reflexivity|cbn; lia|tauto].
    + assert (iso_pad (length t) = 4) as E by (unfold iso_pad; destruct (Nat.eqb_spec (6 * length t mod 16) 0); lia). split; [lia|]. exists (c :: r). split; auto. rewrite E.
      apply (starts 4) in R; [|cbn; auto|auto]. change (text_bits (c :: r)) with (six c ++ text_bits r). apply (bprefix_cut 4); [reflexivity|cbn; lia|tauto].
Qed.