(** What [buildEPC] returns for each scheme. *)
From Verif Require Import GoBase BinUtil MTdtEpc MTdtIso MTdtCore SpecEpc PBase PNum PTdt.
From Coq Require Import Lia ZifyBool ZifyNat ZifyN.
Ltac Zify.zify_post_hook ::= Z.div_mod_to_equations.

Lemma Forall_digit s : Forall (fun c => is_digit c = true) s <-> Forall (digit_lt 10) s.
Proof. rewrite !Forall_forall. split; intros H c Hc; apply is_digit_lt; auto. Qed.
Lemma dec_string_plain n : plain_decimal n (dec_string n).
Proof.
  unfold dec_string. destruct (numeral_spec 10 n ltac:(lia)) as (ds & -> & HN & F & V & L).
  split; [split; auto; apply Forall_digit; auto|]. split; auto.
Qed.
Lemma plain_decimal_unique n s t : plain_decimal n s -> plain_decimal n t -> s = t.
Proof.
  assert (X : forall n s t, plain_decimal n s -> plain_decimal n t -> length s <= length t).
  { clear. intros n s t [[S1 S2] [S3 S4]] [[T1 T2] [T3 T4]]. apply Forall_digit in S2, T2.
    pose proof (numval_bound 10 t ltac:(lia) T2) as B. rewrite <- dec_value_numval, T3 in B.
    destruct S4 as [->|S4]; [destruct t; [congruence|cbn; lia]|]. destruct s as [|c s]; [congruence|].
    pose proof (Forall_inv S2) as H1. pose proof (leading_lower 10 c s H1 S4 ltac:(lia)) as LL.
    rewrite <- dec_value_numval, S3 in LL.
    assert (10 ^ N.of_nat (length s) < 10 ^ N.of_nat (length t))%N as Y by lia.
    apply N.pow_lt_mono_r_iff in Y; [|lia]. cbn. lia. }
  intros S T. apply (numval_inj 10); [lia|apply Forall_digit, S|apply Forall_digit, T| |].
  - apply Nat.le_antisymm; eapply X; eauto.
  - change (dec_value s = dec_value t). destruct S as (_ & E1 & _), T as (_ & E2 & _). congruence.
Qed.
Lemma fixed_decimal_unique w n s t : fixed_decimal w n s -> fixed_decimal w n t -> s = t.
Proof.
  intros (S1 & S2 & S3) (T1 & T2 & T3). apply (numval_inj 10); [lia|apply Forall_digit; auto|apply Forall_digit; auto|congruence|].
  change (dec_value s = dec_value t). congruence.
Qed.

Lemma dec_padded_ok w bs n : N_of_bytes bs = n -> w <> 0 -> (n < 10 ^ N.of_nat w)%N ->
  exists s, dec_padded w bs = Ok s /\ fixed_decimal w n s.
Proof.
  intros E Hw H. unfold dec_padded, dec_string. rewrite E.
  pose proof (proj2 (numeral_length 10 n w ltac:(lia) Hw) H) as L. unfold repeat_sub.
  destruct (numeral_spec 10 n ltac:(lia)) as (ds & Q & HN & F & V & _). rewrite Q in *.
  replace (Nat.ltb w (length ds)) with false by lia. cbn [bind]. eexists. split; [reflexivity|].
  split; [rewrite app_length, repeat_length; lia|]. split.
  - apply Forall_digit, Forall_app. split; auto. apply Forall_forall. intros c Hc. apply repeat_spec in Hc. subst.
    unfold digit_lt. cbn. lia.
  - rewrite dec_value_numval, numval_repeat0. auto.
Qed.
Lemma dec_padded_panic w bs n : N_of_bytes bs = n -> w <> 0 -> (10 ^ N.of_nat w <= n)%N -> dec_padded w bs = Panic.
Proof.
  intros E Hw H. unfold dec_padded, dec_string. rewrite E. unfold repeat_sub.
  destruct (le_lt_dec (length (numeral 10 n)) w) as [L|L].
  - apply numeral_length in L; auto; lia.
  - replace (Nat.ltb w (length (numeral 10 n))) with true by lia. reflexivity.
Qed.

Lemma epc_partition_field id : wf_bytes id -> length id = 12 -> epc_partition id = partition id.
Proof.
  intros W L. unfold epc_partition, partition. f_equal.
  transitivity (N_of_bytes [N.shiftr (N.land (b id 1) 28) 2]); [unfold N_of_bytes; cbn [fold_left]; lia|].
  revert W L. field_tac.
Qed.
Lemma header_field id : wf_bytes id -> length id = 12 -> field id 0 8 = b id 0.
Proof.
  intros W L. transitivity (N_of_bytes [b id 0]); [|unfold N_of_bytes; cbn [fold_left]; lia].
  symmetry. revert W L. field_tac.
Qed.
Lemma partition_lt id : wf_bytes id -> length id = 12 -> partition id < 8.
Proof.
  intros W L. unfold partition, field. pose proof (N_of_bits_bound (firstn 3 (skipn 11 (bits_of_bytes id)))) as B.
  rewrite firstn_length, skipn_length, bits_of_bytes_length, L in B. change (N.of_nat (Nat.min 3 (8*12-11))) with 3%N in B.
  change (2^3)%N with 8%N in B. lia.
Qed.

Section BUILD.
  Context (id : list N) (W : wf_bytes id) (L : length id = 12).

  Definition two_fields (k : scheme) (cpb rb : list N) (f : gostring -> gostring -> gostring) : result gostring :=
    let! c := dec_padded (cp_digits (partition id)) cpb in
    let! r := dec_padded (ref_digits k (partition id)) rb in
    Ok (f c r).

  Ltac part_cases :=
    let p := fresh "p" in
    pose proof (epc_partition_field id W L) as EP; unfold cp_value, ref_value, two_fields in *;
    destruct (partition id) as [|[|[|[|[|[|[|p]]]]]]]; [..|lia].
  Ltac field_side :=
    first [ apply sgtin_cp_40_field; auto; fail | idtac ].

  Lemma build_sgtin_spec : partition_ok id -> exists cpb rb,
    N_of_bytes cpb = cp_value id /\ N_of_bytes rb = ref_value Sgtin id /\
    build_sgtin id = two_fields Sgtin cpb rb (fun c r => str "urn:epc:id:sgtin:" ++ (c ++ dot ++ r ++ dot) ++ dec_string (serial_value id)).
  Proof.
    unfold partition_ok, build_sgtin. rewrite (sgtin_ser_field id W L). fold (serial_value id). intros H. part_cases;
      rewrite EP; cbn [find_partition sgtin96_table p_value row Nat.eqb p_cp_bits p_digits cp_bits nth ref_bits pair_bits Nat.sub Nat.add];
      [exists (sgtin_cp_40 id), (sgtin_ir_40 id)|exists (sgtin_cp_37 id), (sgtin_ir_37 id)|exists (sgtin_cp_34 id), (sgtin_ir_34 id)
      |exists (sgtin_cp_30 id), (sgtin_ir_30 id)|exists (sgtin_cp_27 id), (sgtin_ir_27 id)|exists (sgtin_cp_24 id), (sgtin_ir_24 id)
      |exists (sgtin_cp_20 id), (sgtin_ir_20 id)];
      (split; [first [apply sgtin_cp_40_field|apply sgtin_cp_37_field|apply sgtin_cp_34_field|apply sgtin_cp_30_field
        |apply sgtin_cp_27_field|apply sgtin_cp_24_field|apply sgtin_cp_20_field]; auto|]);
      (split; [first [apply sgtin_ir_40_field|apply sgtin_ir_37_field|apply sgtin_ir_34_field|apply sgtin_ir_30_field
        |apply sgtin_ir_27_field|apply sgtin_ir_24_field|apply sgtin_ir_20_field]; auto|]);
      cbn [cp_digits ref_digits Nat.sub];
      repeat match goal with |- context [dec_padded ?n ?x] => destruct (dec_padded n x); cbn [bind]; try reflexivity end.
  Qed.
  Lemma build_sscc_spec : partition_ok id -> exists cpb rb,
    N_of_bytes cpb = cp_value id /\ N_of_bytes rb = ref_value Sscc id /\
    build_sscc id = two_fields Sscc cpb rb (fun c r => str "urn:epc:id:sscc:" ++ c ++ dot ++ r).
  Proof.
    unfold partition_ok, build_sscc. intros H. part_cases;
      rewrite EP; cbn [find_partition sscc96_table p_value row Nat.eqb p_cp_bits p_digits cp_bits nth ref_bits pair_bits Nat.sub Nat.add];
      [exists (sscc_cp_40 id), (sscc_ext_40 id)|exists (sscc_cp_37 id), (sscc_ext_37 id)|exists (sscc_cp_34 id), (sscc_ext_34 id)
      |exists (sscc_cp_30 id), (sscc_ext_30 id)|exists (sscc_cp_27 id), (sscc_ext_27 id)|exists (sscc_cp_24 id), (sscc_ext_24 id)
      |exists (sscc_cp_20 id), (sscc_ext_20 id)];
      (split; [first [apply sscc_cp_40_field|apply sscc_cp_37_field|apply sscc_cp_34_field|apply sscc_cp_30_field
        |apply sscc_cp_27_field|apply sscc_cp_24_field|apply sscc_cp_20_field]; auto|]);
      (split; [first [apply sscc_ext_40_field|apply sscc_ext_37_field|apply sscc_ext_34_field|apply sscc_ext_30_field
        |apply sscc_ext_27_field|apply sscc_ext_24_field|apply sscc_ext_20_field]; auto|]);
      cbn [cp_digits ref_digits Nat.sub];
      repeat match goal with |- context [dec_padded ?n ?x] => destruct (dec_padded n x); cbn [bind]; try reflexivity end.
  Qed.
  Lemma build_grai_spec : partition_ok id -> partition id <> 0 -> exists cpb rb,
    N_of_bytes cpb = cp_value id /\ N_of_bytes rb = ref_value Grai id /\
    build_grai id = two_fields Grai cpb rb (fun c r => str "urn:epc:id:grai:" ++ (c ++ dot ++ r ++ dot) ++ dec_string (serial_value id)).
  Proof.
    unfold partition_ok, build_grai. rewrite (grai_ser_field id W L). fold (serial_value id). intros H H0. part_cases; [congruence|..];
      rewrite EP; cbn [find_partition grai96_table p_value row Nat.eqb p_cp_bits p_digits cp_bits nth ref_bits pair_bits Nat.sub Nat.add];
      [exists (grai_cp_37 id), (grai_at_37 id)|exists (grai_cp_34 id), (grai_at_34 id)
      |exists (grai_cp_30 id), (grai_at_30 id)|exists (grai_cp_27 id), (grai_at_27 id)|exists (grai_cp_24 id), (grai_at_24 id)
      |exists (grai_cp_20 id), (grai_at_20 id)];
      (split; [first [apply grai_cp_37_field|apply grai_cp_34_field|apply grai_cp_30_field
        |apply grai_cp_27_field|apply grai_cp_24_field|apply grai_cp_20_field]; auto|]);
      (split; [first [apply grai_at_37_field|apply grai_at_34_field|apply grai_at_30_field
        |apply grai_at_27_field|apply grai_at_24_field|apply grai_at_20_field]; auto|]);
      cbn [cp_digits ref_digits Nat.sub];
      repeat match goal with |- context [dec_padded ?n ?x] => destruct (dec_padded n x); cbn [bind]; try reflexivity end.
  Qed.
  Lemma build_grai_spec0 : partition id = 0 -> exists cpb, N_of_bytes cpb = cp_value id /\
    build_grai id = (let! c := dec_padded 12 cpb in Ok (str "urn:epc:id:grai:" ++ (c ++ dot) ++ dec_string (serial_value id))).
  Proof.
    unfold build_grai. rewrite (grai_ser_field id W L). fold (serial_value id). intros H.
    rewrite (epc_partition_field id W L). unfold cp_value. rewrite H.
    exists (grai_cp_40 id). split; [apply grai_cp_40_field; auto|].
    cbn [find_partition grai96_table p_value row Nat.eqb p_cp_bits p_digits].
    destruct (dec_padded 12 (grai_cp_40 id)); reflexivity.
  Qed.
  Lemma build_giai_spec : partition_ok id -> exists cpb,
    N_of_bytes cpb = cp_value id /\
    build_giai id = (let! c := dec_padded (cp_digits (partition id)) cpb in
       Ok (str "urn:epc:id:giai:" ++ c ++ dot ++ dec_string (ref_value Giai id))).
  Proof.
    unfold partition_ok, build_giai. intros H. part_cases;
      rewrite EP; cbn [find_partition giai96_table p_value row Nat.eqb p_cp_bits p_digits cp_bits nth ref_bits pair_bits Nat.sub Nat.add];
      [exists (giai_cp_40 id); rewrite giai_iar_40_field by auto|exists (giai_cp_37 id); rewrite giai_iar_37_field by auto|exists (giai_cp_34 id); rewrite giai_iar_34_field by auto
      |exists (giai_cp_30 id); rewrite giai_iar_30_field by auto|exists (giai_cp_27 id); rewrite giai_iar_27_field by auto
      |exists (giai_cp_24 id); rewrite giai_iar_24_field by auto
      |exists (giai_cp_20 id); rewrite giai_iar_20_field by auto];
      (split; [first [apply giai_cp_40_field|apply giai_cp_37_field|apply giai_cp_34_field|apply giai_cp_30_field
        |apply giai_cp_27_field|apply giai_cp_24_field|apply giai_cp_20_field]; auto|]);
      cbn [cp_digits Nat.sub];
      repeat match goal with |- context [dec_padded ?n ?x] => destruct (dec_padded n x); cbn [bind]; try reflexivity end.
  Qed.

  (** Partition 7: no row of the table. *)
  Lemma find_partition_none k : ~ partition_ok id ->
    match k with
    | Sgtin => build_sgtin id = Ok (str "urn:epc:id:sgtin:" ++ dec_string (serial_value id))
    | Sscc => build_sscc id = Ok (str "urn:epc:id:sscc:")
    | Grai => build_grai id = Ok (str "urn:epc:id:grai:" ++ dec_string (serial_value id))
    | Giai => build_giai id = Ok (str "urn:epc:id:giai:")
    end.
  Proof.
    unfold partition_ok. intros H. pose proof (partition_lt id W L) as B. pose proof (epc_partition_field id W L) as EP.
    assert (partition id = 7) as H7 by lia. rewrite H7 in EP.
    destruct k; unfold build_sgtin, build_sscc, build_grai, build_giai; rewrite EP;
      cbn [find_partition sgtin96_table sscc96_table grai96_table giai96_table p_value row Nat.eqb bind];
      rewrite ?(sgtin_ser_field id W L), ?(grai_ser_field id W L); reflexivity.
  Qed.
End BUILD.

Lemma translate_epc p0 p1 id k : N.land 1 p0 = 0%N -> tag96 k id ->
  translate [p0; p1] id = match k with Sgtin => build_sgtin id | Sscc => build_sscc id | Grai => build_grai id | Giai => build_giai id end.
Proof.
  intros HP (W & L & H). cbn [translate]. rewrite HP. change (0 =? 0)%N with true. cbn iota.
  rewrite header_field in H by auto. unfold build_epc, index, b in *. rewrite L.
  destruct id as [|h id]; [discriminate|]. cbn [nth_error nth bind] in *. subst h.
  destruct k; reflexivity.
Qed.

(** ** Outcomes *)
(** The opposite of [fits_digits]. *)
Definition overflows (k : scheme) (id : list N) : Prop :=
  (10 ^ N.of_nat (cp_digits (partition id)) <= cp_value id)%N \/
  match k with
  | Giai => False
  | Grai => partition id <> 0 /\ (10 ^ N.of_nat (ref_digits k (partition id)) <= ref_value k id)%N
  | _ => (10 ^ N.of_nat (ref_digits k (partition id)) <= ref_value k id)%N
  end.

Lemma overflows_dec k id : overflows k id \/ ~ overflows k id.
Proof.
  unfold overflows.
  destruct (N.le_gt_cases (10 ^ N.of_nat (cp_digits (partition id))) (cp_value id)); [auto|].
  destruct (N.le_gt_cases (10 ^ N.of_nat (ref_digits k (partition id))) (ref_value k id)); destruct k; try (left; auto; fail);
  try (right; lia); destruct (Nat.eq_dec (partition id) 0); try (left; right; auto; fail); right; lia.
Qed.
Lemma fits_not_overflows k id : fits_digits k id <-> ~ overflows k id.
Proof. unfold fits_digits, overflows. destruct k; lia. Qed.

Lemma two_fields_ok id k cpb rb f : partition_ok id -> (k = Sgtin \/ k = Sscc \/ k = Grai /\ partition id <> 0) ->
  N_of_bytes cpb = cp_value id -> N_of_bytes rb = ref_value k id -> ~ overflows k id ->
  exists c r, two_fields id k cpb rb f = Ok (f c r) /\ fixed_decimal (cp_digits (partition id)) (cp_value id) c /\
    fixed_decimal (ref_digits k (partition id)) (ref_value k id) r.
Proof.
  intros P K HC HR HO. unfold partition_ok, overflows, two_fields in *.
  destruct (dec_padded_ok (cp_digits (partition id)) cpb (cp_value id) HC) as (c & EC & FC); [unfold cp_digits; lia|lia|].
  destruct (dec_padded_ok (ref_digits k (partition id)) rb (ref_value k id) HR) as (r & ER & FR);
    [destruct K as [->|[->|[-> ?]]]; unfold ref_digits, cp_digits; lia|destruct K as [->|[->|[-> ?]]]; lia|].
  exists c, r. rewrite EC, ER. auto.
Qed.
Lemma two_fields_panic id k cpb rb f : partition_ok id -> (k = Sgtin \/ k = Sscc \/ k = Grai /\ partition id <> 0) ->
  N_of_bytes cpb = cp_value id -> N_of_bytes rb = ref_value k id -> overflows k id -> two_fields id k cpb rb f = Panic.
Proof.
  intros P K HC HR HO. unfold partition_ok, overflows, two_fields in *.
  destruct (N.le_gt_cases (10 ^ N.of_nat (cp_digits (partition id))) (cp_value id)) as [H|H].
  - rewrite (dec_padded_panic _ _ _ HC); auto. unfold cp_digits; lia.
  - destruct (dec_padded_ok (cp_digits (partition id)) cpb (cp_value id) HC) as (c & EC & FC); [unfold cp_digits; lia|lia|].
    rewrite EC. cbn [bind]. rewrite (dec_padded_panic _ _ _ HR); auto;
      [destruct K as [->|[->|[-> ?]]]; unfold ref_digits, cp_digits; lia|destruct K as [->|[->|[-> ?]]]; lia].
Qed.

(** A GRAI with a twelve-digit company prefix: the asset type, and the dot after
    it, are left out. *)
Lemma decode_grai0 p0 p1 id : N.land 1 p0 = 0%N -> tag96 Grai id -> partition id = 0 -> ~ overflows Grai id ->
  exists c s, fixed_decimal 12 (cp_value id) c /\ plain_decimal (serial_value id) s /\
    translate [p0; p1] id = Ok (str "urn:epc:id:grai:" ++ dotted [c; s]).
Proof.
  intros HP T E O. rewrite (translate_epc p0 p1 id Grai HP T). destruct T as (W & L & H).
  destruct (build_grai_spec0 id W L E) as (cpb & HC & ->). unfold overflows in O. rewrite E in O. change (cp_digits 0) with 12 in O.
  destruct (dec_padded_ok 12 cpb (cp_value id) HC) as (c & EC & FC); [lia|lia|]. rewrite EC.
  exists c, (dec_string (serial_value id)). do 2 (split; [auto using dec_string_plain|]). cbn [bind]. unfold dotted. cbn [join].
  change dot with (str "."). rewrite <- !app_assoc. reflexivity.
Qed.
Lemma decode_ok p0 p1 id k : N.land 1 p0 = 0%N -> tag96 k id -> partition_ok id ->
  ~ overflows k id -> exists urn, translate [p0; p1] id = Ok urn /\ pure_identity k id urn.
Proof.
  intros HP T P O. rewrite (translate_epc p0 p1 id k HP T). pose proof T as T0. destruct T as (W & L & H).
  pose proof (dec_string_plain (serial_value id)) as S.
  destruct k.
  - destruct (build_sgtin_spec id W L P) as (cpb & rb & HC & HR & ->).
    edestruct (two_fields_ok id Sgtin cpb rb) as (c & r & -> & FC & FR); auto.
    eexists. split; [reflexivity|]. exists c, r, (dec_string (serial_value id)). do 3 (split; [auto|]).
    unfold dotted. cbn [join]. cbn [scheme_name]. change dot with (str "."). rewrite <- !app_assoc. reflexivity.
  - destruct (build_sscc_spec id W L P) as (cpb & rb & HC & HR & ->).
    edestruct (two_fields_ok id Sscc cpb rb) as (c & r & -> & FC & FR); auto.
    eexists. split; [reflexivity|]. exists c, r, (dec_string (serial_value id)). do 3 (split; [auto|]).
    unfold dotted. cbn [join]. cbn [scheme_name]. change dot with (str "."). reflexivity.
  - destruct (Nat.eq_dec (partition id) 0) as [E|E].
    { destruct (decode_grai0 p0 p1 id HP T0 E O) as (c & s & FC & FS & R). rewrite (translate_epc p0 p1 id Grai HP T0) in R.
      rewrite R. eexists. split; [reflexivity|]. exists c, [], s. rewrite E. split; [exact FC|]. split; [auto|split; [exact FS|reflexivity]]. }
    destruct (build_grai_spec id W L P E) as (cpb & rb & HC & HR & ->).
    edestruct (two_fields_ok id Grai cpb rb) as (c & r & -> & FC & FR); auto.
    eexists. split; [reflexivity|]. exists c, r, (dec_string (serial_value id)). do 3 (split; [auto|]).
    rewrite (proj2 (Nat.eqb_neq _ _) E).
    unfold dotted. cbn [join]. cbn [scheme_name]. change dot with (str "."). rewrite <- !app_assoc. reflexivity.
  - destruct (build_giai_spec id W L P) as (cpb & HC & ->).
    destruct (dec_padded_ok (cp_digits (partition id)) cpb (cp_value id) HC) as (c & EC & FC);
      [unfold cp_digits, partition_ok in *; lia|unfold overflows in O; lia|].
    rewrite EC. eexists. split; [reflexivity|]. exists c, (dec_string (ref_value Giai id)), (dec_string (serial_value id)).
    do 3 (split; [auto using dec_string_plain|]).
    unfold dotted. cbn [join]. cbn [scheme_name]. change dot with (str "."). reflexivity.
Qed.
Lemma decode_panic p0 p1 id k : N.land 1 p0 = 0%N -> tag96 k id -> partition_ok id -> overflows k id ->
  translate [p0; p1] id = Panic.
Proof.
  intros HP T P O. rewrite (translate_epc p0 p1 id k HP T). destruct T as (W & L & H).
  destruct k.
  - destruct (build_sgtin_spec id W L P) as (cpb & rb & HC & HR & ->). apply two_fields_panic; auto.
  - destruct (build_sscc_spec id W L P) as (cpb & rb & HC & HR & ->). apply two_fields_panic; auto.
  - destruct (Nat.eq_dec (partition id) 0) as [E|E].
    + destruct (build_grai_spec0 id W L E) as (cpb & HC & ->). unfold overflows in O. rewrite E in O.
      rewrite (dec_padded_panic _ _ _ HC); auto. change (cp_digits 0) with 12 in O. lia.
    + destruct (build_grai_spec id W L P E) as (cpb & rb & HC & HR & ->). apply two_fields_panic; auto.
  - destruct (build_giai_spec id W L P) as (cpb & HC & ->). unfold overflows in O.
    rewrite (dec_padded_panic _ _ _ HC); auto; [unfold cp_digits, partition_ok in *; lia|lia].
Qed.
Lemma decode_reserved p0 p1 id k : N.land 1 p0 = 0%N -> tag96 k id -> ~ partition_ok id ->
  translate [p0; p1] id = Ok (str "urn:epc:id:" ++ scheme_name k ++ str ":" ++
    match k with Sgtin | Grai => dec_string (serial_value id) | _ => [] end).
Proof.
  intros HP T P. rewrite (translate_epc p0 p1 id k HP T). destruct T as (W & L & H).
  pose proof (find_partition_none id W L k P) as F. destruct k; rewrite F; reflexivity.
Qed.

(** ** The ISO branch never panics *)
Lemma index_ok {A} (l : list A) i : i < length l -> exists x, index l i = Ok x.
Proof.
  intros H. unfold index. destruct (nth_error l i) eqn:E; [eauto|]. apply nth_error_None in E. lia.
Qed.
Lemma sextet_ok inp k : k < 8 * length inp / 6 -> exists c, sextet inp k = Ok c.
Proof.
  intros H. unfold sextet. assert (6 * k + 6 <= 8 * length inp) as B by lia.
  assert (6 * k / 8 < length inp) as B0 by lia.
  destruct (index_ok inp (6 * k / 8) B0) as (a & E).
  destruct (6 * k mod 8) as [|[|[|[|[|[|[|m]]]]]]] eqn:M; rewrite ?E; cbn [bind]; eauto.
  - destruct (index_ok inp (6 * k / 8 + 1)) as (a' & ->); [lia|]. cbn [bind]. eauto.
  - destruct (index_ok inp (6 * k / 8 + 1)) as (a' & ->); [lia|]. cbn [bind]. eauto.
Qed.
Lemma parse_sextets_ok inp ks : (forall k, In k ks -> k < 8 * length inp / 6) -> exists s, parse_sextets inp ks = Ok s.
Proof.
  induction ks as [|k ks IH]; intros H; cbn [parse_sextets]; [eauto|].
  destruct (sextet_ok inp k) as (c & ->); [apply H; left; auto|]. cbn [bind].
  destruct IH as (s & ->); [intros; apply H; right; auto|]. cbn [bind]. eauto.
Qed.
Lemma parse_6bit_ok inp : exists s, parse_6bit inp = Ok s.
Proof. unfold parse_6bit. apply parse_sextets_ok. intros k Hk. apply in_seq in Hk. lia. Qed.
Lemma build_uii_total id afi : build_uii id afi <> Panic.
Proof.
  unfold build_uii. destruct (afi_name afi); [|discriminate]. destruct (parse_6bit_ok id) as (s & ->). discriminate.
Qed.
Lemma land1_cases p : N.land 1 p = 0%N \/ N.land 1 p = 1%N.
Proof. destruct p as [|[p|p|]]; cbn; auto. Qed.

(** The header byte selects a scheme. *)
Definition epc_header (id : list N) : Prop := exists h id', id = h :: id' /\ In h [48; 49; 51; 52]%N.
Lemma build_epc_unknown h id : ~ In h [48; 49; 51; 52]%N -> build_epc (h :: id) = Ok [].
Proof.
  intros H. unfold build_epc, index. cbn [nth_error bind]. cbn [In] in H.
  repeat match goal with |- context [(?a =? ?b)%N] => destruct (N.eqb_spec a b); [subst; exfalso; auto 6|] end. reflexivity.
Qed.
Lemma build_epc_length h id : In h [48; 49; 51; 52]%N -> length (h :: id) <> 12 -> build_epc (h :: id) = Err.
Proof.
  intros H L. unfold build_epc, index. cbn [nth_error bind]. cbn [In] in H.
  replace (Nat.eqb (length (h :: id)) 12) with false by (symmetry; apply Nat.eqb_neq; auto).
  repeat match goal with |- context [(?a =? ?b)%N] => destruct (N.eqb_spec a b); [reflexivity|] end. intuition congruence.
Qed.
Lemma tag96_of h id : wf_bytes (h :: id) -> In h [48; 49; 51; 52]%N -> length (h :: id) = 12 -> exists k, tag96 k (h :: id).
Proof.
  intros W H L. assert (exists k, h = header k) as [k K].
  { cbn [In] in H. destruct H as [<-|[<-|[<-|[<-|[]]]]]; [exists Sgtin|exists Sscc|exists Grai|exists Giai]; reflexivity. }
  exists k. split; [|split]; auto. rewrite header_field by auto. exact K.
Qed.
