(** Round trip of encoder and translator. *)
From Verif Require Import GoBase BinUtil MTdtEpc MTdtIso MTdtCore MScheme Spec SpecEpc PBase PNum PTdt PTdt2 PMatch PEpc PropsTdt.
From Verif Require Export SpecEncode.
From Coq Require Import Lia ZifyBool ZifyNat ZifyN.
Ltac Zify.zify_post_hook ::= Z.div_mod_to_equations.

Lemma fixed_of s w : is_decimal s -> length s = w -> fixed_decimal w (dec_value s) s.
Proof. intros [_ D] L. split; auto. Qed.
Lemma fixed_bound w n s : fixed_decimal w n s -> (n < 10 ^ N.of_nat w)%N.
Proof.
  intros (<- & D & <-). apply Forall_digit in D. apply (numval_bound 10); auto. lia.
Qed.
Lemma carries_urn k f id : urn_fields k f -> carries k f id ->
  partition_ok id /\ fits_digits k id /\ pure_identity k id (urn_of k f).
Proof.
  intros ((D1 & D2 & D3 & D4) & CPL & V & R & S) (T & _ & P & C & RV & SV).
  unfold cp_length_ok, fields_partition in *. assert (fixed_decimal (cp_digits (partition id)) (cp_value id) (f_cp f)) as FC.
  { rewrite C, P. apply fixed_of; auto. unfold cp_digits. lia. }
  assert (exists s, plain_decimal (serial_value id) s /\ (has_serial k = true -> s = f_ser f)) as (s & PS & ES).
  { destruct (has_serial k) eqn:HS.
    - exists (f_ser f). split; auto. assert (serial_value id = dec_value (f_ser f)) as ->.
      { destruct k; auto; discriminate. }
      split; [apply D4; auto|]. split; auto. apply S; auto.
    - exists (dec_string (serial_value id)). split; [apply dec_string_plain|discriminate]. }
  split; [unfold partition_ok; lia|]. split.
  - split; [eapply fixed_bound; eauto|]. destruct k; auto.
    + rewrite RV. eapply fixed_bound, fixed_of; eauto. rewrite P; auto.
    + rewrite RV. eapply fixed_bound, fixed_of; eauto. rewrite P; auto.
    + destruct R as [R|R]; [right|left; lia]. rewrite RV. eapply fixed_bound, fixed_of; eauto. rewrite P; auto.
  - exists (f_cp f), (f_ref f), s. split; auto. split; [|split; auto].
    + rewrite P. destruct k.
      * rewrite RV. apply fixed_of; auto.
      * rewrite RV. apply fixed_of; auto.
      * destruct R as [R|R]; [right|left; auto]. rewrite RV. apply fixed_of; auto.
      * rewrite RV. split; auto.
    + unfold urn_of. rewrite P. fold (fields_partition f). destruct k; auto.
      * rewrite ES; auto.
      * rewrite ES; auto.
Qed.
Lemma round_trip k E f pc : epc_pc pc -> urn_fields k f ->
  exists id, encode k E f = Ok (id, [], []) /\ carries k f id /\ translate pc id = Ok (urn_of k f).
Proof.
  intros HP U. destruct (encode_ok k E f) as (id & EN & C); try apply U.
  exists id. split; auto. split; auto. destruct (carries_urn k f id U C) as (P & F & I).
  destruct (decode_valid k pc id HP (proj1 C) P F) as (u & TR & I'). rewrite TR. f_equal. eapply pure_identity_unique; eauto.
Qed.
Definition with_ref (f : epc_fields) (r : gostring) : epc_fields :=
  {| f_filter := f_filter f; f_cp := f_cp f; f_ref := r; f_ser := f_ser f |}.
Lemma dec_string_value n : dec_value (dec_string n) = n.
Proof. destruct (dec_string_plain n) as (_ & V & _). exact V. Qed.
Lemma empty_ref k E f : good_random E -> f_ref f = [] -> cp_length_ok f -> (has_serial k = true -> f_ser f <> []) ->
  exists v, (v < 2 ^ N.of_nat (ref_bits k (fields_partition f)))%N /\ encode k E f = encode k E (with_ref f (dec_string v)).
Proof.
  intros G R CPL HS. unfold cp_length_ok in *. destruct (G (ref_bits k (fields_partition f))) as [GL GB].
  destruct (is_bits_str _ GB) as [l EL]. exists (N_of_bits l).
  assert (length l = ref_bits k (fields_partition f)) as LL by (rewrite <- GL, EL, bits_to_str_length; auto).
  assert (N_of_bits l < 2 ^ N.of_nat (ref_bits k (fields_partition f)))%N as V by (rewrite <- LL; apply N_of_bits_bound).
  split; auto. destruct (t_row k _ CPL) as (_ & _ & RR). fold (fields_partition f) in RR.
  pose proof (ref_bits_range k _ CPL) as BR. fold (fields_partition f) in BR.
  destruct (dec_string_plain (N_of_bits l)) as (D & VV & _).
  assert (get_ref E (f_ref f) (pt_row (t_table k) (length (f_cp f))) =
          get_ref E (dec_string (N_of_bits l)) (pt_row (t_table k) (length (f_cp f)))) as X.
  { rewrite R. rewrite (get_ref_padded E (dec_string (N_of_bits l))) by apply D. rewrite RR. rewrite padded_fits by (auto; rewrite ?VV; auto; lia).
    rewrite VV, (bits_w_unique _ _ l) by auto. cbn [get_ref]. rewrite RR. exact EL. }
  destruct (s_getters E k) as (G1 & G2 & G3 & G4 & G5). rewrite <- !G4 in X.
  destruct f as [fv cp ref ser]; cbn [f_filter f_cp f_ref f_ser with_ref] in *.
  destruct cp as [|c cp]; [cbn in CPL; lia|]. subst ref.
  destruct (dec_string (N_of_bits l)) as [|d ds] eqn:ED; [destruct D; congruence|].
  destruct k; cbn [encode with_ref f_filter f_cp f_ref f_ser s_table] in *.
  - unfold make_sgtin96. rewrite X. destruct ser; reflexivity.
  - unfold make_sscc96. rewrite X. reflexivity.
  - unfold make_grai96. rewrite X. destruct ser; reflexivity.
  - unfold make_giai96. rewrite X. destruct fv; reflexivity.
Qed.