(** Decoding of the 96-bit EPC schemes: each byte slice that [buildEPC] fills in
    holds the number in one bit field of the identifier. *)
From Verif Require Import GoBase BinUtil MTdtEpc MTdtIso MTdtCore SpecEpc PBase PNum.
From Coq Require Import Lia ZifyBool ZifyNat ZifyN.
Ltac Zify.zify_post_hook ::= Z.div_mod_to_equations.

(** ** Bits of the byte operations *)
Lemma shl8_lt b k : (shl8 b k < 256)%N.
Proof. unfold shl8. apply N.mod_lt. discriminate. Qed.
Lemma lt256_log a : (a < 256)%N <-> forall i, (8 <= i)%N -> N.testbit a i = false.
Proof.
  split.
  - intros H i Hi. destruct (N.eq_dec a 0) as [->|Ha]; [apply N.bits_0|].
    apply N.bits_above_log2. apply N.lt_le_trans with 8%N; auto.
    apply N.log2_lt_pow2; [lia|]. exact H.
  - intros H. change 256%N with (2 ^ 8)%N. destruct (N.eq_dec a 0) as [->|Ha]; [reflexivity|].
    apply N.log2_lt_pow2; [lia|]. destruct (N.lt_ge_cases (N.log2 a) 8) as [|L]; auto.
    pose proof (N.bit_log2 a Ha) as B. rewrite H in B by auto. discriminate.
Qed.
Lemma lor_lt a c : (a < 256)%N -> (c < 256)%N -> (N.lor a c < 256)%N.
Proof. rewrite !lt256_log. intros A C i Hi. rewrite N.lor_spec, A, C; auto. Qed.
Lemma land_lt a c : (a < 256)%N -> (N.land a c < 256)%N.
Proof. rewrite !lt256_log. intros A i Hi. rewrite N.land_spec, A; auto. Qed.
Lemma shiftr_lt a k : (a < 256)%N -> (N.shiftr a k < 256)%N.
Proof. rewrite !lt256_log. intros A i Hi. rewrite N.shiftr_spec'. apply A. lia. Qed.
Lemma shl8_bit a k i : (i < 8)%N -> (k <= i)%N -> N.testbit (shl8 a k) i = N.testbit a (i - k).
Proof.
  intros H1 H2. unfold shl8. change 256%N with (2 ^ 8)%N.
  rewrite N.mod_pow2_bits_low by auto. apply N.shiftl_spec_high'; auto.
Qed.
Lemma shl8_bit0 a k i : (i < k)%N -> (i < 8)%N -> N.testbit (shl8 a k) i = false.
Proof.
  intros H1 H2. unfold shl8. change 256%N with (2 ^ 8)%N.
  rewrite N.mod_pow2_bits_low by auto. apply N.shiftl_spec_low; auto.
Qed.
Lemma N_of_bits_false l : N_of_bits (false :: l) = N_of_bits l.
Proof. reflexivity. Qed.

Lemma twelve (id : list N) : length id = 12 ->
  exists x0 x1 x2 x3 x4 x5 x6 x7 x8 x9 x10 x11, id = [x0; x1; x2; x3; x4; x5; x6; x7; x8; x9; x10; x11].
Proof.
  intros H. do 12 (destruct id as [|? id]; [discriminate|]). destruct id; [|discriminate].
  repeat eexists.
Qed.

Ltac bit_simpl :=
  rewrite ?N.lor_spec, ?N.land_spec, ?N.shiftr_spec';
  repeat (first [rewrite shl8_bit by reflexivity || (cbv; discriminate) | rewrite shl8_bit0 by reflexivity]);
  rewrite ?N.lor_spec, ?N.land_spec, ?N.shiftr_spec'.

Ltac wf_tac :=
  repeat (apply Forall_cons; [repeat (first [assumption | apply lor_lt | apply shl8_lt | apply shiftr_lt | apply land_lt])|]);
  apply Forall_nil.
(** Turns an equation between a byte list's number and a bit field into one
    between lists of bits. *)
Ltac field_tac :=
  intros W L;
  destruct (twelve _ L) as (x0 & x1 & x2 & x3 & x4 & x5 & x6 & x7 & x8 & x9 & x10 & x11 & ->);
  unfold wf_bytes in W;
  repeat match goal with H : Forall _ (_ :: _) |- _ => inversion H; clear H; subst end;
  try match goal with |- N_of_bytes ?f = _ => let f' := eval red in f in change f with f' end;
  unfold b; cbn [nth];
  rewrite N_of_bytes_bits by wf_tac;
  unfold field, bits_of_bytes, bits_of_byte; cbn [flat_map app map firstn skipn]; 
  bit_simpl;
  repeat match goal with H : (?x < 256)%N |- _ => generalize (proj1 (lt256_log x) H); clear H;
    let t := fresh "t" in set (t := N.testbit x); clearbody t; intro H end;
  cbv -[N_of_bits andb orb];
  repeat match goal with
    | H : forall i, (8 <= i)%N -> ?t i = false |- context [?t ?i] => rewrite (H i) by (cbv; discriminate) end;
  rewrite ?andb_false_r, ?andb_true_r, ?orb_false_r, ?orb_false_l, ?N_of_bits_false; reflexivity.

(** ** The fields *)
Section FIELDS.
  Context (id : list N).
  Lemma sgtin_cp_40_field : wf_bytes id -> length id = 12 -> N_of_bytes (sgtin_cp_40 id) = field id 14 40.
  Proof. field_tac. Qed.
  Lemma sscc_cp_40_field : wf_bytes id -> length id = 12 -> N_of_bytes (sscc_cp_40 id) = field id 14 40.
  Proof. exact sgtin_cp_40_field. Qed.
  Lemma grai_cp_40_field : wf_bytes id -> length id = 12 -> N_of_bytes (grai_cp_40 id) = field id 14 40.
  Proof. exact sgtin_cp_40_field. Qed.
  Lemma giai_cp_40_field : wf_bytes id -> length id = 12 -> N_of_bytes (giai_cp_40 id) = field id 14 40.
  Proof. exact sgtin_cp_40_field. Qed.
  Lemma sgtin_ir_40_field : wf_bytes id -> length id = 12 -> N_of_bytes (sgtin_ir_40 id) = field id 54 4.
  Proof. field_tac. Qed.
  Lemma sscc_ext_40_field : wf_bytes id -> length id = 12 -> N_of_bytes (sscc_ext_40 id) = field id 54 18.
  Proof. field_tac. Qed.
  Lemma giai_iar_40_field : wf_bytes id -> length id = 12 -> N_of_bytes (giai_iar_40 id) = field id 54 42.
  Proof. field_tac. Qed.
  Lemma sgtin_cp_37_field : wf_bytes id -> length id = 12 -> N_of_bytes (sgtin_cp_37 id) = field id 14 37.
  Proof. field_tac. Qed.
  Lemma sscc_cp_37_field : wf_bytes id -> length id = 12 -> N_of_bytes (sscc_cp_37 id) = field id 14 37.
  Proof. exact sgtin_cp_37_field. Qed.
  Lemma grai_cp_37_field : wf_bytes id -> length id = 12 -> N_of_bytes (grai_cp_37 id) = field id 14 37.
  Proof. exact sgtin_cp_37_field. Qed.
  Lemma giai_cp_37_field : wf_bytes id -> length id = 12 -> N_of_bytes (giai_cp_37 id) = field id 14 37.
  Proof. exact sgtin_cp_37_field. Qed.
  Lemma sgtin_ir_37_field : wf_bytes id -> length id = 12 -> N_of_bytes (sgtin_ir_37 id) = field id 51 7.
  Proof. field_tac. Qed.
  Lemma grai_at_37_field : wf_bytes id -> length id = 12 -> N_of_bytes (grai_at_37 id) = field id 51 7.
  Proof. exact sgtin_ir_37_field. Qed.
  Lemma sscc_ext_37_field : wf_bytes id -> length id = 12 -> N_of_bytes (sscc_ext_37 id) = field id 51 21.
  Proof. field_tac. Qed.
  Lemma giai_iar_37_field : wf_bytes id -> length id = 12 -> N_of_bytes (giai_iar_37 id) = field id 51 45.
  Proof. field_tac. Qed.
  Lemma sgtin_cp_34_field : wf_bytes id -> length id = 12 -> N_of_bytes (sgtin_cp_34 id) = field id 14 34.
  Proof. field_tac. Qed.
  Lemma sscc_cp_34_field : wf_bytes id -> length id = 12 -> N_of_bytes (sscc_cp_34 id) = field id 14 34.
  Proof. exact sgtin_cp_34_field. Qed.
  Lemma grai_cp_34_field : wf_bytes id -> length id = 12 -> N_of_bytes (grai_cp_34 id) = field id 14 34.
  Proof. exact sgtin_cp_34_field. Qed.
  Lemma giai_cp_34_field : wf_bytes id -> length id = 12 -> N_of_bytes (giai_cp_34 id) = field id 14 34.
  Proof. exact sgtin_cp_34_field. Qed.
  Lemma sgtin_ir_34_field : wf_bytes id -> length id = 12 -> N_of_bytes (sgtin_ir_34 id) = field id 48 10.
  Proof. field_tac. Qed.
  Lemma grai_at_34_field : wf_bytes id -> length id = 12 -> N_of_bytes (grai_at_34 id) = field id 48 10.
  Proof. exact sgtin_ir_34_field. Qed.
  Lemma sscc_ext_34_field : wf_bytes id -> length id = 12 -> N_of_bytes (sscc_ext_34 id) = field id 48 24.
  Proof. field_tac. Qed.
  Lemma giai_iar_34_field : wf_bytes id -> length id = 12 -> N_of_bytes (giai_iar_34 id) = field id 48 48.
  Proof. field_tac. Qed.
  Lemma sgtin_cp_30_field : wf_bytes id -> length id = 12 -> N_of_bytes (sgtin_cp_30 id) = field id 14 30.
  Proof. field_tac. Qed.
  Lemma sscc_cp_30_field : wf_bytes id -> length id = 12 -> N_of_bytes (sscc_cp_30 id) = field id 14 30.
  Proof. exact sgtin_cp_30_field. Qed.
  Lemma grai_cp_30_field : wf_bytes id -> length id = 12 -> N_of_bytes (grai_cp_30 id) = field id 14 30.
  Proof. exact sgtin_cp_30_field. Qed.
  Lemma giai_cp_30_field : wf_bytes id -> length id = 12 -> N_of_bytes (giai_cp_30 id) = field id 14 30.
  Proof. exact sgtin_cp_30_field. Qed.
  Lemma sgtin_ir_30_field : wf_bytes id -> length id = 12 -> N_of_bytes (sgtin_ir_30 id) = field id 44 14.
  Proof. field_tac. Qed.
  Lemma grai_at_30_field : wf_bytes id -> length id = 12 -> N_of_bytes (grai_at_30 id) = field id 44 14.
  Proof. exact sgtin_ir_30_field. Qed.
  Lemma sscc_ext_30_field : wf_bytes id -> length id = 12 -> N_of_bytes (sscc_ext_30 id) = field id 44 28.
  Proof. field_tac. Qed.
  Lemma giai_iar_30_field : wf_bytes id -> length id = 12 -> N_of_bytes (giai_iar_30 id) = field id 44 52.
  Proof. field_tac. Qed.
  Lemma sgtin_cp_27_field : wf_bytes id -> length id = 12 -> N_of_bytes (sgtin_cp_27 id) = field id 14 27.
  Proof. field_tac. Qed.
  Lemma sscc_cp_27_field : wf_bytes id -> length id = 12 -> N_of_bytes (sscc_cp_27 id) = field id 14 27.
  Proof. exact sgtin_cp_27_field. Qed.
  Lemma grai_cp_27_field : wf_bytes id -> length id = 12 -> N_of_bytes (grai_cp_27 id) = field id 14 27.
  Proof. exact sgtin_cp_27_field. Qed.
  Lemma giai_cp_27_field : wf_bytes id -> length id = 12 -> N_of_bytes (giai_cp_27 id) = field id 14 27.
  Proof. exact sgtin_cp_27_field. Qed.
  Lemma sgtin_ir_27_field : wf_bytes id -> length id = 12 -> N_of_bytes (sgtin_ir_27 id) = field id 41 17.
  Proof. field_tac. Qed.
  Lemma grai_at_27_field : wf_bytes id -> length id = 12 -> N_of_bytes (grai_at_27 id) = field id 41 17.
  Proof. exact sgtin_ir_27_field. Qed.
  Lemma sscc_ext_27_field : wf_bytes id -> length id = 12 -> N_of_bytes (sscc_ext_27 id) = field id 41 31.
  Proof. field_tac. Qed.
  Lemma giai_iar_27_field : wf_bytes id -> length id = 12 -> N_of_bytes (giai_iar_27 id) = field id 41 55.
  Proof. field_tac. Qed.
  Lemma sgtin_cp_24_field : wf_bytes id -> length id = 12 -> N_of_bytes (sgtin_cp_24 id) = field id 14 24.
  Proof. field_tac. Qed.
  Lemma sscc_cp_24_field : wf_bytes id -> length id = 12 -> N_of_bytes (sscc_cp_24 id) = field id 14 24.
  Proof. exact sgtin_cp_24_field. Qed.
  Lemma grai_cp_24_field : wf_bytes id -> length id = 12 -> N_of_bytes (grai_cp_24 id) = field id 14 24.
  Proof. exact sgtin_cp_24_field. Qed.
  Lemma giai_cp_24_field : wf_bytes id -> length id = 12 -> N_of_bytes (giai_cp_24 id) = field id 14 24.
  Proof. exact sgtin_cp_24_field. Qed.
  Lemma sgtin_ir_24_field : wf_bytes id -> length id = 12 -> N_of_bytes (sgtin_ir_24 id) = field id 38 20.
  Proof. field_tac. Qed.
  Lemma grai_at_24_field : wf_bytes id -> length id = 12 -> N_of_bytes (grai_at_24 id) = field id 38 20.
  Proof. exact sgtin_ir_24_field. Qed.
  Lemma sscc_ext_24_field : wf_bytes id -> length id = 12 -> N_of_bytes (sscc_ext_24 id) = field id 38 34.
  Proof. field_tac. Qed.
  Lemma giai_iar_24_field : wf_bytes id -> length id = 12 -> N_of_bytes (giai_iar_24 id) = field id 38 58.
  Proof. field_tac. Qed.
  Lemma sgtin_cp_20_field : wf_bytes id -> length id = 12 -> N_of_bytes (sgtin_cp_20 id) = field id 14 20.
  Proof. field_tac. Qed.
  Lemma sscc_cp_20_field : wf_bytes id -> length id = 12 -> N_of_bytes (sscc_cp_20 id) = field id 14 20.
  Proof. exact sgtin_cp_20_field. Qed.
  Lemma grai_cp_20_field : wf_bytes id -> length id = 12 -> N_of_bytes (grai_cp_20 id) = field id 14 20.
  Proof. exact sgtin_cp_20_field. Qed.
  Lemma giai_cp_20_field : wf_bytes id -> length id = 12 -> N_of_bytes (giai_cp_20 id) = field id 14 20.
  Proof. exact sgtin_cp_20_field. Qed.
  Lemma sgtin_ir_20_field : wf_bytes id -> length id = 12 -> N_of_bytes (sgtin_ir_20 id) = field id 34 24.
  Proof. field_tac. Qed.
  Lemma grai_at_20_field : wf_bytes id -> length id = 12 -> N_of_bytes (grai_at_20 id) = field id 34 24.
  Proof. exact sgtin_ir_20_field. Qed.
  Lemma sscc_ext_20_field : wf_bytes id -> length id = 12 -> N_of_bytes (sscc_ext_20 id) = field id 34 38.
  Proof. field_tac. Qed.
  Lemma giai_iar_20_field : wf_bytes id -> length id = 12 -> N_of_bytes (giai_iar_20 id) = field id 34 62.
  Proof. field_tac. Qed.
  Lemma sgtin_ser_field : wf_bytes id -> length id = 12 -> N_of_bytes (sgtin_ser id) = field id 58 38.
  Proof. field_tac. Qed.
  Lemma grai_ser_field : wf_bytes id -> length id = 12 -> N_of_bytes (grai_ser id) = field id 58 38.
  Proof. exact sgtin_ser_field. Qed.
End FIELDS.
