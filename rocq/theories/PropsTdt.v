(** Decoding binary identifiers: C34-C39. *)
From Verif Require Import GoBase BinUtil MTdtEpc MTdtIso MTdtCore SpecEpc PBase PNum PTdt PTdt2.
From Verif Require Export SpecEncode.
From Coq Require Import Lia ZifyBool ZifyNat ZifyN.
Ltac Zify.zify_post_hook ::= Z.div_mod_to_equations.
Lemma even_land p : N.even p = true <-> N.land 1 p = 0%N.
Proof.
  split; destruct p as [|[p|p|]]; cbn; auto; discriminate.
Qed.

(** An identifier has one pure identity only. *)
Theorem pure_identity_unique k id u v : pure_identity k id u -> pure_identity k id v -> u = v.
Proof.
  intros (c & r & s & C & R & S & ->) (c' & r' & s' & C' & R' & S' & ->).
  pose proof (fixed_decimal_unique _ _ _ _ C C') as <-. pose proof (plain_decimal_unique _ _ _ S S') as <-.
  destruct k.
  - pose proof (fixed_decimal_unique _ _ _ _ R R') as <-. reflexivity.
  - pose proof (fixed_decimal_unique _ _ _ _ R R') as <-. reflexivity.
  - destruct (Nat.eqb_spec (partition id) 0) as [E|E]; [reflexivity|].
    destruct R as [?|R]; [contradiction|]. destruct R' as [?|R']; [contradiction|].
    pose proof (fixed_decimal_unique _ _ _ _ R R') as <-. reflexivity.
  - pose proof (plain_decimal_unique _ _ _ R R') as <-. reflexivity.
Qed.

Lemma decode_valid k pc id : epc_pc pc -> tag96 k id -> partition_ok id -> fits_digits k id ->
  exists urn, translate pc id = Ok urn /\ pure_identity k id urn.
Proof.
  intros (p0 & p1 & -> & H) T P F. apply even_land in H. apply decode_ok; auto. apply fits_not_overflows; auto.
Qed.

(** ** C34-C37 *)
Theorem C34_sgtin_decode pc id :
  epc_pc pc -> tag96 Sgtin id -> partition_ok id -> fits_digits Sgtin id ->
  exists urn, translate pc id = Ok urn /\ pure_identity Sgtin id urn.
Proof. apply decode_valid. Qed.
Theorem C35_sscc_decode pc id :
  epc_pc pc -> tag96 Sscc id -> partition_ok id -> fits_digits Sscc id ->
  exists urn, translate pc id = Ok urn /\ pure_identity Sscc id urn.
Proof. apply decode_valid. Qed.
Theorem C36_grai_decode pc id :
  epc_pc pc -> tag96 Grai id -> partition_ok id -> fits_digits Grai id ->
  exists urn, translate pc id = Ok urn /\ pure_identity Grai id urn.
Proof. apply decode_valid. Qed.
Theorem C37_giai_decode pc id :
  epc_pc pc -> tag96 Giai id -> partition_ok id -> fits_digits Giai id ->
  exists urn, translate pc id = Ok urn /\ pure_identity Giai id urn.
Proof. apply decode_valid. Qed.

Definition wfb (id : list N) : bool := forallb (fun x => x <? 256)%N id.
Lemma wfb_ok id : wfb id = true -> wf_bytes id.
Proof. unfold wfb, wf_bytes. rewrite forallb_forall, Forall_forall. intros H x Hx. apply N.ltb_lt; auto. Qed.
Definition valid_b (k : scheme) (id : list N) : bool :=
  wfb id && Nat.eqb (length id) 12 && (field id 0 8 =? header k)%N && Nat.leb (partition id) 6 &&
  (cp_value id <? 10 ^ N.of_nat (cp_digits (partition id)))%N &&
  match k with Giai => true | _ => (ref_value k id <? 10 ^ N.of_nat (ref_digits k (partition id)))%N end.
Lemma valid_b_ok k id : valid_b k id = true -> tag96 k id /\ partition_ok id /\ fits_digits k id.
Proof.
  unfold valid_b, tag96, partition_ok, fits_digits. rewrite !andb_true_iff.
  intros [[[[[A B] C] D] E] F]. apply wfb_ok in A. apply Nat.eqb_eq in B. apply N.eqb_eq in C. apply Nat.leb_le in D.
  apply N.ltb_lt in E. destruct k; try (apply N.ltb_lt in F); auto 8.
Qed.
Definition ex_pc : list N := [48; 0]%N.
Definition ex_sgtin : list N := [48; 116; 37; 123; 247; 25; 78; 64; 0; 0; 26; 133]%N.
Definition ex_sscc : list N := [49; 116; 37; 123; 244; 73; 150; 2; 210; 0; 0; 0]%N.
Definition ex_grai : list N := [51; 116; 37; 123; 244; 12; 14; 64; 0; 0; 22; 46]%N.
Definition ex_giai : list N := [52; 116; 37; 123; 244; 0; 0; 0; 0; 0; 22; 46]%N.
Example C34_nonvacuous : epc_pc ex_pc /\
  (tag96 Sgtin ex_sgtin /\ partition_ok ex_sgtin /\ fits_digits Sgtin ex_sgtin) /\
  translate ex_pc ex_sgtin = Ok (str "urn:epc:id:sgtin:0614141.812345.6789").
Proof. split; [exists 48%N, 0%N; auto|]. split; [apply valid_b_ok; vm_compute; reflexivity|vm_compute; reflexivity]. Qed.
Example C35_nonvacuous :
  (tag96 Sscc ex_sscc /\ partition_ok ex_sscc /\ fits_digits Sscc ex_sscc) /\
  translate ex_pc ex_sscc = Ok (str "urn:epc:id:sscc:0614141.1234567890").
Proof. split; [apply valid_b_ok; vm_compute; reflexivity|vm_compute; reflexivity]. Qed.
Example C36_nonvacuous :
  (tag96 Grai ex_grai /\ partition_ok ex_grai /\ fits_digits Grai ex_grai) /\
  translate ex_pc ex_grai = Ok (str "urn:epc:id:grai:0614141.12345.5678").
Proof. split; [apply valid_b_ok; vm_compute; reflexivity|vm_compute; reflexivity]. Qed.
Example C37_nonvacuous :
  (tag96 Giai ex_giai /\ partition_ok ex_giai /\ fits_digits Giai ex_giai) /\
  translate ex_pc ex_giai = Ok (str "urn:epc:id:giai:0614141.5678").
Proof. split; [apply valid_b_ok; vm_compute; reflexivity|vm_compute; reflexivity]. Qed.

(** ** C38: when translation crashes *)
Theorem C38_translate_crashes_exactly pc id : wf_bytes id ->
  translate pc id = Panic <->
  epc_pc pc /\ (id = [] \/ exists k, tag96 k id /\ partition_ok id /\ ~ fits_digits k id).
Proof.
  intros W. split.
  - intros H. unfold translate in H. destruct pc as [|p0 [|p1 [|? ?]]]; try discriminate.
    destruct (N.eqb_spec (N.land 1 p0) 0) as [E|E]; [|exfalso; exact (build_uii_total _ _ H)].
    split; [exists p0, p1; split; auto; apply even_land; auto|].
    destruct id as [|h id]; [auto|]. right.
    destruct (in_dec N.eq_dec h [48; 49; 51; 52]%N) as [I|I]; [|rewrite build_epc_unknown in H by auto; discriminate].
    destruct (Nat.eq_dec (length (h :: id)) 12) as [L|L]; [|rewrite build_epc_length in H by auto; discriminate].
    destruct (tag96_of h id W I L) as [k T]. exists k. split; auto.
    assert (translate [p0; p1] (h :: id) = Panic) as H' by (cbn [translate]; rewrite E; exact H).
    destruct (le_dec (partition (h :: id)) 6) as [P|P].
    + split; auto. rewrite fits_not_overflows. intros F. destruct (decode_ok p0 p1 (h :: id) k E T P F) as (u & R & _). congruence.
    + rewrite (decode_reserved p0 p1 (h :: id) k E T P) in H'. discriminate.
  - intros [(p0 & p1 & -> & E) [->|(k & T & P & F)]].
    + apply even_land in E. cbn [translate]. rewrite E. reflexivity.
    + apply even_land in E. apply (decode_panic p0 p1 id k); auto.
      destruct (overflows_dec k id) as [|F']; auto. apply fits_not_overflows in F'. contradiction.
Qed.
(** So it does crash: on an empty identifier, and on a tag whose company prefix
    field holds more than twelve digits. *)
Definition ex_crash : list N := [48; 3; 255; 255; 255; 255; 255; 0; 0; 0; 0; 0]%N.
Theorem C38_translate_never_crashes_refuted :
  ~ (forall pc id, wf_bytes id -> translate pc id <> Panic).
Proof. intros H. apply (H ex_pc ex_crash); [apply wfb_ok|]; vm_compute; reflexivity. Qed.
Example C38_crash_empty : translate ex_pc [] = Panic.
Proof. vm_compute. reflexivity. Qed.
Example C38_no_crash_iso : translate [41; 169]%N [220; 32]%N <> Panic.
Proof. vm_compute. discriminate. Qed.

(** ** C39: malformed identifiers *)
(** A known header with the wrong length is rejected. *)
Theorem C39_wrong_length_rejected_partial pc h id :
  epc_pc pc -> In h [48; 49; 51; 52]%N -> length (h :: id) <> 12 -> translate pc (h :: id) = Err.
Proof.
  intros (p0 & p1 & -> & E) I L. apply even_land in E. cbn [translate]. rewrite E. apply build_epc_length; auto.
Qed.
(** An unknown header is accepted, with an empty URN. *)
Theorem C39_unknown_header_accepted pc h id :
  epc_pc pc -> ~ In h [48; 49; 51; 52]%N -> translate pc (h :: id) = Ok [].
Proof.
  intros (p0 & p1 & -> & E) I. apply even_land in E. cbn [translate]. rewrite E. apply build_epc_unknown; auto.
Qed.
(** A reserved partition is accepted, with a URN that has no company prefix and
    no reference. *)
Theorem C39_reserved_partition_accepted pc k id :
  epc_pc pc -> tag96 k id -> partition id = 7 ->
  exists s, plain_decimal (serial_value id) s /\
  translate pc id = Ok (str "urn:epc:id:" ++ scheme_name k ++ str ":" ++
                          match k with Sgtin | Grai => s | _ => [] end).
Proof.
  intros (p0 & p1 & -> & E) T P. apply even_land in E. exists (dec_string (serial_value id)).
  split; [apply dec_string_plain|]. apply decode_reserved; auto. unfold partition_ok. lia.
Qed.
Definition ex_reserved : list N := [48; 28; 0; 0; 0; 0; 0; 0; 0; 0; 0; 5]%N.
Theorem C39_malformed_rejected_refuted :
  ~ (forall pc id, epc_pc pc -> wf_bytes id -> ~ (exists k, tag96 k id /\ partition_ok id) ->
       translate pc id = Err).
Proof.
  intros H. specialize (H ex_pc [0]%N). assert (translate ex_pc [0]%N = Ok []) as E by reflexivity.
  rewrite H in E; [discriminate| | |].
  - exists 48%N, 0%N; auto.
  - apply wfb_ok; reflexivity.
  - intros (k & (_ & L & _) & _). discriminate.
Qed.
(** Every well-formed tag with digits that fit is accepted, and every other
    outcome is listed here: nothing else can happen. *)
Theorem C39_outcomes pc id : wf_bytes id -> epc_pc pc ->
  match translate pc id with
  | Ok u => (exists k, tag96 k id /\ partition_ok id /\ fits_digits k id /\ pure_identity k id u)
            \/ (exists k, tag96 k id /\ partition id = 7)
            \/ (exists h id', id = h :: id' /\ ~ In h [48; 49; 51; 52]%N /\ u = [])
  | Err => exists h id', id = h :: id' /\ In h [48; 49; 51; 52]%N /\ length id <> 12
  | Panic => id = [] \/ exists k, tag96 k id /\ partition_ok id /\ ~ fits_digits k id
  end.
Proof.
  intros W (p0 & p1 & -> & E). apply even_land in E.
  destruct id as [|h id]; [cbn [translate]; rewrite E; cbn; auto|].
  destruct (in_dec N.eq_dec h [48; 49; 51; 52]%N) as [I|I].
  2:{ cbn [translate]. rewrite E. change (0 =? 0)%N with true. cbn iota. rewrite build_epc_unknown by auto. right. right. eauto. }
  destruct (Nat.eq_dec (length (h :: id)) 12) as [L|L].
  2:{ cbn [translate]. rewrite E. change (0 =? 0)%N with true. cbn iota. rewrite build_epc_length by auto. eauto. }
  destruct (tag96_of h id W I L) as [k T].
  destruct (le_dec (partition (h :: id)) 6) as [P|P].
  - destruct (overflows_dec k (h :: id)) as [O|O].
    + rewrite (decode_panic p0 p1 _ k E T P O). right. exists k. do 2 (split; auto). rewrite fits_not_overflows. auto.
    + destruct (decode_ok p0 p1 _ k E T P O) as (u & R & U). rewrite R. left. exists k. do 2 (split; auto).
      split; auto. apply fits_not_overflows; auto.
  - pose proof (partition_lt _ W L). rewrite (decode_reserved p0 p1 _ k E T P). right. left. exists k. split; auto. lia.
Qed.
Example C39_nonvacuous : tag96 Sgtin ex_reserved /\ partition ex_reserved = 7 /\
  translate ex_pc ex_reserved = Ok (str "urn:epc:id:sgtin:5").
Proof. split; [split; [apply wfb_ok|]|split]; vm_compute; auto. Qed.

Print Assumptions C34_sgtin_decode.
Print Assumptions C35_sscc_decode.
Print Assumptions C36_grai_decode.
Print Assumptions C37_giai_decode.
Print Assumptions C38_translate_crashes_exactly.
Print Assumptions C38_translate_never_crashes_refuted.
Print Assumptions C39_wrong_length_rejected_partial.
Print Assumptions C39_unknown_header_accepted.
Print Assumptions C39_reserved_partition_accepted.
Print Assumptions C39_malformed_rejected_refuted.
Print Assumptions C39_outcomes.