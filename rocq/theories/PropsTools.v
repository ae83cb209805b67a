(** C70-C72: tags and filters as text: MakeEPC and MakeISO, reading them back, and
    the data set generator. *)
From Verif Require Import GoBase BinUtil MFilter MTdtEpc MTdtIso MTdtCore MScheme MSubs MTools Spec SpecEpc SpecIso SpecTools.
From Verif Require Import PBase PEpc PEpc3 PEpc4 PropsTdt PropsEpc PIso PIso2 PropsIso PTools PTools2 TestVectors.
From Coq Require Import Lia.

(** ** C70 *)
(** A 96-bit EPC; the scheme name may be in any case, and the arguments of the
    other schemes do not matter. *)
Theorem C70_epc : forall E cs k fv cp ir ext ser iar at_, to_upper cs = to_upper (pattern_type k) ->
  let f := fields_of k fv cp ir ext ser iar at_ in urn_fields k f ->
  exists bits pct id, make_epc E false cs fv cp ir ext ser iar at_ = (bits, pct) /\
    bit_text id bits /\ pct = str "3000" /\ reads bits pct [48; 0]%N id /\ carries k f id /\ translate [48; 0]%N id = Ok (urn_of k f).
Proof.
  intros E cs k fv cp ir ext ser iar at_ CS f U. destruct (epc_text E cs k fv cp ir ext ser iar at_ CS U) as (id & M & C & T).
  exists (uii_text id), (hex_string [48; 0]%N), id. split; auto. assert (wf_bytes id) as W by apply C.
  split. { rewrite uii_text_bits by auto. reflexivity. } split; auto. split; auto. apply reads_ok; auto; lia.
Qed.
Print Assumptions C70_epc.

(** Fields that fit no tag: no error is reported; the identifier is empty. *)
Theorem C70_epc_error_dropped : forall E cs k fv cp ir ext ser iar at_, to_upper cs = to_upper (pattern_type k) ->
  let f := fields_of k fv cp ir ext ser iar at_ in digit_fields k f -> cp_length_ok f -> ~ fits_bits k f ->
  (dec_value (f_ref f) < 2 ^ 63)%N -> (has_serial k = true -> dec_value (f_ser f) < 2 ^ 63)%N ->
  make_epc E false cs fv cp ir ext ser iar at_ = ([], str "3000").
Proof. exact epc_refused. Qed.
Print Assumptions C70_epc_error_dropped.

(** A prefix: the pattern of the given fields, and the filter that a subscription
    with this pattern gets, which matches the tags with these fields. *)
Theorem C70_epc_prefix : forall E E' cs k fv cp ir ext ser iar at_, to_upper cs = to_upper (pattern_type k) ->
  let f := fields_of k fv cp ir ext ser iar at_ in let p := given_pattern k f in
  pattern_ok p -> Forall clean (field_texts f) ->
  exists pre, make_epc E true cs fv cp ir ext ser iar at_ = (pre, pattern_text p) /\
    pattern_prefix E' (pattern_text p) = Some pre /\
    forall id, wf_bytes id -> length id = 12 ->
      exists b, match_filter (new_filter pre 0) id = Ok b /\ (b = true <-> names p id).
Proof.
  intros E E' cs k fv cp ir ext ser iar at_ CS f p P C. destruct (epc_prefix_text E cs k fv cp ir ext ser iar at_ CS P C) as [M A].
  exists (bits_to_str (pat_bits p)). split; auto. split; auto. intros id W L. apply (epc_prefix_match E); auto.
Qed.
Print Assumptions C70_epc_prefix.

Theorem C70_iso17365 : forall E oc ei csn di iac ci sn, iac <> [] -> ci <> [] -> sn <> [] ->
  let t := di ++ iac ++ ci ++ sn in length t <= 82 -> six_bit_text t ->
  exists bits pct p0 id, make_iso E false (str "17365") oc ei csn di iac ci sn = Ok (bits, pct) /\
    bit_text id bits /\ reads bits pct [p0; 162]%N id /\ translate [p0; 162]%N id = Ok (str "urn:epc:id:iso17365:" ++ t).
Proof.
  intros E oc ei csn di iac ci sn H1 H2 H3 t L S. destruct (iso17365_text E oc ei csn di iac ci sn H1 H2 H3 L S) as (id & p0 & M & L0 & W & _ & T).
  exists (uii_text id), (hex_string [p0; 162]%N), p0, id. split; auto.
  split. { rewrite uii_text_bits by auto. reflexivity. } split; auto. apply reads_ok; auto; lia.
Qed.
Print Assumptions C70_iso17365.

(** The equipment category is "U" when none is given. *)
Theorem C70_iso17363 : forall E oc ei csn di iac ci sn, csn <> [] -> length csn <= 6 ->
  let ei' := match ei with [] => str "U" | _ => ei end in
  let serial := repeat "0"%char (6 - length csn) ++ csn in
  container_code oc ei' serial ->
  exists bits pct p0 id, make_iso E false (str "17363") oc ei csn di iac ci sn = Ok (bits, pct) /\
    bit_text id bits /\ reads bits pct [p0; 169]%N id /\
    translate [p0; 169]%N id = Ok (str "urn:epc:id:iso17363:7B" ++ oc ++ ei' ++ serial ++ [digit_char (check_digit (oc ++ ei' ++ serial))]).
Proof.
  intros E oc ei csn di iac ci sn HC HL ei' serial CC. destruct (iso17363_text E oc ei csn di iac ci sn HC HL CC) as (id & p0 & M & L0 & W & _ & _ & T).
  exists (uii_text id), (hex_string [p0; 169]%N), p0, id. split; auto.
  split. { rewrite uii_text_bits by auto. reflexivity. } split; auto. apply reads_ok; auto; lia.
Qed.
Print Assumptions C70_iso17363.

Theorem C70_iso_prefix : forall E E' oc ei csn di iac ci sn,
  (di <> [] -> Forall clean [di; iac; ci; sn] ->
   let urn := str "urn:epc:pat:iso17365:" ++ dotted (given [di; iac; ci; sn]) in
   exists pre, make_iso E true (str "17365") oc ei csn di iac ci sn = Ok (pre, urn) /\ pattern_prefix E' urn = Some pre) /\
  (Forall clean [oc; ei] ->
   let urn := str "urn:epc:pat:iso17363:" ++ dotted (given [str "7B"; oc; ei]) in
   exists pre, make_iso E true (str "17363") oc ei [] di iac ci sn = Ok (pre, urn) /\ pattern_prefix E' urn = Some pre).
Proof.
  intros E E' oc ei csn di iac ci sn. split.
  - intros H F. destruct (iso17365_prefix_text E oc ei csn di iac ci sn H F) as [M A]. eexists. split; [exact M|apply A].
  - intros F. destruct (iso17363_prefix_text E oc ei di iac ci sn F) as [M A]. eexists. split; [exact M|apply A].
Qed.
Print Assumptions C70_iso_prefix.

(** The identifier that cannot be encoded: the caller of MakeEPC cannot tell. *)
Theorem C70_refuted : exists f, digit_fields Sgtin f /\ cp_length_ok f /\
  make_epc E0 false (str "SGTIN-96") (f_filter f) (f_cp f) (f_ref f) [] (f_ser f) [] [] = ([], str "3000").
Proof.
  exists (ex_fields "3" "0614141" "812345" "274877906944"). split; [split; [|split; [|split]]; intros; apply is_decimal_b_ok; reflexivity|].
  split; [unfold cp_length_ok; cbn; lia|]. vm_compute. reflexivity.
Qed.
Print Assumptions C70_refuted.
Example C70_case :
  make_epc E0 false (str "Sgtin-96") (str "3") (str "0614141") (str "812345") (str "junk") (str "6789") [] [] =
    (str "001100000111010000100101011110111111011100011001010011100100000000000000000000000001101010000101", str "3000") /\
  urn_fields Sgtin (fields_of Sgtin (str "3") (str "0614141") (str "812345") (str "junk") (str "6789") [] []) /\
  to_upper (str "Sgtin-96") = to_upper (pattern_type Sgtin) /\
  make_iso E0 false (str "17363") (str "ABC") [] (str "42") [] [] [] [] =
    Ok (str "11011100001000000100001000001101010111000011000011000011000011010011001011001110", str "29a9").
Proof.
  split; [vm_compute; reflexivity|]. split; [apply urn_fields_b_ok; vm_compute; reflexivity|]. split; vm_compute; reflexivity.
Qed.

(** ** C71 *)
Theorem C71_bytes : forall s,
  (forall id, wf_bytes id -> bit_text id s -> make_byte_id s = (id, false)) /\
  ((forall id, wf_bytes id -> ~ bit_text id s) -> make_byte_id s = ([], false)).
Proof. intros s. split; [intros id; apply byte_id_text|apply byte_id_none]. Qed.
Print Assumptions C71_bytes.

Theorem C71_pc : forall s,
  (forall n, hex_number s n -> (n < 65536)%N -> make_uint16_pc s = (n, false)) /\
  ((forall n, hex_number s n -> (65536 <= n)%N) -> make_uint16_pc s = (0, true)%N).
Proof. exact pc_exact. Qed.
Print Assumptions C71_pc.

(** Text that is no identifier is read as the empty identifier, without error. *)
Theorem C71_refuted : exists s, (forall id, wf_bytes id -> ~ bit_text id s) /\ make_byte_id s = ([], false).
Proof.
  exists (str "0011000x"). split; [|reflexivity]. intros id _ H. unfold bit_text in H.
  assert (In "x"%char (str "0011000x")) as I by (cbn; tauto). rewrite H in I. apply in_map_iff in I as ([|] & X & _); discriminate.
Qed.
Print Assumptions C71_refuted.
Example C71_case : bit_text [48; 255]%N (str "0011000011111111") /\ hex_number (str "3A0f") 14863 /\ make_uint16_pc (str "3A0f") = (14863, false)%N /\
  make_uint16_pc (str "13000") = (0, true)%N /\ make_uint16_pc [] = (0, true)%N.
Proof.
  split; [reflexivity|]. split; [|split; [|split]; vm_compute; reflexivity].
  change 14863%N with (16 * (16 * (16 * (N.of_nat 3) + N.of_nat 10) + N.of_nat 0) + N.of_nat 15)%N.
  change (str "3A0f") with (((str "3" ++ str "A") ++ str "0") ++ str "f").
  repeat apply hex_more; [apply hex_one| | |]; (left; reflexivity) || (right; reflexivity).
Qed.

(** ** C72 *)
(** One tag, and the filters of its parameter. *)
Theorem C72_tag_and_filters_partial : forall E p i d, main_param p -> drawn p d -> reference_fits p d -> i < num_serial ->
  exists line pc id fl, tag_line E p i d = Ok line /\ line_reads line pc id /\ translate pc id = Ok (expected_urn p i d) /\
    filter_lines E p = Ok fl /\ Forall2 (filter_line_ok id) (filter_patterns p) fl.
Proof. exact data_set_ok. Qed.
Print Assumptions C72_tag_and_filters_partial.

(** A whole run: unless two parameters clash, every parameter has a file, no file is
    written twice, and every file and the filters are as they should be. *)
Theorem C72_run_partial : forall E draw ps, good_params draw 0 ps -> ~ clash [] ps ->
  exists files filters, generate E draw 0 ps [] [] = Ok (files, filters) /\ NoDup (map fst files) /\
    (forall p, In p ps -> In (file_of p) (map fst files)) /\
    (forall f ls, In (f, ls) files -> exists j p, nth_error ps j = Some p /\ f = file_of p /\ set_ok p (draw j) filters ls).
Proof.
  intros E draw ps G NC. destruct (generate_runs E draw ps 0 [] [] G NC) as (files & filters & GE & ND & AL & EN).
  exists files, filters. split; auto. split; [apply ND; constructor|]. auto.
Qed.
Print Assumptions C72_run_partial.

(** Two parameters that share a file, the later one a GRAI: the program ends. *)
Theorem C72_clash : forall E draw ps, good_params draw 0 ps -> clash [] ps -> generate E draw 0 ps [] [] = Panic.
Proof. intros E draw ps. exact (generate_clash E draw ps 0 [] []). Qed.
Print Assumptions C72_clash.

(** An asset reference drawn too large gives an empty line, and equal GRAI
    parameters do end the program. *)
Definition ex_giai : uii_param := {| u_type := str "epc"; u_scheme := str "giai-96"; u_cp := str "061414112345"; u_ir := []; u_at := []; u_oc := [];
  u_di := []; u_iac := []; u_ci := []; u_ext_digits := 0; u_iar_max := 13; u_no_filter := false |}.
Definition ex_grai : uii_param := {| u_type := str "epc"; u_scheme := str "grai-96"; u_cp := str "0614141"; u_ir := []; u_at := str "12345"; u_oc := [];
  u_di := []; u_iac := []; u_ci := []; u_ext_digits := 0; u_iar_max := 0; u_no_filter := false |}.
Theorem C72_refuted :
  (main_param ex_giai /\ drawn ex_giai (str "9999999999999") /\ tag_line E0 ex_giai 0 (str "9999999999999") = Ok []) /\
  (main_param ex_grai /\ generate E0 (fun _ _ => []) 0 [ex_grai; ex_grai] [] [] = Panic).
Proof.
  split; split.
  - apply (mp_giai _ 12); [reflexivity|lia| |reflexivity]. split; [reflexivity|]. repeat constructor.
  - split; [|vm_compute; reflexivity]. split; [discriminate|]. split; [|discriminate]. intros _. split; [|discriminate]. exists 13. split; [cbn; lia|]. split; [reflexivity|]. repeat constructor.
  - apply (mp_grai _ 7); [reflexivity|lia| |]; (split; [reflexivity|]); repeat constructor.
  - vm_compute. reflexivity.
Qed.
Print Assumptions C72_refuted.
Definition ex_17365 : uii_param := {| u_type := str "iso"; u_scheme := str "17365"; u_cp := []; u_ir := []; u_at := []; u_oc := [];
  u_di := str "25S"; u_iac := str "U"; u_ci := str "N4B"; u_ext_digits := 0; u_iar_max := 0; u_no_filter := false |}.
Example C72_case : good_params (fun _ _ => str "ABC0123456789") 0 [ex_grai; ex_17365] /\ ~ clash [] [ex_grai; ex_17365] /\
  exists a b, length a = 38 /\ length b = 58 /\
    filter_lines E0 ex_grai = Ok [str "urn:epc:pat:grai-96:3.0614141," ++ a; str "urn:epc:pat:grai-96:3.0614141.12345," ++ b].
Proof.
  split; [|split].
  - intros [|[|j]] p H; [| |destruct j; discriminate]; injection H as <-.
    + split. { apply (mp_grai _ 7); [reflexivity|lia| |]; (split; [reflexivity|]); repeat constructor. }
      intros i _. split; [split; [|split]|]; discriminate.
    + split. { apply mp_17365; try reflexivity; [cbn; lia|]. repeat apply Forall_cons; try apply Forall_nil; apply code_char_b_ok; reflexivity. }
      intros i _. split; [|discriminate]. split; [discriminate|]. split; [discriminate|]. intros _. split; [cbn; lia|].
      repeat apply Forall_cons; try apply Forall_nil; apply code_char_b_ok; reflexivity.
  - intros ([|[|j]] & q & H & S & C); [| |destruct j; discriminate]; injection H as <-; [|discriminate S].
    destruct C as [[]|(i & p & L & _)]. lia.
  - exists (skipn 30 (nth 0 (match filter_lines E0 ex_grai with Ok l => l | _ => [] end) [])), (skipn 36 (nth 1 (match filter_lines E0 ex_grai with Ok l => l | _ => [] end) [])).
    split; [vm_compute; reflexivity|]. split; vm_compute; reflexivity.
Qed.
