(** The ISO texts and the data set generator. *)
From Verif Require Import GoBase BinUtil MFilter MTdtEpc MTdtIso MTdtCore MScheme MSubs MTools Spec SpecEpc SpecIso SpecTools.
From Verif Require Import PBase PNum PTdt2 PEpc PEpc2 PEpc3 PEpc4 PropsTdt PropsEpc PIso PIso2 PropsIso PTools PList.
From Coq Require Import Lia.

Lemma iso_pc_bytes n afi pc : make_iso_pc n afi = Ok pc -> exists p0, pc = [p0; afi] /\ (p0 < 256)%N.
Proof.
  unfold make_iso_pc. destruct (binstr_to_bytes _) as [[|p0 l]| |] eqn:B; try discriminate. intros H. injection H as <-.
  exists p0. split; auto. apply binstr_wf in B as [W _]. inversion W; auto.
Qed.
(** A tag of an ISO scheme, as text. *)
Lemma iso_text t afi nm : length t <= 82 -> six_bit_text t -> afi_name afi = Some nm ->
  exists id p0, pack_iso (runes_to_6bin t) = Ok (id, 8 * length id, [], []) /\ make_iso_pc (8 * length id) afi = Ok [p0; afi] /\ (p0 < 256)%N /\
    wf_bytes id /\ bits_of_bytes id = text_bits t ++ pad_bits (iso_pad (length t)) /\
    translate [p0; afi] id = Ok (str "urn:epc:id:iso" ++ nm ++ t).
Proof.
  intros L S A. destruct (iso_round_trip t afi nm L (six_bit_text_six _ S) A) as (id & pc & P & PC & B & W & T).
  rewrite without_spaces_text in T by auto. destruct (iso_pc_bytes _ _ _ PC) as (p0 & -> & L0). exists id, p0. auto 8.
Qed.
Lemma iso17365_text E oc ei csn di iac ci sn : iac <> [] -> ci <> [] -> sn <> [] ->
  let t := di ++ iac ++ ci ++ sn in length t <= 82 -> six_bit_text t ->
  exists id p0, make_iso E false (str "17365") oc ei csn di iac ci sn = Ok (uii_text id, hex_string [p0; 162]%N) /\ (p0 < 256)%N /\
    wf_bytes id /\ bits_of_bytes id = text_bits t ++ pad_bits (iso_pad (length t)) /\
    translate [p0; 162]%N id = Ok (str "urn:epc:id:iso17365:" ++ t).
Proof.
  intros H1 H2 H3 t L S. destruct (iso_text t 162 (str "17365:") L S eq_refl) as (id & p0 & P & PC & L0 & W & B & T).
  exists id, p0. split; auto. unfold make_iso. change (seqb (str "17365") (str "17363")) with false. change (seqb (str "17365") (str "17365")) with true.
  cbv iota. rewrite make_iso17365_text by auto. fold t. rewrite P, PC. reflexivity.
Qed.
Lemma iso17363_text E oc ei csn di iac ci sn : csn <> [] -> length csn <= 6 ->
  let ei' := match ei with [] => str "U" | _ => ei end in
  let serial := repeat "0"%char (6 - length csn) ++ csn in
  container_code oc ei' serial ->
  let t := str "7B" ++ oc ++ ei' ++ serial ++ [digit_char (check_digit (oc ++ ei' ++ serial))] in
  exists id p0, make_iso E false (str "17363") oc ei csn di iac ci sn = Ok (uii_text id, hex_string [p0; 169]%N) /\ (p0 < 256)%N /\
    wf_bytes id /\ six_bit_text t /\ bits_of_bytes id = text_bits t ++ pad_bits (iso_pad (length t)) /\
    translate [p0; 169]%N id = Ok (str "urn:epc:id:iso17363:" ++ t).
Proof.
  intros HC HL ei' serial (H1 & H2 & L4 & L6 & F) t. change serial with (full_serial csn) in *. clear serial.
  destruct (check_digit_ok (oc ++ ei' ++ full_serial csn)) as (_ & CD & R); auto. { rewrite !app_length. lia. }
  assert (Forall code_char t) as FT.
  { unfold t. apply Forall_app. split; [constructor; [left; reflexivity|constructor; [right; reflexivity|constructor]]|].
    apply Forall_app in F. destruct F as [F1 F]. apply Forall_app in F. destruct F as [F2 F3].
    do 3 (apply Forall_app; split; auto). constructor; [|constructor]. apply digit_char_digit; auto. }
  assert (six_bit_text t) as ST. { eapply Forall_impl; [|exact FT]. intros c Hc. destruct (alphabet_value c Hc) as (_ & _ & ?); auto. }
  assert (length t <= 82) as LT. { unfold t. rewrite !app_length. cbn [length str list_ascii_of_string]. lia. }
  destruct (iso_text t 169 (str "17363:") LT ST eq_refl) as (id & p0 & P & PC & L0 & W & B & T).
  exists id, p0. split; auto. unfold make_iso. change (seqb (str "17363") (str "17363")) with true. cbv iota.
  assert (make_iso17363 E false oc ei csn = make_iso17363 E false oc ei' csn) as ->.
  { unfold ei'. destruct ei; reflexivity. }
  rewrite make_iso17363_text by auto. rewrite CD. cbn [bind]. rewrite digit_char_string by auto. fold t. rewrite P, PC. reflexivity.
Qed.
Lemma iso17365_prefix_text E oc ei csn di iac ci sn : di <> [] -> Forall clean [di; iac; ci; sn] ->
  let l := given [di; iac; ci; sn] in
  let urn := str "urn:epc:pat:iso17365:" ++ dotted l in
  make_iso E true (str "17365") oc ei csn di iac ci sn = Ok (runes_to_6bin (concat l), urn) /\
  forall E', pattern_prefix E' urn = Some (runes_to_6bin (concat l)).
Proof.
  intros HD F l urn. destruct (iso17365_prefix_agrees E E di iac ci sn HD F) as (s & M & P). fold l urn in M, P.
  assert (forall E', pattern_prefix E' urn = Some (runes_to_6bin (concat l))) as A.
  { intros E'. destruct (iso17365_prefix_agrees E E' di iac ci sn HD F) as (s' & M' & P'). fold l urn in M', P'. rewrite P'.
    assert (s' = s) as -> by congruence. f_equal.
    clear - M HD. unfold l, urn in *. destruct di; [congruence|]. unfold make_iso17365 in M. destruct iac as [|? iac]; [cbn [given concat] in *; rewrite app_nil_r; congruence|].
    destruct ci as [|? ci]; [cbn [given concat] in *; rewrite app_nil_r, runes_app; congruence|].
    destruct sn as [|? sn]; cbn [given concat andb] in *; rewrite app_nil_r, !runes_app; congruence. }
  split; auto. rewrite A in P. unfold make_iso. change (seqb (str "17365") (str "17363")) with false. change (seqb (str "17365") (str "17365")) with true.
  cbv iota. rewrite M. assert (s = runes_to_6bin (concat l)) as -> by congruence.
  change (make_iso_pc 0 162) with (Ok [1; 162]%N). reflexivity.
Qed.
Lemma iso17363_prefix_text E oc ei di iac ci sn : Forall clean [oc; ei] ->
  let l := given [str "7B"; oc; ei] in
  let urn := str "urn:epc:pat:iso17363:" ++ dotted l in
  make_iso E true (str "17363") oc ei [] di iac ci sn = Ok (runes_to_6bin (concat l), urn) /\
  forall E', pattern_prefix E' urn = Some (runes_to_6bin (concat l)).
Proof.
  intros F l urn. destruct (iso17363_prefix_agrees E E oc ei F) as (s & M & P). fold l urn in M, P.
  assert (s = runes_to_6bin (concat l)) as ->.
  { clear - M. unfold l, urn in *. unfold make_iso17363 in M. destruct oc as [|? oc]; [cbn in M; injection M as <-; reflexivity|].
    destruct ei as [|? ei]; cbn [given concat andb str list_ascii_of_string] in *; rewrite app_nil_r, ?runes_app; congruence. }
  split.
  - unfold make_iso. change (seqb (str "17363") (str "17363")) with true. cbv iota. rewrite M. change (make_iso_pc 0 169) with (Ok [1; 169]%N). reflexivity.
  - intros E'. destruct (iso17363_prefix_agrees E E' oc ei F) as (s' & M' & P'). fold l urn in M', P'. rewrite P'. congruence.
Qed.

(** ** Data sets *)
Lemma digits_decimal n s : n <> 0 -> digits n s -> is_decimal s.
Proof. intros H [L D]. split; auto. destruct s; [cbn in L; congruence|discriminate]. Qed.
Lemma digits_below s n : digits n s -> (dec_value s < 10 ^ N.of_nat n)%N.
Proof.
  intros [L D]. apply Forall_digit in D. pose proof (numval_bound 10 s ltac:(lia) D). rewrite dec_value_numval, <- L. exact H.
Qed.
Lemma digits_clean s : Forall (fun c => is_digit c = true) s -> clean s.
Proof.
  intros D. split; [apply upper_digits; auto|]. rewrite Forall_forall in D.
  split; intros I; apply D in I; discriminate I.
Qed.
Lemma code_clean s : Forall code_char s -> clean s.
Proof.
  intros D. split; [destruct (sum_weighted s 1 D) as (_ & _ & U); exact U|]. rewrite Forall_forall in D.
  split; intros I; apply D in I; destruct I as [I|I]; discriminate I.
Qed.
Lemma clean_nil : clean [].
Proof. split; [reflexivity|]. split; intros []. Qed.
Lemma bits_no_comma l : ~ In ","%char (bits_to_str l).
Proof. unfold bits_to_str. rewrite in_map_iff. intros ([|] & H & _); discriminate. Qed.
Lemma hex_no_comma a b : (a < 256)%N -> (b < 256)%N -> ~ In ","%char (hex_string [a; b]).
Proof.
  intros La Lb. assert (forall n, (n < 16)%N -> hex_digit n <> ","%char) as X.
  { intros n L. pose proof (below16 (fun n => negb (Ascii.eqb (hex_digit n) ","%char)) ltac:(vm_compute; reflexivity) n L) as Y.
    cbv beta in Y. apply negb_true_iff in Y. apply Ascii.eqb_neq in Y. exact Y. }
  change (hex_string [a; b]) with [hex_digit (a / 16); hex_digit (a mod 16); hex_digit (b / 16); hex_digit (b mod 16)].
  intros [I|[I|[I|[I|[]]]]]; revert I; apply X; ((apply N.mod_lt; lia) || (apply N.div_lt_upper_bound; lia)).
Qed.
Lemma line_reads_ok id p0 p1 : wf_bytes id -> id <> [] -> (p0 < 256)%N -> (p1 < 256)%N ->
  line_reads (print_id (uii_text id) (hex_string [p0; p1])) [p0; p1] id.
Proof.
  intros W NE L0 L1. exists (uii_text id), (hex_string [p0; p1]).
  assert (uii_text id <> []) as U.
  { rewrite uii_text_bits by auto. unfold bytes_to_binstr. intros X. apply (f_equal (@List.length ascii)) in X. rewrite bits_to_str_length, bits_of_bytes_length in X.
    destruct id; [congruence|]. cbn in X. lia. }
  split. { unfold print_id. destruct (uii_text id); [congruence|reflexivity]. }
  split; [apply hex_no_comma; auto|]. split; [rewrite uii_text_bits by auto; apply bits_no_comma|]. apply reads_ok; auto.
Qed.

(** EPC schemes. *)
Section EPC.
  Context (E : env) (k : scheme) (cs fv cp : gostring) (CS : to_upper cs = to_upper (pattern_type k)).
  Lemma epc_line ir ext ser iar at_ : let f := fields_of k fv cp ir ext ser iar at_ in urn_fields k f ->
    exists id, (let '(bs, opt) := make_epc E false cs fv cp ir ext ser iar at_ in print_id bs opt) = print_id (uii_text id) (hex_string [48; 0]%N) /\
      carries k f id /\ line_reads (print_id (uii_text id) (hex_string [48; 0]%N)) [48; 0]%N id /\ translate [48; 0]%N id = Ok (urn_of k f).
  Proof.
    intros f U. destruct (epc_text E cs k fv cp ir ext ser iar at_ CS U) as (id & M & C & T). exists id. rewrite M. split; auto. split; auto. split; auto.
    destruct C as ((W & L & _) & _). apply line_reads_ok; auto; try lia. destruct id; [discriminate|discriminate].
  Qed.
  Lemma epc_filter_line ir ext ser iar at_ f id : let g := fields_of k fv cp ir ext ser iar at_ in let p := given_pattern k g in
    pattern_ok p -> Forall clean (field_texts g) -> carries k f id -> leads p k f ->
    exists l, (let '(bs, opt) := make_epc E true cs fv cp ir ext ser iar at_ in print_id bs opt) = l /\ l <> [] /\ filter_line_ok id (pattern_text p) l.
  Proof.
    intros g p P F C LD. destruct (epc_prefix_text E cs k fv cp ir ext ser iar at_ CS P F) as [M A]. fold g p in M, A. rewrite M.
    eexists. split; [reflexivity|].
    assert (print_id (bits_to_str (pat_bits p)) (pattern_text p) = pattern_text p ++ str "," ++ bits_to_str (pat_bits p)) as ->.
    { unfold print_id. destruct (bits_to_str (pat_bits p)) eqn:B; auto. exfalso. apply (f_equal (@List.length ascii)) in B. rewrite bits_to_str_length in B.
      revert B. unfold pat_bits. destruct P as (PC & _). destruct (p_count p) as [|[|[|[|n]]]]; [lia| | | |]; unfold head_bits; rewrite app_length, bits_w_length; cbn [length]; lia. }
    split. { unfold pattern_text. discriminate. }
    exists (bits_to_str (pat_bits p)). split; auto. split; auto.
    destruct (epc_prefix_match E p id P) as (b & MM & BB); try apply C. rewrite MM. f_equal. apply BB. apply (names_leads p k f id); auto.
  Qed.
End EPC.

Lemma ref_capacity k n s : 6 <= n <= 12 -> k <> Giai -> digits (ref_digits k (12 - n)) s -> (k = Grai -> n <> 12) -> (dec_value s < 2 ^ N.of_nat (ref_bits k (12 - n)))%N.
Proof.
  intros H K D G. apply digits_below in D. eapply N.lt_le_trans; [exact D|].
  assert (n = 6 \/ n = 7 \/ n = 8 \/ n = 9 \/ n = 10 \/ n = 11 \/ n = 12) as X by lia.
  destruct k; try congruence; repeat (destruct X as [->|X]; [vm_compute; discriminate|]); subst n; try (vm_compute; discriminate).
Qed.
Lemma itoa_plain i : i < 100 -> is_decimal (itoa i) /\ (dec_value (itoa i) < 2 ^ 38)%N /\ no_leading_zero (itoa i) /\ dec_value (itoa i) = N.of_nat i.
Proof.
  intros H. destruct (dec_string_plain (N.of_nat i)) as (D & V & Z). unfold itoa. split; auto. split; [|split; auto].
  rewrite V. change (2 ^ 38)%N with 274877906944%N. lia.
Qed.
Lemma three_ok : is_decimal (str "3") /\ (dec_value (str "3") < 2 ^ 3)%N.
Proof. split; [|reflexivity]. split; [discriminate|]. repeat constructor. Qed.

Definition tag_and_filters_ok (E : env) (p : uii_param) (i : nat) (d : gostring) : Prop :=
  exists line pc id fl, tag_line E p i d = Ok line /\ line_reads line pc id /\ translate pc id = Ok (expected_urn p i d) /\
    filter_lines E p = Ok fl /\ Forall2 (filter_line_ok id) (filter_patterns p) fl.

Ltac scheme_is H := unfold tag_line, filter_lines, filter_sends, expected_urn, filter_patterns; rewrite H;
  repeat match goal with |- context [seqb (str ?x) (str ?y)] => let b := eval vm_compute in (seqb (str x) (str y)) in change (seqb (str x) (str y)) with b end; cbv iota; cbn [orb].

Lemma one_filter (nf : bool) id pat l : l <> [] -> filter_line_ok id pat l ->
  exists fl, (let! ls := if nf then Ok [] else Ok [l] in Ok (filter (fun l : gostring => match l with [] => false | _ => true end) ls)) = Ok fl /\
    Forall2 (filter_line_ok id) (if nf then [] else [pat]) fl.
Proof. intros N F. destruct nf; eexists; cbn [bind filter]; (split; [reflexivity|]); [auto|]. destruct l; [congruence|]. cbn. auto. Qed.
Lemma two_filters (nf : bool) id pat pat' l l' : l <> [] -> filter_line_ok id pat l -> l' <> [] -> filter_line_ok id pat' l' ->
  exists fl, (let! ls := if nf then Ok [] else Ok [l; l'] in Ok (filter (fun l : gostring => match l with [] => false | _ => true end) ls)) = Ok fl /\
    Forall2 (filter_line_ok id) (if nf then [] else [pat; pat']) fl.
Proof. intros N F N' F'. destruct nf; eexists; cbn [bind filter]; (split; [reflexivity|]); [auto|]. destruct l; [congruence|]. destruct l'; [congruence|]. cbn. auto. Qed.

Definition mk_fields (cp ref ser : gostring) : epc_fields := {| f_filter := str "3"; f_cp := cp; f_ref := ref; f_ser := ser |}.
Lemma set_pattern k cp ref ser : let f := mk_fields cp ref ser in urn_fields k f ->
  forall r, r = [] \/ r = ref -> let g := mk_fields cp r [] in
  pattern_ok (given_pattern k g) /\ Forall clean (field_texts g) /\ leads (given_pattern k g) k f.
Proof.
  intros f ((D3 & DC & DR & _) & CL & (V3 & VC & VR & _) & _) r IR g.
  cbn [f mk_fields f_filter f_cp f_ref f_ser] in *. unfold fields_partition in *. cbn [f mk_fields f_filter f_cp f_ref f_ser] in *.
  assert (p_count (given_pattern k g) = match r with [] => 2 | _ => 3 end) as PC.
  { cbn [given_pattern p_count field_texts g mk_fields f_filter f_cp f_ref f_ser].
    destruct cp; [destruct DC; congruence|]. destruct k, r; reflexivity. }
  split; [|split].
  - unfold pattern_ok. rewrite PC. cbn [given_pattern p_fields p_scheme g mk_fields f_filter f_cp f_ref f_ser].
    split; [destruct k, r; cbn [field_count has_serial]; lia|]. split; auto. split. { intros _. split; auto. }
    split. { intros X. destruct IR as [->| ->]; [lia|]. split; auto. }
    intros X. destruct r; lia.
  - unfold field_texts. cbn [g mk_fields f_filter f_cp f_ref f_ser]. repeat apply Forall_cons; try apply Forall_nil.
    + apply digits_clean. apply D3.
    + apply digits_clean. apply DC.
    + destruct IR as [->| ->]; [apply clean_nil|]. apply digits_clean. apply DR.
    + apply clean_nil.
  - unfold leads. rewrite PC. cbn [given_pattern p_fields p_scheme g f mk_fields f_filter f_cp f_ref f_ser].
    split; auto. split; auto. split; auto. split. { intros X. destruct IR as [->| ->]; [lia|reflexivity]. } intros X; destruct r; lia.
Qed.
Lemma set_pattern_text k cp r : cp <> [] ->
  pattern_text (given_pattern k (mk_fields cp r [])) =
  str "urn:epc:pat:" ++ pattern_type k ++ str ":" ++ dotted (match r with [] => [str "3"; cp] | _ => [str "3"; cp; r] end).
Proof.
  intros H. unfold pattern_text. cbn [given_pattern p_scheme p_count p_fields field_texts mk_fields f_filter f_cp f_ref f_ser].
  destruct cp; [congruence|]. destruct r; destruct k; reflexivity.
Qed.
Lemma set_fields k n cp ref ser : 6 <= n <= 12 -> digits n cp -> is_decimal ref ->
  (dec_value ref < 2 ^ N.of_nat (ref_bits k (12 - n)))%N ->
  match k with Giai => no_leading_zero ref | Grai => length ref = 12 - n | Sscc => length ref = 17 - n | Sgtin => length ref = 13 - n end ->
  (has_serial k = true -> is_decimal ser /\ dec_value ser < 2 ^ 38 /\ no_leading_zero ser)%N ->
  urn_fields k (mk_fields cp ref ser).
Proof.
  intros H C R V L S. destruct three_ok as [D3 V3]. pose proof (proj1 C) as LC.
  assert (is_decimal cp) as DC by (apply (digits_decimal n); auto; lia).
  assert (cp_digits (12 - n) = n) as CD by (unfold cp_digits; lia).
  split; [|split; [|split; [|split]]].
  - split; [|split; [|split]]; auto. intros HS. apply S. auto.
  - unfold cp_length_ok. cbn [mk_fields f_cp]. lia.
  - unfold fits_bits, fields_partition. cbn [mk_fields f_filter f_cp f_ref f_ser].
    split; [|split; [|split]]; auto.
    + apply cp_fits; auto. lia.
    + rewrite LC. auto.
    + intros HS. apply S. auto.
  - unfold fields_partition. cbn [mk_fields f_cp f_ref]. rewrite LC. destruct k; cbn [ref_digits]; rewrite ?CD; auto.
  - intros HS. apply S. auto.
Qed.

Lemma sgtin_ok E p i d n : u_scheme p = str "sgtin-96" -> 6 <= n <= 12 -> digits n (u_cp p) -> digits (13 - n) (u_ir p) -> i < 100 ->
  tag_and_filters_ok E p i d.
Proof.
  intros S H C R I. destruct (itoa_plain i I) as (DI & VI & ZI & _).
  assert (urn_fields Sgtin (mk_fields (u_cp p) (u_ir p) (itoa i))) as U.
  { apply (set_fields _ n); auto; [apply (digits_decimal (13 - n)); auto; lia| |apply R].
    apply ref_capacity; auto; try discriminate. cbn [ref_digits]. unfold cp_digits. replace (12 - (12 - n)) with n by lia. auto. }
  assert (to_upper (str "sgtin-96") = to_upper (pattern_type Sgtin)) as CS by reflexivity.
  destruct (epc_line E Sgtin (str "sgtin-96") (str "3") (u_cp p) CS (u_ir p) [] (itoa i) [] [] U) as (id & M & CA & LRD & T).
  destruct (set_pattern _ _ _ _ U [] (or_introl eq_refl)) as (G1 & G2 & G3). destruct (set_pattern _ _ _ _ U (u_ir p) (or_intror eq_refl)) as (G4 & G5 & G6).
  destruct (epc_filter_line E Sgtin (str "sgtin-96") (str "3") (u_cp p) CS [] [] [] [] [] _ id G1 G2 CA G3) as (l1 & M1 & N1 & F1).
  destruct (epc_filter_line E Sgtin (str "sgtin-96") (str "3") (u_cp p) CS (u_ir p) [] [] [] [] _ id G4 G5 CA G6) as (l2 & M2 & N2 & F2).
  assert (u_cp p <> []) as NC by apply U. assert (u_ir p <> []) as NR by apply U.
  change (fields_of Sgtin (str "3") (u_cp p) [] [] [] [] []) with (mk_fields (u_cp p) [] []) in F1.
  match type of F2 with context [fields_of ?a ?b ?c ?d ?e ?f ?g ?h] => change (fields_of a b c d e f g h) with (mk_fields (u_cp p) (u_ir p) []) in F2 end.
  rewrite set_pattern_text in F1, F2 by auto. assert (forall x y : list gostring, match u_ir p with [] => x | _ => y end = y) as NM by (destruct (u_ir p); [congruence|reflexivity]).
  rewrite NM in F2. clear NM.
  unfold tag_and_filters_ok. scheme_is S.
  destruct (make_epc E false (str "sgtin-96") (str "3") (u_cp p) (u_ir p) [] (itoa i) [] []) as [bs opt].
  destruct (make_epc E true (str "sgtin-96") (str "3") (u_cp p) [] [] [] [] []) as [bs1 opt1].
  destruct (make_epc E true (str "sgtin-96") (str "3") (u_cp p) (u_ir p) [] [] [] []) as [bs2 opt2]. cbn [bind].
  destruct (two_filters (u_no_filter p) id _ _ l1 l2 N1 F1 N2 F2) as (fl & FL & FF).
  exists (print_id bs opt), [48; 0]%N, id, fl. split; auto. rewrite M. split; auto. split. { rewrite T. reflexivity. }
  rewrite M1, M2. auto.
Qed.
Lemma grai_ok E p i d n : u_scheme p = str "grai-96" -> 6 <= n <= 11 -> digits n (u_cp p) -> digits (12 - n) (u_at p) -> i < 100 ->
  tag_and_filters_ok E p i d.
Proof.
  intros S H C R I. destruct (itoa_plain i I) as (DI & VI & ZI & _).
  assert (urn_fields Grai (mk_fields (u_cp p) (u_at p) (itoa i))) as U.
  { apply (set_fields _ n); auto; [lia|apply (digits_decimal (12 - n)); auto; lia| |apply R].
    apply ref_capacity; auto; try discriminate; [lia| |lia]. cbn [ref_digits]. unfold cp_digits. replace (12 - (12 - n)) with n by lia. auto. }
  assert (to_upper (str "grai-96") = to_upper (pattern_type Grai)) as CS by reflexivity.
  destruct (epc_line E Grai (str "grai-96") (str "3") (u_cp p) CS [] [] (itoa i) [] (u_at p) U) as (id & M & CA & LRD & T).
  destruct (set_pattern _ _ _ _ U [] (or_introl eq_refl)) as (G1 & G2 & G3). destruct (set_pattern _ _ _ _ U (u_at p) (or_intror eq_refl)) as (G4 & G5 & G6).
  destruct (epc_filter_line E Grai (str "grai-96") (str "3") (u_cp p) CS [] [] [] [] [] _ id G1 G2 CA G3) as (l1 & M1 & N1 & F1).
  destruct (epc_filter_line E Grai (str "grai-96") (str "3") (u_cp p) CS [] [] [] [] (u_at p) _ id G4 G5 CA G6) as (l2 & M2 & N2 & F2).
  assert (u_cp p <> []) as NC by apply U. assert (u_at p <> []) as NR by apply U.
  change (fields_of Grai (str "3") (u_cp p) [] [] [] [] []) with (mk_fields (u_cp p) [] []) in F1.
  match type of F2 with context [fields_of ?a ?b ?c ?d ?e ?f ?g ?h] => change (fields_of a b c d e f g h) with (mk_fields (u_cp p) (u_at p) []) in F2 end.
  rewrite set_pattern_text in F1, F2 by auto. assert (forall x y : list gostring, match u_at p with [] => x | _ => y end = y) as NM by (destruct (u_at p); [congruence|reflexivity]).
  rewrite NM in F2. clear NM.
  unfold tag_and_filters_ok. scheme_is S.
  destruct (make_epc E false (str "grai-96") (str "3") (u_cp p) [] [] (itoa i) [] (u_at p)) as [bs opt].
  destruct (make_epc E true (str "grai-96") (str "3") (u_cp p) [] [] [] [] []) as [bs1 opt1].
  destruct (make_epc E true (str "grai-96") (str "3") (u_cp p) [] [] [] [] (u_at p)) as [bs2 opt2]. cbn [bind].
  destruct (two_filters (u_no_filter p) id _ _ l1 l2 N1 F1 N2 F2) as (fl & FL & FF).
  exists (print_id bs opt), [48; 0]%N, id, fl. split; auto. rewrite M. split; auto. split.
  { rewrite T. unfold urn_of, fields_partition. cbn [fields_of f_cp f_ref f_ser]. rewrite (proj1 C). destruct (Nat.eqb_spec (12 - n) 0); [lia|]. reflexivity. }
  rewrite M1, M2. auto.
Qed.
Lemma sscc_ok E p i d n : u_scheme p = str "sscc-96" -> 6 <= n <= 12 -> digits n (u_cp p) -> digits (17 - n) d ->
  tag_and_filters_ok E p i d.
Proof.
  intros S H C R.
  assert (urn_fields Sscc (mk_fields (u_cp p) d [])) as U.
  { apply (set_fields _ n); auto; [apply (digits_decimal (17 - n)); auto; lia| |apply R|discriminate].
    apply ref_capacity; auto; try discriminate. cbn [ref_digits]. unfold cp_digits. replace (12 - (12 - n)) with n by lia. auto. }
  assert (to_upper (str "sscc-96") = to_upper (pattern_type Sscc)) as CS by reflexivity.
  destruct (epc_line E Sscc (str "sscc-96") (str "3") (u_cp p) CS [] d [] [] [] U) as (id & M & CA & LRD & T).
  destruct (set_pattern _ _ _ _ U [] (or_introl eq_refl)) as (G1 & G2 & G3).
  destruct (epc_filter_line E Sscc (str "sscc-96") (str "3") (u_cp p) CS [] [] [] [] [] _ id G1 G2 CA G3) as (l1 & M1 & N1 & F1).
  assert (u_cp p <> []) as NC by apply U.
  change (fields_of Sscc (str "3") (u_cp p) [] [] [] [] []) with (mk_fields (u_cp p) [] []) in F1.
  rewrite set_pattern_text in F1 by auto.
  unfold tag_and_filters_ok. scheme_is S.
  destruct (make_epc E false (str "sscc-96") (str "3") (u_cp p) [] d [] [] []) as [bs opt].
  destruct (make_epc E true (str "sscc-96") (str "3") (u_cp p) [] [] [] [] []) as [bs1 opt1]. cbn [bind].
  destruct (one_filter (u_no_filter p) id _ l1 N1 F1) as (fl & FL & FF).
  exists (print_id bs opt), [48; 0]%N, id, fl. split; auto. rewrite M. split; auto. split. { rewrite T. reflexivity. }
  rewrite M1. auto.
Qed.
Lemma giai_ok E p i d n : u_scheme p = str "giai-96" -> 6 <= n <= 12 -> digits n (u_cp p) -> is_decimal d -> hd c0 d <> c0 ->
  (dec_value d < 2 ^ N.of_nat (ref_bits Giai (12 - n)))%N -> tag_and_filters_ok E p i d.
Proof.
  intros S H C R Z V.
  assert (urn_fields Giai (mk_fields (u_cp p) d [])) as U.
  { apply (set_fields _ n); auto; [right; auto|discriminate]. }
  assert (to_upper (str "giai-96") = to_upper (pattern_type Giai)) as CS by reflexivity.
  destruct (epc_line E Giai (str "giai-96") (str "3") (u_cp p) CS [] [] [] d [] U) as (id & M & CA & LRD & T).
  destruct (set_pattern _ _ _ _ U [] (or_introl eq_refl)) as (G1 & G2 & G3).
  destruct (epc_filter_line E Giai (str "giai-96") (str "3") (u_cp p) CS [] [] [] [] [] _ id G1 G2 CA G3) as (l1 & M1 & N1 & F1).
  assert (u_cp p <> []) as NC by apply U.
  change (fields_of Giai (str "3") (u_cp p) [] [] [] [] []) with (mk_fields (u_cp p) [] []) in F1.
  rewrite set_pattern_text in F1 by auto.
  unfold tag_and_filters_ok. scheme_is S.
  destruct (make_epc E false (str "giai-96") (str "3") (u_cp p) [] [] [] d []) as [bs opt].
  destruct (make_epc E true (str "giai-96") (str "3") (u_cp p) [] [] [] [] []) as [bs1 opt1]. cbn [bind].
  destruct (one_filter (u_no_filter p) id _ l1 N1 F1) as (fl & FL & FF).
  exists (print_id bs opt), [48; 0]%N, id, fl. split; auto. rewrite M. split; auto. split. { rewrite T. reflexivity. }
  rewrite M1. auto.
Qed.

Lemma iso_filter_line id t p pat : six_bit_text p -> p <> [] -> six_bit_text t -> wf_bytes id ->
  bits_of_bytes id = text_bits t ++ pad_bits (iso_pad (length t)) -> is_prefix p t ->
  (forall E', pattern_prefix E' pat = Some (runes_to_6bin p)) ->
  let l := print_id (runes_to_6bin p) pat in l <> [] /\ filter_line_ok id pat l.
Proof.
  intros SP NP ST W B IP PP l. assert (l = pat ++ str "," ++ runes_to_6bin p) as ->.
  { unfold l, print_id. destruct (runes_to_6bin p) eqn:R; auto. destruct p; [congruence|]. discriminate R. }
  split. { destruct pat; discriminate. }
  exists (runes_to_6bin p). split; auto. split; auto.
  apply (iso_match p t id SP NP (six_bit_text_six _ ST) W B). auto.
Qed.
Lemma code_six t : Forall code_char t -> six_bit_text t.
Proof. intros F. eapply Forall_impl; [|exact F]. intros c Hc. destruct (alphabet_value c Hc) as (_ & _ & ?); auto. Qed.
Lemma tag_nonempty (id : list N) t : bits_of_bytes id = text_bits t ++ pad_bits (iso_pad (length t)) -> t <> [] -> id <> [].
Proof. intros B N ->. destruct t; [congruence|]. discriminate B. Qed.
Lemma is_prefix_app (a b : gostring) : is_prefix a (a ++ b).
Proof. exists b. reflexivity. Qed.

Lemma iso17363_ok E p i d : u_scheme p = str "17363" -> length (u_oc p) = 3 -> Forall (fun c => is_upper c = true) (u_oc p) -> i < 100 ->
  tag_and_filters_ok E p i d.
Proof.
  intros S L3 UP I. destruct (itoa_plain i I) as (DI & VI & ZI & EI).
  assert (length (itoa i) <= 2) as LI.
  { do 100 (destruct i as [|i]; [vm_compute; lia|]). lia. }
  assert (Forall code_char (u_oc p)) as CO by (eapply Forall_impl; [|exact UP]; right; auto).
  assert (Forall code_char (itoa i)) as CI by (eapply Forall_impl; [|apply DI]; left; auto).
  assert (container_code (u_oc p) (str "U") (repeat "0"%char (6 - length (itoa i)) ++ itoa i)) as CC.
  { split; [destruct (u_oc p); discriminate|]. split; [discriminate|]. split; [rewrite L3; reflexivity|]. split; [rewrite app_length, repeat_length; lia|].
    apply Forall_app. split; auto. apply Forall_app. split; [constructor; [right; reflexivity|constructor]|]. apply Forall_app. split; auto.
    apply Forall_forall. intros c X. apply repeat_spec in X. subst c. left; reflexivity. }
  destruct (iso17363_text E (u_oc p) [] (itoa i) [] [] [] [] (proj1 DI) ltac:(lia) CC) as (id & p0 & M & L0 & W & ST & B & T).
  destruct (iso17363_prefix_text E (u_oc p) [] [] [] [] []) as [M1 A1]. { repeat apply Forall_cons; try apply Forall_nil; [apply code_clean; auto|apply clean_nil]. }
  assert (forall x : gostring, x = [] -> given [str "7B"; u_oc p; x] = [str "7B"; u_oc p]) as GV by (intros x ->; destruct (u_oc p); [discriminate|reflexivity]).
  cbv zeta in M1, A1. rewrite (GV [] eq_refl) in M1, A1.
  assert (six_bit_text (concat [str "7B"; u_oc p])) as S1.
  { cbn [concat]. rewrite app_nil_r. apply code_six. apply Forall_app. split; auto. constructor; [left; reflexivity|constructor; [right; reflexivity|constructor]]. }
  assert (forall x, is_prefix (concat [str "7B"; u_oc p]) (str "7B" ++ u_oc p ++ x)) as IP1.
  { intros x. cbn [concat]. rewrite app_nil_r. rewrite app_assoc. apply is_prefix_app. }
  destruct (iso_filter_line id _ (concat [str "7B"; u_oc p]) _ S1 ltac:(discriminate) ST W B (IP1 _) A1) as [N1 F1].
  unfold tag_and_filters_ok. scheme_is S. rewrite M, M1. cbn [bind].
  destruct (one_filter (u_no_filter p) id _ _ N1 F1) as (fl & FL & FF).
  exists (print_id (uii_text id) (hex_string [p0; 169]%N)), [p0; 169]%N, id, fl. split; auto.
  split. { apply line_reads_ok; auto; [|lia]. eapply tag_nonempty; [exact B|discriminate]. }
  split. { rewrite T. f_equal. rewrite <- !app_assoc. reflexivity. }
  auto.
Qed.
Lemma iso17365_ok E p i d : u_scheme p = str "17365" -> u_di p = str "25S" -> u_iac p = str "U" -> 3 <= length (u_ci p) <= 7 -> Forall code_char (u_ci p) ->
  10 <= length d <= 30 -> Forall code_char d -> tag_and_filters_ok E p i d.
Proof.
  intros S HDI HIAC LCI CI LD CD.
  assert (Forall code_char (str "25S")) as C1. { repeat apply Forall_cons; try apply Forall_nil; apply code_char_b_ok; reflexivity. }
  assert (Forall code_char (str "U")) as C2. { repeat apply Forall_cons; try apply Forall_nil; apply code_char_b_ok; reflexivity. }
  assert (u_ci p <> []) as NCI by (destruct (u_ci p); [cbn in LCI; lia|discriminate]).
  assert (Forall code_char (str "25S" ++ str "U" ++ u_ci p ++ d)) as CT by (repeat (apply Forall_app; split; auto)).
  destruct (iso17365_text E [] [] [] (str "25S") (str "U") (u_ci p) d) as (id & p0 & M & L0 & W & B & T); auto; try discriminate.
  { destruct d; [cbn in LD; lia|discriminate]. } { rewrite !app_length. cbn [length str list_ascii_of_string]. lia. } { apply code_six; auto. }
  destruct (iso17365_prefix_text E [] [] [] (str "25S") (str "U") [] []) as [M1 A1]; [discriminate| |].
  { repeat apply Forall_cons; try apply Forall_nil; try apply clean_nil; apply code_clean; auto. }
  destruct (iso17365_prefix_text E [] [] [] (str "25S") (str "U") (u_ci p) []) as [M2 A2]; [discriminate| |].
  { repeat apply Forall_cons; try apply Forall_nil; try apply clean_nil; apply code_clean; auto. }
  cbv zeta in M1, A1. change (given [str "25S"; str "U"; []; []]) with [str "25S"; str "U"] in M1, A1.
  assert (forall x : gostring, x = [] -> given [str "25S"; str "U"; u_ci p; x] = [str "25S"; str "U"; u_ci p]) as GV by (intros x ->; destruct (u_ci p); [congruence|reflexivity]).
  cbv zeta in M2, A2.
  match type of M2 with context [given ?l] => replace (given l) with [str "25S"; str "U"; u_ci p] in M2, A2 by (symmetry; exact (GV [] eq_refl)) end.
  assert (six_bit_text (concat [str "25S"; str "U"])) as S1.
  { cbn [concat]. rewrite app_nil_r. apply code_six. apply Forall_app. split; auto. }
  assert (is_prefix (concat [str "25S"; str "U"]) (str "25S" ++ str "U" ++ u_ci p ++ d)) as IP1.
  { cbn [concat]. rewrite app_nil_r. rewrite app_assoc. apply is_prefix_app. }
  destruct (iso_filter_line id (str "25S" ++ str "U" ++ u_ci p ++ d) (concat [str "25S"; str "U"]) _ S1 ltac:(discriminate) (code_six _ CT) W B IP1 A1) as [N1 F1].
  assert (six_bit_text (concat [str "25S"; str "U"; u_ci p])) as S2.
  { cbn [concat]. rewrite app_nil_r. apply code_six. apply Forall_app. split; auto. apply Forall_app. split; auto. }
  assert (is_prefix (concat [str "25S"; str "U"; u_ci p]) (str "25S" ++ str "U" ++ u_ci p ++ d)) as IP2.
  { cbn [concat]. rewrite app_nil_r. replace (str "25S" ++ str "U" ++ u_ci p ++ d) with ((str "25S" ++ str "U" ++ u_ci p) ++ d) by (rewrite <- !app_assoc; reflexivity). apply is_prefix_app. }
  destruct (iso_filter_line id (str "25S" ++ str "U" ++ u_ci p ++ d) (concat [str "25S"; str "U"; u_ci p]) _ S2 ltac:(discriminate) (code_six _ CT) W B IP2 A2) as [N2 F2].
  unfold tag_and_filters_ok. scheme_is S. rewrite HDI, HIAC, M, M1, M2. cbn [bind].
  destruct (two_filters (u_no_filter p) id _ _ _ _ N1 F1 N2 F2) as (fl & FL & FF).
  exists (print_id (uii_text id) (hex_string [p0; 162]%N)), [p0; 162]%N, id, fl. split; auto.
  split. { apply line_reads_ok; auto; [|lia]. eapply tag_nonempty; [exact B|discriminate]. }
  split. { rewrite T. reflexivity. }
  auto.
Qed.
Lemma data_set_ok E p i d : main_param p -> drawn p d -> reference_fits p d -> i < num_serial -> tag_and_filters_ok E p i d.
Proof.
  intros M (D1 & D2 & D3) RF I. unfold num_serial in I. destruct M as [n S H C R|n S H C X|n S H C X|n S H C R|S L U|S X Y L U].
  - eapply sgtin_ok; eauto.
  - apply (sscc_ok E p i d n); auto. rewrite <- X. apply D1. auto.
  - destruct (D2 S) as [(m & Hm & DM) Z]. apply (giai_ok E p i d n); auto. { apply (digits_decimal m); auto. lia. }
    rewrite <- (proj1 C). apply RF. auto.
  - eapply grai_ok; eauto.
  - apply iso17363_ok; auto.
  - destruct (D3 S). apply iso17365_ok; auto.
Qed.

(** ** Whole runs *)
Ltac other S := let Z := fresh in intros Z; rewrite S in Z; discriminate Z.
Lemma lines_ok E p dr : main_param p -> forall is, (forall i, In i is -> i < num_serial /\ drawn p (dr i) /\ reference_fits p (dr i)) ->
  exists ls fl, lines E p dr is = Ok ls /\ length ls = length is /\ filter_lines E p = Ok fl /\
    forall n i l, nth_error is n = Some i -> nth_error ls n = Some l ->
      exists pc id, line_reads l pc id /\ translate pc id = Ok (expected_urn p i (dr i)) /\ Forall2 (filter_line_ok id) (filter_patterns p) fl.
Proof.
  intros M is. assert (exists fl, filter_lines E p = Ok fl) as (fl & FL).
  { assert (exists d, drawn p d /\ reference_fits p d) as (d & D & R).
    { destruct M as [n S H C X|n S H C X|n S H C X|n S H C X|S L U|S X Y L U].
      1,4,5: exists []; split; [split; [other S|split; other S]|other S].
      - exists (repeat "1"%char (u_ext_digits p)). split; [|other S]. split; [|split; other S]. intros _. split.
        + split; [apply repeat_length|]. apply Forall_forall. intros c I. apply repeat_spec in I. subst. reflexivity.
        + rewrite X. destruct (17 - n) eqn:Q; [lia|]. discriminate.
      - exists (str "1"). split.
        + split; [other S|]. split; [|other S]. intros _. split; [|discriminate]. exists 1. split; [lia|]. split; [reflexivity|]. repeat constructor.
        + intros _. rewrite (proj1 C). assert (n = 6 \/ n = 7 \/ n = 8 \/ n = 9 \/ n = 10 \/ n = 11 \/ n = 12) as Q by lia.
          repeat (destruct Q as [->|Q]; [reflexivity|]). subst n. reflexivity.
      - exists (repeat "1"%char 10). split; [|other S]. split; [other S|]. split; [other S|]. intros _.
        split; [cbn; lia|]. apply Forall_forall. intros c I. apply repeat_spec in I. subst. left. reflexivity. }
    destruct (data_set_ok E p 0 d M D R) as (line & pc & id & fl & _ & _ & _ & FL & _). { unfold num_serial. lia. } exists fl. auto. }
  induction is as [|i is IH]; intros H.
  - exists [], fl. split; [reflexivity|]. split; auto. split; auto. intros [|n] i l X; discriminate.
  - destruct IH as (ls & fl' & LS & LL & FL' & X). { intros j I. apply H. right. auto. }
    assert (fl' = fl) as -> by congruence. destruct (H i (or_introl eq_refl)) as (HI & D & R).
    destruct (data_set_ok E p i (dr i) M D R HI) as (line & pc & id & fl2 & TL & LR & T & FL2 & FF). assert (fl2 = fl) as -> by congruence.
    exists (line :: ls), fl. cbn [lines]. rewrite TL. cbn [bind]. rewrite LS. cbn [bind]. split; auto. split; [cbn; congruence|]. split; auto.
    intros [|n] j l Y Z; cbn in Y, Z; [|eapply X; eauto]. injection Y as <-. injection Z as <-. exists pc, id. auto.
Qed.
Lemma file_eqb_spec a b : file_eqb a b = true <-> a = b.
Proof. unfold file_eqb. destruct (list_eq_dec (list_eq_dec ascii_dec) a b); split; auto; discriminate. Qed.
Lemma exists_file (files : list (list gostring * list gostring)) f : existsb (fun e => file_eqb (fst e) f) files = true <-> In f (map fst files).
Proof.
  rewrite existsb_exists, in_map_iff. split; intros (e & A & B).
  - apply file_eqb_spec in B. exists e. auto.
  - exists e. split; auto. apply file_eqb_spec. auto.
Qed.

Lemma set_ok_more p dr a b ls : set_ok p dr a ls -> incl a b -> set_ok p dr b ls.
Proof. intros (L & fl & I & X) H. split; auto. exists fl. split; auto. eapply incl_tran; eauto. Qed.
Section RUN.
  Context (E : env) (draw : nat -> nat -> gostring).
  Lemma good_tail k p ps : good_params draw k (p :: ps) -> good_params draw (S k) ps.
  Proof. intros G j q H. replace (S k + j) with (k + S j) by lia. apply (G (S j) q H). Qed.
  Lemma seqb_iff a b : seqb a b = true <-> a = b.
  Proof. apply seqb_eq. Qed.
  Lemma generate_runs : forall ps k files filters, good_params draw k ps -> ~ clash (map fst files) ps ->
    exists new more, generate E draw k ps files filters = Ok (files ++ new, filters ++ more) /\
      (NoDup (map fst files) -> NoDup (map fst (files ++ new))) /\
      (forall p, In p ps -> In (file_of p) (map fst (files ++ new))) /\
      (forall f ls, In (f, ls) new -> exists j p, nth_error ps j = Some p /\ f = file_of p /\ set_ok p (draw (k + j)) more ls).
  Proof.
    induction ps as [|p ps IH]; intros k files filters G NC.
    - exists [], []. cbn [generate]. rewrite !app_nil_r. split; auto. split; auto. split; [intros p []|]. intros f ls [].
    - cbn [generate]. destruct (existsb _ files) eqn:EX.
      + apply exists_file in EX.
        destruct (seqb (u_scheme p) (str "grai-96")) eqn:GR.
        { exfalso. apply seqb_iff in GR. apply NC. exists 0, p. split; auto. }
        destruct (IH (S k) files filters (good_tail _ _ _ G)) as (new & more & GE & ND & AL & EN).
        { intros (j & q & J & Q & C). apply NC. exists (S j), q. split; auto. split; auto. destruct C as [C|(i & r & I & R & F)]; auto.
          right. exists (S i), r. split; [lia|]. auto. }
        exists new, more. split; auto. split; auto. split.
        * intros q [<-|I]; auto. rewrite map_app. apply in_or_app. auto.
        * intros f ls I. destruct (EN f ls I) as (j & q & J & F & SO). exists (S j), q. split; auto. split; auto. replace (k + Datatypes.S j) with (Datatypes.S k + j) by lia. auto.
      + assert (~ In (file_of p) (map fst files)) as NI. { intros I. apply exists_file in I. congruence. }
        destruct (G 0 p eq_refl) as (M & D). replace (k + 0) with k in D by lia.
        destruct (lines_ok E p (draw k) M (seq 0 num_serial)) as (ls & fl & LS & LL & FL & X).
        { intros i I. apply in_seq in I. split; [lia|]. apply D. lia. }
        rewrite FL. cbn [bind]. rewrite LS. cbn [bind].
        destruct (IH (S k) (files ++ [(file_of p, ls)]) (filters ++ fl) (good_tail _ _ _ G)) as (new & more & GE & ND & AL & EN).
        { intros (j & q & J & Q & C). apply NC. exists (S j), q. split; auto. split; auto. destruct C as [C|(i & r & I & R & F)].
          - rewrite map_app in C. apply in_app_or in C. destruct C as [C|[C|[]]]; auto. right. exists 0, p. split; [lia|]. auto.
          - right. exists (S i), r. split; [lia|]. auto. }
        exists ((file_of p, ls) :: new), (fl ++ more). rewrite GE, <- !app_assoc. split; auto. rewrite <- app_assoc in ND, AL. cbn [app] in ND, AL. split.
        * intros N. apply ND. rewrite map_app. cbn [map fst]. apply NoDup_app; auto; [repeat constructor; auto|]. intros a IA [<-|[]]. auto.
        * split. { intros q [<-|I]; auto. rewrite map_app. apply in_or_app. right. left. auto. }
          intros f l [I|I].
          -- injection I as <- <-. exists 0, p. split; auto. split; auto. split. { rewrite LL, seq_length. auto. }
             exists fl. split; [apply incl_appl, incl_refl|]. intros i line HL.
             assert (i < num_serial) as LI. { rewrite <- (seq_length num_serial 0), <- LL. apply nth_error_Some. congruence. }
             replace (k + 0) with k by lia. apply (X i i line); auto. rewrite (nth_error_nth' _ 0) by (rewrite seq_length; auto). rewrite seq_nth; auto.
          -- destruct (EN f l I) as (j & q & J & F & SO). exists (S j), q. split; auto. split; auto. replace (k + Datatypes.S j) with (Datatypes.S k + j) by lia.
             eapply set_ok_more; [exact SO|]. apply incl_appr, incl_refl.
  Qed.
  Lemma generate_clash : forall ps k files filters, good_params draw k ps -> clash (map fst files) ps -> generate E draw k ps files filters = Panic.
  Proof.
    induction ps as [|p ps IH]; intros k files filters G (j & q & J & Q & C); [destruct j; discriminate|].
    cbn [generate]. destruct (existsb _ files) eqn:EX.
    - apply exists_file in EX. destruct (seqb (u_scheme p) (str "grai-96")) eqn:GR; auto.
      apply IH; [eapply good_tail; eauto|]. destruct j as [|j].
      + exfalso. injection J as ->. apply seqb_iff in Q. congruence.
      + exists j, q. split; auto. split; auto. destruct C as [C|([|i] & r & I & R & F)]; auto.
        * injection R as ->. rewrite <- F. auto.
        * right. exists i, r. split; [lia|]. auto.
    - assert (~ In (file_of p) (map fst files)) as NI. { intros I. apply exists_file in I. congruence. }
      destruct (G 0 p eq_refl) as (M & D). replace (k + 0) with k in D by lia.
      destruct (lines_ok E p (draw k) M (seq 0 num_serial)) as (ls & fl & LS & LL & FL & X).
      { intros i I. apply in_seq in I. split; [lia|]. apply D. lia. }
      rewrite FL. cbn [bind]. rewrite LS. cbn [bind]. apply IH; [eapply good_tail; eauto|].
      destruct j as [|j].
      + exfalso. injection J as ->. destruct C as [C|(i & r & I & _)]; [auto|lia].
      + exists j, q. split; auto. split; auto. rewrite map_app. destruct C as [C|([|i] & r & I & R & F)].
        * left. apply in_or_app. auto.
        * injection R as ->. left. apply in_or_app. right. left. auto.
        * right. exists i, r. split; [lia|]. auto.
  Qed.
End RUN.
