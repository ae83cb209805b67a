(** Tools: text forms of tags, and the data set generator. *)
From Verif Require Import GoBase BinUtil MFilter MTdtEpc MTdtIso MTdtCore MScheme MSubs MTools Spec SpecEpc SpecIso SpecTools.
From Verif Require Import PBase PNum PEpc PEpc2 PEpc3 PEpc4 PropsTdt PropsEpc PIso PIso2 PropsIso.
From Coq Require Import Lia.

Lemma below16 (P : N -> bool) : forallb P (map N.of_nat (seq 0 16)) = true -> forall n, (n < 16)%N -> P n = true.
Proof. intros H n L. rewrite forallb_forall in H. apply H. apply in_map_iff. exists (N.to_nat n). split; [lia|]. apply in_seq. lia. Qed.

Lemma hex_value_digit n : (n < 16)%N -> hex_value (hex_digit n) = Some n.
Proof.
  intros L. pose proof (below16 (fun n => match hex_value (hex_digit n) with Some m => N.eqb m n | None => false end) ltac:(vm_compute; reflexivity) n L) as X.
  cbv beta in X. destruct (hex_value (hex_digit n)) as [m|]; [|discriminate]. apply N.eqb_eq in X. congruence.
Qed.
Lemma nibbles x : (x < 256)%N ->
  map (N.testbit (x / 16)) [3; 2; 1; 0]%N ++ map (N.testbit (x mod 16)) [3; 2; 1; 0]%N = bits_of_bytes [x].
Proof.
  intros L. assert (forallb (fun x => if list_eq_dec Bool.bool_dec (map (N.testbit (x / 16)) [3; 2; 1; 0]%N ++ map (N.testbit (x mod 16)) [3; 2; 1; 0]%N) (bits_of_bytes [x]) then true else false) (map N.of_nat (seq 0 256)) = true) as X by (vm_compute; reflexivity).
  rewrite forallb_forall in X. specialize (X x). destruct (list_eq_dec _ _ _) as [e|] in X; auto.
  discriminate X. apply in_map_iff. exists (N.to_nat x). split; [lia|]. apply in_seq. lia.
Qed.
Lemma bits_cons x l : bits_of_bytes (x :: l) = bits_of_bytes [x] ++ bits_of_bytes l.
Proof. unfold bits_of_bytes. cbn [flat_map]. rewrite app_nil_r. reflexivity. Qed.
Lemma hex_bits id : wf_bytes id -> hex_to_binstr (hex_string id) = Ok (bytes_to_binstr id).
Proof.
  induction 1 as [|x l Hx Hl IH]; [reflexivity|].
  change (hex_string (x :: l)) with (hex_digit (x / 16) :: hex_digit (x mod 16) :: hex_string l).
  cbn [hex_to_binstr]. assert (x < 256)%N as Lx by exact Hx.
  rewrite !hex_value_digit by ((apply N.mod_lt; lia) || (apply N.div_lt_upper_bound; lia)). rewrite IH. cbn [bind].
  unfold bytes_to_binstr. rewrite bits_cons, <- nibbles by auto. unfold bits_to_str. rewrite !map_app, <- app_assoc. reflexivity.
Qed.
Lemma uii_text_bits id : wf_bytes id -> uii_text id = bytes_to_binstr id.
Proof. intros W. unfold uii_text. rewrite hex_bits; auto. Qed.
Lemma byte_id_bits id : wf_bytes id -> make_byte_id (bytes_to_binstr id) = (id, false).
Proof. intros W. unfold make_byte_id, binstr_to_bytes, bytes_to_binstr. rewrite chars_to_bits_to_str, bytes_of_bits_of_bytes; auto. Qed.
Lemma pc_text a b : (a < 256)%N -> (b < 256)%N -> make_uint16_pc (hex_string [a; b]) = (256 * a + b, false)%N.
Proof.
  intros La Lb. unfold make_uint16_pc, parse_hex16.
  change (hex_string [a; b]) with [hex_digit (a / 16); hex_digit (a mod 16); hex_digit (b / 16); hex_digit (b mod 16)].
  cbn [parse_hex16_loop].
  rewrite !hex_value_digit by ((apply N.mod_lt; lia) || (apply N.div_lt_upper_bound; lia)). cbv zeta.
  pose proof (N.div_mod a 16 ltac:(lia)) as Da. pose proof (N.div_mod b 16 ltac:(lia)) as Db.
  pose proof (N.mod_lt a 16 ltac:(lia)) as Ma. pose proof (N.mod_lt b 16 ltac:(lia)) as Mb.
  remember (a / 16)%N as a1. remember (a mod 16)%N as a0. remember (b / 16)%N as b1. remember (b mod 16)%N as b0.
  repeat match goal with |- context [N.ltb 65535 ?x] => destruct (N.ltb_spec 65535 x); [lia|] end. f_equal. lia.
Qed.
Lemma bytes_text id : wf_bytes id -> bit_text id (bytes_to_binstr id).
Proof. reflexivity. Qed.
Lemma byte_id_text id s : wf_bytes id -> bit_text id s -> make_byte_id s = (id, false).
Proof. intros W ->. apply byte_id_bits. auto. Qed.
Lemma binstr_wf s id : binstr_to_bytes s = Ok id -> wf_bytes id /\ bit_text id s.
Proof.
  unfold binstr_to_bytes. destruct (chars_to_bits s) as [bs|] eqn:C; [|discriminate]. destruct (bytes_of_bits bs) as [l|] eqn:B; [|discriminate].
  intros H. injection H as <-. destruct (bytes_of_bits_spec bs l B) as [BB W]. split; auto. unfold bit_text. rewrite BB.
  clear B W BB l. revert bs C. induction s as [|c s IH]; intros bs C; cbn in C; [injection C as <-; reflexivity|].
  unfold bit_of_char in C. destruct (Ascii.eqb_spec c c0) as [->|]; [|destruct (Ascii.eqb_spec c c1) as [->|]; [|discriminate]];
    (destruct (chars_to_bits s) as [l|]; [|discriminate]); injection C as <-; cbn; f_equal; apply IH; reflexivity.
Qed.
Lemma byte_id_none s : (forall id, wf_bytes id -> ~ bit_text id s) -> make_byte_id s = ([], false).
Proof.
  intros H. unfold make_byte_id. destruct (binstr_to_bytes s) as [id| |] eqn:B; auto. destruct (binstr_wf _ _ B). exfalso. eapply H; eauto.
Qed.

(** Hexadecimal numerals. *)
Lemma all_ascii (P : ascii -> bool) : forallb (fun n => P (ascii_of_nat n)) (seq 0 256) = true -> forall c, P c = true.
Proof.
  intros H c. rewrite forallb_forall in H. rewrite <- (ascii_nat_embedding c). apply H. apply in_seq.
  pose proof (nat_ascii_bounded c). lia.
Qed.
Lemma hex_value_char c v : hex_value c = Some v <-> exists n, hex_char c n /\ v = N.of_nat n.
Proof.
  split.
  - intros H. pose proof (all_ascii (fun c => match hex_value c with
      | None => true
      | Some v => match nth_error (str "0123456789abcdef") (N.to_nat v), nth_error (str "0123456789ABCDEF") (N.to_nat v) with
                  | Some a, Some b => Ascii.eqb a c || Ascii.eqb b c | _, _ => false end end) ltac:(vm_compute; reflexivity) c) as X.
    cbv beta in X. rewrite H in X. exists (N.to_nat v). split; [|lia]. unfold hex_char.
    destruct (nth_error (str "0123456789abcdef") _) as [a|]; [|discriminate]. destruct (nth_error (str "0123456789ABCDEF") _) as [b|]; [|discriminate].
    apply orb_true_iff in X. destruct X as [X|X]; apply Ascii.eqb_eq in X; subst; auto.
  - intros (n & H & ->). unfold hex_char in H.
    assert (n < 16) as L.
    { destruct H as [H|H].
      - apply (proj1 (nth_error_Some (str "0123456789abcdef") n)). congruence.
      - apply (proj1 (nth_error_Some (str "0123456789ABCDEF") n)). congruence. }
    do 16 (destruct n as [|n]; [destruct H as [H|H]; injection H as <-; reflexivity|]). lia.
Qed.

Definition hex_step (n : N) (c : ascii) : option N :=
  match hex_value c with None => None | Some v => if (65535 <? 16 * n + v)%N then None else Some (16 * n + v)%N end.
Lemma parse_snoc s : forall a c, parse_hex16_loop a (s ++ [c]) = match parse_hex16_loop a s with Some n => hex_step n c | None => None end.
Proof.
  induction s as [|x s IH]; intros a c; cbn [app parse_hex16_loop].
  - unfold hex_step. destruct (hex_value c); auto.
  - destruct (hex_value x); auto. cbv zeta. destruct (65535 <? 16 * a + n)%N; auto.
Qed.
Lemma parse_nil_head s : s <> [] -> parse_hex16 s = parse_hex16_loop 0 s.
Proof. destruct s; [congruence|reflexivity]. Qed.
Lemma hex_number_nonempty s n : hex_number s n -> s <> [].
Proof. intros H. destruct H; [discriminate|]. intros X. apply app_eq_nil in X as [_ X]. discriminate. Qed.
Lemma parse_hex16_exact s : forall n, parse_hex16 s = Some n <-> hex_number s n /\ (n < 65536)%N.
Proof.
  induction s as [|c s IH] using rev_ind; intros n.
  - split; [discriminate|]. intros [H _]. apply hex_number_nonempty in H. congruence.
  - rewrite parse_nil_head by (destruct s; discriminate). rewrite parse_snoc.
    destruct s as [|x s'].
    + cbn [parse_hex16_loop]. unfold hex_step. split.
      * destruct (hex_value c) as [v|] eqn:V; [|discriminate]. destruct (N.ltb_spec 65535 (16 * 0 + v)); [discriminate|]. intros H'. injection H' as <-.
        apply hex_value_char in V as (k & K & ->). split; [|lia]. exact (hex_one c k K).
      * intros [H L]. inversion H as [c' v K E1 E2|s n' c' v H' K E1 E2].
        -- subst. assert (hex_value c = Some (N.of_nat v)) as -> by (apply hex_value_char; eauto).
           destruct (N.ltb_spec 65535 (16 * 0 + N.of_nat v)); [lia|]. f_equal; try lia.
        -- apply hex_number_nonempty in H'. destruct s; [congruence|]. destruct s; discriminate.
    + rewrite <- (parse_nil_head (x :: s')) by discriminate. split.
      * destruct (parse_hex16 (x :: s')) as [m|] eqn:EM; [|discriminate]. destruct (proj1 (IH m) eq_refl) as [M _]. unfold hex_step.
        destruct (hex_value c) as [v|] eqn:V; [|discriminate]. destruct (N.ltb_spec 65535 (16 * m + v)) as [|LE]; [discriminate|]. intros H'. assert (n = 16 * m + v)%N as -> by congruence.
        apply hex_value_char in V as (k & K & ->). split; [|lia]. exact (hex_more _ m c k M K).
      * intros [H L]. inversion H as [c' v K E1 E2|s n' c' v H' K E1 E2].
        -- destruct s'; discriminate.
        -- change (x :: s' ++ [c]) with ((x :: s') ++ [c]) in E1. apply app_inj_tail in E1 as [-> ->]. assert (parse_hex16 (x :: s') = Some n') as -> by (apply IH; split; auto; lia).
           unfold hex_step. assert (hex_value c = Some (N.of_nat v)) as -> by (apply hex_value_char; eauto).
           destruct (N.ltb_spec 65535 (16 * n' + N.of_nat v)); [lia|]. reflexivity.
Qed.
Lemma pc_exact s :
  (forall n, hex_number s n -> (n < 65536)%N -> make_uint16_pc s = (n, false)) /\
  ((forall n, hex_number s n -> (65536 <= n)%N) -> make_uint16_pc s = (0, true)%N).
Proof.
  unfold make_uint16_pc. split.
  - intros n H L. assert (parse_hex16 s = Some n) as -> by (apply parse_hex16_exact; auto). reflexivity.
  - intros H. destruct (parse_hex16 s) as [n|] eqn:P; auto. apply parse_hex16_exact in P as [P L]. apply H in P. lia.
Qed.

(** ** MakeEPC *)
Lemma make_epc_encode E cs k fv cp ir ext ser iar at_ : to_upper cs = to_upper (pattern_type k) ->
  make_epc E false cs fv cp ir ext ser iar at_ =
  (uii_text (match encode k E (fields_of k fv cp ir ext ser iar at_) with Ok (u, _, _) => u | _ => [] end), str "3000").
Proof.
  intros H. unfold make_epc. rewrite H. change (hex_string [48; 0]%N) with (str "3000").
  destruct k; cbn [encode fields_of f_filter f_cp f_ref f_ser];
    match goal with |- context [seqb (to_upper ?x) _] => let y := eval vm_compute in (to_upper x) in change (to_upper x) with y end;
    cbn [seqb]; repeat match goal with |- context [seqb ?x ?y] => let b := eval vm_compute in (seqb x y) in change (seqb x y) with b end; cbv iota.
  - destruct (make_sgtin96 E false fv cp ir ser) as [[[? ?] ?]| |]; reflexivity.
  - destruct (make_sscc96 E false fv cp ext) as [[[? ?] ?]| |]; reflexivity.
  - destruct (make_grai96 E false fv cp at_ ser) as [[[? ?] ?]| |]; reflexivity.
  - destruct (make_giai96 E false fv cp iar) as [[[? ?] ?]| |]; reflexivity.
Qed.
Lemma make_epc_prefix E cs k fv cp ir ext ser iar at_ : to_upper cs = to_upper (pattern_type k) ->
  make_epc E true cs fv cp ir ext ser iar at_ =
  match encode_prefix k E (fields_of k fv cp ir ext ser iar at_) with Ok (_, f, e) => (f, e) | _ => ([], []) end.
Proof.
  intros H. unfold make_epc. rewrite H.
  destruct k; cbn [encode_prefix fields_of f_filter f_cp f_ref f_ser];
    match goal with |- context [seqb (to_upper ?x) _] => let y := eval vm_compute in (to_upper x) in change (to_upper x) with y end;
    repeat match goal with |- context [seqb ?x ?y] => let b := eval vm_compute in (seqb x y) in change (seqb x y) with b end; cbv iota.
  - destruct (make_sgtin96 E true fv cp ir ser) as [[[? ?] ?]| |]; reflexivity.
  - destruct (make_sscc96 E true fv cp ext) as [[[? ?] ?]| |]; reflexivity.
  - destruct (make_grai96 E true fv cp at_ ser) as [[[? ?] ?]| |]; reflexivity.
  - destruct (make_giai96 E true fv cp iar) as [[[? ?] ?]| |]; reflexivity.
Qed.

Lemma hex_pc_text s p0 p1 : s = hex_string [p0; p1] -> (p0 < 256)%N -> (p1 < 256)%N -> make_uint16_pc s = (256 * p0 + p1, false)%N.
Proof. intros ->. apply pc_text. Qed.
Lemma reads_ok id p0 p1 : wf_bytes id -> (p0 < 256)%N -> (p1 < 256)%N -> reads (uii_text id) (hex_string [p0; p1]) [p0; p1] id.
Proof.
  intros W L0 L1. exists p0, p1. split; auto. split; auto. split; auto. split; [apply pc_text; auto|].
  rewrite uii_text_bits by auto. apply byte_id_bits. auto.
Qed.
Lemma epc_text E cs k fv cp ir ext ser iar at_ : to_upper cs = to_upper (pattern_type k) ->
  let f := fields_of k fv cp ir ext ser iar at_ in urn_fields k f ->
  exists id, make_epc E false cs fv cp ir ext ser iar at_ = (uii_text id, hex_string [48; 0]%N) /\
    carries k f id /\ translate [48; 0]%N id = Ok (urn_of k f).
Proof.
  intros H f U. rewrite (make_epc_encode E cs k) by auto. fold f.
  destruct (round_trip k E f [48; 0]%N) as (id & EN & C & T); auto. { exists 48%N, 0%N. auto. }
  exists id. rewrite EN. auto.
Qed.
Lemma epc_refused E cs k fv cp ir ext ser iar at_ : to_upper cs = to_upper (pattern_type k) ->
  let f := fields_of k fv cp ir ext ser iar at_ in digit_fields k f -> cp_length_ok f -> ~ fits_bits k f ->
  (dec_value (f_ref f) < 2 ^ 63)%N -> (has_serial k = true -> dec_value (f_ser f) < 2 ^ 63)%N ->
  make_epc E false cs fv cp ir ext ser iar at_ = ([], hex_string [48; 0]%N).
Proof.
  intros H f D C V V1 V2. rewrite (make_epc_encode E cs k) by auto. fold f. rewrite (encode_err k E f); auto.
Qed.
Lemma in_firstn_any {A} n (l : list A) x : In x (firstn n l) -> In x l.
Proof. intros H. rewrite <- (firstn_skipn n l). apply in_or_app. auto. Qed.
Lemma given_firstn l : given l = firstn (length (given l)) l.
Proof. induction l as [|s l IH]; auto. cbn [given]. destruct s; auto. cbn [length firstn]. rewrite <- IH. reflexivity. Qed.
Lemma given_length l : length (given l) <= length l.
Proof. induction l as [|s l IH]; cbn [given length]; [lia|]. destruct s; cbn [length]; lia. Qed.
Lemma given_texts k f : given (firstn (field_count k) (field_texts f)) = firstn (p_count (given_pattern k f)) (field_texts f).
Proof.
  cbn [given_pattern p_count]. rewrite given_firstn at 1. rewrite firstn_firstn. f_equal.
  pose proof (given_length (firstn (field_count k) (field_texts f))). rewrite firstn_length in H. lia.
Qed.
Lemma epc_prefix_text E cs k fv cp ir ext ser iar at_ : to_upper cs = to_upper (pattern_type k) ->
  let f := fields_of k fv cp ir ext ser iar at_ in
  let p := given_pattern k f in
  pattern_ok p -> Forall clean (field_texts f) ->
  make_epc E true cs fv cp ir ext ser iar at_ = (bits_to_str (pat_bits p), pattern_text p) /\
  forall E', pattern_prefix E' (pattern_text p) = Some (bits_to_str (pat_bits p)).
Proof.
  intros H f p P C. rewrite (make_epc_prefix E cs k) by auto. fold f.
  assert (f_filter f <> []) as FF by (destruct P as (_ & ([X _] & _) & _); exact X).
  assert (forall E', pattern_prefix E' (pattern_text p) = Some (bits_to_str (pat_bits p))) as A.
  { intros E'. unfold pattern_text. rewrite urn_parts.
    - rewrite (make_prefix_pattern E' p P). reflexivity.
    - cbn [p p_scheme given_pattern]. destruct k; cbn; intuition discriminate.
    - cbn [p p_fields given_pattern]. change (p_count p) with (p_count (given_pattern k f)). rewrite <- given_texts. unfold field_texts. destruct (f_filter f); [congruence|]. destruct k; discriminate.
    - cbn [p p_fields given_pattern]. apply Forall_forall. intros x I. rewrite Forall_forall in C. apply C. apply (in_firstn_any _ _ _ I). }
  split; auto. destruct (prefix_agrees E E (fun _ => eq_refl) k f FF C) as (s & EP & PP). rewrite EP.
  rewrite given_texts in PP |- *.
  change (str "urn:epc:pat:" ++ pattern_type k ++ str ":" ++ dotted (firstn (p_count (given_pattern k f)) (field_texts f))) with (pattern_text p) in *.
  rewrite A in PP. injection PP as ->. reflexivity.
Qed.
Lemma epc_prefix_match (E : env) p id : pattern_ok p -> wf_bytes id -> length id = 12 ->
  exists b, match_filter (new_filter (bits_to_str (pat_bits p)) 0) id = Ok b /\ (b = true <-> names p id).
Proof.
  intros P W L. destruct (pat_match E p id P W L) as (s & b & M & X & Y). rewrite make_prefix_pattern in M by auto.
  injection M as <-. exists b. auto.
Qed.
