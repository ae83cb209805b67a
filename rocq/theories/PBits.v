(** Proofs: the prefixes that patterns stand for. *)
From Coq Require Import Lia ZifyBool ZifyNat ZifyN.
From Verif Require Import GoBase BinUtil MFilter MTdtEpc MTdtIso MTdtCore MSubs MList.
From Verif Require Import PBase Spec PNum PEpc PFilter PSubs PList PSubs2 PEpc3 SpecBits.

Lemma bits_app a b : is_bitstring a -> is_bitstring b -> is_bitstring (a ++ b).
Proof. intros. apply Forall_app. auto. Qed.
Lemma bits_repeat n : is_bitstring (repeat c0 n).
Proof. apply Forall_forall. intros x H. apply repeat_spec in H. left. exact H. Qed.
Lemma bits_nil : is_bitstring [].
Proof. constructor. Qed.
Lemma bits_bin n : is_bitstring (bin_string n).
Proof. apply is_bits_bitstring, bin_string_bits. Qed.
Lemma bits_fmt z : (0 <= z)%Z -> is_bitstring (fmt_b3 z).
Proof. intros H. unfold fmt_b3. destruct (Z.ltb_spec z 0); [lia|]. apply bits_app; [apply bits_repeat|apply bits_bin]. Qed.
Lemma bits_6bin s : is_bitstring (runes_to_6bin s).
Proof.
  induction s as [|c s IH]; [constructor|]. change (runes_to_6bin (c :: s)) with (rune_to_6bin c ++ runes_to_6bin s). apply bits_app; auto.
  unfold rune_to_6bin. apply is_bits_bitstring, is_bits_to_str.
Qed.
Lemma hd_upper f : hd_error (to_upper f) = Some "-"%char <-> hd_error f = Some "-"%char.
Proof.
  destruct f as [|c f]; cbn [to_upper map hd_error]; [tauto|].
  destruct c as [[] [] [] [] [] [] [] []]; vm_compute; intuition discriminate.
Qed.
Lemma upper_dot c : upper_char c = cdot <-> c = cdot.
Proof. destruct c as [[] [] [] [] [] [] [] []]; vm_compute; intuition discriminate. Qed.
Lemma split_dot_upper f : split_on cdot (to_upper f) = map to_upper (split_on cdot f).
Proof.
  induction f as [|x f IH]; [reflexivity|].
  change (to_upper (x :: f)) with (upper_char x :: to_upper f). cbn [split_on]. rewrite IH. pose proof (upper_dot x) as U.
  destruct (Ascii.eqb_spec (upper_char x) cdot), (Ascii.eqb_spec x cdot); try tauto; try reflexivity.
  destruct (split_on cdot f); reflexivity.
Qed.

Section Binary.
  Context (E : env) (B : binary_env E).
  Definition signless (f : gostring) : Prop := hd_error f <> Some "-"%char.
  Lemma bits_dec s : signless s -> is_bitstring (dec_to_bin E s).
  Proof. intros H. unfold dec_to_bin. destruct (is_int63 s); [apply bits_bin|apply B; exact H]. Qed.
  Lemma bits_pad w s : is_bitstring s -> is_bitstring (if Nat.ltb (length s) w then zero_padding (w - length s) ++ s else s).
  Proof. intros H. destruct (Nat.ltb (length s) w); auto. apply bits_app; auto. apply bits_repeat. Qed.
  Lemma parse_nonneg s : signless s -> (0 <= parse_int32 s)%Z.
  Proof.
    intros H. unfold parse_int32. destruct s as [|c s]; [cbn; lia|].
    destruct (Ascii.eqb_spec c "+").
    - destruct s as [|d s]; [lia|]. destruct (parse_uint32_loop 0 (d :: s)) as [n|[|]]; try lia. destruct (N.leb_spec (2 ^ 31) n); lia.
    - destruct (Ascii.eqb_spec c "-"); [subst; destruct H; reflexivity|].
      destruct (parse_uint32_loop 0 (c :: s)) as [n'|[|]]; try lia. destruct (N.leb_spec (2 ^ 31) n'); lia.
  Qed.
  Lemma bits_filter0 f : (0 <= parse_int32 f)%Z -> is_bitstring (get_filter E f).
  Proof. intros H. unfold get_filter. destruct f; [apply B|]. apply bits_fmt; auto. Qed.
  Lemma bits_filter f : signless f -> is_bitstring (get_filter E f).
  Proof. intros H. unfold get_filter. destruct f; [apply B|]. apply bits_fmt, parse_nonneg; auto. Qed.
  Lemma bits_cp s t : signless s -> is_bitstring (get_company_prefix E s t).
  Proof. intros H. unfold get_company_prefix. destruct s; [constructor|]. apply bits_pad, bits_dec; auto. Qed.
  Lemma bits_ref s r : signless s -> is_bitstring (get_ref E s r).
  Proof. intros H. unfold get_ref. destruct s; [apply B|]. apply bits_pad, bits_dec; auto. Qed.
  Lemma bits_serial s n : signless s -> is_bitstring (get_serial E s n).
  Proof. intros H. unfold get_serial. destruct s; [apply B|]. apply bits_pad, bits_dec; auto. Qed.
  Lemma bits_part t cp : is_bitstring (partition_bits t cp).
  Proof. apply bits_fmt. lia. Qed.
  Lemma bits_lit s : forallb (fun c => Ascii.eqb c "0" || Ascii.eqb c "1")%char s = true -> is_bitstring s.
  Proof.
    intros H. apply Forall_forall. intros c HI. rewrite forallb_forall in H. apply H in HI. apply orb_true_iff in HI.
    destruct HI as [X|X]; apply Ascii.eqb_eq in X; auto.
  Qed.
  Ltac invF := repeat match goal with H : Forall _ (_ :: _) |- _ => inversion H; clear H; subst end.
  Lemma bits_0 s : is_bitstring s -> is_bitstring ("0"%char :: s).
  Proof. constructor; auto. Qed.
  Lemma bits_1 s : is_bitstring s -> is_bitstring ("1"%char :: s).
  Proof. constructor; auto. Qed.
  Ltac bits := repeat first [apply bits_0|apply bits_1|apply bits_app|apply bits_filter|apply bits_cp|apply bits_ref|apply bits_serial|apply bits_part|apply bits_6bin
    |apply bits_lit; reflexivity|assumption].
  Lemma bits_make t fields s : Forall signless fields -> make_prefix_filter_string E t fields = Ok s -> is_bitstring s.
  Proof.
    intros F H. unfold make_prefix_filter_string in H.
    repeat match type of H with (if ?c then _ else _) = _ => destruct c end; try discriminate.
    1-4: unfold new_prefix_filter_giai96, new_prefix_filter_grai96, new_prefix_filter_sgtin96, new_prefix_filter_sscc96 in H;
      repeat match type of H with match ?l with _ => _ end = _ => destruct l; try discriminate end; injection H as <-; invF; bits.
    - unfold new_prefix_filter_iso17363 in H.
      destruct fields as [|x [|y [|z [|w rest]]]]; try discriminate; try (injection H as <-; bits).
      destruct (Nat.ltb 6 (length w)); [discriminate|].
      match type of H with (let! _ := ?x in _) = _ => destruct x; try discriminate end.
      cbn [bind] in H. destruct rest; [|discriminate]. injection H as <-. bits.
    - unfold new_prefix_filter_iso17365 in H.
      repeat match type of H with match ?l with _ => _ end = _ => destruct l; try discriminate end; try (injection H as <-; bits).
  Qed.
  Lemma bits_make0 t f fields s : (0 <= parse_int32 f)%Z -> Forall signless fields -> make_prefix_filter_string E t (f :: fields) = Ok s -> is_bitstring s.
  Proof.
    intros NN F H. unfold make_prefix_filter_string in H.
    repeat match type of H with (if ?c then _ else _) = _ => destruct c end; try discriminate.
    1-4: unfold new_prefix_filter_giai96, new_prefix_filter_grai96, new_prefix_filter_sgtin96, new_prefix_filter_sscc96 in H;
      repeat match type of H with match ?l with _ => _ end = _ => destruct l; try discriminate end; injection H as <-; invF;
      repeat first [apply bits_filter0; assumption|apply bits_0|apply bits_1|apply bits_app|apply bits_cp|apply bits_ref|apply bits_serial|apply bits_part|apply bits_lit; reflexivity|assumption].
    - unfold new_prefix_filter_iso17363 in H.
      destruct fields as [|y [|z [|w rest]]]; try discriminate; try (injection H as <-; bits).
      destruct (Nat.ltb 6 (length w)); [discriminate|].
      match type of H with (let! _ := ?x in _) = _ => destruct x; try discriminate end.
      cbn [bind] in H. destruct rest; [|discriminate]. injection H as <-. bits.
    - unfold new_prefix_filter_iso17365 in H.
      repeat match type of H with match ?l with _ => _ end = _ => destruct l; try discriminate end; try (injection H as <-; bits).
  Qed.
  Lemma bits_make1 t f fields s : ~ In t [str "giai-96"; str "grai-96"; str "sgtin-96"; str "sscc-96"] -> make_prefix_filter_string E t (f :: fields) = Ok s -> is_bitstring s.
  Proof.
    intros F H. unfold make_prefix_filter_string in H. cbn [In] in F.
    destruct (seqb_spec t (str "giai-96")) as [->|]; [tauto|]. destruct (seqb_spec t (str "grai-96")) as [->|]; [tauto|].
    destruct (seqb_spec t (str "sgtin-96")) as [->|]; [tauto|]. destruct (seqb_spec t (str "sscc-96")) as [->|]; [tauto|].
    repeat match type of H with (if ?c then _ else _) = _ => destruct c end; try discriminate.
    - unfold new_prefix_filter_iso17363 in H.
      destruct fields as [|y [|z [|w rest]]]; try discriminate; try (injection H as <-; bits).
      destruct (Nat.ltb 6 (length w)); [discriminate|].
      match type of H with (let! _ := ?x in _) = _ => destruct x; try discriminate end.
      cbn [bind] in H. destruct rest; [|discriminate]. injection H as <-. bits.
    - unfold new_prefix_filter_iso17365 in H.
      repeat match type of H with match ?l with _ => _ end = _ => destruct l; try discriminate end; try (injection H as <-; bits).
  Qed.
  Lemma bits_pattern pat s : unsigned pat -> pattern_prefix E pat = Some s -> is_bitstring s.
  Proof.
    unfold unsigned, fields_of, pattern_prefix. change urn_pat with (str "urn:epc:pat:"). change ccolon with ":"%char.
    destruct (split_on ":" (trim_prefix pat (str "urn:epc:pat:"))) as [|t [|fs [|]]]; try discriminate.
    intros F H. injection H as <-. rewrite split_dot_upper.
    destruct (make_prefix_filter_string E t (map to_upper (split_on cdot fs))) as [s| |] eqn:M; try constructor.
    apply (bits_make t (map to_upper (split_on cdot fs))); auto. apply Forall_map. eapply Forall_impl; [|exact F].
    intros f Hf X. apply Hf. apply hd_upper. exact X.
  Qed.
  Lemma bits_subs sub : unsigned_subs sub -> Forall is_bitstring (mkeys (to_byte_subs E sub)).
  Proof.
    intros U. rewrite <- entries_keys. apply Forall_forall. intros k HK. apply in_map_iff in HK. destruct HK as ([k' u] & <- & HI).
    apply to_byte_sound in HI. destruct HI as (pats & pat & I1 & I2 & P). eapply bits_pattern; [|exact P]. eapply U; eauto.
  Qed.
End Binary.

(** A filter with any other character lets everything pass. *)
Lemma chars_bad P c : In c P -> c <> c0 -> c <> c1 -> c <> cx -> chars_to_bits (map fch P) = None.
Proof.
  intros HI N0 N1 NX. induction P as [|x P IH]; [destruct HI|]. cbn [map chars_to_bits]. destruct HI as [->|HI].
  - assert (bit_of_char (fch c) = None) as ->; [|reflexivity]. unfold bit_of_char, fch.
    destruct (Ascii.eqb_spec c cx); [congruence|]. destruct (Ascii.eqb_spec c c0); [congruence|]. destruct (Ascii.eqb_spec c c1); [congruence|]. reflexivity.
  - rewrite IH by auto. destruct (bit_of_char (fch x)); reflexivity.
Qed.
Lemma bad_filter s off id c : In c s -> c <> c0 -> c <> c1 -> c <> cx -> match_filter (new_filter s off) id = Ok true.
Proof.
  intros HI N0 N1 NX. unfold new_filter. rewrite make_filter_padded. unfold binstr_to_bytes.
  rewrite (chars_bad (padded s off) c); auto. unfold padded. apply in_or_app. right. apply in_or_app. left. exact HI.
Qed.

Lemma negative_field ds : ds <> [] -> all_digits ds = true -> (0 < dec_value ds)%N -> (parse_int32 ("-"%char :: ds) < 0)%Z.
Proof.
  intros NE D V. unfold parse_int32. cbn [Ascii.eqb Bool.eqb]. apply all_digits_lt in D. rewrite parse_loop by (auto; lia).
  rewrite N.mul_0_l, N.add_0_l. rewrite <- dec_value_numval. destruct ds; [congruence|].
  destruct (N.ltb_spec (dec_value (a :: ds)) (2 ^ 32)); [|lia]. destruct (N.ltb_spec (2 ^ 31) (dec_value (a :: ds))); lia.
Qed.
Lemma negative_filter E f : (parse_int32 f < 0)%Z -> In "-"%char (get_filter E f).
Proof.
  intros H. unfold get_filter. destruct f as [|c f]; [cbn in H; lia|]. unfold fmt_b3. destruct (Z.ltb_spec (parse_int32 (c :: f)) 0); [|lia].
  left. reflexivity.
Qed.
Lemma negative_prefix E t f more : In t [str "giai-96"; str "grai-96"; str "sgtin-96"; str "sscc-96"] -> (parse_int32 f < 0)%Z ->
  length more <= 2 \/ In t [str "grai-96"; str "sgtin-96"] /\ length more <= 3 ->
  exists s, make_prefix_filter_string E t (f :: more) = Ok s /\ In "-"%char s.
Proof.
  intros HT HF HL. pose proof (negative_filter E f HF) as HI.
  assert (forall h r, In "-"%char (h ++ get_filter E f ++ r)) as A1 by (intros; apply in_or_app; right; apply in_or_app; left; exact HI).
  assert (forall h, In "-"%char (h ++ get_filter E f)) as A2 by (intros; apply in_or_app; right; exact HI).
  destruct HT as [<-|[<-|[<-|[<-|[]]]]]; destruct more as [|a [|b [|c [|]]]]; try (cbn [length] in HL; lia); try (exfalso; destruct HL as [HL|[[HL|[HL|[]]] _]]; [cbn in HL; lia|discriminate|discriminate]).
  all: unfold make_prefix_filter_string.
  all: repeat match goal with |- context [seqb ?a ?b] => let v := eval vm_compute in (seqb a b) in change (seqb a b) with v; cbv iota end.
  all: eexists; split; [reflexivity|]; auto.
Qed.

Definition val (n : N) (s : gostring) : N := fold_left (fun acc c => 10 * acc + (N_of_ascii c - 48))%N s n.
Lemma loop_range s : forall n, (n < 2 ^ 32)%N -> parse_uint32_loop n s = inr true -> exists ds rest, s = ds ++ rest /\ all_digits ds = true /\ (2 ^ 32 <= val n ds)%N.
Proof.
  induction s as [|c s IH]; intros n Hn; cbn [parse_uint32_loop]; [discriminate|]. destruct (is_digit c) eqn:D; [|discriminate].
  set (m := (10 * n + (N_of_ascii c - 48))%N). destruct (N.ltb_spec (2 ^ 32 - 1) m) as [H|H].
  - intros _. exists [c], s. split; auto. split; [cbn; rewrite D; auto|]. cbn [val fold_left]. fold m. lia.
  - intros P. destruct (IH m ltac:(lia) P) as (ds & rest & -> & A & V). exists (c :: ds), rest. split; auto. split; [|exact V].
    unfold all_digits in *. cbn [forallb]. rewrite D. auto.
Qed.
Lemma val_mono s : forall n, (n <= val n s)%N.
Proof. induction s as [|c s IH]; intros n; [cbn; lia|]. specialize (IH (10 * n + (N_of_ascii c - 48))%N). cbn [val fold_left]. unfold val in IH. lia. Qed.
Lemma loop_big ds : all_digits ds = true -> forall rest n, (n < 2 ^ 32)%N -> (2 ^ 32 <= val n ds)%N -> parse_uint32_loop n (ds ++ rest) = inr true.
Proof.
  induction ds as [|c ds IH]; intros A rest n Hn V; [cbn in V; lia|]. unfold all_digits in A. cbn [forallb] in A. apply andb_true_iff in A. destruct A as [D A].
  cbn [parse_uint32_loop app]. rewrite D. set (m := (10 * n + (N_of_ascii c - 48))%N) in *. destruct (N.ltb_spec (2 ^ 32 - 1) m) as [H|H]; auto.
  apply IH; auto. lia.
Qed.
Lemma loop_value s : forall n v, parse_uint32_loop n s = inl v -> all_digits s = true /\ v = val n s.
Proof.
  induction s as [|c s IH]; intros n v; cbn [parse_uint32_loop].
  - intros H. injection H as <-. auto.
  - destruct (is_digit c) eqn:D; [|discriminate]. destruct (N.ltb (2 ^ 32 - 1) (10 * n + (N_of_ascii c - 48))); [discriminate|].
    intros H. apply IH in H. destruct H as [A ->]. split; auto. unfold all_digits in *. cbn [forallb]. rewrite D. auto.
Qed.
Lemma negative_parse f : (parse_int32 f < 0)%Z <-> negative f.
Proof.
  split.
  - intros H. assert (exists t, f = "-"%char :: t) as (t & ->).
    { destruct f as [|c f]; [cbn in H; lia|]. destruct (Ascii.eqb_spec c "-") as [->|N]; [eauto|]. exfalso.
      pose proof (parse_nonneg (c :: f)) as P. apply Z.lt_nge in H. apply H, P. unfold signless. cbn. congruence. }
    unfold parse_int32 in H. cbn [Ascii.eqb Bool.eqb] in H. destruct t as [|d t]; [cbn in H; lia|].
    destruct (parse_uint32_loop 0 (d :: t)) as [n|[|]] eqn:L; [| |lia].
    + apply loop_value in L. destruct L as [A V]. exists (d :: t), []. rewrite app_nil_r. split; auto. split; auto. split; auto.
      change (dec_value (d :: t)) with (val 0 (d :: t)). rewrite <- V. destruct (2 ^ 31 <? n)%N eqn:X; lia.
    + apply loop_range in L; [|lia]. destruct L as (ds & rest & X & A & V). exists ds, rest. rewrite <- X. split; auto. split; auto.
      change (dec_value ds) with (val 0 ds). split; [lia|right; exact V].
  - intros (ds & rest & -> & A & V & [->|R]).
    + rewrite app_nil_r. apply negative_field; auto. intros ->. cbn in V. lia.
    + assert (ds ++ rest <> []) as NE by (destruct ds; [cbn in V; lia|discriminate]).
      unfold parse_int32. cbn [Ascii.eqb Bool.eqb]. rewrite (loop_big ds A rest 0%N) by (auto; lia).
      destruct (ds ++ rest); [congruence|]. lia.
Qed.
Lemma upper_digits ds : all_digits ds = true -> to_upper ds = ds.
Proof.
  intros D. unfold to_upper. rewrite <- (map_id ds) at 2. apply map_ext_in. intros c Hc. unfold all_digits in D. rewrite forallb_forall in D. apply D in Hc. clear -Hc.
  destruct c as [[] [] [] [] [] [] [] []]; vm_compute in Hc; try discriminate; reflexivity.
Qed.
Lemma upper_digit c : is_digit (upper_char c) = true -> upper_char c = c.
Proof. destruct c as [[] [] [] [] [] [] [] []]; vm_compute; auto; discriminate. Qed.
Lemma negative_upper f : negative (to_upper f) <-> negative f.
Proof.
  split.
  - intros (ds & rest & X & A & V & R). destruct f as [|c f]; [discriminate|]. cbn [to_upper map] in X. injection X as X1 X2.
    assert (c = "-"%char) as -> by (clear -X1; destruct c as [[] [] [] [] [] [] [] []]; vm_compute in X1; try discriminate; reflexivity).
    assert (exists r', f = ds ++ r' /\ rest = to_upper r') as (r' & -> & ->).
    { clear -X2 A. revert f X2. induction ds as [|d ds IH]; intros f X2; [exists f; auto|]. unfold all_digits in A. cbn [forallb] in A. apply andb_true_iff in A. destruct A as [D A].
      destruct f as [|c f]; [discriminate|]. cbn [to_upper map app] in X2. injection X2 as X1 X2. destruct (IH A f X2) as (r' & -> & ->). exists r'. split; auto. cbn. f_equal. subst d. symmetry. apply upper_digit. exact D. }
    exists ds, r'. split; auto. split; auto. split; auto. destruct R as [R|R]; auto. left. destruct r'; [auto|discriminate].
  - intros (ds & rest & -> & A & V & R). exists ds, (to_upper rest). split.
    + change (to_upper ("-"%char :: ds ++ rest)) with ("-"%char :: to_upper (ds ++ rest)). f_equal. unfold to_upper. rewrite map_app. f_equal. apply upper_digits. auto.
    + split; auto. split; auto. destruct R as [->|R]; auto.
Qed.
Lemma make_too_many E t f more s : In t [str "giai-96"; str "grai-96"; str "sgtin-96"; str "sscc-96"] -> make_prefix_filter_string E t (f :: more) = Ok s ->
  In t [str "giai-96"; str "sscc-96"] /\ length more <= 2 \/ In t [str "grai-96"; str "sgtin-96"] /\ length more <= 3.
Proof.
  intros HT M. destruct HT as [<-|[<-|[<-|[<-|[]]]]]; unfold make_prefix_filter_string in M;
  repeat match type of M with context [seqb ?a ?b] => let v := eval vm_compute in (seqb a b) in change (seqb a b) with v in M; cbv iota in M end.
  all: destruct more as [|a [|b [|c [|]]]]; try discriminate M; cbn [length]; cbn [In].
  all: first [left; split; [tauto|lia]|right; split; [tauto|lia]].
Qed.
