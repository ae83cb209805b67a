(** Specification side of the EPC properties: the bit layout of the 96-bit EPC
    schemes and their partition tables, as the GS1 Tag Data Standard gives them.
    Nothing here mentions the model of the translator or of the encoders. *)
From Verif Require Import GoBase.

(** The number in bits [off .. off+len-1] of an identifier, most significant
    bit first. *)
Definition field (id : list N) (off len : nat) : N :=
  N_of_bits (firstn len (skipn off (bits_of_bytes id))).

(** [s] is a decimal numeral of value [n]: only digits, at least one. *)
Definition is_decimal (s : gostring) : Prop := s <> [] /\ Forall (fun c => is_digit c = true) s.
(** [n] in exactly [w] decimal digits, with leading zeros. *)
Definition fixed_decimal (w : nat) (n : N) (s : gostring) : Prop :=
  length s = w /\ Forall (fun c => is_digit c = true) s /\ dec_value s = n.
(** [n] without leading zeros. *)
Definition plain_decimal (n : N) (s : gostring) : Prop :=
  is_decimal s /\ dec_value s = n /\ (s = str "0" \/ hd c0 s <> c0).

(** The partition value and the widths of the GS1 company prefix it stands for. *)
Definition partition (id : list N) : nat := N.to_nat (field id 11 3).
Definition cp_bits (p : nat) : nat := nth p [40; 37; 34; 30; 27; 24; 20] 0.
Definition cp_digits (p : nat) : nat := 12 - p.
Definition cp_value (id : list N) : N := field id 14 (cp_bits (partition id)).

Inductive scheme : Type := Sgtin | Sscc | Grai | Giai.
Definition header (k : scheme) : N :=
  match k with Sgtin => 48 | Sscc => 49 | Grai => 51 | Giai => 52 end%N.
Definition scheme_name (k : scheme) : gostring :=
  match k with Sgtin => str "sgtin" | Sscc => str "sscc" | Grai => str "grai" | Giai => str "giai" end.
(** Bits shared by company prefix and reference. *)
Definition pair_bits (k : scheme) : nat :=
  match k with Sgtin => 44 | Sscc => 58 | Grai => 44 | Giai => 82 end.
(** The reference (item reference, serial reference, asset type, individual
    asset reference) follows the company prefix. *)
Definition ref_bits (k : scheme) (p : nat) : nat := pair_bits k - cp_bits p.
Definition ref_value (k : scheme) (id : list N) : N :=
  field id (14 + cp_bits (partition id)) (ref_bits k (partition id)).
(** Decimal digits of the reference; a GIAI reference has no fixed width. *)
Definition ref_digits (k : scheme) (p : nat) : nat :=
  match k with
  | Sgtin => 13 - cp_digits p
  | Sscc => 17 - cp_digits p
  | Grai => 12 - cp_digits p
  | Giai => 0
  end.
(** SGTIN and GRAI end in a serial number of 38 bits. *)
Definition serial_value (id : list N) : N := field id 58 38.

Definition tag96 (k : scheme) (id : list N) : Prop :=
  wf_bytes id /\ length id = 12 /\ field id 0 8 = header k.
(** The partition is one of the table's rows. *)
Definition partition_ok (id : list N) : Prop := partition id <= 6.
(** The fields fit the digit counts of the row.  A GRAI with a twelve-digit
    company prefix has no asset type, and a GIAI reference no digit limit. *)
Definition fits_digits (k : scheme) (id : list N) : Prop :=
  (cp_value id < 10 ^ N.of_nat (cp_digits (partition id)))%N /\
  match k with
  | Giai => True
  | Grai => partition id = 0 \/ (ref_value k id < 10 ^ N.of_nat (ref_digits k (partition id)))%N
  | _ => (ref_value k id < 10 ^ N.of_nat (ref_digits k (partition id)))%N
  end.

Definition dotted (l : list gostring) : gostring := join (str ".") l.
(** The pure identity URN of a 96-bit tag.  A GRAI whose company prefix takes all
    twelve digits has no asset type; the project's own tests fix the form of its
    URN, which is company prefix and serial (the GS1 standard would keep an empty
    field between them). *)
Definition pure_identity (k : scheme) (id : list N) (urn : gostring) : Prop :=
  exists c r s,
    fixed_decimal (cp_digits (partition id)) (cp_value id) c /\
    match k with
    | Giai => plain_decimal (ref_value k id) r
    | Grai => partition id = 0 \/ fixed_decimal (ref_digits k (partition id)) (ref_value k id) r
    | _ => fixed_decimal (ref_digits k (partition id)) (ref_value k id) r
    end /\
    plain_decimal (serial_value id) s /\
    urn = str "urn:epc:id:" ++ scheme_name k ++ str ":" ++
      match k with
      | Sgtin => dotted [c; r; s]
      | Grai => if Nat.eqb (partition id) 0 then dotted [c; s] else dotted [c; r; s]
      | Sscc | Giai => dotted [c; r]
      end.

(** ** Field texts *)
(** The texts an encoder is given; [f_ser] is used by SGTIN and GRAI only. *)
Record epc_fields : Type := { f_filter : gostring; f_cp : gostring; f_ref : gostring; f_ser : gostring }.
Definition has_serial (k : scheme) : bool := match k with Sgtin | Grai => true | _ => false end.
(** Non-empty decimal texts. *)
Definition digit_fields (k : scheme) (f : epc_fields) : Prop :=
  is_decimal (f_filter f) /\ is_decimal (f_cp f) /\ is_decimal (f_ref f) /\
  (has_serial k = true -> is_decimal (f_ser f)).
(** The company prefix has one of the lengths of the partition table. *)
Definition cp_length_ok (f : epc_fields) : Prop := 6 <= length (f_cp f) <= 12.
Definition fields_partition (f : epc_fields) : nat := 12 - length (f_cp f).
(** Every value fits the bits that its field has. *)
Definition fits_bits (k : scheme) (f : epc_fields) : Prop :=
  (dec_value (f_filter f) < 2 ^ 3)%N /\
  (dec_value (f_cp f) < 2 ^ N.of_nat (cp_bits (fields_partition f)))%N /\
  (dec_value (f_ref f) < 2 ^ N.of_nat (ref_bits k (fields_partition f)))%N /\
  (has_serial k = true -> dec_value (f_ser f) < 2 ^ 38)%N.
(** The 96-bit tag that carries the fields: every bit of it is determined. *)
Definition carries (k : scheme) (f : epc_fields) (id : list N) : Prop :=
  tag96 k id /\
  field id 8 3 = dec_value (f_filter f) /\
  partition id = fields_partition f /\
  cp_value id = dec_value (f_cp f) /\
  ref_value k id = dec_value (f_ref f) /\
  match k with
  | Sgtin | Grai => serial_value id = dec_value (f_ser f)
  | Sscc => field id 72 24 = 0%N
  | Giai => True
  end.

(** Fields as they appear in a URN: the filter value is one of 0..7, company
    prefix and reference have the table's digit counts, serial number and GIAI
    reference have no leading zeros and fit their bits. *)
Definition no_leading_zero (s : gostring) : Prop := s = str "0" \/ hd c0 s <> c0.
Definition urn_fields (k : scheme) (f : epc_fields) : Prop :=
  digit_fields k f /\ cp_length_ok f /\ fits_bits k f /\
  match k with
  | Giai => no_leading_zero (f_ref f)
  | Grai => length (f_ref f) = ref_digits k (fields_partition f) \/ fields_partition f = 0
  | _ => length (f_ref f) = ref_digits k (fields_partition f)
  end /\
  (has_serial k = true -> no_leading_zero (f_ser f)).
(** The URN that names them; as above, a GRAI with a twelve-digit company prefix
    has no asset type. *)
Definition urn_of (k : scheme) (f : epc_fields) : gostring :=
  str "urn:epc:id:" ++ scheme_name k ++ str ":" ++
  match k with
  | Sgtin => dotted [f_cp f; f_ref f; f_ser f]
  | Grai => if Nat.eqb (fields_partition f) 0 then dotted [f_cp f; f_ser f]
            else dotted [f_cp f; f_ref f; f_ser f]
  | Sscc | Giai => dotted [f_cp f; f_ref f]
  end.

(** ** Patterns *)
(** An EPC pattern names the first [p_count] fields of a scheme: filter value,
    company prefix, reference, serial number. *)
Record epc_pattern : Type := { p_scheme : scheme; p_count : nat; p_fields : epc_fields }.
Definition field_count (k : scheme) : nat := if has_serial k then 4 else 3.
Definition field_texts (f : epc_fields) : list gostring := [f_filter f; f_cp f; f_ref f; f_ser f].
(** The text of a pattern, as a subscriber writes it. *)
Definition pattern_type (k : scheme) : gostring := scheme_name k ++ str "-96".
Definition pattern_text (p : epc_pattern) : gostring :=
  str "urn:epc:pat:" ++ pattern_type (p_scheme p) ++ str ":" ++
  dotted (firstn (p_count p) (field_texts (p_fields p))).
(** The named fields are decimal texts that fit their bits. *)
Definition pattern_ok (p : epc_pattern) : Prop :=
  let f := p_fields p in
  1 <= p_count p <= field_count (p_scheme p) /\
  (is_decimal (f_filter f) /\ dec_value (f_filter f) < 2 ^ 3)%N /\
  (2 <= p_count p -> is_decimal (f_cp f) /\ cp_length_ok f) /\
  (3 <= p_count p -> is_decimal (f_ref f) /\
     (dec_value (f_ref f) < 2 ^ N.of_nat (ref_bits (p_scheme p) (fields_partition f)))%N) /\
  (4 <= p_count p -> is_decimal (f_ser f) /\ (dec_value (f_ser f) < 2 ^ 38)%N).
(** The identifier is of the pattern's scheme and has the named fields. *)
Definition names (p : epc_pattern) (id : list N) : Prop :=
  let f := p_fields p in
  field id 0 8 = header (p_scheme p) /\
  field id 8 3 = dec_value (f_filter f) /\
  (2 <= p_count p -> partition id = fields_partition f /\ cp_value id = dec_value (f_cp f)) /\
  (3 <= p_count p -> ref_value (p_scheme p) id = dec_value (f_ref f)) /\
  (4 <= p_count p -> serial_value id = dec_value (f_ser f)).
(** Two patterns that name the same fields. *)
Definition same_pattern (p q : epc_pattern) : Prop :=
  let f := p_fields p in let g := p_fields q in
  p_scheme p = p_scheme q /\ p_count p = p_count q /\
  dec_value (f_filter f) = dec_value (f_filter g) /\
  (2 <= p_count p -> fields_partition f = fields_partition g /\ dec_value (f_cp f) = dec_value (f_cp g)) /\
  (3 <= p_count p -> dec_value (f_ref f) = dec_value (f_ref g)) /\
  (4 <= p_count p -> dec_value (f_ser f) = dec_value (f_ser g)).
(** The pattern names leading fields of the tag with fields [f] of scheme [k]. *)
Definition leads (p : epc_pattern) (k : scheme) (f : epc_fields) : Prop :=
  let g := p_fields p in
  p_scheme p = k /\
  dec_value (f_filter f) = dec_value (f_filter g) /\
  (2 <= p_count p -> fields_partition f = fields_partition g /\ dec_value (f_cp f) = dec_value (f_cp g)) /\
  (3 <= p_count p -> dec_value (f_ref f) = dec_value (f_ref g)) /\
  (4 <= p_count p -> dec_value (f_ser f) = dec_value (f_ser g)).

(** Subscriptions given by patterns, and the texts the subscribers write. *)
Definition epc_subs := list (gostring * list epc_pattern).
Definition sub_texts (s : epc_subs) : list (gostring * list gostring) :=
  map (fun e => (fst e, map pattern_text (snd e))) s.
Definition subscribed (s : epc_subs) (u : gostring) (p : epc_pattern) : Prop :=
  exists ps, In (u, ps) s /\ In p ps.

(** Bits of a binary numeral. *)
Definition bit_length (n : N) : nat := if (n =? 0)%N then 1 else S (N.to_nat (N.log2 n)).
