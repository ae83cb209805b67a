(** Specification side of the tools: tags as text, and the sets of tags and
    filters that the data set generator draws. *)
From Verif Require Import GoBase BinUtil MFilter MTdtCore MSubs MTools SpecEpc SpecIso.

(** ** Text *)
(** An identifier as text: eight binary digits per byte, the most significant
    first. *)
Definition bit_text (id : list N) (s : gostring) : Prop :=
  s = map (fun b : bool => if b then "1"%char else "0"%char) (bits_of_bytes id).

(** Hexadecimal numerals, in either case. *)
Definition hex_char (c : ascii) (v : nat) : Prop :=
  nth_error (str "0123456789abcdef") v = Some c \/ nth_error (str "0123456789ABCDEF") v = Some c.
Inductive hex_number : gostring -> N -> Prop :=
| hex_one c v : hex_char c v -> hex_number [c] (N.of_nat v)
| hex_more s n c v : hex_number s n -> hex_char c v -> hex_number (s ++ [c]) (16 * n + N.of_nat v).

(** The arguments of MakeEPC that scheme [k] uses. *)
Definition fields_of (k : scheme) (fv cp ir ext ser iar at_ : gostring) : epc_fields :=
  {| f_filter := fv; f_cp := cp;
     f_ref := match k with Sgtin => ir | Sscc => ext | Grai => at_ | Giai => iar end;
     f_ser := ser |}.

(** The two texts of a tag, read by cmd/gobtags, give these PC bits and this
    identifier. *)
Definition reads (bits pct : gostring) (pc id : list N) : Prop :=
  exists p0 p1, pc = [p0; p1] /\ (p0 < 256)%N /\ (p1 < 256)%N /\
    make_uint16_pc pct = (256 * p0 + p1, false)%N /\ make_byte_id bits = (id, false).
(** A line of a tag file: the PC bits, a comma, the identifier. *)
Definition line_reads (line : gostring) (pc id : list N) : Prop :=
  exists bits pct, line = pct ++ str "," ++ bits /\ ~ In ","%char pct /\ ~ In ","%char bits /\ reads bits pct pc id.

(** The pattern that the fields of a prefix call make up. *)
Definition given_pattern (k : scheme) (f : epc_fields) : epc_pattern :=
  {| p_scheme := k; p_count := length (given (firstn (field_count k) (field_texts f))); p_fields := f |}.

(** ** The data set generator *)
Definition digits (n : nat) (s : gostring) : Prop := length s = n /\ Forall (fun c => is_digit c = true) s.
(** What main draws (test/gendataset.go:268-319): the scheme and the lengths of
    the fields. *)
Inductive main_param (p : uii_param) : Prop :=
| mp_sgtin n : u_scheme p = str "sgtin-96" -> 6 <= n <= 12 -> digits n (u_cp p) -> digits (13 - n) (u_ir p) -> main_param p
| mp_sscc n : u_scheme p = str "sscc-96" -> 6 <= n <= 12 -> digits n (u_cp p) -> u_ext_digits p = 17 - n -> main_param p
| mp_giai n : u_scheme p = str "giai-96" -> 6 <= n <= 12 -> digits n (u_cp p) -> u_iar_max p = 25 - n -> main_param p
| mp_grai n : u_scheme p = str "grai-96" -> 6 <= n <= 11 -> digits n (u_cp p) -> digits (12 - n) (u_at p) -> main_param p
| mp_17363 : u_scheme p = str "17363" -> length (u_oc p) = 3 -> Forall (fun c => is_upper c = true) (u_oc p) -> main_param p
| mp_17365 : u_scheme p = str "17365" -> u_di p = str "25S" -> u_iac p = str "U" -> 3 <= length (u_ci p) <= 7 -> Forall code_char (u_ci p) -> main_param p.
(** What is drawn in each round: digits that do not start with a zero, or a serial
    number of letters and digits. *)
Definition drawn (p : uii_param) (d : gostring) : Prop :=
  (u_scheme p = str "sscc-96" -> digits (u_ext_digits p) d /\ hd c0 d <> c0) /\
  (u_scheme p = str "giai-96" -> (exists n, 1 <= n <= u_iar_max p /\ digits n d) /\ hd c0 d <> c0) /\
  (u_scheme p = str "17365" -> 10 <= length d <= 30 /\ Forall code_char d).
(** The reference fits the bits that are left for it. *)
Definition reference_fits (p : uii_param) (d : gostring) : Prop :=
  u_scheme p = str "giai-96" -> (dec_value d < 2 ^ N.of_nat (ref_bits Giai (12 - length (u_cp p))))%N.
(** The identity of the tag of round [i]. *)
Definition expected_urn (p : uii_param) (i : nat) (d : gostring) : gostring :=
  let is s := seqb (u_scheme p) (str s) in
  if is "sgtin-96"%string then str "urn:epc:id:sgtin:" ++ dotted [u_cp p; u_ir p; itoa i]
  else if is "sscc-96"%string then str "urn:epc:id:sscc:" ++ dotted [u_cp p; d]
  else if is "giai-96"%string then str "urn:epc:id:giai:" ++ dotted [u_cp p; d]
  else if is "grai-96"%string then str "urn:epc:id:grai:" ++ dotted [u_cp p; u_at p; itoa i]
  else if is "17363"%string then
    let code := u_oc p ++ str "U" ++ repeat "0"%char (6 - length (itoa i)) ++ itoa i in
    str "urn:epc:id:iso17363:7B" ++ code ++ [digit_char (check_digit code)]
  else str "urn:epc:id:iso17365:" ++ u_di p ++ u_iac p ++ u_ci p ++ d.
(** The patterns of the filters that come with it. *)
Definition filter_patterns (p : uii_param) : list gostring :=
  let is s := seqb (u_scheme p) (str s) in
  if u_no_filter p then []
  else if is "sgtin-96"%string then [str "urn:epc:pat:sgtin-96:" ++ dotted [str "3"; u_cp p]; str "urn:epc:pat:sgtin-96:" ++ dotted [str "3"; u_cp p; u_ir p]]
  else if is "sscc-96"%string then [str "urn:epc:pat:sscc-96:" ++ dotted [str "3"; u_cp p]]
  else if is "giai-96"%string then [str "urn:epc:pat:giai-96:" ++ dotted [str "3"; u_cp p]]
  else if is "grai-96"%string then [str "urn:epc:pat:grai-96:" ++ dotted [str "3"; u_cp p]; str "urn:epc:pat:grai-96:" ++ dotted [str "3"; u_cp p; u_at p]]
  else if is "17363"%string then [str "urn:epc:pat:iso17363:" ++ dotted [str "7B"; u_oc p]]
  else [str "urn:epc:pat:iso17365:" ++ dotted [u_di p; u_iac p]; str "urn:epc:pat:iso17365:" ++ dotted [u_di p; u_iac p; u_ci p]].

(** A line of the filter file: a pattern, a comma and the filter the pattern stands
    for; the filter matches the tag. *)
Definition filter_line_ok (id : list N) (pat l : gostring) : Prop :=
  exists pre, l = pat ++ str "," ++ pre /\ (forall E', pattern_prefix E' pat = Some pre) /\ match_filter (new_filter pre 0) id = Ok true.

(** The tag file of a parameter: a line for each round that reads back to a tag with
    the expected identity, and the filters of the parameter, all among [filters],
    match it. *)
Definition set_ok (p : uii_param) (dr : nat -> gostring) (filters : list gostring) (ls : list gostring) : Prop :=
  length ls = 100 /\
  exists fl, incl fl filters /\
    forall i l, nth_error ls i = Some l ->
      exists pc id, line_reads l pc id /\ translate pc id = Ok (expected_urn p i (dr i)) /\ Forall2 (filter_line_ok id) (filter_patterns p) fl.
(** Parameters and draws that main makes, from the [k]-th on. *)
Definition good_params (draw : nat -> nat -> gostring) (k : nat) (ps : list uii_param) : Prop :=
  forall j p, nth_error ps j = Some p -> main_param p /\ forall i, i < num_serial -> drawn p (draw (k + j) i) /\ reference_fits p (draw (k + j) i).
(** Two parameters, the later one a GRAI, share a file. *)
Definition clash (used : list (list gostring)) (ps : list uii_param) : Prop :=
  exists j q, nth_error ps j = Some q /\ u_scheme q = str "grai-96" /\
    (In (file_of q) used \/ exists i p, i < j /\ nth_error ps i = Some p /\ file_of p = file_of q).
