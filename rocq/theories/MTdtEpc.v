(** Model of tdt/epc.go: partition tables and prefix filters of the EPC schemes. *)
From Verif Require Import GoBase BinUtil.

(** tdt/epc.go:17-35: one row of a partition table.  Every table has one pair
    of (bits, digits) columns besides PValue and CPBits: IR, E, AT or IAR. *)
Record prow : Type := { p_value : nat; p_cp_bits : nat; p_bits : nat; p_digits : nat }.
Definition ptable := list (nat * prow).

Definition row (v c b d : nat) : prow := {| p_value := v; p_cp_bits := c; p_bits := b; p_digits := d |}.

(** tdt/epc.go:38-46 [GIAI96PartitionTable] (p_bits = IARBits, p_digits = IARDigits) *)
Definition giai96_table : ptable :=
  [(12, row 0 40 42 13); (11, row 1 37 45 14); (10, row 2 34 48 15); (9, row 3 30 52 16);
   (8, row 4 27 55 17); (7, row 5 24 58 18); (6, row 6 20 62 19)].
(** tdt/epc.go:49-57 [GRAI96PartitionTable] (ATBits, ATDigits) *)
Definition grai96_table : ptable :=
  [(12, row 0 40 4 0); (11, row 1 37 7 1); (10, row 2 34 10 2); (9, row 3 30 14 3);
   (8, row 4 27 17 4); (7, row 5 24 20 5); (6, row 6 20 24 6)].
(** tdt/epc.go:60-68 [SGTIN96PartitionTable] (IRBits, IRDigits) *)
Definition sgtin96_table : ptable :=
  [(12, row 0 40 4 1); (11, row 1 37 7 2); (10, row 2 34 10 3); (9, row 3 30 14 4);
   (8, row 4 27 17 5); (7, row 5 24 20 6); (6, row 6 20 24 7)].
(** tdt/epc.go:71-79 [SSCC96PartitionTable] (EBits, EDigits) *)
Definition sscc96_table : ptable :=
  [(12, row 0 40 18 5); (11, row 1 37 21 6); (10, row 2 34 24 7); (9, row 3 30 28 8);
   (8, row 4 27 31 9); (7, row 5 24 34 10); (6, row 6 20 38 11)].

(** Map read [pt[k]]: a missing key gives a nil map, every column of which reads
    as zero. *)
Fixpoint pt_row (pt : ptable) (k : nat) : prow :=
  match pt with
  | [] => row 0 0 0 0
  | (k', r) :: pt' => if Nat.eqb k k' then r else pt_row pt' k
  end.

(** The common body of tdt/epc.go:82-93 [getAssetType], :108-119 [getExtension],
    :133-144 [getIndivisualAssetReference], :147-159 [getItemReference]: binary
    numeral padded to the row's bit width; random bits for an empty field. *)
Definition get_ref (E : env) (s : gostring) (r : prow) : gostring :=
  match s with
  | [] => e_rand E (p_bits r)
  | _ =>
      let b := dec_to_bin E s in
      if Nat.ltb (List.length b) (p_bits r)
      then zero_padding (p_bits r - List.length b) ++ b else b
  end.

(** tdt/epc.go:96-105 [getCompanyPrefix] *)
Definition get_company_prefix (E : env) (cp : gostring) (pt : ptable) : gostring :=
  match cp with
  | [] => []
  | _ =>
      let b := dec_to_bin E cp in
      let w := p_cp_bits (pt_row pt (List.length cp)) in
      if Nat.ltb (List.length b) w then zero_padding (w - List.length b) ++ b else b
  end.

(** strconv.ParseUint(s, 10, 32) as called by ParseInt: [inl] a value, [inr true]
    a range error, [inr false] a syntax error. *)
Fixpoint parse_uint32_loop (n : N) (s : gostring) : N + bool :=
  match s with
  | [] => inl n
  | c :: s' =>
      if is_digit c then
        let n' := (10 * n + (N_of_ascii c - 48))%N in
        if (2 ^ 32 - 1 <? n')%N then inr true else parse_uint32_loop n' s'
      else inr false
  end.
(** strconv.ParseInt(s, 10, 32) with the error discarded (tdt/epc.go:124). *)
Definition parse_int32 (s : gostring) : Z :=
  let '(neg, t) := match s with
                   | c :: s' => if Ascii.eqb c "+"%char then (false, s')
                                else if Ascii.eqb c "-"%char then (true, s') else (false, s)
                   | [] => (false, s)
                   end in
  match t with
  | [] => 0%Z
  | _ =>
      match parse_uint32_loop 0 t with
      | inr false => 0%Z
      | inr true => if neg then (- 2 ^ 31)%Z else (2 ^ 31 - 1)%Z
      | inl n =>
          if neg then (if (2 ^ 31 <? n)%N then (- 2 ^ 31)%Z else (- Z.of_N n)%Z)
          else (if (2 ^ 31 <=? n)%N then (2 ^ 31 - 1)%Z else Z.of_N n)
      end
  end.
(** fmt.Sprintf("%.3b", n) *)
Definition fmt_b3 (n : Z) : gostring :=
  if (n <? 0)%Z then "-"%char :: pad_left c0 3 (bin_string (Z.abs_N n))
  else pad_left c0 3 (bin_string (Z.to_N n)).

(** tdt/epc.go:122-130 [getFilter] *)
Definition get_filter (E : env) (fv : gostring) : gostring :=
  match fv with
  | [] => e_rand E 3
  | _ => fmt_b3 (parse_int32 fv)
  end.

(** tdt/epc.go:162-173 [getSerial] *)
Definition get_serial (E : env) (s : gostring) (n : nat) : gostring :=
  match s with
  | [] => e_rand E n
  | _ =>
      let b := dec_to_bin E s in
      if Nat.ltb (List.length b) n then zero_padding (n - List.length b) ++ b else b
  end.

(** [[]rune(fmt.Sprintf("%.3b", table[len(cp)][PValue]))] (tdt/epc.go:190 etc.) *)
Definition partition_bits (pt : ptable) (cp : gostring) : gostring :=
  fmt_b3 (Z.of_nat (p_value (pt_row pt (List.length cp)))).

(** tdt/epc.go:176-202 [NewPrefixFilterGIAI96] *)
Definition new_prefix_filter_giai96 (E : env) (fields : list gostring) : result gostring :=
  let h := str "00110100" in
  match fields with
  | [] => Err
  | [f] => Ok (h ++ get_filter E f)
  | [f; cp] => Ok (h ++ get_filter E f ++ partition_bits giai96_table cp
                     ++ get_company_prefix E cp giai96_table)
  | [f; cp; iar] => Ok (h ++ get_filter E f ++ partition_bits giai96_table cp
                          ++ get_company_prefix E cp giai96_table
                          ++ get_ref E iar (pt_row giai96_table (List.length cp)))
  | _ => Err
  end.

(** tdt/epc.go:205-237 [NewPrefixFilterGRAI96] *)
Definition new_prefix_filter_grai96 (E : env) (fields : list gostring) : result gostring :=
  let h := str "00110011" in
  match fields with
  | [] => Err
  | [f] => Ok (h ++ get_filter E f)
  | [f; cp] => Ok (h ++ get_filter E f ++ partition_bits grai96_table cp
                     ++ get_company_prefix E cp grai96_table)
  | [f; cp; at_] => Ok (h ++ get_filter E f ++ partition_bits grai96_table cp
                          ++ get_company_prefix E cp grai96_table
                          ++ get_ref E at_ (pt_row grai96_table (List.length cp)))
  | [f; cp; at_; ser] => Ok (h ++ get_filter E f ++ partition_bits grai96_table cp
                          ++ get_company_prefix E cp grai96_table
                          ++ get_ref E at_ (pt_row grai96_table (List.length cp))
                          ++ get_serial E ser 38)
  | _ => Err
  end.

(** tdt/epc.go:240-272 [NewPrefixFilterSGTIN96] *)
Definition new_prefix_filter_sgtin96 (E : env) (fields : list gostring) : result gostring :=
  let h := str "00110000" in
  match fields with
  | [] => Err
  | [f] => Ok (h ++ get_filter E f)
  | [f; cp] => Ok (h ++ get_filter E f ++ partition_bits sgtin96_table cp
                     ++ get_company_prefix E cp sgtin96_table)
  | [f; cp; ir] => Ok (h ++ get_filter E f ++ partition_bits sgtin96_table cp
                          ++ get_company_prefix E cp sgtin96_table
                          ++ get_ref E ir (pt_row sgtin96_table (List.length cp)))
  | [f; cp; ir; ser] => Ok (h ++ get_filter E f ++ partition_bits sgtin96_table cp
                          ++ get_company_prefix E cp sgtin96_table
                          ++ get_ref E ir (pt_row sgtin96_table (List.length cp))
                          ++ get_serial E ser 38)
  | _ => Err
  end.

(** tdt/epc.go:275-301 [NewPrefixFilterSSCC96] *)
Definition new_prefix_filter_sscc96 (E : env) (fields : list gostring) : result gostring :=
  let h := str "00110001" in
  match fields with
  | [] => Err
  | [f] => Ok (h ++ get_filter E f)
  | [f; cp] => Ok (h ++ get_filter E f ++ partition_bits sscc96_table cp
                     ++ get_company_prefix E cp sscc96_table)
  | [f; cp; ext] => Ok (h ++ get_filter E f ++ partition_bits sscc96_table cp
                          ++ get_company_prefix E cp sscc96_table
                          ++ get_ref E ext (pt_row sscc96_table (List.length cp)))
  | _ => Err
  end.
