(** Model of package scheme: encoders of EPC and ISO identifiers and of their
    prefixes.  The package carries its own copy of the partition tables and of
    the field encoders; they are modelled separately from package tdt so that
    agreement between the two is something to prove. *)
From Verif Require Import GoBase BinUtil MTdtEpc MTdtIso.
(* [MTdtEpc] and [MTdtIso] are used only for the standard-library functions
   [parse_int32], [fmt_b3] and [dec_string_Z]. *)

(** scheme/epc.go:13-31: one row of a partition table (see [MTdtEpc.prow]). *)
Record s_prow : Type := { sp_value : nat; sp_cp_bits : nat; sp_bits : nat; sp_digits : nat }.
Definition s_ptable := list (nat * s_prow).
Definition s_row (v c b d : nat) : s_prow :=
  {| sp_value := v; sp_cp_bits := c; sp_bits := b; sp_digits := d |}.

(** scheme/epc.go:34-42 [GIAI96PartitionTable] *)
Definition s_giai96_table : s_ptable :=
  [(12, s_row 0 40 42 13); (11, s_row 1 37 45 14); (10, s_row 2 34 48 15); (9, s_row 3 30 52 16);
   (8, s_row 4 27 55 17); (7, s_row 5 24 58 18); (6, s_row 6 20 62 19)].
(** scheme/epc.go:45-53 [GRAI96PartitionTable] *)
Definition s_grai96_table : s_ptable :=
  [(12, s_row 0 40 4 0); (11, s_row 1 37 7 1); (10, s_row 2 34 10 2); (9, s_row 3 30 14 3);
   (8, s_row 4 27 17 4); (7, s_row 5 24 20 5); (6, s_row 6 20 24 6)].
(** scheme/epc.go:56-64 [SGTIN96PartitionTable] *)
Definition s_sgtin96_table : s_ptable :=
  [(12, s_row 0 40 4 1); (11, s_row 1 37 7 2); (10, s_row 2 34 10 3); (9, s_row 3 30 14 4);
   (8, s_row 4 27 17 5); (7, s_row 5 24 20 6); (6, s_row 6 20 24 7)].
(** scheme/epc.go:67-75 [SSCC96PartitionTable] *)
Definition s_sscc96_table : s_ptable :=
  [(12, s_row 0 40 18 5); (11, s_row 1 37 21 6); (10, s_row 2 34 24 7); (9, s_row 3 30 28 8);
   (8, s_row 4 27 31 9); (7, s_row 5 24 34 10); (6, s_row 6 20 38 11)].

(** Map read: a missing key gives a nil map whose columns read as zero. *)
Fixpoint s_pt_row (pt : s_ptable) (k : nat) : s_prow :=
  match pt with
  | [] => s_row 0 0 0 0
  | (k', r) :: pt' => if Nat.eqb k k' then r else s_pt_row pt' k
  end.

(** Common body of scheme/epc.go:78-88 [GetAssetType], :103-113 [GetExtension],
    :129-139 [GetIndivisualAssetReference], :143-154 [GetItemReference]. *)
Definition s_get_ref (E : env) (s : gostring) (r : s_prow) : gostring :=
  match s with
  | [] => e_rand E (sp_bits r)
  | _ =>
      let b := dec_to_bin E s in
      if Nat.ltb (List.length b) (sp_bits r)
      then zero_padding (sp_bits r - List.length b) ++ b else b
  end.

(** scheme/epc.go:91-100 [GetCompanyPrefix] *)
Definition s_get_company_prefix (E : env) (cp : gostring) (pt : s_ptable) : gostring :=
  match cp with
  | [] => []
  | _ =>
      let b := dec_to_bin E cp in
      let w := sp_cp_bits (s_pt_row pt (List.length cp)) in
      if Nat.ltb (List.length b) w then zero_padding (w - List.length b) ++ b else b
  end.

(** strconv.ParseInt(s, 10, 32) with the error discarded, and Sprintf("%.3b"):
    the standard-library functions are shared with [MTdtEpc]. *)

(** scheme/epc.go:117-125 [GetFilter] *)
Definition s_get_filter (E : env) (fv : gostring) : gostring :=
  match fv with
  | [] => e_rand E 3
  | _ => fmt_b3 (parse_int32 fv)
  end.

(** scheme/epc.go:158-169 [GetSerial] *)
Definition s_get_serial (E : env) (s : gostring) (n : nat) : gostring :=
  match s with
  | [] => e_rand E n
  | _ =>
      let b := dec_to_bin E s in
      if Nat.ltb (List.length b) n then zero_padding (n - List.length b) ++ b else b
  end.

(** [fmt.Sprintf("%.3b", table[len(cp)][PValue])] (scheme/epc.go:186 etc.) *)
Definition s_partition (pt : s_ptable) (cp : gostring) : gostring :=
  fmt_b3 (Z.of_nat (sp_value (s_pt_row pt (List.length cp)))).

(** What an encoder returns: identifier bytes (empty in prefix mode), prefix
    filter string, pattern URN (both empty in identifier mode). *)
Definition encoded := (list N * gostring * gostring)%type.

(** The end of every EPC encoder (e.g. scheme/epc.go:205-230): the 88 bits after
    the header are cut into bytes p[0..10] and the header byte is put in front.
    [binutil.Pack] concatenates the byte values. *)
Definition pack_epc (header : N) (bs : gostring) : result encoded :=
  if negb (Nat.eqb (List.length bs) 88) then Err
  else
    let! p := binstr_to_bytes bs in
    Ok (header :: p, [], []).

(** [strconv.Itoa(binutil.ParseBinRuneSliceToInt(filter))] (scheme/epc.go:176) *)
Definition bin_runes_to_dec (s : gostring) : gostring :=
  dec_string (N_of_bits (map (Ascii.eqb c1) s)).

(** scheme/epc.go:173-231 [MakeGIAI96] *)
Definition make_giai96 (E : env) (pf : bool) (fv cp iar : gostring) : result encoded :=
  let filter := s_get_filter E fv in
  let fv := match fv with [] => bin_runes_to_dec filter | _ => fv end in
  let h := str "00110100" in
  let pat := str "urn:epc:pat:giai-96:" in
  let dot := str "." in
  match cp with
  | [] => if pf then Ok ([], h ++ filter, pat ++ fv) else Err
  | _ =>
      let company_prefix := s_get_company_prefix E cp s_giai96_table in
      let partition := s_partition s_giai96_table cp in
      if (match iar with [] => pf | _ => false end)
      then Ok ([], h ++ filter ++ partition ++ company_prefix, pat ++ fv ++ dot ++ cp)
      else
        let ref := s_get_ref E iar (s_pt_row s_giai96_table (List.length cp)) in
        if pf then Ok ([], h ++ filter ++ partition ++ company_prefix ++ ref,
                       pat ++ fv ++ dot ++ cp ++ dot ++ iar)
        else pack_epc 52 (filter ++ partition ++ company_prefix ++ ref)
  end.

(** scheme/epc.go:234-298 [MakeGRAI96] *)
Definition make_grai96 (E : env) (pf : bool) (fv cp at_ ser : gostring) : result encoded :=
  let filter := s_get_filter E fv in
  let h := str "00110011" in
  let pat := str "urn:epc:pat:grai-96:" in
  let dot := str "." in
  match cp with
  | [] => if pf then Ok ([], h ++ filter, pat ++ fv) else Err
  | _ =>
      let company_prefix := s_get_company_prefix E cp s_grai96_table in
      let partition := s_partition s_grai96_table cp in
      if (match at_ with [] => pf | _ => false end)
      then Ok ([], h ++ filter ++ partition ++ company_prefix, pat ++ fv ++ dot ++ cp)
      else
        let ref := s_get_ref E at_ (s_pt_row s_grai96_table (List.length cp)) in
        if (match ser with [] => pf | _ => false end)
        then Ok ([], h ++ filter ++ partition ++ company_prefix ++ ref,
                 pat ++ fv ++ dot ++ cp ++ dot ++ at_)
        else
          let serial := s_get_serial E ser 38 in
          if pf then Ok ([], h ++ filter ++ partition ++ company_prefix ++ ref ++ serial,
                         pat ++ fv ++ dot ++ cp ++ dot ++ at_ ++ dot ++ ser)
          else pack_epc 51 (filter ++ partition ++ company_prefix ++ ref ++ serial)
  end.

(** scheme/epc.go:301-364 [MakeSGTIN96] *)
Definition make_sgtin96 (E : env) (pf : bool) (fv cp ir ser : gostring) : result encoded :=
  let filter := s_get_filter E fv in
  let h := str "00110000" in
  let pat := str "urn:epc:pat:sgtin-96:" in
  let dot := str "." in
  match cp with
  | [] => if pf then Ok ([], h ++ filter, pat ++ fv) else Err
  | _ =>
      let company_prefix := s_get_company_prefix E cp s_sgtin96_table in
      let partition := s_partition s_sgtin96_table cp in
      if (match ir with [] => pf | _ => false end)
      then Ok ([], h ++ filter ++ partition ++ company_prefix, pat ++ fv ++ dot ++ cp)
      else
        let ref := s_get_ref E ir (s_pt_row s_sgtin96_table (List.length cp)) in
        if (match ser with [] => pf | _ => false end)
        then Ok ([], h ++ filter ++ partition ++ company_prefix ++ ref,
                 pat ++ fv ++ dot ++ cp ++ dot ++ ir)
        else
          let serial := s_get_serial E ser 38 in
          if pf then Ok ([], h ++ filter ++ partition ++ company_prefix ++ ref ++ serial,
                         pat ++ fv ++ dot ++ cp ++ dot ++ ir ++ dot ++ ser)
          else pack_epc 48 (filter ++ partition ++ company_prefix ++ ref ++ serial)
  end.

(** scheme/epc.go:367-425 [MakeSSCC96] *)
Definition make_sscc96 (E : env) (pf : bool) (fv cp ext : gostring) : result encoded :=
  let filter := s_get_filter E fv in
  let h := str "00110001" in
  let pat := str "urn:epc:pat:sscc-96:" in
  let dot := str "." in
  match cp with
  | [] => if pf then Ok ([], h ++ filter, pat ++ fv) else Err
  | _ =>
      let company_prefix := s_get_company_prefix E cp s_sscc96_table in
      let partition := s_partition s_sscc96_table cp in
      if (match ext with [] => pf | _ => false end)
      then Ok ([], h ++ filter ++ partition ++ company_prefix, pat ++ fv ++ dot ++ cp)
      else
        let ref := s_get_ref E ext (s_pt_row s_sscc96_table (List.length cp)) in
        if pf then Ok ([], h ++ filter ++ partition ++ company_prefix ++ ref,
                       pat ++ fv ++ dot ++ cp ++ dot ++ ext)
        else pack_epc 49 (filter ++ partition ++ company_prefix ++ ref ++ zero_padding 24)
  end.

(** ** scheme/iso.go *)

(** scheme/iso.go:19-23: the running sum of weighted letter values. *)
Fixpoint s_iso6346_sum (d : Z) (s : gostring) : Z :=
  match s with
  | [] => 0%Z
  | c :: s' =>
      (d * index_char (str "0123456789A?BCDEFGHIJK?LMNOPQRSTU?VWXYZ") c
       + s_iso6346_sum (2 * d) s')%Z
  end.
(** scheme/iso.go:13-25 [GetISO6346CD]; upper-cases its argument first. *)
Definition s_get_iso6346_cd (cn : gostring) : result Z :=
  if negb (Nat.eqb (List.length cn) 10) then Err
  else
    let n := s_iso6346_sum 1 (to_upper cn) in
    Ok (Z.rem (n - Z.quot n 11 * 11) 10).

(** scheme/iso.go:146-159 [Pad6BitEncodingRuneSlice] *)
Definition s_pad_6bit (bs : gostring) : gostring * nat :=
  let length := List.length bs in
  let remainder := length mod 16 in
  if Nat.eqb remainder 0 then (bs, length)
  else (bs ++ map (fun i => nth (i mod 6) (str "100000") c0) (seq 0 (16 - remainder)),
        length + (16 - remainder)).

(** Result of an ISO encoder: bytes, bit length, prefix, pattern URN. *)
Definition iso_encoded := (list N * nat * gostring * gostring)%type.

(** scheme/iso.go:73-87 and :126-140 *)
Definition pack_iso (bs : gostring) : result iso_encoded :=
  let '(padded, length) := s_pad_6bit bs in
  let! p := binstr_to_bytes padded in
  Ok (p, length, [], []).

(** scheme/iso.go:28-88 [MakeISO17363] *)
Definition make_iso17363 (E : env) (pf : bool) (oc ei csn : gostring) : result iso_encoded :=
  let di := str "7B" in
  let pat := str "urn:epc:pat:iso17363:" in
  let dot := str "." in
  let dib := runes_to_6bin di in
  if (match oc with [] => pf | _ => false end) then Ok ([], 0, dib, pat ++ di)
  else
    let oc := match oc with [] => e_rand_text E 3 | _ => oc end in
    let ocb := runes_to_6bin oc in
    if (match ei with [] => pf | _ => false end)
    then Ok ([], 0, dib ++ ocb, pat ++ di ++ dot ++ oc)
    else
      let ei := match ei with [] => str "U" | _ => ei end in
      let eib := runes_to_6bin ei in
      if (match csn with [] => pf | _ => false end)
      then Ok ([], 0, dib ++ ocb ++ eib, pat ++ di ++ dot ++ oc ++ dot ++ ei)
      else
        let! csn := match csn with
                    | [] => Ok (e_rand_text E 6)
                    | _ => if Nat.ltb (List.length csn) 6
                           then Ok (zero_padding (6 - List.length csn) ++ csn)
                           else if Nat.ltb 6 (List.length csn) then Err else Ok csn
                    end in
        let! cd := s_get_iso6346_cd (oc ++ ei ++ csn) in
        let csnb := runes_to_6bin (csn ++ dec_string_Z cd) in
        if pf then Ok ([], 0, dib ++ ocb ++ eib ++ csnb,
                       pat ++ di ++ dot ++ oc ++ dot ++ ei ++ dot ++ csn)
        else pack_iso (dib ++ ocb ++ eib ++ csnb).

(** scheme/iso.go:91-141 [MakeISO17365] *)
Definition make_iso17365 (E : env) (pf : bool) (di iac cin sn : gostring) : result iso_encoded :=
  let pat := str "urn:epc:pat:iso17365:" in
  let dot := str "." in
  let dib := runes_to_6bin di in
  match iac with
  | [] => if pf then Ok ([], 0, dib, pat ++ di) else Err
  | _ =>
      let iacb := runes_to_6bin iac in
      match cin with
      | [] => if pf then Ok ([], 0, dib ++ iacb, pat ++ di ++ dot ++ iac) else Err
      | _ =>
          let cinb := runes_to_6bin cin in
          if (match sn with [] => pf | _ => false end)
          then Ok ([], 0, dib ++ iacb ++ cinb, pat ++ di ++ dot ++ iac ++ dot ++ cin)
          else
            let sn := match sn with [] => e_rand_text E 18 | _ => sn end in
            let snb := runes_to_6bin sn in
            if pf then Ok ([], 0, dib ++ iacb ++ cinb ++ snb,
                           pat ++ di ++ dot ++ iac ++ dot ++ cin ++ dot ++ sn)
            else pack_iso (dib ++ iacb ++ cinb ++ snb)
      end
  end.

(** ** scheme/generate.go *)

(** scheme/generate.go:98-109 [MakeISOPC]: the error of a word count that needs
    more than five bits is a panic. *)
Definition make_iso_pc (length : nat) (afi : N) : result (list N) :=
  let l := pad_left c0 5 (bin_string (N.of_nat (length / 16))) in
  match binstr_to_bytes (l ++ str "001") with
  | Ok (pc1 :: _) => Ok [pc1; afi]
  | _ => Panic
  end.

(** scheme/generate.go:112-119 [Sixenc2bin] *)
Fixpoint sixenc2bin (s : gostring) : gostring :=
  match s with
  | [] => []
  | c :: s' => rune_to_6bin c ++ sixenc2bin s'
  end.

(** encoding/hex [EncodeToString] *)
Definition hex_digit (n : N) : ascii := ascii_of_N (if (n <? 10)%N then 48 + n else 87 + n)%N.
Definition hex_string (bs : list N) : gostring := flat_map (fun x => [hex_digit (x / 16); hex_digit (x mod 16)]%N) bs.
(** scheme/generate.go:52, 85: the identifier as a bit string, by way of its
    hexadecimal text; the error is dropped. *)
Definition uii_text (uii : list N) : gostring :=
  match hex_to_binstr (hex_string uii) with Ok s => s | _ => [] end.

(** scheme/generate.go:25-59 [MakeEPC]: prefix and pattern URN, or the
    identifier as a bit string and the PC bits in hexadecimal; encoder errors are
    dropped, so a failed encoding gives the empty string. *)
Definition make_epc (E : env) (pf : bool) (cs fv cp ir ext ser iar at_ : gostring) : gostring * gostring :=
  let cs := to_upper cs in
  let r :=
    if seqb cs (str "GIAI-96") then make_giai96 E pf fv cp iar
    else if seqb cs (str "GRAI-96") then make_grai96 E pf fv cp at_ ser
    else if seqb cs (str "SGTIN-96") then make_sgtin96 E pf fv cp ir ser
    else if seqb cs (str "SSCC-96") then make_sscc96 E pf fv cp ext
    else Err in
  let '(uii, f, elem) := match r with Ok x => x | _ => ([], [], []) end in
  if pf then (f, elem) else (uii_text uii, hex_string [48; 0]%N).

(** scheme/generate.go:62-95 [MakeISO] *)
Definition make_iso (E : env) (pf : bool) (std oc ei csn di iac cin sn : gostring) : result (gostring * gostring) :=
  let finish (r : result iso_encoded) (afi : N) :=
    let '(uii, length, f, elem) := match r with Ok x => x | _ => ([], 0, [], []) end in
    let! pc := make_iso_pc length afi in
    if pf then Ok (f, elem) else Ok (uii_text uii, hex_string pc) in
  if seqb std (str "17363") then finish (make_iso17363 E pf oc ei csn) 169%N
  else if seqb std (str "17365") then finish (make_iso17365 E pf di iac cin sn) 162%N
  else Ok ([], []).

(** scheme/generate.go:132-137 [PrintID] *)
Definition print_id (bs opt : gostring) : gostring :=
  match bs with [] => [] | _ => opt ++ str "," ++ bs end.
