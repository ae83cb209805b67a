(** Model of tdt/iso.go. *)
From Verif Require Import GoBase BinUtil.

(** The alphabet string of tdt/iso.go:25 and scheme/iso.go:22. *)
Definition iso6346_alphabet : gostring := str "0123456789A?BCDEFGHIJK?LMNOPQRSTU?VWXYZ".

(** tdt/iso.go:23-26: [n += d * index], [d] doubling from 1.  The Go floats are
    exact here (|n| < 2^16). *)
Fixpoint iso6346_sum (d : Z) (s : gostring) : Z :=
  match s with
  | [] => 0%Z
  | c :: s' => (d * index_char iso6346_alphabet c + iso6346_sum (2 * d) s')%Z
  end.

(** tdt/iso.go:17-28 [getISO6346CD]; [int(n/11)] truncates towards zero and
    Go's [%] is the remainder of truncated division. *)
Definition get_iso6346_cd (cn : gostring) : result Z :=
  if negb (Nat.eqb (List.length cn) 10) then Err
  else
    let n := iso6346_sum 1 cn in
    Ok (Z.rem (n - Z.quot n 11 * 11) 10).

(** fmt.Sprintf("%v", cd) *)
Definition dec_string_Z (z : Z) : gostring :=
  if (z <? 0)%Z then "-"%char :: dec_string (Z.abs_N z) else dec_string (Z.to_N z).

(** tdt/iso.go:33-46 [pad6BitEncodingRuneSlice]; [padRuneSlice] is the binary
    numeral of 32. *)
Definition pad_runes : gostring := str "100000".
Definition pad_6bit (bs : gostring) : gostring * nat :=
  let length := List.length bs in
  let remainder := length mod 16 in
  if Nat.eqb remainder 0 then (bs, length)
  else (bs ++ map (fun i => nth (i mod 6) pad_runes c0) (seq 0 (16 - remainder)),
        length + (16 - remainder)).

(** tdt/iso.go:49-92 [NewPrefixFilterISO17363].  With four fields the check
    digit is computed from fields[0] + fields[1] + csn (line 82). *)
Definition new_prefix_filter_iso17363 (fields : list gostring) : result gostring :=
  match fields with
  | [] => Err
  | [di] => Ok (runes_to_6bin di)
  | [di; oc] => Ok (runes_to_6bin di ++ runes_to_6bin oc)
  | [di; oc; ei] => Ok (runes_to_6bin di ++ runes_to_6bin oc ++ runes_to_6bin ei)
  | di :: oc :: ei :: csn :: rest =>
      if Nat.ltb 6 (List.length csn) then Err
      else
        let csn := if Nat.ltb (List.length csn) 6
                   then zero_padding (6 - List.length csn) ++ csn else csn in
        let! cd := get_iso6346_cd (di ++ oc ++ csn) in
        match rest with
        | [] => Ok (runes_to_6bin di ++ runes_to_6bin oc ++ runes_to_6bin ei
                      ++ runes_to_6bin (csn ++ dec_string_Z cd))
        | _ => Err
        end
  end.

(** tdt/iso.go:95-127 [NewPrefixFilterISO17365] *)
Definition new_prefix_filter_iso17365 (fields : list gostring) : result gostring :=
  match fields with
  | [] => Err
  | [di] => Ok (runes_to_6bin di)
  | [di; iac] => Ok (runes_to_6bin di ++ runes_to_6bin iac)
  | [di; iac; cin] => Ok (runes_to_6bin di ++ runes_to_6bin iac ++ runes_to_6bin cin)
  | [di; iac; cin; sn] => Ok (runes_to_6bin di ++ runes_to_6bin iac ++ runes_to_6bin cin
                                ++ runes_to_6bin sn)
  | _ => Err
  end.
