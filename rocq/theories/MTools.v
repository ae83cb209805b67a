(** Model of the tools around the engine: cmd/gobtags/main.go (reading tags back
    from text) and test/gendataset.go (writing sets of tags and filters). *)
From Verif Require Import GoBase BinUtil MScheme.

(** cmd/gobtags/main.go:25-31 [makeByteID]: the bytes and whether an error is
    returned.  Line 28 returns nil in place of the error. *)
Definition make_byte_id (s : gostring) : list N * bool :=
  match binstr_to_bytes s with Ok id => (id, false) | _ => ([], false) end.

(** strconv.ParseUint(s, 16, 16); [None] is an error. *)
Fixpoint parse_hex16_loop (n : N) (s : gostring) : option N :=
  match s with
  | [] => Some n
  | c :: s' =>
      match hex_value c with
      | None => None
      | Some v => let n' := (16 * n + v)%N in if (65535 <? n')%N then None else parse_hex16_loop n' s'
      end
  end.
Definition parse_hex16 (s : gostring) : option N :=
  match s with [] => None | _ => parse_hex16_loop 0 s end.
(** cmd/gobtags/main.go:33-39 [makeUint16PC] *)
Definition make_uint16_pc (s : gostring) : N * bool :=
  match parse_hex16 s with Some n => (n, false) | None => (0%N, true) end.

(** test/gendataset.go:20-33 [UIIParam]; ExtDigits and IARMaxDigits only tell the
    random generator how many digits to draw. *)
Record uii_param : Type := {
  u_type : gostring; u_scheme : gostring; u_cp : gostring; u_ir : gostring; u_at : gostring; u_oc : gostring;
  u_di : gostring; u_iac : gostring; u_ci : gostring; u_ext_digits : nat; u_iar_max : nat; u_no_filter : bool
}.

(** strconv.Itoa of a loop counter *)
Definition itoa (i : nat) : gostring := dec_string (N.of_nat i).

(** test/gendataset.go:77-240 [generateUIISet], the line of round [i]; [d] is what
    the random generator gives in this round (an extension, an asset reference, a
    serial number). *)
Definition tag_line (E : env) (p : uii_param) (i : nat) (d : gostring) : result gostring :=
  let epc ir ext ser iar at_ :=
    let '(bs, opt) := make_epc E false (u_scheme p) (str "3") (u_cp p) ir ext ser iar at_ in Ok (print_id bs opt) in
  let iso oc csn di iac ci sn :=
    let! (bs, opt) := make_iso E false (u_scheme p) oc [] csn di iac ci sn in Ok (print_id bs opt) in
  let is s := seqb (u_scheme p) (str s) in
  if is "sgtin-96"%string then epc (u_ir p) [] (itoa i) [] []
  else if is "sscc-96"%string then epc [] d [] [] []
  else if is "giai-96"%string then epc [] [] [] d []
  else if is "grai-96"%string then epc [] [] (itoa i) [] (u_at p)
  else if is "17363"%string then iso (u_oc p) (itoa i) [] [] [] []
  else if is "17365"%string then iso [] [] (u_di p) (u_iac p) (u_ci p) d
  else Err.

(** The same, what is sent to the filter writer. *)
Definition filter_sends (E : env) (p : uii_param) : result (list gostring) :=
  let epc ir ext ser iar at_ :=
    let '(bs, opt) := make_epc E true (u_scheme p) (str "3") (u_cp p) ir ext ser iar at_ in Ok (print_id bs opt) in
  let iso oc di iac ci :=
    let! (bs, opt) := make_iso E true (u_scheme p) oc [] [] di iac ci [] in Ok (print_id bs opt) in
  let is s := seqb (u_scheme p) (str s) in
  if u_no_filter p then Ok []
  else if is "sgtin-96"%string then let! a := epc [] [] [] [] [] in let! b := epc (u_ir p) [] [] [] [] in Ok [a; b]
  else if is "sscc-96"%string then let! a := epc [] [] [] [] [] in Ok [a]
  else if is "giai-96"%string then let! a := epc [] [] [] [] [] in Ok [a]
  else if is "grai-96"%string then let! a := epc [] [] [] [] [] in let! b := epc [] [] [] [] (u_at p) in Ok [a; b]
  else if is "17363"%string then let! a := iso (u_oc p) [] [] [] in Ok [a]
  else if is "17365"%string then let! a := iso [] (u_di p) (u_iac p) [] in let! b := iso [] (u_di p) (u_iac p) (u_ci p) in Ok [a; b]
  else Ok [].
(** The writer leaves out empty lines (test/gendataset.go:47-64). *)
Definition filter_lines (E : env) (p : uii_param) : result (list gostring) :=
  let! ls := filter_sends E p in
  Ok (filter (fun l => match l with [] => false | _ => true end) ls).

(** The file a set of tags goes to, below the target directory. *)
Definition file_of (p : uii_param) : list gostring :=
  let is s := seqb (u_scheme p) (str s) in
  if is "sgtin-96"%string then [u_scheme p; u_cp p; u_ir p]
  else if is "grai-96"%string then [u_scheme p; u_cp p; u_at p]
  else if is "17363"%string then [u_type p ++ u_scheme p; u_oc p]
  else if is "17365"%string then [u_type p ++ u_scheme p; u_ci p]
  else [u_scheme p; u_cp p].
Definition file_eqb (a b : list gostring) : bool := if list_eq_dec (list_eq_dec ascii_dec) a b then true else false.

(** One worker's parameters in turn (test/gendataset.go:77-240): the files written
    and the filters sent.  When the file is there already the parameter is left
    out, except that a GRAI ends the program (165-167).  [draw k i] is what the
    random generator gives for the [k]-th parameter in round [i]. *)
Definition num_serial : nat := 100.
Fixpoint lines (E : env) (p : uii_param) (d : nat -> gostring) (is : list nat) : result (list gostring) :=
  match is with
  | [] => Ok []
  | i :: is' => let! l := tag_line E p i (d i) in let! r := lines E p d is' in Ok (l :: r)
  end.
Fixpoint generate (E : env) (draw : nat -> nat -> gostring) (k : nat) (ps : list uii_param)
  (files : list (list gostring * list gostring)) (filters : list gostring)
  : result (list (list gostring * list gostring) * list gostring) :=
  match ps with
  | [] => Ok (files, filters)
  | p :: ps' =>
      if existsb (fun f => file_eqb (fst f) (file_of p)) files then
        if seqb (u_scheme p) (str "grai-96") then Panic
        else generate E draw (S k) ps' files filters
      else
        let! fs := filter_lines E p in
        let! ls := lines E p (draw k) (seq 0 num_serial) in
        generate E draw (S k) ps' (files ++ [(file_of p, ls)]) (filters ++ fs)
  end.
