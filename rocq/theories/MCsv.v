(** Reading a subscription file: the text of the file, through encoding/csv, to
    Subscriptions. *)
From Verif Require Import GoBase BinUtil MSubs.

Definition ccomma : ascii := ","%char.
Definition cquote : ascii := "034"%char.
Definition cnl : ascii := "010"%char.
Definition ccr : ascii := "013"%char.

(** encoding/csv (Go 1.23) Reader.readLine, as used by filtering/subscriptions.go:153-158:
    CR LF at the end of a line counts as LF and one CR before the end of the file is
    dropped.  Both happen wherever the line end stands, so also inside quotes. *)
Fixpoint csv_norm (s : gostring) : gostring :=
  match s with
  | [] => []
  | c :: s' =>
      if Ascii.eqb c ccr then
        match s' with
        | [] => []
        | d :: _ => if Ascii.eqb d cnl then csv_norm s' else c :: csv_norm s'
        end
      else c :: csv_norm s'
  end.

(** encoding/csv Reader.readRecord with the settings of
    filtering/subscriptions.go:154-156 (Comma ',', LazyQuotes off, any number of
    fields, and the defaults: no comments, spaces kept), as a machine reading one
    character at a time.  [f] is the field and [r] the record read so far, both
    backwards.  The library looks for the next comma or quote of a line instead and
    copies what is before it. *)
Inductive csv_state : Set :=
| CLine    (* at the beginning of a line *)
| CField   (* at the beginning of a field after a comma *)
| CPlain   (* in a field without quotes *)
| CQuoted  (* between quotes *)
| CQuote.  (* after a quote between quotes *)
Fixpoint csv_scan (st : csv_state) (f : gostring) (r : list gostring) (s : gostring)
  : result (list (list gostring)) :=
  match s with
  | [] =>
      match st with
      | CLine => Ok []
      | CQuoted => Err
      | _ => Ok [rev (rev f :: r)]
      end
  | c :: s' =>
      match st with
      | CQuoted =>
          if Ascii.eqb c cquote then csv_scan CQuote f r s' else csv_scan CQuoted (c :: f) r s'
      | _ =>
          if Ascii.eqb c cquote then
            match st with
            | CLine | CField => csv_scan CQuoted [] r s'
            | CQuote => csv_scan CQuoted (c :: f) r s'
            | _ => Err
            end
          else if Ascii.eqb c ccomma then csv_scan CField [] (rev f :: r) s'
          else if Ascii.eqb c cnl then
            match st with
            | CLine => csv_scan CLine [] [] s'
            | _ => let! rs := csv_scan CLine [] [] s' in Ok (rev (rev f :: r) :: rs)
            end
          else
            match st with
            | CQuote => Err
            | _ => csv_scan CPlain (c :: f) r s'
            end
      end
  end.
Definition csv_read (text : gostring) : result (list (list gostring)) :=
  csv_scan CLine [] [] (csv_norm text).

(** filtering/subscriptions.go:144-181 [LoadSubscriptionsFromCSVFile] of a file with
    this text: an error of the reader panics (lines 161-163).  Opening the file is not
    modelled (a file that cannot be opened panics as well, lines 146-149), nor are
    errors while reading it.  Records read before an error are lost with the panic. *)
Definition load_file (text : gostring) : result (smap (list gostring)) :=
  match csv_read text with
  | Ok records => Ok (load_csv records)
  | _ => Panic
  end.
