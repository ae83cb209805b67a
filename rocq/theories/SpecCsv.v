(** The format of a subscription file (RFC 4180 with the tolerances of Go's reader). *)
From Verif Require Import GoBase MCsv.

(** A field as it is, without the characters that need quotes; or between quotes,
    with every quote doubled. *)
Definition plain (f : gostring) : Prop := ~ In ccomma f /\ ~ In cquote f /\ ~ In cnl f.
Definition doubled (f : gostring) : gostring := flat_map (fun c => if Ascii.eqb c cquote then [c; c] else [c]) f.
Inductive field_text (f : gostring) : gostring -> Prop :=
| ft_plain : plain f -> field_text f f
| ft_quoted : field_text f (cquote :: doubled f ++ [cquote]).
(** At least one field, with commas between them. *)
Inductive record_text : list gostring -> gostring -> Prop :=
| rt_one f t : field_text f t -> record_text [f] t
| rt_more f t r u : field_text f t -> record_text r u -> record_text (f :: r) (t ++ ccomma :: u).
(** Lines, empty ones being skipped; the last one may lack its line end. *)
Inductive file_text : list (list gostring) -> gostring -> Prop :=
| ft_end : file_text [] []
| ft_blank rs t : file_text rs t -> file_text rs (cnl :: t)
| ft_record r l rs t : record_text r l -> l <> [] -> file_text rs t -> file_text (r :: rs) (l ++ cnl :: t)
| ft_last r l : record_text r l -> l <> [] -> file_text [r] l.

(** Line ends: [norm_text raw t] when [t] is [raw] with every CR LF replaced by LF and
    a last CR dropped. *)
Inductive norm_text : gostring -> gostring -> Prop :=
| nt_end : norm_text [] []
| nt_last : norm_text [ccr] []
| nt_crlf s t : norm_text s t -> norm_text (ccr :: cnl :: s) (cnl :: t)
| nt_other c s t : (c = ccr -> s <> [] /\ forall s', s <> cnl :: s') -> norm_text s t -> norm_text (c :: s) (c :: t).

(** The text of the file stands for these records. *)
Definition csv_text (records : list (list gostring)) (text : gostring) : Prop :=
  exists t, norm_text text t /\ file_text records t.

(** Complete lines. *)
Definition lines_of (ls : list gostring) : gostring := concat (map (fun l => l ++ [cnl]) ls).
(** Writing records, every field in quotes. *)
Definition write_field (f : gostring) : gostring := cquote :: doubled f ++ [cquote].
Fixpoint write_record (r : list gostring) : gostring :=
  match r with
  | [] => []
  | [f] => write_field f
  | f :: r' => write_field f ++ ccomma :: write_record r'
  end.
Definition write_file (rs : list (list gostring)) : gostring := lines_of (map write_record rs).
