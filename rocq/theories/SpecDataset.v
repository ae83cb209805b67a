(** What a run of the data set generator is expected to leave behind. *)
From Verif Require Import GoBase MFilter MTools MDataset SpecIso SpecTools.

(** The sets begun and the filters sent in a run. *)
Definition made {J} (o : list (dobs J)) : list J := flat_map (fun x => match x with OMade j => [j] | _ => [] end) o.
Definition sent {J} (o : list (dobs J)) : list gostring := flat_map (fun x => match x with OSent l => [l] | _ => [] end) o.
(** Lines of a file: each ends with a line end; empty ones are left out. *)
Definition text_of (ls : list gostring) : gostring :=
  concat (map (fun l => match l with [] => [] | _ => l ++ [cnewline] end) ls).
(** No two parameters have the same file, and no file is there already. *)
Definition apart {J} (jfile : J -> path) (js : list J) (fs0 : files) : Prop :=
  NoDup (map jfile js) /\ Forall (fun j => file_get (jfile j) fs0 = None) js.
(** Parameters and draws as main makes them; asset references may be too large. *)
Definition drawn_params (draw : nat -> nat -> gostring) (ps : list uii_param) : Prop :=
  forall j p, nth_error ps j = Some p -> main_param p /\ forall i, i < num_serial -> drawn p (draw j i).
(** A round with as many values as main draws (test/gendataset.go:273-317). *)
Definition full_round (r : round) : Prop :=
  length (r_irs r) = 10 /\ length (r_sscc r) = 2 /\ length (r_giai r) = 2 /\ length (r_ats r) = 2.
(** The values of a round are of the kind main draws. *)
Definition round_drawn (r : round) : Prop :=
  (exists n, 6 <= n <= 12 /\ digits n (r_cp r) /\ Forall (digits (13 - n)) (r_irs r)) /\
  Forall (fun cp => exists n, 6 <= n <= 12 /\ digits n cp) (r_sscc r) /\
  Forall (fun cp => exists n, 6 <= n <= 12 /\ digits n cp) (r_giai r) /\
  (exists n, 6 <= n <= 11 /\ digits n (r_grai r) /\ Forall (digits (12 - n)) (r_ats r)) /\
  (length (r_oc r) = 3 /\ Forall (fun c => is_upper c = true) (r_oc r)) /\
  (3 <= length (r_ci r) <= 7 /\ Forall code_char (r_ci r)).

(** A line of the filter file matches a tag: what follows the last comma does. *)
Definition line_matches (l : gostring) (id : list N) : Prop :=
  exists pat pre, l = pat ++ str "," ++ pre /\ ~ In ","%char pre /\ match_filter (new_filter pre 0) id = Ok true.
(** Some filter of parameter [p] is meant for the tags of parameter [q]: the same
    scheme, and the same company prefix or owner code; the first filter of a 17365
    parameter only names the data identifier and the agency, always 25S and U. *)
Definition selects (p q : uii_param) : Prop :=
  u_scheme p = u_scheme q /\
  (if seqb (u_scheme p) (str "17365") then True else if seqb (u_scheme p) (str "17363") then u_oc p = u_oc q else u_cp p = u_cp q).

(** What identifies a set of tags, as texts. *)
Definition set_key (p : uii_param) : list gostring :=
  let is s := seqb (u_scheme p) (str s) in
  if is "sgtin-96"%string then [u_cp p; u_ir p]
  else if is "grai-96"%string then [u_cp p; u_at p]
  else if is "17363"%string then [u_oc p]
  else if is "17365"%string then [u_ci p]
  else [u_cp p].
Definition set_dir (p : uii_param) : gostring :=
  if seqb (u_scheme p) (str "17363") then str "iso17363" else if seqb (u_scheme p) (str "17365") then str "iso17365" else u_scheme p.
(** The path of a file below the target directory. *)
Definition path_text (f : path) : gostring := join (str "/") f.

(** [r] rounds of 20 filters are [pct] per cent of [nsub] subscriptions, rounded down; *)
Definition right_rounds (pct nsub r : Z) : Prop := r = (pct * nsub / (100 * 20))%Z.
(** one round is missing although the share is a whole number of rounds. *)
Definition one_short (pct nsub r : Z) : Prop := (pct * nsub = 100 * 20 * (r + 1))%Z.
