(** When a pattern stands for bits. *)
From Verif Require Import GoBase BinUtil Spec MSubs.

(** What is left open of the library answers with binary digits, the decimal parser
    at least on texts without a minus sign in front. *)
Definition binary_env (E : env) : Prop :=
  (forall n, is_bitstring (e_rand E n)) /\ (forall s, hd_error s <> Some "-"%char -> is_bitstring (e_dec_bad E s)).

(** The fields of a pattern: after urn:epc:pat: and the type, separated by dots. *)
Definition fields_of (pat : gostring) : list gostring :=
  match split_on ":"%char (trim_prefix pat (str "urn:epc:pat:")) with
  | [_; fs] => split_on "."%char fs
  | _ => []
  end.
Definition type_of (pat : gostring) : gostring :=
  match split_on ":"%char (trim_prefix pat (str "urn:epc:pat:")) with t :: _ => t | [] => [] end.
(** No field has a minus sign in front. *)
Definition unsigned (pat : gostring) : Prop := Forall (fun f => hd_error f <> Some "-"%char) (fields_of pat).
Definition unsigned_subs (sub : subscriptions) : Prop := forall u pats pat, In (u, pats) sub -> In pat pats -> unsigned pat.

(** A filter value that reads as a negative number: a minus sign and digits, not all
    zero; once the digits exceed 32 bits anything may follow them. *)
Definition negative (f : gostring) : Prop :=
  exists ds rest, f = "-"%char :: ds ++ rest /\ all_digits ds = true /\ (0 < dec_value ds)%N /\ (rest = [] \/ (2 ^ 32 <= dec_value ds)%N).
(** An EPC pattern of an accepted number of fields with such a filter value. *)
Definition negative_epc (pat : gostring) : Prop :=
  exists f more, fields_of pat = f :: more /\ negative f /\
    (In (type_of pat) [str "giai-96"; str "sscc-96"] /\ length more <= 2 \/ In (type_of pat) [str "grai-96"; str "sgtin-96"] /\ length more <= 3).
