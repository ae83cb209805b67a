(** Specification side of the text-matching engine. *)
From Verif Require Import GoBase Spec SpecEpc.
From Coq Require Import Permutation.

(** A pattern text [a:b:c:type:fields]. *)
Definition five_parts (pat a b c t fs : gostring) : Prop :=
  pat = a ++ ":"%char :: b ++ ":"%char :: c ++ ":"%char :: t ++ ":"%char :: fs /\
  Forall (fun s => ~ In ":"%char s) [a; b; c; t; fs].
(** The fields without the first one, the filter value. *)
Inductive without_filter : gostring -> gostring -> Prop :=
| wf_only fv : ~ In "."%char fv -> without_filter fv []
| wf_more fv rest : ~ In "."%char fv -> without_filter (fv ++ "."%char :: rest) rest.
Definition without_dots (s : gostring) : gostring := filter (fun c => negb (Ascii.eqb c "."%char)) s.
Definition iso_types : list gostring := [str "iso17363"; str "iso17365"].

(** [selects pat local]: the pattern's text starts [local], an identity without
    "urn:epc:id:".  Types the engine does not know are compared as they stand. *)
Inductive selects (pat local : gostring) : Prop :=
| sel_epc a b c k fs rest : five_parts pat a b c (pattern_type k) fs -> without_filter fs rest ->
    is_prefix (scheme_name k ++ str ":" ++ rest) local -> selects pat local
| sel_iso a b c t fs : five_parts pat a b c t fs -> In t iso_types ->
    is_prefix (t ++ str ":" ++ without_dots fs) local -> selects pat local
| sel_other a b c t fs : five_parts pat a b c t fs -> ~ In t iso_types -> (forall k, t <> pattern_type k) ->
    is_prefix fs local -> selects pat local.

(** An identity without "urn:epc:id:" (as it is when it does not start so). *)
Inductive local_part : gostring -> gostring -> Prop :=
| local_urn l : local_part (str "urn:epc:id:" ++ l) l
| local_other s : ~ is_prefix (str "urn:epc:id:") s -> local_part s s.

(** All (URI, pattern) pairs of a subscription map, in its order. *)
Definition pairs (m : list (gostring * list gostring)) : list (gostring * gostring) :=
  flat_map (fun e => map (pair (fst e)) (snd e)) m.
(** The URIs of the pairs whose pattern selects the identity, one per pair. *)
Inductive told (local : gostring) : list (gostring * gostring) -> list gostring -> Prop :=
| told_nil : told local [] []
| told_yes u p ps us : selects p local -> told local ps us -> told local ((u, p) :: ps) (u :: us)
| told_no u p ps us : ~ selects p local -> told local ps us -> told local ((u, p) :: ps) us.

(** The fields of an identity. *)
Definition id_texts (k : scheme) (f : epc_fields) : list gostring :=
  match k with
  | Sgtin => [f_cp f; f_ref f; f_ser f]
  | Grai => if Nat.eqb (fields_partition f) 0 then [f_cp f; f_ser f] else [f_cp f; f_ref f; f_ser f]
  | Sscc | Giai => [f_cp f; f_ref f]
  end.
(** The last field a pattern names is as long as the tag's, so that it is no mere
    beginning of it. *)
Definition full_last (p : epc_pattern) (f : epc_fields) : Prop :=
  let n := p_count p in
  2 <= n -> length (nth (n - 1) (field_texts (p_fields p)) []) = length (nth (n - 1) (field_texts f) []).

(** [pair_in m u p]: the map has pattern [p] under URI [u]. *)
Definition pair_in (m : smap (list gostring)) (u p : gostring) : Prop := exists l, mget u m = Some l /\ In p l.
(** How often the map has pattern [p] under URI [u]. *)
Definition text_dec : forall a b : gostring, {a = b} + {a <> b} := list_eq_dec ascii_dec.
Definition times (m : smap (list gostring)) (u p : gostring) : nat := match mget u m with Some l => count_occ text_dec l p | None => 0 end.
(** No pattern twice under one URI. *)
Definition no_twice (m : smap (list gostring)) : Prop := forall u l, mget u m = Some l -> NoDup l.

(** The same answer up to the order of the report URIs: pure identity, URIs, error. *)
Inductive same_report : result (gostring * list gostring * bool) -> result (gostring * list gostring * bool) -> Prop :=
| same_panic : same_report Panic Panic
| same_ok p us us' failed : Permutation us us' -> same_report (Ok (p, us, failed)) (Ok (p, us', failed)).
