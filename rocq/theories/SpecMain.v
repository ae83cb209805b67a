(** LLRP messages on the wire, and what reports should contain. *)
From Verif Require Import GoBase MTdtCore MSubs MList MMain MFactory MSystem SpecEpc SpecSystem.

(** [n] as [k] bytes, most significant first. *)
Fixpoint bytes_be (k : nat) (n : N) : list N :=
  match k with O => [] | S k' => (n / 256 ^ N.of_nat k' mod 256)%N :: bytes_be k' n end.
(** A message on the wire: header, total length, message id, value. *)
Definition wire (m : llrp_message) : list N :=
  bytes_be 2 (lm_header m) ++ bytes_be 4 (N.of_nat (length (lm_value m)) + 10) ++ bytes_be 4 (lm_id m) ++ lm_value m.
(** A message with fields that fit. *)
Definition wf_message (m : llrp_message) : Prop :=
  (lm_header m < 2 ^ 16 /\ lm_id m < 2 ^ 32 /\ N.of_nat (length (lm_value m)) + 10 < 2 ^ 32)%N.
(** Headers of the Low Level Reader Protocol, version 1 (1024 in the header), and the
    types of messages the program knows: reports of tags, keepalives, notifications of
    reader events, answers to configuration requests. *)
Definition llrp_header (type : N) : N := (1024 + type)%N.
Definition h_report : N := llrp_header 61.
Definition h_alive : N := llrp_header 62.
Definition h_event : N := llrp_header 63.
Definition h_response : N := llrp_header 13.
Definition known (m : llrp_message) : Prop :=
  In (lm_header m) [h_report; h_alive; h_event; h_response].
(** [tail] is a proper beginning of a message. *)
Definition incomplete (tail : list N) : Prop :=
  exists m rest, wf_message m /\ rest <> [] /\ wire m = tail ++ rest.
(** What is to be done about a message, with the given id in replies. *)
Inductive expected (id : N) : llrp_message -> list action -> Prop :=
| ex_event m : lm_header m = h_event -> expected id m [WriteConfig id]
| ex_alive m : lm_header m = h_alive -> expected id m [WriteAck id]
| ex_response m : lm_header m = h_response -> expected id m []
| ex_report m : lm_header m = h_report -> expected id m [Deliver (lm_value m)].

(** An answer of Search that is to be reported to [d]. *)
Definition reported_to (d : gostring) (a : search_result) : bool := let '(_, uris, failed) := a in negb failed && existsb (seqb d) uris.
Definition pure_of (a : search_result) : gostring := fst (fst a).

(** In a schedule of the factory: the tags main asks for; in what was seen: the
    answers it got. *)
Definition searched {Sub Tag Orc} (ls : list (@label Sub Tag Orc)) : list Tag :=
  flat_map (fun l => match l with LSearch t _ => [t] | _ => [] end) ls.
Definition answered {Tag Ans} (o : list (@obs Tag Ans)) : list (ename * Tag * Ans) :=
  flat_map (fun x => match x with OAnswer e t a => [(e, t, a)] | _ => [] end) o.
(** No pattern of [u] covers another of [u]. *)
Definition one_each (s : epc_subs) (u : gostring) : Prop := forall p q, subscribed s u p -> subscribed s u q -> covers p q -> covers q p.
(** The report due to [d] for the tags of a batch: the URNs of the tags that one of
    its patterns selects, in order. *)
Inductive due (s : epc_subs) (d : gostring) : list (scheme * epc_fields) -> list gostring -> Prop :=
| due_nil : due s d [] []
| due_yes k f l r : (exists p, subscribed s d p /\ leads p k f) -> due s d l r -> due s d ((k, f) :: l) (urn_of k f :: r)
| due_no k f l r : (forall p, subscribed s d p -> ~ leads p k f) -> due s d l r -> due s d ((k, f) :: l) r.
