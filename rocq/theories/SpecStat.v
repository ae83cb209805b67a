(** What a time series database holds after writes. *)
From Verif Require Import GoBase MStat.

(** Which point: measurement, tag and time. *)
Definition series (p : point) : gostring * option gostring * N := (pt_measure p, pt_engine p, pt_time p).
(** The database: a value for each point and field name, or none. *)
Definition database : Type := (gostring * option gostring * N) -> gostring -> option sval.
Definition empty_db : database := fun _ _ => None.
Definition key_dec (a b : gostring * option gostring * N) : {a = b} + {a <> b}.
Proof. repeat decide equality. Defined.
Fixpoint field_value (fs : list (gostring * sval)) (f : gostring) : option sval :=
  match fs with
  | [] => None
  | (g, v) :: fs' => if seqb g f then Some v else field_value fs' f
  end.
(** A written point replaces the fields it names. *)
Definition write_point (d : database) (p : point) : database :=
  fun k f => if key_dec k (series p) then match field_value (pt_fields p) f with Some v => Some v | None => d k f end else d k f.
Definition write_all (d : database) (ps : list point) : database := fold_left write_point ps d.

(** The point that records a statistic. *)
Inductive records : N * smsg -> point -> Prop :=
| rec_traffic t n i k vs : i <> 0%Z -> bad_value (SFloat (percent k i)) = false ->
    records (t, {| sm_type := StTraffic; sm_values := SInt i :: SInt k :: vs; sm_name := n |})
      {| pt_measure := str "traffic"; pt_engine := Some n; pt_time := t;
         pt_fields := [(str "incoming_events", SInt i); (str "matched_events", SInt k); (str "matching_probability", SFloat (percent k i))] |}
| rec_no_traffic t n k vs :
    records (t, {| sm_type := StTraffic; sm_values := SInt 0 :: SInt k :: vs; sm_name := n |})
      {| pt_measure := str "traffic"; pt_engine := Some n; pt_time := t;
         pt_fields := [(str "incoming_events", SInt 0); (str "matched_events", SInt k)] |}
| rec_throughput t n v vs : bad_value v = false ->
    records (t, {| sm_type := StThroughput; sm_values := v :: vs; sm_name := n |})
      {| pt_measure := str "throughput"; pt_engine := Some n; pt_time := t; pt_fields := [(str "event_per_us", v)] |}
| rec_selected t n vs :
    records (t, {| sm_type := StSelected; sm_values := vs; sm_name := n |})
      {| pt_measure := str "engine"; pt_engine := None; pt_time := t; pt_fields := [(str "selected", SInt (engine_number n))] |}.
(** How often a point is among those sent. *)
Definition point_dec (a b : point) : {a = b} + {a <> b}.
Proof. repeat decide equality. Defined.
Definition times (p : point) (ws : list (list point)) : nat := count_occ point_dec (concat ws) p.
(** The first k points of a list, for k = 1, ..., n. *)
Definition growing {A} (ps : list A) : list (list A) := map (fun k => firstn k ps) (seq 1 (length ps)).

(** Malformed traffic messages are skipped; of all others one point each. *)
Definition skipped (m : smsg) : Prop :=
  sm_type m = StTraffic /\ ((exists v vs, sm_values m = v :: vs /\ forall z, v <> SInt z) \/ (exists z v vs, sm_values m = SInt z :: v :: vs /\ forall z, v <> SInt z)).
Inductive stat_points : list (N * smsg) -> list point -> Prop :=
| sp_nil : stat_points [] []
| sp_skip t m ms ps : skipped m -> stat_points ms ps -> stat_points ((t, m) :: ms) ps
| sp_point t m p ms ps : records (t, m) p -> stat_points ms ps -> stat_points ((t, m) :: ms) (p :: ps).
