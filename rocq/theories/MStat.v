(** Model of the stat manager (monitoring/stat_manager.go, stat_message.go) and of
    what main sends to it (cmd/gosstrak-fc/main.go:135-168).

    Assumptions about influxdb1-client/v2: NewPoint refuses a point without fields
    and one with an infinite or undefined float among them; AddPoint appends to
    the batch; Write sends all points of the batch and leaves it as it is; the
    database keeps one set of fields per measurement, tag set and time, and a
    point written later replaces the fields it names (see SpecStat). *)
From Verif Require Import GoBase MFloat MFactory.
From Coq Require Import ZArith.

(** monitoring/stat_message.go:20-25: what can be in [Value] *)
Inductive sval : Type := SInt (z : Z) | SFloat (x : spec_float) | SOther.
(** monitoring/stat_message.go:8-18; [StOther]: any other number *)
Inductive stype : Type := StTraffic | StThroughput | StSelected | StOther.
Record smsg : Type := { sm_type : stype; sm_values : list sval; sm_name : gostring }.

(** A point: measurement, the tag "engine" if set, the fields, and its time. *)
Record point : Type := { pt_measure : gostring; pt_engine : option gostring; pt_fields : list (gostring * sval); pt_time : N }.

(** influxdb1-client/v2 [NewPoint] *)
Definition bad_value (v : sval) : bool := match v with SFloat (S754_infinity _) | SFloat S754_nan => true | _ => false end.
Definition new_point (m : gostring) (e : option gostring) (fs : list (gostring * sval)) (t : N) : result point :=
  match fs with
  | [] => Err
  | _ => if existsb (fun kv => bad_value (snd kv)) fs then Err else Ok {| pt_measure := m; pt_engine := e; pt_fields := fs; pt_time := t |}
  end.

(** monitoring/stat_manager.go:79-92: the number of the selected engine *)
Definition engine_number (name : gostring) : Z :=
  if seqb name (str "Legacy") then 0 else if seqb name (str "List") then 1
  else if seqb name (str "PatriciaTrie") then 2 else if seqb name (str "SplayTree") then 3 else 0.

(** monitoring/stat_manager.go:70-72: float64(matches) / float64(ingress) * 100.0 *)
Definition percent (matches ingress : Z) : spec_float := f64_mul (f64_div (f64 matches) (f64 ingress)) (f64 100).

(** monitoring/stat_manager.go:53-97: the point of a message; no point when the
    message is skipped ([continue]).  [Panic]: an index out of range, or
    log.Fatal after NewPoint. *)
Definition stat_point (t : N) (m : smsg) : result (option point) :=
  let make meas eng fs := match new_point meas eng fs t with Ok p => Ok (Some p) | _ => Panic end in
  match sm_type m with
  | StTraffic =>
      match sm_values m with
      | [] => Panic
      | SInt i :: vs =>
          match vs with
          | [] => Panic
          | SInt k :: _ =>
              make (str "traffic") (Some (sm_name m))
                ([(str "incoming_events", SInt i); (str "matched_events", SInt k)] ++
                 if (i =? 0)%Z then [] else [(str "matching_probability", SFloat (percent k i))])
          | _ :: _ => Ok None
          end
      | _ :: _ => Ok None
      end
  | StThroughput =>
      match sm_values m with
      | [] => Panic
      | v :: _ => make (str "throughput") (Some (sm_name m)) [(str "event_per_us", v)]
      end
  | StSelected => make (str "engine") None [(str "selected", SInt (engine_number (sm_name m)))]
  | StOther => make [] None []
  end.

(** monitoring/stat_manager.go:46-104: one message, received at time [t]; [ok] is
    whether the database takes the write.  The batch afterwards, and what was
    sent. *)
Definition stat_step (bp : list point) (t : N) (m : smsg) (ok : bool) : result (list point * list (list point)) :=
  let! p := stat_point t m in
  match p with
  | None => Ok (bp, [])
  | Some p => if ok then Ok (bp ++ [p], [bp ++ [p]]) else Panic
  end.
(** All batches sent, in order. *)
Fixpoint stat_run (bp : list point) (ms : list (N * smsg * bool)) : result (list (list point)) :=
  match ms with
  | [] => Ok []
  | (t, m, ok) :: ms' =>
      let! (bp', w) := stat_step bp t m ok in
      let! ws := stat_run bp' ms' in
      Ok (w ++ ws)
  end.

(** filtering/engine.go:34-40: the engines' names *)
Definition name_of (e : ename) : gostring :=
  match e with ELegacy => str "LegacyEngine" | EList => str "List" | EPatricia => str "PatriciaTrie" | ESplay => str "SplayTree" end.
(** cmd/gosstrak-fc/main.go:141-166, with statistics enabled *)
Definition main_stat (m : msg) : option smsg :=
  match m with
  | MTraffic e n k => Some {| sm_type := StTraffic; sm_values := [SInt (Z.of_N n); SInt (Z.of_N k)]; sm_name := name_of e |}
  | MStatus e t => Some {| sm_type := StThroughput; sm_values := [SFloat (th_value t)]; sm_name := name_of e |}
  | MSelected e => Some {| sm_type := StSelected; sm_values := []; sm_name := match e with Some e => name_of e | None => [] end |}
  | _ => None
  end.
