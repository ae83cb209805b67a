(** What is expected of the engine factory, in terms of what can be seen of a
    run. *)
From Verif Require Import GoBase MFloat MGenerator MFactory.

Section Seen.
  Context {Tag Ans : Type}.
  Notation obs := (@obs Tag Ans).

  (** An engine is used: it searched, or its answer was returned, or it was
      announced. *)
  Definition uses (e : ename) (x : obs) : Prop :=
    x = ONotified e \/ x = OMatched e \/ x = OSearched e \/ exists t a, x = OAnswer e t a.

  (** No throughput has been recorded. *)
  Definition no_measurement (o : list obs) : Prop := forall e t, ~ In (OStored e t) o.

  (** The throughput recorded last for [e]. *)
  Fixpoint recorded_from (e : ename) (r : option thr) (o : list obs) : option thr :=
    match o with
    | [] => r
    | OStored e' t :: o' => recorded_from e (if ename_eqb e' e then Some t else r) o'
    | _ :: o' => recorded_from e r o'
    end.
  Definition recorded (e : ename) (o : list obs) : option thr := recorded_from e None o.

  (** [e] is the engine of highest deployment priority among those announced. *)
  Definition best_announced (e : ename) (o : list obs) : Prop :=
    In (ONotified e) o /\ forall e', In (ONotified e') o -> (priority e' <= priority e)%N.

  (** The searches by [e] that have ended since its last published count. *)
  Fixpoint count_from (e : ename) (n : N) (o : list obs) : N :=
    match o with
    | [] => n
    | OSearched e' :: o' => count_from e (if ename_eqb e' e then n + 1 else n) o'
    | OPublished e' _ _ :: o' => count_from e (if ename_eqb e' e then 0 else n) o'
    | _ :: o' => count_from e n o'
    end.
  Definition since_published (e : ename) (o : list obs) : N := count_from e 0 o.
  (** All searches by [e] that have ended. *)
  Fixpoint ended (e : ename) (o : list obs) : N :=
    match o with
    | [] => 0
    | OSearched e' :: o' => (if ename_eqb e' e then 1 else 0) + ended e o'
    | _ :: o' => ended e o'
    end.
  (** The sum of all published event counts of [e]. *)
  Fixpoint published (e : ename) (o : list obs) : N :=
    match o with
    | [] => 0
    | OPublished e' n _ :: o' => (if ename_eqb e' e then n else 0) + published e o'
    | _ :: o' => published e o'
    end.
  (** The same for searches that found something. *)
  Fixpoint matches_from (e : ename) (n : N) (o : list obs) : N :=
    match o with
    | [] => n
    | OMatched e' :: o' => matches_from e (if ename_eqb e' e then n + 1 else n) o'
    | OPublished e' _ _ :: o' => matches_from e (if ename_eqb e' e then 0 else n) o'
    | _ :: o' => matches_from e n o'
    end.
  Definition matches_since_published (e : ename) (o : list obs) : N := matches_from e 0 o.

  (** All searches by [e] that found something, and all that were published. *)
  Fixpoint matched (e : ename) (o : list obs) : N :=
    match o with
    | [] => 0
    | OMatched e' :: o' => (if ename_eqb e' e then 1 else 0) + matched e o'
    | _ :: o' => matched e o'
    end.
  Fixpoint published_matched (e : ename) (o : list obs) : N :=
    match o with
    | [] => 0
    | OPublished e' _ m :: o' => (if ename_eqb e' e then m else 0) + published_matched e o'
    | _ :: o' => published_matched e o'
    end.

  (** What main has received, in order, of the messages that report counts. *)
  Fixpoint traffic_received (o : list obs) : list (ename * N * N) :=
    match o with
    | [] => []
    | OMain (MTraffic e n m) :: o' => (e, n, m) :: traffic_received o'
    | _ :: o' => traffic_received o'
    end.
  Fixpoint traffic_published (o : list obs) : list (ename * N * N) :=
    match o with
    | [] => []
    | OPublished e n m :: o' => (e, n, m) :: traffic_published o'
    | _ :: o' => traffic_published o'
    end.
End Seen.

(** In the run of [ls] the listener takes no message of kind [K] out of the channel
    to main. *)
Definition leaves {Sub Eng Tag Orc Ans} (build : ename -> Sub -> result Eng) (esearch : Orc -> Eng -> Tag -> result (Ans * bool * Eng)) (cap : nat)
    (K : msg -> Prop) (ls : list label) : Prop :=
  forall ls1 ls2 s1 o1 m q, ls = ls1 ++ LListenMc :: ls2 -> run build esearch cap sys0 ls1 = Ok (s1, o1) -> y_mc s1 = m :: q -> ~ K m.

(** [a] is at least as fast as [b]: events divided by time, as 64-bit floating point
    numbers; a time of zero is infinitely fast. *)
Definition at_least_as_fast (a b : thr) : Prop := SFleb (th_value b) (th_value a) = true.
(** [c] has a throughput and nobody has a greater one. *)
Definition fastest (recs : ename -> option thr) (c : ename) : Prop :=
  exists t, recs c = Some t /\ forall e t', recs e = Some t' -> at_least_as_fast t t'.

(** Status messages of an engine, and traffic messages. *)
Definition is_status (e : ename) (m : msg) : Prop := match m with MStatus e' _ => e' = e | _ => False end.
Definition is_traffic (m : msg) : Prop := match m with MTraffic _ _ _ => True | _ => False end.

Section Inside.
  Context {Sub Eng Tag Orc Ans : Type}.
  Notation sys := (@sys Sub Eng Tag Ans).
  Notation label := (@label Sub Tag Orc).
  (** A search of [e] has found something and has not yet counted it. *)
  Definition counting (e : ename) (s : sys) : bool :=
    match y_search s with SRead _ _ e' _ | SWrite _ _ e' _ _ => ename_eqb e' e | _ => false end.
  (** Not while the monitor of [e] publishes and resets its counts. *)
  Definition quiet (e : ename) (s : sys) : Prop := c_mon (y_cnt s e) = MoWait \/ counting e s = false.
  (** A search of [e] has ended, or found something, and is not yet fully counted. *)
  Definition uncounted (e : ename) (s : sys) : bool :=
    match y_search s with SRead _ _ e' _ | SWrite _ _ e' _ _ | SReport _ _ e' _ => ename_eqb e' e | _ => false end.
  (** Not while the monitor of [e] publishes and resets its counts. *)
  Definition apart (e : ename) (s : sys) : Prop := c_mon (y_cnt s e) = MoWait \/ uncounted e s = false.
  (** Published counts on their way to main. *)
  Definition traffic_of (m : msg) : list (ename * N * N) := match m with MTraffic e n k => [(e, n, k)] | _ => [] end.
  Definition under_way (s : sys) : list (ename * N * N) :=
    match y_listener s with Some m => traffic_of m | None => [] end ++ flat_map traffic_of (y_mc s).
  (** The time that the searches take, and the number of steps. *)
  Fixpoint effort (ls : list label) : N :=
    match ls with
    | [] => 0
    | LReport us :: ls' => us + 1 + effort ls'
    | _ :: ls' => 1 + effort ls'
    end.
  (** Steps that need neither new input nor a timer. *)
  Definition internal (l : label) : bool :=
    match l with LInit _ _ | LSearch _ _ | LEnv _ | LMonTick _ | LTick _ | LStart => false | _ => true end.
  (** The tag that is being searched. *)
  Definition tag_of (s : sys) : option Tag :=
    match y_search s with SIdle => None | SLoop t _ | SRun t _ _ | SRead _ t _ _ | SWrite _ t _ _ _ | SReport _ t _ _ => Some t end.
End Inside.
