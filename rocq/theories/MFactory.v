(** Model of the engine factory at work: filtering/engine_factory.go with the
    generators and throughput monitors of filtering/engine_generator.go, and the
    goroutines of cmd/gosstrak-fc/main.go that use them.

    The goroutines are: one builder per generator (the pending tasks of
    [MGenerator]), one throughput monitor per generator, the factory's listener,
    the factory's ticker, the receiver of the management channel in main, and the
    one that searches.  A step is what one goroutine does between two points where
    it touches shared data or a channel; a run is any interleaving.  Unbuffered
    channels are one step of sender and receiver together.

    Simplifications: counters are unbounded; reading or writing a whole variable is one
    step (Go strings are two words); comparing currentEngineName and assigning it
    (95-108, 168-185) is one step; the management channel is read by main
    whenever main wants to, its own blocking on the stat manager is "main does not
    want to". *)
From Verif Require Import GoBase MFloat MGenerator.

(** filtering/engine.go:34-40 [AvailableEngines] *)
Inductive ename : Type := ELegacy | EList | EPatricia | ESplay.
Definition all_names : list ename := [ELegacy; EList; EPatricia; ESplay].
Definition ename_eqb (a b : ename) : bool :=
  match a, b with
  | ELegacy, ELegacy | EList, EList | EPatricia, EPatricia | ESplay, ESplay => true
  | _, _ => false
  end.
(** filtering/engine_factory.go:72-77 *)
Definition priority (e : ename) : N :=
  match e with ELegacy => 0 | EList => 1 | EPatricia => 3 | ESplay => 2 end%N.
(** An iteration order of a map whose keys are all the names. *)
Definition is_order (l : list ename) : bool :=
  Nat.eqb (length l) 4 && forallb (fun e => existsb (ename_eqb e) l) all_names.

(** A throughput: the events and microseconds it was computed from, and its value
    (filtering/engine_generator.go:88); no time at all gives +Inf, nothing at all a
    value that is not a number. *)
Record thr : Type := Thr { th_events : N; th_time : N }.
Definition th_value (t : thr) : spec_float := f64_div (f64 (Z.of_N (th_events t))) (f64 (Z.of_N (th_time t))).
(** filtering/engine_generator.go:89: [t != 0 && !math.IsNaN(t)] *)
Definition th_publish (t : thr) : bool := match th_value t with S754_zero _ | S754_nan => false | _ => true end.
(** [a > b] *)
Definition thr_gtb (a b : thr) : bool := SFltb (th_value b) (th_value a).
(** float64(0) *)
Definition thr0 : thr := Thr 0 1.

(** filtering/management_message.go *)
Inductive msg : Type :=
| MAdd (pattern uri : gostring)
| MDelete (pattern uri : gostring)
| MGenerated (e : ename)
| MTraffic (e : ename) (events matched : N)
| MStatus (e : ename) (t : thr)
| MSelected (e : option ename).

(** filtering/engine_factory.go:92-106: pick the best among the entries in the
    order they are visited; [None] is the empty name. *)
Definition pick (read : list (ename * thr)) : option ename :=
  fst (fold_left (fun acc kv => if thr_gtb (snd kv) (snd acc) then (Some (fst kv), snd kv) else acc) read (None, thr0)).

(** The throughput monitor (filtering/engine_generator.go:68-102): waiting, sending
    the traffic counts it has read, sending the throughput, about to reset. *)
Inductive monitor : Type := MoWait | MoTraffic (events matched : N) | MoStatus (t : thr) | MoReset.
Record counters : Type := { c_events : N; c_matched : N; c_time : N; c_mon : monitor }.
Definition counters0 : counters := {| c_events := 0; c_matched := 0; c_time := 0; c_mon := MoWait |}.

(** The ticker (filtering/engine_factory.go:92-117): waiting, in the Range loop
    with the names still to visit and what it has read, sending SelectedEngine. *)
Inductive ticker : Type := TiWait | TiRange (rest : list ename) (read : list (ename * thr)) | TiSend (m : msg).

Section Factory.
  Context {Sub Eng Tag Orc Ans : Type}.
  (** Constructors; and an engine's Search: its answer, whether there are report
      URIs, and the engine afterwards.  [Orc] stands for what a search leaves
      open, such as the iteration order of a map. *)
  Context (build : ename -> Sub -> result Eng) (esearch : Orc -> Eng -> Tag -> result (Ans * bool * Eng)).
  (** The capacity of the management channel (cmd/gosstrak-fc/main.go:34, 134). *)
  Context (cap : nat).

  (** The goroutine that searches.  [k] is what EngineFactory.Search still has to
      visit, [None] when this is the search whose answer is returned.
      [SRead]/[SWrite]: the two halves of MatchedCount++. *)
  Inductive searcher : Type :=
  | SIdle
  | SLoop (t : Tag) (rest : list ename)
  | SRun (t : Tag) (e : ename) (k : option (list ename))
  | SRead (a : Ans) (t : Tag) (e : ename) (k : option (list ename))
  | SWrite (a : Ans) (t : Tag) (e : ename) (k : option (list ename)) (m : N)
  | SReport (a : Ans) (t : Tag) (e : ename) (k : option (list ename)).

  Record sys : Type := {
    y_gen : ename -> gen Sub Eng;
    y_cnt : ename -> counters;
    y_cur : option ename;            (* currentEngineName; [None] is "" *)
    y_perf : ename -> thr;           (* enginePerformance *)
    y_listener : option msg;         (* what the listener is sending to main *)
    y_ticker : ticker;
    y_mc : list msg;                 (* contents of the management channel *)
    y_main : bool;                   (* main has seen IsActive() *)
    y_search : searcher
  }.
  (** filtering/engine_factory.go:50-82 [NewEngineFactory] *)
  Definition sys0 : sys := {|
    y_gen := fun _ => new_gen; y_cnt := fun _ => counters0; y_cur := None; y_perf := fun _ => thr0;
    y_listener := None; y_ticker := TiWait; y_mc := []; y_main := false; y_search := SIdle |}.

  (** filtering/engine_factory.go:32-37 [IsActive] *)
  Definition is_active (s : sys) : bool := match y_cur s with None => false | Some _ => true end.

  Definition upd {V} (f : ename -> V) (e : ename) (v : V) : ename -> V :=
    fun e' => if ename_eqb e' e then v else f e'.

  Definition set_gen (s : sys) (e : ename) (g : gen Sub Eng) : sys :=
    {| y_gen := upd (y_gen s) e g; y_cnt := y_cnt s; y_cur := y_cur s; y_perf := y_perf s; y_listener := y_listener s;
       y_ticker := y_ticker s; y_mc := y_mc s; y_main := y_main s; y_search := y_search s |}.
  Definition set_cnt (s : sys) (e : ename) (c : counters) : sys :=
    {| y_gen := y_gen s; y_cnt := upd (y_cnt s) e c; y_cur := y_cur s; y_perf := y_perf s; y_listener := y_listener s;
       y_ticker := y_ticker s; y_mc := y_mc s; y_main := y_main s; y_search := y_search s |}.
  Definition set_listener (s : sys) (m : option msg) : sys :=
    {| y_gen := y_gen s; y_cnt := y_cnt s; y_cur := y_cur s; y_perf := y_perf s; y_listener := m;
       y_ticker := y_ticker s; y_mc := y_mc s; y_main := y_main s; y_search := y_search s |}.
  Definition set_cur (s : sys) (c : option ename) : sys :=
    {| y_gen := y_gen s; y_cnt := y_cnt s; y_cur := c; y_perf := y_perf s; y_listener := y_listener s;
       y_ticker := y_ticker s; y_mc := y_mc s; y_main := y_main s; y_search := y_search s |}.
  Definition set_perf (s : sys) (e : ename) (t : thr) : sys :=
    {| y_gen := y_gen s; y_cnt := y_cnt s; y_cur := y_cur s; y_perf := upd (y_perf s) e t; y_listener := y_listener s;
       y_ticker := y_ticker s; y_mc := y_mc s; y_main := y_main s; y_search := y_search s |}.
  Definition set_ticker (s : sys) (t : ticker) : sys :=
    {| y_gen := y_gen s; y_cnt := y_cnt s; y_cur := y_cur s; y_perf := y_perf s; y_listener := y_listener s;
       y_ticker := t; y_mc := y_mc s; y_main := y_main s; y_search := y_search s |}.
  Definition set_mc (s : sys) (q : list msg) : sys :=
    {| y_gen := y_gen s; y_cnt := y_cnt s; y_cur := y_cur s; y_perf := y_perf s; y_listener := y_listener s;
       y_ticker := y_ticker s; y_mc := q; y_main := y_main s; y_search := y_search s |}.
  Definition set_main (s : sys) : sys :=
    {| y_gen := y_gen s; y_cnt := y_cnt s; y_cur := y_cur s; y_perf := y_perf s; y_listener := y_listener s;
       y_ticker := y_ticker s; y_mc := y_mc s; y_main := true; y_search := y_search s |}.
  Definition set_search (s : sys) (x : searcher) : sys :=
    {| y_gen := y_gen s; y_cnt := y_cnt s; y_cur := y_cur s; y_perf := y_perf s; y_listener := y_listener s;
       y_ticker := y_ticker s; y_mc := y_mc s; y_main := y_main s; y_search := x |}.

  (** What can be seen of a run from outside. *)
  Inductive obs : Type :=
  | OGenerated (e : ename)                 (* the engine has been built *)
  | ONotified (e : ename)                  (* the factory learns of it *)
  | OPublished (e : ename) (events matched : N)   (* a monitor's counts arrive *)
  | OStored (e : ename) (t : thr)          (* a throughput is recorded *)
  | OMatched (e : ename)                   (* an engine found report URIs *)
  | OSearched (e : ename)                  (* a search by an engine ends *)
  | OAnswer (e : ename) (t : Tag) (a : Ans)  (* EngineFactory.Search returns *)
  | OMain (m : msg).                       (* main receives a message *)

  (** filtering/engine_factory.go:137-193: the listener handles a message.  Line
      167 calls a method of the engine: a nil engine panics. *)
  Definition handle (m : msg) (s : sys) : result (sys * list obs) :=
    match m with
    | MAdd _ _ | MDelete _ _ | MSelected _ => Ok (s, [])
    | MGenerated e =>
        match g_engine (y_gen s e) with
        | None => Panic
        | Some _ =>
            let better := match y_cur s with None => true | Some c => (priority c <? priority e)%N end in
            Ok (if better then set_listener (set_cur s (Some e)) (Some (MSelected (Some e))) else s, [ONotified e])
        end
    | MTraffic _ _ _ => Ok (set_listener s (Some m), [])
    | MStatus e t => Ok (set_listener (set_perf s e t) (Some m), [OStored e t])
    end.

  (** The searching goroutine goes on after the search by [e]. *)
  Definition goes_on (a : Ans) (t : Tag) (e : ename) (k : option (list ename)) : searcher * list obs :=
    match k with
    | Some rest => (SLoop t rest, [])
    | None => (SIdle, [OAnswer e t a])
    end.

  Inductive label : Type :=
  | LInit (e : ename) (sub : Sub)          (* Run fires init (197-201) *)
  | LTask (e : ename) (i : nat)            (* a builder task other than the notification *)
  | LNotify (e : ename) (i : nat)          (* a notification task meets the listener *)
  | LMonTick (e : ename)                   (* a monitor's ticker fires *)
  | LTraffic (e : ename)                   (* a monitor's counts meet the listener *)
  | LStatus (e : ename)                    (* a monitor's throughput meets the listener *)
  | LMonReset (e : ename)
  | LListenMc                              (* the listener receives from mainChannel *)
  | LListenSend                            (* the listener's send succeeds *)
  | LTick (order : list ename)             (* the factory's ticker fires *)
  | LTickRead                              (* Range visits the next entry *)
  | LTickPick                              (* Range is over *)
  | LTickSend                              (* the ticker's send succeeds *)
  | LMainRecv                              (* main receives from the channel *)
  | LEnv (m : msg)                         (* a subscription message is put into the channel *)
  | LStart                                 (* main sees IsActive() *)
  | LSearch (t : Tag) (order : list ename) (* main calls Search *)
  | LVisit                                 (* Search looks at the next generator *)
  | LRun (x : Orc)                         (* an engine searches *)
  | LRead | LWrite                         (* MatchedCount++ *)
  | LReport (us : N).                      (* the elapsed time meets the monitor *)

  Definition listening (s : sys) : bool := match y_listener s with None => true | Some _ => false end.
  Definition put (m : msg) (s : sys) : result sys :=
    if Nat.ltb (length (y_mc s)) cap then Ok (set_mc s (y_mc s ++ [m])) else Err.

  (** One step; [Err] means that it is not possible in this state. *)
  Definition step (s : sys) (l : label) : result (sys * list obs) :=
    match l with
    | LInit e sub => Ok (set_gen s e (fst (fire EvInit (Some sub) (y_gen s e))), [])
    | LTask e i =>
        match take_out i (g_todo (y_gen s e)) with
        | None | Some (TNotify, _) => Err
        | Some (t, rest) =>
            let! (g, _) := do_task (build e) t rest (y_gen s e) in
            Ok (set_gen s e g, match t with TBuild _ => [OGenerated e] | _ => [] end)
        end
    | LNotify e i =>
        if listening s then
          match take_out i (g_todo (y_gen s e)) with
          | Some (TNotify, rest) =>
              let! (g, _) := do_task (build e) TNotify rest (y_gen s e) in
              handle (MGenerated e) (set_gen s e g)
          | _ => Err
          end
        else Err
    (* filtering/engine_generator.go:80-86 *)
    | LMonTick e =>
        let c := y_cnt s e in
        match c_mon c with
        | MoWait => Ok (set_cnt s e {| c_events := c_events c; c_matched := c_matched c; c_time := c_time c;
                                       c_mon := MoTraffic (c_events c) (c_matched c) |}, [])
        | _ => Err
        end
    (* filtering/engine_generator.go:82-90 *)
    | LTraffic e =>
        let c := y_cnt s e in
        match c_mon c with
        | MoTraffic ev ma =>
            if listening s then
              let t := Thr (c_events c) (c_time c) in
              let next := if th_publish t then MoStatus t else MoReset in
              let s' := set_cnt s e {| c_events := c_events c; c_matched := c_matched c; c_time := c_time c; c_mon := next |} in
              let! (s2, o) := handle (MTraffic e ev ma) s' in
              Ok (s2, OPublished e ev ma :: o)
            else Err
        | _ => Err
        end
    | LStatus e =>
        let c := y_cnt s e in
        match c_mon c with
        | MoStatus t =>
            if listening s then
              handle (MStatus e t) (set_cnt s e {| c_events := c_events c; c_matched := c_matched c; c_time := c_time c; c_mon := MoReset |})
            else Err
        | _ => Err
        end
    (* filtering/engine_generator.go:97-99 *)
    | LMonReset e =>
        match c_mon (y_cnt s e) with
        | MoReset => Ok (set_cnt s e counters0, [])
        | _ => Err
        end
    | LListenMc =>
        if listening s then
          match y_mc s with
          | m :: q => handle m (set_mc s q)
          | [] => Err
          end
        else Err
    | LListenSend =>
        match y_listener s with
        | Some m => let! s' := put m s in Ok (set_listener s' None, [])
        | None => Err
        end
    | LTick order =>
        match y_ticker s with
        | TiWait => if is_order order then Ok (set_ticker s (TiRange order []), []) else Err
        | _ => Err
        end
    | LTickRead =>
        match y_ticker s with
        | TiRange (e :: rest) read => Ok (set_ticker s (TiRange rest (read ++ [(e, y_perf s e)])), [])
        | _ => Err
        end
    (* filtering/engine_factory.go:107-114 *)
    | LTickPick =>
        match y_ticker s with
        | TiRange [] read =>
            let cur := match pick read with None => y_cur s | Some e => Some e end in
            Ok (set_ticker (set_cur s cur) (TiSend (MSelected cur)), [])
        | _ => Err
        end
    | LTickSend =>
        match y_ticker s with
        | TiSend m => let! s' := put m s in Ok (set_ticker s' TiWait, [])
        | _ => Err
        end
    | LMainRecv =>
        match y_mc s with
        | m :: q => Ok (set_mc s q, [OMain m])
        | [] => Err
        end
    | LEnv m =>
        match m with
        | MAdd _ _ | MDelete _ _ => let! s' := put m s in Ok (s', [])
        | _ => Err
        end
    (* cmd/gosstrak-fc/main.go:175-177, filtering/engine_factory.go:32-37 *)
    | LStart => match y_cur s with Some _ => Ok (set_main s, []) | None => Err end
    (* filtering/engine_factory.go:40-47 *)
    | LSearch t order =>
        match y_search s with
        | SIdle => if y_main s && is_order order then Ok (set_search s (SLoop t order), []) else Err
        | _ => Err
        end
    | LVisit =>
        match y_search s with
        | SLoop t (e :: rest) =>
            let other := match y_cur s with Some c => negb (ename_eqb c e) | None => true end in
            let ready := match g_fsm (y_gen s e) with Ready => true | _ => false end in
            Ok (set_search s (if other && ready then SRun t e (Some rest) else SLoop t rest), [])
        | SLoop t [] =>
            match y_cur s with
            | Some c => Ok (set_search s (SRun t c None), [])
            | None => Panic
            end
        | _ => Err
        end
    (* filtering/engine_generator.go:108-115 *)
    | LRun x =>
        match y_search s with
        | SRun t e k =>
            let g := y_gen s e in
            match g_engine g with
            | None => Panic
            | Some eng =>
                let! (a, found, eng') := esearch x eng t in
                let s' := set_gen s e {| g_fsm := g_fsm g; g_engine := Some eng'; g_todo := g_todo g |} in
                Ok (set_search s' (if found then SRead a t e k else SReport a t e k), if found then [OMatched e] else [])
            end
        | _ => Err
        end
    | LRead =>
        match y_search s with
        | SRead a t e k => Ok (set_search s (SWrite a t e k (c_matched (y_cnt s e))), [])
        | _ => Err
        end
    | LWrite =>
        match y_search s with
        | SWrite a t e k m =>
            let c := y_cnt s e in
            Ok (set_search (set_cnt s e {| c_events := c_events c; c_matched := m + 1; c_time := c_time c; c_mon := c_mon c |})
                  (SReport a t e k), [])
        | _ => Err
        end
    (* filtering/engine.go:44-46, filtering/engine_generator.go:73-79 *)
    | LReport us =>
        match y_search s with
        | SReport a t e k =>
            let c := y_cnt s e in
            match c_mon c with
            | MoWait =>
                let '(x, o) := goes_on a t e k in
                Ok (set_search (set_cnt s e {| c_events := c_events c + 1; c_matched := c_matched c; c_time := c_time c + us; c_mon := MoWait |}) x,
                    OSearched e :: o)
            | _ => Err
            end
        | _ => Err
        end
    end.

  (** A run, with everything that was seen. *)
  Fixpoint run (s : sys) (ls : list label) : result (sys * list obs) :=
    match ls with
    | [] => Ok (s, [])
    | l :: ls' =>
        let! (s1, o1) := step s l in
        let! (s2, o2) := run s1 ls' in
        Ok (s2, o1 ++ o2)
    end.
End Factory.
