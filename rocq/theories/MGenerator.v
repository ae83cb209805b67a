(** Model of the life cycle of an engine generator (filtering/engine_generator.go).

    Assumption about github.com/looplab/fsm v1.0.2: Event looks the pair of event
    and current state up in the table; when it is absent the state stays and an
    error is returned; otherwise the state is set first and the enter callbacks
    run afterwards, with the machine open to further events. *)
From Verif Require Import GoBase.

(** filtering/engine_generator.go:50-57: states and events *)
Inductive gstate : Type := Unavailable | Generating | Ready | Pending | Rebuilding.
Inductive gevent : Type := EvInit | EvDeploy | EvUpdate | EvRebuild.
Definition fsm_next (e : gevent) (s : gstate) : option gstate :=
  match e, s with
  | EvInit, Unavailable => Some Generating
  | EvDeploy, Generating => Some Ready
  | EvDeploy, Rebuilding => Some Ready
  | EvUpdate, Ready => Some Pending
  | EvRebuild, Pending => Some Rebuilding
  | _, _ => None
  end.

(** What an enter callback still has to do, in its own goroutine or in that of
    the caller of Event:
    [TBuild]: build the engine from the argument of init, then fire deploy
    (enterGenerating, 121-128);
    [TDeploy]: fire deploy (the end of the same, and enterRebuilding, 130-153);
    [TRebuild]: fire rebuild (enterPending, 163-166);
    [TNotify]: send OnEngineGenerated (enterReady, 155-161). *)
Inductive todo (S : Type) : Type := TBuild (sub : option S) | TDeploy | TRebuild | TNotify.
Arguments TBuild {S}. Arguments TDeploy {S}. Arguments TRebuild {S}. Arguments TNotify {S}.

(** Take the [i]-th element out of a list. *)
Fixpoint take_out {A} (i : nat) (l : list A) : option (A * list A) :=
  match l, i with
  | [], _ => None
  | x :: l', O => Some (x, l')
  | x :: l', S i' =>
      match take_out i' l' with
      | Some (y, r) => Some (y, x :: r)
      | None => None
      end
  end.

Section Generator.
  (** What engines are built from, engines, and the constructor of this
      generator's engine. *)
  Context {Sub Eng : Type} (build : Sub -> result Eng).

  (** filtering/engine_generator.go:22-33: the fields that matter here.  The
      tasks are those of all goroutines that still have one. *)
  Record gen : Type := { g_fsm : gstate; g_engine : option Eng; g_todo : list (todo Sub) }.
  Definition new_gen : gen := {| g_fsm := Unavailable; g_engine := None; g_todo := [] |}.

  (** The enter callback of a state (filtering/engine_generator.go:58-64);
      [arg] is the argument given with the event, if any. *)
  Definition enter (s : gstate) (arg : option Sub) : list (todo Sub) :=
    match s with
    | Unavailable => []
    | Generating => [TBuild arg]
    | Ready => [TNotify]
    | Pending => [TRebuild]
    | Rebuilding => [TDeploy]
    end.
  (** FSM.Event: the generator afterwards, and whether the event was accepted.
      Simplification: the message that goes with update and rebuild is left out;
      enterPending passes it on and enterRebuilding looks at its type to do
      nothing. *)
  Definition fire (e : gevent) (arg : option Sub) (g : gen) : gen * bool :=
    match fsm_next e (g_fsm g) with
    | Some s => ({| g_fsm := s; g_engine := g_engine g; g_todo := g_todo g ++ enter s arg |}, true)
    | None => (g, false)
    end.

  (** A pending task is done; the flag tells whether OnEngineGenerated was sent.
      Line 124 panics when init had no argument. *)
  Definition do_task (t : todo Sub) (rest : list (todo Sub)) (g : gen) : result (gen * bool) :=
    let g' := {| g_fsm := g_fsm g; g_engine := g_engine g; g_todo := rest |} in
    match t with
    | TBuild None => Panic
    | TBuild (Some sub) =>
        let! eng := build sub in
        Ok ({| g_fsm := g_fsm g; g_engine := Some eng; g_todo := rest ++ [TDeploy] |}, false)
    | TDeploy => Ok (fst (fire EvDeploy None g'), false)
    | TRebuild => Ok (fst (fire EvRebuild None g'), false)
    | TNotify => Ok (g', true)
    end.

  (** One step: somebody fires an event, or the [i]-th pending task is done. *)
  Inductive glabel : Type := GFire (e : gevent) (arg : option Sub) | GTask (i : nat).
  (** [Err]: there is no such task. *)
  Definition gstep (g : gen) (l : glabel) : result (gen * bool) :=
    match l with
    | GFire e arg => Ok (fst (fire e arg g), false)
    | GTask i =>
        match take_out i (g_todo g) with
        | Some (t, rest) => do_task t rest g
        | None => Err
        end
    end.
  Fixpoint grun (g : gen) (ls : list glabel) : result gen :=
    match ls with
    | [] => Ok g
    | l :: ls' => let! (g', _) := gstep g l in grun g' ls'
    end.
End Generator.
Arguments gen : clear implicits.
Arguments new_gen {Sub Eng}.
Arguments glabel : clear implicits.
