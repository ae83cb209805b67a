(** Messages on their way to main. *)
From Verif Require Import GoBase MGenerator MFactory.

(** What a monitor still has to send. *)
Definition owed_by (m : monitor) : nat := match m with MoTraffic _ _ => 2 | MoStatus _ => 1 | _ => 0 end.
(** What the listener and the ticker have to send. *)
Definition due_of (m : option msg) : nat := match m with Some _ => 1 | None => 0 end.
Definition taking (t : ticker) : nat := match t with TiWait => 0 | _ => 1 end.
Section Messages.
  Context {Sub Eng Tag Orc Ans : Type}.
  Notation sys := (@sys Sub Eng Tag Ans).
  Notation label := (@label Sub Tag Orc).
  (** Messages in the management channel, in the listener's and the ticker's hands,
      and to be sent by the monitors. *)
  Definition pending (s : sys) : nat :=
    length (y_mc s) + due_of (y_listener s) + taking (y_ticker s) +
    (owed_by (c_mon (y_cnt s ELegacy)) + owed_by (c_mon (y_cnt s EList)) + owed_by (c_mon (y_cnt s EPatricia)) + owed_by (c_mon (y_cnt s ESplay))).
  (** The messages a schedule makes at most: two for each interval of a monitor, one
      for each tick, announcement and subscription message; and those main receives. *)
  Fixpoint sent (ls : list label) : nat :=
    match ls with
    | [] => 0
    | LMonTick _ :: ls' => 2 + sent ls'
    | LTick _ :: ls' | LNotify _ _ :: ls' | LEnv _ :: ls' => 1 + sent ls'
    | _ :: ls' => sent ls'
    end.
  Fixpoint received (ls : list label) : nat :=
    match ls with
    | [] => 0
    | LMainRecv :: ls' => 1 + received ls'
    | _ :: ls' => received ls'
    end.
  (** The listener has a message to send and the channel is full. *)
  Definition jammed (cap : nat) (s : sys) : Prop := y_listener s <> None /\ cap <= length (y_mc s).
End Messages.
