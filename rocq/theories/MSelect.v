(** Model of the selection of an engine, one access to currentEngineName at a time
    (filtering/engine_factory.go:92-117 and 166-186).  [MFactory] makes the
    comparison, the assignment and the reading of the name for the message one step;
    here the listener and the ticker do one of them per step, in any interleaving.

    Simplifications: a name is read and written as a whole ([MWord] splits it); which
    engine the ticker found fastest is left open; reading the name for the log is
    left out; the messages are listed in the order in which they were put into the
    channel. *)
From Verif Require Import GoBase MFloat MGenerator MFactory.

(** What the listener does next with the announcement of an engine. *)
Inductive li : Type :=
| LiIdle
| LiEmpty (e : ename)            (* 168: is a name set? *)
| LiCompare (e : ename)          (* 177: compare the priorities *)
| LiAssign (e : ename)           (* 170, 179 *)
| LiName                         (* 173, 182: the name for the message *)
| LiSend (m : option ename).     (* 171, 180 *)
(** What the ticker does next; [None] is the empty name. *)
Inductive ti : Type :=
| TkWait
| TkCompare (p : option ename)   (* 107 *)
| TkAssign (e : ename)           (* 109 *)
| TkName                         (* 113 *)
| TkSend (m : option ename).     (* 111 *)
Inductive who : Type := ByListener | ByTicker.
Record sel : Type := { x_cur : option ename; x_li : li; x_ti : ti }.
Definition sel0 : sel := {| x_cur := None; x_li := LiIdle; x_ti := TkWait |}.

(** A change of the name, with the name before; a SelectedEngine message. *)
Inductive seen : Type := Change (w : who) (old : option ename) (new : ename) | Told (w : who) (m : option ename).
Inductive slabel : Type :=
| Announce (e : ename)           (* the listener receives OnEngineGenerated *)
| Tick (p : option ename)        (* the ticker fires and finds [p] the fastest *)
| ListenerGoes
| TickerGoes.

Definition same_name (a b : option ename) : bool :=
  match a, b with None, None => true | Some x, Some y => ename_eqb x y | _, _ => false end.
(** filtering/engine_factory.go:177: a missing key of the priority map counts 0. *)
Definition priority_of (c : option ename) : N := match c with Some e => priority e | None => 0 end.

(** [Err]: the step is not possible. *)
Definition select_step (s : sel) (l : slabel) : result (sel * list seen) :=
  match l with
  | Announce e => match x_li s with LiIdle => Ok ({| x_cur := x_cur s; x_li := LiEmpty e; x_ti := x_ti s |}, []) | _ => Err end
  | Tick p => match x_ti s with TkWait => Ok ({| x_cur := x_cur s; x_li := x_li s; x_ti := TkCompare p |}, []) | _ => Err end
  | ListenerGoes =>
      match x_li s with
      | LiIdle => Err
      | LiEmpty e =>
          let next := match x_cur s with None => LiAssign e | Some _ => LiCompare e end in
          Ok ({| x_cur := x_cur s; x_li := next; x_ti := x_ti s |}, [])
      | LiCompare e =>
          let next := if (priority_of (x_cur s) <? priority e)%N then LiAssign e else LiIdle in
          Ok ({| x_cur := x_cur s; x_li := next; x_ti := x_ti s |}, [])
      | LiAssign e => Ok ({| x_cur := Some e; x_li := LiName; x_ti := x_ti s |}, [Change ByListener (x_cur s) e])
      | LiName => Ok ({| x_cur := x_cur s; x_li := LiSend (x_cur s); x_ti := x_ti s |}, [])
      | LiSend m => Ok ({| x_cur := x_cur s; x_li := LiIdle; x_ti := x_ti s |}, [Told ByListener m])
      end
  | TickerGoes =>
      match x_ti s with
      | TkWait => Err
      | TkCompare p =>
          let next := match p with
                      | Some e => if same_name (x_cur s) p then TkName else TkAssign e
                      | None => TkName
                      end in
          Ok ({| x_cur := x_cur s; x_li := x_li s; x_ti := next |}, [])
      | TkAssign e => Ok ({| x_cur := Some e; x_li := x_li s; x_ti := TkName |}, [Change ByTicker (x_cur s) e])
      | TkName => Ok ({| x_cur := x_cur s; x_li := x_li s; x_ti := TkSend (x_cur s) |}, [])
      | TkSend m => Ok ({| x_cur := x_cur s; x_li := x_li s; x_ti := TkWait |}, [Told ByTicker m])
      end
  end.
Fixpoint select_run (s : sel) (ls : list slabel) : result (sel * list seen) :=
  match ls with
  | [] => Ok (s, [])
  | l :: ls' =>
      let! (s1, o1) := select_step s l in
      let! (s2, o2) := select_run s1 ls' in
      Ok (s2, o1 ++ o2)
  end.
