(** Model of the two goroutines of cmd/gosstrak-fc/main.go that share the work on the
    connection: the receive loop (main.go:261-304) and the one that takes batches of
    read events from the unbuffered channel rq and searches for each event
    (main.go:219-246).

    Simplifications: a search is one step here ([MFactory] has its inside); the
    decoder of reports is the parameter [unmarshal] (library); receiving one message
    and acting on it is one step of the loop. *)
From Verif Require Import GoBase MMain.

Section Pipe.
  Context {Ev : Type} (unmarshal : list N -> list Ev) (configured : N).

  (** The loop: about to read a message; at [rq <- batch] (main.go:299); the program
      has ended, log.Fatal ending all goroutines. *)
  Inductive ploop : Type := PRead | PHand (batch : list Ev) | PDead (e : ending).
  (** The other goroutine: at [<-rq] (main.go:222); in the loop over a batch
      (main.go:228) with the events still to search for. *)
  Inductive pwork : Type := WWait | WBusy (rest : list Ev).
  Record pipe : Type := { p_conn : list (list N); p_loop : ploop; p_work : pwork }.
  Definition pipe0 (cs : list (list N)) : pipe := {| p_conn := cs; p_loop := PRead; p_work := WWait |}.

  (** What can be seen: something written to the reader, a batch handed over, a
      search made, a batch finished. *)
  Inductive pseen : Type := Wrote (a : action) | Took (batch : list Ev) | SearchedFor (e : Ev) | Finished.
  Inductive plabel : Type := LoopGoes | HandsOver | WorkGoes.

  (** [Err]: the step is not possible. *)
  Definition pipe_step (s : pipe) (l : plabel) : result (pipe * list pseen) :=
    match l with
    | LoopGoes =>
        match p_loop s with
        | PRead =>
            match recv_message (p_conn s) with
            | None => Ok ({| p_conn := p_conn s; p_loop := PDead Disconnected; p_work := p_work s |}, [])
            | Some (m, cs) =>
                match dispatch configured m with
                | None => Ok ({| p_conn := cs; p_loop := PDead (UnknownHeader (lm_header m)); p_work := p_work s |}, [])
                | Some [Deliver v] => Ok ({| p_conn := cs; p_loop := PHand (unmarshal v); p_work := p_work s |}, [])
                | Some acts => Ok ({| p_conn := cs; p_loop := PRead; p_work := p_work s |}, map Wrote acts)
                end
            end
        | _ => Err
        end
    | HandsOver =>
        match p_loop s, p_work s with
        | PHand b, WWait => Ok ({| p_conn := p_conn s; p_loop := PRead; p_work := WBusy b |}, [Took b])
        | _, _ => Err
        end
    | WorkGoes =>
        match p_loop s, p_work s with
        | PDead _, _ => Err
        | _, WWait => Err
        | _, WBusy [] => Ok ({| p_conn := p_conn s; p_loop := p_loop s; p_work := WWait |}, [Finished])
        | _, WBusy (e :: r) => Ok ({| p_conn := p_conn s; p_loop := p_loop s; p_work := WBusy r |}, [SearchedFor e])
        end
    end.
  Fixpoint pipe_run (s : pipe) (ls : list plabel) : result (pipe * list pseen) :=
    match ls with
    | [] => Ok (s, [])
    | l :: ls' =>
        let! (s1, o1) := pipe_step s l in
        let! (s2, o2) := pipe_run s1 ls' in
        Ok (s2, o1 ++ o2)
    end.
End Pipe.
Arguments ploop : clear implicits.
Arguments pwork : clear implicits.
Arguments pipe : clear implicits.
Arguments pseen : clear implicits.
