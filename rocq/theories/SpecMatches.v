(** What overlaps do to the counts of matching searches. *)
From Verif Require Import GoBase MGenerator MFactory SpecFactory.

(** Counting a match of [e] takes two moments: the counter is read, then written.
    [ov_reset]: since the last reading, the monitor has reset the counter.
    [ov_lost]: how many matches were written while the monitor was publishing,
    between its looking at the counter and its resetting it.
    [ov_again]: the matches that came back, because they had been read before a
    reset and were written after it, when the monitor was waiting again. *)
Record overlaps : Type := { ov_reset : bool; ov_lost : N; ov_again : N }.
Definition no_overlaps : overlaps := {| ov_reset := false; ov_lost := 0; ov_again := 0 |}.

Section Ledger.
  Context {Sub Eng Tag Orc Ans : Type} (build : ename -> Sub -> result Eng)
    (esearch : Orc -> Eng -> Tag -> result (Ans * bool * Eng)) (cap : nat).
  Notation sys := (@sys Sub Eng Tag Ans).
  Notation label := (@label Sub Tag Orc).

  Definition waiting (e : ename) (s : sys) : bool := match c_mon (y_cnt s e) with MoWait => true | _ => false end.
  Definition note (e : ename) (s : sys) (l : label) (v : overlaps) : overlaps :=
    match l with
    | LRead =>
        match y_search s with
        | SRead _ _ e' _ => if ename_eqb e' e then {| ov_reset := false; ov_lost := ov_lost v; ov_again := ov_again v |} else v
        | _ => v
        end
    | LMonReset e' => if ename_eqb e' e then {| ov_reset := true; ov_lost := ov_lost v; ov_again := ov_again v |} else v
    | LWrite =>
        match y_search s with
        | SWrite _ _ e' _ read =>
            if ename_eqb e' e then
              if waiting e s then
                if ov_reset v then {| ov_reset := ov_reset v; ov_lost := ov_lost v; ov_again := ov_again v + read |} else v
              else {| ov_reset := ov_reset v; ov_lost := ov_lost v + 1; ov_again := ov_again v |}
            else v
        | _ => v
        end
    | _ => v
    end.
  (** Over a run. *)
  Fixpoint overlaps_of (e : ename) (v : overlaps) (s : sys) (ls : list label) : overlaps :=
    match ls with
    | [] => v
    | l :: ls' =>
        match step build esearch cap s l with
        | Ok (s', _) => overlaps_of e (note e s l v) s' ls'
        | _ => v
        end
    end.

  (** Matches that are found and not yet published, those aside that were lost:
      a match about to be counted, and the counter, or what the monitor has read
      of it and is about to publish. *)
  Definition unpublished (e : ename) (s : sys) : N :=
    (if counting e s then 1 else 0) +
    match c_mon (y_cnt s e) with
    | MoWait => c_matched (y_cnt s e)
    | MoTraffic _ m => m
    | MoStatus _ | MoReset => 0
    end.
  (** How often the monitor of [e] has fired. *)
  Fixpoint fired (e : ename) (ls : list label) : N :=
    match ls with
    | [] => 0
    | LMonTick e' :: ls' => (if ename_eqb e' e then 1 else 0) + fired e ls'
    | _ :: ls' => fired e ls'
    end.
End Ledger.
