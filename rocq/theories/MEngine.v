(** Model of the helpers of filtering/engine.go. *)
From Verif Require Import GoBase.

(** filtering/engine.go:103-111: lexicographic minimum and maximum. *)
Definition min_max_step (mm : gostring * gostring) (s : gostring) : gostring * gostring :=
  let '(mn, mx) := mm in
  if sltb s mn then (s, mx) else if sltb mx s then (mn, s) else (mn, mx).

(** filtering/engine.go:112-119: [min[:i]] at the first difference, else [min]. *)
Fixpoint common_loop (mn mx : gostring) : gostring :=
  match mn, mx with
  | x :: mn', y :: mx' => if Ascii.eqb x y then x :: common_loop mn' mx' else []
  | [], _ => []
  | _ :: _, [] => mn
  end.

(** filtering/engine.go:93-120 [lcp] *)
Definition lcp (l : list gostring) : gostring :=
  match l with
  | [] => []
  | [x] => x
  | x :: rest =>
      let '(mn, mx) := fold_left min_max_step rest (x, x) in
      common_loop mn mx
  end.

(** filtering/engine.go:123-136 [getNextBit]; the result is the rune. *)
Definition get_next_bit (id : list N) (nbo : nat) : result ascii :=
  let o := nbo / 8 in
  if Nat.eqb (List.length id) o && Nat.eqb (nbo mod 8) 0 then Ok cx
  else if Nat.leb (List.length id) o then Err
  else
    let! b := index id o in
    if N.eqb (N.shiftr b (N.of_nat (7 - nbo mod 8)) mod 2) 0 then Ok c0 else Ok c1.

(** filtering/engine.go:50-87 [findPartialLCP].  Recursion is on shorter
    strings; [fuel] bounds the recursion depth, [None] is "out of fuel". *)
Definition tails_with (c : ascii) (l : list gostring) : list gostring :=
  flat_map (fun s => match s with
                     | x :: s' => if Ascii.eqb x c then [s'] else []
                     | [] => []
                     end) l.
Fixpoint find_partial_lcp_fuel (fuel : nat) (l : list gostring) : option (gostring * nat) :=
  match fuel with
  | O => None
  | S fuel' =>
      if Nat.ltb (List.length l) 2 then Some ([], 0)
      else
        let m := lcp l in
        if Nat.ltb 0 (List.length m) then Some (m, List.length l)
        else
          let zeros := tails_with c0 l in
          let ones := tails_with c1 l in
          let try_ones :=
            if Nat.ltb 1 (List.length ones) then
              match find_partial_lcp_fuel fuel' ones with
              | None => None
              | Some (p, n) =>
                  if Nat.ltb 0 (List.length p) && Nat.ltb 1 n then Some (c1 :: p, n)
                  else Some ([], 0)
              end
            else Some ([], 0) in
          if Nat.ltb 1 (List.length zeros) then
            match find_partial_lcp_fuel fuel' zeros with
            | None => None
            | Some (p, n) =>
                if Nat.ltb 0 (List.length p) && Nat.ltb 1 n then Some (c0 :: p, n)
                else try_ones
            end
          else try_ones
  end.
