(** Specification side of C94: interleavings. *)
From Verif Require Import GoBase.

(** [interleaved gs w]: [w] is what comes about when goroutines whose actions are
    the lists [gs] run, each in its own order. *)
Inductive interleaved {A : Type} : list (list A) -> list A -> Prop :=
| inter_done gs : Forall (fun g => g = []) gs -> interleaved gs []
| inter_step gs1 a g gs2 w : interleaved (gs1 ++ g :: gs2) w -> interleaved (gs1 ++ (a :: g) :: gs2) (a :: w).
