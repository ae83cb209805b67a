(** float64 arithmetic as used by filtering/engine_generator.go:88,
    filtering/engine_factory.go:92-106 and test/gendataset.go:265-266: the standard
    library's IEEE 754 specification with 53 bits of precision, rounding to nearest
    even. *)
From Verif Require Import GoBase.
From Coq Require Export SpecFloat.

Definition f64 (z : Z) : spec_float := binary_normalize 53 1024 z 0 false.
Definition f64_div : spec_float -> spec_float -> spec_float := SFdiv 53 1024.
Definition f64_mul : spec_float -> spec_float -> spec_float := SFmul 53 1024.
(** [int(x)] drops the fraction; [None] for the values Go leaves undefined. *)
Definition f64_int (x : spec_float) : option Z :=
  match x with
  | S754_zero _ => Some 0%Z
  | S754_finite s m e =>
      let a := if (0 <=? e)%Z then (Zpos m * 2 ^ e)%Z else (Zpos m / 2 ^ (- e))%Z in
      Some (if s then (- a)%Z else a)
  | _ => None
  end.
