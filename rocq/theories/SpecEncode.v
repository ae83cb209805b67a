(** The four EPC encoders under one name, and what is assumed of random bits. *)
From Verif Require Import GoBase BinUtil MTdtEpc MTdtIso MTdtCore MScheme Spec SpecEpc.

Definition encode (k : scheme) (E : env) (f : epc_fields) : result encoded :=
  match k with
  | Sgtin => make_sgtin96 E false (f_filter f) (f_cp f) (f_ref f) (f_ser f)
  | Sscc => make_sscc96 E false (f_filter f) (f_cp f) (f_ref f)
  | Grai => make_grai96 E false (f_filter f) (f_cp f) (f_ref f) (f_ser f)
  | Giai => make_giai96 E false (f_filter f) (f_cp f) (f_ref f)
  end.
Definition encode_prefix (k : scheme) (E : env) (f : epc_fields) : result encoded :=
  match k with
  | Sgtin => make_sgtin96 E true (f_filter f) (f_cp f) (f_ref f) (f_ser f)
  | Sscc => make_sscc96 E true (f_filter f) (f_cp f) (f_ref f)
  | Grai => make_grai96 E true (f_filter f) (f_cp f) (f_ref f) (f_ser f)
  | Giai => make_giai96 E true (f_filter f) (f_cp f) (f_ref f)
  end.
(** The random bits used for an empty field. *)
Definition good_random (E : env) : Prop := forall n, length (e_rand E n) = n /\ is_bitstring (e_rand E n).
(** A PC word announces an EPC when the toggle bit of its first byte is 0. *)
Definition epc_pc (pc : list N) : Prop := exists p0 p1, pc = [p0; p1] /\ N.even p0 = true.
