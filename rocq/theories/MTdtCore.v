(** Model of tdt/core.go: binary identifier to pure-identity URN, and the
    dispatch from a pattern type to its prefix filter. *)
From Verif Require Import GoBase BinUtil MTdtEpc MTdtIso.

(** [id[i]] inside [buildEPC] after the check [len(id) == 12]: every index used
    there is a literal below 12, so the default is never returned. *)
Definition b (id : list N) (i : nat) : N := nth i id 0%N.

(** The byte slices cp, ir, ext, at, iar and ser that [buildEPC] fills in, one
    definition per assignment block; the number is the value of ptm[CPBits] in
    the [case].  [remainder] is replaced by its current value. *)
(** tdt/core.go:111-121 *)
Definition sgtin_cp_40 (id : list N) : list N :=
  [N.lor (shl8 (N.land (b id 1) 3) 6) (N.shiftr (b id 2) 2);
   N.lor (shl8 (N.land (b id 2) 3) 6) (N.shiftr (b id 3) 2);
   N.lor (shl8 (N.land (b id 3) 3) 6) (N.shiftr (b id 4) 2);
   N.lor (shl8 (N.land (b id 4) 3) 6) (N.shiftr (b id 5) 2);
   N.lor (shl8 (N.land (b id 5) 3) 6) (N.shiftr (b id 6) 2)].
(** tdt/core.go:125-127 *)
Definition sgtin_ir_40 (id : list N) : list N :=
  [N.lor (shl8 (N.land (b id 6) 3) 2) (N.shiftr (b id 7) 6)].
(** tdt/core.go:132-142 *)
Definition sgtin_cp_37 (id : list N) : list N :=
  [N.lor (shl8 (N.land (b id 1) 3) 3) (N.shiftr (b id 2) 5);
   N.lor (shl8 (N.land (b id 2) 31) 3) (N.shiftr (b id 3) 5);
   N.lor (shl8 (N.land (b id 3) 31) 3) (N.shiftr (b id 4) 5);
   N.lor (shl8 (N.land (b id 4) 31) 3) (N.shiftr (b id 5) 5);
   N.lor (shl8 (N.land (b id 5) 31) 3) (N.shiftr (b id 6) 5)].
(** tdt/core.go:146-148 *)
Definition sgtin_ir_37 (id : list N) : list N :=
  [N.lor (shl8 (N.land (b id 6) 31) 2) (N.shiftr (b id 7) 6)].
(** tdt/core.go:153-158 *)
Definition sgtin_cp_34 (id : list N) : list N :=
  [N.land (b id 1) 3;
   b id 2;
   b id 3;
   b id 4;
   b id 5].
(** tdt/core.go:162-165 *)
Definition sgtin_ir_34 (id : list N) : list N :=
  [N.shiftr (b id 6) 6;
   N.lor (shl8 (N.land (b id 6) 63) 2) (N.shiftr (b id 7) 6)].
(** tdt/core.go:170-178 *)
Definition sgtin_cp_30 (id : list N) : list N :=
  [N.lor (shl8 (N.land (b id 1) 3) 4) (N.shiftr (b id 2) 4);
   N.lor (shl8 (N.land (b id 2) 15) 4) (N.shiftr (b id 3) 4);
   N.lor (shl8 (N.land (b id 3) 15) 4) (N.shiftr (b id 4) 4);
   N.lor (shl8 (N.land (b id 4) 15) 4) (N.shiftr (b id 5) 4)].
(** tdt/core.go:182-186 *)
Definition sgtin_ir_30 (id : list N) : list N :=
  [N.lor (shl8 (N.land (b id 5) 15) 2) (N.shiftr (b id 6) 6);
   N.lor (shl8 (N.land (b id 6) 63) 2) (N.shiftr (b id 7) 6)].
(** tdt/core.go:191-199 *)
Definition sgtin_cp_27 (id : list N) : list N :=
  [N.lor (shl8 (N.land (b id 1) 3) 1) (N.shiftr (b id 2) 7);
   N.lor (shl8 (N.land (b id 2) 127) 1) (N.shiftr (b id 3) 7);
   N.lor (shl8 (N.land (b id 3) 127) 1) (N.shiftr (b id 4) 7);
   N.lor (shl8 (N.land (b id 4) 127) 1) (N.shiftr (b id 5) 7)].
(** tdt/core.go:203-209 *)
Definition sgtin_ir_27 (id : list N) : list N :=
  [N.shiftr (N.land (b id 5) 127) 6;
   N.lor (shl8 (N.land (N.land (b id 5) 127) 63) 2) (N.shiftr (b id 6) 6);
   N.lor (shl8 (N.land (b id 6) 63) 2) (N.shiftr (b id 7) 6)].
(** tdt/core.go:214-220 *)
Definition sgtin_cp_24 (id : list N) : list N :=
  [N.lor (shl8 (N.land (b id 1) 3) 6) (N.shiftr (b id 2) 2);
   N.lor (shl8 (N.land (b id 2) 3) 6) (N.shiftr (b id 3) 2);
   N.lor (shl8 (N.land (b id 3) 3) 6) (N.shiftr (b id 4) 2)].
(** tdt/core.go:224-230 *)
Definition sgtin_ir_24 (id : list N) : list N :=
  [N.lor (shl8 (N.land (b id 4) 3) 2) (N.shiftr (b id 5) 6);
   N.lor (shl8 (N.land (b id 5) 63) 2) (N.shiftr (b id 6) 6);
   N.lor (shl8 (N.land (b id 6) 63) 2) (N.shiftr (b id 7) 6)].
(** tdt/core.go:235-241 *)
Definition sgtin_cp_20 (id : list N) : list N :=
  [N.lor (shl8 (N.land (b id 1) 3) 2) (N.shiftr (b id 2) 6);
   N.lor (shl8 (N.land (b id 2) 63) 2) (N.shiftr (b id 3) 6);
   N.lor (shl8 (N.land (b id 3) 63) 2) (N.shiftr (b id 4) 6)].
(** tdt/core.go:245-251 *)
Definition sgtin_ir_20 (id : list N) : list N :=
  [N.lor (shl8 (N.land (b id 4) 63) 2) (N.shiftr (b id 5) 6);
   N.lor (shl8 (N.land (b id 5) 63) 2) (N.shiftr (b id 6) 6);
   N.lor (shl8 (N.land (b id 6) 63) 2) (N.shiftr (b id 7) 6)].
(** tdt/core.go:257-262 *)
Definition sgtin_ser (id : list N) : list N :=
  [N.land (b id 7) 63;
   b id 8;
   b id 9;
   b id 10;
   b id 11].
(** tdt/core.go:287-297 *)
Definition sscc_cp_40 (id : list N) : list N :=
  [N.lor (shl8 (N.land (b id 1) 3) 6) (N.shiftr (b id 2) 2);
   N.lor (shl8 (N.land (b id 2) 3) 6) (N.shiftr (b id 3) 2);
   N.lor (shl8 (N.land (b id 3) 3) 6) (N.shiftr (b id 4) 2);
   N.lor (shl8 (N.land (b id 4) 3) 6) (N.shiftr (b id 5) 2);
   N.lor (shl8 (N.land (b id 5) 3) 6) (N.shiftr (b id 6) 2)].
(** tdt/core.go:301-305 *)
Definition sscc_ext_40 (id : list N) : list N :=
  [N.land (b id 6) 3;
   b id 7;
   b id 8].
(** tdt/core.go:310-320 *)
Definition sscc_cp_37 (id : list N) : list N :=
  [N.lor (shl8 (N.land (b id 1) 3) 3) (N.shiftr (b id 2) 5);
   N.lor (shl8 (N.land (b id 2) 31) 3) (N.shiftr (b id 3) 5);
   N.lor (shl8 (N.land (b id 3) 31) 3) (N.shiftr (b id 4) 5);
   N.lor (shl8 (N.land (b id 4) 31) 3) (N.shiftr (b id 5) 5);
   N.lor (shl8 (N.land (b id 5) 31) 3) (N.shiftr (b id 6) 5)].
(** tdt/core.go:324-328 *)
Definition sscc_ext_37 (id : list N) : list N :=
  [N.land (b id 6) 31;
   b id 7;
   b id 8].
(** tdt/core.go:333-338 *)
Definition sscc_cp_34 (id : list N) : list N :=
  [N.land (b id 1) 3;
   b id 2;
   b id 3;
   b id 4;
   b id 5].
(** tdt/core.go:342-345 *)
Definition sscc_ext_34 (id : list N) : list N :=
  [b id 6;
   b id 7;
   b id 8].
(** tdt/core.go:350-358 *)
Definition sscc_cp_30 (id : list N) : list N :=
  [N.lor (shl8 (N.land (b id 1) 3) 4) (N.shiftr (b id 2) 4);
   N.lor (shl8 (N.land (b id 2) 15) 4) (N.shiftr (b id 3) 4);
   N.lor (shl8 (N.land (b id 3) 15) 4) (N.shiftr (b id 4) 4);
   N.lor (shl8 (N.land (b id 4) 15) 4) (N.shiftr (b id 5) 4)].
(** tdt/core.go:362-367 *)
Definition sscc_ext_30 (id : list N) : list N :=
  [N.land (b id 5) 15;
   b id 6;
   b id 7;
   b id 8].
(** tdt/core.go:372-380 *)
Definition sscc_cp_27 (id : list N) : list N :=
  [N.lor (shl8 (N.land (b id 1) 3) 1) (N.shiftr (b id 2) 7);
   N.lor (shl8 (N.land (b id 2) 127) 1) (N.shiftr (b id 3) 7);
   N.lor (shl8 (N.land (b id 3) 127) 1) (N.shiftr (b id 4) 7);
   N.lor (shl8 (N.land (b id 4) 127) 1) (N.shiftr (b id 5) 7)].
(** tdt/core.go:384-389 *)
Definition sscc_ext_27 (id : list N) : list N :=
  [N.land (b id 5) 127;
   b id 6;
   b id 7;
   b id 8].
(** tdt/core.go:394-400 *)
Definition sscc_cp_24 (id : list N) : list N :=
  [N.lor (shl8 (N.land (b id 1) 3) 6) (N.shiftr (b id 2) 2);
   N.lor (shl8 (N.land (b id 2) 3) 6) (N.shiftr (b id 3) 2);
   N.lor (shl8 (N.land (b id 3) 3) 6) (N.shiftr (b id 4) 2)].
(** tdt/core.go:404-410 *)
Definition sscc_ext_24 (id : list N) : list N :=
  [N.land (b id 4) 3;
   b id 5;
   b id 6;
   b id 7;
   b id 8].
(** tdt/core.go:415-421 *)
Definition sscc_cp_20 (id : list N) : list N :=
  [N.lor (shl8 (N.land (b id 1) 3) 2) (N.shiftr (b id 2) 6);
   N.lor (shl8 (N.land (b id 2) 63) 2) (N.shiftr (b id 3) 6);
   N.lor (shl8 (N.land (b id 3) 63) 2) (N.shiftr (b id 4) 6)].
(** tdt/core.go:425-431 *)
Definition sscc_ext_20 (id : list N) : list N :=
  [N.land (b id 4) 63;
   b id 5;
   b id 6;
   b id 7;
   b id 8].
(** tdt/core.go:458-468 *)
Definition grai_cp_40 (id : list N) : list N :=
  [N.lor (shl8 (N.land (b id 1) 3) 6) (N.shiftr (b id 2) 2);
   N.lor (shl8 (N.land (b id 2) 3) 6) (N.shiftr (b id 3) 2);
   N.lor (shl8 (N.land (b id 3) 3) 6) (N.shiftr (b id 4) 2);
   N.lor (shl8 (N.land (b id 4) 3) 6) (N.shiftr (b id 5) 2);
   N.lor (shl8 (N.land (b id 5) 3) 6) (N.shiftr (b id 6) 2)].
(** tdt/core.go:481-491 *)
Definition grai_cp_37 (id : list N) : list N :=
  [N.lor (shl8 (N.land (b id 1) 3) 3) (N.shiftr (b id 2) 5);
   N.lor (shl8 (N.land (b id 2) 31) 3) (N.shiftr (b id 3) 5);
   N.lor (shl8 (N.land (b id 3) 31) 3) (N.shiftr (b id 4) 5);
   N.lor (shl8 (N.land (b id 4) 31) 3) (N.shiftr (b id 5) 5);
   N.lor (shl8 (N.land (b id 5) 31) 3) (N.shiftr (b id 6) 5)].
(** tdt/core.go:495-497 *)
Definition grai_at_37 (id : list N) : list N :=
  [N.lor (shl8 (N.land (b id 6) 31) 2) (N.shiftr (b id 7) 6)].
(** tdt/core.go:502-507 *)
Definition grai_cp_34 (id : list N) : list N :=
  [N.land (b id 1) 3;
   b id 2;
   b id 3;
   b id 4;
   b id 5].
(** tdt/core.go:511-514 *)
Definition grai_at_34 (id : list N) : list N :=
  [N.shiftr (b id 6) 6;
   N.lor (shl8 (N.land (b id 6) 63) 2) (N.shiftr (b id 7) 6)].
(** tdt/core.go:519-527 *)
Definition grai_cp_30 (id : list N) : list N :=
  [N.lor (shl8 (N.land (b id 1) 3) 4) (N.shiftr (b id 2) 4);
   N.lor (shl8 (N.land (b id 2) 15) 4) (N.shiftr (b id 3) 4);
   N.lor (shl8 (N.land (b id 3) 15) 4) (N.shiftr (b id 4) 4);
   N.lor (shl8 (N.land (b id 4) 15) 4) (N.shiftr (b id 5) 4)].
(** tdt/core.go:531-535 *)
Definition grai_at_30 (id : list N) : list N :=
  [N.lor (shl8 (N.land (b id 5) 15) 2) (N.shiftr (b id 6) 6);
   N.lor (shl8 (N.land (b id 6) 63) 2) (N.shiftr (b id 7) 6)].
(** tdt/core.go:540-548 *)
Definition grai_cp_27 (id : list N) : list N :=
  [N.lor (shl8 (N.land (b id 1) 3) 1) (N.shiftr (b id 2) 7);
   N.lor (shl8 (N.land (b id 2) 127) 1) (N.shiftr (b id 3) 7);
   N.lor (shl8 (N.land (b id 3) 127) 1) (N.shiftr (b id 4) 7);
   N.lor (shl8 (N.land (b id 4) 127) 1) (N.shiftr (b id 5) 7)].
(** tdt/core.go:552-558 *)
Definition grai_at_27 (id : list N) : list N :=
  [N.shiftr (N.land (b id 5) 127) 6;
   N.lor (shl8 (N.land (N.land (b id 5) 127) 63) 2) (N.shiftr (b id 6) 6);
   N.lor (shl8 (N.land (b id 6) 63) 2) (N.shiftr (b id 7) 6)].
(** tdt/core.go:563-569 *)
Definition grai_cp_24 (id : list N) : list N :=
  [N.lor (shl8 (N.land (b id 1) 3) 6) (N.shiftr (b id 2) 2);
   N.lor (shl8 (N.land (b id 2) 3) 6) (N.shiftr (b id 3) 2);
   N.lor (shl8 (N.land (b id 3) 3) 6) (N.shiftr (b id 4) 2)].
(** tdt/core.go:573-579 *)
Definition grai_at_24 (id : list N) : list N :=
  [N.lor (shl8 (N.land (b id 4) 3) 2) (N.shiftr (b id 5) 6);
   N.lor (shl8 (N.land (b id 5) 63) 2) (N.shiftr (b id 6) 6);
   N.lor (shl8 (N.land (b id 6) 63) 2) (N.shiftr (b id 7) 6)].
(** tdt/core.go:584-590 *)
Definition grai_cp_20 (id : list N) : list N :=
  [N.lor (shl8 (N.land (b id 1) 3) 2) (N.shiftr (b id 2) 6);
   N.lor (shl8 (N.land (b id 2) 63) 2) (N.shiftr (b id 3) 6);
   N.lor (shl8 (N.land (b id 3) 63) 2) (N.shiftr (b id 4) 6)].
(** tdt/core.go:594-600 *)
Definition grai_at_20 (id : list N) : list N :=
  [N.lor (shl8 (N.land (b id 4) 63) 2) (N.shiftr (b id 5) 6);
   N.lor (shl8 (N.land (b id 5) 63) 2) (N.shiftr (b id 6) 6);
   N.lor (shl8 (N.land (b id 6) 63) 2) (N.shiftr (b id 7) 6)].
(** tdt/core.go:606-611 *)
Definition grai_ser (id : list N) : list N :=
  [N.land (b id 7) 63;
   b id 8;
   b id 9;
   b id 10;
   b id 11].
(** tdt/core.go:636-646 *)
Definition giai_cp_40 (id : list N) : list N :=
  [N.lor (shl8 (N.land (b id 1) 3) 6) (N.shiftr (b id 2) 2);
   N.lor (shl8 (N.land (b id 2) 3) 6) (N.shiftr (b id 3) 2);
   N.lor (shl8 (N.land (b id 3) 3) 6) (N.shiftr (b id 4) 2);
   N.lor (shl8 (N.land (b id 4) 3) 6) (N.shiftr (b id 5) 2);
   N.lor (shl8 (N.land (b id 5) 3) 6) (N.shiftr (b id 6) 2)].
(** tdt/core.go:650-657 *)
Definition giai_iar_40 (id : list N) : list N :=
  [N.land (b id 6) 3;
   b id 7;
   b id 8;
   b id 9;
   b id 10;
   b id 11].
(** tdt/core.go:661-671 *)
Definition giai_cp_37 (id : list N) : list N :=
  [N.lor (shl8 (N.land (b id 1) 3) 3) (N.shiftr (b id 2) 5);
   N.lor (shl8 (N.land (b id 2) 31) 3) (N.shiftr (b id 3) 5);
   N.lor (shl8 (N.land (b id 3) 31) 3) (N.shiftr (b id 4) 5);
   N.lor (shl8 (N.land (b id 4) 31) 3) (N.shiftr (b id 5) 5);
   N.lor (shl8 (N.land (b id 5) 31) 3) (N.shiftr (b id 6) 5)].
(** tdt/core.go:675-682 *)
Definition giai_iar_37 (id : list N) : list N :=
  [N.land (b id 6) 31;
   b id 7;
   b id 8;
   b id 9;
   b id 10;
   b id 11].
(** tdt/core.go:686-691 *)
Definition giai_cp_34 (id : list N) : list N :=
  [N.land (b id 1) 3;
   b id 2;
   b id 3;
   b id 4;
   b id 5].
(** tdt/core.go:695-701 *)
Definition giai_iar_34 (id : list N) : list N :=
  [b id 6;
   b id 7;
   b id 8;
   b id 9;
   b id 10;
   b id 11].
(** tdt/core.go:705-713 *)
Definition giai_cp_30 (id : list N) : list N :=
  [N.lor (shl8 (N.land (b id 1) 3) 4) (N.shiftr (b id 2) 4);
   N.lor (shl8 (N.land (b id 2) 15) 4) (N.shiftr (b id 3) 4);
   N.lor (shl8 (N.land (b id 3) 15) 4) (N.shiftr (b id 4) 4);
   N.lor (shl8 (N.land (b id 4) 15) 4) (N.shiftr (b id 5) 4)].
(** tdt/core.go:717-725 *)
Definition giai_iar_30 (id : list N) : list N :=
  [N.land (b id 5) 15;
   b id 6;
   b id 7;
   b id 8;
   b id 9;
   b id 10;
   b id 11].
(** tdt/core.go:729-737 *)
Definition giai_cp_27 (id : list N) : list N :=
  [N.lor (shl8 (N.land (b id 1) 3) 1) (N.shiftr (b id 2) 7);
   N.lor (shl8 (N.land (b id 2) 127) 1) (N.shiftr (b id 3) 7);
   N.lor (shl8 (N.land (b id 3) 127) 1) (N.shiftr (b id 4) 7);
   N.lor (shl8 (N.land (b id 4) 127) 1) (N.shiftr (b id 5) 7)].
(** tdt/core.go:741-749 *)
Definition giai_iar_27 (id : list N) : list N :=
  [N.land (b id 5) 127;
   b id 6;
   b id 7;
   b id 8;
   b id 9;
   b id 10;
   b id 11].
(** tdt/core.go:753-759 *)
Definition giai_cp_24 (id : list N) : list N :=
  [N.lor (shl8 (N.land (b id 1) 3) 6) (N.shiftr (b id 2) 2);
   N.lor (shl8 (N.land (b id 2) 3) 6) (N.shiftr (b id 3) 2);
   N.lor (shl8 (N.land (b id 3) 3) 6) (N.shiftr (b id 4) 2)].
(** tdt/core.go:763-772 *)
Definition giai_iar_24 (id : list N) : list N :=
  [N.land (b id 4) 3;
   b id 5;
   b id 6;
   b id 7;
   b id 8;
   b id 9;
   b id 10;
   b id 11].
(** tdt/core.go:776-782 *)
Definition giai_cp_20 (id : list N) : list N :=
  [N.lor (shl8 (N.land (b id 1) 3) 2) (N.shiftr (b id 2) 6);
   N.lor (shl8 (N.land (b id 2) 63) 2) (N.shiftr (b id 3) 6);
   N.lor (shl8 (N.land (b id 3) 63) 2) (N.shiftr (b id 4) 6)].
(** tdt/core.go:786-795 *)
Definition giai_iar_20 (id : list N) : list N :=
  [N.land (b id 4) 63;
   b id 5;
   b id 6;
   b id 7;
   b id 8;
   b id 9;
   b id 10;
   b id 11].

(** [for k, v := range table { if v[PValue] == partition {...} }]: at most one
    row has a given PValue, so the map order does not matter; [None] is the case
    where no row matches and ptm stays the empty map (tdt/core.go:98-106). *)
Fixpoint find_partition (pt : ptable) (p : nat) : option (nat * prow) :=
  match pt with
  | [] => None
  | (k, r) :: pt' => if Nat.eqb (p_value r) p then Some (k, r) else find_partition pt' p
  end.

(** [strings.Repeat("0", digits-len(z.String())) + z.String()] after
    [z.SetBytes(bs)]: panics when the numeral has more than [digits] digits. *)
Definition dec_padded (digits : nat) (bs : list N) : result gostring :=
  let s := dec_string (N_of_bytes bs) in
  let! pad := repeat_sub c0 digits (List.length s) in
  Ok (pad ++ s).

Definition dot : gostring := str ".".

(** [partition := int((id[1] & 28) >> 2)] (tdt/core.go:96) *)
Definition epc_partition (id : list N) : nat := N.to_nat (N.shiftr (N.land (b id 1) 28) 2).

(** tdt/core.go:89-264, case 48 SGTIN-96 *)
Definition build_sgtin (id : list N) : result gostring :=
  let urn := str "urn:epc:id:sgtin:" in
  let two cpl cp dg ir :=
    let! c := dec_padded cpl cp in
    let! i := dec_padded dg ir in
    Ok (c ++ dot ++ i ++ dot) in
  let! mid :=
    match find_partition sgtin96_table (epc_partition id) with
    | None => Ok []
    | Some (cpl, r) =>
        match p_cp_bits r with
        | 40 => two cpl (sgtin_cp_40 id) (p_digits r) (sgtin_ir_40 id)
        | 37 => two cpl (sgtin_cp_37 id) (p_digits r) (sgtin_ir_37 id)
        | 34 => two cpl (sgtin_cp_34 id) (p_digits r) (sgtin_ir_34 id)
        | 30 => two cpl (sgtin_cp_30 id) (p_digits r) (sgtin_ir_30 id)
        | 27 => two cpl (sgtin_cp_27 id) (p_digits r) (sgtin_ir_27 id)
        | 24 => two cpl (sgtin_cp_24 id) (p_digits r) (sgtin_ir_24 id)
        | 20 => two cpl (sgtin_cp_20 id) (p_digits r) (sgtin_ir_20 id)
        | _ => Ok []
        end
    end in
  Ok (urn ++ mid ++ dec_string (N_of_bytes (sgtin_ser id))).

(** tdt/core.go:265-435, case 49 SSCC-96 *)
Definition build_sscc (id : list N) : result gostring :=
  let urn := str "urn:epc:id:sscc:" in
  let two cpl cp dg ext :=
    let! c := dec_padded cpl cp in
    let! e := dec_padded dg ext in
    Ok (c ++ dot ++ e) in
  let! mid :=
    match find_partition sscc96_table (epc_partition id) with
    | None => Ok []
    | Some (cpl, r) =>
        match p_cp_bits r with
        | 40 => two cpl (sscc_cp_40 id) (p_digits r) (sscc_ext_40 id)
        | 37 => two cpl (sscc_cp_37 id) (p_digits r) (sscc_ext_37 id)
        | 34 => two cpl (sscc_cp_34 id) (p_digits r) (sscc_ext_34 id)
        | 30 => two cpl (sscc_cp_30 id) (p_digits r) (sscc_ext_30 id)
        | 27 => two cpl (sscc_cp_27 id) (p_digits r) (sscc_ext_27 id)
        | 24 => two cpl (sscc_cp_24 id) (p_digits r) (sscc_ext_24 id)
        | 20 => two cpl (sscc_cp_20 id) (p_digits r) (sscc_ext_20 id)
        | _ => Ok []
        end
    end in
  Ok (urn ++ mid).

(** tdt/core.go:436-613, case 51 GRAI-96 *)
Definition build_grai (id : list N) : result gostring :=
  let urn := str "urn:epc:id:grai:" in
  let two cpl cp dg at_ :=
    let! c := dec_padded cpl cp in
    let! a := dec_padded dg at_ in
    Ok (c ++ dot ++ a ++ dot) in
  let! mid :=
    match find_partition grai96_table (epc_partition id) with
    | None => Ok []
    | Some (cpl, r) =>
        match p_cp_bits r with
        | 40 => let! c := dec_padded cpl (grai_cp_40 id) in Ok (c ++ dot)
        | 37 => two cpl (grai_cp_37 id) (p_digits r) (grai_at_37 id)
        | 34 => two cpl (grai_cp_34 id) (p_digits r) (grai_at_34 id)
        | 30 => two cpl (grai_cp_30 id) (p_digits r) (grai_at_30 id)
        | 27 => two cpl (grai_cp_27 id) (p_digits r) (grai_at_27 id)
        | 24 => two cpl (grai_cp_24 id) (p_digits r) (grai_at_24 id)
        | 20 => two cpl (grai_cp_20 id) (p_digits r) (grai_at_20 id)
        | _ => Ok []
        end
    end in
  Ok (urn ++ mid ++ dec_string (N_of_bytes (grai_ser id))).

(** tdt/core.go:614-798, case 52 GIAI-96; the asset reference is not padded. *)
Definition build_giai (id : list N) : result gostring :=
  let urn := str "urn:epc:id:giai:" in
  let two cpl cp iar :=
    let! c := dec_padded cpl cp in
    Ok (c ++ dot ++ dec_string (N_of_bytes iar)) in
  let! mid :=
    match find_partition giai96_table (epc_partition id) with
    | None => Ok []
    | Some (cpl, r) =>
        match p_cp_bits r with
        | 40 => two cpl (giai_cp_40 id) (giai_iar_40 id)
        | 37 => two cpl (giai_cp_37 id) (giai_iar_37 id)
        | 34 => two cpl (giai_cp_34 id) (giai_iar_34 id)
        | 30 => two cpl (giai_cp_30 id) (giai_iar_30 id)
        | 27 => two cpl (giai_cp_27 id) (giai_iar_27 id)
        | 24 => two cpl (giai_cp_24 id) (giai_iar_24 id)
        | 20 => two cpl (giai_cp_20 id) (giai_iar_20 id)
        | _ => Ok []
        end
    end in
  Ok (urn ++ mid).

(** tdt/core.go:84-801 [buildEPC] *)
Definition build_epc (id : list N) : result gostring :=
  let! h := index id 0 in
  if (h =? 48)%N then (if Nat.eqb (List.length id) 12 then build_sgtin id else Err)
  else if (h =? 49)%N then (if Nat.eqb (List.length id) 12 then build_sscc id else Err)
  else if (h =? 51)%N then (if Nat.eqb (List.length id) 12 then build_grai id else Err)
  else if (h =? 52)%N then (if Nat.eqb (List.length id) 12 then build_giai id else Err)
  else Ok [].

(** tdt/core.go:868-892: the six bits at bit offset [6 * k]. *)
Definition sextet (inp : list N) (k : nat) : result N :=
  let offset := 6 * k in
  let y := offset / 8 in
  match offset mod 8 with
  | 0 => let! a := index inp y in Ok (N.shiftr (N.land 252 a) 2)
  | 2 => let! a := index inp y in Ok (N.land 63 a)
  | 4 => let! a := index inp y in
         let! a' := index inp (y + 1) in
         Ok (N.lor (shl8 (N.land 15 a) 2) (N.shiftr (N.land 192 a') 6))
  | 6 => let! a := index inp y in
         let! a' := index inp (y + 1) in
         Ok (N.lor (shl8 (N.land 3 a) 4) (N.shiftr (N.land 240 a') 4))
  | _ => Ok 0%N
  end.
(** tdt/core.go:893-900: character of a sextet; the space is dropped. *)
Definition sextet_char (c : N) : gostring :=
  let c := if (N.land 32 c =? 32)%N then c else N.lor c 64 in
  if (N.lxor c 32 =? 0)%N then [] else [ascii_of_N c].
Fixpoint parse_sextets (inp : list N) (ks : list nat) : result gostring :=
  match ks with
  | [] => Ok []
  | k :: ks' =>
      let! c := sextet inp k in
      let! rest := parse_sextets inp ks' in
      Ok (sextet_char c ++ rest)
  end.
(** tdt/core.go:864-903 [parse6BitEncodedByteSliceToString]; the loop runs for
    offset = 0, 6, 12, ... while offset + 6 <= 8 * len(in). *)
Definition parse_6bit (inp : list N) : result gostring :=
  parse_sextets inp (seq 0 (8 * List.length inp / 6)).

(** tdt/core.go:805-828: the standard named by an application family identifier. *)
Definition afi_name (afi : N) : option gostring :=
  if (afi =? 161)%N then Some (str "17367:")
  else if (afi =? 162)%N then Some (str "17365:")
  else if (afi =? 163)%N then Some (str "17364:")
  else if (afi =? 164)%N then Some (str "17367h:")
  else if (afi =? 165)%N then Some (str "17366:")
  else if (afi =? 166)%N then Some (str "17366h:")
  else if (afi =? 167)%N then Some (str "17365h:")
  else if (afi =? 168)%N then Some (str "17364h:")
  else if (afi =? 169)%N then Some (str "17363:")
  else if (afi =? 170)%N then Some (str "17363h:")
  else None.

(** tdt/core.go:803-837 [buildUII] *)
Definition build_uii (id : list N) (afi : N) : result gostring :=
  match afi_name afi with
  | None => Err
  | Some n =>
      let! sid := parse_6bit id in
      Ok (str "urn:epc:id:iso" ++ n ++ sid)
  end.

(** tdt/core.go:67-82 [Translate].  [1 & pc[0]] is 0 or 1, so line 81
    (buildProprietary) is unreachable. *)
Definition translate (pc id : list N) : result gostring :=
  match pc with
  | [p0; p1] => if (N.land 1 p0 =? 0)%N then build_epc id else build_uii id p1
  | _ => Err
  end.

(** tdt/core.go:845-862 [MakePrefixFilterString] *)
Definition make_prefix_filter_string (E : env) (t : gostring) (fields : list gostring)
  : result gostring :=
  if seqb t (str "giai-96") then new_prefix_filter_giai96 E fields
  else if seqb t (str "grai-96") then new_prefix_filter_grai96 E fields
  else if seqb t (str "sgtin-96") then new_prefix_filter_sgtin96 E fields
  else if seqb t (str "sscc-96") then new_prefix_filter_sscc96 E fields
  else if seqb t (str "iso17363") then new_prefix_filter_iso17363 fields
  else if seqb t (str "iso17365") then new_prefix_filter_iso17365 fields
  else Err.
