(** Properties C01-C06: filters and bit helpers. *)
From Verif Require Import GoBase BinUtil MFilter MEngine Spec PBase PFilter PEngine.
From Coq Require Import Lia.

(** ** C01 *)
Theorem C01_match_exact : forall pat off id,
  is_pattern pat -> wf_bytes id -> bytes_needed pat off <= length id ->
  exists b, match_filter (new_filter pat off) id = Ok b /\ (b = true <-> matches_at pat off id).
Proof. exact match_exact. Qed.
Print Assumptions C01_match_exact.

(** A non-trivial instance: pattern 01x1 at bit 6, across a byte boundary. *)
Example C01_hypotheses :
  is_pattern (str "01x1") /\ wf_bytes [253; 255]%N /\ bytes_needed (str "01x1") 6 <= length [253; 255]%N
  /\ match_filter (new_filter (str "01x1") 6) [253; 255]%N = Ok true
  /\ match_filter (new_filter (str "01x1") 6) [253; 63]%N = Ok false.
Proof.
  split; [forall_concrete|]. split; [forall_concrete|]. split; [vm_compute; lia|]. split; reflexivity.
Qed.

(** ** C02 *)
Theorem C02_short_id : forall pat off id,
  is_pattern pat -> wf_bytes id ->
  (match_filter (new_filter pat off) id = Panic
   <-> length id < bytes_needed pat off /\ compatible_at pat off id)
  /\ match_filter (new_filter pat off) id <> Err.
Proof. intros; split; [apply match_filter_panic|apply match_filter_not_err]; auto. Qed.
Print Assumptions C02_short_id.

(** Both outcomes occur for a short identifier. *)
Example C02_cases :
  match_filter (new_filter (str "111100001") 0) [240]%N = Panic
  /\ match_filter (new_filter (str "111100001") 0) [241]%N = Ok false
  /\ match_filter (new_filter [] 0) [] = Panic.
Proof. repeat split. Qed.

(** ** C03 *)
Theorem C03_transparent : forall pat off, is_pattern pat ->
  (is_transparent (new_filter pat off) = true <->
   forall id, wf_bytes id -> bytes_needed pat off <= length id ->
              match_filter (new_filter pat off) id = Ok true).
Proof. exact transparent_iff. Qed.
Print Assumptions C03_transparent.

Example C03_cases :
  is_pattern (str "xx") /\ is_transparent (new_filter (str "xx") 3) = true
  /\ is_transparent (new_filter (str "x1") 3) = false.
Proof. split; [forall_concrete|]. split; reflexivity. Qed.

(** ** C04 *)
Theorem C04_has_byte_at : forall pat off (bo : Z), is_pattern pat ->
  (has_byte_at (new_filter pat off) bo = true <->
   (Z.of_nat (off / 8) <= bo < Z.of_nat (bytes_needed pat off))%Z).
Proof. exact has_byte_at_spec. Qed.
Print Assumptions C04_has_byte_at.

Theorem C04_get_byte_at : forall pat off (k : nat), is_pattern pat ->
  (off / 8 <= k < bytes_needed pat off ->
   exists a m, get_byte_at (new_filter pat off) (Z.of_nat k) = Ok (a, m) /\
     forall b, (b < 256)%N ->
       (N.lxor (N.lor b m) a = 0%N <->
        forall j c v, j < 8 -> off <= 8 * k + j -> nth_error pat (8 * k + j - off) = Some c ->
          nth_error (bits_of_byte b) j = Some v -> agrees c v)) /\
  (~ (off / 8 <= k < bytes_needed pat off) -> get_byte_at (new_filter pat off) (Z.of_nat k) = Err).
Proof. exact get_byte_at_spec. Qed.
Print Assumptions C04_get_byte_at.

Theorem C04_get_byte_at_negative : forall pat off bo, is_pattern pat -> (bo < 0)%Z ->
  get_byte_at (new_filter pat off) bo = Err.
Proof. exact get_byte_at_negative. Qed.
Print Assumptions C04_get_byte_at_negative.

Example C04_case : get_byte_at (new_filter (str "0000000000000000") 12) 2%Z = Ok (0, 0)%N
  /\ get_byte_at (new_filter (str "0000000000000000") 12) 3%Z = Ok (15, 15)%N
  /\ get_byte_at (new_filter (str "0000000000000000") 12) 4%Z = Err.
Proof. repeat split. Qed.

(** ** C05 *)
Theorem C05_lcp : forall l, l <> [] -> longest_common_prefix (lcp l) l.
Proof. exact lcp_is_longest. Qed.
Print Assumptions C05_lcp.
Theorem C05_lcp_empty : lcp [] = [].
Proof. exact lcp_nil. Qed.
Print Assumptions C05_lcp_empty.
Example C05_case : lcp [str "0011"; str "0010"; str "00111"] = str "001".
Proof. reflexivity. Qed.

(** ** C06 *)
Theorem C06_get_next_bit : forall id n,
  (forall b, nth_error (bits_of_bytes id) n = Some b ->
     get_next_bit id n = Ok (if b then "1"%char else "0"%char)) /\
  (n = 8 * length id -> get_next_bit id n = Ok "x"%char) /\
  (8 * length id < n -> get_next_bit id n = Err).
Proof. exact get_next_bit_exact. Qed.
Print Assumptions C06_get_next_bit.
Example C06_case : get_next_bit [15; 128]%N 8 = Ok "1"%char /\ get_next_bit [15; 128]%N 16 = Ok "x"%char
  /\ get_next_bit [15; 128]%N 17 = Err.
Proof. repeat split. Qed.

(** The identifier's bits outside the pattern do not influence the answer. *)
Theorem C01_only_covered_bits : forall pat off id id',
  is_pattern pat -> wf_bytes id -> wf_bytes id' ->
  bytes_needed pat off <= length id -> bytes_needed pat off <= length id' ->
  (forall i, i < length pat -> nth_error (bits_of_bytes id) (off + i) = nth_error (bits_of_bytes id') (off + i)) ->
  match_filter (new_filter pat off) id = match_filter (new_filter pat off) id'.
Proof. exact match_only_covered. Qed.
Print Assumptions C01_only_covered_bits.
