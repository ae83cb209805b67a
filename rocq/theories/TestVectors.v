(** Sanity checks of the model: expected values taken from the repository's own
    tests.  These are tests of the model, not proofs of properties. *)
From Verif Require Import GoBase BinUtil MFilter MEngine MTdtEpc MTdtIso MTdtCore
  MScheme MSubs MList MPatricia MSplay.

Definition E0 : env :=
  {| e_rand := fun n => repeat c0 n; e_rand_text := fun n => repeat "A"%char n;
     e_dec_bad := fun _ => [] |}.
Definition pcgs1 : list N := [48; 0]%N.

(** tdt/core_test.go *)
Example tv_sgtin : translate pcgs1 [48;112;94;48;167;0;0;64;0;0;0;1]%N
  = Ok (str "urn:epc:id:sgtin:12345678.00001.1").
Proof. vm_compute. reflexivity. Qed.
Example tv_grai : translate pcgs1 [51;96;114;250;100;104;80;64;0;0;0;1]%N
  = Ok (str "urn:epc:id:grai:123456789012.1").
Proof. vm_compute. reflexivity. Qed.
Example tv_iso : translate [41;169]%N [220;32;66;13;92;114;207;77;118;194]%N
  = Ok (str "urn:epc:id:iso17363:7BABCU1234560").
Proof. vm_compute. reflexivity. Qed.

(** tdt/epc_test.go *)
Example tv_pf_sgtin : new_prefix_filter_sgtin96 E0 [str "3"; str "00182565127"; str "02"]
  = Ok (str "0011000001100100000000010101110000110111001000001110000010").
Proof. vm_compute. reflexivity. Qed.
(** tdt/iso_test.go *)
Example tv_pad : pad_6bit (str "0000") = (str "0000100000100000", 16).
Proof. vm_compute. reflexivity. Qed.

(** scheme/epc_test.go, scheme/iso_test.go *)
Example tv_make_sgtin : make_sgtin96 E0 false (str "3") (str "0614141") (str "812345") (str "6789")
  = Ok ([48;116;37;123;247;25;78;64;0;0;26;133]%N, [], []).
Proof. vm_compute. reflexivity. Qed.
Example tv_make_giai : make_giai96 E0 false (str "3") (str "0614141") (str "5678")
  = Ok ([52;116;37;123;244;0;0;0;0;0;22;46]%N, [], []).
Proof. vm_compute. reflexivity. Qed.
Example tv_make_sscc : make_sscc96 E0 false (str "3") (str "0614141") (str "1234567890")
  = Ok ([49;116;37;123;244;73;150;2;210;0;0;0]%N, [], []).
Proof. vm_compute. reflexivity. Qed.
Example tv_make_grai : make_grai96 E0 false (str "3") (str "0614141") (str "12345") (str "5678")
  = Ok ([51;116;37;123;244;12;14;64;0;0;22;46]%N, [], []).
Proof. vm_compute. reflexivity. Qed.
Example tv_cd : s_get_iso6346_cd (str "CSQU305438") = Ok 3%Z.
Proof. vm_compute. reflexivity. Qed.
Example tv_17363 : make_iso17363 E0 false (str "CSQ") (str "U") (str "305438")
  = Ok ([220;32;211;69;92;240;215;76;248;206]%N, 80, [], []).
Proof. vm_compute. reflexivity. Qed.

(** filtering/filter_object_test.go *)
Example tv_new_filter : new_filter (str "0000000000000000") 12
  = {| fo_string := str "0000000000000000"; fo_size := 16; fo_offset := 12;
       fo_filter := [240;0;15]%N; fo_mask := [240;0;15]%N; fo_byte_offset := 1;
       fo_byte_size := 3 |}.
Proof. vm_compute. reflexivity. Qed.
Example tv_make_filter : make_filter (str "0010") 6
  = (0, str "1111110010111111", str "1111110000111111").
Proof. vm_compute. reflexivity. Qed.

(** filtering/engine_test.go *)
Example tv_nb1 : get_next_bit [15;15]%N 4 = Ok c1. Proof. vm_compute. reflexivity. Qed.
Example tv_nb2 : get_next_bit [15]%N 8 = Ok cx. Proof. vm_compute. reflexivity. Qed.
Example tv_nb3 : get_next_bit [15]%N 9 = Err. Proof. vm_compute. reflexivity. Qed.
Example tv_nb4 : get_next_bit [15]%N 3 = Ok c0. Proof. vm_compute. reflexivity. Qed.
Example tv_lcp1 : lcp [str "0001"; str "0010"; str "0011"; str "0000"] = str "00".
Proof. vm_compute. reflexivity. Qed.
Example tv_lcp2 : lcp [str "0011"; str "00"] = str "00".
Proof. vm_compute. reflexivity. Qed.

(** filtering/patricia_trie_test.go, filtering/subscriptions_test.go *)
Definition tv_bsubs : bsubs :=
  fold_left (fun m kv => mset (str (fst kv)) (PSub 0 (str (snd kv)) []) m)
    [("0011", "3"); ("00110011", "3-3"); ("1111", "15"); ("00110000", "3-0");
     ("001100110000", "3-3-0")]%string [].
Definition nf s o := new_filter (str s) o.
Example tv_patricia : new_patricia_b tv_bsubs = Some
  (PNode [] (nf "" 0)
     (PNode (str "15") (nf "1111" 0) PNil PNil)
     (PNode (str "3") (nf "0011" 0) PNil
        (PNode [] (nf "00" 4)
           (PNode (str "3-3") (nf "11" 6) PNil (PNode (str "3-3-0") (nf "0000" 8) PNil PNil))
           (PNode (str "3-0") (nf "00" 6) PNil PNil)))).
Proof. vm_compute. reflexivity. Qed.
Example tv_psearch : forall t, new_patricia_b tv_bsubs = Some t ->
  psearch t [240]%N = Ok [str "15"] /\ psearch t [48]%N = Ok [str "3"; str "3-0"]
  /\ psearch t [64]%N = Ok [].
Proof. intros t H. vm_compute in H. injection H as <-. vm_compute. repeat split. Qed.
Example tv_link : link_subset tv_bsubs = Ok
  [(str "0011", PSub 0 (str "3")
      [(str "0000", PSub 4 (str "3-0") []);
       (str "0011", PSub 4 (str "3-3") [(str "0000", PSub 8 (str "3-3-0") [])])]);
   (str "1111", PSub 0 (str "15") [])].
Proof. vm_compute. reflexivity. Qed.
