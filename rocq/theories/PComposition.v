(** Proofs about compositions (filtering/composition.go). *)
From Verif Require Import GoBase BinUtil MFilter MComposition Spec SpecComposition PBase PFilter.
From Coq Require Import Lia ZifyBool ZifyNat ZifyN.
Ltac Zify.zify_post_hook ::= Z.div_mod_to_equations.

(** ** Filters as bytes *)
Definition good (f : filter_object) : Prop :=
  fo_byte_size f = length (fo_filter f) /\ length (fo_mask f) = length (fo_filter f) /\ 0 < length (fo_filter f) /\
  wf_bytes (fo_filter f) /\ wf_bytes (fo_mask f) /\
  forall i, N.lor (nth i (fo_filter f) 0%N) (nth i (fo_mask f) 0%N) = nth i (fo_filter f) 0%N.
(** Byte [i] of the filter agrees with the identifier. *)
Definition byte_ok (f : filter_object) (id : list N) (i : nat) : Prop :=
  exists b, nth_error id (fo_byte_offset f + i) = Some b /\ N.lor b (nth i (fo_mask f) 0%N) = nth i (fo_filter f) 0%N.

Lemma index_nth {A} (l : list A) i d : i < length l -> index l i = Ok (nth i l d).
Proof. intros H. unfold index. rewrite (nth_error_nth' l d H). reflexivity. Qed.
Lemma match_loop_true f id n : forall i, length (fo_mask f) = length (fo_filter f) -> i + n = length (fo_filter f) ->
  match_loop f id i n = Ok true <-> forall j, i <= j < i + n -> byte_ok f id j.
Proof.
  induction n as [|n IH]; intros i LM LN; cbn [match_loop].
  - split; auto. intros _ j Hj. lia.
  - unfold byte_ok. unfold index at 1. destruct (nth_error id (fo_byte_offset f + i)) as [b|] eqn:E; cbn [bind].
    + rewrite (index_nth (fo_mask f) i 0%N), (index_nth (fo_filter f) i 0%N) by lia. cbn [bind].
      destruct (N.eqb_spec (N.lxor (N.lor b (nth i (fo_mask f) 0%N)) (nth i (fo_filter f) 0%N)) 0) as [X|X].
      * apply N.lxor_eq in X. rewrite IH by lia. split.
        -- intros H j Hj. destruct (Nat.eq_dec j i) as [->|]; [exists b; auto|apply H; lia].
        -- intros H j Hj. apply H. lia.
      * split; [discriminate|]. intros H. destruct (H i ltac:(lia)) as (b' & E' & Q). rewrite E in E'. injection E' as <-. rewrite Q in X. rewrite N.lxor_nilpotent in X. congruence.
    + split; [discriminate|]. intros H. destruct (H i ltac:(lia)) as (b' & E' & _). congruence.
Qed.
Lemma match_true_bytes f id : good f -> match_filter f id = Ok true <-> forall i, i < length (fo_filter f) -> byte_ok f id i.
Proof.
  intros (G1 & G2 & _). unfold match_filter. rewrite match_loop_true by lia. rewrite G1. split; intros H i Hi; apply H; lia.
Qed.

Lemma nth_bits_of_bytes l i k : k < 8 -> i < length l ->
  nth_error (bits_of_bytes l) (8 * i + k) = Some (N.testbit (nth i l 0%N) (N.of_nat (7 - k))).
Proof.
  revert i; induction l as [|b l IH]; intros i Hk Hi; [cbn in Hi; lia|]. rewrite bits_of_bytes_cons.
  destruct i as [|i].
  - rewrite nth_error_app1 by (cbn; lia). cbn [nth]. do 8 (destruct k as [|k]; [reflexivity|]). lia.
  - rewrite nth_error_app2 by (cbn [bits_of_byte map length]; lia). cbn [bits_of_byte map length nth]. rewrite <- IH by (cbn in Hi; lia). f_equal. lia.
Qed.
Lemma byte_testbit_high b k : (b < 256)%N -> (8 <= k)%N -> N.testbit b k = false.
Proof.
  intros H K. destruct (N.eq_dec b 0) as [->|NZ]; [apply N.bits_0|]. apply N.bits_above_log2. apply N.log2_lt_pow2; [lia|].
  eapply N.lt_le_trans; [exact H|]. change 256%N with (2 ^ 8)%N. apply N.pow_le_mono_r; lia.
Qed.
Lemma wf_nth l i : wf_bytes l -> (nth i l 0%N < 256)%N.
Proof. intros W. destruct (nth_in_or_default i l 0%N) as [I| ->]; [|lia]. unfold wf_bytes in W. rewrite Forall_forall in W. auto. Qed.
Lemma byte_ext a b : (a < 256)%N -> (b < 256)%N -> (forall k, k < 8 -> N.testbit a (N.of_nat (7 - k)) = N.testbit b (N.of_nat (7 - k))) -> a = b.
Proof.
  intros A B H. apply N.bits_inj. intros k. destruct (N.lt_ge_cases k 8) as [L|G].
  - specialize (H (7 - N.to_nat k) ltac:(lia)). replace (N.of_nat (7 - (7 - N.to_nat k))) with k in H by lia. exact H.
  - rewrite !byte_testbit_high by auto. reflexivity.
Qed.
Lemma lt_256 a : (forall k, (8 <= k)%N -> N.testbit a k = false) -> (a < 256)%N.
Proof.
  intros H. destruct (N.lt_ge_cases a 256) as [L|G]; auto. exfalso.
  assert (a <> 0)%N as NZ by lia. pose proof (N.bit_log2 a NZ) as B. rewrite H in B; [discriminate|].
  change 8%N with (N.log2 256). apply N.log2_le_mono; auto.
Qed.
Lemma lor_256 a b : (a < 256)%N -> (b < 256)%N -> (N.lor a b < 256)%N.
Proof. intros A B. apply lt_256. intros k K. rewrite N.lor_spec, !byte_testbit_high by auto. reflexivity. Qed.
Lemma lxor_256 a b : (a < 256)%N -> (b < 256)%N -> (N.lxor a b < 256)%N.
Proof. intros A B. apply lt_256. intros k K. rewrite N.lxor_spec, !byte_testbit_high by auto. reflexivity. Qed.

Lemma good_new_filter pat off : is_pattern pat -> good (new_filter pat off).
Proof.
  intros HP. destruct (new_filter_bits pat off HP) as (F & M & -> & HF & WF & HM & WM & LM & LN).
  split; [reflexivity|]. cbn [fo_filter fo_mask]. split; auto. split; [lia|]. split; auto. split; auto. intros i.
  destruct (le_lt_dec (length F) i) as [LE|LT].
  { rewrite !nth_overflow by lia. reflexivity. }
  apply byte_ext; [apply lor_256; apply wf_nth; auto|apply wf_nth; auto|]. intros k K. rewrite N.lor_spec.
  pose proof (nth_bits_of_bytes F i k K LT) as A. pose proof (nth_bits_of_bytes M i k K ltac:(lia)) as B.
  rewrite HF, nth_error_map in A. rewrite HM, nth_error_map in B. destruct (nth_error (padded pat off) (8 * i + k)) as [c|]; [|discriminate].
  assert (forall x y : bool, Some x = Some y -> y = x) as SI by (intros x y Q; congruence). apply SI in A. apply SI in B. rewrite A, B. unfold fbit, mbit. destruct (Ascii.eqb c cx), (Ascii.eqb c c1); reflexivity.
Qed.

(** ** Patterns written byte by byte *)
Lemma map2_length {A B C} (g : A -> B -> C) l : forall r, length l = length r -> length (map2 g l r) = length l.
Proof. induction l as [|a l IH]; intros [|b r] H; cbn in *; try discriminate; auto. Qed.
Lemma map2_nth {A B C} (g : A -> B -> C) l : forall r i a b c, length l = length r -> i < length l ->
  nth i (map2 g l r) c = g (nth i l a) (nth i r b).
Proof. induction l as [|x l IH]; intros [|y r] [|i] a b c H Hi; cbn in *; try discriminate; try lia; auto. apply IH; lia. Qed.
Lemma wf_map2 g l : forall r, (forall a b, (a < 256)%N -> (b < 256)%N -> (g a b < 256)%N) -> wf_bytes l -> wf_bytes r -> wf_bytes (map2 g l r).
Proof.
  induction l as [|a l IH]; intros [|b r] G Wl Wr; cbn; try constructor.
  - inversion Wl; inversion Wr; subst; auto.
  - inversion Wl; inversion Wr; subst; apply IH; auto.
Qed.
Lemma byte_pattern_bits m d : is_pattern (byte_pattern m d) /\ length (byte_pattern m d) = 8 /\
  map fbit (byte_pattern m d) = bits_of_byte (N.lor d m) /\ map mbit (byte_pattern m d) = bits_of_byte m.
Proof.
  unfold byte_pattern, bytes_to_binstr, bits_of_bytes, bits_of_byte. cbn [flat_map map app bits_to_str map2].
  split; [|split; [reflexivity|split]].
  - unfold is_pattern, star. repeat (apply Forall_cons; [repeat (destruct (N.testbit _ _)); cbn; auto|]). constructor.
  - cbn [map]. rewrite !N.lor_spec. f_equal; [|f_equal; [|f_equal; [|f_equal; [|f_equal; [|f_equal; [|f_equal; [|f_equal]]]]]]];
    unfold star; repeat (destruct (N.testbit _ _)); reflexivity.
  - cbn [map]. f_equal; [|f_equal; [|f_equal; [|f_equal; [|f_equal; [|f_equal; [|f_equal; [|f_equal]]]]]]];
    unfold star; repeat (destruct (N.testbit _ _)); reflexivity.
Qed.
Lemma patterns_bits ms : forall ds, length ms = length ds ->
  let s := List.concat (map2 byte_pattern ms ds) in
  is_pattern s /\ length s = 8 * length ms /\ map fbit s = bits_of_bytes (map2 N.lor ds ms) /\ map mbit s = bits_of_bytes ms.
Proof.
  induction ms as [|m ms IH]; intros [|d ds] H; try discriminate.
  - cbn. split; [constructor|auto].
  - cbv zeta. cbn [map2 List.concat]. destruct (byte_pattern_bits m d) as (B1 & B2 & B3 & B4). destruct (IH ds ltac:(cbn in H; lia)) as (I1 & I2 & I3 & I4).
    split; [apply Forall_app; auto|]. split; [rewrite app_length, B2, I2; cbn [length]; lia|].
    rewrite !map_app, !bits_of_bytes_cons, B3, B4, I3, I4. auto.
Qed.
Lemma new_filter_aligned ms ds h : length ms = length ds -> 0 < length ms -> wf_bytes ms -> wf_bytes ds ->
  let s := List.concat (map2 byte_pattern ms ds) in let f := new_filter s (h * byte_length) in
  fo_byte_offset f = h /\ fo_filter f = map2 N.lor ds ms /\ fo_mask f = ms /\ is_pattern s.
Proof.
  intros L P Wm Wd s f. destruct (patterns_bits ms ds L) as (I1 & I2 & I3 & I4). fold s in I1, I2, I3, I4.
  destruct (new_filter_bits s (h * byte_length) I1) as (F & M & E & HF & WF & HM & WM & LM & LN).
  assert (padded s (h * byte_length) = s) as PD.
  { unfold padded. unfold byte_length. rewrite Nat.mod_mul by lia. cbn [repeat app]. rewrite I2. unfold padr.
    replace (Nat.eqb (0 + 8 * length ms) 0) with false by lia. replace ((8 - (0 + 8 * length ms) mod 8) mod 8) with 0 by lia. cbn. apply app_nil_r. }
  rewrite PD, I3 in HF. rewrite PD, I4 in HM. unfold f. rewrite E. cbn [fo_byte_offset fo_filter fo_mask].
  split; [unfold byte_length; apply Nat.div_mul; lia|]. split; [|split; auto].
  - apply bits_of_bytes_inj; auto. apply wf_map2; auto using lor_256.
  - apply bits_of_bytes_inj; auto.
Qed.

(** ** Edges *)
Lemma edges_from fs : forall h t, exists h' t', fold_left (fun ht f => edge (fst ht) (snd ht) f) fs (Some h, Some t) = (Some h', Some t') /\
  h <= h' /\ t' <= t /\ (forall f, In f fs -> fo_byte_offset f <= h' /\ t' <= fo_byte_offset f + fo_byte_size f) /\
  (h' = h \/ exists f, In f fs /\ h' = fo_byte_offset f) /\ (t' = t \/ exists f, In f fs /\ t' = fo_byte_offset f + fo_byte_size f).
Proof.
  induction fs as [|f fs IH]; intros h t; cbn [fold_left].
  - exists h, t. split; auto. split; auto. split; auto. split; [intros f []|auto].
  - unfold edge at 2. cbn [fst snd]. destruct (IH (if Nat.ltb h (fo_byte_offset f) then fo_byte_offset f else h)
      (if Nat.ltb (fo_byte_offset f + fo_byte_size f) t then fo_byte_offset f + fo_byte_size f else t)) as (h' & t' & E & A & B & C & D & G).
    exists h', t'. split; auto. split; [destruct (Nat.ltb_spec h (fo_byte_offset f)); lia|]. split; [destruct (Nat.ltb_spec (fo_byte_offset f + fo_byte_size f) t); lia|].
    split; [|split].
    + intros g [<-|I]; auto. destruct (Nat.ltb_spec h (fo_byte_offset f)), (Nat.ltb_spec (fo_byte_offset f + fo_byte_size f) t); lia.
    + destruct D as [->|(g & I & ->)]; [|right; exists g; split; [right|]; auto]. destruct (Nat.ltb_spec h (fo_byte_offset f)); [right; exists f; split; [left|]; auto|auto].
    + destruct G as [->|(g & I & ->)]; [|right; exists g; split; [right|]; auto]. destruct (Nat.ltb_spec (fo_byte_offset f + fo_byte_size f) t); [right; exists f; split; [left|]; auto|auto].
Qed.
Lemma edges_spec f0 fs : exists h t, edges (f0 :: fs) = (Some h, Some t) /\
  (forall f, In f (f0 :: fs) -> fo_byte_offset f <= h /\ t <= fo_byte_offset f + fo_byte_size f) /\
  (exists f, In f (f0 :: fs) /\ h = fo_byte_offset f) /\ (exists f, In f (f0 :: fs) /\ t = fo_byte_offset f + fo_byte_size f).
Proof.
  unfold edges. cbn [fold_left]. unfold edge at 2. cbn [fst snd].
  destruct (edges_from fs (fo_byte_offset f0) (fo_byte_offset f0 + fo_byte_size f0)) as (h & t & E & A & B & C & D & G).
  exists h, t. split; auto. split; [intros f [<-|I]; auto|]. split.
  - destruct D as [->|(g & I & ->)]; [exists f0|exists g]; split; auto; [left|right]; auto.
  - destruct G as [->|(g & I & ->)]; [exists f0|exists g]; split; auto; [left|right]; auto.
Qed.

(** ** The masks *)
Lemma read_range_spec {A} (l : list A) n : forall i, i + n <= length l -> read_range l i n = Ok (firstn n (skipn i l)).
Proof.
  induction n as [|n IH]; intros i H; cbn [read_range]; auto. unfold index. destruct (nth_error l i) as [x|] eqn:E.
  - cbn [bind]. rewrite IH by lia. cbn [bind]. rewrite (skipn_nth l i x E). reflexivity.
  - apply nth_error_None in E. lia.
Qed.
Lemma nth_firstn_skipn {A} (l : list A) i n j d : j < n -> nth j (firstn n (skipn i l)) d = nth (i + j) l d.
Proof.
  revert i n j. induction l as [|a l IH]; intros i n j H.
  - rewrite skipn_nil, firstn_nil. rewrite !nth_overflow by (cbn; lia). reflexivity.
  - destruct i as [|i]; cbn [skipn].
    + destruct n as [|n]; [lia|]. destruct j as [|j]; auto. cbn [firstn nth Nat.add]. specialize (IH 0 n j ltac:(lia)). cbn [skipn Nat.add] in IH. auto.
    + cbn [Nat.add nth]. apply IH; auto.
Qed.
Definition fbyte (f : filter_object) (k : nat) : N := nth (k - fo_byte_offset f) (fo_filter f) 0%N.
Definition mbyte (f : filter_object) (k : nat) : N := nth (k - fo_byte_offset f) (fo_mask f) 0%N.
(** The member covers the bytes from [head] to [head + n]. *)
Definition covers (f : filter_object) (head n : nat) : Prop :=
  good f /\ fo_byte_offset f <= head /\ head + n <= fo_byte_offset f + length (fo_filter f).
Lemma read_member f head n : covers f head n ->
  exists a m, read_range (fo_filter f) (head - fo_byte_offset f) n = Ok a /\ read_range (fo_mask f) (head - fo_byte_offset f) n = Ok m /\
    length a = n /\ length m = n /\ wf_bytes a /\ wf_bytes m /\
    forall j, j < n -> nth j a 0%N = fbyte f (head + j) /\ nth j m 0%N = mbyte f (head + j).
Proof.
  intros ((G1 & G2 & G3 & G4 & G5 & _) & C1 & C2). eexists _, _. split; [apply read_range_spec; lia|]. split; [apply read_range_spec; lia|].
  split; [rewrite firstn_length, skipn_length; lia|]. split; [rewrite firstn_length, skipn_length; lia|].
  assert (forall l : list N, wf_bytes l -> forall i, wf_bytes (firstn n (skipn i l))) as WF.
  { intros l W i. unfold wf_bytes in *. rewrite <- (firstn_skipn i l) in W. apply Forall_app in W. destruct W as [_ W].
    rewrite <- (firstn_skipn n (skipn i l)) in W. apply Forall_app in W. tauto. }
  split; auto. split; auto. intros j Hj. unfold fbyte, mbyte. rewrite !nth_firstn_skipn by auto. split; f_equal; lia.
Qed.
Lemma or_members_spec fs head n : forall pm dj, (forall f, In f fs -> covers f head n) -> length pm = n -> length dj = n -> wf_bytes pm -> wf_bytes dj ->
  exists pm' dj', or_members fs head n pm dj = Ok (pm', dj') /\ length pm' = n /\ length dj' = n /\ wf_bytes pm' /\ wf_bytes dj' /\
    forall j k, j < n ->
      N.testbit (nth j pm' 0%N) k = N.testbit (nth j pm 0%N) k || existsb (fun f => N.testbit (mbyte f (head + j)) k) fs /\
      N.testbit (nth j dj' 0%N) k = N.testbit (nth j dj 0%N) k || existsb (fun f => N.testbit (fbyte f (head + j)) k) fs.
Proof.
  induction fs as [|f fs IH]; intros pm dj C Lp Ld Wp Wd; cbn [or_members].
  - exists pm, dj. do 5 (split; [auto|]). intros j k Hj. cbn. rewrite !orb_false_r. auto.
  - destruct (read_member f head n) as (a & m & R1 & R2 & L1 & L2 & W1 & W2 & V); [apply C; left; auto|].
    rewrite R1, R2. cbn [bind].
    destruct (IH (map2 N.lor pm m) (map2 N.lor dj a)) as (pm' & dj' & E & Q1 & Q2 & Q3 & Q4 & Q5).
    + intros g I. apply C. right; auto.
    + rewrite map2_length; lia.
    + rewrite map2_length; lia.
    + apply wf_map2; auto using lor_256.
    + apply wf_map2; auto using lor_256.
    + exists pm', dj'. do 5 (split; [auto|]). intros j k Hj. destruct (Q5 j k Hj) as [T1 T2]. destruct (V j Hj) as [V1 V2].
      rewrite T1, T2, !(map2_nth N.lor _ _ j 0%N 0%N 0%N), !N.lor_spec, V1, V2 by lia. cbn [existsb]. rewrite !orb_assoc. auto.
Qed.
Lemma xor_members_spec f0 fs head n : covers f0 head n -> forall xm, (forall f, In f fs -> covers f head n) -> length xm = n -> wf_bytes xm ->
  exists xm', xor_members f0 fs head n xm = Ok xm' /\ length xm' = n /\ wf_bytes xm' /\
    forall j k, j < n ->
      N.testbit (nth j xm' 0%N) k = N.testbit (nth j xm 0%N) k || existsb (fun f => xorb (N.testbit (fbyte f0 (head + j)) k) (N.testbit (fbyte f (head + j)) k)) fs.
Proof.
  intros C0. destruct (read_member f0 head n C0) as (a0 & m0 & R1 & _ & L1 & _ & W1 & _ & V0).
  induction fs as [|f fs IH]; intros xm C Lx Wx; cbn [xor_members].
  - exists xm. do 3 (split; [auto|]). intros j k Hj. cbn. rewrite orb_false_r. auto.
  - destruct (read_member f head n) as (a & m & S1 & _ & L2 & _ & W2 & _ & V); [apply C; left; auto|].
    rewrite R1, S1. cbn [bind].
    destruct (IH (map2 N.lor xm (map2 N.lxor a0 a))) as (xm' & E & Q1 & Q2 & Q3).
    + intros g I. apply C. right; auto.
    + rewrite map2_length; [lia|rewrite map2_length; lia].
    + apply wf_map2; auto using lor_256. apply wf_map2; auto using lxor_256.
    + exists xm'. do 3 (split; [auto|]). intros j k Hj. rewrite (Q3 j k Hj). destruct (V j Hj) as [V1 _]. destruct (V0 j Hj) as [V2 _].
      rewrite (map2_nth N.lor _ _ j 0%N 0%N 0%N) by (rewrite ?map2_length; lia). rewrite (map2_nth N.lxor _ _ j 0%N 0%N 0%N) by lia.
      rewrite N.lor_spec, N.lxor_spec, V1, V2. cbn [existsb]. rewrite orb_assoc. auto.
Qed.

(** ** The composite filter *)
Lemma composite_byte f0 rest f M D b h :
  In f (f0 :: rest) ->
  (forall k, N.testbit M k = existsb (fun g => N.testbit (mbyte g h) k) (f0 :: rest) ||
                             existsb (fun g => xorb (N.testbit (fbyte f0 h) k) (N.testbit (fbyte g h) k)) rest) ->
  (forall k, N.testbit D k = existsb (fun g => N.testbit (fbyte g h) k) (f0 :: rest)) ->
  N.lor b (mbyte f h) = fbyte f h -> N.lor b M = N.lor D M.
Proof.
  intros I HM HD E. apply N.bits_inj. intros k. rewrite !N.lor_spec. destruct (N.testbit M k) eqn:MK; [rewrite !orb_true_r; auto|]. rewrite !orb_false_r.
  rewrite HM in MK. apply orb_false_iff in MK. destruct MK as [M1 M2]. rewrite HD.
  assert (N.testbit (mbyte f h) k = false) as F1.
  { destruct (N.testbit (mbyte f h) k) eqn:X; auto. rewrite <- M1. symmetry. apply existsb_exists. exists f. auto. }
  assert (forall g, In g (f0 :: rest) -> N.testbit (fbyte g h) k = N.testbit (fbyte f0 h) k) as SA.
  { intros g [<-|J]; auto. destruct (xorb (N.testbit (fbyte f0 h) k) (N.testbit (fbyte g h) k)) eqn:X.
    - exfalso. rewrite <- not_true_iff_false in M2. apply M2. apply existsb_exists. exists g. auto.
    - destruct (N.testbit (fbyte f0 h) k), (N.testbit (fbyte g h) k); auto; discriminate. }
  assert (N.testbit b k = N.testbit (fbyte f0 h) k) as BK.
  { rewrite <- (SA f I), <- E, N.lor_spec, F1, orb_false_r. reflexivity. }
  rewrite BK. destruct (N.testbit (fbyte f0 h) k) eqn:V; symmetry.
  - apply existsb_exists. exists f0. split; [left; auto|auto].
  - apply not_true_iff_false. intros X. apply existsb_exists in X. destruct X as (g & J & G). specialize (SA g J). congruence.
Qed.

(** ** The children *)
Lemma land_mask a m : N.lor a m = a -> N.land a m = m.
Proof.
  intros E. apply N.bits_inj. intros k. rewrite N.land_spec. apply (f_equal (fun x => N.testbit x k)) in E. rewrite N.lor_spec in E.
  destruct (N.testbit a k), (N.testbit m k); auto; discriminate.
Qed.
Lemma child_loop_spec cf f head tail : good f -> fo_byte_offset f <= head -> head < tail -> tail <= fo_byte_offset f + length (fo_filter f) ->
  length (fo_filter cf) = tail - head -> length (fo_mask cf) = tail - head ->
  forall bs i s off, bs = skipn i (fo_filter f) -> (i = 0 /\ s = []) \/ (0 < i /\ s <> [] /\ off = fo_byte_offset f * byte_length) ->
  exists ms ds, child_loop cf f head tail i bs s off =
      Ok (s ++ List.concat (map2 byte_pattern ms ds), match bs with [] => off | _ => fo_byte_offset f * byte_length end) /\
    length ms = length bs /\ length ds = length bs /\ wf_bytes ms /\ wf_bytes ds /\
    forall j, j < length bs ->
      (nth j ms 0%N = nth (i + j) (fo_mask f) 0%N /\ nth j ds 0%N = nth (i + j) (fo_filter f) 0%N) \/
      (nth j ms 0%N = 255%N /\ nth j ds 0%N = 255%N /\ head <= fo_byte_offset f + (i + j) < tail /\
       nth (fo_byte_offset f + (i + j) - head) (fo_filter cf) 0%N = nth (i + j) (fo_filter f) 0%N /\
       nth (fo_byte_offset f + (i + j) - head) (fo_mask cf) 0%N = nth (i + j) (fo_mask f) 0%N).
Proof.
  intros (G1 & G2 & G3 & G4 & G5 & G6) B1 B2 B3 C1 C2.
  induction bs as [|b bs IH]; intros i s off EB ST; cbn [child_loop].
  - exists [], []. cbn. rewrite app_nil_r. split; auto. split; auto. split; auto. split; [constructor|]. split; [constructor|]. intros; lia.
  - assert (i < length (fo_filter f)) as Hi. { destruct (le_lt_dec (length (fo_filter f)) i); auto. rewrite skipn_all2 in EB by auto. discriminate. }
    assert (nth i (fo_filter f) 0%N = b /\ bs = skipn (S i) (fo_filter f)) as [NB EB'].
    { rewrite (skipn_nth (fo_filter f) i (nth i (fo_filter f) 0%N)) in EB by (apply nth_error_nth'; auto). injection EB as -> ->. auto. }
    rewrite !(index_nth (fo_mask f) i 0%N) by lia. cbn [bind].
    assert (forall s' off' m d, s' = byte_pattern m d -> (m < 256)%N -> (d < 256)%N -> off' = fo_byte_offset f * byte_length ->
      ((m = nth i (fo_mask f) 0%N /\ d = nth i (fo_filter f) 0%N) \/
       (m = 255%N /\ d = 255%N /\ head <= fo_byte_offset f + i < tail /\
        nth (fo_byte_offset f + i - head) (fo_filter cf) 0%N = nth i (fo_filter f) 0%N /\
        nth (fo_byte_offset f + i - head) (fo_mask cf) 0%N = nth i (fo_mask f) 0%N)) ->
      exists ms ds, child_loop cf f head tail (S i) bs (s ++ s') off' =
          Ok (s ++ List.concat (map2 byte_pattern ms ds), fo_byte_offset f * byte_length) /\
        length ms = length (b :: bs) /\ length ds = length (b :: bs) /\ wf_bytes ms /\ wf_bytes ds /\
        forall j, j < length (b :: bs) ->
          (nth j ms 0%N = nth (i + j) (fo_mask f) 0%N /\ nth j ds 0%N = nth (i + j) (fo_filter f) 0%N) \/
          (nth j ms 0%N = 255%N /\ nth j ds 0%N = 255%N /\ head <= fo_byte_offset f + (i + j) < tail /\
           nth (fo_byte_offset f + (i + j) - head) (fo_filter cf) 0%N = nth (i + j) (fo_filter f) 0%N /\
           nth (fo_byte_offset f + (i + j) - head) (fo_mask cf) 0%N = nth (i + j) (fo_mask f) 0%N)) as STEP.
    { intros s' off' m d -> Hm Hd -> HC. destruct (IH (S i) (s ++ byte_pattern m d) (fo_byte_offset f * byte_length) EB') as (ms & ds & E & L1 & L2 & W1 & W2 & V).
      { right. split; [lia|]. split; auto. intros X. apply (f_equal (@length ascii)) in X. rewrite app_length in X. destruct (byte_pattern_bits m d) as (_ & X2 & _). rewrite X2 in X. cbn in X. lia. }
      exists (m :: ms), (d :: ds). split; [|split; [|split; [|split; [|split]]]].
      - rewrite E. cbn [map2 List.concat]. rewrite <- app_assoc. destruct bs; reflexivity.
      - cbn [length]; lia.
      - cbn [length]; lia.
      - constructor; auto.
      - constructor; auto.
      - intros [|j] Hj; cbn [nth].
        + rewrite Nat.add_0_r. exact HC.
        + specialize (V j ltac:(cbn in Hj; lia)). replace (S i + j) with (i + S j) in V by lia. exact V. }
    assert (process_wildcard b (nth i (fo_mask f) 0%N) = byte_pattern (nth i (fo_mask f) 0%N) b) as PW.
    { change (process_wildcard b (nth i (fo_mask f) 0%N)) with (byte_pattern (N.land b (nth i (fo_mask f) 0%N)) b). rewrite land_mask; auto. rewrite <- NB. apply G6. }
    assert (b < 256)%N as Wb by (rewrite <- NB; apply wf_nth; auto).
    assert (nth i (fo_mask f) 0 < 256)%N as Wm by (apply wf_nth; auto).
    rewrite PW. destruct (Nat.ltb_spec (fo_byte_offset f + i) head) as [LH|LH]; [|destruct (Nat.ltb_spec (fo_byte_offset f + i) tail) as [LT|LT]].
    + eapply STEP; [reflexivity|auto|auto| |left; auto].
      destruct ST as [[-> ->]|(_ & NS & ->)]; [reflexivity|]. destruct s; [congruence|reflexivity].
    + assert ((if Nat.eqb (List.length s) 0 then (fo_byte_offset f + i) * byte_length else off) = fo_byte_offset f * byte_length) as OF.
      { destruct ST as [[-> ->]|(_ & NS & ->)]; [cbn [List.length Nat.eqb]; f_equal; lia|]. destruct s; [congruence|reflexivity]. }
      rewrite (index_nth (fo_filter cf) _ 0%N) by lia. cbn [bind].
      destruct (N.eqb_spec (N.lxor (nth (fo_byte_offset f + i - head) (fo_filter cf) 0%N) b) 0) as [X|X]; cbn [bind].
      * rewrite (index_nth (fo_mask cf) _ 0%N) by lia. cbn [bind].
        destruct (N.eqb_spec (N.lxor (nth (fo_byte_offset f + i - head) (fo_mask cf) 0%N) (nth i (fo_mask f) 0%N)) 0) as [Y|Y].
        -- apply N.lxor_eq in X. apply N.lxor_eq in Y. eapply (STEP _ _ 255%N 255%N); [reflexivity|lia|lia|auto|]. right. split; auto. split; auto. split; [lia|]. split; congruence.
        -- eapply STEP; [reflexivity|auto|auto|auto|left; auto].
      * eapply STEP; [reflexivity|auto|auto|auto|left; auto].
    + eapply STEP; [reflexivity|auto|auto| |left; auto].
      destruct ST as [[-> ->]|(_ & NS & ->)]; [lia|reflexivity].
Qed.

Lemma children_of_spec cf head tail fs : (forall f, In f fs -> exists s off, child_loop cf f head tail 0 (fo_filter f) [] 0 = Ok (s, off)) ->
  forall acc, exists acc', children_of cf head tail fs acc = Ok acc' /\
    (forall l1 f l2 s off, fs = l1 ++ f :: l2 -> (forall g, In g l2 -> fo_string g <> fo_string f) ->
       child_loop cf f head tail 0 (fo_filter f) [] 0 = Ok (s, off) -> mget (fo_string f) acc' = Some (new_filter s off)) /\
    (forall k, (forall f, In f fs -> fo_string f <> k) -> mget k acc' = mget k acc).
Proof.
  induction fs as [|f fs IH]; intros H acc; cbn [children_of].
  - exists acc. split; [reflexivity|]. split; auto. intros [|? ?] ? ? ? ? E; discriminate.
  - destruct (H f (or_introl eq_refl)) as (s & off & E). rewrite E. cbn [bind].
    destruct (IH ltac:(intros g I; apply H; right; auto) (mset (fo_string f) (new_filter s off) acc)) as (acc' & E' & K1 & K2).
    exists acc'. split; auto. split.
    + intros [|g l1] f' l2 s' off' EQ L C; cbn [app] in EQ; injection EQ as <- ->.
      * rewrite K2 by auto. rewrite mget_mset, seqb_refl. congruence.
      * eapply K1; eauto.
    + intros k N. rewrite K2 by (intros g I; apply N; right; auto). rewrite mget_mset. destruct (seqb_spec k (fo_string f)) as [->|NE]; auto. destruct (N f); auto. left. auto.
Qed.

Lemma composition_spec fs : fs <> [] -> Forall good fs ->
  (exists k, forall f, In f fs -> fo_byte_offset f <= k < fo_byte_offset f + length (fo_filter f)) ->
  exists c, new_composition fs = Ok c /\ is_pattern (co_filter c) /\
    (forall id f, In f fs -> match_filter f id = Ok true -> match_filter (new_filter (co_filter c) (co_offset c)) id = Ok true) /\
    (forall l1 f l2, fs = l1 ++ f :: l2 -> (forall g, In g l2 -> fo_string g <> fo_string f) ->
       exists ch, mget (fo_string f) (co_children c) = Some ch /\ forall id,
         match_filter f id = Ok true <-> match_filter (new_filter (co_filter c) (co_offset c)) id = Ok true /\ match_filter ch id = Ok true).
Proof.
  intros NE GD (k0 & OV). destruct fs as [|f0 rest]; [congruence|]. clear NE. set (fs := f0 :: rest) in *.
  rewrite Forall_forall in GD. destruct (edges_spec f0 rest) as (head & tail & EE & EB & (fh & Ih & Hh) & (ft & It & Ht)). fold fs in EE, EB, Ih, It.
  assert (head < tail) as HT. { pose proof (OV fh Ih). pose proof (OV ft It). destruct (GD ft It) as (Q & _). lia. }
  set (n := tail - head).
  assert (forall f, In f fs -> covers f head n) as CV.
  { intros f I. split; auto. destruct (EB f I). destruct (GD f I) as (Q & _). unfold n. split; lia. }
  assert (wf_bytes (repeat 0%N n)) as WZ by (apply Forall_forall; intros x X; apply repeat_spec in X; subst; lia).
  destruct (or_members_spec fs head n (repeat 0%N n) (repeat 0%N n) CV) as (pm & dj & E1 & P1 & P2 & P3 & P4 & PV); try (apply repeat_length); auto.
  destruct (xor_members_spec f0 rest head n (CV f0 (or_introl eq_refl)) (repeat 0%N n)) as (xm & E2 & X1 & X2 & XV); [intros f I; apply CV; right; auto|apply repeat_length|auto|].
  set (M := map2 N.lor pm xm).
  assert (length M = n) as LM by (unfold M; rewrite map2_length; lia).
  assert (wf_bytes M) as WM by (apply wf_map2; auto using lor_256).
  set (s := List.concat (map2 byte_pattern M dj)).
  destruct (new_filter_aligned M dj head ltac:(lia) ltac:(lia) WM P4) as (A1 & A2 & A3 & A4). fold s in A1, A2, A3, A4.
  set (cf := new_filter s (head * byte_length)) in *.
  assert (good cf) as GC by (apply good_new_filter; auto).
  assert (length (fo_filter cf) = n) as LC by (rewrite A2, map2_length; lia).
  assert (forall f, In f fs -> exists ms ds, child_loop cf f head tail 0 (fo_filter f) [] 0 =
      Ok (List.concat (map2 byte_pattern ms ds), fo_byte_offset f * byte_length) /\
    length ms = length (fo_filter f) /\ length ds = length (fo_filter f) /\ wf_bytes ms /\ wf_bytes ds /\
    forall j, j < length (fo_filter f) ->
      (nth j ms 0%N = nth j (fo_mask f) 0%N /\ nth j ds 0%N = nth j (fo_filter f) 0%N) \/
      (nth j ms 0%N = 255%N /\ nth j ds 0%N = 255%N /\ head <= fo_byte_offset f + j < tail /\
       nth (fo_byte_offset f + j - head) (fo_filter cf) 0%N = nth j (fo_filter f) 0%N /\
       nth (fo_byte_offset f + j - head) (fo_mask cf) 0%N = nth j (fo_mask f) 0%N)) as CH.
  { intros f I. destruct (EB f I). destruct (GD f I) as (Q & Q2 & Q3 & _).
    destruct (child_loop_spec cf f head tail (GD f I) ltac:(lia) HT ltac:(lia) ltac:(lia) ltac:(rewrite A3; lia) (fo_filter f) 0 [] 0 eq_refl (or_introl (conj eq_refl eq_refl)))
      as (ms & ds & E & R). exists ms, ds. split; [|exact R]. rewrite E. cbn [app]. destruct (fo_filter f); [cbn in Q3; lia|reflexivity]. }
  destruct (children_of_spec cf head tail fs) with (acc := @nil (gostring * filter_object)) as (acc & E3 & KV & _).
  { intros f I. destruct (CH f I) as (ms & ds & E & _). eauto. }
  exists {| co_filter := s; co_offset := head * byte_length; co_children := acc |}. cbn [co_filter co_offset co_children]. fold cf.
  split.
  { unfold fs in EE, E1, E3 |- *. unfold new_composition. rewrite EE.
    replace (Nat.ltb tail head) with false by (symmetry; apply Nat.ltb_ge; lia). fold n. rewrite E1. cbn [bind]. rewrite E2. cbn [bind].
    fold M. fold s. fold cf. rewrite E3. reflexivity. }
  split; auto.
  assert (forall id f, In f fs -> match_filter f id = Ok true -> match_filter cf id = Ok true) as C31.
  { intros id f I MF. destruct (CV f I) as (GF & V1 & V2). rewrite match_true_bytes in MF by auto. apply match_true_bytes; auto. intros j Hj. rewrite LC in Hj.
    destruct (MF (head - fo_byte_offset f + j) ltac:(lia)) as (b & B1 & B2). exists b. rewrite A1. replace (fo_byte_offset f + (head - fo_byte_offset f + j)) with (head + j) in B1 by lia. split; auto.
    rewrite A2, A3. rewrite (map2_nth N.lor _ _ j 0%N 0%N 0%N) by lia. apply (composite_byte f0 rest f _ _ b (head + j)); auto.
    - intros k. unfold M. rewrite (map2_nth N.lor _ _ j 0%N 0%N 0%N) by lia. rewrite N.lor_spec, XV by auto. destruct (PV j k Hj) as [-> _]. rewrite nth_repeat, N.bits_0. reflexivity.
    - intros k. destruct (PV j k Hj) as [_ ->]. rewrite nth_repeat, N.bits_0. reflexivity.
    - unfold mbyte, fbyte. replace (head + j - fo_byte_offset f) with (head - fo_byte_offset f + j) by lia. exact B2. }
  split; auto. intros l1 f l2 EQ LAST. assert (In f fs) as I by (rewrite EQ; apply in_elt).
  destruct (CH f I) as (ms & ds & E & L1 & L2 & W1 & W2 & V). eexists. split; [eapply KV; eauto|].
  destruct (GD f I) as (Q1 & Q2 & Q3 & Q4 & Q5 & Q6).
  destruct (new_filter_aligned ms ds (fo_byte_offset f) ltac:(lia) ltac:(lia) W1 W2) as (H1 & H2 & H3 & H4). cbv zeta in *.
  set (ch := new_filter (List.concat (map2 byte_pattern ms ds)) (fo_byte_offset f * byte_length)) in *.
  assert (good ch) as GCH by (apply good_new_filter; auto).
  assert (length (fo_filter ch) = length (fo_filter f)) as LCH by (rewrite H2, map2_length; lia).
  assert (forall j, j < length (fo_filter f) -> nth j (fo_filter ch) 0%N = N.lor (nth j ds 0%N) (nth j ms 0%N)) as VF.
  { intros j Hj. rewrite H2. apply map2_nth; lia. }
  intros id. split.
  - intros MF. split; [eapply C31; eauto|]. rewrite match_true_bytes in MF by auto. apply match_true_bytes; auto. intros j Hj. rewrite LCH in Hj. destruct (MF j Hj) as (b & B1 & B2).
    exists b. rewrite H1. split; auto. rewrite VF, H3 by auto. destruct (V j Hj) as [[-> ->]|(-> & -> & _)].
    + rewrite Q6. exact B2.
    + change (N.lor 255 255) with 255%N. apply N.bits_inj. intros k. rewrite N.lor_spec. destruct (N.lt_ge_cases k 8) as [LK|GK].
      * assert (N.testbit 255 k = true) as -> by (change 255%N with (N.ones 8); apply N.ones_spec_low; auto). apply orb_true_r.
      * rewrite (byte_testbit_high 255) by (auto; lia). rewrite orb_false_r. apply (f_equal (fun x => N.testbit x k)) in B2. rewrite N.lor_spec in B2.
        rewrite (byte_testbit_high (nth j (fo_filter f) 0%N)) in B2 by (auto; apply wf_nth; auto). apply orb_false_iff in B2. tauto.
  - intros [MC MH]. rewrite match_true_bytes in MC, MH by auto. apply match_true_bytes; auto. intros j Hj. destruct (MH j ltac:(lia)) as (b & B1 & B2). rewrite H1 in B1.
    exists b. split; auto. rewrite VF, H3 in B2 by auto. destruct (V j Hj) as [[X Y]|(X & Y & R1 & R2 & R3)].
    + rewrite X, Y, Q6 in B2. exact B2.
    + destruct (MC (fo_byte_offset f + j - head) ltac:(rewrite LC; unfold n; lia)) as (b' & B3 & B4). rewrite A1 in B3. replace (head + (fo_byte_offset f + j - head)) with (fo_byte_offset f + j) in B3 by lia.
      assert (b' = b) as -> by congruence. rewrite R2, R3 in B4. exact B4.
Qed.

(** ** When there is no composition *)
(** Without a common byte the composite filter is empty. *)
Lemma touching_empty fs c : Forall good fs -> new_composition fs = Ok c ->
  ~ (exists k, forall f, In f fs -> fo_byte_offset f <= k < fo_byte_offset f + length (fo_filter f)) ->
  exists f, In f fs /\ co_filter c = [] /\ co_offset c = (fo_byte_offset f + length (fo_filter f)) * byte_length.
Proof.
  intros GD E NO. rewrite Forall_forall in GD. destruct fs as [|f0 rest]; [discriminate|].
  destruct (edges_spec f0 rest) as (head & tail & EE & EB & _ & (ft & It & Ht)). unfold new_composition in E. rewrite EE in E.
  destruct (Nat.ltb_spec tail head) as [L|L]; [discriminate|].
  assert (head = tail) as HT.
  { destruct (Nat.eq_dec head tail); auto. exfalso. apply NO. exists head. intros f I. destruct (EB f I). destruct (GD f I) as (Q & _). lia. }
  replace (tail - head) with 0 in E by lia. destruct (or_members (f0 :: rest) head 0 (repeat 0%N 0) (repeat 0%N 0)) as [[pm dj]| |] eqn:E1; try discriminate. cbn [bind] in E.
  assert (forall fs a b pm dj, or_members fs head 0 [] a = Ok (pm, dj) -> b = pm -> b = []) as PM.
  { clear. induction fs as [|f fs IH]; intros a b pm dj H ->; cbn [or_members read_range bind] in H; [injection H as <- <-; auto|]. cbn [map2] in H. eapply IH; eauto. }
  assert (pm = []) as -> by (eapply PM; eauto). destruct (xor_members f0 rest head 0 (repeat 0%N 0)) as [xm| |]; try discriminate. cbn [bind map2 List.concat] in E.
  destruct (children_of _ head tail (f0 :: rest) []) as [ch| |]; try discriminate. cbn [bind] in E. injection E as <-. cbn [co_filter co_offset].
  exists ft. split; auto. split; auto. destruct (GD ft It) as (Q & _). congruence.
Qed.
Lemma composition_panics fs : Forall good fs ->
  (exists f g, In f fs /\ In g fs /\ fo_byte_offset f + length (fo_filter f) < fo_byte_offset g) \/ fs = [] -> new_composition fs = Panic.
Proof.
  intros GD [(f & g & If & Ig & L)| ->]; [|reflexivity]. rewrite Forall_forall in GD. destruct fs as [|f0 rest]; [destruct If|].
  destruct (edges_spec f0 rest) as (head & tail & EE & EB & _). unfold new_composition. rewrite EE.
  destruct (EB f If) as [_ T]. destruct (EB g Ig) as [H _]. destruct (GD f If) as (Q & _).
  replace (Nat.ltb tail head) with true by (symmetry; apply Nat.ltb_lt; lia). reflexivity.
Qed.

(** ** Grouping *)
Lemma consecutive_snoc g r : g <> [] -> consecutive g -> (last g 0 + 1 = r)%Z -> consecutive (g ++ [r]).
Proof.
  induction g as [|a g IH]; intros NE C L; [congruence|]. destruct g as [|b g].
  - cbn in *. auto.
  - cbn [app]. destruct C as [-> C]. split; auto. apply IH; auto. discriminate.
Qed.
Lemma consecutive_join g r : g <> [] -> consecutive (g ++ [r]) -> (last g 0 + 1 = r)%Z.
Proof.
  induction g as [|a g IH]; intros NE C; [congruence|]. destruct g as [|b g].
  - cbn in *. lia.
  - destruct C as [_ C]. cbn [last]. apply IH; auto. discriminate.
Qed.
Lemma consecutive_app_l g g' : consecutive (g ++ g') -> consecutive g.
Proof.
  induction g as [|a g IH]; cbn; auto. destruct g as [|b g]; auto. cbn [app]. intros [-> C]. split; auto.
Qed.
Lemma group_loop_spec rs : forall g gs, g <> [] -> (forall x, In x (gs ++ [g]) -> x <> [] /\ consecutive x) ->
  (forall pre x y post, gs ++ [g] = pre ++ x :: y :: post -> (last x 0 + 1 <> hd 0 y)%Z) ->
  let r := group_loop g gs rs in
  List.concat r = List.concat gs ++ g ++ rs /\ (forall x, In x r -> x <> [] /\ consecutive x) /\
  (forall pre x y post, r = pre ++ x :: y :: post -> (last x 0 + 1 <> hd 0 y)%Z).
Proof.
  induction rs as [|z rs IH]; intros g gs NE C M; cbn [group_loop].
  - cbv zeta. split; [rewrite concat_app; cbn; rewrite !app_nil_r; auto|auto].
  - destruct (Nat.eqb_spec (List.length g) 0) as [X|_]; [destruct g; [congruence|discriminate]|].
    destruct (Z.eqb_spec (last g 0%Z + 1)%Z z) as [E|E].
    + destruct (IH (g ++ [z]) gs) as (I1 & I2 & I3).
      * destruct g; discriminate.
      * intros x I. apply in_app_or in I. destruct I as [I|[<-|[]]]; [apply C; apply in_or_app; auto|].
        split; [destruct g; discriminate|]. apply consecutive_snoc; auto. apply C. apply in_or_app; right; left; auto.
      * intros pre x y post EQ. destruct (list_eq_dec (list_eq_dec Z.eq_dec) post []) as [->|NP].
        -- change (pre ++ [x; y]) with (pre ++ [x] ++ [y]) in EQ. rewrite app_assoc in EQ. apply app_inj_tail in EQ. destruct EQ as [-> <-].
           assert (hd 0%Z (g ++ [z]) = hd 0%Z g) as -> by (destruct g; [congruence|reflexivity]). apply (M pre x g []). rewrite <- app_assoc. reflexivity.
        -- destruct (exists_last NP) as (post' & w & ->). replace (pre ++ x :: y :: post' ++ [w]) with ((pre ++ x :: y :: post') ++ [w]) in EQ by (rewrite <- app_assoc; reflexivity).
           apply app_inj_tail in EQ. destruct EQ as [-> _]. apply (M pre x y (post' ++ [g])). rewrite <- app_assoc. reflexivity.
      * cbv zeta. split; [|auto]. rewrite I1. rewrite <- app_assoc. reflexivity.
    + destruct (IH [z] (gs ++ [g])) as (I1 & I2 & I3).
      * discriminate.
      * intros x I. apply in_app_or in I. destruct I as [I|[<-|[]]]; auto. split; [discriminate|constructor].
      * intros pre x y post EQ. destruct (list_eq_dec (list_eq_dec Z.eq_dec) post []) as [->|NP].
        -- change (pre ++ [x; y]) with (pre ++ [x] ++ [y]) in EQ. rewrite app_assoc in EQ. apply app_inj_tail in EQ. destruct EQ as [EQ <-].
           apply app_inj_tail in EQ. destruct EQ as [_ <-]. exact E.
        -- destruct (exists_last NP) as (post' & w & ->). replace (pre ++ x :: y :: post' ++ [w]) with ((pre ++ x :: y :: post') ++ [w]) in EQ by (rewrite <- app_assoc; reflexivity).
           apply app_inj_tail in EQ. destruct EQ as [EQ _]. apply (M pre x y post' EQ).
      * cbv zeta. split; [|auto]. rewrite I1, concat_app. cbn. rewrite app_nil_r, <- app_assoc. reflexivity.
Qed.
Lemma group_sequential_spec rs : rs <> [] -> let r := group_sequential rs in
  List.concat r = rs /\ (forall x, In x r -> x <> [] /\ consecutive x) /\
  (forall pre x y post, r = pre ++ x :: y :: post -> ~ mergeable x y).
Proof.
  intros NE. destruct rs as [|z rs]; [congruence|]. unfold group_sequential. cbn [group_loop List.length Nat.eqb].
  destruct (group_loop_spec rs [z] []) as (I1 & I2 & I3).
  - discriminate.
  - intros x [<-|[]]. split; [discriminate|constructor].
  - intros [|a [|b pre]] x y post; discriminate.
  - cbv zeta in *. split; [exact I1|]. split; auto. intros pre x y post EQ MG. apply (I3 pre x y post EQ).
    destruct (I2 x) as [NX _]; [rewrite EQ; apply in_or_app; right; left; auto|]. destruct (I2 y) as [NY _]; [rewrite EQ; apply in_or_app; right; right; left; auto|].
    destruct y as [|b y]; [congruence|]. cbn [hd]. apply consecutive_join; auto. unfold mergeable in MG. change (x ++ b :: y) with (x ++ [b] ++ y) in MG. rewrite app_assoc in MG. apply consecutive_app_l in MG. auto.
Qed.
