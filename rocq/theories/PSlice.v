(** Slices: what a write through one slice does to the others. *)
From Verif Require Import GoBase MSlice PBase Spec PFilter.
From Verif Require Export SpecStore.
From Coq Require Import Lia.
Lemma disjoint_sym s t : disjoint s t -> disjoint t s.
Proof. unfold disjoint. intuition. Qed.

Lemma nth_error_firstn_lt {A} (l : list A) n i : i < n -> nth_error (firstn n l) i = nth_error l i.
Proof. revert n i. induction l as [|x l IH]; intros [|n] [|i] H; try lia; cbn; auto. apply IH. lia. Qed.
Lemma nth_error_view h s i : nth_error (view h s) i = if Nat.ltb i (sl_len s) then nth_error (arr h (sl_arr s)) (sl_off s + i) else None.
Proof.
  unfold view. destruct (Nat.ltb_spec i (sl_len s)) as [H|H].
  - rewrite nth_error_firstn_lt by auto. apply nth_error_skipn.
  - apply nth_error_None. rewrite firstn_length. lia.
Qed.
Lemma nth_error_ext {A} (a b : list A) : (forall i, nth_error a i = nth_error b i) -> a = b.
Proof.
  revert b. induction a as [|x a IH]; intros [|y b] H; auto; try (specialize (H 0); discriminate).
  pose proof (H 0) as H0. injection H0 as ->. f_equal. apply IH. intros i. exact (H (S i)).
Qed.
Lemma view_length h s : slice_ok h s -> length (view h s) = sl_len s.
Proof.
  intros [H1 H2]. unfold view. rewrite firstn_length, skipn_length. lia.
Qed.
Lemma update_length {A} (l : list A) i x : length (update l i x) = length l.
Proof. revert i; induction l; destruct i; cbn; auto. Qed.
Lemma nth_update {A} (l : list A) i x j d : nth j (update l i x) d = if Nat.eqb i j && Nat.ltb j (length l) then x else nth j l d.
Proof.
  revert i j; induction l as [|y l IH]; intros i j; cbn [update].
  - destruct (Nat.eqb i j), j; reflexivity.
  - destruct i, j; cbn [nth length Nat.eqb]; auto. rewrite IH. reflexivity.
Qed.
Lemma overwrite_length a i xs : i + length xs <= length a -> length (overwrite a i xs) = length a.
Proof. intros H. unfold overwrite. rewrite !app_length, firstn_length, skipn_length. lia. Qed.
Lemma nth_error_overwrite a i xs j : i + length xs <= length a ->
  nth_error (overwrite a i xs) j = if Nat.leb i j && Nat.ltb j (i + length xs) then nth_error xs (j - i) else nth_error a j.
Proof.
  intros H. unfold overwrite. destruct (Nat.leb_spec i j) as [H1|H1]; cbn [andb].
  - rewrite nth_error_app2 by (rewrite firstn_length; lia). rewrite firstn_length. replace (Nat.min i (length a)) with i by lia.
    destruct (Nat.ltb_spec j (i + length xs)) as [H2|H2].
    + rewrite nth_error_app1 by lia. reflexivity.
    + rewrite nth_error_app2 by lia. rewrite nth_error_skipn. f_equal. lia.
  - rewrite nth_error_app1 by (rewrite firstn_length; lia). apply nth_error_firstn_lt; auto.
Qed.
Lemma arr_write h l i xs l' : arr (write h l i xs) l' = if Nat.eqb l l' && Nat.ltb l' (length h) then overwrite (arr h l) i xs else arr h l'.
Proof. unfold write, arr. apply nth_update. Qed.

(** A write inside the capacity of [s]. *)
Section WRITE.
  Context (h : heap) (s : slice) (i : nat) (xs : list gostring).
  Context (OK : slice_ok h s).
  Context (IN : i + length xs <= sl_cap s).
  Context (NE : sl_cap s <> 0).
  Let h' := write h (sl_arr s) (sl_off s + i) xs.
  Lemma write_fits : sl_arr s < length h /\ sl_off s + i + length xs <= length (arr h (sl_arr s)).
  Proof using OK IN NE. destruct OK as [_ [|[? ?]]]; [congruence|]. lia. Qed.
  Lemma write_slice_ok t : slice_ok h t -> slice_ok h' t.
  Proof using OK IN NE.
    intros [H1 H2]. split; auto. destruct H2 as [|[H2 H3]]; auto. right. unfold h'. split; [unfold write; rewrite update_length; auto|].
    rewrite arr_write. destruct (Nat.eqb_spec (sl_arr s) (sl_arr t)) as [E|]; cbn [andb]; auto.
    destruct (Nat.ltb (sl_arr t) (length h)); auto. rewrite overwrite_length by apply write_fits. rewrite E. auto.
  Qed.
  Lemma write_view t : slice_ok h t -> disjoint s t -> view h' t = view h t.
  Proof using OK IN NE.
    intros T D. apply nth_error_ext. intros j. rewrite !nth_error_view. destruct (Nat.ltb_spec j (sl_len t)); auto.
    unfold h'. rewrite arr_write. destruct (Nat.eqb_spec (sl_arr s) (sl_arr t)) as [E|]; cbn [andb]; auto.
    destruct (Nat.ltb (sl_arr t) (length h)); auto. rewrite nth_error_overwrite by apply write_fits. rewrite <- E.
    destruct T as [T1 T2]. destruct (Nat.leb_spec (sl_off s + i) (sl_off t + j)); cbn [andb]; auto.
    destruct (Nat.ltb_spec (sl_off t + j) (sl_off s + i + length xs)); auto. exfalso.
    unfold disjoint in D. lia.
  Qed.
  (** On a header into the same region. *)
  Lemma write_view_same t : sl_arr t = sl_arr s -> sl_off t = sl_off s ->
    forall j, nth_error (view h' t) j =
      if Nat.ltb j (sl_len t) then if Nat.leb i j && Nat.ltb j (i + length xs) then nth_error xs (j - i) else nth_error (arr h (sl_arr s)) (sl_off s + j) else None.
  Proof using OK IN NE.
    intros E1 E2 j. rewrite nth_error_view. destruct (Nat.ltb_spec j (sl_len t)); auto.
    unfold h'. rewrite arr_write, E1, E2, Nat.eqb_refl. cbn [andb]. pose proof write_fits as [F1 F2].
    destruct (Nat.ltb_spec (sl_arr s) (length h)); [|lia]. rewrite nth_error_overwrite by auto.
    replace (Nat.leb (sl_off s + i) (sl_off s + j)) with (Nat.leb i j) by (destruct (Nat.leb_spec i j), (Nat.leb_spec (sl_off s + i) (sl_off s + j)); auto; lia).
    replace (Nat.ltb (sl_off s + j) (sl_off s + i + length xs)) with (Nat.ltb j (i + length xs))
      by (destruct (Nat.ltb_spec j (i + length xs)), (Nat.ltb_spec (sl_off s + j) (sl_off s + i + length xs)); auto; lia).
    replace (sl_off s + j - (sl_off s + i)) with (j - i) by lia. reflexivity.
  Qed.
End WRITE.

Section APPEND.
  Context (grow : nat -> nat) (h : heap) (s : slice) (x : gostring).
  Context (OK : slice_ok h s).
  Let h' := fst (append1 grow h s x).
  Let s' := snd (append1 grow h s x).
  Lemma arr_app l a : l < length h -> arr (h ++ [a]) l = arr h l.
  Proof using. intros H. unfold arr. rewrite app_nth1 by auto. reflexivity. Qed.
  Lemma app_frame a t : slice_ok h t -> slice_ok (h ++ [a]) t /\ view (h ++ [a]) t = view h t.
  Proof using.
    intros [H1 H2]. destruct H2 as [H2|[H2 H3]].
    - split; [split; auto|]. unfold view. replace (sl_len t) with 0 by lia. reflexivity.
    - split; [split; auto; right; rewrite app_length, arr_app by auto; cbn [length]; lia|]. unfold view. rewrite arr_app by auto. reflexivity.
  Qed.
  Lemma append1_new : slice_ok h' s' /\ view h' s' = view h s ++ [x].
  Proof using OK.
    unfold h', s', append1. pose proof (view_length h s OK) as VL. destruct (Nat.ltb_spec (sl_len s) (sl_cap s)) as [H|H]; cbn [fst snd].
    - assert (slice_ok h (with_len s (S (sl_len s)))) as OK' by (destruct OK as [K1 K2]; split; cbn [with_len sl_len sl_cap sl_arr sl_off]; auto).
      split; [apply write_slice_ok; auto; cbn [length]; lia|].
      apply nth_error_ext. intros j. rewrite write_view_same by (auto; cbn [length]; lia). cbn [with_len sl_len length].
      destruct (Nat.ltb_spec j (S (sl_len s))) as [HJ|HJ].
      + destruct (Nat.leb_spec (sl_len s) j); cbn [andb].
        * replace j with (sl_len s) by lia. destruct (Nat.ltb_spec (sl_len s) (sl_len s + 1)); [|lia]. rewrite Nat.sub_diag. cbn.
          rewrite nth_error_app2 by lia. rewrite VL, Nat.sub_diag. reflexivity.
        * rewrite nth_error_app1 by lia. rewrite nth_error_view. destruct (Nat.ltb_spec j (sl_len s)); [auto|lia].
      + symmetry. apply nth_error_None. rewrite app_length, VL. cbn. lia.
    - set (a := view h s ++ x :: repeat [] (grow (S (sl_len s)))).
      assert (arr (h ++ [a]) (length h) = a) as AE by (unfold arr; rewrite app_nth2, Nat.sub_diag by lia; reflexivity).
      assert (length a = S (sl_len s) + grow (S (sl_len s))) as LA by (unfold a; rewrite app_length, VL; cbn [length]; rewrite repeat_length; lia).
      split.
      + split; cbn [sl_len sl_cap sl_arr sl_off]; [lia|]. right. rewrite AE, LA, app_length. cbn [length]. lia.
      + unfold view at 1. cbn [sl_len sl_cap sl_arr sl_off]. rewrite AE. cbn [skipn]. unfold a.
        change (x :: repeat [] (grow (S (sl_len s)))) with ([x] ++ repeat [] (grow (S (sl_len s)))). rewrite app_assoc.
        rewrite firstn_app. replace (length (view h s ++ [x])) with (S (sl_len s)) by (rewrite app_length, VL; cbn; lia).
        rewrite Nat.sub_diag, firstn_O, app_nil_r. apply firstn_all2. rewrite app_length, VL. cbn. lia.
  Qed.
  Lemma append1_frame t : slice_ok h t -> disjoint s t -> slice_ok h' t /\ view h' t = view h t /\ disjoint s' t.
  Proof using OK.
    intros T D. unfold h', s', append1. destruct (Nat.ltb_spec (sl_len s) (sl_cap s)) as [H|H]; cbn [fst snd].
    - split; [apply write_slice_ok; auto; cbn [length]; lia|]. split; [apply write_view; auto; cbn [length]; lia|]. exact D.
    - destruct (app_frame (view h s ++ x :: repeat [] (grow (S (sl_len s)))) t T) as [F1 F2]. split; auto. split; auto.
      unfold disjoint. cbn [sl_arr sl_cap sl_off]. destruct T as [T1 [T2|[T2 T3]]]; lia.
  Qed.
  (** A shorter header into the region of [s] keeps its elements. *)
  Lemma append1_stale t : slice_ok h t -> sl_arr t = sl_arr s -> sl_off t = sl_off s -> sl_cap t = sl_cap s -> sl_len t <= sl_len s ->
    slice_ok h' t /\ view h' t = view h t /\
    ((sl_arr t = sl_arr s' /\ sl_off t = sl_off s' /\ sl_cap t = sl_cap s' /\ sl_len t <= sl_len s') \/ disjoint s' t).
  Proof using OK.
    intros T E1 E2 E3 E4. unfold h', s', append1. destruct (Nat.ltb_spec (sl_len s) (sl_cap s)) as [H|H]; cbn [fst snd].
    - split; [apply write_slice_ok; auto; cbn [length]; lia|]. split; [|left; cbn [with_len sl_arr sl_off sl_cap sl_len]; lia].
      apply nth_error_ext. intros j. rewrite write_view_same by (auto; cbn [length]; lia). rewrite nth_error_view, E1, E2.
      destruct (Nat.ltb_spec j (sl_len t)); auto. destruct (Nat.leb_spec (sl_len s) j); cbn [andb]; auto. lia.
    - destruct (app_frame (view h s ++ x :: repeat [] (grow (S (sl_len s)))) t T) as [F1 F2]. split; auto. split; auto. right.
      unfold disjoint. cbn [sl_arr sl_cap sl_off]. destruct T as [T1 [T2|[T2 T3]]]; lia.
  Qed.
End APPEND.

(** The elements after [append(v[:i], v[i+1:]...)], seen through the old header. *)
Definition shift (v : list gostring) (i : nat) : list gostring := firstn i v ++ skipn (S i) v ++ skipn (length v - 1) v.
Lemma shift_length v i : i < length v -> length (shift v i) = length v.
Proof. intros H. unfold shift. rewrite !app_length, firstn_length, !skipn_length. lia. Qed.
Section CUT.
  Context (h : heap) (s : slice) (i : nat).
  Context (OK : slice_ok h s).
  Context (IN : i < sl_len s).
  Let h' := fst (cut h s i).
  Let s' := snd (cut h s i).
  Lemma cut_pre : i + length (skipn (S i) (view h s)) <= sl_cap s /\ sl_cap s <> 0.
  Proof using OK IN. rewrite skipn_length, view_length by auto. destruct OK. lia. Qed.
  Lemma cut_frame t : slice_ok h t -> disjoint s t -> slice_ok h' t /\ view h' t = view h t /\ disjoint s' t.
  Proof using OK IN.
    intros T D. destruct cut_pre as [P1 P2]. unfold h', s', cut. cbn [fst snd]. split; [apply write_slice_ok; auto|]. split; [apply write_view; auto|]. exact D.
  Qed.
  Lemma cut_stale : slice_ok h' s /\ view h' s = shift (view h s) i /\ slice_ok h' s' /\ view h' s' = firstn (sl_len s - 1) (shift (view h s) i).
  Proof using OK IN.
    destruct cut_pre as [P1 P2]. pose proof (view_length h s OK) as VL.
    assert (slice_ok h' s) as OK' by (unfold h', cut; cbn [fst]; apply write_slice_ok; auto).
    assert (view h' s = shift (view h s) i) as VS.
    { unfold h', cut. cbn [fst]. apply nth_error_ext. intros j. rewrite write_view_same by auto. rewrite skipn_length, VL.
      unfold shift. destruct (Nat.ltb_spec j (sl_len s)) as [HJ|HJ].
      - destruct (Nat.leb_spec i j); cbn [andb].
        + rewrite nth_error_app2 by (rewrite firstn_length; lia). rewrite firstn_length, VL. replace (Nat.min i (sl_len s)) with i by lia.
          destruct (Nat.ltb_spec j (i + (sl_len s - S i))).
          * rewrite nth_error_app1 by (rewrite skipn_length; lia). reflexivity.
          * rewrite nth_error_app2 by (rewrite skipn_length; lia). rewrite skipn_length, VL.
            replace (j - i - (sl_len s - S i)) with 0 by lia. replace j with (sl_len s - 1) by lia.
            rewrite nth_error_skipn, nth_error_view, Nat.add_0_r. destruct (Nat.ltb_spec (sl_len s - 1) (sl_len s)); [auto|lia].
        + rewrite nth_error_app1 by (rewrite firstn_length; lia). rewrite nth_error_firstn_lt by auto. rewrite nth_error_view.
          destruct (Nat.ltb_spec j (sl_len s)); [auto|lia].
      - symmetry. apply nth_error_None. rewrite !app_length, firstn_length, !skipn_length, VL. lia. }
    split; auto. split; auto. unfold s', cut. cbn [snd]. split.
    - destruct OK' as [K1 K2]. split; cbn [with_len sl_len sl_cap sl_arr sl_off]; auto. lia.
    - rewrite <- VS. unfold view. cbn [with_len sl_len sl_cap sl_arr sl_off]. rewrite firstn_firstn. f_equal. lia.
  Qed.
End CUT.