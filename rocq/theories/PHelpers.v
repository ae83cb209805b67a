(** Proofs about the helpers. *)
From Verif Require Import GoBase BinUtil MFilter MPatricia MSplay MTdtIso MScheme MHelpers.
From Verif Require Import PBase PList Spec SpecHelpers.
From Coq Require Import Lia.

Lemma pequal_spec : forall want got, want <> PNil -> got <> PNil ->
  exists ok g w, pequal got want = Ok (ok, g, w) /\
    (ok = true -> g = PNil /\ w = PNil /\ trie_within want got) /\
    (ok = false -> trie_at got want g w /\ trie_root_differs g w /\ ~ trie_within want got).
Proof.
  induction want as [|wu wf w1 IH1 w0 IH0]; intros got Hw Hg; [congruence|]. destruct got as [|gu gf g1 g0]; [congruence|].
  cbn [pequal]. destruct (seqb_spec gu wu) as [->|Hu]; cbn [negb orb].
  2:{ do 3 eexists. split; [reflexivity|]. split; [discriminate|]. intros _. split; [constructor|]. split; [left; auto|].
      intros X; inversion X; congruence. }
  destruct (fo_eqb gf wf) eqn:Ef; cbn [negb].
  2:{ do 3 eexists. split; [reflexivity|]. split; [discriminate|]. intros _. 
      assert (gf <> wf) by (intros ->; rewrite fo_eqb_refl in Ef; discriminate).
      split; [constructor|]. split; [right; auto|]. intros X; inversion X; congruence. }
  apply fo_eqb_eq in Ef. subst wf.
  (* what a child contributes *)
  assert (forall w g, (w <> PNil -> g <> PNil -> exists ok g' w', pequal g w = Ok (ok, g', w') /\
            (ok = true -> g' = PNil /\ w' = PNil /\ trie_within w g) /\
            (ok = false -> trie_at g w g' w' /\ trie_root_differs g' w' /\ ~ trie_within w g)) ->
          exists ok g' w', match w with PNil => Ok (true, PNil, PNil) | _ => match g with PNil => Ok (false, PNil, w) | _ => pequal g w end end = Ok (ok, g', w') /\
            (ok = true -> g' = PNil /\ w' = PNil /\ trie_within w g) /\
            (ok = false -> trie_at g w g' w' /\ trie_root_differs g' w' /\ ~ trie_within w g)) as Child.
  { intros w g H. destruct w as [|a b c d].
    - do 3 eexists. split; [reflexivity|]. split; [|discriminate]. intros _. split; [auto|split; [auto|constructor]].
    - destruct g as [|a' b' c' d'].
      + do 3 eexists. split; [reflexivity|]. split; [discriminate|]. intros _. split; [constructor|split; [exact I|]]. intros X; inversion X.
      + apply H; discriminate. }
  destruct (Child w1 g1 (fun a b => IH1 g1 a b)) as (ok1 & a1 & b1 & E1 & T1 & F1). rewrite E1. cbn [bind fst].
  destruct ok1; cbn [negb].
  2:{ do 3 eexists. split; [reflexivity|]. split; [discriminate|]. intros _. destruct (F1 eq_refl) as (X1 & X2 & X3).
      split; [apply ta_one; auto|]. split; auto. intros X; inversion X; subst; auto. }
  destruct (T1 eq_refl) as (_ & _ & Y1).
  destruct (Child w0 g0 (fun a b => IH0 g0 a b)) as (ok0 & a0 & b0 & E0 & T0 & F0). rewrite E0. cbn [bind fst].
  destruct ok0; cbn [negb].
  2:{ do 3 eexists. split; [reflexivity|]. split; [discriminate|]. intros _. destruct (F0 eq_refl) as (X1 & X2 & X3).
      split; [apply ta_zero; auto|]. split; auto. intros X; inversion X; subst; auto. }
  destruct (T0 eq_refl) as (_ & _ & Y0).
  do 3 eexists. split; [reflexivity|]. split; [|discriminate]. intros _. split; [auto|split; [auto|constructor; auto]].
Qed.

Lemma fo_ptr_eqb_eq a b : fo_ptr_eqb a b = true <-> a = b.
Proof.
  destruct a as [x|], b as [y|]; cbn; try (split; congruence).
  rewrite fo_eqb_eq. split; congruence.
Qed.
Lemma sequal_spec : forall want got, want <> SNil -> got <> SNil ->
  exists ok g w, sequal got want = Ok (ok, g, w) /\
    (ok = true -> g = SNil /\ w = SNil /\ tree_within want got) /\
    (ok = false -> tree_at got want g w /\ tree_root_differs g w /\ ~ tree_within want got).
Proof.
  induction want as [|wu wf w1 IH1 w0 IH0]; intros got Hw Hg; [congruence|]. destruct got as [|gu gf g1 g0]; [congruence|].
  cbn [sequal]. destruct (seqb_spec gu wu) as [->|Hu]; cbn [negb orb].
  2:{ do 3 eexists. split; [reflexivity|]. split; [discriminate|]. intros _. split; [constructor|]. split; [left; auto|].
      intros X; inversion X; congruence. }
  destruct (fo_ptr_eqb gf wf) eqn:Ef; cbn [negb].
  2:{ do 3 eexists. split; [reflexivity|]. split; [discriminate|]. intros _.
      assert (gf <> wf) by (intros X; apply fo_ptr_eqb_eq in X; congruence).
      split; [constructor|]. split; [right; auto|]. intros X; inversion X; congruence. }
  apply fo_ptr_eqb_eq in Ef. subst wf.
  assert (forall w g, (w <> SNil -> g <> SNil -> exists ok g' w', sequal g w = Ok (ok, g', w') /\
            (ok = true -> g' = SNil /\ w' = SNil /\ tree_within w g) /\
            (ok = false -> tree_at g w g' w' /\ tree_root_differs g' w' /\ ~ tree_within w g)) ->
          exists ok g' w', match w with SNil => Ok (true, SNil, SNil) | _ => match g with SNil => Ok (false, SNil, w) | _ => sequal g w end end = Ok (ok, g', w') /\
            (ok = true -> g' = SNil /\ w' = SNil /\ tree_within w g) /\
            (ok = false -> tree_at g w g' w' /\ tree_root_differs g' w' /\ ~ tree_within w g)) as Child.
  { intros w g H. destruct w as [|a b c d].
    - do 3 eexists. split; [reflexivity|]. split; [|discriminate]. intros _. split; [auto|split; [auto|constructor]].
    - destruct g as [|a' b' c' d'].
      + do 3 eexists. split; [reflexivity|]. split; [discriminate|]. intros _. split; [constructor|split; [exact I|]]. intros X; inversion X.
      + apply H; discriminate. }
  destruct (Child w1 g1 (fun a b => IH1 g1 a b)) as (ok1 & a1 & b1 & E1 & T1 & F1). rewrite E1. cbn [bind fst].
  destruct ok1; cbn [negb].
  2:{ do 3 eexists. split; [reflexivity|]. split; [discriminate|]. intros _. destruct (F1 eq_refl) as (X1 & X2 & X3).
      split; [apply sa_match; auto|]. split; auto. intros X; inversion X; subst; auto. }
  destruct (T1 eq_refl) as (_ & _ & Y1).
  destruct (Child w0 g0 (fun a b => IH0 g0 a b)) as (ok0 & a0 & b0 & E0 & T0 & F0). rewrite E0. cbn [bind fst].
  destruct ok0; cbn [negb].
  2:{ do 3 eexists. split; [reflexivity|]. split; [discriminate|]. intros _. destruct (F0 eq_refl) as (X1 & X2 & X3).
      split; [apply sa_mismatch; auto|]. split; auto. intros X; inversion X; subst; auto. }
  destruct (T0 eq_refl) as (_ & _ & Y0).
  do 3 eexists. split; [reflexivity|]. split; [|discriminate]. intros _. split; [auto|split; [auto|constructor; auto]].
Qed.

Lemma trie_within_antisym a b : trie_within a b -> trie_within b a -> a = b.
Proof. induction 1; intros X; inversion X; subst; auto. f_equal; auto. Qed.
Lemma tree_within_antisym a b : tree_within a b -> tree_within b a -> a = b.
Proof. induction 1; intros X; inversion X; subst; auto. f_equal; auto. Qed.

Lemma string_in_slice_In a l : string_in_slice a l = true <-> In a l.
Proof.
  induction l as [|b l IH]; cbn; [split; [discriminate|tauto]|]. destruct (seqb_spec b a); [tauto|]. rewrite IH. tauto.
Qed.

Lemma sixenc2bin_bits s : sixenc2bin s = flat_map six_bits s.
Proof. induction s as [|c s IH]; [reflexivity|]. cbn [sixenc2bin flat_map]. rewrite IH. reflexivity. Qed.
Lemma six_bits_length c : length (six_bits c) = 6.
Proof. reflexivity. Qed.
Lemma six_bits_inj c d : six_bit_char c -> six_bit_char d -> six_bits c = six_bits d -> c = d.
Proof.
  unfold six_bit_char. intros Hc Hd E.
  assert (forallb (fun n => forallb (fun m => implb (if list_eq_dec ascii_dec (six_bits (ascii_of_nat n)) (six_bits (ascii_of_nat m)) then true else false) (Nat.eqb n m)) (seq 32 64)) (seq 32 64) = true) as T by (vm_compute; reflexivity).
  rewrite forallb_forall in T. specialize (T (nat_of_ascii c)). rewrite forallb_forall in T.
  assert (forall x, (32 <= N_of_ascii x < 96)%N -> In (nat_of_ascii x) (seq 32 64)) as IN.
  { intros x Hx. apply in_seq. unfold nat_of_ascii. lia. }
  specialize (T (IN c Hc) (nat_of_ascii d) (IN d Hd)). rewrite !ascii_nat_embedding in T.
  destruct (list_eq_dec ascii_dec (six_bits c) (six_bits d)); [|congruence]. cbn in T. apply Nat.eqb_eq in T.
  rewrite <- (ascii_nat_embedding c), <- (ascii_nat_embedding d), T. reflexivity.
Qed.
Lemma sixenc2bin_inj : forall s t, Forall six_bit_char s -> Forall six_bit_char t -> sixenc2bin s = sixenc2bin t -> s = t.
Proof.
  induction s as [|c s IH]; intros [|d t] Hs Ht E; auto; try (apply (f_equal (@length ascii)) in E; cbn in E; lia).
  inversion Hs; inversion Ht; subst. rewrite !sixenc2bin_bits in E. cbn [flat_map] in E.
  assert (six_bits c = six_bits d /\ flat_map six_bits s = flat_map six_bits t) as [E1 E2].
  { assert (forall a b x y : gostring, length a = length b -> a ++ x = b ++ y -> a = b /\ x = y) as Inj.
    { induction a as [|h a IHa]; intros [|h' b'] x y L X; cbn in L, X; try discriminate L; [auto|].
      injection X as -> X. injection L as L. destruct (IHa _ x y L X) as [-> ->]. auto. }
    apply Inj; auto. }
  f_equal; [apply six_bits_inj; auto|]. apply IH; auto; rewrite !sixenc2bin_bits; auto.
Qed.

Lemma pad_copies bs : pad_6bit bs = s_pad_6bit bs.
Proof. reflexivity. Qed.
Lemma s_pad_6bit_spec bs : exists w, s_pad_6bit bs = (bs ++ w, length (bs ++ w)) /\ length w < 16 /\
  length (bs ++ w) mod 16 = 0 /\ prefix_of w (str "100000100000100000").
Proof.
  unfold s_pad_6bit. pose proof (Nat.mod_upper_bound (length bs) 16 ltac:(lia)) as B. pose proof (Nat.div_mod (length bs) 16 ltac:(lia)) as D.
  remember (length bs mod 16) as r eqn:Er. destruct (Nat.eqb_spec r 0) as [->|Hr].
  - exists []. rewrite app_nil_r, <- Er. repeat split; [cbn; lia|]. exists (str "100000100000100000"). reflexivity.
  - eexists. split; [reflexivity || (rewrite app_length, map_length, seq_length; reflexivity)|].
    rewrite app_length, map_length, seq_length. split; [lia|]. split.
    + replace (length bs + (16 - r)) with ((S (length bs / 16)) * 16) by lia. apply Nat.mod_mul. lia.
    + assert (16 - r <= 16) as L by lia. remember (16 - r) as m eqn:Em. clear -L.
      do 17 (destruct m as [|m]; [eexists; vm_compute; reflexivity|]). lia.
Qed.
