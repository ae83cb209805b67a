(** Reading subscription files: the reader accepts exactly the format. *)
From Verif Require Import GoBase BinUtil MFilter MTdtEpc MTdtIso MTdtCore MSubs MList MCsv.
From Verif Require Import PBase Spec PFilter PSubs PList PMatch PSubs2 SpecCsv.
From Coq Require Import Lia Permutation.

Lemma eqb_no a b : a <> b -> Ascii.eqb a b = false. Proof. apply Ascii.eqb_neq. Qed.
Lemma norm_spec s : norm_text s (csv_norm s).
Proof.
  assert (forall n s, length s <= n -> norm_text s (csv_norm s)) as H; [|eapply H; eauto].
  clear s. induction n as [|n IH]; intros s L; [destruct s; [constructor|cbn in L; lia]|].
  destruct s as [|c s]; [constructor|]. cbn [length] in L. cbn [csv_norm].
  destruct (Ascii.eqb c ccr) eqn:E1.
  - apply Ascii.eqb_eq in E1. subst c. destruct s as [|d s]; [constructor|]. destruct (Ascii.eqb d cnl) eqn:E2.
    + apply Ascii.eqb_eq in E2. subst d. cbn [csv_norm]. change (Ascii.eqb cnl ccr) with false. cbn match. apply nt_crlf. apply IH. cbn [length] in L. lia.
    + apply nt_other; [|apply IH; lia]. intros _. split; [discriminate|]. intros s' X. injection X as -> _. rewrite Ascii.eqb_refl in E2. discriminate.
  - apply nt_other; [|apply IH; lia]. intros ->. rewrite Ascii.eqb_refl in E1. discriminate.
Qed.
Lemma norm_fun s t : norm_text s t -> t = csv_norm s.
Proof.
  induction 1 as [| |s t H IH|c s t HC H IH]; auto.
  - cbn. cbn in IH. change (Ascii.eqb ccr ccr) with true. cbn match. f_equal. auto.
  - cbn [csv_norm]. destruct (Ascii.eqb c ccr) eqn:E1; [|f_equal; auto]. apply Ascii.eqb_eq in E1. destruct (HC E1) as [H1 H2].
    destruct s as [|d s]; [congruence|]. destruct (Ascii.eqb d cnl) eqn:E2; [|f_equal; auto].
    apply Ascii.eqb_eq in E2. subst d. exfalso. eapply H2. reflexivity.
Qed.

(** ** What is written can be read *)
Lemma scan_plain g : forall f r x, plain g -> csv_scan CPlain f r (g ++ x) = csv_scan CPlain (rev g ++ f) r x.
Proof.
  induction g as [|c g IH]; intros f r x (H1 & H2 & H3); auto. cbn [app csv_scan].
  rewrite (eqb_no c cquote) by (intros ->; apply H2; left; auto). rewrite (eqb_no c ccomma) by (intros ->; apply H1; left; auto).
  rewrite (eqb_no c cnl) by (intros ->; apply H3; left; auto). rewrite IH.
  - cbn [rev]. rewrite <- app_assoc. reflexivity.
  - repeat split; intros X; [apply H1|apply H2|apply H3]; right; auto.
Qed.
Lemma scan_quoted g : forall f r x, csv_scan CQuoted f r (doubled g ++ cquote :: x) = csv_scan CQuote (rev g ++ f) r x.
Proof.
  induction g as [|c g IH]; intros f r x; auto. cbn [doubled flat_map rev]. rewrite <- !app_assoc. fold (doubled g).
  destruct (Ascii.eqb c cquote) eqn:E.
  - cbn [app csv_scan]. rewrite E. cbn match. rewrite IH. reflexivity.
  - cbn [app csv_scan]. rewrite E. cbn match. rewrite IH. reflexivity.
Qed.
(** What may follow a record. *)
Inductive ends : gostring -> list (list gostring) -> Prop :=
| ends_file : ends [] []
| ends_line t rs : csv_scan CLine [] [] t = Ok rs -> ends (cnl :: t) rs.
Lemma scan_end st f r e rs : st = CField \/ st = CPlain \/ st = CQuote -> ends e rs ->
  csv_scan st f r e = Ok (rev (rev f :: r) :: rs).
Proof.
  intros S [|t rs' H]; [destruct S as [->|[->| ->]]; reflexivity|].
  cbn [csv_scan]. change (Ascii.eqb cnl cquote) with false. change (Ascii.eqb cnl ccomma) with false. rewrite Ascii.eqb_refl. cbn match.
  rewrite H. destruct S as [->|[->| ->]]; reflexivity.
Qed.
Lemma scan_comma st f r u : st <> CQuoted -> csv_scan st f r (ccomma :: u) = csv_scan CField [] (rev f :: r) u.
Proof.
  intros H. cbn [csv_scan]. change (Ascii.eqb ccomma cquote) with false. rewrite Ascii.eqb_refl. cbn match. destruct st; auto. congruence.
Qed.
Lemma scan_field f t : field_text f t -> forall r x, (x = [] \/ exists c x', x = c :: x' /\ (c = ccomma \/ c = cnl)) ->
  exists st, (st = CField \/ st = CPlain \/ st = CQuote) /\ csv_scan CField [] r (t ++ x) = csv_scan st (rev f) r x.
Proof.
  intros [P|] r x X.
  - destruct f as [|c g]; [exists CField; auto|]. exists CPlain. split; auto. pose proof P as (H1 & H2 & H3).
    cbn [app csv_scan]. rewrite (eqb_no c cquote) by (intros ->; apply H2; left; auto). rewrite (eqb_no c ccomma) by (intros ->; apply H1; left; auto).
    rewrite (eqb_no c cnl) by (intros ->; apply H3; left; auto). rewrite scan_plain; [reflexivity|].
    repeat split; intros Y; [apply H1|apply H2|apply H3]; right; auto.
  - exists CQuote. split; auto. cbn [app csv_scan]. rewrite Ascii.eqb_refl. cbn match. rewrite <- app_assoc. cbn [app].
    rewrite scan_quoted, app_nil_r. reflexivity.
Qed.
Lemma ends_next e rs : ends e rs -> e = [] \/ exists c x', e = c :: x' /\ (c = ccomma \/ c = cnl).
Proof. intros [|t rs' _]; [left; auto|right; eauto]. Qed.
Lemma scan_record r l : record_text r l -> forall r0 e rs, ends e rs ->
  csv_scan CField [] r0 (l ++ e) = Ok ((rev r0 ++ r) :: rs).
Proof.
  induction 1 as [f t H|f t r u H HR IH]; intros r0 e rs HE.
  - destruct (scan_field f t H r0 e (ends_next _ _ HE)) as (st & S & ->). rewrite (scan_end _ _ _ _ _ S HE).
    cbn [rev]. rewrite rev_involutive. reflexivity.
  - rewrite <- app_assoc. cbn [app].
    destruct (scan_field f t H r0 (ccomma :: u ++ e)) as (st & S & ->); [right; eauto|].
    rewrite scan_comma by (destruct S as [->|[->| ->]]; discriminate). rewrite rev_involutive, (IH _ _ _ HE).
    cbn [rev]. rewrite <- app_assoc. reflexivity.
Qed.
Lemma record_text_start r c l : record_text r (c :: l) -> c <> cnl.
Proof.
  assert (forall f t, field_text f t -> forall d m, t = d :: m -> d <> cnl) as HF.
  { intros f t [P|] d m; [|intros H; injection H as <- _; discriminate]. intros -> ->. apply P. left; auto. }
  intros H. remember (c :: l) as cl eqn:EC. destruct H as [f t HF1|f t r' u HF1 HR].
  - eapply HF; eauto.
  - destruct t as [|d t]; cbn in EC; injection EC as <- _; [discriminate|]. eapply HF; eauto.
Qed.
Lemma scan_first r l e rs : record_text r l -> l <> [] -> ends e rs -> csv_scan CLine [] [] (l ++ e) = Ok (r :: rs).
Proof.
  intros H N HE. pose proof (scan_record r l H [] e rs HE) as X. cbn [rev] in X. change ([] ++ r) with r in X. rewrite <- X. clear X. destruct l as [|c l]; [congruence|]. cbn [app csv_scan].
  apply record_text_start in H. rewrite (eqb_no c cnl H). destruct (Ascii.eqb c cquote); auto.
Qed.
Lemma scan_file rs t : file_text rs t -> csv_scan CLine [] [] t = Ok rs.
Proof.
  induction 1 as [|rs t H IH|r l rs t HR N H IH|r l HR N]; auto.
  - apply scan_first; auto. constructor; auto.
  - rewrite <- (app_nil_r l). apply scan_first; auto. constructor.
Qed.

(** ** What is read was written *)
Inductive tail_of : list gostring -> gostring -> Prop :=
| tail_nil : tail_of [] []
| tail_more r u : record_text r u -> tail_of r (ccomma :: u).
Inductive rest : csv_state -> gostring -> list gostring -> gostring -> Prop :=
| rest_field r u : record_text r u -> rest CField [] r u
| rest_plain f g r x : plain g -> tail_of r x -> rest CPlain f ((f ++ g) :: r) (g ++ x)
| rest_quoted f g r x : tail_of r x -> rest CQuoted f ((f ++ g) :: r) (doubled g ++ cquote :: x)
| rest_quote f r x : tail_of r x -> rest CQuote f (f :: r) x
| rest_again f g r x : rest CQuoted (f ++ [cquote]) (g :: r) x -> rest CQuote f (g :: r) (cquote :: x).
Definition closes (rs : list (list gostring)) (l s : gostring) : Prop :=
  (s = l /\ rs = []) \/ exists t, s = l ++ cnl :: t /\ file_text rs t.

Lemma closes_cons rs l s c : closes rs l s -> closes rs (c :: l) (c :: s).
Proof. intros [[-> ->]|(t & -> & H)]; [left; auto|right; exists t; auto]. Qed.

Definition reads_back (st : csv_state) (f : gostring) (r : list gostring) (s : gostring) (rs : list (list gostring)) : Prop :=
  match st with
  | CLine => f = [] -> r = [] -> file_text rs s
  | _ => (st = CField -> f = []) ->
      exists fs l rs', rs = (rev r ++ fs) :: rs' /\ rest st (rev f) fs l /\ closes rs' l s
  end.
Lemma rest_record_field f r x : plain f -> tail_of r x -> record_text (f :: r) (f ++ x).
Proof. intros P [|r' u H]; [rewrite app_nil_r; constructor; constructor; auto|]. constructor; auto. constructor; auto. Qed.
Lemma rest_record_quoted f r x : tail_of r x -> record_text (f :: r) (cquote :: doubled f ++ cquote :: x).
Proof.
  intros [|r' u H].
  - constructor. apply ft_quoted.
  - replace (cquote :: doubled f ++ cquote :: ccomma :: u) with ((cquote :: doubled f ++ [cquote]) ++ ccomma :: u) by (cbn; rewrite <- app_assoc; reflexivity).
    constructor; auto. apply ft_quoted.
Qed.
Lemma closes_file r l rs s : record_text r l -> l <> [] -> closes rs l s -> file_text (r :: rs) s.
Proof. intros H N [[-> ->]|(t & -> & F)]; [apply ft_last; auto|apply ft_record; auto]. Qed.
Lemma plain_cons c g : c <> ccomma -> c <> cquote -> c <> cnl -> plain g -> plain (c :: g).
Proof. intros ? ? ? (? & ? & ?). repeat split; intros [X|X]; congruence || auto. Qed.

Lemma scan_reads s : forall st f r rs, csv_scan st f r s = Ok rs -> reads_back st f r s rs.
Proof.
  induction s as [|c s IH]; intros st f r rs.
  - cbn [csv_scan]. destruct st; intros H; try discriminate H; injection H as <-.
    + intros _ _. constructor.
    + intros X. specialize (X eq_refl). subst f. exists [[]], [], []. cbn [rev]. split; auto. split; [|left; auto]. constructor. constructor. constructor. repeat split; intros [].
    + intros _. exists [rev f], [], []. cbn [rev]. split; auto. split; [|left; auto].
      assert (rest CPlain (rev f) ((rev f ++ []) :: []) ([] ++ [])) as R by (constructor; [repeat split; intros []|constructor]).
      rewrite app_nil_r in R. exact R.
    + intros _. exists [rev f], [], []. cbn [rev]. split; auto. split; [|left; auto]. constructor. constructor.
  - cbn [csv_scan].
    assert (st = CQuoted \/ st <> CQuoted) as [->|NQ] by (destruct st; auto; right; discriminate).
    { destruct (Ascii.eqb c cquote) eqn:EQ.
      - apply Ascii.eqb_eq in EQ. subst c. intros H. apply IH in H. intros _. destruct H as (fs & l & rs' & -> & R & C); [discriminate|].
        inversion R as [| | |f' r' x T EF|f' g r' x R2 EF]; subst.
        + exists (rev f :: r'), (cquote :: l), rs'. split; auto. split; [|apply closes_cons; auto].
          assert (rest CQuoted (rev f) ((rev f ++ []) :: r') (doubled [] ++ cquote :: l)) as R2 by (constructor; auto).
          rewrite app_nil_r in R2. exact R2.
        + inversion R2 as [| |f2 g2 r2 x2 T| |]; subst. exists (((rev f ++ [cquote]) ++ g2) :: r'), (cquote :: cquote :: doubled g2 ++ cquote :: x2), rs'.
          split; auto. split; [|apply closes_cons; auto].
          assert (rest CQuoted (rev f) ((rev f ++ (cquote :: g2)) :: r') (doubled (cquote :: g2) ++ cquote :: x2)) as R3 by (constructor; auto).
          rewrite <- app_assoc. exact R3.
      - intros H. apply IH in H. intros _. destruct H as (fs & l & rs' & -> & R & C); [discriminate|].
        inversion R as [| |f2 g2 r2 x2 T| |]; subst. exists ((rev f ++ (c :: g2)) :: r2), (c :: doubled g2 ++ cquote :: x2), rs'.
        split; [cbn [rev]; rewrite <- app_assoc; reflexivity|]. split; [|apply closes_cons; auto].
        assert (rest CQuoted (rev f) ((rev f ++ (c :: g2)) :: r2) (doubled (c :: g2) ++ cquote :: x2)) as R3 by (constructor; auto).
        cbn [doubled flat_map] in R3. rewrite EQ in R3. exact R3. }
    intros H.
    assert ((if Ascii.eqb c cquote then match st with CLine | CField => csv_scan CQuoted [] r s | CQuote => csv_scan CQuoted (c :: f) r s | _ => Err end
      else if Ascii.eqb c ccomma then csv_scan CField [] (rev f :: r) s
      else if Ascii.eqb c cnl then match st with CLine => csv_scan CLine [] [] s | _ => let! rs := csv_scan CLine [] [] s in Ok (rev (rev f :: r) :: rs) end
      else match st with CQuote => Err | _ => csv_scan CPlain (c :: f) r s end) = Ok rs) as H'.
    { destruct st; auto. congruence. } clear H.
    destruct (Ascii.eqb c cquote) eqn:EQ.
    { apply Ascii.eqb_eq in EQ. subst c. destruct st; try discriminate H'.
      - apply IH in H'. intros -> ->. destruct H' as (fs & l & rs' & -> & R & C); [discriminate|].
        inversion R as [| |f2 g2 r2 x2 T| |]; subst. cbn [rev app].
        eapply closes_file; [apply rest_record_quoted; eauto|discriminate|apply closes_cons; auto].
      - apply IH in H'. intros X. specialize (X eq_refl). subst f. destruct H' as (fs & l & rs' & -> & R & C); [discriminate|].
        inversion R as [| |f2 g2 r2 x2 T| |]; subst. exists (g2 :: r2), (cquote :: doubled g2 ++ cquote :: x2), rs'.
        split; auto. split; [|apply closes_cons; auto]. constructor. apply rest_record_quoted. auto.
      - apply IH in H'. intros _. destruct H' as (fs & l & rs' & -> & R & C); [discriminate|]. cbn [rev] in R.
        pose proof R as R0. inversion R as [| |f2 g2 r2 x2 T| |]; subst. eexists _, _, rs'. split; [reflexivity|].
        split; [|apply closes_cons; eauto]. apply rest_again. exact R0. }
    destruct (Ascii.eqb c ccomma) eqn:EC.
    { apply Ascii.eqb_eq in EC. subst c. apply IH in H'. destruct H' as (fs & l & rs' & -> & R & C); [auto|].
      inversion R as [r2 u HR | | | |]; subst. cbn [rev] in *. 
      assert (tail_of fs (ccomma :: l)) as T by (constructor; auto).
      destruct st.
      - intros -> ->. cbn [rev app]. eapply (closes_file _ (ccomma :: l)); [|discriminate|apply closes_cons; eauto].
        change (ccomma :: l) with ([] ++ ccomma :: l). constructor; auto. constructor. repeat split; intros [].
      - intros X. specialize (X eq_refl). subst f. exists ([] :: fs), (ccomma :: l), rs'. cbn [rev]. rewrite <- app_assoc. split; auto.
        split; [|apply closes_cons; auto]. constructor. change (ccomma :: l) with ([] ++ ccomma :: l). constructor; auto. constructor. repeat split; intros [].
      - intros _. exists (rev f :: fs), (ccomma :: l), rs'. rewrite <- app_assoc. split; auto. split; [|apply closes_cons; auto].
        assert (rest CPlain (rev f) ((rev f ++ []) :: fs) ([] ++ ccomma :: l)) as R2 by (constructor; auto; repeat split; intros []).
        rewrite app_nil_r in R2. exact R2.
      - congruence.
      - intros _. exists (rev f :: fs), (ccomma :: l), rs'. rewrite <- app_assoc. split; auto. split; [|apply closes_cons; auto]. constructor; auto. }
    destruct (Ascii.eqb c cnl) eqn:EN.
    { apply Ascii.eqb_eq in EN. subst c.
      assert (forall rs0, csv_scan CLine [] [] s = Ok rs0 -> closes rs0 [] (cnl :: s)) as HC.
      { intros rs0 H. apply IH in H. right. exists s. split; auto. }
      destruct st; [|destruct (csv_scan CLine [] [] s) as [rs0| |] eqn:ES; cbn [bind] in H'; try discriminate H'; injection H' as <-; specialize (HC _ eq_refl)..].
      - intros _ _. constructor. apply IH in H'. apply H'; auto.
      - intros X. specialize (X eq_refl). subst f. exists [[]], [], rs0. cbn [rev]. split; auto. split; auto. constructor. constructor. constructor. repeat split; intros [].
      - intros _. exists [rev f], [], rs0. cbn [rev]. split; auto. split; auto.
        assert (rest CPlain (rev f) ((rev f ++ []) :: []) ([] ++ [])) as R by (constructor; [repeat split; intros []|constructor]).
        rewrite app_nil_r in R. exact R.
      - congruence.
      - intros _. exists [rev f], [], rs0. cbn [rev]. split; auto. split; auto. constructor. constructor. }
    assert (c <> cquote /\ c <> ccomma /\ c <> cnl) as (N1 & N2 & N3) by (repeat split; apply Ascii.eqb_neq; auto).
    destruct st; try discriminate H'; [| | |congruence].
    + apply IH in H'. intros -> ->. destruct H' as (fs & l & rs' & -> & R & C); [discriminate|].
      inversion R as [|f2 g2 r2 x2 P T| | |]; subst. cbn [rev app]. eapply (closes_file _ (c :: g2 ++ x2)); [|discriminate|apply closes_cons; eauto].
      change (c :: g2 ++ x2) with ((c :: g2) ++ x2). apply rest_record_field; auto. apply plain_cons; auto.
    + apply IH in H'. intros X. specialize (X eq_refl). subst f. destruct H' as (fs & l & rs' & -> & R & C); [discriminate|].
      inversion R as [|f2 g2 r2 x2 P T| | |]; subst. cbn [rev app]. eexists _, (c :: g2 ++ x2), rs'. split; [reflexivity|]. split; [|apply closes_cons; auto].
      constructor. change (c :: g2 ++ x2) with ((c :: g2) ++ x2). apply rest_record_field; auto. apply plain_cons; auto.
    + apply IH in H'. intros _. destruct H' as (fs & l & rs' & -> & R & C); [discriminate|].
      inversion R as [|f2 g2 r2 x2 P T| | |]; subst. eexists _, (c :: g2 ++ x2), rs'. split; [reflexivity|]. split; [|apply closes_cons; auto].
      cbn [rev]. rewrite <- app_assoc. change (c :: g2 ++ x2) with ((c :: g2) ++ x2). apply (rest_plain (rev f) (c :: g2)); auto. apply plain_cons; auto.
Qed.

Lemma csv_read_spec text rs : csv_read text = Ok rs <-> csv_text rs text.
Proof.
  unfold csv_read, csv_text. split.
  - intros H. apply scan_reads in H. exists (csv_norm text). split; [apply norm_spec|apply H; auto].
  - intros (t & N & F). apply norm_fun in N. subst t. apply scan_file; auto.
Qed.
Lemma csv_scan_no_panic s : forall st f r, csv_scan st f r s <> Panic.
Proof.
  induction s as [|c s IH]; intros st f r; cbn [csv_scan]; [destruct st; discriminate|].
  destruct st; destruct (Ascii.eqb c cquote); auto; try discriminate;
    destruct (Ascii.eqb c ccomma); auto; destruct (Ascii.eqb c cnl); auto; try discriminate.
  all: specialize (IH CLine [] []); destruct (csv_scan CLine [] [] s); cbn; congruence.
Qed.
Lemma record_text_cons r l : record_text r l -> r <> [].
Proof. intros H; inversion H; discriminate. Qed.
Lemma csv_text_records rs text : csv_text rs text -> Forall (fun r => r <> []) rs.
Proof.
  intros (t & _ & F). induction F; auto; constructor; auto; eapply record_text_cons; eauto.
Qed.

(** ** Files without quotes *)
Lemma norm_incl s c : In c (csv_norm s) -> In c s.
Proof.
  induction s as [|d s IH]; cbn [csv_norm]; auto.
  destruct (Ascii.eqb d ccr).
  - destruct s as [|e s]; [intros []|]. destruct (Ascii.eqb e cnl); [intros H; right; auto|]. intros [->|H]; [left; auto|right; auto].
  - intros [->|H]; [left; auto|right; auto].
Qed.
Lemma scan_no_quote s : ~ In cquote s -> forall st f r, st <> CQuoted -> st <> CQuote -> exists rs, csv_scan st f r s = Ok rs.
Proof.
  induction s as [|c s IH]; intros N st f r S1 S2.
  - destruct st; try congruence; cbn; eauto.
  - assert (c <> cquote) as NC by (intros ->; apply N; left; auto).
    assert (~ In cquote s) as NS by (intros X; apply N; right; auto). specialize (IH NS).
    cbn [csv_scan]. rewrite (eqb_no c cquote NC).
    assert (forall f r, exists rs, csv_scan CField f r s = Ok rs) as H1 by (intros; apply IH; discriminate).
    assert (exists rs, csv_scan CLine [] [] s = Ok rs) as H2 by (apply IH; discriminate).
    assert (forall f r, exists rs, csv_scan CPlain f r s = Ok rs) as H3 by (intros; apply IH; discriminate).
    destruct H2 as [rs0 H2].
    destruct st; try congruence; destruct (Ascii.eqb c ccomma); auto; destruct (Ascii.eqb c cnl); auto; rewrite ?H2; cbn; eauto.
Qed.
Lemma no_quote_loads text : ~ In cquote text -> exists sub, load_file text = Ok sub.
Proof.
  intros N. unfold load_file, csv_read. destruct (scan_no_quote (csv_norm text)) with (st := CLine) (f := @nil ascii) (r := @nil gostring) as [rs ->]; try discriminate; eauto.
  intros X. apply N. apply norm_incl. auto.
Qed.

(** ** One malformed line *)
Lemma norm_app a b : ~ In ccr a -> csv_norm (a ++ b) = a ++ csv_norm b.
Proof.
  induction a as [|c a IH]; intros N; auto. cbn [app csv_norm]. rewrite (eqb_no c ccr) by (intros ->; apply N; left; auto).
  rewrite IH; auto. intros X. apply N. right; auto.
Qed.
Lemma scan_record_any r l : record_text r l -> forall r0 t,
  csv_scan CField [] r0 (l ++ cnl :: t) = let! rs := csv_scan CLine [] [] t in Ok ((rev r0 ++ r) :: rs).
Proof.
  induction 1 as [f t H|f t r u H HR IH]; intros r0 x.
  - destruct (scan_field f t H r0 (cnl :: x)) as (st & S & ->); [right; eauto|].
    cbn [csv_scan]. change (Ascii.eqb cnl cquote) with false. change (Ascii.eqb cnl ccomma) with false. rewrite Ascii.eqb_refl. cbn match.
    rewrite rev_involutive. destruct S as [->|[->| ->]]; cbn [rev]; reflexivity.
  - rewrite <- app_assoc. cbn [app].
    destruct (scan_field f t H r0 (ccomma :: u ++ cnl :: x)) as (st & S & ->); [right; eauto|].
    rewrite scan_comma by (destruct S as [->|[->| ->]]; discriminate). rewrite rev_involutive, IH.
    cbn [rev]. rewrite <- app_assoc. reflexivity.
Qed.
Lemma scan_lines rs ls : Forall2 record_text rs ls -> Forall (fun l => l <> []) ls -> forall t,
  csv_scan CLine [] [] (lines_of ls ++ t) = let! rs' := csv_scan CLine [] [] t in Ok (rs ++ rs').
Proof.
  induction 1 as [|r l rs ls H HF IH]; intros N t.
  - cbn. destruct (csv_scan CLine [] [] t); reflexivity.
  - inversion N as [|? ? N1 N2]; subst. unfold lines_of. cbn [map concat]. fold (lines_of ls). rewrite <- !app_assoc. cbn [app].
    destruct l as [|c l]; [congruence|]. pose proof (scan_record_any r _ H [] (lines_of ls ++ t)) as X.
    rewrite IH in X by auto. cbn [rev] in X. change ([] ++ r) with r in X.
    transitivity (csv_scan CField [] [] ((c :: l) ++ cnl :: lines_of ls ++ t)).
    + cbn [app csv_scan]. apply record_text_start in H. rewrite (eqb_no c cnl H). destruct (Ascii.eqb c cquote); auto.
    + rewrite X. destruct (csv_scan CLine [] [] t); reflexivity.
Qed.
Lemma bare_quote_fails a rest : plain a -> a <> [] -> csv_scan CLine [] [] (a ++ cquote :: rest) = Err.
Proof.
  intros P N. destruct a as [|c a]; [congruence|]. pose proof P as (H1 & H2 & H3). cbn [app csv_scan].
  rewrite (eqb_no c cquote) by (intros ->; apply H2; left; auto). rewrite (eqb_no c ccomma) by (intros ->; apply H1; left; auto).
  rewrite (eqb_no c cnl) by (intros ->; apply H3; left; auto). rewrite scan_plain.
  - cbn [csv_scan]. rewrite Ascii.eqb_refl. reflexivity.
  - repeat split; intros X; [apply H1|apply H2|apply H3]; right; auto.
Qed.
Lemma bad_line_crashes rs ls a rest : Forall2 record_text rs ls -> Forall (fun l => l <> []) ls ->
  ~ In ccr (lines_of ls ++ a) -> plain a -> a <> [] -> load_file (lines_of ls ++ a ++ cquote :: rest) = Panic.
Proof.
  intros HF HN HC P NA. unfold load_file, csv_read.
  assert (csv_norm (lines_of ls ++ a ++ cquote :: rest) = lines_of ls ++ a ++ cquote :: csv_norm rest) as ->.
  { rewrite (app_assoc (lines_of ls) a (cquote :: rest)), norm_app, <- app_assoc by auto. reflexivity. }
  rewrite (scan_lines rs ls HF HN), bare_quote_fails by auto. reflexivity.
Qed.

(** ** Round trip *)
Lemma write_record_text r : r <> [] -> record_text r (write_record r).
Proof.
  induction r as [|f [|g r] IH]; intros N; [congruence|constructor; constructor|].
  cbn [write_record]. constructor; [constructor|]. apply IH. discriminate.
Qed.
Lemma doubled_In c f : In c (doubled f) -> In c f.
Proof.
  unfold doubled. rewrite in_flat_map. intros (d & H1 & H2). destruct (Ascii.eqb d cquote); cbn in H2; intuition (subst; auto).
Qed.
Lemma write_record_In c r : In c (write_record r) -> c = cquote \/ c = ccomma \/ exists f, In f r /\ In c f.
Proof.
  assert (forall f, In c (write_field f) -> c = cquote \/ In c f) as HF.
  { intros f [X|X]; auto. apply in_app_or in X. destruct X as [X|[X|[]]]; auto. apply doubled_In in X. auto. }
  induction r as [|f [|g r] IH]; cbn [write_record].
  - intros [].
  - intros H. apply HF in H. destruct H; auto. right; right. exists f. split; [left; auto|auto].
  - intros H. apply in_app_or in H. destruct H as [H|[H|H]]; auto.
    + apply HF in H. destruct H; auto. right; right. exists f. split; [left; auto|auto].
    + destruct (IH H) as [?|[?|(h & H1 & H2)]]; auto. right; right. exists h. split; [right; auto|auto].
Qed.
Lemma norm_no_cr t : ~ In ccr t -> csv_norm t = t.
Proof. intros H. rewrite <- (app_nil_r t) at 1. rewrite norm_app by auto. cbn. apply app_nil_r. Qed.
Lemma write_file_reads rs : Forall (fun r => r <> [] /\ forall f, In f r -> ~ In ccr f) rs -> csv_read (write_file rs) = Ok rs.
Proof.
  intros H. unfold csv_read. rewrite norm_no_cr.
  - pose proof (scan_lines rs (map write_record rs)) as X. rewrite <- (app_nil_r (write_file rs)). unfold write_file. rewrite X.
    + cbn. rewrite app_nil_r. reflexivity.
    + clear X. induction H as [|r rs [N _] H IH]; cbn; constructor; auto. apply write_record_text; auto.
    + clear X. induction H as [|r rs [N _] H IH]; cbn; constructor; auto. destruct r as [|f [|g r]]; [congruence|discriminate|discriminate].
  - unfold write_file, lines_of. intros X. apply in_concat in X. destruct X as (l & X1 & X2).
    rewrite map_map in X1. apply in_map_iff in X1. destruct X1 as (r & <- & Hr). apply in_app_or in X2. destruct X2 as [X2|[X2|[]]]; [|discriminate].
    rewrite Forall_forall in H. destruct (H r Hr) as [_ HC].
    apply write_record_In in X2. destruct X2 as [X2|[X2|(f & F1 & F2)]]; try discriminate. apply (HC f); auto.
Qed.

(** ** From the text of a file to the answers of the list engine *)
Lemma csv_patterns_In uri rs pat : In pat (csv_patterns uri rs) <->
  exists r0 fields, In (r0 :: fields) rs /\ is_http r0 = true /\ to_lower r0 = uri /\ In pat fields /\ is_epc_pat pat = true.
Proof.
  unfold csv_patterns. rewrite in_flat_map. split.
  - intros ([|r0 fields] & H1 & H2); [destruct H2|]. destruct (is_http r0 && seqb (to_lower r0) uri) eqn:E; [|destruct H2].
    apply andb_true_iff in E. destruct E as [E1 E2]. apply seqb_eq in E2. apply filter_In in H2. exists r0, fields. tauto.
  - intros (r0 & fields & H1 & H2 & H3 & H4 & H5). exists (r0 :: fields). split; auto. rewrite H2. subst uri. rewrite seqb_refl. cbn [andb].
    apply filter_In. auto.
Qed.
Lemma load_csv_wf rs : wf_map (load_csv rs).
Proof. destruct (load_csv_from rs [] []) as [H _]; [constructor|exact H]. Qed.
Lemma wants_csv E rs sub' s u : Permutation (load_csv rs) sub' ->
  wants E sub' s u <-> exists r0 fields pat, In (r0 :: fields) rs /\ is_http r0 = true /\ to_lower r0 = u /\
    In pat fields /\ is_epc_pat pat = true /\ pattern_prefix E pat = Some s.
Proof.
  intros HP. transitivity (exists pat, In pat (csv_patterns u rs) /\ pattern_prefix E pat = Some s).
  - unfold wants. split.
    + intros (pats & pat & H1 & H2 & H3). apply (Permutation_in _ (Permutation_sym HP)) in H1.
      apply In_mget in H1; [|apply load_csv_wf]. rewrite load_csv_spec in H1. exists pat. split; auto.
      destruct (csv_patterns u rs); congruence.
    + intros (pat & H1 & H2). exists (csv_patterns u rs), pat. split; auto. apply (Permutation_in _ HP). apply mget_In. rewrite load_csv_spec.
      destruct (csv_patterns u rs); [destruct H1|reflexivity].
  - split.
    + intros (pat & H1 & H2). apply csv_patterns_In in H1. destruct H1 as (r0 & fields & H). exists r0, fields, pat. tauto.
    + intros (r0 & fields & pat & H). exists pat. split; [|tauto]. apply csv_patterns_In. exists r0, fields. tauto.
Qed.
Lemma file_to_answers E text rs sub' pc id : csv_text rs text -> Permutation (load_csv rs) sub' ->
  unshared E sub' -> Forall is_bitstring (mkeys (to_byte_subs E sub')) -> wf_bytes id -> decides id (mkeys (to_byte_subs E sub')) ->
  exists uris, answers (translate pc id) uris (list_search (new_list E sub') pc id) /\
    forall u, In u uris <-> exists r0 fields pat k, In (r0 :: fields) rs /\ is_http r0 = true /\ to_lower r0 = u /\
      In pat fields /\ is_epc_pat pat = true /\ pattern_prefix E pat = Some k /\ id_has_prefix id k.
Proof.
  intros _ HP HU HB Hw HD. pose proof (list_run_search E sub' [] pc id) as H. cbn zeta in H.
  change (list_run E sub' []) with (new_list E sub') in H. rewrite new_list_of, list_pairs_of, entries_keys in H.
  destruct (H HB Hw HD) as (uris & R & A). exists uris. rewrite new_list_of. split; auto.
  intros u. rewrite (reported_In _ _ _ _ R). split.
  - intros (k & H1 & H2). apply (proj1 (to_byte_unshared E sub' HU k u)) in H1. apply (proj1 (wants_csv E rs sub' k u HP)) in H1.
    destruct H1 as (r0 & fields & pat & H1). exists r0, fields, pat, k. tauto.
  - intros (r0 & fields & pat & k & H1). exists k. split; [|tauto]. apply to_byte_unshared; auto. apply (proj2 (wants_csv E rs sub' k u HP)).
    exists r0, fields, pat. tauto.
Qed.

(** ** Patterns in other letter cases *)
Lemma split_count c s : length (split_on c s) = S (count_occ ascii_dec s c).
Proof.
  induction s as [|d s IH]; auto. cbn [split_on count_occ]. destruct (Ascii.eqb d c) eqn:E.
  - apply Ascii.eqb_eq in E. subst d. destruct (ascii_dec c c); [|congruence]. cbn [length]. rewrite IH. reflexivity.
  - apply Ascii.eqb_neq in E. destruct (ascii_dec d c); [congruence|]. destruct (split_on c s); cbn in *; lia.
Qed.
Lemma lower_colon c : lower_char c = ccolon -> c = ccolon.
Proof. destruct c as [[] [] [] [] [] [] [] []]; vm_compute; intros H; congruence. Qed.
Lemma count_app c a b : count_occ ascii_dec (a ++ b) c = count_occ ascii_dec a c + count_occ ascii_dec b c.
Proof. apply count_occ_app. Qed.
Lemma other_case_ignored pat : is_epc_pat pat = true -> has_prefix pat (str "urn:epc:pat:") = false -> pattern_parts pat = None.
Proof.
  intros H1 H2. unfold pattern_parts, trim_prefix. rewrite H2.
  assert (3 <= count_occ ascii_dec pat ccolon) as HC.
  { unfold is_epc_pat in H1. apply has_prefix_spec in H1. destruct H1 as [x H1]. unfold to_lower in H1.
    assert (forall (l m : gostring), map lower_char l = m -> count_occ ascii_dec m ccolon <= count_occ ascii_dec l ccolon) as HM.
    { induction l as [|c l IH]; intros m <-; auto. cbn [map count_occ]. specialize (IH _ eq_refl).
      destruct (ascii_dec (lower_char c) ccolon) as [E|E]; [apply lower_colon in E; subst c; destruct (ascii_dec ccolon ccolon); [lia|congruence]|].
      destruct (ascii_dec c ccolon); lia. }
    apply HM in H1. rewrite count_app in H1. change (count_occ ascii_dec (str "urn:epc:pat:") ccolon) with 3 in H1. lia. }
  pose proof (split_count ccolon pat) as HS. destruct (split_on ccolon pat) as [|a [|b [|d l]]]; auto. cbn in HS. lia.
Qed.
Lemma no_http rs : Forall (fun r => forall r0 fields, r = r0 :: fields -> is_http r0 = false) rs -> load_csv rs = [].
Proof.
  intros H. apply wf_map_ext; [apply load_csv_wf|constructor|]. intros u. rewrite load_csv_spec.
  destruct (csv_patterns u rs) as [|p l] eqn:E; auto. exfalso.
  assert (In p (csv_patterns u rs)) as HI by (rewrite E; left; auto). apply csv_patterns_In in HI.
  destruct HI as (r0 & fields & H1 & H2 & _). rewrite Forall_forall in H. rewrite (H _ H1 r0 fields eq_refl) in H2. discriminate.
Qed.
Lemma split_app c a b : split_on c (a ++ c :: b) = split_on c a ++ split_on c b.
Proof.
  induction a as [|d a IH]; cbn [app split_on]; [rewrite Ascii.eqb_refl; reflexivity|].
  rewrite IH. destruct (Ascii.eqb d c); auto. destruct (split_on c a) as [|f fs] eqn:E; auto.
  pose proof (split_count c a) as X. rewrite E in X. discriminate X.
Qed.
Lemma split_one c s : length (split_on c s) = 1 -> split_on c s = [s].
Proof.
  induction s as [|d s IH]; auto. cbn [split_on]. destruct (Ascii.eqb d c).
  - intros H. cbn [length] in H. rewrite split_count in H. lia.
  - intros H. pose proof (split_count c s) as X. destruct (split_on c s) as [|f [|g l]]; [discriminate X| |discriminate H]. specialize (IH eq_refl). injection IH as ->. reflexivity.
Qed.
Lemma upper_colon c : upper_char c = ccolon <-> c = ccolon.
Proof. destruct c as [[] [] [] [] [] [] [] []]; vm_compute; split; intros H; congruence. Qed.
Lemma upper_count s : count_occ ascii_dec (to_upper s) ccolon = count_occ ascii_dec s ccolon.
Proof.
  induction s as [|c s IH]; auto. unfold to_upper in *. cbn [map count_occ]. rewrite IH. pose proof (upper_colon c).
  destruct (ascii_dec (upper_char c) ccolon), (ascii_dec c ccolon); tauto || reflexivity.
Qed.
Lemma value_case E t fs fs' : to_upper fs = to_upper fs' ->
  pattern_prefix E (str "urn:epc:pat:" ++ t ++ ccolon :: fs) = pattern_prefix E (str "urn:epc:pat:" ++ t ++ ccolon :: fs').
Proof.
  intros H. unfold pattern_prefix, urn_pat.
  assert (forall x, trim_prefix (str "urn:epc:pat:" ++ x) (str "urn:epc:pat:") = x) as HT by (intros x; unfold trim_prefix; assert (has_prefix (str "urn:epc:pat:" ++ x) (str "urn:epc:pat:") = true) as -> by (apply has_prefix_spec; exists x; reflexivity); reflexivity).
  rewrite !HT, !split_app.
  assert (length (split_on ccolon fs) = length (split_on ccolon fs')) as HL by (rewrite !split_count, <- (upper_count fs), <- (upper_count fs'), H; auto).
  destruct (Nat.eq_dec (length (split_on ccolon fs)) 1) as [L1|L1].
  - pose proof L1 as L2. rewrite HL in L2. rewrite (split_one _ _ L1), (split_one _ _ L2).
    destruct (split_on ccolon t) as [|a [|b l]]; cbn [app]; auto; rewrite ?H; auto. destruct l; auto.
  - pose proof (split_count ccolon fs) as L3. pose proof (split_count ccolon t) as L5.
    destruct (split_on ccolon fs) as [|x [|y l]]; cbn in L1, L3; try lia. destruct (split_on ccolon fs') as [|x' [|y' l']]; cbn in HL; try lia.
    destruct (split_on ccolon t) as [|a [|b l2]]; cbn in L5; [lia|reflexivity|]. cbn [app]. destruct l2; reflexivity.
Qed.
