(** Proofs about the printed texts. *)
From Verif Require Import GoBase BinUtil MFilter MEngine MTdtCore MSubs MList MPatricia MSplay MDump.
From Verif Require Import PBase Spec PFilter PEngine PSubs PList PMatch PPatricia PPatriciaHist PLink PSplay PSplayHist.
From Verif Require Import PNum SpecEpc PTdt PTdt2 PEpc2 SpecDump.
From Coq Require Import Lia.

(** ** Cutting a text at a character *)
Lemma cut_unique {A} (c : A) x : forall x' r r', ~ In c x -> ~ In c x' -> x ++ c :: r = x' ++ c :: r' -> x = x' /\ r = r'.
Proof.
  induction x as [|a x IH]; intros [|a' x'] r r' H H' E; cbn in *.
  - injection E as ->. auto.
  - injection E as -> _. destruct H'. auto.
  - injection E as -> _. destruct H. auto.
  - injection E as -> E. destruct (IH x' r r') as [-> ->]; auto.
Qed.
Lemma cut_unique_last {A} (c : A) x x' r r' : ~ In c r -> ~ In c r' -> x ++ c :: r = x' ++ c :: r' -> x = x' /\ r = r'.
Proof.
  intros H H' E. apply (f_equal (@rev A)) in E. rewrite !rev_app_distr in E. cbn [rev] in E. rewrite <- !app_assoc in E. cbn [app] in E.
  apply cut_unique in E; try (rewrite <- in_rev; auto). destruct E as [E1 E2].
  apply (f_equal (@rev A)) in E1, E2. rewrite !rev_involutive in E1, E2. auto.
Qed.
Lemma bits_no c s : is_bitstring s -> c <> c0 -> c <> c1 -> ~ In c s.
Proof. intros H N0 N1 HI. unfold is_bitstring in H. rewrite Forall_forall in H. apply H in HI. destruct HI; auto. Qed.
Lemma dec_no c n : is_digit c = false -> ~ In c (dec_string n).
Proof.
  intros D H. destruct (dec_string_plain n) as ((_ & F) & _). rewrite Forall_forall in F. apply F in H. congruence.
Qed.
Lemma dec_inj a b : dec_string (N.of_nat a) = dec_string (N.of_nat b) -> a = b.
Proof. intros H. apply (f_equal dec_value) in H. rewrite !dec_string_value in H. lia. Qed.

(** ** ToString *)
Lemma fo_text f : fo_to_string f = (fo_string f ++ "("%char :: dec_string (N.of_nat (fo_offset f)) ++ " "%char :: dec_string (N.of_nat (fo_size f)) ++ [")"%char]).
Proof. unfold fo_to_string. cbn. reflexivity. Qed.
Lemma fo_text_inj f f' : fo_to_string f = fo_to_string f' ->
  fo_string f = fo_string f' /\ fo_offset f = fo_offset f' /\ fo_size f = fo_size f'.
Proof.
  rewrite !fo_text. intros H. apply cut_unique_last in H.
  2,3: rewrite in_app_iff; cbn; rewrite in_app_iff; cbn; intros [X|[X|[X|[X|[]]]]]; try discriminate X; revert X; apply dec_no; reflexivity.
  destruct H as [-> H]. apply cut_unique in H; try (apply dec_no; reflexivity). destruct H as [H1 H2].
  apply dec_inj in H1. apply app_inj_tail in H2. destruct H2 as [H2 _]. apply dec_inj in H2. auto.
Qed.
Lemma new_filter_text_inj s o s' o' : fo_to_string (new_filter s o) = fo_to_string (new_filter s' o') -> s = s' /\ o = o'.
Proof.
  intros H. apply fo_text_inj in H. rewrite !new_filter_string, !new_filter_offset in H. tauto.
Qed.
(** Followed by a blank, for prefixes. *)
Lemma fo_text_cut f f' r r' : is_bitstring (fo_string f) -> is_bitstring (fo_string f') ->
  fo_to_string f ++ r = fo_to_string f' ++ r' -> fo_string f = fo_string f' /\ fo_offset f = fo_offset f' /\ r = r'.
Proof.
  intros B B' H. rewrite !fo_text, <- !app_assoc in H. cbn [app] in H. rewrite <- !app_assoc in H.
  apply cut_unique in H; try (apply bits_no; auto; discriminate). destruct H as [-> H]. cbn [app] in H. rewrite <- !app_assoc in H.
  apply cut_unique in H; try (apply dec_no; reflexivity). destruct H as [H1 H]. apply dec_inj in H1. cbn [app] in H.
  apply cut_unique in H; try (apply dec_no; reflexivity). destruct H as [_ H]. auto.
Qed.
Lemma fo_text_one_line f : is_bitstring (fo_string f) -> one_line (fo_to_string f).
Proof.
  intros B H. rewrite fo_text, in_app_iff in H. cbn in H. rewrite in_app_iff in H. cbn in H. rewrite in_app_iff in H. cbn in H.
  destruct H as [H|[H|[H|[H|[H|[H|[]]]]]]]; try discriminate H; revert H; try (apply dec_no; reflexivity).
  apply bits_no; auto; discriminate.
Qed.
Lemma one_line_app a b : one_line (a ++ b) <-> one_line a /\ one_line b.
Proof. unfold one_line. rewrite in_app_iff. tauto. Qed.
Lemma one_line_cons c a : one_line (c :: a) <-> c <> newline /\ one_line a.
Proof. unfold one_line, newline. cbn [In]. tauto. Qed.
Lemma arrow_one_line u : one_line u -> one_line (arrow u).
Proof. destruct u as [|c u]; [intros _ []|]. intros H [X|[X|[X|X]]]; try discriminate X. apply H, X. Qed.
Lemma arrow_inj u u' : arrow u = arrow u' -> u = u'.
Proof. destruct u, u'; cbn; try discriminate; auto. congruence. Qed.

(** ** Indented texts *)
Inductive outline : Type := ONil | ONode (label : gostring) (sub next : outline).
Lemma ONode_inj a b c a' b' c' : ONode a b c = ONode a' b' c' -> a = a' /\ b = b' /\ c = c'.
Proof. intros H. injection H. auto. Qed.
Fixpoint flat_outline (d : nat) (f : outline) : list (nat * gostring) :=
  match f with ONil => [] | ONode l c n => (d, l) :: flat_outline (S d) c ++ flat_outline d n end.
Fixpoint labels_ok (f : outline) : Prop :=
  match f with
  | ONil => True
  | ONode l c n => (one_line l /\ exists x r, l = x :: r /\ x <> " "%char) /\ labels_ok c /\ labels_ok n
  end.
Definition line (p : nat * gostring) : gostring := spaces (2 * fst p) ++ snd p ++ [newline].
Definition outline_text (d : nat) (f : outline) : gostring := flat_map line (flat_outline d f).

Lemma outline_text_node d l c n : outline_text d (ONode l c n) = spaces (2 * d) ++ l ++ [newline] ++ outline_text (S d) c ++ outline_text d n.
Proof.
  unfold outline_text. cbn [flat_outline flat_map]. rewrite flat_map_app. unfold line at 1. cbn [fst snd]. rewrite <- !app_assoc. reflexivity.
Qed.
Lemma line_one_line n l : one_line l -> one_line (spaces n ++ l).
Proof.
  intros H. apply one_line_app. split; auto. intros X. unfold spaces in X. apply repeat_spec in X. discriminate X.
Qed.
Lemma spaces_inj n m (x y : ascii) r r' : x <> " "%char -> y <> " "%char -> spaces n ++ x :: r = spaces m ++ y :: r' -> n = m /\ x :: r = y :: r'.
Proof.
  intros Hx Hy. revert m; induction n as [|n IH]; intros [|m] H; cbn in H; auto.
  - injection H as -> _. congruence.
  - injection H as <- _. congruence.
  - injection H as H. apply IH in H. destruct H; auto.
Qed.
Definition entry_ok (p : nat * gostring) : Prop := one_line (snd p) /\ exists x r, snd p = x :: r /\ x <> " "%char.
Lemma flat_outline_ok f : forall d, labels_ok f -> Forall entry_ok (flat_outline d f).
Proof.
  induction f as [|l c IHc n IHn]; intros d H; cbn; auto. destruct H as (H & Hc & Hn). constructor; auto.
  apply Forall_app. auto.
Qed.
Lemma lines_inj l : forall l', Forall entry_ok l -> Forall entry_ok l' -> flat_map line l = flat_map line l' -> l = l'.
Proof.
  induction l as [|[d a] l IH]; intros [|[d' a'] l'] F F' H; auto.
  - cbn [flat_map] in H. unfold line at 1 in H. symmetry in H. apply app_eq_nil in H. destruct H as [H _]. apply app_eq_nil in H. destruct H as [_ H].
    apply app_eq_nil in H. destruct H as [_ H]. discriminate H.
  - cbn [flat_map] in H. unfold line at 1 in H. apply app_eq_nil in H. destruct H as [H _]. apply app_eq_nil in H. destruct H as [_ H].
    apply app_eq_nil in H. destruct H as [_ H]. discriminate H.
  - inversion F as [|x y (O & x1 & r1 & E1 & N1) F1]; subst. inversion F' as [|x y (O' & x2 & r2 & E2 & N2) F2]; subst.
    cbn [flat_map] in H. unfold line in H at 1 3. cbn [fst snd] in *. rewrite <- !app_assoc in H. cbn [app] in H. rewrite !(app_assoc (spaces _)) in H.
    apply cut_unique in H; try (apply line_one_line; auto). destruct H as [H1 H2].
    subst a a'. apply spaces_inj in H1; auto. destruct H1 as [H1 ->]. rewrite (IH l'); auto. f_equal. f_equal. lia.
Qed.
Lemma flat_outline_deep f : forall d, Forall (fun p => d <= fst p) (flat_outline d f).
Proof.
  induction f as [|l c IHc n IHn]; intros d; cbn; auto. constructor; [cbn; lia|]. apply Forall_app. split; auto.
  eapply Forall_impl; [|apply IHc]. cbn; intros; lia.
Qed.
Definition above (d : nat) (r : list (nat * gostring)) : Prop := match r with [] => True | (d', _) :: _ => d' < d end.
Lemma flat_outline_inj f : forall d f' r r', above d r -> above d r' ->
  flat_outline d f ++ r = flat_outline d f' ++ r' -> f = f' /\ r = r'.
Proof.
  induction f as [|l c IHc n IHn]; intros d [|l' c' n'] r r' A A' H; cbn in H.
  - auto.
  - subst r. cbn in A. lia.
  - subst r'. cbn in A'. lia.
  - injection H as -> H. rewrite <- !app_assoc in H.
    assert (forall g s, above d s -> above (S d) (flat_outline d g ++ s)) as X.
    { intros g s As. destruct g; cbn; [|lia]. destruct s as [|[? ?] ?]; cbn in *; auto; lia. }
    apply IHc in H; auto. destruct H as [-> H]. apply IHn in H; auto. destruct H as [-> ->]. auto.
Qed.
Lemma outline_inj d f f' : labels_ok f -> labels_ok f' -> outline_text d f = outline_text d f' -> f = f'.
Proof.
  intros L L' H. apply lines_inj in H; try (apply flat_outline_ok; auto).
  destruct (flat_outline_inj f d f' [] []) as [-> _]; cbn; auto. rewrite !app_nil_r. auto.
Qed.

(** ** List *)
Definition em_shown (em : exact_match) : Prop :=
  exists s, em_filter em = new_filter s 0 /\ is_bitstring s /\ one_line (em_uri em).
Fixpoint list_outline (l : list_engine) : outline :=
  match l with
  | [] => ONil
  | em :: l' => ONode (str "--" ++ fo_to_string (em_filter em) ++ str " " ++ em_uri em) ONil (list_outline l')
  end.
Lemma list_dump_outline l : list_dump l = outline_text 0 (list_outline l).
Proof.
  induction l as [|em l IH]; auto. cbn [list_dump list_outline]. unfold outline_text in *. cbn [flat_outline flat_map app].
  rewrite IH. unfold line. cbn [fst snd Nat.mul spaces repeat app]. rewrite <- !app_assoc. reflexivity.
Qed.
Lemma dashes_ok l : one_line l -> one_line (str "--" ++ l) /\ exists x r, str "--" ++ l = x :: r /\ x <> " "%char.
Proof.
  intros H. split; [|eexists _, _; split; [reflexivity|discriminate]]. apply one_line_app. split; auto. intros [X|[X|[]]]; discriminate X.
Qed.
Lemma body_one_line f u : is_bitstring (fo_string f) -> one_line u -> one_line (fo_to_string f ++ str " " ++ u).
Proof.
  intros B O. apply one_line_app. split; [apply fo_text_one_line; auto|]. apply one_line_app. split; auto. intros [X|[]]; discriminate X.
Qed.
Lemma list_outline_ok l : Forall em_shown l -> labels_ok (list_outline l).
Proof.
  induction 1 as [|em l (s & E & B & O) F IH]; cbn [list_outline labels_ok]; auto. repeat split; auto; apply dashes_ok; apply body_one_line; auto;
    rewrite E, new_filter_string; auto.
Qed.
Lemma list_dump_inj l l' : Forall em_shown l -> Forall em_shown l' -> list_dump l = list_dump l' -> l = l'.
Proof.
  intros F F' H. rewrite !list_dump_outline in H. apply outline_inj in H; try (apply list_outline_ok; auto).
  revert l' F' H. induction F as [|em l (s & E & B & O) F IH]; intros l' F' H; destruct F' as [|em' l' (s' & E' & B' & O') F']; try discriminate H; auto.
  cbn [list_outline] in H. apply ONode_inj in H. destruct H as (H1 & _ & H2). f_equal; [|apply IH; auto]. apply app_inv_head in H1.
  apply fo_text_cut in H1; try (rewrite ?E, ?E', new_filter_string; auto).
  rewrite E, E', !new_filter_string in H1. destruct H1 as (-> & _ & H1). injection H1 as H1.
  destruct em, em'. cbn in *. congruence.
Qed.

(** ** Patricia trie *)
Fixpoint pshown (t : ptree) : Prop :=
  match t with
  | PNil => True
  | PNode u fo one zero =>
      fo = new_filter (fo_string fo) (fo_offset fo) /\ is_bitstring (fo_string fo) /\ one_line u
      /\ starts_with c1 one /\ starts_with c0 zero /\ pshown one /\ pshown zero
  end.
Definition plabel (u : gostring) (fo : filter_object) : gostring := str "--" ++ fo_to_string fo ++ str " " ++ arrow u.
Fixpoint poutline (t : ptree) (next : outline) : outline :=
  match t with
  | PNil => next
  | PNode u fo one zero => ONode (plabel u fo) (poutline one (poutline zero ONil)) next
  end.
Lemma poutline_text t : forall d next, patricia_print t (2 * d) ++ outline_text d next = outline_text d (poutline t next).
Proof.
  induction t as [|u fo one IH1 zero IH0]; intros d next; auto.
  cbn [patricia_print poutline]. rewrite outline_text_node.
  replace (2 * d + 2) with (2 * S d) by lia. rewrite <- IH1, <- IH0. change (outline_text (S d) ONil) with (@nil ascii).
  unfold plabel. rewrite app_nil_r, <- !app_assoc. reflexivity.
Qed.
Lemma poutline_ok t : forall next, pshown t -> labels_ok next -> labels_ok (poutline t next).
Proof.
  induction t as [|u fo one IH1 zero IH0]; intros next H L; auto. destruct H as (_ & B & O & _ & _ & H1 & H0).
  cbn [poutline labels_ok]. split; [apply dashes_ok; apply body_one_line; auto; apply arrow_one_line; auto|]. split; auto.
  apply IH1; auto. apply IH0; cbn; auto.
Qed.
Lemma plabel_inj u fo u' fo' : is_bitstring (fo_string fo) -> is_bitstring (fo_string fo') -> plabel u fo = plabel u' fo' ->
  u = u' /\ fo_string fo = fo_string fo' /\ fo_offset fo = fo_offset fo'.
Proof.
  intros B B' H. unfold plabel in H. apply app_inv_head in H. apply fo_text_cut in H; auto. destruct H as (E1 & E2 & H).
  injection H as H. apply arrow_inj in H. auto.
Qed.
(** Which child a node is shows in the first bit of its filter. *)
Definition oheads (o : outline) (c : ascii) : Prop :=
  match o with ONil => True | ONode l _ _ => forall u fo, is_bitstring (fo_string fo) -> l = plabel u fo -> exists r, fo_string fo = c :: r end.
Lemma poutline_inj t : forall t' next next', pshown t -> pshown t' -> (t = PNil <-> t' = PNil) ->
  poutline t next = poutline t' next' -> t = t' /\ next = next'.
Proof.
  induction t as [|u fo one IH1 zero IH0]; intros t' next next' W W' N H.
  - destruct N as [N _]. rewrite (N eq_refl) in *. auto.
  - destruct t' as [|u' fo' one' zero']; [destruct N as [_ N]; discriminate (N eq_refl)|].
    destruct W as (F & B & O & S1 & S0 & W1 & W0). destruct W' as (F' & B' & O' & S1' & S0' & W1' & W0').
    cbn [poutline] in H. apply ONode_inj in H; destruct H as (HL & HC & HN). apply plabel_inj in HL; auto. destruct HL as (-> & E1 & E2).
    assert (fo = fo') as -> by (rewrite F, F'; congruence).
    assert (forall t t', pshown t -> pshown t' -> starts_with c1 t -> starts_with c0 t' -> forall n n', t <> PNil -> poutline t n = poutline t' n' -> t' = PNil) as X.
    { intros [|v g o z] [|v' g' o' z'] V V' S S' n n' T E; auto; [congruence|]. cbn [poutline] in E. apply ONode_inj in E; destruct E as (E & _ & _).
      destruct V as (_ & V & _). destruct V' as (_ & V' & _). apply plabel_inj in E; auto. destruct E as (_ & E & _).
      destruct S as [r S]. destruct S' as [r' S']. rewrite S, S' in E. discriminate E. }
    assert (one = PNil <-> one' = PNil) as N1.
    { split; intros ->.
      - destruct one' as [|v g o z]; auto. exfalso. cbn [poutline] in HC. destruct zero as [|v0 g0 o0 z0]; [discriminate HC|].
        enough (PNode v0 g0 o0 z0 = PNil) by discriminate. eapply X; [apply W1'|apply W0|auto|auto|discriminate|symmetry; exact HC].
      - destruct one as [|v g o z]; auto. exfalso. cbn [poutline] in HC. destruct zero' as [|v0 g0 o0 z0]; [discriminate HC|].
        enough (PNode v0 g0 o0 z0 = PNil) by discriminate. eapply X; [apply W1|apply W0'|auto|auto|discriminate|exact HC]. }
    apply IH1 in HC; auto. destruct HC as [-> HC].
    assert (zero = PNil <-> zero' = PNil) as N0.
    { split; intros ->; [destruct zero'|destruct zero]; auto; discriminate HC. }
    apply IH0 in HC; auto. destruct HC as [-> _]. auto.
Qed.
Lemma patricia_dump_inj t t' x : pshown t -> pshown t' -> patricia_dump t = Ok x -> patricia_dump t' = Ok x -> t = t'.
Proof.
  intros W W' H H'. destruct t as [|u fo one zero]; [discriminate H|]. destruct t' as [|u' fo' one' zero']; [discriminate H'|].
  unfold patricia_dump in *. assert (forall a b : gostring, Ok a = Ok b -> a = b) as OI by congruence. apply OI in H. apply OI in H'.
  pose proof (poutline_text (PNode u fo one zero) 0 ONil) as E. pose proof (poutline_text (PNode u' fo' one' zero') 0 ONil) as E'.
  change (2 * 0) with 0 in E, E'. rewrite H in E. rewrite H' in E'. rewrite E in E'.
  apply outline_inj in E'; try (apply poutline_ok; cbn; auto). apply poutline_inj in E'; try tauto. split; discriminate.
Qed.

(** ** Splay tree *)
Fixpoint sshown (t : stree) : Prop :=
  match t with
  | SNil => True
  | SNode u fo m mm =>
      (exists s o, fo = Some (new_filter s o) /\ is_bitstring s) /\ one_line u /\ sshown m /\ sshown mm
  end.
Definition slabel (tag u : gostring) (fo : option filter_object) : gostring :=
  match fo with Some f => tag ++ plabel u f | None => [] end.
Fixpoint soutline (tag : gostring) (t : stree) (next : outline) : outline :=
  match t with
  | SNil => next
  | SNode u fo m mm => ONode (slabel tag u fo) (soutline (str "ok") m (soutline (str "ng") mm ONil)) next
  end.
Lemma soutline_text t : forall d tag next, sshown t -> t <> SNil ->
  exists x, splay_print t (2 * d) = Ok x /\ spaces (2 * d) ++ tag ++ x ++ outline_text d next = outline_text d (soutline tag t next).
Proof.
  induction t as [|u fo m IHm mm IHmm]; intros d tag next H N; [congruence|].
  destruct H as ((s & o & -> & B) & O & Hm & Hmm). set (f := new_filter s o).
  cbn [splay_print soutline]. replace (2 * d + 2) with (2 * S d) by lia.
  set (rn := soutline (str "ng") mm ONil).
  assert (exists r, match mm with SNil => Ok [] | _ => let! p := splay_print mm (2 * S d) in Ok (spaces (2 * S d) ++ str "ng" ++ p) end = Ok r
          /\ r = outline_text (S d) rn) as (r & Hr & Er).
  { destruct mm as [|mu mf ma mb]; [exists []; auto|]. destruct (IHmm (S d) (str "ng") ONil Hmm) as (x & E1 & E2); [discriminate|].
    rewrite E1. cbn [bind]. eexists. split; [reflexivity|]. unfold rn. rewrite <- E2. change (outline_text (S d) ONil) with (@nil ascii).
    rewrite app_nil_r. reflexivity. }
  assert (exists p, match m with SNil => Ok [] | _ => let! p := splay_print m (2 * S d) in Ok (spaces (2 * S d) ++ str "ok" ++ p) end = Ok p
          /\ p ++ outline_text (S d) rn = outline_text (S d) (soutline (str "ok") m rn)) as (p & Hp & Ep).
  { destruct m as [|mu mf ma mb]; [exists []; auto|]. destruct (IHm (S d) (str "ok") rn Hm) as (x & E1 & E2); [discriminate|].
    rewrite E1. cbn [bind]. eexists. split; [reflexivity|]. rewrite <- E2, <- !app_assoc. reflexivity. }
  rewrite Hp. cbn [bind]. rewrite Hr. cbn [bind]. eexists. split; [reflexivity|].
  rewrite outline_text_node, <- Ep, Er. unfold slabel, plabel.
  rewrite <- !app_assoc. reflexivity.
Qed.
Definition tag_ok (tag : gostring) : Prop := tag = [] \/ tag = str "ok" \/ tag = str "ng".
Lemma soutline_ok t : forall tag next, tag_ok tag -> sshown t -> labels_ok next -> labels_ok (soutline tag t next).
Proof.
  induction t as [|u fo m IHm mm IHmm]; intros tag next T H L; auto. destruct H as ((s & o & -> & B) & O & Hm & Hmm).
  cbn [soutline labels_ok]. split; [|split; auto; apply IHm; auto; [right; left; auto|apply IHmm; cbn; auto; right; right; auto]].
  assert (one_line (plabel u (new_filter s o)) /\ exists x r, plabel u (new_filter s o) = x :: r /\ x <> " "%char) as [P1 P2].
  { apply dashes_ok. apply body_one_line; [rewrite new_filter_string; auto|apply arrow_one_line; auto]. }
  cbn [slabel]. destruct T as [->|[-> | ->]]; [auto| |];
    (split; [apply one_line_app; split; auto; intros [X|[X|[]]]; discriminate X|eexists _, _; split; [reflexivity|discriminate]]).
Qed.
Lemma soutline_inj t : forall tag t' next next', tag_ok tag -> sshown t -> sshown t' -> (t = SNil <-> t' = SNil) ->
  soutline tag t next = soutline tag t' next' -> t = t' /\ next = next'.
Proof.
  induction t as [|u fo m IHm mm IHmm]; intros tag t' next next' T W W' N H.
  - destruct N as [N _]. rewrite (N eq_refl) in *. auto.
  - destruct t' as [|u' fo' m' mm']; [destruct N as [_ N]; discriminate (N eq_refl)|].
    destruct W as ((s & o & -> & B) & O & Wm & Wmm). destruct W' as ((s' & o' & -> & B') & O' & Wm' & Wmm').
    cbn [soutline slabel] in H. apply ONode_inj in H; destruct H as (HL & HC & HN). apply app_inv_head in HL.
    apply plabel_inj in HL; try (rewrite new_filter_string; auto). rewrite !new_filter_string, !new_filter_offset in HL. destruct HL as (-> & -> & ->).
    assert (forall a b n n', sshown a -> sshown b -> a <> SNil -> b <> SNil -> soutline (str "ok") a n <> soutline (str "ng") b n') as X.
    { intros [|? ? ? ?] [|? ? ? ?] n n' Wa Wb Na Nb E; try congruence. destruct Wa as ((? & ? & -> & _) & _). destruct Wb as ((? & ? & -> & _) & _).
      cbn [soutline slabel] in E. apply ONode_inj in E; destruct E as (E & _ & _). discriminate E. }
    assert (m = SNil <-> m' = SNil) as Nm.
    { split; intros ->.
      - destruct m' as [|v g a b]; auto. exfalso. destruct mm as [|v0 g0 a0 b0]; [discriminate HC|].
        symmetry in HC. revert HC. apply X; auto; discriminate.
      - destruct m as [|v g a b]; auto. exfalso. destruct mm' as [|v0 g0 a0 b0]; [discriminate HC|].
        revert HC. apply X; auto; discriminate. }
    apply IHm in HC; auto; [|right; left; auto]. destruct HC as [-> HC].
    assert (mm = SNil <-> mm' = SNil) as Nmm.
    { split; intros ->; [destruct mm'|destruct mm]; auto; discriminate HC. }
    apply IHmm in HC; auto; [|right; right; auto]. destruct HC as [-> _]. auto.
Qed.
Lemma splay_dump_inj t t' x : sshown t -> sshown t' -> splay_dump t = Ok x -> splay_dump t' = Ok x -> t = t'.
Proof.
  intros W W' H H'. destruct t as [|u fo m mm]; [discriminate H|]. destruct t' as [|u' fo' m' mm']; [discriminate H'|].
  destruct (soutline_text _ 0 [] ONil W) as (y & E1 & E2); [discriminate|].
  destruct (soutline_text _ 0 [] ONil W') as (y' & E1' & E2'); [discriminate|].
  unfold splay_dump in *. change (2 * 0) with 0 in *. assert (y = x) as -> by congruence. assert (y' = x) as -> by congruence.
  rewrite E2 in E2'. apply outline_inj in E2'; try (apply soutline_ok; cbn; auto; left; auto).
  apply soutline_inj in E2'; try tauto; [left; auto|split; discriminate].
Qed.
Lemma splay_dump_total t : sshown t -> t <> SNil -> exists x, splay_dump t = Ok x.
Proof. intros W N. destruct (soutline_text t 0 [] ONil W N) as (x & E & _). exists x. exact E. Qed.

(** ** Byte subscriptions *)
Definition blabel (fs : gostring) (q : psub) : gostring :=
  str "--" ++ fs ++ str " " ++ dec_string (N.of_nat (ps_offset q)) ++ str " " ++ ps_uri q.
Fixpoint psub_outline (p : psub) : outline :=
  match p with
  | PSub _ _ l =>
      (fix go (l : list (gostring * psub)) : outline :=
         match l with
         | [] => ONil
         | (fs, q) :: l' => ONode (blabel fs q) (psub_outline q) (go l')
         end) l
  end.
Fixpoint bsub_outline (b : bsubs) : outline :=
  match b with [] => ONil | (fs, q) :: b' => ONode (blabel fs q) (psub_outline q) (bsub_outline b') end.
Lemma psub_outline_subset o u l : psub_outline (PSub o u l) = bsub_outline l.
Proof. cbn [psub_outline]. induction l as [|[fs q] l IH]; cbn [bsub_outline]; congruence. Qed.
Lemma psub_print_subset o u l i : psub_print (PSub o u l) i = bsub_print l i.
Proof. cbn [psub_print]. induction l as [|[fs q] l IH]; cbn [bsub_print]; congruence. Qed.
(** Induction on nested subscriptions. *)
Lemma psub_ind2 (P : psub -> Prop) : (forall o u l, Forall (fun kv => P (snd kv)) l -> P (PSub o u l)) -> forall p, P p.
Proof.
  intros H. fix IH 1. intros [o u l]. apply H. induction l as [|[k q] l IHl]; constructor; auto.
Qed.
Lemma bsub_outline_text0 l : Forall (fun kv : gostring * psub => forall d, psub_print (snd kv) (2 * d) = outline_text d (psub_outline (snd kv))) l ->
  forall d, bsub_print l (2 * d) = outline_text d (bsub_outline l).
Proof.
  induction 1 as [|[fs q] l H F IH]; intros d; auto. cbn [bsub_print bsub_outline]. cbn [snd] in H.
  rewrite outline_text_node, <- H, <- IH. replace (2 * d + 2) with (2 * S d) by lia. unfold blabel. rewrite <- !app_assoc. reflexivity.
Qed.
Lemma psub_outline_text p : forall d, psub_print p (2 * d) = outline_text d (psub_outline p).
Proof.
  induction p as [o u l H] using psub_ind2. intros d. rewrite psub_print_subset, psub_outline_subset. apply bsub_outline_text0; auto.
Qed.
Lemma bsub_outline_text l d : bsub_print l (2 * d) = outline_text d (bsub_outline l).
Proof. apply bsub_outline_text0. apply Forall_forall. intros [k q] _. cbn. apply psub_outline_text. Qed.
Lemma blabel_ok fs q : is_bitstring fs -> one_line (ps_uri q) -> one_line (blabel fs q) /\ exists x r, blabel fs q = x :: r /\ x <> " "%char.
Proof.
  intros B O. apply dashes_ok. apply one_line_app. split; [apply bits_no; auto; discriminate|].
  apply one_line_app. split; [intros [X|[]]; discriminate X|]. apply one_line_app. split; [apply dec_no; reflexivity|].
  apply one_line_app. split; auto. intros [X|[]]; discriminate X.
Qed.
Lemma printable_uri q : printable_psub q -> one_line (ps_uri q).
Proof. destruct 1; auto. Qed.
Lemma bsub_outline_ok0 l : Forall (fun kv => printable_psub (snd kv) -> labels_ok (psub_outline (snd kv))) l -> printable_bsubs l -> labels_ok (bsub_outline l).
Proof.
  intros H F. revert H. induction F as [|[fs q] l [B P] F IH]; intros H; cbn [bsub_outline labels_ok]; auto. cbn [fst snd] in *.
  inversion H; subst. cbn [snd] in *. split; [apply blabel_ok; auto; apply printable_uri; auto|]. auto.
Qed.
Lemma psub_outline_ok p : printable_psub p -> labels_ok (psub_outline p).
Proof.
  induction p as [o u l H] using psub_ind2. intros P. rewrite psub_outline_subset. apply bsub_outline_ok0; auto. inversion P; auto.
Qed.
Lemma bsub_outline_ok l : printable_bsubs l -> labels_ok (bsub_outline l).
Proof. intros P. apply bsub_outline_ok0; auto. apply Forall_forall. intros [k q] _. cbn. apply psub_outline_ok. Qed.
Lemma bsub_outline_inj0 l : Forall (fun kv => forall q', printable_psub (snd kv) -> printable_psub q' -> psub_outline (snd kv) = psub_outline q' -> ps_subset (snd kv) = ps_subset q') l ->
  forall l', printable_bsubs l -> printable_bsubs l' -> bsub_outline l = bsub_outline l' -> l = l'.
Proof.
  induction 1 as [|[fs q] l H F IH]; intros [|[fs' q'] l'] P P' E; try discriminate E; auto. cbn [snd] in H.
  inversion P as [|x y [B Q] P1]; subst. inversion P' as [|x y [B' Q'] P1']; subst. cbn [fst snd] in *.
  cbn [bsub_outline] in E. apply ONode_inj in E; destruct E as (EL & EC & EN). unfold blabel in EL. apply app_inv_head in EL. 
  apply cut_unique in EL; try (apply bits_no; auto; discriminate). destruct EL as [-> EL]. cbn [app] in EL.
  apply cut_unique in EL; try (apply dec_no; reflexivity). destruct EL as [E1 E2]. apply dec_inj in E1.
  f_equal; [|apply IH; auto]. apply H in EC; auto. destruct q, q'. cbn in *. congruence.
Qed.
Lemma psub_outline_inj p : forall p', printable_psub p -> printable_psub p' -> psub_outline p = psub_outline p' -> ps_subset p = ps_subset p'.
Proof.
  induction p as [o u l H] using psub_ind2. intros [o' u' l'] P P' E. rewrite !psub_outline_subset in E. cbn.
  inversion P; subst. inversion P'; subst. eapply bsub_outline_inj0; eauto.
Qed.
Lemma bsub_dump_inj b b' : printable_bsubs b -> printable_bsubs b' -> bsub_dump b = bsub_dump b' -> b = b'.
Proof.
  intros P P' H. unfold bsub_dump in H. change 0 with (2 * 0) in H. rewrite !bsub_outline_text in H.
  apply outline_inj in H; try (apply bsub_outline_ok; auto). eapply bsub_outline_inj0; eauto.
  apply Forall_forall. intros [k q] _. cbn. apply psub_outline_inj.
Qed.
