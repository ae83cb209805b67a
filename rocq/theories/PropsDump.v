(** Properties C73-C75: the texts printed of filters, engines and subscriptions. *)
From Verif Require Import GoBase BinUtil MFilter MEngine MTdtCore MSubs MList MPatricia MSplay MDump TestVectors.
From Verif Require Import PBase Spec PFilter PEngine PSubs PList PMatch PPatricia PPatriciaHist PExamples PLink PSplay PSplayHist.
From Verif Require Import SpecEpc PTdt2 SpecDump PDump PDump2.
From Coq Require Import Lia.

(** ** C73 *)
(** The text of a filter: its pattern, then its offset and its length in
    decimal. *)
Theorem C73_filter_text : forall s o, exists od ld,
  fo_to_string (new_filter s o) = s ++ str "(" ++ od ++ str " " ++ ld ++ str ")"
  /\ plain_decimal (N.of_nat o) od /\ plain_decimal (N.of_nat (length s)) ld.
Proof.
  intros s o. exists (dec_string (N.of_nat o)), (dec_string (N.of_nat (length s))).
  split; [|split; apply dec_string_plain]. unfold fo_to_string. rewrite new_filter_string, new_filter_offset, new_filter_size. reflexivity.
Qed.
Print Assumptions C73_filter_text.

(** Filters with the same text are the same filter, whatever the characters. *)
Theorem C73_filter_text_identifies : forall s o s' o',
  fo_to_string (new_filter s o) = fo_to_string (new_filter s' o') -> s = s' /\ o = o'.
Proof. exact new_filter_text_inj. Qed.
Print Assumptions C73_filter_text_identifies.

Example C73_text : fo_to_string (new_filter (str "0011") 12) = str "0011(12 4)"
  /\ fo_to_string (new_filter (str "a(1 2)") 3) = str "a(1 2)(3 6)".
Proof. split; vm_compute; reflexivity. Qed.

(** ** C74 *)
(** List: two engines, whatever their histories, with the same dump are the same. *)
Theorem C74_list : forall E sub0 ops E' sub0' ops',
  printable E sub0 -> Forall (printable_op E) ops -> printable E' sub0' -> Forall (printable_op E') ops' ->
  list_dump (list_run E sub0 ops) = list_dump (list_run E' sub0' ops') -> list_run E sub0 ops = list_run E' sub0' ops'.
Proof. intros. apply list_dump_inj; auto; apply list_run_shown; auto. Qed.
Print Assumptions C74_list.

(** Patricia trie: Dump never crashes, and the same dump means the same trie. *)
Theorem C74_patricia : forall E sub0 ops, printable E sub0 -> Forall (printable_op E) ops ->
  exists t x, patricia_run E sub0 ops = Ok t /\ patricia_dump t = Ok x
  /\ forall E' sub0' ops' t', printable E' sub0' -> Forall (printable_op E') ops' ->
       patricia_run E' sub0' ops' = Ok t' -> patricia_dump t' = Ok x -> t' = t.
Proof.
  intros E sub0 ops P F. destruct (patricia_run_shown E sub0 ops P F) as (t & Et & N & W).
  assert (exists x, patricia_dump t = Ok x) as [x Ex] by (destruct t; [congruence|eexists; reflexivity]).
  exists t, x. split; auto. split; auto. intros E' sub0' ops' t' P' F' Et' Ex'.
  destruct (patricia_run_shown E' sub0' ops' P' F') as (t2 & Et2 & N2 & W2). assert (t2 = t') as -> by congruence.
  eapply patricia_dump_inj; eauto.
Qed.
Print Assumptions C74_patricia.

(** Splay tree, after any calls that did not crash, of a tree that had a
    subscription at the start: Dump does not crash, and the same dump means the
    same tree. *)
Theorem C74_splay_partial : forall E sub0 cs t, to_byte_subs E sub0 <> [] -> printable E sub0 -> Forall (printable_call E) cs ->
  splay_run E sub0 cs = Ok t ->
  exists x, splay_dump t = Ok x
  /\ forall E' sub0' cs' t', to_byte_subs E' sub0' <> [] -> printable E' sub0' -> Forall (printable_call E') cs' ->
       splay_run E' sub0' cs' = Ok t' -> splay_dump t' = Ok x -> t' = t.
Proof.
  intros E sub0 cs t NE P F Et. destruct (splay_run_shown E sub0 cs t NE P F Et) as [N W].
  destruct (splay_dump_total t W N) as [x Ex]. exists x. split; auto. intros E' sub0' cs' t' NE' P' F' Et' Ex'.
  destruct (splay_run_shown E' sub0' cs' t' NE' P' F' Et') as [N' W']. eapply splay_dump_inj; eauto.
Qed.
Print Assumptions C74_splay_partial.

(** The full property fails: Dump of a splay tree without subscriptions crashes. *)
Theorem C74_refuted : forall E sub, to_byte_subs E sub = [] ->
  exists t, new_splay E sub = Ok t /\ splay_dump t = Panic.
Proof.
  intros E sub H. unfold new_splay, new_splay_b. rewrite H. eexists. split; [reflexivity|]. reflexivity.
Qed.
Print Assumptions C74_refuted.

(** That is the only case: after any history without a crash the splay tree can be
    dumped exactly when it had a subscription at the start (an engine that had none
    crashes on every call that would change that). *)
Lemma splay_stays_empty E cs t : fold_left (splay_call E) cs (Ok (SNode [] None SNil SNil)) = Ok t -> t = SNode [] None SNil SNil.
Proof.
  assert (forall cs r, (forall t, r <> Ok t) -> fold_left (splay_call E) cs r <> Ok t) as STOP.
  { clear cs. induction cs as [|c cs IH]; intros r H; cbn [fold_left]; [apply H|]. apply IH. intros x. destruct r as [y| |]; cbn; try discriminate. destruct (H y). auto. }
  assert (forall f (l : bsubs), (forall kv, f (Ok (SNode [] None SNil SNil)) kv = Panic) -> (forall kv, f Panic kv = Panic) ->
    fold_left f l (Ok (SNode [] None SNil SNil)) = match l with [] => Ok (SNode [] None SNil SNil) | _ => Panic (A := stree) end) as GO.
  { intros f [|kv l] F1 F2; auto. cbn [fold_left]. rewrite F1. clear F1. induction l as [|x l IH]; cbn [fold_left]; auto. rewrite F2. auto. }
  induction cs as [|[id|[sub|sub]] cs IH]; cbn [fold_left]; intros H.
  - injection H as <-. auto.
  - exfalso. revert H. apply STOP. discriminate.
  - cbn [splay_call bind] in H. unfold splay_add in H. rewrite GO in H by reflexivity. destruct (to_byte_subs E sub); auto. exfalso. revert H. apply STOP. discriminate.
  - cbn [splay_call bind] in H. unfold splay_del in H. rewrite GO in H by reflexivity. destruct (to_byte_subs E sub); auto. exfalso. revert H. apply STOP. discriminate.
Qed.
Theorem C74_exactly_partial : forall E sub0 cs t, printable E sub0 -> Forall (printable_call E) cs -> splay_run E sub0 cs = Ok t ->
  ((exists x, splay_dump t = Ok x) <-> to_byte_subs E sub0 <> []).
Proof.
  intros E sub0 cs t P F R. split.
  - intros [x X] EM. unfold splay_run, new_splay, new_splay_b in R. rewrite EM in R. apply splay_stays_empty in R. subst t. discriminate X.
  - intros NE. destruct (C74_splay_partial E sub0 cs t NE P F R) as (x & X & _). eauto.
Qed.
Print Assumptions C74_exactly_partial.

(** The text engine, on what its map says (report URI to patterns). *)
Theorem C74_legacy : forall m m' : smap (list gostring),
  (forall u ps, In (u, ps) m \/ In (u, ps) m' -> ~ In " "%char u /\ low_ascii u /\ Forall low_ascii ps) ->
  legacy_dump m = legacy_dump m' -> m = m'.
Proof.
  intros m m' H E. apply legacy_dump_inj; auto; apply Forall_forall; intros [u ps] Hu; apply (H u ps); auto.
Qed.
Print Assumptions C74_legacy.

Definition dump_sub : subscriptions :=
  [(str "http://a", [str "urn:epc:pat:sgtin-96:3.12345678"]);
   (str "http://b", [str "urn:epc:pat:sgtin-96:3.12345678.00001"; str "urn:epc:pat:sscc-96:3.12345678"])].
Example C74_hypotheses : to_byte_subs E0 dump_sub <> [] /\ printable E0 dump_sub
  /\ (exists t, splay_run E0 dump_sub [SSearch [48;112;94;48;167;0;0;64;0;0;0;1]%N] = Ok t /\ t <> SNil).
Proof.
  split; [intros H; vm_compute in H; discriminate H|]. split.
  - split; [apply bitstrings_b; vm_compute; reflexivity|].
    apply Forall_forall. intros u Hu. cbn in Hu. unfold one_line. destruct Hu as [<-|[<-|[]]]; cbn; intros H;
      repeat (destruct H as [H|H]; [discriminate H|]); destruct H.
  - eexists. split; [vm_compute; reflexivity|discriminate].
Qed.
(** The example of the test suite (patricia_trie_test.go:22-66). *)
Example C74_text : patricia_dump
    (PNode (str "3") (new_filter (str "0011") 0) PNil
       (PNode [] (new_filter (str "00") 4)
          (PNode (str "3-3") (new_filter (str "11") 6) PNil (pleaf (str "0000") 8 (str "3-3-0")))
          (pleaf (str "00") 6 (str "3-0"))))
  = Ok (str "--0011(0 4) -> 3" ++ [newline] ++ str "  --00(4 2) " ++ [newline] ++ str "    --11(6 2) -> 3-3" ++ [newline]
        ++ str "      --0000(8 4) -> 3-3-0" ++ [newline] ++ str "    --00(6 2) -> 3-0" ++ [newline]).
Proof. vm_compute. reflexivity. Qed.
Example C74_legacy_text :
  legacy_dump [(str "u", [str "a"; str "b" ++ [dquote]])] = str "--u [" ++ [dquote] ++ str "a" ++ [dquote; " "%char; dquote] ++ str "b" ++ [backslash; dquote; dquote] ++ str "]" ++ [newline].
Proof. vm_compute. reflexivity. Qed.

(** ** C75 *)
(** Nested byte subscriptions: the same dump means the same subscriptions, with
    the same nesting. *)
Theorem C75_byte_subscriptions : forall b b', printable_bsubs b -> printable_bsubs b' -> bsub_dump b = bsub_dump b' -> b = b'.
Proof. exact bsub_dump_inj. Qed.
Print Assumptions C75_byte_subscriptions.

(** In particular of what ToByteSubscriptions returns. *)
Theorem C75_converted : forall E sub E' sub', printable E sub -> printable E' sub' ->
  bsub_dump (to_byte_subs E sub) = bsub_dump (to_byte_subs E' sub') -> to_byte_subs E sub = to_byte_subs E' sub'.
Proof.
  assert (forall E sub, printable E sub -> printable_bsubs (to_byte_subs E sub)) as X.
  { intros E sub P. apply printable_pairs in P. pose proof (to_byte_subs_flat E sub) as [_ F]. unfold pairs_ok, entries in P. unfold printable_bsubs.
    rewrite Forall_map in P. rewrite Forall_forall in *. intros [k q] Hq. pose proof (P _ Hq) as [B O]. specialize (F _ Hq). cbn [fst snd] in *.
    split; auto. unfold flat_entry in F. cbn [fst snd] in F. destruct q as [o u l]. cbn in *. constructor; auto. destruct F as (_ & ->). constructor. }
  intros. apply bsub_dump_inj; auto.
Qed.
Print Assumptions C75_converted.

Definition dump_nested : bsubs :=
  [(str "0011", PSub 0 (str "a") [(str "01", PSub 4 (str "b") []); (str "1", PSub 4 (str "c") [])])].
Example C75_hypotheses : printable_bsubs dump_nested
  /\ link_subset [(str "0011", PSub 0 (str "a") []); (str "001101", PSub 0 (str "b") []); (str "00111", PSub 0 (str "c") [])] = Ok dump_nested.
Proof.
  assert (forall s, forallb (fun c => Ascii.eqb c "0" || Ascii.eqb c "1")%char s = true -> is_bitstring s) as B.
  { intros s H. apply Forall_forall. intros c Hc. rewrite forallb_forall in H. apply H in Hc. apply orb_prop in Hc.
    destruct Hc as [Hc|Hc]; apply Ascii.eqb_eq in Hc; auto. }
  assert (forall s, existsb (Ascii.eqb newline) s = false -> one_line s) as O.
  { intros s H HI. assert (existsb (Ascii.eqb newline) s = true) as X; [|congruence]. apply existsb_exists. eexists. split; [exact HI|apply Ascii.eqb_refl]. }
  split; [|vm_compute; reflexivity].
  assert (forall k o u, forallb (fun c => Ascii.eqb c "0" || Ascii.eqb c "1")%char k = true -> existsb (Ascii.eqb newline) u = false ->
    is_bitstring (fst (k, PSub o u [])) /\ printable_psub (snd (k, PSub o u []))) as L.
  { intros k o u H1 H2. split; [apply B; auto|]. cbn. constructor; auto. }
  unfold dump_nested. apply Forall_cons; [|apply Forall_nil]. split; [apply B; reflexivity|]. cbn [snd]. constructor; [apply O; reflexivity|].
  apply Forall_cons; [apply L; reflexivity|]. apply Forall_cons; [apply L; reflexivity|apply Forall_nil].
Qed.
