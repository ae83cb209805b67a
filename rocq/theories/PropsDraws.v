(** What random draws have to do with subscriptions (C08, C27). *)
From Coq Require Import Lia.
From Verif Require Import GoBase BinUtil MFilter MTdtEpc MTdtIso MTdtCore MSubs MList MPatricia MSplay MDraws.
From Verif Require Import PBase Spec SpecSubs SpecRun SpecDraws PSubs PList TestVectors PropsEngine.

(** * Proofs *)
Lemma definite_prefix E E' pat : same_library E E' -> definite pat -> pattern_prefix E pat = pattern_prefix E' pat.
Proof.
  intros L D. unfold pattern_prefix. unfold definite, pattern_parts in D. change urn_pat with (str "urn:epc:pat:").
  destruct (split_on ccolon (trim_prefix pat (str "urn:epc:pat:"))) as [|t [|fs [|]]]; auto.
  specialize (D t (split_on cdot (to_upper fs)) eq_refl). generalize dependent (split_on cdot (to_upper fs)). intros fields D.
  assert (DB : forall s, dec_to_bin E s = dec_to_bin E' s). { intros s. unfold dec_to_bin. rewrite (L s). reflexivity. }
  assert (CP : forall cp pt, get_company_prefix E cp pt = get_company_prefix E' cp pt). { intros [|c cp] pt; cbn; auto. rewrite DB. reflexivity. }
  assert (GF : forall f, f <> [] -> get_filter E f = get_filter E' f). { intros [|c f]; [congruence|reflexivity]. }
  assert (GR : forall s r, s <> [] -> get_ref E s r = get_ref E' s r). { intros [|c s] r; [congruence|]. intros _. unfold get_ref. rewrite DB. reflexivity. }
  assert (GS : forall s n, s <> [] -> get_serial E s n = get_serial E' s n). { intros [|c s] n; [congruence|]. intros _. unfold get_serial. rewrite DB. reflexivity. }
  assert (F : epc_type t -> (forall f, nth_error fields 0 = Some f -> f <> []) /\ (forall f, nth_error fields 2 = Some f -> f <> []) /\ (forall f, nth_error fields 3 = Some f -> f <> [])).
  { intros T. split; [|split]; intros f N ->; [apply (D T 0)|apply (D T 2)|apply (D T 3)]; auto; discriminate. }
  f_equal. enough (make_prefix_filter_string E t fields = make_prefix_filter_string E' t fields) as -> by reflexivity.
  unfold make_prefix_filter_string. unfold epc_type in F.
  destruct (seqb_spec t (str "giai-96")) as [->|]; [|destruct (seqb_spec t (str "grai-96")) as [->|]; [|destruct (seqb_spec t (str "sgtin-96")) as [->|]; [|destruct (seqb_spec t (str "sscc-96")) as [->|]; [|reflexivity]]]].
  all: destruct F as (F0 & F2 & F3); [cbn; tauto|].
  all: destruct fields as [|f [|cp [|r [|s [|x l]]]]]; cbn [nth_error] in *; try reflexivity; cbn [new_prefix_filter_giai96 new_prefix_filter_grai96 new_prefix_filter_sgtin96 new_prefix_filter_sscc96]; try reflexivity.
  all: rewrite ?CP, ?(GF f (F0 f eq_refl)); try reflexivity.
  all: rewrite ?(GR r _ (F2 r eq_refl)); try reflexivity.
  all: rewrite (GS s _ (F3 s eq_refl)); reflexivity.
Qed.
Lemma convert_definite E D : drawn_from E D -> forall l n m, (forall u pat, In (u, pat) l -> definite pat) ->
  convert D n l m = fold_left (fun m e => add_pattern E (fst e) m (snd e)) l m.
Proof.
  intros DF. induction l as [|[u pat] l IH]; intros n m H; auto. cbn [convert fold_left fst snd].
  unfold add_pattern at 1. rewrite <- (definite_prefix E (D n) pat (DF n)) by (eapply H; left; reflexivity).
  apply (IH (S n)). intros u' p I. eapply H. right. exact I.
Qed.
Lemma to_byte_subs_list E sub : to_byte_subs E sub = fold_left (fun m e => add_pattern E (fst e) m (snd e)) (pattern_list sub) [].
Proof.
  unfold to_byte_subs, pattern_list. generalize (@nil (gostring * psub)). induction sub as [|[u pats] sub IH]; intros m; auto.
  cbn [flat_map fold_left fst snd]. rewrite fold_left_app, IH. f_equal. clear. revert m. induction pats as [|p pats IH]; intros m; auto. cbn. apply IH.
Qed.
Lemma convert_flat D l : forall n m, flat m -> flat (convert D n l m).
Proof.
  induction l as [|[u pat] l IH]; intros n m F; auto. cbn [convert]. apply IH. unfold add_pattern. destruct (pattern_prefix (D n) pat) as [s|]; auto.
  apply (fold_set_pair_flat [(s, u)] m F).
Qed.
Lemma drawn_flat D sub : flat (to_byte_subs_drawn D sub).
Proof. apply convert_flat, flat_nil. Qed.

(** * Properties *)
(** ** C27 *)
(** Definite patterns are converted alike whatever is drawn. *)
Theorem C27_definite : forall E D sub, drawn_from E D -> definite_subs sub -> to_byte_subs_drawn D sub = to_byte_subs E sub.
Proof.
  intros E D sub DF DS. unfold to_byte_subs_drawn. rewrite to_byte_subs_list. apply convert_definite; auto.
  intros u pat I. unfold pattern_list in I. apply in_flat_map in I. destruct I as ([u' pats] & I1 & I2). apply in_map_iff in I2. destruct I2 as (p & X & I2).
  injection X as <- <-. eapply DS; eauto.
Qed.
Print Assumptions C27_definite.
(** So what is proved of the engines for one source of random bits holds with fresh
    draws in every call. *)
Theorem C27_definite_histories : forall E D0 sub0 (ops : list (draws * update)) (cs : list (draws * scall)),
  drawn_from E D0 -> definite_subs sub0 -> Forall (fun x => drawn_from E (fst x) /\ definite_update (snd x)) ops ->
  Forall (fun x => drawn_from E (fst x) /\ definite_call (snd x)) cs ->
  list_run_drawn D0 sub0 ops = list_run E sub0 (map snd ops) /\
  patricia_run_drawn D0 sub0 ops = patricia_run E sub0 (map snd ops) /\
  splay_run_drawn D0 sub0 cs = splay_run E sub0 (map snd cs).
Proof.
  intros E D0 sub0 ops cs DF DS HO HC. split; [|split].
  - unfold list_run_drawn, list_run, new_list_drawn, new_list. rewrite (C27_definite E D0) by auto. generalize (map (fun kv : gostring * psub => {| em_filter := new_filter (fst kv) 0; em_uri := ps_uri (snd kv) |}) (to_byte_subs E sub0)).
    induction HO as [|[D op] ops [H1 H2] HO IH]; intros l; auto. cbn [map fold_left fst snd] in *.
    enough (list_update_drawn l (D, op) = list_update E l op) as -> by apply IH.
    destruct op as [sub|sub]; cbn [list_update_drawn list_update fst snd definite_update] in *; unfold list_add_drawn, list_add, list_del_drawn, list_del; rewrite (C27_definite E D) by auto; reflexivity.
  - unfold patricia_run_drawn, patricia_run, new_patricia_drawn, new_patricia. rewrite (C27_definite E D0) by auto. destruct (new_patricia_b (to_byte_subs E sub0)) as [t|]; auto. generalize (Ok t).
    induction HO as [|[D op] ops [H1 H2] HO IH]; intros l; auto. cbn [map fold_left fst snd] in *.
    enough (patricia_update_drawn l (D, op) = patricia_update E l op) as -> by apply IH.
    unfold patricia_update_drawn, patricia_update. destruct l as [u| |]; auto. cbn [bind snd fst].
    destruct op as [sub|sub]; cbn [definite_update] in *; unfold patricia_add_drawn, patricia_add, patricia_del_drawn, patricia_del; rewrite (C27_definite E D) by auto; reflexivity.
  - unfold splay_run_drawn, splay_run, new_splay_drawn, new_splay. rewrite (C27_definite E D0) by auto. generalize (new_splay_b (to_byte_subs E sub0)).
    induction HC as [|[D c] cs [H1 H2] HC IH]; intros l; auto. cbn [map fold_left fst snd] in *.
    enough (splay_call_drawn l (D, c) = splay_call E l c) as -> by apply IH.
    unfold splay_call_drawn, splay_call. destruct l as [u| |]; auto. cbn [bind snd fst].
    destruct c as [id|[sub|sub]]; cbn [definite_call definite_update] in *; auto; unfold splay_add_drawn, splay_add, splay_del_drawn, splay_del; rewrite (C27_definite E D) by auto; reflexivity.
Qed.
Print Assumptions C27_definite_histories.
(** A pattern with an empty field stands for other tags each time it is converted:
    deleting a subscription the way it was added need not remove it, and two engines
    made from the same subscriptions need not answer alike. *)
Definition E_ones : env := {| e_rand := fun n => repeat c1 n; e_rand_text := e_rand_text E0; e_dec_bad := e_dec_bad E0 |}.
Definition ex_open : subscriptions := [(str "http://a", [str "urn:epc:pat:sgtin-96:3.0614141."])].
Theorem C27_draws_refuted : exists sub D D', (forall n, same_library (D n) (D' n)) /\
  to_byte_subs_drawn D sub <> to_byte_subs_drawn D' sub /\
  list_run_drawn D sub [(D', Del sub)] = new_list_drawn D sub /\ new_list_drawn D sub <> [] /\
  exists id uri, wf_bytes id /\ list_search (new_list_drawn D sub) pcgs1 id = Ok (uri, [str "http://a"], false) /\
    list_search (new_list_drawn D' sub) pcgs1 id = Ok ([], [], true).
Proof.
  exists ex_open, (fun _ => E0), (fun _ => E_ones). split; [intros n s; reflexivity|]. split; [vm_compute; discriminate|]. split; [vm_compute; reflexivity|].
  split; [vm_compute; discriminate|]. exists [48; 116; 37; 123; 244; 0; 0; 0; 0; 0; 0; 5]%N. eexists. split; [|split; vm_compute; reflexivity].
  repeat (apply Forall_cons; [reflexivity|]). apply Forall_nil.
Qed.
Print Assumptions C27_draws_refuted.

(** ** C08 *)
(** The list is a set of (filter, URI) pairs also when every call draws anew, whatever
    the patterns: a call adds, or removes, exactly the pairs it converted. *)
Theorem C08_own_draws : forall D0 sub0 ops D sub, let l := list_run_drawn D0 sub0 ops in let new := entries (to_byte_subs_drawn D sub) in
  NoDup (list_pairs l) /\
  (forall p, In p (list_pairs (list_add_drawn D l sub)) <-> In p (list_pairs l) \/ In p new) /\
  (forall p, In p (list_pairs (list_del_drawn D l sub)) <-> In p (list_pairs l) /\ ~ In p new).
Proof.
  intros D0 sub0 ops D sub l new.
  assert (exists ps, NoDup ps /\ l = list_of ps) as (ps & HN & HL).
  { unfold l, list_run_drawn. clear l.
    assert (exists ps, NoDup ps /\ new_list_drawn D0 sub0 = list_of ps) as (ps & HN & ->).
    { exists (entries (to_byte_subs_drawn D0 sub0)). split; [apply entries_NoDup, drawn_flat|]. unfold new_list_drawn, list_of, entries. rewrite map_map. reflexivity. }
    clear D sub new. revert ps HN. induction ops as [|[D op] ops IH]; intros ps HN; [exists ps; auto|]. cbn [fold_left].
    destruct op as [sub|sub]; cbn [list_update_drawn fst snd].
    - unfold list_add_drawn. rewrite fold_list_add1 by apply drawn_flat. apply IH. apply pkeys_add_NoDup; auto. apply entries_NoDup, drawn_flat.
    - unfold list_del_drawn. rewrite fold_list_del1 by (auto; apply drawn_flat). apply IH. apply pkeys_del_NoDup; auto. }
  rewrite HL. unfold list_add_drawn, list_del_drawn. rewrite fold_list_add1, fold_list_del1, !list_pairs_of by (auto; apply drawn_flat). fold new.
  rewrite pkeys_add_eq, pkeys_del_eq by (apply entries_NoDup, drawn_flat). split; auto. split; intros p.
  - rewrite in_app_iff, filter_In, negb_true_iff. split; [tauto|]. intros [H|H]; auto. destruct (pair_mem p ps) eqn:EM; auto. apply pair_mem_In in EM. auto.
  - rewrite filter_In, negb_true_iff. split; intros [H H']; split; auto.
    + intros HI. apply pair_mem_In in HI. congruence.
    + destruct (pair_mem p _) eqn:EM; auto. apply pair_mem_In in EM. tauto.
Qed.
Print Assumptions C08_own_draws.

(** Subscriptions of all kinds, with an empty company prefix even, that need no draws;
    the draws of the history differ from call to call. *)
Definition ex_definite : subscriptions :=
  [(str "http://a", [str "urn:epc:pat:sgtin-96:3.0614141.812345"; str "urn:epc:pat:sgtin-96:3."]); (str "http://b", [str "urn:epc:pat:iso17365:25S..AB"; str "nonsense"])].
Definition definite_b (pat : gostring) : bool :=
  match pattern_parts pat with
  | Some (t, fields) => match fields with f :: _ :: l => negb (existsb (seqb []) (f :: l)) | l => negb (existsb (seqb []) l) end
                        || negb (existsb (seqb t) [str "giai-96"; str "grai-96"; str "sgtin-96"; str "sscc-96"])
  | None => true
  end.
Lemma definite_b_ok pat : definite_b pat = true -> definite pat.
Proof.
  unfold definite_b, definite. intros B t fields P T i I N. rewrite P in B. apply orb_true_iff in B. destruct B as [B|B].
  - assert (forall l, negb (existsb (seqb []) l) = true -> ~ In [] l) as X.
    { intros l H K. apply negb_true_iff in H. assert (existsb (seqb []) l = true) as Y by (apply existsb_exists; exists []; auto). congruence. }
    destruct fields as [|f [|cp l]]; [destruct i; discriminate| |].
    + apply (X _ B). destruct i as [|[|i]]; try discriminate. injection N as ->. left. auto.
    + apply (X _ B). destruct i as [|[|i]]; [|congruence|]; cbn in N; [injection N as ->; left; auto|right; eapply nth_error_In; eauto].
  - apply negb_true_iff in B. assert (existsb (seqb t) [str "giai-96"; str "grai-96"; str "sgtin-96"; str "sscc-96"] = true) as Y; [|congruence].
    apply existsb_exists. exists t. split; [exact T|apply seqb_refl].
Qed.
Example C27_definite_case : drawn_from E0 (fun n => if Nat.even n then E0 else E_ones) /\ definite_subs ex_definite /\
  Forall (fun x => drawn_from E0 (fst x) /\ definite_update (snd x)) [((fun _ => E_ones), Del ex_definite)] /\
  length (to_byte_subs E0 ex_definite) = 3 /\ ~ definite (str "urn:epc:pat:sgtin-96:3.0614141.").
Proof.
  assert (definite_subs ex_definite) as DS.
  { intros u pats pat [X|[X|[]]] I; injection X as <- <-; repeat (destruct I as [<-|I]; [apply definite_b_ok; vm_compute; reflexivity|]); destruct I. }
  split; [intros n s; destruct (Nat.even n); reflexivity|]. split; auto. split.
  - constructor; [|constructor]. split; [intros n s; reflexivity|exact DS].
  - split; [vm_compute; reflexivity|]. intros H. apply (H _ _ eq_refl) with (i := 2); [right; right; left; reflexivity|discriminate|vm_compute; reflexivity].
Qed.
