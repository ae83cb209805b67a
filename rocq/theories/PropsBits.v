(** C93: the prefix a subscription stands for is a string of bits. *)
From Coq Require Import Lia ZifyBool ZifyNat ZifyN.
From Verif Require Import GoBase BinUtil MFilter MTdtEpc MTdtIso MTdtCore MSubs MList.
From Verif Require Import PBase Spec PNum PFilter PSubs PList PSubs2 PEpc3 SpecEpc SpecIso PIso2 SpecBits PBits TestVectors PropsEngine.

(** Whatever the pattern (accepted, rejected, of any type), if no field has a minus
    sign in front. *)
Theorem C93_bits_partial : forall E pat s, binary_env E -> unsigned pat -> pattern_prefix E pat = Some s -> is_bitstring s.
Proof. intros E pat s B U P. eapply bits_pattern; eauto. Qed.
Print Assumptions C93_bits_partial.
(** So for every map of such subscriptions the theorems about the engines apply,
    whatever else the patterns are; for the list engine and every history of
    changes: *)
Theorem C93_subscriptions_partial : forall E sub, binary_env E -> unsigned_subs sub -> Forall is_bitstring (mkeys (to_byte_subs E sub)).
Proof. intros E sub B U. apply bits_subs; auto. Qed.
Print Assumptions C93_subscriptions_partial.
Definition subs_of (op : update) : subscriptions := match op with Add s => s | Del s => s end.
Theorem C93_list_search_partial : forall E sub0 ops pc id, binary_env E -> unsigned_subs sub0 -> Forall (fun op => unsigned_subs (subs_of op)) ops ->
  let l := list_run E sub0 ops in wf_bytes id -> decides id (map fst (list_pairs l)) ->
  exists uris, reported id (list_pairs l) uris /\ answers (translate pc id) uris (list_search l pc id).
Proof.
  intros E sub0 ops pc id B U0 UO l W D. apply C07_list_search; auto. subst l. clear D.
  induction ops as [|op ops IH] using rev_ind.
  - cbn [list_run fold_left]. unfold list_run. cbn [fold_left]. rewrite C07_list_fresh, entries_keys. apply bits_subs; auto.
  - apply Forall_app in UO. destruct UO as [UO UL]. inversion UL as [|? ? UP _]; subst. specialize (IH UO).
    assert (list_run E sub0 (ops ++ [op]) = list_update E (list_run E sub0 ops) op) as -> by (unfold list_run; rewrite fold_left_app; reflexivity).
    pose proof (bits_subs E B (subs_of op) UP) as HB. rewrite <- entries_keys in HB. rewrite Forall_forall in HB, IH |- *.
    intros k HK. apply in_map_iff in HK. destruct HK as ([k' u] & <- & HK). cbn [fst].
    destruct op as [sub|sub]; cbn [list_update subs_of] in *; destruct (C08_list_set E sub0 ops sub) as (_ & _ & _ & HA & HD).
    + apply HA in HK. destruct HK as [HK|HK]; [apply IH|apply HB]; apply (in_map fst) in HK; exact HK.
    + apply HD in HK. destruct HK as [HK _]. apply IH. apply (in_map fst) in HK; exact HK.
Qed.
Print Assumptions C93_list_search_partial.

(** A negative filter value gives a text that is no string of bits, and the filter
    made from it lets every identifier pass: the subscriber is told of every tag. *)
Definition epc_types : list gostring := [str "giai-96"; str "grai-96"; str "sgtin-96"; str "sscc-96"].
Theorem C93_negative_refuted : forall E u t ds more pc id, In t epc_types -> ds <> [] -> all_digits ds = true -> (0 < dec_value ds)%N ->
  Forall clean more -> length more <= 2 ->
  let pat := str "urn:epc:pat:" ++ t ++ str ":" ++ dotted (("-"%char :: ds) :: more) in
  (exists s, pattern_prefix E pat = Some s /\ ~ is_bitstring s) /\
  answers (translate pc id) [u] (list_search (new_list E [(u, [pat])]) pc id).
Proof.
  intros E u t ds more pc id HT NE D V C L pat.
  destruct (negative_prefix E t ("-"%char :: ds) more HT (negative_field ds NE D V) (or_introl L)) as (s & M & HI).
  assert (pattern_prefix E pat = Some s) as P.
  { unfold pat. rewrite urn_parts.
    - exact (f_equal (fun r => Some (match r with Ok s => s | _ => [] end)) M).
    - destruct HT as [<-|[<-|[<-|[<-|[]]]]]; intros X; repeat (destruct X as [X|X]; [discriminate|]); destruct X.
    - discriminate.
    - constructor; auto. assert (forall c, In c ds -> upper_char c = c /\ c <> "."%char /\ c <> ":"%char) as HD.
      { intros c Hc. unfold all_digits in D. rewrite forallb_forall in D. apply D in Hc. clear -Hc.
        destruct c as [[] [] [] [] [] [] [] []]; vm_compute in Hc; try discriminate; vm_compute; intuition discriminate. }
      split; [|split].
      + unfold to_upper. cbn [map]. f_equal. rewrite <- (map_id ds) at 2. apply map_ext_in. intros c Hc. apply HD; auto.
      + intros [X|X]; [discriminate|]. apply HD in X. tauto.
      + intros [X|X]; [discriminate|]. apply HD in X. tauto. }
  split.
  - exists s. split; auto. intros X. unfold is_bitstring in X. rewrite Forall_forall in X. apply X in HI. destruct HI; discriminate.
  - unfold list_search, new_list. unfold to_byte_subs. cbn [fold_left fst snd]. unfold add_pattern. rewrite P. cbn [mset map fst snd list_matches em_filter em_uri ps_uri].
    rewrite (bad_filter s 0 id "-"%char) by (auto; discriminate). cbn [bind]. right. split; [discriminate|].
    unfold finish_search. destruct (translate pc id); reflexivity.
Qed.
Print Assumptions C93_negative_refuted.

(** The boundary is exact, whatever the filter value (the other fields without a minus
    sign): bits, unless the filter value of an EPC pattern reads as negative. *)
Theorem C93_exactly_partial : forall E pat s, binary_env E -> Forall (fun f => hd_error f <> Some "-"%char) (tl (fields_of pat)) -> pattern_prefix E pat = Some s ->
  (is_bitstring s <-> ~ negative_epc pat).
Proof.
  intros E pat s B. unfold negative_epc, type_of, fields_of, pattern_prefix. change urn_pat with (str "urn:epc:pat:"). change ccolon with ":"%char.
  destruct (split_on ":" (trim_prefix pat (str "urn:epc:pat:"))) as [|t [|fs [|]]]; try discriminate.
  rewrite split_dot_upper. change "."%char with cdot. intros F H. injection H as <-.
  destruct (split_on cdot fs) as [|f fields]; cbn [map tl] in *.
  { split; [intros _ (f & more & X & _); discriminate|]. intros _. destruct (make_prefix_filter_string E t []) as [s| |] eqn:M; try constructor. eapply bits_make; eauto. }
  destruct (make_prefix_filter_string E t (to_upper f :: map to_upper fields)) as [s| |] eqn:M.
  - destruct (in_dec (list_eq_dec ascii_dec) t [str "giai-96"; str "grai-96"; str "sgtin-96"; str "sscc-96"]) as [T|T].
    + pose proof (make_too_many E t _ _ s T M) as K. rewrite map_length in K. split.
      * intros BS (f' & more & X & N & _). injection X as <- <-. apply negative_upper in N. apply negative_parse in N.
        destruct (negative_prefix E t (to_upper f) (map to_upper fields) T N) as (s' & M' & I); [rewrite map_length; tauto|].
        rewrite M in M'. injection M' as <-. unfold is_bitstring in BS. rewrite Forall_forall in BS. apply BS in I. destruct I; discriminate.
      * intros NE. eapply bits_make0; [exact B| |apply Forall_map; eapply Forall_impl; [|exact F]; intros g Hg X; apply Hg, hd_upper, X|exact M].
        destruct (Z.le_gt_cases 0 (parse_int32 (to_upper f))) as [P|P]; auto. exfalso. apply NE. exists f, fields. split; auto. split; [|exact K].
        apply negative_upper, negative_parse. lia.
    + split; [|intros _; eapply bits_make1; eauto]. intros _ (f' & more & _ & _ & [[I _]|[I _]]); apply T; cbn [In] in *; tauto.
  - split; [|constructor]. intros _ (f' & more & X & N & K). injection X as <- <-. apply negative_upper in N. apply negative_parse in N.
    destruct (negative_prefix E t (to_upper f) (map to_upper fields)) as (s' & M' & _); auto; [cbn [In] in *; tauto|rewrite map_length; tauto|congruence].
  - split; [|constructor]. intros _ (f' & more & X & N & K). injection X as <- <-. apply negative_upper in N. apply negative_parse in N.
    destruct (negative_prefix E t (to_upper f) (map to_upper fields)) as (s' & M' & _); auto; [cbn [In] in *; tauto|rewrite map_length; tauto|congruence].
Qed.
Print Assumptions C93_exactly_partial.

Definition ex_neg : gostring := str "urn:epc:pat:sgtin-96:-1.0614141".
Definition ex_pos : subscriptions := [(str "http://a", [str "urn:epc:pat:sgtin-96:3.0614141"; str "nonsense"]); (str "http://b", [str "urn:epc:pat:grai-96:3..12"])].
Example C93_case : binary_env E0 /\ unsigned_subs ex_pos /\ ~ unsigned ex_neg /\
  In (str "sgtin-96") epc_types /\ (0 < dec_value (str "1"))%N /\ Forall clean [str "0614141"] /\
  ex_neg = str "urn:epc:pat:" ++ str "sgtin-96" ++ str ":" ++ dotted [str "-1"; str "0614141"] /\
  length (mkeys (to_byte_subs E0 ex_pos)) = 2.
Proof.
  split; [|split; [|split; [|split; [|split; [|split; [|split]]]]]].
  - split; [intros n; apply bits_repeat|intros s _; constructor].
  - intros u pats pat I1 I2. destruct I1 as [X|[X|[]]]; injection X as <- <-; repeat (destruct I2 as [<-|I2]; [vm_compute; repeat constructor; discriminate|]); destruct I2.
  - intros X. apply Forall_inv in X. apply X. reflexivity.
  - right. right. left. reflexivity.
  - vm_compute. reflexivity.
  - constructor; [|constructor]. split; [reflexivity|]. split; intros X; repeat (destruct X as [X|X]; [discriminate|]); destruct X.
  - reflexivity.
  - vm_compute. reflexivity.
Qed.
(** Both sides occur: a negative value of many digits with letters after it, and a
    minus sign that makes nothing negative. *)
Example C93_exactly_case : negative_epc (str "urn:epc:pat:sgtin-96:-99999999999x.0614141.1.2") /\ ~ negative_epc (str "urn:epc:pat:sgtin-96:-000.0614141").
Proof.
  split.
  - exists (str "-99999999999x"), [str "0614141"; str "1"; str "2"]. split; [vm_compute; reflexivity|]. split.
    + exists (str "99999999999"), (str "x"). split; [reflexivity|]. split; [reflexivity|]. split; [vm_compute; reflexivity|right; vm_compute; discriminate].
    + right. split; [right; left; vm_compute; reflexivity|cbn; lia].
  - intros (f & more & X & N & _). assert (f = str "-000") as -> by (vm_compute in X; injection X as <- _; reflexivity). apply negative_parse in N. vm_compute in N. discriminate.
Qed.
