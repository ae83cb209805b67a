(** Properties C76-C80: grouping of bit strings and the small helpers. *)
From Verif Require Import GoBase BinUtil MFilter MEngine MSubs MGroup MPatricia MSplay MTdtIso MScheme MHelpers.
From Verif Require Import PBase Spec PSubs PLink SpecGroup PGroup PGroup2 SpecHelpers PHelpers PExamples.
From Verif Require Import PEngine.
From Coq Require Import Lia.

(** ** C76 *)
(** The first group in dictionary order is found, with its longest common prefix
    and its size; the empty answer means that there is no group. *)
Theorem C76_first_group : forall l, exists p n, find_partial_lcp l = Some (p, n) /\
  ((p = [] /\ n = 0 /\ forall q, is_bitstring q -> ~ group l q) \/
   (exists q, first_group l q /\ longest_common_prefix p (members q l) /\ n = List.length (members q l))).
Proof.
  intros l. destruct (find_partial_lcp_spec l) as ([p n] & E & F). exists p, n. split; [exact E|].
  destruct F as [[X F]|(q & F & E1 & E2)].
  - left. injection X as -> ->. auto.
  - right. exists q. cbn in *. subst. split; [auto|]. split; [|auto]. apply lcp_is_longest.
    destruct F as (_ & [G _] & _). destruct (members q l); [cbn in G; lia|discriminate].
Qed.
Print Assumptions C76_first_group.
(** Hence a prefix that is found is not empty and at least two strings share it,
    and they are all that do. *)
Theorem C76_shared : forall l p n, find_partial_lcp l = Some (p, n) -> n <> 0 ->
  p <> [] /\ 2 <= n /\ n = List.length (members p l).
Proof.
  intros l p n E Hn. destruct (find_partial_lcp_spec l) as (r & E' & F). rewrite E in E'. injection E' as <-.
  destruct F as [[X _]|(q & (Hq & [G (c & Gc)] & _) & E1 & E2)]; [congruence|]. cbn in *.
  assert (members q l <> []) as Ne by (destruct (members q l); [cbn in G; lia|discriminate]).
  assert (prefix_of (q ++ [c]) p) as Pc by (rewrite E1; apply lcp_greatest; auto).
  split; [intros ->; destruct Pc as [w X]; destruct q; discriminate|]. split; [lia|].
  subst n. f_equal. unfold members. apply filter_ext_in. intros s Hs.
  destruct (starts q s) eqn:A.
  - symmetry. apply starts_spec. rewrite E1. apply lcp_prefix. apply members_In. split; auto. apply starts_spec; auto.
  - destruct (starts p s) eqn:B; auto. exfalso. apply starts_spec in B.
    assert (starts q s = true) as Y; [|congruence]. apply starts_spec.
    eapply prefix_trans; [|exact B]. eapply prefix_trans; [|exact Pc]. exists [c]. reflexivity.
Qed.
Print Assumptions C76_shared.
(** The comment of the function promises the prefix that the majority shares:
    here two of three strings start with 0, and nothing is found; and in the second
    list the prefix of two is preferred to the prefix of three. *)
Theorem C76_majority_refuted :
  find_partial_lcp [str "00"; str "01"; str "1"] = Some ([], 0)
  /\ find_partial_lcp [str "000"; str "001"; str "111"; str "1110"; str "11100"] = Some (str "00", 2)
  /\ List.length (members (str "0") [str "00"; str "01"; str "1"]) = 2
  /\ List.length (members (str "111") [str "000"; str "001"; str "111"; str "1110"; str "11100"]) = 3.
Proof. repeat split; vm_compute; reflexivity. Qed.
Print Assumptions C76_majority_refuted.
Lemma members_one q s l : members q (s :: l) = (if starts q s then [s] else []) ++ members q l.
Proof. unfold members. cbn [filter]. destruct (starts q s); reflexivity. Qed.
Lemma starts_less c q s : starts (c :: q) s = true -> starts [c] s = true.
Proof. rewrite !starts_spec. intros [w ->]. exists (q ++ w). reflexivity. Qed.
Lemma members_fewer (c : ascii) q l : List.length (members (c :: q) l) <= List.length (members [c] l).
Proof.
  induction l as [|s l IH]; [auto|]. rewrite !members_one, !app_length. pose proof (starts_less c q s) as L.
  destruct (starts (c :: q) s); [rewrite L by auto; cbn [List.length]; lia|]. cbn [List.length]. lia.
Qed.
Lemma members_same (c : ascii) q l : List.length (members [c] l) <= List.length (members (c :: q) l) -> members [c] l = members (c :: q) l.
Proof.
  induction l as [|s l IH]; [auto|]. rewrite !members_one, !app_length. pose proof (starts_less c q s) as L. pose proof (members_fewer c q l) as F.
  destruct (starts (c :: q) s); [rewrite L by auto|destruct (starts [c] s)]; cbn [List.length]; intros H; [|lia|]; f_equal; apply IH; lia.
Qed.
(** On which lists the promise is kept: the answer is a prefix that most strings share
    (or the empty answer, where no two share one) if and only if no two strings share
    the first bit; or all strings share it; or those with the commoner first bit share
    the second too, and, in case this bit is 1, no group has the other. *)
Theorem C76_exactly_partial : forall l p n, find_partial_lcp l = Some (p, n) ->
  let m0 := List.length (members [c0] l) in let m1 := List.length (members [c1] l) in
  ((n = 0 /\ none_shared l) \/ most_shared l p n <->
   (m0 < 2 /\ m1 < 2) \/ group l [] \/ (group l [c0] /\ m1 <= m0) \/
   (group l [c1] /\ m0 <= m1 /\ forall q, is_bitstring q -> ~ group l (c0 :: q))).
Proof.
  intros l p n E m0 m1.
  assert (is_bitstring [c0] /\ is_bitstring [c1]) as [B0 B1] by (split; repeat constructor; auto).
  assert (forall k, m0 <= k -> m1 <= k -> forall q, is_bitstring q -> q <> [] -> List.length (members q l) <= k) as Most.
  { intros k K0 K1 q Bq Nq. destruct q as [|c q]; [congruence|]. apply is_bitstring_cons in Bq as [[-> | ->] _].
    - pose proof (members_fewer c0 q l). unfold m0 in K0. lia.
    - pose proof (members_fewer c1 q l). unfold m1 in K1. lia. }
  destruct (C76_first_group l) as (p' & n' & E' & F). rewrite E in E'. injection E' as <- <-.
  destruct F as [(-> & -> & NG)|(q & (Bq & G & Least) & _ & EN)].
  - split.
    + intros [[_ N]|(H & _)]; [|lia]. left. split; apply N; auto; discriminate.
    + intros [[H0 H1]|[H|[[H _]|[H _]]]]; [|exfalso; eapply NG; [|exact H]; auto; constructor..].
      left. split; auto. intros q Bq Nq. pose proof (Most 1 ltac:(lia) ltac:(lia) q Bq Nq). lia.
  - assert (2 <= n) as N2 by (subst n; apply G).
    destruct (C76_shared l p n E) as (S1 & _ & S3); [lia|].
    split.
    + intros [[H _]|(_ & _ & _ & M)]; [lia|].
      pose proof (M [c0] B0 ltac:(discriminate)) as M0. pose proof (M [c1] B1 ltac:(discriminate)) as M1. fold m0 m1 in M0, M1.
      destruct q as [|c q]; [auto|]. right. right.
      assert (c = c0 \/ c = c1) as C by (apply is_bitstring_cons in Bq; tauto).
      assert (q = []) as ->.
      { destruct q as [|d q]; auto. exfalso.
        assert (members [c] l = members (c :: d :: q) l) as X.
        { apply members_same. rewrite <- EN. destruct C as [-> | ->]; auto. }
        destruct (Least [c]) as [Y|Y].
        - destruct C as [-> | ->]; auto.
        - split; [rewrite X; apply G|]. exists d. rewrite X. intros s H. apply members_In in H as [_ [w ->]]. exists (q ++ w). reflexivity.
        - discriminate.
        - destruct Y as [Y|[_ Y]]; [lia|destruct Y]. }
      destruct C as [-> | ->]; [left|right]; (split; [exact G|]); [unfold m0; rewrite <- EN; auto|].
      split; [unfold m1; rewrite <- EN; auto|]. intros q Bq2 G2. destruct (Least (c0 :: q)) as [Y|Y]; auto.
      * apply is_bitstring_cons. auto.
      * discriminate.
      * destruct Y as [Y|[Y _]]; [cbn in Y; lia|discriminate].
    + intros H. right. split; auto. split; auto. split; auto.
      assert (group l [] -> m0 <= n /\ m1 <= n) as All.
      { intros G0. assert (q = []) as ->. { destruct (Least [] ltac:(constructor) G0) as [|Y]; auto. destruct q; destruct Y. }
        rewrite members_nil in EN. subst n. split; apply members_length. }
      assert (m0 <= n /\ m1 <= n) as [K0 K1]; [|apply Most; auto].
      destruct H as [[H0 H1]|[H|[[H L]|(H & L & NG)]]]; [lia|auto| |].
      * destruct (Least [c0] B0 H) as [<-|Y]; [unfold m0 in *; lia|].
        destruct q as [|c q]; [auto|]. exfalso. destruct Y as [Y|[_ Y]]; [|destruct q; destruct Y].
        apply is_bitstring_cons in Bq as [[-> | ->] _]; cbn in Y; lia.
      * destruct (Least [c1] B1 H) as [<-|Y]; [unfold m1 in *; lia|].
        destruct q as [|c q]; [auto|]. exfalso. destruct Y as [Y|[_ Y]]; [|destruct q; destruct Y].
        apply is_bitstring_cons in Bq as [[-> | ->] Bq]; [exact (NG q Bq G)|cbn in Y; lia].
Qed.
Print Assumptions C76_exactly_partial.
Example C76_exactly_case : let l := [str "0011"; str "0010"; str "1"; str "101"] in
  group l [c0] /\ find_partial_lcp l = Some (str "001", 2).
Proof.
  split; [|vm_compute; reflexivity].
  split; [cbn; lia|]. exists c0. intros s H. cbn in H. destruct H as [<-|[<-|[]]]; eexists; reflexivity.
Qed.
Example C76_case : let l := [str "0011"; str "00110"; str "1"; str "0101"] in
  first_group l (str "00") /\ find_partial_lcp l = Some (str "0011", 2).
Proof.
  intros l. split; [|vm_compute; reflexivity].
  destruct (C76_first_group l) as (p & n & E & F). 
  assert (find_partial_lcp l = Some (str "0011", 2)) as E2 by (vm_compute; reflexivity).
  rewrite E2 in E. injection E as <- <-. destruct F as [(_ & X & _)|(q & F & L & E)]; [discriminate|].
  assert (q = str "00") as ->; [|auto].
  destruct F as (B & [G (c & Gc)] & Least).
  assert (group l (str "00")) as G0.
  { split; [vm_compute; lia|]. exists "1"%char. intros s Hs. vm_compute in Hs. destruct Hs as [<-|[<-|[]]]; eexists; vm_compute; reflexivity. }
  destruct (Least (str "00")) as [X|X]; auto.
  { repeat constructor; auto. }
  exfalso. destruct q as [|a q]; [|destruct q as [|b q]].
  - destruct (Gc (str "1")) as [w W]; [vm_compute; tauto|]. destruct (Gc (str "0011")) as [w' W']; [vm_compute; tauto|]. cbn in W, W'. congruence.
  - cbn in X. destruct X as [X|[-> X]]; [|].
    + inversion B as [|? ? [->| ->] _]; subst; vm_compute in X; discriminate.
    + destruct (Gc (str "0011")) as [w W]; [vm_compute; tauto|]. destruct (Gc (str "0101")) as [w' W']; [vm_compute; tauto|]. cbn in W, W'. congruence.
  - cbn in X. inversion B as [|? ? Ba B']; subst. inversion B' as [|? ? Bb _]; subst.
    destruct Ba as [->| ->]; destruct Bb as [->| ->]; destruct X as [X|[X1 X]]; try discriminate; try (vm_compute in X; discriminate).
    + destruct X as [X|[_ X]]; [vm_compute in X; discriminate|]. destruct q; exact X.
    + destruct X as [X|[X _]]; [vm_compute in X; discriminate|discriminate].
Qed.

(** ** C77 *)
(** Grouping loses nothing and reports nothing new: it adds only nodes without a
    report URI, one for a start that several subscriptions share. *)
Theorem C77_grouping : forall b, flat b ->
  exists R, make_patricia_subset b = Ok R /\ wf_map R /\
    (forall k v, In (k, v) R -> ps_offset v = 0 /\ forest (List.length k) (ps_subset v) /\ ~ In [] (mkeys (ps_subset v))) /\
    (forall x, In x (entries b) -> In x (fflat [] R)) /\
    (forall k u, In (k, u) (fflat [] R) -> In (k, u) (entries b) \/
       (u = [] /\ ~ In k (mkeys b) /\ 2 <= List.length (members k (mkeys b)) /\ In k (mkeys R))) /\
    (forall k u u', In (k, u) (fflat [] R) -> In (k, u') (fflat [] R) -> u = u') /\
    (forall q, is_bitstring q -> ~ group (mkeys R) q).
Proof. exact make_patricia_subset_spec. Qed.
Print Assumptions C77_grouping.
Theorem C77_grouping_subs : forall E sub, let b := to_byte_subs E sub in
  exists R, make_patricia_subset b = Ok R /\
    (forall k u, u <> [] -> (In (k, u) (fflat [] R) <-> In (k, u) (entries b))).
Proof.
  intros E sub b. destruct (make_patricia_subset_spec b (to_byte_subs_flat E sub)) as (R & ER & _ & _ & H1 & H2 & _).
  exists R. split; auto. intros k u Hu. split; auto. intros H. destruct (H2 k u H) as [|[]]; [auto|congruence].
Qed.
Print Assumptions C77_grouping_subs.
(** What is promised of it, that subsets come to lie under their parents, holds
    only within a group: 01 stays beside 0, and the two branches under 0 are not
    brought together. *)
Theorem C77_nesting_refuted : exists b R, flat b /\ make_patricia_subset b = Ok R /\
  exists k k', In k (mkeys R) /\ In k' (mkeys R) /\ strictly_extends k' k.
Proof.
  exists [(str "0", PSub 0 (str "a") []); (str "01", PSub 0 (str "b") []); (str "1", PSub 0 (str "c") [])].
  eexists. split; [|split; [vm_compute; reflexivity|]].
  - split; repeat constructor.
  - exists (str "0"), (str "01"). split; [vm_compute; tauto|]. split; [vm_compute; tauto|].
    split; [exists (str "1"); reflexivity|discriminate].
Qed.
Print Assumptions C77_nesting_refuted.
(** When the promise is kept: no subscription is left beside one whose prefix it
    extends if and only if each prefix that another one extends lies behind a group,
    that is a strictly shorter start from which all its subscriptions (two or more) go
    on with the same bit. *)
Theorem C77_exactly_partial : forall b, flat b -> exists R, make_patricia_subset b = Ok R /\
  ((forall k k', In k (mkeys R) -> In k' (mkeys R) -> ~ strictly_extends k' k) <->
   (forall k k', In k (mkeys b) -> In k' (mkeys b) -> strictly_extends k' k ->
      exists q, is_bitstring q /\ group (mkeys b) q /\ strictly_extends k q)).
Proof. exact nested_at_top. Qed.
Print Assumptions C77_exactly_partial.
Example C77_exactly_case : let b := [(str "10", PSub 0 (str "a") []); (str "101", PSub 0 (str "b") []); (str "1011", PSub 0 (str "c") [])] in
  flat b /\ In (str "10") (mkeys b) /\ In (str "1011") (mkeys b) /\ strictly_extends (str "1011") (str "10") /\ group (mkeys b) [] /\
  exists R, make_patricia_subset b = Ok R /\ mkeys R = [str "10"].
Proof.
  split; [split; repeat constructor|]. split; [cbn; tauto|]. split; [cbn; tauto|].
  split; [split; [exists (str "11"); reflexivity|discriminate]|].
  split; [split; [cbn; lia|]|].
  - exists c1. intros s H. cbn in H. destruct H as [<-|[<-|[<-|[]]]]; eexists; reflexivity.
  - eexists. split; vm_compute; reflexivity.
Qed.
(** On subscriptions that are nested already, a subscription can get lost. *)
Theorem C77_nested_refuted :
  let b := [(str "0", PSub 0 (str "a") [(str "1", PSub 1 (str "b") [])]); (str "00", PSub 0 (str "c") [])] in
  forest 0 [(str "0", PSub 0 (str "a") [(str "1", PSub 1 (str "b") [])])] /\
  In (str "01", str "b") (fflat [] b) /\
  exists R, make_patricia_subset b = Ok R /\ forall u, ~ In (str "01", u) (fflat [] R).
Proof.
  intros b. split; [|split].
  - assert (forest 1 [(str "1", PSub 1 (str "b") [])]) as F1.
    { constructor; [repeat constructor| | | |].
      - cbn. intros k k' [<-|[]] [<-|[]] [_ X]. congruence.
      - cbn. intros k p [X|[]]. injection X as <- <-. reflexivity.
      - cbn. intros k p k2 [X|[]]. injection X as <- <-. intros [].
      - cbn. intros k p [X|[]]. injection X as <- <-. apply forest_nil. }
    constructor; [repeat constructor| | | |].
    + cbn. intros k k' [<-|[]] [<-|[]] [_ X]. congruence.
    + cbn. intros k p [X|[]]. injection X as <- <-. reflexivity.
    + cbn. intros k p k2 [X|[]]. injection X as <- <-. intros [<-|[]]. discriminate.
    + cbn. intros k p [X|[]]. injection X as <- <-. exact F1.
  - vm_compute. tauto.
  - eexists. split; [vm_compute; reflexivity|]. intros u Hu. vm_compute in Hu. repeat (destruct Hu as [Hu|Hu]; [discriminate|]). exact Hu.
Qed.
Print Assumptions C77_nested_refuted.
Example C77_case :
  let b := [(str "001", PSub 0 (str "a") []); (str "00110", PSub 0 (str "b") []); (str "001101", PSub 0 (str "c") []);
            (str "0100", PSub 0 (str "d") []); (str "0101", PSub 0 (str "e") []); (str "1", PSub 0 (str "f") [])] in
  flat b /\ make_patricia_subset b =
    Ok [(str "001", PSub 0 (str "a") [(str "10", PSub 3 (str "b") [(str "1", PSub 5 (str "c") [])])]);
        (str "010", PSub 0 [] [(str "0", PSub 3 (str "d") []); (str "1", PSub 3 (str "e") [])]);
        (str "1", PSub 0 (str "f") [])].
Proof.
  intros b. split; [|vm_compute; reflexivity]. split; repeat constructor.
Qed.

(** ** C78 *)
(** The comparison answers true exactly when the wanted trie is contained in the
    one at hand, and otherwise points to two nodes at the same place that differ. *)
Theorem C78_patricia_partial : forall got want, got <> PNil -> want <> PNil ->
  exists ok g w, pequal got want = Ok (ok, g, w) /\ (ok = true <-> trie_within want got) /\
    (ok = false -> trie_at got want g w /\ trie_root_differs g w).
Proof.
  intros got want Hg Hw. destruct (pequal_spec want got Hw Hg) as (ok & g & w & E & T & F). exists ok, g, w. split; auto.
  destruct ok; split; try (intros; discriminate); try (split; auto; tauto); intuition discriminate.
Qed.
Print Assumptions C78_patricia_partial.
Theorem C78_splay_partial : forall got want, got <> SNil -> want <> SNil ->
  exists ok g w, sequal got want = Ok (ok, g, w) /\ (ok = true <-> tree_within want got) /\
    (ok = false -> tree_at got want g w /\ tree_root_differs g w).
Proof.
  intros got want Hg Hw. destruct (sequal_spec want got Hw Hg) as (ok & g & w & E & T & F). exists ok, g, w. split; auto.
  destruct ok; split; try (intros; discriminate); try (split; auto; tauto); intuition discriminate.
Qed.
Print Assumptions C78_splay_partial.
(** True both ways round means equal. *)
Theorem C78_both_ways : 
  (forall a b, pequal a b = Ok (true, PNil, PNil) -> pequal b a = Ok (true, PNil, PNil) -> a = b) /\
  (forall a b, sequal a b = Ok (true, SNil, SNil) -> sequal b a = Ok (true, SNil, SNil) -> a = b).
Proof.
  split; intros a b H1 H2.
  - destruct a as [|ua fa oa za]; [destruct b; discriminate|]. destruct b as [|ub fb ob zb]; [discriminate|].
    destruct (pequal_spec (PNode ub fb ob zb) (PNode ua fa oa za)) as (ok & g & w & E & T & _); try discriminate.
    destruct (pequal_spec (PNode ua fa oa za) (PNode ub fb ob zb)) as (ok' & g' & w' & E' & T' & _); try discriminate.
    rewrite H1 in E. rewrite H2 in E'. injection E as <- <- <-. injection E' as <- <- <-.
    apply trie_within_antisym; [apply T'|apply T]; auto.
  - destruct a as [|ua fa oa za]; [destruct b; discriminate|]. destruct b as [|ub fb ob zb]; [discriminate|].
    destruct (sequal_spec (SNode ub fb ob zb) (SNode ua fa oa za)) as (ok & g & w & E & T & _); try discriminate.
    destruct (sequal_spec (SNode ua fa oa za) (SNode ub fb ob zb)) as (ok' & g' & w' & E' & T' & _); try discriminate.
    rewrite H1 in E. rewrite H2 in E'. injection E as <- <- <-. injection E' as <- <- <-.
    apply tree_within_antisym; [apply T'|apply T]; auto.
Qed.
Print Assumptions C78_both_ways.
Definition eq_fo : filter_object := new_filter (str "0011") 0.
Theorem C78_equal_refuted :
  (exists a b, a <> b /\ pequal a b = Ok (true, PNil, PNil)) /\
  (exists a b, a <> b /\ sequal a b = Ok (true, SNil, SNil)).
Proof.
  split.
  - exists (PNode [] eq_fo (PNode (str "u") eq_fo PNil PNil) PNil), (PNode [] eq_fo PNil PNil). split; [discriminate|vm_compute; reflexivity].
  - exists (SNode [] None (SNode (str "u") None SNil SNil) SNil), (SNode [] None SNil SNil). split; [discriminate|vm_compute; reflexivity].
Qed.
Print Assumptions C78_equal_refuted.
Example C78_case : pequal (PNode [] eq_fo PNil (PNode (str "u") eq_fo PNil PNil)) (PNode [] eq_fo PNil (PNode (str "v") eq_fo PNil PNil))
  = Ok (false, PNode (str "u") eq_fo PNil PNil, PNode (str "v") eq_fo PNil PNil).
Proof. vm_compute. reflexivity. Qed.

(** ** C79 *)
Theorem C79_six_bit_text : forall s, sixenc2bin s = flat_map six_bits s /\ List.length (sixenc2bin s) = 6 * List.length s.
Proof.
  intros s. split; [apply sixenc2bin_bits|]. induction s as [|c s IH]; [reflexivity|].
  cbn [sixenc2bin]. rewrite app_length, IH. cbn [List.length]. cbn. lia.
Qed.
Print Assumptions C79_six_bit_text.
Theorem C79_six_bit_readable : forall s t, Forall six_bit_char s -> Forall six_bit_char t -> sixenc2bin s = sixenc2bin t -> s = t.
Proof. exact sixenc2bin_inj. Qed.
Print Assumptions C79_six_bit_readable.
Theorem C79_lower_case_refuted : sixenc2bin (str "a") = sixenc2bin (str "!").
Proof. vm_compute. reflexivity. Qed.
Print Assumptions C79_lower_case_refuted.
Theorem C79_padding : forall bs, exists w, s_pad_6bit bs = (bs ++ w, List.length (bs ++ w)) /\ List.length w < 16 /\
  List.length (bs ++ w) mod 16 = 0 /\ is_prefix w (str "100000100000100000") /\ pad_6bit bs = s_pad_6bit bs.
Proof.
  intros bs. destruct (s_pad_6bit_spec bs) as (w & H1 & H2 & H3 & H4). exists w. auto 6.
Qed.
Print Assumptions C79_padding.
Theorem C79_in_slice : forall a l, string_in_slice a l = true <-> In a l.
Proof. exact string_in_slice_In. Qed.
Print Assumptions C79_in_slice.
(** ** C80 *)
(** The tool answers for every argument, and crashes without one although it
    means to print a message. *)
Theorem C80_tool_partial : forall name a rest, sixenc2bin_main (name :: a :: rest) = Ok (flat_map six_bits a).
Proof. intros. cbn. rewrite sixenc2bin_bits. reflexivity. Qed.
Print Assumptions C80_tool_partial.
Example C80_case : sixenc2bin_main [str "sixenc2bin"; str "A1"] = Ok (str "000001110001").
Proof. vm_compute. reflexivity. Qed.
Theorem C80_no_argument_refuted : forall name, sixenc2bin_main [name] = Panic.
Proof. reflexivity. Qed.
Print Assumptions C80_no_argument_refuted.
Example C79_case : Forall six_bit_char (str "25SUN43325711MH8031200000000001")
  /\ sixenc2bin (str "DCM") = str "000100000011001101".
Proof. split; [repeat constructor; vm_compute; discriminate|vm_compute; reflexivity]. Qed.
