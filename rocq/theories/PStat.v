(** Proofs about the stat manager. *)
From Verif Require Import GoBase MFactory MStat PBase SpecStat.
From Coq Require Import Lia ZArith.

Lemma point_skipped t m : skipped m -> stat_point t m = Ok None.
Proof.
  destruct m as [ty vs n]. unfold skipped, stat_point. cbn [sm_type sm_values sm_name]. intros (-> & [(v & r & -> & H)|(z & v & r & -> & H)]).
  - destruct v; auto. destruct (H z); auto.
  - destruct v; auto. destruct (H z0); auto.
Qed.
Lemma point_records t m p : stat_point t m = Ok (Some p) <-> records (t, m) p.
Proof.
  split.
  - destruct m as [ty vs n]. unfold stat_point. cbn [sm_type sm_values sm_name]. destruct ty.
    + destruct vs as [|[i| |] [|[k| |] vs]]; try discriminate. destruct (Z.eqb_spec i 0) as [->|NZ]; [cbn; intros H; injection H as <-; constructor|].
      unfold new_point. cbn [app existsb snd]. change (bad_value (SInt i)) with false. change (bad_value (SInt k)) with false. cbn [orb]. rewrite orb_false_r.
      destruct (bad_value (SFloat (percent k i))) eqn:B; [discriminate|]. intros H. injection H as <-. constructor; auto.
    + destruct vs as [|v vs]; [discriminate|]. unfold new_point. cbn [existsb snd]. rewrite orb_false_r. destruct (bad_value v) eqn:B; [discriminate|].
      intros H. injection H as <-. constructor; auto.
    + cbn. intros H. injection H as <-. constructor.
    + discriminate.
  - intros H. inversion H; subst; unfold stat_point; cbn [sm_type sm_values sm_name].
    + destruct (Z.eqb_spec i 0); [contradiction|]. unfold new_point. cbn [app existsb snd]. change (bad_value (SInt i)) with false. change (bad_value (SInt k)) with false.
      cbn [orb]. rewrite orb_false_r. match goal with B : bad_value _ = false |- _ => rewrite B end. reflexivity.
    + reflexivity.
    + unfold new_point. cbn [existsb snd]. rewrite orb_false_r. match goal with B : bad_value _ = false |- _ => rewrite B end. reflexivity.
    + reflexivity.
Qed.

Lemma growing_from {A} (bp ps : list A) : map (fun k => firstn (length bp + k) (bp ++ ps)) (seq 1 (length ps)) = map (fun l => bp ++ l) (growing ps).
Proof.
  unfold growing. rewrite map_map. apply map_ext. intros k. rewrite firstn_app_2. auto.
Qed.
Lemma growing_cons {A} (p : A) ps : growing (p :: ps) = [p] :: map (cons p) (growing ps).
Proof.
  unfold growing. cbn [length seq map firstn]. f_equal. rewrite <- seq_shift, !map_map. apply map_ext. intros k. reflexivity.
Qed.
Lemma run_sent ms : forall bp ps, stat_points ms ps -> stat_run bp (map (fun tm => (fst tm, snd tm, true)) ms) = Ok (map (fun l => bp ++ l) (growing ps)).
Proof.
  intros bp ps S. revert bp. induction S as [|t m ms ps K S IH|t m p ms ps R S IH]; intros bp; cbn [map stat_run fst snd]; auto.
  - unfold stat_step. rewrite (point_skipped t m K). cbn [bind]. rewrite IH. reflexivity.
  - unfold stat_step. apply point_records in R. rewrite R. cbn [bind]. rewrite IH. cbn [bind]. rewrite growing_cons. cbn [map app].
    f_equal. f_equal. rewrite map_map. apply map_ext. intros l. rewrite <- app_assoc. auto.
Qed.

Lemma growing_app {A} (ps qs : list A) : growing (ps ++ qs) = growing ps ++ map (app ps) (growing qs).
Proof.
  induction ps as [|p ps IH]; cbn [app].
  - unfold growing. cbn. rewrite map_id. auto.
  - rewrite !growing_cons, IH. cbn [app]. f_equal. rewrite map_app, !map_map. auto.
Qed.
Lemma times_growing p a b : ~ In p a -> ~ In p b -> times p (growing (a ++ p :: b)) = S (length b).
Proof.
  intros NA NB. unfold times. rewrite growing_app, growing_cons. cbn [map].
  assert (forall l : list (list point), (forall x, In x l -> ~ In p x) -> count_occ point_dec (concat l) p = 0) as Z.
  { induction l as [|x l IH]; intros H; cbn; auto. rewrite count_occ_app, IH by (intros; apply H; right; auto).
    rewrite (proj1 (count_occ_not_In point_dec x p)); auto. apply H. left; auto. }
  rewrite concat_app, count_occ_app, Z.
  2:{ intros x I. unfold growing in I. apply in_map_iff in I. destruct I as (k & <- & _). intros I. apply NA. rewrite <- (firstn_skipn k a). apply in_or_app. left; auto. }
  cbn [concat]. rewrite count_occ_app. rewrite count_occ_app, (proj1 (count_occ_not_In point_dec a p) NA). cbn [count_occ]. destruct (point_dec p p); [|congruence].
  rewrite map_map. cbn [plus]. f_equal. clear Z.
  assert (forall l : list (list point), (forall x, In x l -> ~ In p x) -> count_occ point_dec (concat (map (fun x => a ++ p :: x) l)) p = length l) as C.
  { induction l as [|x l IH]; intros H; cbn [map concat length]; auto. rewrite count_occ_app, IH by (intros; apply H; right; auto).
    rewrite count_occ_app, (proj1 (count_occ_not_In point_dec a p) NA). cbn [count_occ]. destruct (point_dec p p); [|congruence].
    rewrite (proj1 (count_occ_not_In point_dec x p)); auto. apply H. left; auto. }
  rewrite C; [unfold growing; rewrite map_length, seq_length; auto|].
  intros x I. unfold growing in I. apply in_map_iff in I. destruct I as (k & <- & _). intros I. apply NB. rewrite <- (firstn_skipn k b). apply in_or_app. left; auto.
Qed.

(** What a list of points says about a field. *)
Fixpoint last_write (ps : list point) k f : option sval :=
  match ps with
  | [] => None
  | p :: ps' => match last_write ps' k f with
                | Some v => Some v
                | None => if key_dec k (series p) then field_value (pt_fields p) f else None
                end
  end.
Lemma write_all_last ps : forall d k f, write_all d ps k f = match last_write ps k f with Some v => Some v | None => d k f end.
Proof.
  induction ps as [|p ps IH]; intros d k f; cbn [last_write]; auto. unfold write_all in *. cbn [fold_left]. rewrite IH.
  destruct (last_write ps k f); auto. unfold write_point. destruct (key_dec k (series p)); auto.
Qed.
Lemma last_write_app a b k f : last_write (a ++ b) k f = match last_write b k f with Some v => Some v | None => last_write a k f end.
Proof. induction a as [|p a IH]; cbn [app last_write]; [destruct (last_write b k f); auto|]. rewrite IH. destruct (last_write b k f); auto. Qed.
Lemma last_growing ps k f : last_write (concat (growing ps)) k f = last_write ps k f.
Proof.
  induction ps as [|p ps IH] using rev_ind; auto. rewrite growing_app, concat_app, last_write_app. cbn. rewrite app_nil_r.
  rewrite last_write_app, IH. cbn [last_write]. destruct (key_dec k (series p)); destruct (field_value (pt_fields p) f); auto;
    destruct (last_write ps k f); auto.
Qed.
Lemma last_write_own ps p : NoDup (map series ps) -> In p ps -> forall f, last_write ps (series p) f = field_value (pt_fields p) f.
Proof.
  intros ND I f. revert I. induction ps as [|q ps IH]; intros I; [destruct I|]. cbn [map] in ND. apply NoDup_cons_iff in ND. destruct ND as [N ND]. cbn [last_write].
  destruct I as [->|I].
  - assert (last_write ps (series p) f = None) as ->.
    { clear IH ND. induction ps as [|q ps IH]; auto. cbn [last_write]. cbn [map In] in N. rewrite IH by tauto. destruct (key_dec (series p) (series q)); auto. destruct N; auto. }
    destruct (key_dec (series p) (series p)); congruence.
  - rewrite IH by auto. destruct (field_value (pt_fields p) f); auto. destruct (key_dec (series p) (series q)); auto.
    destruct N. rewrite <- e. apply in_map; auto.
Qed.
Lemma last_write_other ps k f : ~ In k (map series ps) -> last_write ps k f = None.
Proof. induction ps as [|q ps IH]; intros N; auto. cbn [last_write map In] in *. rewrite IH by tauto. destruct (key_dec k (series q)); auto. destruct N; auto. Qed.
