(** Nested subscriptions, as the statements read them. *)
From Verif Require Import GoBase BinUtil MSubs MEngine SpecMap Spec SpecSubs.

(** The subscriptions of a nested structure below path [pre], in key order. *)
Fixpoint pflat (pre : gostring) (p : psub) : prefix_subs :=
  match p with
  | PSub _ u s =>
      (pre, u) :: (fix go (l : list (gostring * psub)) : prefix_subs :=
                     match l with [] => [] | (k, q) :: l' => pflat (pre ++ k) q ++ go l' end) s
  end.
Definition fflat (pre : gostring) (F : bsubs) : prefix_subs :=
  flat_map (fun kq => pflat (pre ++ fst kq) (snd kq)) F.
(** A well-nested structure whose keys start at bit [off]: no key next to one
    that is its prefix, offsets add up, nested keys are not empty. *)
Inductive forest : nat -> bsubs -> Prop :=
| forest_intro off F :
    wf_map F ->
    (forall k k', In k (mkeys F) -> In k' (mkeys F) -> ~ strictly_extends k' k) ->
    (forall k p, In (k, p) F -> ps_offset p = off) ->
    (forall k p k2, In (k, p) F -> In k2 (mkeys (ps_subset p)) -> k2 <> []) ->
    (forall k p, In (k, p) F -> forest (off + length k) (ps_subset p)) ->
    forest off F.
