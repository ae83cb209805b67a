(** Patterns that need no random bits, and histories of calls each with its own draws. *)
From Verif Require Import GoBase BinUtil MFilter MTdtCore MSubs MList MPatricia MSplay MDraws Spec SpecSubs SpecRun.

(** An EPC pattern is definite when no field but the company prefix is given as empty
    (an empty filter value, reference or serial number is filled with random bits, an
    empty company prefix with none); ISO patterns are always definite. *)
Definition epc_type (t : gostring) : Prop := In t [str "giai-96"; str "grai-96"; str "sgtin-96"; str "sscc-96"].
Definition definite (pat : gostring) : Prop :=
  forall t fields, pattern_parts pat = Some (t, fields) -> epc_type t -> forall i, i <> 1 -> nth_error fields i <> Some [].
Definition definite_subs (sub : subscriptions) : Prop := forall u pats pat, In (u, pats) sub -> In pat pats -> definite pat.
Definition definite_update (op : update) : Prop := match op with Add sub | Del sub => definite_subs sub end.
Definition definite_call (c : scall) : Prop := match c with SSearch _ => True | SUpdate op => definite_update op end.
(** The same library: only the random draws differ. *)
Definition same_library (E E' : env) : Prop := forall s, e_dec_bad E s = e_dec_bad E' s.
Definition drawn_from (E : env) (D : draws) : Prop := forall n, same_library E (D n).

Definition list_update_drawn (l : list_engine) (op : draws * update) : list_engine :=
  match snd op with Add sub => list_add_drawn (fst op) l sub | Del sub => list_del_drawn (fst op) l sub end.
Definition list_run_drawn (D0 : draws) (sub0 : subscriptions) (ops : list (draws * update)) : list_engine :=
  fold_left list_update_drawn ops (new_list_drawn D0 sub0).
Definition patricia_update_drawn (r : result ptree) (op : draws * update) : result ptree :=
  let! t := r in match snd op with Add sub => patricia_add_drawn (fst op) t sub | Del sub => patricia_del_drawn (fst op) t sub end.
Definition patricia_run_drawn (D0 : draws) (sub0 : subscriptions) (ops : list (draws * update)) : result ptree :=
  match new_patricia_drawn D0 sub0 with
  | Some t => fold_left patricia_update_drawn ops (Ok t)
  | None => Err
  end.
Definition splay_call_drawn (r : result stree) (c : draws * scall) : result stree :=
  let! t := r in
  match snd c with
  | SSearch id => let! (_, t') := splay_step t id in Ok t'
  | SUpdate (Add sub) => splay_add_drawn (fst c) t sub
  | SUpdate (Del sub) => splay_del_drawn (fst c) t sub
  end.
Definition splay_run_drawn (D0 : draws) (sub0 : subscriptions) (cs : list (draws * scall)) : result stree :=
  fold_left splay_call_drawn cs (new_splay_drawn D0 sub0).
