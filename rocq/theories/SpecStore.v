(** The storage of the text engine's subscriptions and histories of calls on it, used
    in the statements. *)
From Verif Require Import GoBase BinUtil MTdtCore MSubs MSlice MLegacy SpecMap Spec.

Definition disjoint (s t : slice) : Prop :=
  sl_cap s = 0 \/ sl_cap t = 0 \/ sl_arr s <> sl_arr t \/
  sl_off s + sl_cap s <= sl_off t \/ sl_off t + sl_cap t <= sl_off s.
(** A map whose slices are well formed and share no storage. *)
Definition owned (h : heap) (e : slice_map) : Prop :=
  wf_map e /\ (forall k s, mget k e = Some s -> slice_ok h s) /\
  (forall k k' s s', k <> k' -> mget k e = Some s -> mget k' e = Some s' -> disjoint s s').
(** A slice that shares no storage with the map. *)
Definition away (e : slice_map) (t : slice) : Prop := forall k s, mget k e = Some s -> disjoint s t.
(** The argument shares no storage with the engine, nor its lists with each other. *)
Definition separate (h : heap) (e sub : slice_map) : Prop :=
  owned h e /\ owned h sub /\ forall k s, mget k sub = Some s -> away e s.
(** A map written down by a caller: every list in fresh storage. *)
Fixpoint alloc (grow : nat -> nat) (h : heap) (m : smap (list gostring)) : heap * slice_map :=
  match m with
  | [] => (h, [])
  | (f, l) :: m' =>
      let '(h1, s) := clone_list grow h l in
      let '(h2, r) := alloc grow h1 m' in
      (h2, (f, s) :: r)
  end.
Inductive legacy_op : Type := LAdd (m : smap (list gostring)) | LDel (m : smap (list gostring)).
Definition op_map (o : legacy_op) := match o with LAdd m | LDel m => m end.
Definition legacy_call (grow : nat -> nat) (st : result (heap * legacy)) (o : legacy_op) : result (heap * legacy) :=
  let! (h, e) := st in
  let '(h1, sub) := alloc grow h (op_map o) in
  match o with LAdd _ => legacy_add grow h1 e sub | LDel _ => legacy_del h1 e sub end.
Definition legacy_run (grow : nat -> nat) (sub : smap (list gostring)) (ops : list legacy_op) : result (heap * legacy) :=
  let '(h, m) := alloc grow [] sub in
  fold_left (legacy_call grow) ops (Ok (new_legacy grow h m)).
