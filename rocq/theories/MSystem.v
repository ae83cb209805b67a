(** The engine factory with the project's four engines. *)
From Verif Require Import GoBase BinUtil MFilter MEngine MTdtCore MSubs MList MPatricia MSplay MSlice MLegacy MGenerator MFactory.

(** filtering/engine.go:17-25 [Engine]: what an engine generator holds.  Within
    the factory nothing changes subscriptions (filtering/engine_factory.go:138-165
    and engine_generator.go:132-151 are commented out), so of the legacy engine
    only the contents of its map matter. *)
Inductive engine : Type :=
| EngLegacy (m : subscriptions)
| EngList (l : list_engine)
| EngPatricia (t : ptree)
| EngSplay (t : stree).

(** filtering/engine.go:34-40 [AvailableEngines] with the constructors
    filtering/legacy_engine.go:181-192, list.go:157-174,
    patricia_trie.go:428-448 and splay_tree.go:346-362.  [new_patricia] has no
    value where the Go constructor overflows the stack. *)
Definition build_engine (E : env) (e : ename) (sub : subscriptions) : result engine :=
  match e with
  | ELegacy => Ok (EngLegacy (sub_clone sub))
  | EList => Ok (EngList (new_list E sub))
  | EPatricia => match new_patricia E sub with Some t => Ok (EngPatricia t) | None => Panic end
  | ESplay => let! t := new_splay E sub in Ok (EngSplay t)
  end.

(** An order in which a map is walked: at each step the position, among the
    entries not yet visited, of the next one.  Positions out of range leave the
    rest in the order of the list. *)
Fixpoint reorder {A} (x : list nat) (l : list A) : list A :=
  match x with
  | [] => l
  | i :: x' => match take_out i l with Some (a, r) => a :: reorder x' r | None => l end
  end.

(** A read event: protocol control bits and identifier. *)
Definition tag := (list N * list N)%type.

(** filtering/engine_generator.go:108-115: the engine's Search, and whether it
    found report URIs. *)
Definition engine_search (x : list nat) (eng : engine) (t : tag) : result (search_result * bool * engine) :=
  let! (r, eng') :=
    match eng with
    | EngLegacy m => let! r := legacy_search (reorder x m) (fst t) (snd t) in Ok (r, eng)
    | EngList l => let! r := list_search l (fst t) (snd t) in Ok (r, eng)
    | EngPatricia p => let! r := patricia_search p (fst t) (snd t) in Ok (r, eng)
    | EngSplay s => let! (r, s') := splay_search s (fst t) (snd t) in Ok (r, EngSplay s')
    end in
  Ok (r, match snd (fst r) with [] => false | _ => true end, eng').

(** cmd/gosstrak-fc/main.go:34 [QueueSize]: the capacity of mainChannel. *)
Definition queue_size : nat := 128.
Definition system_run (E : env) := run (build_engine E) engine_search queue_size.
Definition system0 : @sys subscriptions engine tag search_result := sys0.
