(** Model of EngineFactory.currentEngineName as it lies in memory: a Go string is
    two words, the address of its bytes and their number, and an assignment or a
    use accesses them one after the other without a lock.  [MFactory] treats such an
    access as one step; here it is split.

    The words are accessed in the order the compiler chose; the order is a parameter
    of every assignment and every use.  A single word is read and written as a whole. *)
From Verif Require Import GoBase MFloat MGenerator MFactory MStat.

(** The two words.  The address is nil or that of one of the names, the constants
    that are keys of AvailableEngines (filtering/engine.go:34-40). *)
Record words : Type := { w_addr : option ename; w_len : nat }.
(** filtering/engine_factory.go:51-54: the field starts as the empty string. *)
Definition words0 : words := {| w_addr := None; w_len := 0 |}.
(** The words of a name. *)
Definition words_of (e : ename) : words := {| w_addr := Some e; w_len := length (name_of e) |}.

(** Accesses to one word. *)
Inductive access : Type :=
| StoreAddr (e : ename)
| StoreLen (n : nat)
| LoadAddr
| LoadLen.
(** filtering/engine_factory.go:109, 170, 179: [ef.currentEngineName = ...] *)
Definition assign (addr_first : bool) (e : ename) : list access :=
  if addr_first then [StoreAddr e; StoreLen (length (name_of e))] else [StoreLen (length (name_of e)); StoreAddr e].
(** filtering/engine_factory.go:46: the use of [ef.currentEngineName] as a key. *)
Definition use (addr_first : bool) : list access :=
  if addr_first then [LoadAddr; LoadLen] else [LoadLen; LoadAddr].

(** What the searching goroutine has loaded so far. *)
Record loaded_words : Type := { l_addr : option (option ename); l_len : option nat }.
Definition loaded0 : loaded_words := {| l_addr := None; l_len := None |}.
Definition do_access (s : words * loaded_words) (a : access) : words * loaded_words :=
  let (w, l) := s in
  match a with
  | StoreAddr e => ({| w_addr := Some e; w_len := w_len w |}, l)
  | StoreLen n => ({| w_addr := w_addr w; w_len := n |}, l)
  | LoadAddr => (w, {| l_addr := Some (w_addr w); l_len := l_len l |})
  | LoadLen => (w, {| l_addr := l_addr l; l_len := Some (w_len w) |})
  end.
Definition accesses (w : words) (sched : list access) : words * loaded_words := fold_left do_access sched (w, loaded0).

(** The bytes a string with these words shows.  [after e] are the bytes that follow
    the constant in memory; a nil address can only be followed for no bytes. *)
Definition shown (after : ename -> nat -> ascii) (addr : option ename) (n : nat) : result gostring :=
  match addr with
  | Some e => Ok (firstn n (name_of e ++ map (after e) (seq 0 n)))
  | None => match n with 0 => Ok [] | _ => Panic end
  end.
(** filtering/engine_factory.go:46 [ef.productionSystem[name].Search(re)]: a key that
    is no name gives a nil generator, and Search (engine_generator.go:109) reads a
    field of it. *)
Definition find_generator (key : gostring) : result ename :=
  match find (fun e => seqb (name_of e) key) all_names with
  | Some e => Ok e
  | None => Panic
  end.
(** The engine that answers the search whose loads are in [l]; [Err] if the search
    has not loaded both words. *)
Definition searched_engine (after : ename -> nat -> ascii) (l : loaded_words) : result ename :=
  match l_addr l, l_len l with
  | Some a, Some n => let! key := shown after a n in find_generator key
  | _, _ => Err
  end.
