(** Model of small helpers: the comparison of tries and trees used by the
    repository's own tests, and the six-bit text tool. *)
From Verif Require Import GoBase BinUtil MFilter MPatricia MSplay MScheme.

(** [reflect.DeepEqual] on two pointers to FilterObject. *)
Definition fo_ptr_eqb (a b : option filter_object) : bool :=
  match a, b with
  | Some x, Some y => fo_eqb x y
  | None, None => true
  | _, _ => false
  end.

(** filtering/patricia_trie.go:361-385 [PatriciaTrieNode.equal]: the verdict and
    the pair of nodes that differ.  Nil nodes are [PNil]; reading a field of a nil
    node panics.  The filter object of a trie node is never nil in the model. *)
Fixpoint pequal (got want : ptree) : result (bool * ptree * ptree) :=
  match want with
  | PNil => Panic
  | PNode wu wf w1 w0 =>
      match got with
      | PNil => Panic
      | PNode gu gf g1 g0 =>
          if negb (seqb gu wu) || negb (fo_eqb gf wf) then Ok (false, got, want)
          else
            let! r1 :=
              match w1 with
              | PNil => Ok (true, PNil, PNil)
              | _ => match g1 with PNil => Ok (false, PNil, w1) | _ => pequal g1 w1 end
              end in
            if negb (fst (fst r1)) then Ok r1
            else
              let! r0 :=
                match w0 with
                | PNil => Ok (true, PNil, PNil)
                | _ => match g0 with PNil => Ok (false, PNil, w0) | _ => pequal g0 w0 end
                end in
              if negb (fst (fst r0)) then Ok r0 else Ok (true, PNil, PNil)
      end
  end.

(** filtering/splay_tree.go:277-301 [SplayTreeNode.equal] *)
Fixpoint sequal (got want : stree) : result (bool * stree * stree) :=
  match want with
  | SNil => Panic
  | SNode wu wf w1 w0 =>
      match got with
      | SNil => Panic
      | SNode gu gf g1 g0 =>
          if negb (seqb gu wu) || negb (fo_ptr_eqb gf wf) then Ok (false, got, want)
          else
            let! r1 :=
              match w1 with
              | SNil => Ok (true, SNil, SNil)
              | _ => match g1 with SNil => Ok (false, SNil, w1) | _ => sequal g1 w1 end
              end in
            if negb (fst (fst r1)) then Ok r1
            else
              let! r0 :=
                match w0 with
                | SNil => Ok (true, SNil, SNil)
                | _ => match g0 with SNil => Ok (false, SNil, w0) | _ => sequal g0 w0 end
                end in
              if negb (fst (fst r0)) then Ok r0 else Ok (true, SNil, SNil)
      end
  end.

(** scheme/generate.go:15-22 [CheckIfStringInSlice] *)
Fixpoint string_in_slice (a : gostring) (l : list gostring) : bool :=
  match l with
  | [] => false
  | b :: l' => if seqb b a then true else string_in_slice a l'
  end.

(** scheme/sixenc2bin/main.go:10-24: what the tool prints for its arguments.
    [args] is os.Args, whose first element is the name of the program; the test
    of line 20 never holds then.  The digits contain no formatting verbs. *)
Definition sixenc2bin_main (args : list gostring) : result gostring :=
  match args with
  | [] => Panic
  | _ :: rest => match rest with [] => Panic | a :: _ => Ok (sixenc2bin a) end
  end.
