(** Model of the texts the code prints of its engines: [Dump] and [print] in
    package filtering.  Writing to a [bytes.Buffer] cannot fail. *)
From Verif Require Import GoBase BinUtil MFilter MSubs MList MPatricia MSplay.

Definition newline : ascii := ascii_of_N 10.
(** [strings.Repeat(" ", n)] *)
Definition spaces (n : nat) : gostring := repeat " "%char n.

(** The variable [n] of filtering/patricia_trie.go:388-391 and
    filtering/splay_tree.go:304-307. *)
Definition arrow (uri : gostring) : gostring :=
  match uri with [] => [] | _ => str "-> " ++ uri end.

(** filtering/list.go:75-81 [Dump] *)
Fixpoint list_dump (l : list_engine) : gostring :=
  match l with
  | [] => []
  | em :: l' =>
      str "--" ++ fo_to_string (em_filter em) ++ str " " ++ em_uri em ++ [newline] ++ list_dump l'
  end.

(** filtering/patricia_trie.go:387-399 [print] on a node that is not nil; a nil
    child is not printed. *)
Fixpoint patricia_print (t : ptree) (indent : nat) : gostring :=
  match t with
  | PNil => []
  | PNode uri fo one zero =>
      spaces indent ++ str "--" ++ fo_to_string fo ++ str " " ++ arrow uri ++ [newline]
        ++ patricia_print one (indent + 2) ++ patricia_print zero (indent + 2)
  end.
(** filtering/patricia_trie.go:52-56 [Dump]; a nil root is dereferenced. *)
Definition patricia_dump (t : ptree) : result gostring :=
  match t with PNil => Panic | _ => Ok (patricia_print t 0) end.

(** filtering/splay_tree.go:303-317 [print]; a nil filter is dereferenced. *)
Fixpoint splay_print (t : stree) (indent : nat) : result gostring :=
  match t with
  | SNil => Panic
  | SNode uri fo mtch mism =>
      match fo with
      | None => Panic
      | Some f =>
          let! m :=
            match mtch with
            | SNil => Ok []
            | _ => let! p := splay_print mtch (indent + 2) in Ok (spaces (indent + 2) ++ str "ok" ++ p)
            end in
          let! r :=
            match mism with
            | SNil => Ok []
            | _ => let! p := splay_print mism (indent + 2) in Ok (spaces (indent + 2) ++ str "ng" ++ p)
            end in
          Ok (str "--" ++ fo_to_string f ++ str " " ++ arrow uri ++ [newline] ++ m ++ r)
      end
  end.
(** filtering/splay_tree.go:52-56 [Dump] *)
Definition splay_dump (t : stree) : result gostring := splay_print t 0.

(** filtering/subscriptions.go:360-368 [print]; the entries are in Keys() order. *)
Fixpoint psub_print (p : psub) (indent : nat) : gostring :=
  match p with
  | PSub _ _ subset =>
      (fix go (l : list (gostring * psub)) : gostring :=
         match l with
         | [] => []
         | (fs, q) :: l' =>
             spaces indent ++ str "--" ++ fs ++ str " " ++ dec_string (N.of_nat (ps_offset q)) ++ str " "
               ++ ps_uri q ++ [newline] ++ psub_print q (indent + 2) ++ go l'
         end) subset
  end.
Fixpoint bsub_print (b : bsubs) (indent : nat) : gostring :=
  match b with
  | [] => []
  | (fs, q) :: b' =>
      spaces indent ++ str "--" ++ fs ++ str " " ++ dec_string (N.of_nat (ps_offset q)) ++ str " "
        ++ ps_uri q ++ [newline] ++ psub_print q (indent + 2) ++ bsub_print b' indent
  end.
(** filtering/subscriptions.go:224-228 [Dump] *)
Definition bsub_dump (b : bsubs) : gostring := bsub_print b 0.

(** [strconv.Quote], as used by the verb %q, on one byte.  Exact for the bytes
    below 127; other bytes are taken to be invalid UTF-8 (simplification). *)
Definition hex_digit (n : N) : ascii := ascii_of_N (if (n <? 10)%N then 48 + n else 87 + n).
Definition backslash : ascii := ascii_of_N 92.
Definition dquote : ascii := ascii_of_N 34.
Definition quote_char (c : ascii) : gostring :=
  let n := N_of_ascii c in
  if (n =? 34)%N then [backslash; dquote]
  else if (n =? 92)%N then [backslash; backslash]
  else if ((32 <=? n) && (n <? 127))%N then [c]
  else if (n =? 7)%N then [backslash; "a"%char]
  else if (n =? 8)%N then [backslash; "b"%char]
  else if (n =? 12)%N then [backslash; "f"%char]
  else if (n =? 10)%N then [backslash; "n"%char]
  else if (n =? 13)%N then [backslash; "r"%char]
  else if (n =? 9)%N then [backslash; "t"%char]
  else if (n =? 11)%N then [backslash; "v"%char]
  else [backslash; "x"%char; hex_digit (n / 16); hex_digit (n mod 16)].
Definition quote (s : gostring) : gostring := [dquote] ++ flat_map quote_char s ++ [dquote].
(** %q of a [[]string]: the quoted elements, separated by blanks, in brackets. *)
Definition quote_list (l : list gostring) : gostring := str "[" ++ join (str " ") (map quote l) ++ str "]".

(** filtering/legacy_engine.go:53-59 [Dump], of what the engine's map says; the
    entries are in Keys() order. *)
Fixpoint legacy_dump (m : smap (list gostring)) : gostring :=
  match m with
  | [] => []
  | (f, l) :: m' => str "--" ++ f ++ str " " ++ quote_list l ++ [newline] ++ legacy_dump m'
  end.
