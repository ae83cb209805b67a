(** Model of cmd/gosstrak-fc/main.go: the LLRP receive loop, the replies, and the
    reports made of a batch of read events. *)
From Verif Require Import GoBase MList.

(** ** The connection *)
(** [net.Conn] as the pieces in which its bytes arrive, up to the end of the
    connection.  [io.ReadFull(conn, buf)] with [len(buf) = n] reads pieces until it
    has [n] bytes; [None] is its error when the connection ends before. *)
Fixpoint read_full (n : N) (cs : list (list N)) : option (list N * list (list N)) :=
  if (n =? 0)%N then Some ([], cs)
  else match cs with
       | [] => None
       | c :: cs' =>
           let k := N.of_nat (length c) in
           if (n <? k)%N then Some (firstn (N.to_nat n) c, skipn (N.to_nat n) c :: cs')
           else match read_full (n - k) cs' with Some (b, r) => Some (c ++ b, r) | None => None end
       end.

(** [binary.BigEndian.Uint16], [Uint32] *)
Definition big_endian (bs : list N) : N := fold_left (fun a b => a * 256 + b)%N bs 0%N.

(** A received message: header, message id and value. *)
Record llrp_message : Type := { lm_header : N; lm_id : N; lm_value : list N }.

(** cmd/gosstrak-fc/main.go:262-287: one message; line 278 subtracts in uint32.
    [None]: a read fails, and log.Fatal ends the program. *)
Definition recv_message (cs : list (list N)) : option (llrp_message * list (list N)) :=
  match read_full 2 cs with
  | None => None
  | Some (header, cs1) =>
      match read_full 4 cs1 with
      | None => None
      | Some (length, cs2) =>
          match read_full 4 cs2 with
          | None => None
          | Some (message_id, cs3) =>
              let size := ((big_endian length + 2 ^ 32 - 10) mod 2 ^ 32)%N in
              match (if (size =? 0)%N then Some ([], cs3) else read_full size cs3) with
              | None => None
              | Some (value, cs4) =>
                  Some ({| lm_header := big_endian header; lm_id := big_endian message_id; lm_value := value |}, cs4)
              end
          end
      end
  end.

(** The headers of go-llrp (assumption on the library): version 1 and the message
    types 61, 62, 63 and 13 of the LLRP standard. *)
Definition ro_access_report : N := 1085.
Definition keepalive : N := 1086.
Definition reader_event : N := 1087.
Definition set_config_response : N := 1037.

(** cmd/gosstrak-fc/main.go:59-63, 106: package variables are initialised before
    main parses the command line (line 308), so [currentMessageID] takes the zero
    value of the flag, whatever is [configured]; nothing assigns it later. *)
Definition current_message_id (configured : N) : N := (let flag_before_parse := 0 in flag_before_parse mod 2 ^ 32)%N.

(** What the loop does with a message: writes to the connection
    (llrp.SetReaderConfig and llrp.KeepaliveAck are left symbolic; the error of
    conn.Write is ignored), or passes the value on to the channel [rq]. *)
Inductive action : Type := WriteConfig (id : N) | WriteAck (id : N) | Deliver (value : list N).
(** cmd/gosstrak-fc/main.go:288-302; [None] is the default branch, log.Fatalf. *)
Definition dispatch (configured : N) (m : llrp_message) : option (list action) :=
  if (lm_header m =? reader_event)%N then Some [WriteConfig (current_message_id configured)]
  else if (lm_header m =? keepalive)%N then Some [WriteAck (current_message_id configured)]
  else if (lm_header m =? set_config_response)%N then Some []
  else if (lm_header m =? ro_access_report)%N then Some [Deliver (lm_value m)]
  else None.

(** How the loop ends: the connection ends (log.Fatal), or an unknown header
    (log.Fatalf).  [OutOfFuel] belongs to the model only (PMain: it does not
    happen). *)
Inductive ending : Type := Disconnected | UnknownHeader (h : N) | OutOfFuel.
(** cmd/gosstrak-fc/main.go:261-303: each handled message with what is done. *)
Fixpoint llrp_loop (configured : N) (fuel : nat) (cs : list (list N)) : list (llrp_message * list action) * ending :=
  match fuel with
  | O => ([], OutOfFuel)
  | S fuel' =>
      match recv_message cs with
      | None => ([], Disconnected)
      | Some (m, cs') =>
          match dispatch configured m with
          | None => ([], UnknownHeader (lm_header m))
          | Some acts => let '(r, e) := llrp_loop configured fuel' cs' in ((m, acts) :: r, e)
          end
      end
  end.
Definition llrp_run (configured : N) (cs : list (list N)) : list (llrp_message * list action) * ending :=
  llrp_loop configured (S (length (concat cs))) cs.

(** ** Reports *)
(** The map [reports]; an association list without repeated keys. *)
Definition reports := list (gostring * list gostring).
Fixpoint lookup (r : reports) (d : gostring) : option (list gostring) :=
  match r with
  | [] => None
  | (d', l) :: r' => if seqb d' d then Some l else lookup r' d
  end.
(** cmd/gosstrak-fc/main.go:234-237 *)
Fixpoint append_to (r : reports) (d pure : gostring) : reports :=
  match r with
  | [] => [(d, [pure])]
  | (d', l) :: r' => if seqb d' d then (d', l ++ [pure]) :: r' else (d', l) :: append_to r' d pure
  end.
(** cmd/gosstrak-fc/main.go:229-238: one answer of EngineFactory.Search *)
Definition add_answer (r : reports) (a : search_result) : reports :=
  let '(pure, uris, failed) := a in
  if failed then r else fold_left (fun r d => append_to r d pure) uris r.
(** cmd/gosstrak-fc/main.go:227-239: a batch.  Lines 241-243 then discard the map. *)
Definition batch_reports (answers : list search_result) : reports := fold_left add_answer answers [].
