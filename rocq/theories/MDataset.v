(** The data set generator at work (test/gendataset.go): main, its workers and the
    writer of the filter file, as interleaved goroutines.

    A step is what one goroutine does between two points where it touches a channel
    or a file; a run is any interleaving.  The files are those below the target
    directory.  Simplifications: creating directories and opening, flushing and
    closing files always succeed (their errors panic or are ignored); the lines of a
    set are all computed before the first one is written, its filters before the
    first one is sent; a line is written to the filter file in one step (lines 58-59:
    it is shorter than the buffer). *)
From Verif Require Import GoBase BinUtil MFloat MScheme MTools.

Definition cnewline : ascii := "010"%char.
Definition cnull : ascii := "000"%char.
Definition path : Type := list gostring.

(** The files and their contents; a path has at most one entry. *)
Definition files : Type := list (path * gostring).
Fixpoint file_get (f : path) (fs : files) : option gostring :=
  match fs with
  | [] => None
  | (g, t) :: fs' => if file_eqb g f then Some t else file_get f fs'
  end.
Fixpoint file_set (f : path) (t : gostring) (fs : files) : files :=
  match fs with
  | [] => [(f, t)]
  | (g, u) :: fs' => if file_eqb g f then (g, t) :: fs' else (g, u) :: file_set f t fs'
  end.
(** Writing at a position; a hole before it is filled with zeros. *)
Definition write_at (off : nat) (piece old : gostring) : gostring :=
  firstn off old ++ repeat cnull (off - length old) ++ piece ++ skipn (off + length piece) old.

Section Dataset.
  (** A parameter, the file of its set, whether it ends the program when the file is
      there, the filters it sends and the text of its file. *)
  Context {J : Type} (jfile : J -> path) (jfatal : J -> bool) (jsends : J -> result (list gostring)) (jtext : J -> result gostring).
  (** runtime.NumCPU(), the capacity of the queue (test/gendataset.go:258). *)
  Context (cap : nat).

  (** A worker (test/gendataset.go:77-240): waiting for a parameter, before os.Stat,
      before os.Create, sending filters, writing its file, returned. *)
  Inductive worker : Type :=
  | WWait | WStat (j : J) | WCreate (j : J) | WSend (j : J) (ls : list gostring)
  | WWrite (j : J) (off : nat) (rest : gostring) | WDone.
  (** main (test/gendataset.go:242-394): filling the queue, waiting for the workers;
      the program has ended normally, or through log.Fatal. *)
  Inductive dmain : Type := DPut (rest : list J) | DWaiting | DExit | DFatal.
  Record ds : Type := {
    d_main : dmain;
    d_queue : list J;
    d_workers : list worker;
    d_writer : option gostring;      (* the line the filter writer has received *)
    d_filters : gostring;            (* the text of filters.csv *)
    d_files : files
  }.
  (** [n] workers; what earlier runs left behind is [f0] and [fs0] (lines 48, 87). *)
  Definition ds0 (n : nat) (js : list J) (f0 : gostring) (fs0 : files) : ds := {|
    d_main := DPut js; d_queue := []; d_workers := repeat WWait n; d_writer := None; d_filters := f0; d_files := fs0 |}.

  Inductive dlabel : Type :=
  | DLPut                 (* main puts the next parameter into the queue *)
  | DLClose               (* main closes the queue (line 391) *)
  | DLTake (w : nat)      (* a worker takes a parameter (79) *)
  | DLEnd (w : nat)       (* a worker sees that the queue is closed and empty (80-82) *)
  | DLStat (w : nat)      (* does the file exist? (89, 116, 140, 165, 193, 217) *)
  | DLCreate (w : nat)    (* the file is made, or emptied *)
  | DLSend (w : nat)      (* a filter goes to the writer, which is waiting for one *)
  | DLText (w : nat)      (* all filters are sent *)
  | DLWrite (w : nat) (k : nat)   (* the next [k] characters are written *)
  | DLDone (w : nat)      (* the file is closed *)
  | DLFilter              (* the writer writes the line it has *)
  | DLExit.               (* all workers have returned; main returns (393) *)

  (** What can be seen of a run: a set is begun, a filter is sent. *)
  Inductive dobs : Type := OMade (j : J) | OSent (l : gostring).

  Fixpoint set_nth (w : nat) (x : worker) (l : list worker) : list worker :=
    match l, w with
    | [], _ => []
    | _ :: l', O => x :: l'
    | y :: l', S w' => y :: set_nth w' x l'
    end.
  Definition with_worker (s : ds) (w : nat) (x : worker) : ds :=
    {| d_main := d_main s; d_queue := d_queue s; d_workers := set_nth w x (d_workers s); d_writer := d_writer s;
       d_filters := d_filters s; d_files := d_files s |}.
  Definition with_main (s : ds) (m : dmain) : ds :=
    {| d_main := m; d_queue := d_queue s; d_workers := d_workers s; d_writer := d_writer s;
       d_filters := d_filters s; d_files := d_files s |}.
  Definition with_queue (s : ds) (q : list J) : ds :=
    {| d_main := d_main s; d_queue := q; d_workers := d_workers s; d_writer := d_writer s;
       d_filters := d_filters s; d_files := d_files s |}.
  Definition with_files (s : ds) (fs : files) : ds :=
    {| d_main := d_main s; d_queue := d_queue s; d_workers := d_workers s; d_writer := d_writer s;
       d_filters := d_filters s; d_files := fs |}.
  Definition with_writer (s : ds) (x : option gostring) (t : gostring) : ds :=
    {| d_main := d_main s; d_queue := d_queue s; d_workers := d_workers s; d_writer := x;
       d_filters := t; d_files := d_files s |}.
  Definition is_done (w : worker) : bool := match w with WDone => true | _ => false end.
  Definition ended (s : ds) : bool := match d_main s with DExit | DFatal => true | _ => false end.

  (** One step; [Err] means that it is not possible in this state. *)
  Definition dstep (s : ds) (l : dlabel) : result (ds * list dobs) :=
    if ended s then Err else
    let at_ w := nth_error (d_workers s) w in
    match l with
    | DLPut =>
        match d_main s with
        | DPut (j :: r) => if Nat.ltb (length (d_queue s)) cap then Ok (with_main (with_queue s (d_queue s ++ [j])) (DPut r), []) else Err
        | _ => Err
        end
    | DLClose => match d_main s with DPut [] => Ok (with_main s DWaiting, []) | _ => Err end
    | DLTake w =>
        match at_ w, d_queue s with
        | Some WWait, j :: q => Ok (with_worker (with_queue s q) w (WStat j), [])
        | _, _ => Err
        end
    | DLEnd w =>
        match at_ w, d_queue s, d_main s with
        | Some WWait, [], DWaiting => Ok (with_worker s w WDone, [])
        | _, _, _ => Err
        end
    | DLStat w =>
        match at_ w with
        | Some (WStat j) =>
            match file_get (jfile j) (d_files s) with
            | None => Ok (with_worker s w (WCreate j), [])
            | Some _ => if jfatal j then Ok (with_main s DFatal, []) else Ok (with_worker s w WWait, [])
            end
        | _ => Err
        end
    | DLCreate w =>
        match at_ w with
        | Some (WCreate j) =>
            let! ls := jsends j in
            Ok (with_worker (with_files s (file_set (jfile j) [] (d_files s))) w (WSend j ls), [OMade j])
        | _ => Err
        end
    | DLSend w =>
        match at_ w, d_writer s with
        | Some (WSend j (l :: ls)), None => Ok (with_worker (with_writer s (Some l) (d_filters s)) w (WSend j ls), [OSent l])
        | _, _ => Err
        end
    | DLText w =>
        match at_ w with
        | Some (WSend j []) => let! t := jtext j in Ok (with_worker s w (WWrite j 0 t), [])
        | _ => Err
        end
    | DLWrite w k =>
        match at_ w with
        | Some (WWrite j off rest) =>
            if Nat.ltb 0 k && Nat.leb k (length rest) then
              let old := match file_get (jfile j) (d_files s) with Some t => t | None => [] end in
              Ok (with_worker (with_files s (file_set (jfile j) (write_at off (firstn k rest) old) (d_files s))) w
                    (WWrite j (off + k) (skipn k rest)), [])
            else Err
        | _ => Err
        end
    | DLDone w =>
        match at_ w with
        | Some (WWrite j _ []) => Ok (with_worker s w WWait, [])
        | _ => Err
        end
    (* lines 55-61: an empty line is left out *)
    | DLFilter =>
        match d_writer s with
        | Some [] => Ok (with_writer s None (d_filters s), [])
        | Some l => Ok (with_writer s None (d_filters s ++ l ++ [cnewline]), [])
        | None => Err
        end
    | DLExit =>
        match d_main s with
        | DWaiting => if forallb is_done (d_workers s) then Ok (with_main s DExit, []) else Err
        | _ => Err
        end
    end.
  Fixpoint drun (s : ds) (ls : list dlabel) : result (ds * list dobs) :=
    match ls with
    | [] => Ok (s, [])
    | l :: ls' => let! (s1, o1) := dstep s l in let! (s2, o2) := drun s1 ls' in Ok (s2, o1 ++ o2)
    end.
End Dataset.
Arguments worker : clear implicits.
Arguments dmain : clear implicits.
Arguments ds : clear implicits.
Arguments dobs : clear implicits.

(** ** The parameters of this program *)
(** A parameter with its number, which tells what is drawn for it. *)
Definition job : Type := (nat * uii_param)%type.
Definition job_file (j : job) : path := file_of (snd j).
(** test/gendataset.go:165-167 *)
Definition job_fatal (j : job) : bool := seqb (u_scheme (snd j)) (str "grai-96").
Definition job_sends (E : env) (j : job) : result (list gostring) := filter_sends E (snd j).
Definition job_text (E : env) (draw : nat -> nat -> gostring) (j : job) : result gostring :=
  let! ls := lines E (snd j) (draw (fst j)) (seq 0 num_serial) in
  Ok (concat (map (fun l => l ++ [cnewline]) ls)).

Definition jobs (ps : list uii_param) : list job := combine (seq 0 (length ps)) ps.
(** A run of the program with [n] workers. *)
Definition generator (E : env) (draw : nat -> nat -> gostring) (cap n : nat) (ps : list uii_param) (f0 : gostring) (fs0 : files)
  (ls : list dlabel) : result (ds job * list (dobs job)) :=
  drun job_file job_fatal (job_sends E) (job_text E draw) cap (ds0 n (jobs ps) f0 fs0) ls.

(** test/gendataset.go:268-319 and 320-389: what main puts into the queue in one
    round.  The drawn values are given: company prefixes (one for the SGTINs, two for
    SSCCs, two for GIAIs, one for the GRAIs), item references, asset types, an owner
    code and a company identification; the numbers of digits of extensions and asset
    references follow from the prefixes. *)
Record round : Type := {
  r_cp : gostring; r_irs : list gostring; r_sscc : list gostring; r_giai : list gostring;
  r_grai : gostring; r_ats : list gostring; r_oc : gostring; r_ci : gostring
}.
Definition epc_param (scheme cp ir at_ : gostring) (ext iar : nat) (nf : bool) : uii_param :=
  {| u_type := str "epc"; u_scheme := scheme; u_cp := cp; u_ir := ir; u_at := at_; u_oc := []; u_di := []; u_iac := []; u_ci := [];
     u_ext_digits := ext; u_iar_max := iar; u_no_filter := nf |}.
Definition iso_param (scheme oc di iac ci : gostring) (nf : bool) : uii_param :=
  {| u_type := str "iso"; u_scheme := scheme; u_cp := []; u_ir := []; u_at := []; u_oc := oc; u_di := di; u_iac := iac; u_ci := ci;
     u_ext_digits := 0; u_iar_max := 0; u_no_filter := nf |}.
Definition round_params (nf : bool) (r : round) : list uii_param :=
  map (fun ir => epc_param (str "sgtin-96") (r_cp r) ir [] 0 0 nf) (r_irs r) ++
  map (fun cp => epc_param (str "sscc-96") cp [] [] (17 - length cp) 0 nf) (r_sscc r) ++
  map (fun cp => epc_param (str "giai-96") cp [] [] 0 (25 - length cp) nf) (r_giai r) ++
  map (fun a => epc_param (str "grai-96") (r_grai r) [] a 0 0 nf) (r_ats r) ++
  [iso_param (str "17363") (r_oc r) [] [] [] nf; iso_param (str "17365") [] (str "25S") (str "U") (r_ci r) nf].
(** test/gendataset.go:268-389: rounds with filters, then rounds without. *)
Definition main_params (with_filters without : list round) : list uii_param :=
  flat_map (round_params false) with_filters ++ flat_map (round_params true) without.

(** test/gendataset.go:265-266: the numbers of rounds, with the rounding of 64-bit
    floating point numbers.  The conversion to int drops the fraction. *)
Definition match_repeat (pct nsub : Z) : option Z :=
  f64_int (f64_div (f64_mul (f64_div (f64 pct) (f64 100)) (f64 nsub)) (f64 20)).
Definition mismatch_repeat (pct nsub : Z) : option Z :=
  f64_int (f64_div (f64_mul (f64_div (f64 (100 - pct)) (f64 100)) (f64 nsub)) (f64 20)).
