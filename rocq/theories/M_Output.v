(** Model of /repo/src/output_formatter.rs, the log writer and progress bars of
    /repo/src/status.rs, and /repo/src/main.rs. *)
From Verif Require Import Base M_Data M_Scoring.
From Coq Require Import String Ascii.
Notation length := Datatypes.length.
Notation get := Base.get.
Open Scope string_scope.
Open Scope list_scope.

(** ** output_formatter.rs *)

(** ['\n'], /repo/src/output_formatter.rs:74, 126 and /repo/src/status.rs:156. *)
Definition nl : ascii := ascii_of_nat 10.
(** The double quote of the format strings, /repo/src/output_formatter.rs:59, 71. *)
Definition quote_char : ascii := ascii_of_nat 34.
(** [format!("\"{name}\"")] *)
(** Used at /repo/src/output_formatter.rs:71 and 77-126. *)
Definition quoted (s : string) : string := String quote_char (s ++ String quote_char "").
(** [lines.join(sep)] *)
(** Used at /repo/src/output_formatter.rs:74, 100, 123, 126. *)
Fixpoint join (sep : string) (l : list string) : string :=
  match l with
  | [] => ""
  | [x] => x
  | x :: t => (x ++ sep ++ join sep t)%string
  end.
(** [name.strip_prefix("~").unwrap_or(name)]
    (/repo/src/input_data.rs:31, /repo/src/output_formatter.rs:68-70, 117-120). *)
Definition strip_generated (s : string) : string :=
  match s with
  | String c t => if Ascii.eqb c "~" then t else s
  | EmptyString => s
  end.

(** /repo/src/solution.rs:46-52 [scheduling]. *)
Definition sol_scheduling (s : solution) : option scheduling :=
  match s with SolInvalid => None | SolScheduling x => Some x | SolComplete x _ => Some x end.
(** /repo/src/solution.rs:54-60 [assignment]. *)
Definition sol_assignment (s : solution) : option assignment :=
  match s with SolComplete _ a => Some a | _ => None end.

(** /repo/src/output_formatter.rs:49-75 [write_scheduling_solution]. *)
Definition write_scheduling (d : input_data) (sol : solution) : outcome string :=
  match sol_scheduling sol with
  | None => Err "scheduling output requires a scheduling"
  | Some sch =>
      let* rows := mmap (fun ic : nat * choice_data =>
        let (i, c) := ic in
        let* slot := slot_of sch i in
        let* slot_name := match slot with
                          | Some s => let* sl := get (i_slots d) s in Ok (sl_name sl)
                          | None => Ok "not scheduled"
                          end in
        Ok (quoted (strip_generated (ch_name c)) ++ ", " ++ quoted slot_name)%string)
        (combine (seq 0 (length (i_choices d))) (i_choices d)) in
      Ok (join (String nl "") ((quoted "Choice" ++ ", " ++ quoted "Slot")%string :: rows))
  end.

(** /repo/src/output_formatter.rs:102-113: the choice of a chooser by slot. *)
Definition choices_by_slot (d : input_data) (sch : scheduling) (A : assignment) (p : nat) : outcome (list nat) :=
  mfold (fun choices s =>
           let* c := choice_of A p s in
           let* x := slot_of sch c in
           match x with
           | None => Err "assignment output referenced an unscheduled choice"
           | Some t => set choices t c
           end)
        (seq 0 (length (i_slots d))) (repeat 0 (length (i_slots d))).

(** /repo/src/output_formatter.rs:83-126 [write_assignment_solution]. *)
Definition write_assignment (d : input_data) (sol : solution) : outcome string :=
  match sol_scheduling sol with
  | None => Err "assignment output requires a scheduling"
  | Some sch =>
    match sol_assignment sol with
    | None => Err "assignment output requires an assignment"
    | Some A =>
      let header := join ", " (quoted "Chooser" :: map (fun s => quoted (sl_name s)) (i_slots d)) in
      let* rows := mmap (fun p =>
        let* choices := choices_by_slot d sch A p in
        let* pn := get (i_choosers d) p in
        let* cells := mmap (fun c => let* ch := get (i_choices d) c in
                                     Ok (quoted (strip_generated (ch_name ch))))
                           (firstn (length (i_slots d)) choices) in
        Ok (join ", " (quoted (cs_name pn) :: cells))) (seq 0 (length (i_choosers d))) in
      Ok (join (String nl "") (header :: rows))
    end
  end.

(** ** status.rs: the log writer *)

(** [Vec<u8>], /repo/src/status.rs:110. *)
Definition bytes := list ascii.
(** Buffer, lines printed so far, number of print attempts. *)
(** /repo/src/status.rs:108-111 [IndicatifLogWriter] and its output, /repo/src/status.rs:281-294. *)
Record writer := mkWriter { lw_buffer : bytes; lw_lines : list bytes; lw_tries : nat }.
(** [IndicatifLogWriter::default()], /repo/src/status.rs:108-111. *)
Definition new_writer : writer := mkWriter [] [] 0.

(** /repo/src/status.rs:281-294 [print_log_line]: printing line number [k] works
    unless [broken k] (stderr gone, no bar active).  The conversion of the line
    to a string ([from_utf8_lossy]) is applied to these bytes and not modelled. *)
Definition print_line (broken : nat -> bool) (line : bytes) (w : writer) : bool * writer :=
  let k := lw_tries w in
  if broken k then (false, mkWriter (lw_buffer w) (lw_lines w) (k + 1))
  else (true, mkWriter (lw_buffer w) (lw_lines w ++ [line]) (k + 1)).

(** /repo/src/status.rs:156-160: the loop of [write]: [acc] are the bytes of the
    buffer before [rest] that contain no newline.  (One scan over the buffer
    instead of searching from its start after every line.) *)
Fixpoint drain (broken : nat -> bool) (acc rest : bytes) (w : writer) : bool * writer :=
  match rest with
  | [] => (true, mkWriter acc (lw_lines w) (lw_tries w))
  | c :: t =>
      if Ascii.eqb c nl then
        let (ok, w') := print_line broken acc w in
        if ok then drain broken [] t w'
        else (false, mkWriter t (lw_lines w') (lw_tries w'))
      else drain broken (acc ++ [c]) t w
  end.
(** /repo/src/status.rs:154-163 [write]: the result is [Ok] or the print error. *)
Definition log_write (broken : nat -> bool) (buf : bytes) (w : writer) : bool * writer :=
  drain broken [] (lw_buffer w ++ buf) w.
(** /repo/src/status.rs:165-173 [flush]. *)
Definition log_flush (broken : nat -> bool) (w : writer) : bool * writer :=
  match lw_buffer w with
  | [] => (true, w)
  | line => print_line broken line (mkWriter [] (lw_lines w) (lw_tries w))
  end.

(** ** status.rs: progress bars *)

(** The global state: output enabled (and info logging on), the active bar, bars
    made so far. *)
(** /repo/src/status.rs:101-106 [StatusState]. *)
Record status := mkStatus { st_output : bool; st_active : option nat; st_made : nat }.
(** /repo/src/status.rs:117-121 [StatusProgress]. *)
Record bar_handle := mkBar { b_bar : nat; b_previous : option nat; b_restores : bool }.
(** /repo/src/status.rs:198-225 [create_progress_bar]; hidden bars get a number too. *)
Definition create_bar (st : status) : bar_handle * status :=
  if st_output st then
    (mkBar (st_made st) (st_active st) true, mkStatus true (Some (st_made st)) (st_made st + 1))
  else (mkBar (st_made st) None false, mkStatus false (st_active st) (st_made st + 1)).
(** /repo/src/status.rs:142-150 [drop]. *)
Definition drop_bar (h : bar_handle) (st : status) : status :=
  if b_restores h then mkStatus (st_output st) (b_previous h) (st_made st) else st.

(** ** main.rs *)

(** What a run prints on standard output or writes to a file. *)
(** /repo/src/main.rs:152-162. *)
Inductive effect := EPrint (text : string) | EFile (path text : string).
(** The surroundings of a run: readable files, standard input, files that can be
    written; reading a script, solving and scoring are the
    parts modelled elsewhere. *)
(** The calls are made at /repo/src/main.rs:131-162 and 54-126. *)
Record surroundings (O : Type) := mkSurroundings {
  env_file : string -> option string;
  env_stdin : option string;
  env_writable : string -> bool;
  env_read : O -> string -> outcome input_data * O;
  env_solve : O -> input_data -> outcome solution;
  env_score : O -> input_data -> solution -> outcome score
}.
Arguments mkSurroundings {O}. Arguments env_file {O}. Arguments env_stdin {O}. Arguments env_writable {O}.
Arguments env_read {O}. Arguments env_solve {O}. Arguments env_score {O}.

Section Main.
Context {O : Type} (inputs : O -> list string) (output : O -> option string) (e : surroundings O).

(** /repo/src/main.rs:131-150 [read_input_string]. *)
Definition read_input_string (o : O) : outcome string :=
  match inputs o with
  | [] => match env_stdin e with Some s => Ok s | None => Err "stdin" end
  | files => mfold (fun acc f => match env_file e f with
                                 | Some s => Ok (acc ++ s ++ String nl "")%string
                                 | None => Err "file"
                                 end) files ""%string
  end.

(** /repo/src/main.rs:152-162 [output_string]. *)
Definition output_string (text suffix : string) (o : O) : outcome (list effect) :=
  match output o with
  | Some f => let path := (f ++ suffix)%string in
              if env_writable e path then Ok [EFile path text] else Err "write"
  | None => Ok [EPrint (text ++ String nl (String nl ""))%string]
  end.

(** /repo/src/main.rs:51-129 [try_run]: the result and the effects so far. *)
Definition try_run (o : O) (input : string) : outcome unit * list effect :=
  match env_read e o input with
  | (Err m, _) => (Err m, [])
  | (Panic, _) => (Panic, [])
  | (Ok d, o') =>
    match env_solve e o' d with
    | Err m => (Err m, [])
    | Panic => (Panic, [])
    | Ok sol =>
      if is_invalid sol then (Ok tt, []) else
      match env_score e o' d sol with Err m => (Err m, []) | Panic => (Panic, []) | Ok _ =>
      let first := if (1 <? length (i_slots d))%nat
                   then let* t := write_scheduling d sol in output_string t ".scheduling.csv" o'
                   else Ok [] in
      match first with
      | Err m => (Err m, [])
      | Panic => (Panic, [])
      | Ok es =>
        match (let* t := write_assignment d sol in output_string t ".assignment.csv" o') with
        | Err m => (Err m, es)
        | Panic => (Panic, es)
        | Ok es' => (Ok tt, es ++ es')
        end
      end
      end
    end
  end.
(** /repo/src/main.rs:15-49 [run]: the exit code ([None] for a panic) and the
    effects.  Log messages (standard error) are left out. *)
Definition run (o : O) : option nat * list effect :=
  match read_input_string o with
  | Err _ => (Some 1, [])
  | Panic => (None, [])
  | Ok input => match try_run o input with
                | (Ok _, es) => (Some 0, es)
                | (Err _, es) => (Some 1, es)
                | (Panic, es) => (None, es)
                end
  end.
End Main.
