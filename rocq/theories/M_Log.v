(** The program with its messages: /repo/src/main.rs with the lines it logs (standard
    error) at the default level, "info" (/repo/src/status.rs:318-340).  Messages of the
    debug and trace levels, colours and the level tag are left out. *)
From Verif Require Import Base M_Data M_Scoring M_Names M_Rng M_Critical M_Search M_Flow M_Climb M_Threads M_Status M_Output M_Main M_Warn.
From Verif Require M_Script.
From Coq Require Import String Ascii.
Notation length := Datatypes.length.
Open Scope list_scope.
Import M_Script(settings, s_inputs, s_output, s_pref_exp, s_no_cs, s_no_cs_simp, s_greedy).

(** /repo/src/status.rs:30-58: the kinds of messages. *)
Inductive severity := Info | Warning | Error.
(** What can be seen of a run, in order: lines logged (/repo/src/status.rs:225-237), tables
    delivered (/repo/src/main.rs:152-162). *)
Inductive entry := Said (s : severity) (text : string) | Gave (x : effect).
(** A computation that logs (calls of [status::info] etc., /repo/src/main.rs:52-128). *)
Definition logged (A : Type) : Type := outcome A * list entry.
(** [status::info] and its like (/repo/src/status.rs:41-58). *)
Definition say (s : severity) (text : string) : logged unit := (Ok tt, [Said s text]).
(** A step that logs nothing (as at /repo/src/main.rs:55). *)
Definition quiet {A} (x : outcome A) : logged A := (x, []).
(** [?] and sequencing (as at /repo/src/main.rs:55, 106-107): what was logged stays logged. *)
Definition andthen {A B} (m : logged A) (f : A -> logged B) : logged B :=
  match fst m with
  | Ok x => (fst (f x), snd m ++ snd (f x))
  | Err s => (Err s, snd m)
  | Panic => (Panic, snd m)
  end.
(** A decimal number in a message (as at /repo/src/main.rs:58-63). *)
Definition dec (n : nat) : string := n_to_string (N.of_nat n).
(** A backquote, around paths (/repo/src/main.rs:155). *)
Definition backquote : string := String (ascii_of_nat 96) "".

Section Log.
Context {F : Type} (pr : profile) (pow : F -> f32 -> f32) (pow64 : F -> f64 -> f64) (cost : F -> N -> Z) (e : surroundings (settings F)).
(** The text behind "Solved" in the line of [track_solver], /repo/src/status.rs:91-95 (see [track] in M_Status.v). *)
Context (numbers : settings F -> input_data -> string).
Open Scope string_scope.

(** /repo/src/critical_set_analysis.rs:103-182 [analyze], its messages (149-152, 178-181). *)
Definition analyze_log (d : input_data) (simplify : bool) : logged unit :=
  andthen (quiet (analyze_sets pr d)) (fun sets =>
  andthen (say Info ("Critical-set analysis complete: " ++ dec (length sets) ++ " set(s).")) (fun _ =>
  if simplify then say Info ("Critical-set simplification complete: " ++ dec (length (simplify_sets sets)) ++ " set(s).") else quiet (Ok tt))).
(** /repo/src/main.rs:80-101: preparing, with messages. *)
Definition prepare_log (o : settings F) (d : input_data) : logged unit :=
  let do_cs := (negb (s_no_cs o) && negb (s_greedy o) && (1 <? length (i_slots d))%nat)%bool in
  let do_simplify := (do_cs && negb (s_no_cs_simp o))%bool in
  andthen (say Info (if do_cs then if do_simplify then "Performing critical set analysis with simplification."
                                   else "Performing critical set analysis without simplification."
                     else "Skipping critical set analysis.")) (fun _ =>
  andthen (if do_cs then analyze_log d do_simplify else quiet (Ok tt)) (fun _ =>
  andthen (quiet (prepare pr pow cost o d)) (fun P =>
  if do_cs then say Info ("Critical set analysis gives a preference bound of " ++ n_to_string (an_bound (p_analysis P)) ++ ".") else quiet (Ok tt)))).
(** /repo/src/main.rs:152-162 [output_string]. *)
Definition output_log (text suffix : string) (o : settings F) : logged unit :=
  match s_output o with
  | Some f => let path := f ++ suffix in
              andthen (say Info ("Writing output to " ++ backquote ++ path ++ backquote ++ ".")) (fun _ =>
              if env_writable e path then (Ok tt, [Gave (EFile path text)]) else quiet (Err "write"))
  | None => (Ok tt, [Gave (EPrint (text ++ String nl (String nl "")))])
  end.
(** /repo/src/main.rs:51-129 [try_run]; the line of [track_solver] is logged at /repo/src/status.rs:90-96. *)
Definition try_run_log (o : settings F) (input : string) : logged unit :=
  andthen (say Info "Processing input.") (fun _ =>
  andthen (quiet (match fst (env_read e o input) with Ok d => Ok (d, snd (env_read e o input)) | Err m => Err m | Panic => Panic end)) (fun x =>
  let d := fst x in let o := snd x in
  andthen (say Info ("Read " ++ dec (length (i_slots d)) ++ " slot(s), " ++ dec (length (i_choices d)) ++ " choice(s) and " ++ dec (length (i_choosers d)) ++ " chooser(s).")) (fun _ =>
  andthen (say Info ("Found " ++ dec (length (i_sched d)) ++ " scheduling and " ++ dec (length (i_assign d)) ++ " assignment constraints.")) (fun _ =>
  andthen (if warns (pow64 (s_pref_exp o)) d
           then say Warning "The preference exponent is too large; computations may cause an integer overflow" else quiet (Ok tt)) (fun _ =>
  andthen (prepare_log o d) (fun _ =>
  andthen (say Info "Generating static data and starting solver.") (fun _ =>
  andthen (quiet (env_solve e o d)) (fun sol =>
  andthen (say Info (match sol with SolInvalid => "No solution found." | _ => "Solved " ++ numbers o d end)) (fun _ =>
  if is_invalid sol then say Info "No solution found." else
  andthen (say Info "Solution found.") (fun _ =>
  andthen (quiet (env_score e o d sol)) (fun sc =>
  andthen (say Info ("Solution score: " ++ score_text sc)) (fun _ =>
  andthen (if (1 <? length (i_slots d))%nat
           then andthen (quiet (write_scheduling d sol)) (fun t => output_log t ".scheduling.csv" o) else quiet (Ok tt)) (fun _ =>
  andthen (quiet (write_assignment d sol)) (fun t => output_log t ".assignment.csv" o)))))))))))))).
(** /repo/src/main.rs:15-49 [run]: exit code and everything that can be seen. *)
Definition run_log (o : settings F) : option nat * list entry :=
  match read_input_string s_inputs e o with
  | Err m => (Some 1%nat, [Said Error ("Error in input: " ++ m)])
  | Panic => (None, [])
  | Ok input => match try_run_log o input with
                | (Ok _, l) => (Some 0%nat, l)
                | (Err m, l) => (Some 1%nat, (l ++ [Said Error ("Error in input: " ++ m)%string])%list)
                | (Panic, l) => (None, l)
                end
  end.
End Log.
