(** The program as a whole: /repo/src/main.rs with the script interface, the
    preparation and the solve session modelled elsewhere. *)
From Verif Require Import Base M_Data M_Scoring M_Rng M_Critical M_Search M_Flow M_Climb M_Threads M_Output.
From Verif Require M_Script.
From Coq Require Import String.
Notation length := Datatypes.length.
Notation get := Base.get.
Open Scope list_scope.
Import M_Script(settings, s_inputs, s_output, s_any, s_pref_exp, s_cs_timeout, s_no_cs, s_no_cs_simp, s_threads, s_max_neighbors, s_greedy, op, read_script).

(** /repo/src/prepared_problem.rs:19-34 [PreparedProblem::new] and
    /repo/src/threaded_solver.rs:72-74 [ThreadedSolver::new].  [pow x] and
    [cost x] are [f32::powf] and the edge cost with preference exponent [x]. *)
Definition prepare {F} (pr : profile) (pow : F -> f32 -> f32) (cost : F -> N -> Z) (o : settings F) (d : input_data) : outcome problem :=
  let* an := prepare_analysis pr d (s_no_cs o) (s_greedy o) (s_no_cs_simp o) in
  let* st := new_static d in
  Ok (mkProblem d an st (pow (s_pref_exp o)) (cost (s_pref_exp o)) (s_greedy o) (s_any o) (N.to_nat (s_max_neighbors o)) (s_cs_timeout o)).

(** /repo/src/main.rs:95-108: preparing, starting and waiting; [r] is a possible
    result.  Nothing is assumed of the schedule; [good] is what is assumed of the
    worlds of the workers (random engines, LP library, clock). *)
Inductive solved {F} (good : world -> Prop) (pr : profile) (pow : F -> f32 -> f32) (cost : F -> N -> Z) (o : settings F) (d : input_data)
  : outcome solution -> Prop :=
| sv_unprepared : prepare pr pow cost o d = Panic -> solved good pr pow cost o d Panic
| sv_session P ws tr s : prepare pr pow cost o d = Ok P -> (forall i, good (ws i)) ->
    moves pr P ws (start P (N.to_nat (s_threads o))) tr s -> forallb is_finished (se_workers s) = true ->
    solved good pr pow cost o d (wait s).

(** /repo/src/main.rs:51-56: the script engine (Rhai, not modelled) turns the text
    into calls of the script interface and possibly a final error. *)
Definition script_reader {F} (pr : profile) (pf : string -> option F) (engine : settings F -> string -> list op * option string)
  (o : settings F) (text : string) : outcome input_data * settings F :=
  let (xs, fail) := engine o text in read_script pr pf o xs fail.

(** The surroundings [e] of a run of the program with command-line options [o]. *)
(** /repo/src/main.rs:11-162. *)
Record program {F} (good : world -> Prop) (pr : profile) (pf : string -> option F) (engine : settings F -> string -> list op * option string)
  (pow : F -> f32 -> f32) (cost : F -> N -> Z) (e : surroundings (settings F)) (o : settings F) : Prop := {
  pg_read : forall text, env_read e o text = script_reader pr pf engine o text;
  pg_solve : forall text d o', env_read e o text = (Ok d, o') -> solved good pr pow cost o' d (env_solve e o' d);
  (** /repo/src/main.rs:116-119 *)
  pg_score : forall o d sol, env_score e o d sol = evaluate pr (pow (s_pref_exp o)) (s_greedy o) d sol
}.
