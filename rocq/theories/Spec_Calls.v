(** Specification vocabulary for the assignment solver's calls and the LP library. *)
From Verif Require Import Base M_Data M_Scoring M_Flow Spec Spec_Flow.
Local Notation nc d := (length (i_choices d)).
Local Notation ns d := (length (i_slots d)).

(** One call: what was asked, in which environment, with or without a deadline,
    in which solver, starting at which look at the clock; and the answer. *)
Record call := mkCall { cl_sched : scheduling; cl_env : env; cl_deadline : bool; cl_before : solver; cl_tick : nat; cl_answer : answer }.
(** A scheduling of the right shape: one entry per choice, existing slots. *)
Definition shaped (d : input_data) (S : scheduling) : Prop := length S = nc d /\ forall c s, scheduled_in S c s -> s < ns d.
Section Calls.
Context (pr : profile) (d : input_data) (sd : static) (cost : N -> Z) (greedy : bool) (bound : N).
(** The answer is the one the code gives. *)
Definition run (c : call) : Prop :=
  solve_until pr d sd cost greedy bound (cl_env c) (cl_deadline c) (cl_before c) (cl_sched c) (cl_tick c) = Some (Ok (cl_answer c)).
(** The histories of one solver, latest call first. *)
Inductive history : list call -> solver -> Prop :=
| his_new : history [] new_solver
| his_call h c : history h (cl_before c) -> shaped d (cl_sched c) -> run c -> history (c :: h) (ar_solver (cl_answer c)).

End Calls.

(** The library's part: a point it reports is feasible; when it reports none,
    there is none, or the time is up when asked next. *)
Definition honest_lp (ev : env) (deadline : bool) : Prop := forall t f,
  match ev_lp ev t f with
  | Some g => feasible_point f (map g (seq 0 (length (fl_edges f))))
  | None => (deadline = true /\ ev_expired ev (t + 1) = true) \/ forall y, ~ feasible_point f y
  end.
(** A point it reports is a cheapest one. *)
Definition optimal_lp (ev : env) : Prop := forall t f g, ev_lp ev t f = Some g ->
  forall y, feasible_point f y -> (objective f (map g (seq 0 (length (fl_edges f)))) <= objective f y)%Z.
