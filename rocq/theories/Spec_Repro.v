(** Specification for C73: how many iterations a worker has completed. *)
From Verif Require Import Base M_Data M_Scoring M_Rng M_Critical M_Search M_Flow M_Climb M_Threads.

Definition is_iteration (ls : list label) : bool := match ls with [LIterated] => true | _ => false end.
(** The number of iterations that worker [i] completes in the trace [tr]. *)
Definition iterations_of (i : nat) (tr : list (option nat * list label)) : nat :=
  length (filter (fun l => match fst l with Some j => j =? i | None => false end && is_iteration (snd l)) tr).
