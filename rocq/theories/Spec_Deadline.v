(** Specification vocabulary for C77: what a passed deadline means. *)
From Verif Require Import Base M_Data M_Scoring M_Rng M_Critical M_Search M_Flow M_Climb M_Threads.

(** From request number [t] on, the clock reports that the deadline has passed. *)
Definition past (clock : nat -> bool) (t : nat) : Prop := forall n, t <= n -> clock n = true.
(** Two worlds that differ at most in the answers of the LP library. *)
Definition same_but_lp (w w' : world) : Prop :=
  w_sched w = w_sched w' /\ w_hill w = w_hill w' /\ w_late w = w_late w' /\ ev_expired (w_env w) = ev_expired (w_env w').
