(** Specification vocabulary: which schedulings a session can come to. *)
From Verif Require Import Base M_Data Spec M_Rng M_Critical M_Search M_Climb M_Threads Spec_Climb.

(** Schedulings that arise from those in [from] by moving single choices and by
    handing slots on along cycles of choices, all stops being valid. *)
Inductive reached (d : input_data) (from : scheduling -> Prop) : scheduling -> Prop :=
| rc_from : forall S, from S -> reached d from S
| rc_move : forall S S', reached d from S -> one_move d S S' -> valid_scheduling d S' -> reached d from S'
| rc_swap : forall S S' cycle, reached d from S -> NoDup cycle -> (forall c, In c cycle -> c < length S) -> rotated cycle S S' ->
    valid_scheduling d S' -> reached d from S'.

(** The scheduling search of some worker can deliver [S]. *)
Definition drawn (pr : profile) (P : problem) (ws : nat -> world) (S : scheduling) : Prop :=
  exists i tn t n, next_scheduling pr (p_input P) (w_sched (ws i)) (p_analysis P) true (p_cs_timeout P) (tn_search tn) (tn_relax tn) t = Some (Ok n) /\
    nx_sched n = Some S.

(** A worker of the session has computed an assignment for [S] (or found that
    there is none). *)
Definition tried (s : session) (S : scheduling) : Prop :=
  exists wk sol, In wk (se_workers s) /\ In sol (hc_found (sg_climber (wk_gun wk))) /\ sol_scheduling sol = Some S.
