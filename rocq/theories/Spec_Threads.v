(** Specification vocabulary for the local search and solve sessions. *)
From Verif Require Import Base M_Data Spec M_Scoring M_Rng Spec_Search M_Critical M_Search M_Flow Spec_Flow Spec_Calls M_Climb M_Threads.

(** The solutions reported in a list of events, oldest first. *)
Definition bests (ev : list event) : list best :=
  flat_map (fun e => match e with EvBest s c => [mkBest s c] | _ => [] end) ev.

(** Every index comes up again and again in the engine's stream. *)
Definition visits (o : oracle) (n : nat) : Prop := forall t i, i < n -> exists k, (o_sample o (t + k) mod Z.of_nat n = Z.of_nat i)%Z.

(** A scheduling the local search may start from: one entry per choice, existing
    slots, only optional choices left out. *)
Definition startable (d : input_data) (S : scheduling) : Prop :=
  length S = length (i_choices d) /\ (forall c s, scheduled_in S c s -> s < length (i_slots d)) /\
  forall c ch, nth_error (i_choices d) c = Some ch -> not_held S c -> ch_optional ch = true.

(** The states of a local search object after any number of earlier climbs. *)
Inductive used (pr : profile) (P : problem) (w : world) : climber -> Prop :=
| us_new : used pr P w new_climber
| us_climb : forall h deadline tn S sol h' ev, used pr P w h -> startable (p_input P) S ->
    hill_solve pr P w deadline tn S h = Some (Ok (sol, h', ev)) -> used pr P w h'.

(** What worker [i] contributed to a log of received events. *)
Definition sent (i : nat) (log : list (nat * event)) : list event := map snd (filter (fun we => fst we =? i) log).
Definition prefix {A} (a b : list A) : Prop := exists c, b = a ++ c.
(** A log the caller may have received: of each worker a prefix of what it sent,
    in order; the workers interleaved in any way. *)
Definition from_workers (s : session) (log : list (nat * event)) : Prop :=
  forall i wk, nth_error (se_workers s) i = Some wk -> prefix (sent i log) (wk_events wk).
(** All of it. *)
Definition all_from_workers (s : session) (log : list (nat * event)) : Prop :=
  forall i wk, nth_error (se_workers s) i = Some wk -> sent i log = wk_events wk.
(** The reports of successive polls, [chunks] being what arrived before each. *)
Fixpoint polls (tps : list tprogress) (chunks : list (list (nat * event))) : list tprogress :=
  match chunks with
  | [] => []
  | c :: cs => snd (poll tps c) :: polls (fst (poll tps c)) cs
  end.
(** The table a session starts with (threaded_solver.rs:96). *)
Definition empties (s : session) : list tprogress := repeat empty_progress (length (se_workers s)).

Definition cancels (ls : list label) : bool := existsb (fun l => match l with LCancel => true | _ => false end) ls.
(** Every read of the flag in the trace returns its current value. *)
Fixpoint fresh_reads (flag : bool) (tr : list (option nat * list label)) : Prop :=
  match tr with
  | [] => True
  | (_, ls) :: tr => (forall seen, In (LLoad seen) ls -> seen = flag) /\ fresh_reads (flag || cancels ls) tr
  end.
(** How often worker [i] moves. *)
Definition moves_of (i : nat) (tr : list (option nat * list label)) : nat :=
  length (filter (fun l => match fst l with Some j => j =? i | None => false end) tr).

(** A prepared problem: a consistent input whose sizes stay within the machine
    integers, with the tables that preparation computes for it. *)
Record roomy (pr : profile) (P : problem) : Prop := {
  ro_fits : fits (p_input P);
  ro_wf : wf_input (p_input P);
  ro_search : searchable (p_input P);
  ro_analysis : analyzable (p_input P);
  ro_levels : levels_ok (p_input P);
  ro_groups : grouped (p_input P);
  ro_size : solvable_size (p_input P);
  ro_pref : (i_max_pref (p_input P) < u32_max)%N;
  ro_static : new_static (p_input P) = Ok (p_static P);
  ro_sets : exists analyze simplify, new_analysis pr (p_input P) analyze simplify = Ok (p_analysis P);
  ro_timeout : (0 <= p_cs_timeout P)%Z
}.
(** Worker environments in which the LP library gives no wrong answers and the
    random engines deliver 32-bit samples and permutations. *)
Definition working (ws : nat -> world) : Prop := forall i, honest_lp (w_env (ws i)) true /\ fair (w_hill (ws i)) /\ fair (w_sched (ws i)).

(** A clock that never reports that the time is up. *)
Definition calm (w : world) : Prop :=
  forall t, o_late (w_sched w) t = false /\ o_late (w_hill w) t = false /\ ev_expired (w_env w) t = false /\ w_late w t = false.
(** Nobody cancels from outside, and no worker leaves its loop because the time is
    up (a worker that reads the flag as set leaves with [LLoad true]). *)
Definition undisturbed (tr : list (option nat * list label)) : Prop := forall l, In l tr -> fst l <> None /\ snd l <> [LLoad false].
