(** Model of the local search and of a worker's iterations:
    /repo/src/hill_climbing_solver.rs, /repo/src/shotgun_solver.rs. *)
From Verif Require Import Base M_Data M_Scoring M_Rng M_Critical M_Search M_Flow.

(** Results of computations that may loop: [None] means that the given number of
    turns was not enough. *)
(** Sequencing for such results (no counterpart in /repo: the loops are those of
    /repo/src/hill_climbing_solver.rs:59-98, 143-152 and /repo/src/scheduling_solver.rs:116-153, 519-580). *)
Definition bindo {A B} (x : option (outcome A)) (f : A -> option (outcome B)) : option (outcome B) :=
  match x with
  | None => None
  | Some (Ok a) => f a
  | Some (Err e) => Some (Err e)
  | Some Panic => Some Panic
  end.
Notation "'let?' x := e 'in' f" := (bindo e (fun x => f)) (at level 200, x pattern, e at level 100, f at level 200, right associativity).

(** /repo/src/prepared_problem.rs:5-14 [PreparedProblem] and the options read by
    the solvers.  [p_pow] is [powf] of scoring, [p_cost] the edge cost of a
    preference, [p_cs_timeout] is [critical_set_timeout_seconds]. *)
Record problem := mkProblem {
  p_input : input_data;
  p_analysis : analysis;
  p_static : static;
  p_pow : f32 -> f32;
  p_cost : N -> Z;
  p_greedy : bool;
  p_any : bool;
  p_max_neighbors : nat;
  p_cs_timeout : Z
}.
(** What a worker cannot control: its two random engines
    (shotgun_solver.rs:127-128), the LP library and the clock.  [o_late] of
    [w_hill] answers the deadline tests of the local search, [o_late] of
    [w_sched] those of the scheduling search, [w_late] those of the worker. *)
Record world := mkWorld { w_sched : oracle; w_hill : oracle; w_env : env; w_late : nat -> bool }.
(** Turns granted to the loops. *)
(** A device of the model, one number for each loop: /repo/src/scheduling_solver.rs:519-580 and 116-153,
    /repo/src/hill_climbing_solver.rs:143-152 and 59-98. *)
Record turns := mkTurns { tn_search : nat; tn_relax : nat; tn_swap : nat; tn_climb : nat }.

(** /repo/src/hill_climbing_solver.rs:103-105 [max_neighbor_key]. *)
Definition n_cells (d : input_data) : nat := length (i_choices d) * length (i_slots d).

(** /repo/src/scheduling.rs:19-22 [Scheduling::with_data]. *)
Definition with_data (d : input_data) (data : scheduling) : outcome scheduling :=
  if length data =? length (i_choices d) then Ok data else Panic.

(** [a >= b] on [Option<usize>]: [None] is smallest. *)
(** Used at /repo/src/hill_climbing_solver.rs:125. *)
Definition opt_ge (a b : option nat) : bool :=
  match a, b with
  | _, None => true
  | None, Some _ => false
  | Some x, Some y => y <=? x
  end.
(** /repo/src/hill_climbing_solver.rs:119-130 [neighbor]. *)
Definition neighbor (d : input_data) (S : scheduling) (key : nat) : outcome scheduling :=
  let cc := length (i_choices d) in
  if cc =? 0 then Panic
  else
    let slot := match key / cc with O => None | Datatypes.S n => Some n end in
    let choice := key mod cc in
    let* cur := get S choice in
    let slot := if opt_ge slot cur then match slot with Some s => Some (s + 1) | None => Some 0 end else slot in
    let* data := set S choice slot in
    with_data d data.

(** /repo/src/hill_climbing_solver.rs:134-140 and 144-148: a random index below
    [len]; one request to the engine. *)
Definition random_index (pr : profile) (o : oracle) (len t : nat) : outcome nat :=
  let* n := to_i32 len in
  let* z := next_in_range pr (o_sample o t) 0 n in
  if (z <? 0)%Z then Panic else Ok (Z.to_nat z).
(** /repo/src/hill_climbing_solver.rs:143-153: an index not yet in the cycle. *)
Fixpoint fresh_index (pr : profile) (o : oracle) (len : nat) (taken : list nat) (fuel t : nat) : option (outcome (nat * nat)) :=
  match fuel with
  | O => None
  | Datatypes.S fuel =>
      let? i := Some (random_index pr o len t) in
      if existsb (Nat.eqb i) taken then fresh_index pr o len taken fuel (t + 1) else Some (Ok (i, t + 1))
  end.
(** /repo/src/hill_climbing_solver.rs:142-155: the cycle grows with probability
    1/3 up to half of the choices. *)
Fixpoint grow_cycle (pr : profile) (o : oracle) (len : nat) (sw fuel : nat) (idx : list nat) (t : nat) : option (outcome (list nat * nat)) :=
  match fuel with
  | O => None
  | Datatypes.S fuel =>
      let? z := Some (next_in_range pr (o_sample o t) 0 3) in
      if (z =? 0)%Z && (length idx <? len / 2) then
        let? it := fresh_index pr o len idx sw (t + 1) in
        grow_cycle pr o len sw fuel (idx ++ [fst it]) (snd it)
      else Some (Ok (idx, t + 1))
  end.
(** /repo/src/hill_climbing_solver.rs:156-159: rotate the slots along the cycle. *)
Fixpoint rotate (idx : list nat) (carry : option nat) (data : scheduling) : outcome scheduling :=
  match idx with
  | [] => Ok data
  | i :: t => let* x := get data i in let* data := set data i carry in rotate t x data
  end.
(** /repo/src/hill_climbing_solver.rs:132-162 [random_swap_neighbor]. *)
Definition swap_neighbor (pr : profile) (d : input_data) (o : oracle) (sw : nat) (S : scheduling) (t : nat) : option (outcome (scheduling * nat)) :=
  let len := length S in
  let? i := Some (random_index pr o len t) in
  let? it := grow_cycle pr o len sw (len + 1) [i] (t + 1) in
  Some (let* carry := get S (last (fst it) 0) in
        let* data := rotate (fst it) carry S in
        let* S' := with_data d data in
        Ok (S', snd it)).

(** /repo/src/hill_climbing_solver.rs:191-196 and 206-210: try one swap. *)
Definition add_swap (pr : profile) (d : input_data) (o : oracle) (sw : nat) (S : scheduling) (res : list scheduling) (t : nat)
  : option (outcome (list scheduling * nat)) :=
  let? nt := swap_neighbor pr d o sw S t in
  let? ok := Some (sched_is_feasible pr d (fst nt)) in
  Some (Ok (if ok then res ++ [fst nt] else res, snd nt)).
(** /repo/src/hill_climbing_solver.rs:178-198: the loop over the keys. *)
Fixpoint key_neighbors (pr : profile) (d : input_data) (o : oracle) (sw max : nat) (swaps : bool) (S : scheduling)
  (keys : list nat) (index : nat) (res : list scheduling) (t : nat) : option (outcome (list scheduling * nat)) :=
  match keys with
  | [] => Some (Ok (res, t))
  | k :: keys =>
      if max <=? length res then Some (Ok (res, t))
      else if max * 32 <? index then Some (Ok (res, t))
      else
        let? n := Some (neighbor d S k) in
        let? ok := Some (sched_is_feasible pr d n) in
        if negb ok then key_neighbors pr d o sw max swaps S keys (index + 1) res t
        else
          let? rt := if swaps then add_swap pr d o sw S (res ++ [n]) t else Some (Ok (res ++ [n], t)) in
          key_neighbors pr d o sw max swaps S keys (index + 1) (fst rt) (snd rt)
  end.
(** /repo/src/hill_climbing_solver.rs:202-210: the loop over further swaps. *)
Fixpoint swap_neighbors (pr : profile) (d : input_data) (o : oracle) (sw max : nat) (S : scheduling)
  (tries : nat) (res : list scheduling) (t : nat) : option (outcome (list scheduling * nat)) :=
  match tries with
  | O => Some (Ok (res, t))
  | Datatypes.S tries =>
      if max <=? length res then Some (Ok (res, t))
      else let? rt := add_swap pr d o sw S res t in swap_neighbors pr d o sw max S tries (fst rt) (snd rt)
  end.
(** /repo/src/hill_climbing_solver.rs:164-214 [pick_neighbors]. *)
Definition pick_neighbors (pr : profile) (d : input_data) (o : oracle) (sw max : nat) (S : scheduling) (t : nat)
  : option (outcome (list scheduling * nat)) :=
  let swaps := (1 <? length (i_choices d)) && (1 <? length (i_slots d)) in
  let keys := seq 0 (n_cells d) in
  let '(keys, t) := if max <? n_cells d then (o_shuffle o t keys, t + 1) else (keys, t) in
  let? rt := key_neighbors pr d o sw max swaps S keys 0 [] t in
  let '(res, t) := rt in
  if swaps && (length res <? max) then swap_neighbors pr d o sw max S (Nat.min (max - length res) (n_cells d) * 32) res t
  else Some (Ok (res, t)).

(** /repo/src/hill_climbing_solver.rs:7-15: the local search's own state
    ([hc_tick] counts requests to its engine and clock, [hc_atick] those of the
    assignment solver).  [hc_found] is not in the code: it records every
    candidate the assignment solver was asked for, with its answer. *)
Record climber := mkClimber { hc_solver : solver; hc_tick : nat; hc_atick : nat; hc_assignments : nat; hc_found : list solution }.
(** /repo/src/hill_climbing_solver.rs:18-34 [new_with_rng]. *)
Definition new_climber : climber := mkClimber new_solver 0 0 0 [].
(** The engine and the clock have been asked up to request [t] (no counterpart: /repo/src/hill_climbing_solver.rs:12
    holds the engine itself). *)
Definition at_tick (h : climber) (t : nat) : climber := mkClimber (hc_solver h) t (hc_atick h) (hc_assignments h) (hc_found h).

(** /repo/src/shotgun_solver.rs:17-26: the progress events ([publish_depth] and
    [publish_lp] left out). *)
Inductive event :=
| EvBest (sol : solution) (sc : score)
| EvIterations (n : nat)
| EvAssignments (n : nat).

(** /repo/src/solution.rs:26-38 [Solution::new] for a present scheduling. *)
Definition new_solution (S : scheduling) (A : option assignment) : solution :=
  match A with Some A => SolComplete S A | None => SolScheduling S end.
(** /repo/src/hill_climbing_solver.rs:107-117 [solve_assignment], with the
    [Solution::new] of its callers (lines 41-44 and 78-81). *)
Definition solve_candidate (pr : profile) (P : problem) (w : world) (deadline : bool) (S : scheduling) (h : climber)
  : option (outcome (solution * climber * event)) :=
  let? a := solve_until pr (p_input P) (p_static P) (p_cost P) (p_greedy P) (an_bound (p_analysis P)) (w_env w) deadline
              (hc_solver h) S (hc_atick h) in
  let n := hc_assignments h + 1 in
  let sol := new_solution S (ar_result a) in
  Some (Ok (sol, mkClimber (ar_solver a) (hc_tick h) (ar_tick a) n (hc_found h ++ [sol]), EvAssignments n)).
(** [Scoring::evaluate] with the problem's configuration. *)
(** Used at /repo/src/hill_climbing_solver.rs:49-52, 82-85 and /repo/src/shotgun_solver.rs:189-192. *)
Definition score_of (pr : profile) (P : problem) (sol : solution) : outcome score :=
  evaluate pr (p_pow P) (p_greedy P) (p_input P) sol.
(** /repo/src/solution.rs:47-52 [Solution::scheduling]. *)
Definition sol_scheduling (sol : solution) : option scheduling :=
  match sol with SolInvalid => None | SolScheduling x | SolComplete x _ => Some x end.

(** The best solution of a climb so far. *)
(** /repo/src/hill_climbing_solver.rs:41-52 [best_solution], [best_score]; also /repo/src/shotgun_solver.rs:13-14. *)
Record best := mkBest { b_sol : solution; b_score : score }.

(** /repo/src/hill_climbing_solver.rs:66-92: the neighbours of one step.  The
    result starts with two flags: were all neighbours explored (not so when the
    deadline was reached), and was a better one found. *)
Fixpoint explore (pr : profile) (P : problem) (w : world) (deadline : bool) (ns : list scheduling) (b : best) (found : bool)
  (h : climber) (ev : list event) : option (outcome (bool * bool * best * climber * list event)) :=
  match ns with
  | [] => Some (Ok (true, found, b, h, ev))
  | n :: ns =>
      let h' := at_tick h (hc_tick h + 1) in
      if deadline && o_late (w_hill w) (hc_tick h) then Some (Ok (false, found, b, h', ev))
      else
        let? she := solve_candidate pr P w deadline n h' in
        let '(sol, h', e) := she in
        let? sc := Some (score_of pr P sol) in
        if score_lt sc (b_score b)
        then explore pr P w deadline ns (mkBest sol sc) true h' (ev ++ [e; EvBest sol sc])
        else explore pr P w deadline ns b found h' (ev ++ [e])
  end.
(** /repo/src/hill_climbing_solver.rs:59-98: the loop over steps. *)
Fixpoint climb (pr : profile) (P : problem) (w : world) (deadline : bool) (sw fuel : nat) (b : best) (h : climber) (ev : list event)
  : option (outcome (best * climber * list event)) :=
  match fuel with
  | O => None
  | Datatypes.S fuel =>
      let late := deadline && o_late (w_hill w) (hc_tick h) in
      let t := hc_tick h + 1 in
      if late then Some (Ok (b, at_tick h t, ev))
      else
        let? cur := Some (expect (sol_scheduling (b_sol b))) in
        let? nt := pick_neighbors pr (p_input P) (w_hill w) sw (p_max_neighbors P) cur t in
        let? r := explore pr P w deadline (fst nt) b false (at_tick h (snd nt)) ev in
        let '(all, found, b', h', ev') := r in
        if all && found then climb pr P w deadline sw fuel b' h' ev' else Some (Ok (b', h', ev'))
  end.
(** /repo/src/hill_climbing_solver.rs:36-101 [HillClimbingSolver::solve]. *)
Definition hill_solve (pr : profile) (P : problem) (w : world) (deadline : bool) (tn : turns) (S : scheduling) (h : climber)
  : option (outcome (solution * climber * list event)) :=
  let? she := solve_candidate pr P w deadline S h in
  let '(sol, h, e) := she in
  let? sc := Some (score_of pr P sol) in
  if negb (score_finite sc) then Some (Ok (SolInvalid, h, [e]))
  else
    let? r := climb pr P w deadline (tn_swap tn) (tn_climb tn) (mkBest sol sc) h [e; EvBest sol sc] in
    let '(b, h, ev) := r in
    Some (Ok (b_sol b, h, ev)).

(** /repo/src/shotgun_solver.rs:7-15, 110-116: a worker's solver ([sg_stick]
    counts requests of the scheduling search, [sg_tick] looks at the clock). *)
Record shotgun := mkShotgun { sg_climber : climber; sg_stick : nat; sg_tick : nat; sg_iterations : nat; sg_best : best }.
(** /repo/src/shotgun_solver.rs:119-156 [new_with_seed]. *)
Definition no_best : best := mkBest SolInvalid score_infinite.
(** /repo/src/shotgun_solver.rs:119-156 [new_with_seed]. *)
Definition new_shotgun : shotgun := mkShotgun new_climber 0 0 0 no_best.

(** /repo/src/shotgun_solver.rs:172-207: [iterate], with the number of completed
    iterations and the published events. *)
Fixpoint iterate (pr : profile) (P : problem) (w : world) (deadline : bool) (tn : turns) (number : nat) (g : shotgun)
  : option (outcome (nat * shotgun * list event)) :=
  match number with
  | O => Some (Ok (0, g, []))
  | Datatypes.S number =>
      let g1 := mkShotgun (sg_climber g) (sg_stick g) (sg_tick g + 1) (sg_iterations g) (sg_best g) in
      if deadline && w_late w (sg_tick g) then Some (Ok (0, g1, []))
      else
        let? n := next_scheduling pr (p_input P) (w_sched w) (p_analysis P) deadline (p_cs_timeout P)
                    (tn_search tn) (tn_relax tn) (sg_stick g) in
        match nx_sched n with
        | None => Some (Ok (0, mkShotgun (sg_climber g) (nx_tick n) (sg_tick g + 1) (sg_iterations g) (sg_best g), []))
        | Some cur =>
            let? r := hill_solve pr P w deadline tn cur (sg_climber g) in
            let '(sol, h, ev) := r in
            let? sc := Some (score_of pr P sol) in
            let better := score_lt sc (b_score (sg_best g)) in
            let n1 := sg_iterations g + 1 in
            let g2 := mkShotgun h (nx_tick n) (sg_tick g + 1) n1 (if better then mkBest sol sc else sg_best g) in
            let? r := iterate pr P w deadline tn number g2 in
            let '(k, g3, ev') := r in
            Some (Ok (k + 1, g3, ev ++ (if better then [EvBest sol sc] else []) ++ [EvIterations n1] ++ ev'))
        end
  end.
