(** The counter of solved instances and the search depth: the functions of M_Flow,
    M_Search and M_Climb again, with what they publish of both.  P_Effort proves
    that without these additions they are the functions of those files. *)
From Verif Require Import Base M_Data M_Scoring M_Rng M_Critical M_Search M_Flow M_Climb.

(** /repo/src/assignment_solver.rs:14 [lp_count], with the values sent to the
    progress channel (line 427, /repo/src/shotgun_solver.rs:80-90), oldest first;
    [mt_limits] only records the limit of each instance. *)
Record meter := mkMeter { mt_count : nat; mt_sent : list nat; mt_limits : list N }.
(** /repo/src/assignment_solver.rs:50-63 [new_with_progress]: [lp_count: 0]. *)
Definition new_meter : meter := mkMeter 0 [] [].
(** /repo/src/assignment_solver.rs:426-427: [lp_count += 1] and [publish_lp]. *)
Definition tick_meter (limit : N) (m : meter) : meter :=
  mkMeter (mt_count m + 1) (mt_sent m ++ [mt_count m + 1]) (mt_limits m ++ [limit]).

(** /repo/src/assignment_solver.rs:345-471 [solve_with_limit] with the counter. *)
Definition solve_with_limit_m (pr : profile) (d : input_data) (sd : static) (cost : N -> Z) (ev : env) (deadline : bool)
  (st : sched_state) (limit : N) (t : nat) (m : meter) : outcome (limit_result * nat * meter) :=
  let late n := deadline && ev_expired ev n in
  if late t then Ok (LIncomplete, t + 1, m)
  else
    let* f := build_flow pr d sd cost st limit in
    let m := tick_meter limit m in
    if late (t + 1) then Ok (LIncomplete, t + 2, m)
    else match ev_lp ev (t + 2) f with
         | None => Ok (if late (t + 3) then LIncomplete else LInfeasible, t + 4, m)
         | Some g => let* A := decode d sd st f (map g (seq 0 (length (fl_edges f)))) in
                     Ok (LFeasible A, t + 4, m)
         end.

(** /repo/src/assignment_solver.rs:112-148: the binary search with the counter. *)
Fixpoint level_search_m (solve : N -> nat -> meter -> outcome (limit_result * nat * meter)) (levels : list N) (start : nat)
  (fuel low high : nat) (best : option assignment) (optimal : bool) (t : nat) (m : meter)
  : option (outcome (option assignment * bool * nat * meter)) :=
  if negb (low <=? high) then Some (Ok (best, optimal, t, m))
  else match fuel with
       | O => None
       | S fuel =>
           let mid := low + (high - low) / 2 in
           match get levels mid with
           | Ok limit =>
               match solve limit t m with
               | Ok (LFeasible A, t', m') =>
                   if mid =? start then Some (Ok (Some A, optimal, t', m'))
                   else level_search_m solve levels start fuel low (mid - 1) (Some A) optimal t' m'
               | Ok (LInfeasible, t', m') => level_search_m solve levels start fuel (mid + 1) high best optimal t' m'
               | Ok (LIncomplete, t', m') => level_search_m solve levels start fuel (mid + 1) high best false t' m'
               | Err e => Some (Err e)
               | Panic => Some Panic
               end
           | Err e => Some (Err e)
           | Panic => Some Panic
           end
       end.

(** /repo/src/assignment_solver.rs:71-151 [solve_until] with the counter. *)
Definition solve_until_m (pr : profile) (d : input_data) (sd : static) (cost : N -> Z) (greedy : bool) (bound : N) (ev : env)
  (deadline : bool) (sv : solver) (S : scheduling) (t : nat) (m : meter) : option (outcome (answer * meter)) :=
  let start := search_start d bound in
  match prepare_state pr d sd (sv_state sv) S with
  | Panic => Some Panic
  | Err e => Some (Err e)
  | Ok st =>
      let fresh :=
        if greedy then
          Some (let* rt := solve_with_limit_m pr d sd cost ev deadline st (i_max_pref d) t m in
                match rt with
                | (LFeasible A, t', m') => Ok (finish (Some A) st true sv t', m')
                | (_, t', m') => Ok (finish None st false sv t', m')
                end)
        else match length (i_levels d) with
             | O => Some (Ok (mkAnswer None false true (mkSolver (Some st) (sv_cache sv)) t, m))
             | Datatypes.S last =>
                 match level_search_m (solve_with_limit_m pr d sd cost ev deadline st) (i_levels d) start (length (i_levels d) + 1)
                         start last None true t m with
                 | Some (Ok (best, optimal, t', m')) => Some (Ok (finish best st optimal sv t', m'))
                 | Some (Err e) => Some (Err e)
                 | Some Panic => Some Panic
                 | None => None
                 end
             end in
      match sv_cache sv with
      | Some (slots, A, opt) =>
          if same_slots slots (ss_slots st) && opt then Some (Ok (mkAnswer (Some A) true true (mkSolver (Some st) (sv_cache sv)) t, m))
          else fresh
      | None => fresh
      end
  end.

(** ** Search depth *)

(** /repo/src/scheduling_solver.rs:595-598 and /repo/src/threaded_solver.rs:94-95:
    [u16::try_from(n).map_or(f32::INFINITY, f32::from)]. *)
Definition depth_value (n : nat) : f32 := if (N.of_nat n <=? 65535)%N then f32_of_N (N.of_nat n) else f32_inf.

(** /repo/src/scheduling_solver.rs:519-580: the depths published by one turn of the
    loop: at its start (522) and after it went down or back (568, 579). *)
Definition turn_depths (order : list nat) (m : mach) (r : stepped) : list nat :=
  if m_depth m <? length order
  then m_depth m :: match r with Continue m' => [m_depth m'] | Done _ _ => [] end
  else [].
(** /repo/src/scheduling_solver.rs:519-580 with the published depths. *)
Fixpoint run_m (pr : profile) (d : input_data) (o : oracle) (late : nat -> bool) (sets : list cset)
  (order : list nat) (suffix : list N) (fuel : nat) (m : mach) : option (outcome (sresult * nat * list nat)) :=
  match fuel with
  | O => None
  | Datatypes.S f =>
      match step pr d o late sets order suffix m with
      | Ok (Continue m') =>
          match run_m pr d o late sets order suffix f m' with
          | Some (Ok (r, t, ds)) => Some (Ok (r, t, turn_depths order m (Continue m') ++ ds))
          | other => other
          end
      | Ok (Done r t) => Some (Ok (r, t, turn_depths order m (Done r t)))
      | Err e => Some (Err e)
      | Panic => Some Panic
      end
  end.
(** /repo/src/scheduling_solver.rs:501-593 [solve_scheduling] with the published depths. *)
Definition solve_scheduling_m (pr : profile) (d : input_data) (o : oracle) (late : nat -> bool) (sets : list cset)
  (tick fuel : nat) : option (outcome (sresult * nat * list nat)) :=
  let order := choice_scramble d o tick in
  match max_suffix pr d order with
  | Ok suffix =>
      run_m pr d o late sets order suffix fuel
          (mkMach (new_state (length (i_choices d)) (length (i_slots d))) [] 0 (Datatypes.S tick))
  | Err e => Some (Err e)
  | Panic => Some Panic
  end.
(** /repo/src/scheduling_solver.rs:116-166: the relaxation loop with the published
    depths; after a success the number of choices (163-164). *)
Fixpoint relax_m (pr : profile) (d : input_data) (o : oracle) (a : analysis) (deadline : bool) (cs_timeout : Z)
  (sfuel fuel : nat) (limit : N) (tick : nat) : option (outcome (next_result * list nat)) :=
  match fuel with
  | O => None
  | Datatypes.S f =>
      if negb (limit =? i_max_pref d)%N && (cs_timeout <? 0)%Z then Some Panic
      else
        match solve_scheduling_m pr d o (late_at d o deadline limit) (for_preference a limit) tick sfuel with
        | None => None
        | Some (Err e) => Some (Err e)
        | Some Panic => Some Panic
        | Some (Ok (r, tick', ds)) =>
            match result_slots r with
            | [] =>
                if (limit =? i_max_pref d)%N then Some (Ok (mkNext [limit] r None tick', ds))
                else match relax_m pr d o a deadline cs_timeout sfuel f (preference_after d limit) tick' with
                     | Some (Ok (n, ds')) => Some (Ok (mkNext (limit :: nx_limits n) (nx_last n) (nx_sched n) (nx_tick n), ds ++ ds'))
                     | other => other
                     end
            | slots => Some (let* s := slots_to_scheduling d slots in
                             Ok (mkNext [limit] r (Some s) tick', ds ++ [length (i_choices d)]))
            end
        end
  end.
(** /repo/src/scheduling_solver.rs:103-167 [next_scheduling] with the published depths. *)
Definition next_scheduling_m (pr : profile) (d : input_data) (o : oracle) (a : analysis) (deadline : bool) (cs_timeout : Z)
  (sfuel fuel tick : nat) : option (outcome (next_result * list nat)) :=
  match next_in_range pr (o_sample o tick) 0 pref_relaxation with
  | Ok z => relax_m pr d o a deadline cs_timeout sfuel fuel
              (if (z =? 0)%Z then i_max_pref d else an_bound a) (Datatypes.S tick)
  | Err e => Some (Err e)
  | Panic => Some Panic
  end.

(** ** The worker *)

(** /repo/src/shotgun_solver.rs:17-26 [WorkerProgressEvent]: the events of M_Climb, LP
    counts (80-90) and depths (44-54). *)
Inductive message := Told (e : event) | ToldLp (n : nat) | ToldDepth (x : f32).

(** /repo/src/hill_climbing_solver.rs:107-117 [solve_assignment] with the counter
    and the messages. *)
Definition solve_candidate_m (pr : profile) (P : problem) (w : world) (deadline : bool) (S : scheduling) (h : climber) (m : meter)
  : option (outcome (solution * climber * meter * list message)) :=
  let? am := solve_until_m pr (p_input P) (p_static P) (p_cost P) (p_greedy P) (an_bound (p_analysis P)) (w_env w) deadline
              (hc_solver h) S (hc_atick h) m in
  let (a, m') := am in
  let n := hc_assignments h + 1 in
  let sol := new_solution S (ar_result a) in
  Some (Ok (sol, mkClimber (ar_solver a) (hc_tick h) (ar_tick a) n (hc_found h ++ [sol]), m',
            map ToldLp (skipn (length (mt_sent m)) (mt_sent m')) ++ [Told (EvAssignments n)])).
(** /repo/src/hill_climbing_solver.rs:66-92: the neighbours of one step. *)
Fixpoint explore_m (pr : profile) (P : problem) (w : world) (deadline : bool) (ns : list scheduling) (b : best) (found : bool)
  (h : climber) (m : meter) (ev : list message) : option (outcome (bool * bool * best * climber * meter * list message)) :=
  match ns with
  | [] => Some (Ok (true, found, b, h, m, ev))
  | n :: ns =>
      let h' := at_tick h (hc_tick h + 1) in
      if deadline && o_late (w_hill w) (hc_tick h) then Some (Ok (false, found, b, h', m, ev))
      else
        let? she := solve_candidate_m pr P w deadline n h' m in
        let '(sol, h', m', e) := she in
        let? sc := Some (score_of pr P sol) in
        if score_lt sc (b_score b)
        then explore_m pr P w deadline ns (mkBest sol sc) true h' m' (ev ++ e ++ [Told (EvBest sol sc)])
        else explore_m pr P w deadline ns b found h' m' (ev ++ e)
  end.
(** /repo/src/hill_climbing_solver.rs:59-98: the loop over steps. *)
Fixpoint climb_m (pr : profile) (P : problem) (w : world) (deadline : bool) (sw fuel : nat) (b : best) (h : climber) (m : meter)
  (ev : list message) : option (outcome (best * climber * meter * list message)) :=
  match fuel with
  | O => None
  | Datatypes.S fuel =>
      let late := deadline && o_late (w_hill w) (hc_tick h) in
      let t := hc_tick h + 1 in
      if late then Some (Ok (b, at_tick h t, m, ev))
      else
        let? cur := Some (expect (sol_scheduling (b_sol b))) in
        let? nt := pick_neighbors pr (p_input P) (w_hill w) sw (p_max_neighbors P) cur t in
        let? r := explore_m pr P w deadline (fst nt) b false (at_tick h (snd nt)) m ev in
        let '(all, found, b', h', m', ev') := r in
        if all && found then climb_m pr P w deadline sw fuel b' h' m' ev' else Some (Ok (b', h', m', ev'))
  end.
(** /repo/src/hill_climbing_solver.rs:36-101 [HillClimbingSolver::solve]. *)
Definition hill_solve_m (pr : profile) (P : problem) (w : world) (deadline : bool) (tn : turns) (S : scheduling) (h : climber) (m : meter)
  : option (outcome (solution * climber * meter * list message)) :=
  let? she := solve_candidate_m pr P w deadline S h m in
  let '(sol, h, m, e) := she in
  let? sc := Some (score_of pr P sol) in
  if negb (score_finite sc) then Some (Ok (SolInvalid, h, m, e))
  else
    let? r := climb_m pr P w deadline (tn_swap tn) (tn_climb tn) (mkBest sol sc) h m (e ++ [Told (EvBest sol sc)]) in
    let '(b, h, m, ev) := r in
    Some (Ok (b_sol b, h, m, ev)).
(** /repo/src/shotgun_solver.rs:172-207: [iterate]. *)
Fixpoint iterate_m (pr : profile) (P : problem) (w : world) (deadline : bool) (tn : turns) (number : nat) (g : shotgun) (m : meter)
  : option (outcome (nat * shotgun * meter * list message)) :=
  match number with
  | O => Some (Ok (0, g, m, []))
  | Datatypes.S number =>
      let g1 := mkShotgun (sg_climber g) (sg_stick g) (sg_tick g + 1) (sg_iterations g) (sg_best g) in
      if deadline && w_late w (sg_tick g) then Some (Ok (0, g1, m, []))
      else
        let? nd := next_scheduling_m pr (p_input P) (w_sched w) (p_analysis P) deadline (p_cs_timeout P)
                    (tn_search tn) (tn_relax tn) (sg_stick g) in
        let (n, ds) := nd in
        let deep := map (fun x => ToldDepth (depth_value x)) ds in
        match nx_sched n with
        | None => Some (Ok (0, mkShotgun (sg_climber g) (nx_tick n) (sg_tick g + 1) (sg_iterations g) (sg_best g), m, deep))
        | Some cur =>
            let? r := hill_solve_m pr P w deadline tn cur (sg_climber g) m in
            let '(sol, h, m, ev) := r in
            let? sc := Some (score_of pr P sol) in
            let better := score_lt sc (b_score (sg_best g)) in
            let n1 := sg_iterations g + 1 in
            let g2 := mkShotgun h (nx_tick n) (sg_tick g + 1) n1 (if better then mkBest sol sc else sg_best g) in
            let? r := iterate_m pr P w deadline tn number g2 m in
            let '(k, g3, m, ev') := r in
            Some (Ok (k + 1, g3, m, deep ++ ev ++ (if better then [Told (EvBest sol sc)] else []) ++ [Told (EvIterations n1)] ++ ev'))
        end
  end.

(** ** The poller's view *)

(** /repo/src/threaded_solver.rs:207-225: the two fields left out of M_Threads. *)
Record gauge := mkGauge { ga_depth : f32; ga_lp : nat }.
(** /repo/src/threaded_solver.rs:275-287 [empty_progress]. *)
Definition empty_gauge : gauge := mkGauge f32_zero 0.
(** /repo/src/threaded_solver.rs:207-218: one message. *)
Definition hear (g : gauge) (x : message) : gauge :=
  match x with
  | Told _ => g
  | ToldLp n => mkGauge (ga_depth g) n
  | ToldDepth v => mkGauge v (ga_lp g)
  end.
(** /repo/src/threaded_solver.rs:229-259: the aggregate over all threads. *)
Definition shown_lp (gs : list gauge) : nat := fold_left (fun n g => n + ga_lp g) gs 0.
(** /repo/src/threaded_solver.rs:229, 251, 257: the mean depth. *)
Definition shown_depth (gs : list gauge) : f32 :=
  f32_div (fold_left (fun x g => f32_add x (ga_depth g)) gs f32_zero) (depth_value (Nat.max (length gs) 1)).
(** /repo/src/threaded_solver.rs:94-95 [max_sched_depth]. *)
Definition max_depth (d : input_data) : f32 := depth_value (length (i_choices d)).
