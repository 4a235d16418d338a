(** Model of the scheduling search: /repo/src/scheduling_solver.rs. *)
From Verif Require Import Base M_Data M_Scoring M_Rng M_Critical.

(** /repo/src/scheduling_solver.rs:22-27 [SchedulingDecision]. *)
Inductive decision := Undecided | Omitted | InSlot (s : nat).
(** /repo/src/scheduling_solver.rs:37-44 [SchedulingDecision::slot]. *)
Definition dec_slot (x : decision) : option nat :=
  match x with InSlot s => Some s | _ => None end.
(** derived [PartialEq] against [Undecided]. *)
(** /repo/src/scheduling_solver.rs:22-27; used throughout 207-334. *)
Definition is_undecided (x : decision) : bool := match x with Undecided => true | _ => false end.

(** /repo/src/scheduling_solver.rs:29-35 [SchedulingSearchState]. *)
Record sstate := mkState {
  st_dec : list decision;
  st_min : list N;
  st_max : list N;
  st_cnt : list N
}.
(** /repo/src/scheduling_solver.rs:46-55 [SchedulingSearchState::new]. *)
Definition new_state (choices slots : nat) : sstate :=
  mkState (repeat Undecided choices) (repeat 0%N slots) (repeat 0%N slots) (repeat 0%N slots).

(** [u32::try_from(usize).expect(..)] *)
(** Used at /repo/src/scheduling_solver.rs:366, 385, 425. *)
Definition to_u32 (n : nat) : outcome N :=
  if (N.of_nat n <=? u32_max)%N then Ok (N.of_nat n) else Panic.
(** [i32::try_from(u32).expect(..)] *)
(** Used at /repo/src/scheduling_solver.rs:306-313. *)
Definition u32_to_i32 (n : N) : outcome Z :=
  if (Z.of_N n <=? i32_max)%Z then Ok (Z.of_N n) else Panic.

(** /repo/src/input_data.rs:42-46 [scheduling_constraints_for]. *)
Definition constraints_for (d : input_data) (choice : nat) : list constraint :=
  match nth_error (i_choice_map d) choice with Some l => l | None => i_sched d end.

(** /repo/src/scheduling_solver.rs:182-201: the test of one critical set. *)
Definition set_still_coverable (slot_count : nat) (dec : list decision) (s : cset) : outcome bool :=
  let* r := mfold (fun (acc : list bool * nat * nat) element =>
    let '(covered, count, missing) := acc in
    let* x := get dec element in
    match x with
    | Undecided => Ok (covered, count, Datatypes.S missing)
    | InSlot slot =>
        let* b := get covered slot in
        if b then Ok (covered, count, missing)
        else let* covered' := set covered slot true in Ok (covered', Datatypes.S count, missing)
    | Omitted => Ok (covered, count, missing)
    end) (set_data s) (repeat false slot_count, 0, 0) in
  let '(_, count, missing) := r in
  Ok (negb (count + missing <? slot_count)).

(** /repo/src/scheduling_solver.rs:175-205 [satisfies_critical_sets]. *)
Definition satisfies_critical_sets (d : input_data) (dec : list decision) (sets : list cset) : outcome bool :=
  mforall (set_still_coverable (length (i_slots d)) dec) sets.

(** /repo/src/scheduling_solver.rs:227-231, 239-243, 253-257: the other choice. *)
Definition other_of (choice : nat) (k : constraint) : outcome nat :=
  if c_left k =? choice then con_other_choice k else Ok (c_left k).

(** /repo/src/scheduling_solver.rs:263-290: the offset test against a decided choice. *)
Definition offset_ok (pr : profile) (d : input_data) (slot : option nat) (other : decision) (offset : Z) : outcome bool :=
  match other with
  | Undecided => Ok true
  | _ =>
      if negb (Bool.eqb (is_some (dec_slot other)) (is_some slot)) then Ok false
      else match dec_slot other, slot with
           | Some t, Some s =>
               let* t' := to_i32 t in let* s' := to_i32 s in
               let* diff := i32_wrap pr (t' - s')%Z in
               if negb (diff =? offset)%Z then Ok false
               else
                 let* neg := i32_wrap pr (- offset)%Z in
                 let* n := to_i32 (length (i_slots d)) in
                 let* up := i32_wrap pr (n - offset)%Z in
                 let min_slot := Z.max 0 neg in
                 let max_slot := Z.min n up in
                 Ok (negb ((s' <? min_slot)%Z || (max_slot <=? s')%Z))
           | _, _ => Ok true
           end
  end.

(** /repo/src/scheduling_solver.rs:214-320: one constraint of
    [satisfies_scheduling_constraints]. *)
Definition sat_con1 (pr : profile) (d : input_data) (choice : nat) (slot : option nat) (st : sstate) (k : constraint)
  : outcome bool :=
  match c_kind k with
  | ChoiceIsInSlot => let* t := con_slot k in Ok (opt_nat_eqb slot (Some t))
  | ChoiceIsNotInSlot => let* t := con_slot k in Ok (negb (opt_nat_eqb slot (Some t)))
  | ChoicesAreInSameSlot =>
      let* other := other_of choice k in
      let* x := get (st_dec st) other in
      Ok (negb (negb (is_undecided x) && negb (opt_nat_eqb (dec_slot x) slot)))
  | ChoicesAreNotInSameSlot =>
      let* other := other_of choice k in
      let* x := get (st_dec st) other in
      Ok (negb (negb (is_undecided x) && opt_nat_eqb (dec_slot x) slot && is_some slot))
  | ChoicesHaveOffset =>
      let* other := other_of choice k in
      let* z := con_offset k in
      let* offset := if other =? c_left k then i32_wrap pr (- z)%Z else Ok z in
      let* x := get (st_dec st) other in
      offset_ok pr d slot x offset
  | SlotHasLimitedSize =>
      if negb (opt_nat_eqb slot (Some (c_left k))) then Ok true
      else
        let* op := con_op k in
        match op with
        | OpGt | OpGeq | OpNeq => Ok true
        | OpEq | OpLt | OpLeq =>
            let* n := con_limit k in
            let* lim := u32_to_i32 n in
            let* c := get (st_cnt st) (c_left k) in
            let* cnt := u32_to_i32 c in
            let strict := match op with OpLt => 1 | _ => 0 end%Z in
            let* l1 := i32_wrap pr (lim - strict)%Z in
            let* l2 := i32_wrap pr (l1 - cnt)%Z in
            Ok (1 <=? l2)%Z
        end
  | _ => Panic
  end.

(** /repo/src/scheduling_solver.rs:336-359 [check_slot_size_constraints]. *)
Definition check_slot_sizes (pr : profile) (d : input_data) (slot : option nat) (cnt : list N) : outcome bool :=
  mforall (fun k =>
    if negb (kind_eqb (c_kind k) SlotHasLimitedSize) then Ok true
    else
      let* c := get cnt (c_left k) in
      let* count := add_u32 pr c (if opt_nat_eqb slot (Some (c_left k)) then 1 else 0)%N in
      let* op := con_op k in
      let* n := con_limit k in
      Ok (limit_ok op count n)) (i_sched d).

(** /repo/src/scheduling_solver.rs:207-334 [satisfies_scheduling_constraints]. *)
Definition sat_constraints (pr : profile) (d : input_data) (choice : nat) (slot : option nat) (st : sstate) : outcome bool :=
  let* ok := mforall (sat_con1 pr d choice slot st) (constraints_for d choice) in
  if negb ok then Ok false
  else if length (filter (fun x => negb (is_undecided x)) (st_dec st)) + 1 =? length (i_choices d)
       then check_slot_sizes pr d slot (st_cnt st)
       else Ok true.

(** /repo/src/scheduling_solver.rs:361-372 [has_impossibilities]. *)
Definition has_impossibilities (pr : profile) (d : input_data) (st : sstate) (avail : N) : outcome bool :=
  mexists (fun slot =>
    let* m := get (st_max st) slot in
    let* sum := add_u32 pr avail m in
    let* n := to_u32 (length (i_choosers d)) in
    Ok (sum <? n)%N) (seq 0 (length (i_slots d))).

(** /repo/src/scheduling_solver.rs:374-391 [calculate_critical_slots]. *)
Definition critical_slots (pr : profile) (d : input_data) (st : sstate) (avail : N) (choice : nat) : outcome (list nat) :=
  mfilter (fun slot =>
    let* c := get (i_choices d) choice in
    let* rest := sub_u32 pr avail (ch_max c) in
    let* m := get (st_max st) slot in
    let* sum := add_u32 pr rest m in
    let* n := to_u32 (length (i_choosers d)) in
    Ok (sum <? n)%N) (seq 0 (length (i_slots d))).

(** /repo/src/scheduling_solver.rs:417-436: the slots that pass, in slot order
    (no slot has low priority: [get_low_priority_slots], 451-453). *)
Definition passing_slots (pr : profile) (d : input_data) (st : sstate) (choice : nat) : outcome (list nat) :=
  mfilter (fun slot =>
    let* c := get (i_choices d) choice in
    let* m := get (st_min st) slot in
    let* sum := add_u32 pr (ch_min c) m in
    let* n := to_u32 (length (i_choosers d)) in
    if (n <? sum)%N then Ok false else sat_constraints pr d choice (Some slot) st) (seq 0 (length (i_slots d))).

(** /repo/src/scheduling_solver.rs:438 [sort_by_key] with the key
    (slot_max, slot) of [slot_order_heuristic_score] (393-399). *)
Definition key_le (a b : N * nat) : bool :=
  (fst a <? fst b)%N || (fst a =? fst b)%N && (snd a <=? snd b).
(** Used at /repo/src/scheduling_solver.rs:438. *)
Fixpoint insert_key (x : N * nat) (l : list (N * nat)) : list (N * nat) :=
  match l with
  | [] => [x]
  | y :: t => if key_le x y then x :: l else y :: insert_key x t
  end.
(** /repo/src/scheduling_solver.rs:438 [sort_by_key]. *)
Definition sort_key (l : list (N * nat)) : list (N * nat) := fold_right insert_key [] l.

(** /repo/src/scheduling_solver.rs:401-440 [calculate_feasible_slots]. *)
Definition feasible_slots (pr : profile) (d : input_data) (o : oracle) (tick : nat) (st : sstate) (choice : nat)
  : outcome (list (option nat)) :=
  let* c := get (i_choices d) choice in
  let* none_ok := if ch_optional c then sat_constraints pr d choice None st else Ok false in
  let* slots := passing_slots pr d st choice in
  let* keyed := mmap (fun s => let* m := get (st_max st) s in Ok (m, s)) slots in
  riffle_shuffle o tick (map (fun ks => Some (snd ks)) (sort_key keyed)) (if none_ok then [None] else []).

(** /repo/src/scheduling_solver.rs:442-449 [get_choice_scramble]: a shuffle, then
    a stable sort by descending number of constraints. *)
Fixpoint insert_desc (key : nat -> nat) (x : nat) (l : list nat) : list nat :=
  match l with
  | [] => [x]
  | y :: t => if key y <=? key x then x :: l else y :: insert_desc key x t
  end.
(** /repo/src/scheduling_solver.rs:446-447: stable sort by descending key. *)
Definition sort_desc (key : nat -> nat) (l : list nat) : list nat := fold_right (insert_desc key) [] l.
(** /repo/src/scheduling_solver.rs:442-449 [get_choice_scramble]. *)
Definition choice_scramble (d : input_data) (o : oracle) (tick : nat) : list nat :=
  sort_desc (fun c => length (constraints_for d c)) (o_shuffle o tick (seq 0 (length (i_choices d)))).

(** /repo/src/scheduling_solver.rs:480-485 and 493-496: one [+=] / [-=] on a vector. *)
Definition bump (op : N -> N -> outcome N) (l : list N) (i : nat) (x : N) : outcome (list N) :=
  let* a := get l i in let* b := op a x in set l i b.
(** /repo/src/scheduling_solver.rs:492-497 (also 472-477): undo the sums of a decision. *)
Definition remove_sums (pr : profile) (d : input_data) (st : sstate) (choice : nat) : outcome sstate :=
  let* x := get (st_dec st) choice in
  match x with
  | InSlot s =>
      let* c := get (i_choices d) choice in
      let* mn := bump (sub_u32 pr) (st_min st) s (ch_min c) in
      let* mx := bump (sub_u32 pr) (st_max st) s (ch_max c) in
      let* ct := bump (sub_u32 pr) (st_cnt st) s 1%N in
      Ok (mkState (st_dec st) mn mx ct)
  | _ => Ok st
  end.
(** /repo/src/scheduling_solver.rs:465-489 [apply_decision]. *)
Definition apply_decision (pr : profile) (d : input_data) (st : sstate) (choice : nat) (slot : option nat) : outcome sstate :=
  let* st := remove_sums pr d st choice in
  match slot with
  | Some s =>
      let* c := get (i_choices d) choice in
      let* mn := bump (add_u32 pr) (st_min st) s (ch_min c) in
      let* mx := bump (add_u32 pr) (st_max st) s (ch_max c) in
      let* ct := bump (add_u32 pr) (st_cnt st) s 1%N in
      let* dec := set (st_dec st) choice (InSlot s) in
      Ok (mkState dec mn mx ct)
  | None => let* dec := set (st_dec st) choice Omitted in
            Ok (mkState dec (st_min st) (st_max st) (st_cnt st))
  end.
(** /repo/src/scheduling_solver.rs:491-499 [clear_decision]. *)
Definition clear_decision (pr : profile) (d : input_data) (st : sstate) (choice : nat) : outcome sstate :=
  let* st := remove_sums pr d st choice in
  let* dec := set (st_dec st) choice Undecided in
  Ok (mkState dec (st_min st) (st_max st) (st_cnt st)).

(** /repo/src/scheduling_solver.rs:455-463 [convert_decisions]. *)
Definition convert_decisions (d : input_data) (dec : list decision) : outcome (list (list nat)) :=
  mfold (fun res ci =>
    match snd ci with
    | InSlot s => let* l := get res s in set res s (l ++ [fst ci])
    | _ => Ok res
    end) (combine (seq 0 (length dec)) dec) (repeat [] (length (i_slots d))).

(** /repo/src/scheduling_solver.rs:155-160 and 583-588: slots back to a scheduling. *)
Definition slots_to_scheduling (d : input_data) (slots : list (list nat)) : outcome scheduling :=
  mfold (fun sch si => mfold (fun sch c => set sch c (Some (fst si))) (snd si) sch)
        (combine (seq 0 (length slots)) slots) (repeat None (length (i_choices d))).

(** /repo/src/scheduling_solver.rs:513-517 [available_max_suffix]. *)
Fixpoint max_suffix (pr : profile) (d : input_data) (order : list nat) : outcome (list N) :=
  match order with
  | [] => Ok [0%N]
  | c :: t => let* r := max_suffix pr d t in
              let* h := get r 0 in
              let* x := get (i_choices d) c in
              let* v := add_u32 pr h (ch_max x) in
              Ok (v :: r)
  end.

(** The mutable locals of the search loop, /repo/src/scheduling_solver.rs:509-512.
    [m_stack] is [backtracking] with the last bucket first, each bucket in the
    order in which it will be popped. *)
Record mach := mkMach { m_st : sstate; m_stack : list (list (option nat)); m_depth : nat; m_tick : nat }.

(** How the loop ends.  The code returns an empty vector in the last three cases. *)
(** /repo/src/scheduling_solver.rs:523-526, 559-562, 589-592. *)
Inductive sresult :=
| SFound (slots : list (list nat))
| STimeout
| SExhausted
| SRejected.
(** One turn of the loop /repo/src/scheduling_solver.rs:519-580 goes on or ends. *)
Inductive stepped := Continue (m : mach) | Done (r : sresult) (tick : nat).

(** /repo/src/scheduling_solver.rs:530-555: the candidates of a fresh node. *)
Definition node_candidates (pr : profile) (d : input_data) (o : oracle) (sets : list cset) (suffix : list N)
  (tick : nat) (st : sstate) (depth choice : nat) : outcome (list (option nat)) :=
  let* avail := get suffix depth in
  let* imp := has_impossibilities pr d st avail in
  let* dead := if imp then Ok true else let* b := satisfies_critical_sets d (st_dec st) sets in Ok (negb b) in
  if dead then Ok []
  else
    let* crit := critical_slots pr d st avail choice in
    match crit with
    | [] => feasible_slots pr d o tick st choice
    | [s] => let* b := sat_constraints pr d choice (Some s) st in Ok (if b then [Some s] else [])
    | _ => Ok []
    end.

(** /repo/src/scheduling_solver.rs:582-592: the leaf. *)
Definition leaf (pr : profile) (d : input_data) (st : sstate) : outcome sresult :=
  let* result := convert_decisions d (st_dec st) in
  let* sch := slots_to_scheduling d result in
  let* ok := sched_is_feasible pr d sch in
  Ok (if ok then SFound result else SRejected).

(** /repo/src/scheduling_solver.rs:519-580: one turn of the loop.  [late] is the
    test [time_now() > time_limit].  The second component of the stack match
    checks that [backtracking[depth]] is the last bucket. *)
Definition step (pr : profile) (d : input_data) (o : oracle) (late : nat -> bool) (sets : list cset)
  (order : list nat) (suffix : list N) (m : mach) : outcome stepped :=
  let depth := m_depth m in
  if depth <? length order then
    if late (m_tick m) then Ok (Done STimeout (Datatypes.S (m_tick m)))
    else
      let* choice := get order depth in
      let tick := Datatypes.S (m_tick m) in
      let* stack := if length (m_stack m) <=? depth
                    then let* b := node_candidates pr d o sets suffix tick (m_st m) depth choice in Ok (b :: m_stack m)
                    else Ok (m_stack m) in
      let tick := Datatypes.S tick in
      match stack with
      | [] => Panic
      | bucket :: rest =>
          if negb (length rest =? depth) then Panic
          else match bucket with
               | [] => match depth with
                       | O => Ok (Done SExhausted tick)
                       | Datatypes.S depth' =>
                           let* prev := get order depth' in
                           let* st := clear_decision pr d (m_st m) prev in
                           Ok (Continue (mkMach st rest depth' tick))
                       end
               | next :: bucket' =>
                   let* st := apply_decision pr d (m_st m) choice next in
                   Ok (Continue (mkMach st (bucket' :: rest) (Datatypes.S depth) tick))
               end
      end
  else let* r := leaf pr d (m_st m) in Ok (Done r (m_tick m)).

(** The loop.  [None]: the given number of turns was not enough. *)
(** /repo/src/scheduling_solver.rs:519-580. *)
Fixpoint run (pr : profile) (d : input_data) (o : oracle) (late : nat -> bool) (sets : list cset)
  (order : list nat) (suffix : list N) (fuel : nat) (m : mach) : option (outcome (sresult * nat)) :=
  match fuel with
  | O => None
  | Datatypes.S f =>
      match step pr d o late sets order suffix m with
      | Ok (Continue m') => run pr d o late sets order suffix f m'
      | Ok (Done r t) => Some (Ok (r, t))
      | Err e => Some (Err e)
      | Panic => Some Panic
      end
  end.

(** /repo/src/scheduling_solver.rs:501-593 [solve_scheduling]; the result is
    paired with the next free tick. *)
Definition solve_scheduling (pr : profile) (d : input_data) (o : oracle) (late : nat -> bool) (sets : list cset)
  (tick fuel : nat) : option (outcome (sresult * nat)) :=
  let order := choice_scramble d o tick in
  match max_suffix pr d order with
  | Ok suffix =>
      run pr d o late sets order suffix fuel
          (mkMach (new_state (length (i_choices d)) (length (i_slots d))) [] 0 (Datatypes.S tick))
  | Err e => Some (Err e)
  | Panic => Some Panic
  end.
(** The vector [solve_scheduling] returns. *)
(** /repo/src/scheduling_solver.rs:501-505, 525, 561, 590, 592. *)
Definition result_slots (r : sresult) : list (list nat) :=
  match r with SFound s => s | _ => [] end.

(** /repo/src/input_data.rs:34-40 [preference_after]. *)
Definition preference_after (d : input_data) (p : N) : N :=
  match find (fun l => p <? l)%N (i_levels d) with Some l => l | None => u32_max end.

(** The time test for a preference limit, /repo/src/scheduling_solver.rs:121-130:
    without a deadline and at the largest limit there is none ([time_never] is a
    century away). *)
Definition late_at (d : input_data) (o : oracle) (deadline : bool) (limit : N) (tick : nat) : bool :=
  (deadline || negb (limit =? i_max_pref d)%N) && o_late o tick.

(** What [next_scheduling] leaves behind.  [nx_sched] is [current_solution];
    [nx_limits] (the limits tried) and [nx_last] (how the last search ended) only
    record what the loop did. *)
(** /repo/src/scheduling_solver.rs:103-167. *)
Record next_result := mkNext { nx_limits : list N; nx_last : sresult; nx_sched : option scheduling; nx_tick : nat }.

(** /repo/src/scheduling_solver.rs:116-166: the relaxation loop.  [fuel] bounds
    the attempts, [sfuel] the turns of each search. *)
Fixpoint relax (pr : profile) (d : input_data) (o : oracle) (a : analysis) (deadline : bool) (cs_timeout : Z)
  (sfuel fuel : nat) (limit : N) (tick : nat) : option (outcome next_result) :=
  match fuel with
  | O => None
  | Datatypes.S f =>
      if negb (limit =? i_max_pref d)%N && (cs_timeout <? 0)%Z then Some Panic
      else
        match solve_scheduling pr d o (late_at d o deadline limit) (for_preference a limit) tick sfuel with
        | None => None
        | Some (Err e) => Some (Err e)
        | Some Panic => Some Panic
        | Some (Ok (r, tick')) =>
            match result_slots r with
            | [] =>
                if (limit =? i_max_pref d)%N then Some (Ok (mkNext [limit] r None tick'))
                else match relax pr d o a deadline cs_timeout sfuel f (preference_after d limit) tick' with
                     | Some (Ok n) => Some (Ok (mkNext (limit :: nx_limits n) (nx_last n) (nx_sched n) (nx_tick n)))
                     | other => other
                     end
            | slots => Some (let* s := slots_to_scheduling d slots in Ok (mkNext [limit] r (Some s) tick'))
            end
        end
  end.

(** /repo/src/scheduling_solver.rs:58 [PREF_RELAXATION]. *)
Definition pref_relaxation : Z := 10.
(** /repo/src/scheduling_solver.rs:103-167 [next_scheduling] (progress reports and
    log lines left out).  [nx_sched] is [current_solution]; the returned flag is
    [is_some nx_sched]. *)
Definition next_scheduling (pr : profile) (d : input_data) (o : oracle) (a : analysis) (deadline : bool) (cs_timeout : Z)
  (sfuel fuel tick : nat) : option (outcome next_result) :=
  match next_in_range pr (o_sample o tick) 0 pref_relaxation with
  | Ok z => relax pr d o a deadline cs_timeout sfuel fuel
              (if (z =? 0)%Z then i_max_pref d else an_bound a) (Datatypes.S tick)
  | Err e => Some (Err e)
  | Panic => Some Panic
  end.
