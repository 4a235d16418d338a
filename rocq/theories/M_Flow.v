(** Model of the assignment stage: /repo/src/mip_flow.rs,
    /repo/src/mip_flow_static_data.rs, /repo/src/assignment_solver.rs. *)
From Verif Require Import Base M_Data M_Scoring M_Critical.

(** ** mip_flow.rs *)

(** One edge.  The code keeps [edges_max], [edges_cost] as vectors by edge index
    and the end points in [outgoing] / [incoming] (lists of edge indices per
    node); here an edge record holds all four and the adjacency lists are read
    off it. *)
(** /repo/src/mip_flow.rs:18-21 and 72-80. *)
Record edge := mkEdge { e_from : nat; e_to : nat; e_max : Z; e_cost : Z }.

(** /repo/src/mip_flow.rs:9-25 [MipFlow]; [node_map] is never read and left out;
    [edge_map] is an association list, newest entry first. *)
Record flow := mkFlow {
  fl_supply : list Z;
  fl_edges : list edge;
  fl_map : list (N * nat);
  fl_groups : list (list nat);
  fl_blocked : list nat
}.
(** /repo/src/mip_flow.rs:205-207 [node_count]. *)
Definition node_count (f : flow) : nat := length (fl_supply f).
(** /repo/src/mip_flow.rs:53-65 [add_node], [add_keyed_node], called [k] times. *)
Definition add_nodes (f : flow) (k : nat) : list nat * flow :=
  (seq (node_count f) k, mkFlow (fl_supply f ++ repeat 0%Z k) (fl_edges f) (fl_map f) (fl_groups f) (fl_blocked f)).
(** /repo/src/mip_flow.rs:67-70 [set_supply]. *)
Definition set_supply (f : flow) (node : nat) (v : Z) : outcome flow :=
  let* s := set (fl_supply f) node v in Ok (mkFlow s (fl_edges f) (fl_map f) (fl_groups f) (fl_blocked f)).
(** /repo/src/mip_flow.rs:72-93 [add_edge], [add_keyed_edge]: end points out of
    range panic. *)
Definition add_keyed_edge (f : flow) (key : N) (from to : nat) (mx cost : Z) : outcome flow :=
  if (from <? node_count f) && (to <? node_count f)
  then Ok (mkFlow (fl_supply f) (fl_edges f ++ [mkEdge from to mx cost]) ((key, length (fl_edges f)) :: fl_map f)
                  (fl_groups f) (fl_blocked f))
  else Panic.
(** [BTreeMap::get] *)
(** Used at /repo/src/mip_flow.rs:103 and 200-202. *)
Definition find_edge (f : flow) (key : N) : option nat :=
  match find (fun kv => fst kv =? key)%N (fl_map f) with Some kv => Some (snd kv) | None => None end.
(** /repo/src/mip_flow.rs:95-117 [create_edge_group_or_block_edges]. *)
Definition known_edges (f : flow) (keys : list N) : list nat :=
  flat_map (fun k => match find_edge f k with Some e => [e] | None => [] end) keys.
(** /repo/src/mip_flow.rs:95-115 [create_edge_group_or_block_edges]. *)
Definition create_edge_group (f : flow) (keys : list N) : flow :=
  if forallb (fun k => is_some (find_edge f k)) keys
  then mkFlow (fl_supply f) (fl_edges f) (fl_map f) (fl_groups f ++ [known_edges f keys]) (fl_blocked f)
  else mkFlow (fl_supply f) (fl_edges f) (fl_map f) (fl_groups f) (fl_blocked f ++ known_edges f keys).

(** /repo/src/mip_flow.rs:117-179: the integer program handed to the LP library,
    as a predicate on edge values [x] (values in edge order).  Variables are
    integers between 0 and the edge's maximum; every group has a binary switch
    equal to each of its edges; blocked edges are 0; inflow minus outflow is the
    negated supply.  The library's floats are read as exact integers. *)
Definition zsum {A} (g : A -> Z) (l : list A) : Z := fold_right (fun a t => (g a + t)%Z) 0%Z l.
(** The sum over [incoming], /repo/src/mip_flow.rs:166-170. *)
Definition inflow (f : flow) (x : list Z) (n : nat) : Z :=
  zsum (fun ev => if e_to (fst ev) =? n then snd ev else 0%Z) (combine (fl_edges f) x).
(** The sum over [outgoing], /repo/src/mip_flow.rs:171-175. *)
Definition outflow (f : flow) (x : list Z) (n : nat) : Z :=
  zsum (fun ev => if e_from (fst ev) =? n then snd ev else 0%Z) (combine (fl_edges f) x).
(** The constraints of /repo/src/mip_flow.rs:119-132, 141-144, 153-179. *)
Record feasible_point (f : flow) (x : list Z) : Prop := {
  fp_length : length x = length (fl_edges f);
  fp_bounds : forall i e v, nth_error (fl_edges f) i = Some e -> nth_error x i = Some v -> (0 <= v <= e_max e)%Z;
  fp_groups : forall g, In g (fl_groups f) -> exists sw, (sw = 0%Z \/ sw = 1%Z) /\ forall i, In i g -> nth_error x i = Some sw;
  fp_blocked : forall i, In i (fl_blocked f) -> nth_error x i = Some 0%Z;
  fp_balance : forall n s, nth_error (fl_supply f) n = Some s -> (inflow f x n - outflow f x n = - s)%Z
}.
(** /repo/src/mip_flow.rs:134-139: the objective. *)
Definition objective (f : flow) (x : list Z) : Z :=
  zsum (fun ev => e_cost (fst ev) * snd ev)%Z (combine (fl_edges f) x).

(** /repo/src/mip_flow.rs:195-203 [solution_value_at]. *)
Definition value_at (f : flow) (x : list Z) (key : N) : outcome Z :=
  match x with
  | [] => Panic
  | _ => match find_edge f key with None => Ok 0%Z | Some i => get x i end
  end.

(** ** mip_flow_static_data.rs *)

(** /repo/src/mip_flow_static_data.rs:20-22 [make_long]. *)
Definition make_long (high low : N) : N := N.lor (N.shiftl high 32) low.
(** [u32::try_from(usize).expect] *)
(** Used at /repo/src/mip_flow_static_data.rs:24-50. *)
Definition index_u32 (n : nat) : outcome N := if (N.of_nat n <=? u32_max)%N then Ok (N.of_nat n) else Panic.
(** /repo/src/mip_flow_static_data.rs:45-50 [edge_id]. *)
Definition edge_id (from to : nat) : outcome N :=
  let* a := index_u32 from in let* b := index_u32 to in Ok (make_long a b).
(** /repo/src/mip_flow_static_data.rs:5 [SLOT_ID_HIGH]. *)
Definition slot_id_high : N := 2147483647.
(** /repo/src/mip_flow_static_data.rs:6 [CHOICE_ID_HIGH]. *)
Definition choice_id_high : N := 2147483646.
(** /repo/src/mip_flow_static_data.rs:24-29 [node_chooser]. *)
Definition node_chooser (chooser slot : nat) : outcome N :=
  let* a := index_u32 chooser in let* b := index_u32 slot in Ok (make_long a b).
(** /repo/src/mip_flow_static_data.rs:31-36 [node_slot]. *)
Definition node_slot (slot : nat) : outcome N := let* b := index_u32 slot in Ok (make_long slot_id_high b).
(** /repo/src/mip_flow_static_data.rs:38-43 [node_choice]. *)
Definition node_choice (choice : nat) : outcome N := let* b := index_u32 choice in Ok (make_long choice_id_high b).

(** /repo/src/mip_flow_static_data.rs:9-17 [MipFlowStaticData]; its
    [constraints] are the input's assignment constraints, its [blocked_edges] are
    always empty. *)
Record static := mkStatic { sd_flow : flow; sd_chooser : list (list nat); sd_choice : list nat; sd_slot : list nat }.
(** /repo/src/mip_flow_static_data.rs:58-62: the chooser nodes. *)
Fixpoint chooser_rows (f : flow) (choosers slots : nat) : list (list nat) * flow :=
  match choosers with
  | O => ([], f)
  | S n => let '(row, f1) := add_nodes f slots in let '(rows, f2) := chooser_rows f1 n slots in (row :: rows, f2)
  end.
(** The node keys are computed (and may panic) but never looked up. *)
(** Computed at /repo/src/mip_flow_static_data.rs:60, 66, 71; the map they go into is /repo/src/mip_flow.rs:63. *)
Definition static_keys_ok (d : input_data) : outcome unit :=
  let* _ := mmap (fun p => mmap (fun s => node_chooser p s) (seq 0 (length (i_slots d)))) (seq 0 (length (i_choosers d))) in
  let* _ := mmap node_choice (seq 0 (length (i_choices d))) in
  let* _ := mmap node_slot (seq 0 (length (i_slots d))) in Ok tt.
(** /repo/src/mip_flow_static_data.rs:54-82 [MipFlowStaticData::new]. *)
Definition new_static (d : input_data) : outcome static :=
  let* _ := static_keys_ok d in
  let '(rows, f1) := chooser_rows (mkFlow [] [] [] [] []) (length (i_choosers d)) (length (i_slots d)) in
  let '(choices, f2) := add_nodes f1 (length (i_choices d)) in
  let '(slots, f3) := add_nodes f2 (length (i_slots d)) in
  Ok (mkStatic f3 rows choices slots).

(** ** assignment_solver.rs *)

(** /repo/src/assignment_solver.rs:21-27 [AssignmentScheduleState]; the hash set
    is a list read as a set. *)
Record sched_state := mkSS {
  ss_slots : scheduling;
  ss_by_slot : list (list nat);
  ss_cov : list N;
  ss_blocked : list (nat * nat)
}.
(** [chooser_nodes[chooser][slot]] *)
(** For example /repo/src/assignment_solver.rs:270 and 364. *)
Definition chooser_node (sd : static) (chooser slot : nat) : outcome nat :=
  let* row := get (sd_chooser sd) chooser in get row slot.

(** /repo/src/assignment_solver.rs:254-296 [build_blocked_constraint_edges]. *)
Definition blocked_one (d : input_data) (sd : static) (slots : scheduling) (by_slot : list (list nat)) (k : constraint)
  : outcome (list (nat * nat)) :=
  match c_kind k with
  | ChooserIsInChoice =>
      let* c := con_other_choice k in
      let* s := get slots c in
      match s with
      | None => Ok []
      | Some s => let* from := chooser_node sd (c_left k) s in
                  let* cs := get by_slot s in
                  mmap (fun c' => let* to := get (sd_choice sd) c' in Ok (from, to)) (filter (fun c' => negb (c' =? c)) cs)
      end
  | ChooserIsNotInChoice =>
      let* c := con_other_choice k in
      let* to := get (sd_choice sd) c in
      mmap (fun s => let* from := chooser_node sd (c_left k) s in Ok (from, to)) (seq 0 (length (i_slots d)))
  | ChoicesHaveSameChoosers | ChoosersHaveSameChoices => Ok []
  | _ => Panic
  end.
(** /repo/src/assignment_solver.rs:254-296 [build_blocked_constraint_edges]. *)
Definition build_blocked (d : input_data) (sd : static) (slots : scheduling) (by_slot : list (list nat)) : outcome (list (nat * nat)) :=
  let* l := mmap (blocked_one d sd slots by_slot) (i_assign d) in Ok (concat l).

(** One [scheduled_choices_by_slot[slot].push(choice); covered[slot] += min]. *)
(** /repo/src/assignment_solver.rs:186-187 and 231-232. *)
Definition place (pr : profile) (d : input_data) (st : list (list nat) * list N) (choice slot : nat)
  : outcome (list (list nat) * list N) :=
  let '(by_slot, cov) := st in
  let* l := get by_slot slot in
  let* by_slot := set by_slot slot (l ++ [choice]) in
  let* ch := get (i_choices d) choice in
  let* v := get cov slot in
  let* v := add_u32 pr v (ch_min ch) in
  let* cov := set cov slot v in
  Ok (by_slot, cov).
(** /repo/src/assignment_solver.rs:173-199 [build_schedule_state_from_scratch]. *)
Definition scratch_state (pr : profile) (d : input_data) (sd : static) (slots : scheduling) : outcome sched_state :=
  let* st := mfold (fun st cs => match snd cs with Some s => place pr d st (fst cs) s | None => Ok st end)
               (combine (seq 0 (length slots)) slots)
               (repeat [] (length (i_slots d)), repeat 0%N (length (i_slots d))) in
  let* b := build_blocked d sd slots (fst st) in
  Ok (mkSS slots (fst st) (snd st) b).

(** [Vec::swap_remove]: the last element takes the removed one's place. *)
(** [iter().position(..)], /repo/src/assignment_solver.rs:221-223. *)
Fixpoint position (c : nat) (l : list nat) : option nat :=
  match l with
  | [] => None
  | x :: t => if x =? c then Some 0 else option_map S (position c t)
  end.
(** /repo/src/assignment_solver.rs:225. *)
Definition swap_remove (l : list nat) (i : nat) : list nat :=
  match rev l with
  | [] => []
  | z :: _ => removelast (upd l i z)
  end.
(** /repo/src/assignment_solver.rs:216-233: one choice of the update loop. *)
Definition move_choice (pr : profile) (d : input_data) (st : list (list nat) * list N) (choice : nat) (old new : option nat)
  : outcome (list (list nat) * list N) :=
  if opt_nat_eqb old new then Ok st
  else
    let* st := match old with
               | None => Ok st
               | Some s =>
                   let '(by_slot, cov) := st in
                   let* l := get by_slot s in
                   let* by_slot := match position choice l with
                                   | Some i => set by_slot s (swap_remove l i)
                                   | None => Ok by_slot
                                   end in
                   let* ch := get (i_choices d) choice in
                   let* v := get cov s in
                   let* v := sub_u32 pr v (ch_min ch) in
                   let* cov := set cov s v in
                   Ok (by_slot, cov)
               end in
    match new with None => Ok st | Some s => place pr d st choice s end.
(** /repo/src/assignment_solver.rs:201-242 [update_schedule_state]. *)
Definition update_state (pr : profile) (d : input_data) (sd : static) (previous : sched_state) (slots : scheduling) : outcome sched_state :=
  let* st := mfold (fun st con => move_choice pr d st (fst con) (fst (snd con)) (snd (snd con)))
               (combine (seq 0 (length (ss_slots previous))) (combine (ss_slots previous) slots))
               (ss_by_slot previous, ss_cov previous) in
  let* b := build_blocked d sd slots (fst st) in
  Ok (mkSS slots (fst st) (snd st) b).
(** /repo/src/assignment_solver.rs:244-252 [prepare_schedule_state]. *)
Definition prepare_state (pr : profile) (d : input_data) (sd : static) (cached : option sched_state) (slots : scheduling) : outcome sched_state :=
  match cached with
  | Some p => update_state pr d sd p slots
  | None => scratch_state pr d sd slots
  end.

(** /repo/src/assignment_solver.rs:374, 382-383, 418-419: [u32] to [i32] with [expect]. *)
Definition as_i32 (n : N) : outcome Z := if (Z.of_N n <=? i32_max)%Z then Ok (Z.of_N n) else Panic.

(** Is [(from, to)] blocked? *)
(** /repo/src/assignment_solver.rs:396. *)
Definition is_blocked (st : sched_state) (from to : nat) : bool :=
  existsb (fun ft => (fst ft =? from) && (snd ft =? to)) (ss_blocked st).

(** /repo/src/assignment_solver.rs:362-385: supplies. *)
Definition flow_supplies (d : input_data) (sd : static) (st : sched_state) (f : flow) : outcome flow :=
  let* f := mfold (fun f p => mfold (fun f s => let* n := chooser_node sd p s in set_supply f n 1) (seq 0 (length (i_slots d))) f)
              (seq 0 (length (i_choosers d))) f in
  let* f := mfold (fun f cs => match snd cs with
                               | None => Ok f
                               | Some _ => let* n := get (sd_choice sd) (fst cs) in
                                           let* ch := get (i_choices d) (fst cs) in
                                           let* m := as_i32 (ch_min ch) in
                                           set_supply f n (- m)
                               end) (combine (seq 0 (length (ss_slots st))) (ss_slots st)) f in
  mfold (fun f s => let* n := get (sd_slot sd) s in
                    let* a := to_i32 (length (i_choosers d)) in
                    let* v := get (ss_cov st) s in
                    let* b := as_i32 v in
                    set_supply f n (- (a - b))) (seq 0 (length (i_slots d))) f.

(** /repo/src/assignment_solver.rs:387-405: chooser edges.  [cost] is
    [(pref + 1).powf(exponent) as i64]. *)
Definition chooser_edge (d : input_data) (sd : static) (st : sched_state) (cost : N -> Z) (limit : N) (p s c : nat) (f : flow) : outcome flow :=
  let* from := chooser_node sd p s in
  let* x := get (i_choosers d) p in
  let* y := get (cs_prefs x) c in
  if (limit <? y)%N then Ok f
  else
    let* to := get (sd_choice sd) c in
    if is_blocked st from to then Ok f
    else let* k := edge_id from to in add_keyed_edge f k from to 1 (cost y).
(** /repo/src/assignment_solver.rs:387-405: all chooser edges. *)
Definition flow_chooser_edges (d : input_data) (sd : static) (st : sched_state) (cost : N -> Z) (limit : N) (f : flow) : outcome flow :=
  mfold (fun f p =>
    mfold (fun f sc => mfold (fun f c => chooser_edge d sd st cost limit p (fst sc) c f) (snd sc) f)
      (combine (seq 0 (length (ss_by_slot st))) (ss_by_slot st)) f)
    (seq 0 (length (i_choosers d))) f.
(** /repo/src/assignment_solver.rs:407-422: choice edges. *)
Definition flow_choice_edges (pr : profile) (d : input_data) (sd : static) (st : sched_state) (f : flow) : outcome flow :=
  mfold (fun f cs => match snd cs with
                     | None => Ok f
                     | Some s =>
                         let* from := get (sd_choice sd) (fst cs) in
                         let* to := get (sd_slot sd) s in
                         let* k := edge_id from to in
                         let* ch := get (i_choices d) (fst cs) in
                         let* w := sub_u32 pr (ch_max ch) (ch_min ch) in
                         let* w := as_i32 w in
                         add_keyed_edge f k from to w 0
                     end) (combine (seq 0 (length (ss_slots st))) (ss_slots st)) f.

(** /repo/src/assignment_solver.rs:298-343 [create_edge_groups]: one constraint of the
    first loop (305-323). *)
Definition pair_groups (d : input_data) (sd : static) (st : sched_state) (k : constraint) (f : flow) : outcome flow :=
  if negb (kind_eqb (c_kind k) ChoosersHaveSameChoices) then Ok f
  else
    let* o := con_other_chooser k in
    mfold (fun f s =>
      let* cs := get (ss_by_slot st) s in
      mfold (fun f c =>
        let* from1 := chooser_node sd (c_left k) s in
        let* to := get (sd_choice sd) c in
        let* from2 := chooser_node sd o s in
        let* k1 := edge_id from1 to in
        let* k2 := edge_id from2 to in
        Ok (create_edge_group f [k1; k2])) cs f) (seq 0 (length (i_slots d))) f.
(** /repo/src/assignment_solver.rs:331-340: the edges of one chooser to one group. *)
Definition audience_group (d : input_data) (sd : static) (st : sched_state) (g : list nat) (p : nat) (f : flow) : outcome flow :=
  let* keys := mfold (fun keys c =>
      let* s := get (ss_slots st) c in
      match s with
      | None => Ok keys
      | Some s => let* from := chooser_node sd p s in
                  let* to := get (sd_choice sd) c in
                  let* k := edge_id from to in
                  Ok (keys ++ [k])
      end) g [] in
  Ok (create_edge_group f keys).
(** /repo/src/assignment_solver.rs:298-343 [create_edge_groups]. *)
Definition create_edge_groups (d : input_data) (sd : static) (st : sched_state) (f : flow) : outcome flow :=
  let* f := mfold (fun f k => pair_groups d sd st k f) (i_assign d) f in
  mfold (fun f g => if length g =? 1 then Ok f
                    else mfold (fun f p => audience_group d sd st g p f) (seq 0 (length (i_choosers d))) f) (i_groups d) f.

(** /repo/src/assignment_solver.rs:358-424: the whole instance. *)
Definition build_flow (pr : profile) (d : input_data) (sd : static) (cost : N -> Z) (st : sched_state) (limit : N) : outcome flow :=
  let* f := flow_supplies d sd st (sd_flow sd) in
  let* f := flow_chooser_edges d sd st cost limit f in
  let* f := flow_choice_edges pr d sd st f in
  create_edge_groups d sd st f.

(** /repo/src/assignment_solver.rs:450-467: reading the assignment back; the choices of one slot. *)
Fixpoint pick (f : flow) (sd : static) (x : list Z) (from : nat) (cs : list nat) : outcome nat :=
  match cs with
  | [] => Panic
  | c :: t => let* to := get (sd_choice sd) c in
              let* k := edge_id from to in
              let* v := value_at f x k in
              if (v =? 1)%Z then Ok c else pick f sd x from t
  end.
(** /repo/src/assignment_solver.rs:450-467: reading the assignment back. *)
Definition decode (d : input_data) (sd : static) (st : sched_state) (f : flow) (x : list Z) : outcome assignment :=
  mmap (fun p => mmap (fun s => let* from := chooser_node sd p s in
                                let* cs := get (ss_by_slot st) s in
                                pick f sd x from cs) (seq 0 (length (i_slots d)))) (seq 0 (length (i_choosers d))).

(** The environment: [ev_expired t] answers "is the deadline reached?" at the
    [t]-th look at the clock, [ev_lp t f] is the library's answer to instance [f]
    (a value per edge index, or failure). *)
(** The clock is read at /repo/src/assignment_solver.rs:353, 434-440 and the library called at /repo/src/mip_flow.rs:145-192. *)
Record env := mkEnv { ev_expired : nat -> bool; ev_lp : nat -> flow -> option (nat -> Z) }.

(** /repo/src/assignment_solver.rs:36-41 [LimitSolveResult]. *)
Inductive limit_result := LFeasible (A : assignment) | LInfeasible | LIncomplete.

(** /repo/src/assignment_solver.rs:345-471 [solve_with_limit]; paired with the
    next free tick. *)
Definition solve_with_limit (pr : profile) (d : input_data) (sd : static) (cost : N -> Z) (ev : env) (deadline : bool)
  (st : sched_state) (limit : N) (t : nat) : outcome (limit_result * nat) :=
  let late n := deadline && ev_expired ev n in
  if late t then Ok (LIncomplete, t + 1)
  else
    let* f := build_flow pr d sd cost st limit in
    if late (t + 1) then Ok (LIncomplete, t + 2)
    else match ev_lp ev (t + 2) f with
         | None => Ok (if late (t + 3) then LIncomplete else LInfeasible, t + 4)
         | Some g => let* A := decode d sd st f (map g (seq 0 (length (fl_edges f)))) in
                     Ok (LFeasible A, t + 4)
         end.

(** /repo/src/assignment_solver.rs:78-81: where the level search starts. *)
Fixpoint position_from (b : N) (i : nat) (l : list N) : option nat :=
  match l with
  | [] => None
  | x :: t => if (b <=? x)%N then Some i else position_from b (S i) t
  end.
(** /repo/src/assignment_solver.rs:78-81: where the level search starts. *)
Definition search_start (d : input_data) (bound : N) : nat :=
  match position_from bound 0 (i_levels d) with Some i => i | None => length (i_levels d) - 1 end.

(** /repo/src/assignment_solver.rs:112-148: the binary search; the result says
    whether every limit tried was decided.  [None]: fuel exhausted. *)
Fixpoint level_search (solve : N -> nat -> outcome (limit_result * nat)) (levels : list N) (start : nat) (fuel low high : nat)
  (best : option assignment) (optimal : bool) (t : nat) : option (outcome (option assignment * bool * nat)) :=
  if negb (low <=? high) then Some (Ok (best, optimal, t))
  else match fuel with
       | O => None
       | S fuel =>
           let mid := low + (high - low) / 2 in
           match get levels mid with
           | Ok limit =>
               match solve limit t with
               | Ok (LFeasible A, t') =>
                   if mid =? start then Some (Ok (Some A, optimal, t'))
                   else level_search solve levels start fuel low (mid - 1) (Some A) optimal t'
               | Ok (LInfeasible, t') => level_search solve levels start fuel (mid + 1) high best optimal t'
               | Ok (LIncomplete, t') => level_search solve levels start fuel (mid + 1) high best false t'
               | Err e => Some (Err e)
               | Panic => Some Panic
               end
           | Err e => Some (Err e)
           | Panic => Some Panic
           end
       end.

(** /repo/src/assignment_solver.rs:11-34: the solver's caches ([lp_count] and the
    progress reporter left out). *)
Record solver := mkSolver { sv_state : option sched_state; sv_cache : option (scheduling * assignment * bool) }.
(** /repo/src/assignment_solver.rs:50-63 [new_with_progress]. *)
Definition new_solver : solver := mkSolver None None.
(** [==] on [Vec<Option<usize>>], /repo/src/assignment_solver.rs:85. *)
Fixpoint same_slots (a b : scheduling) : bool :=
  match a, b with
  | [], [] => true
  | x :: a', y :: b' => opt_nat_eqb x y && same_slots a' b'
  | _, _ => false
  end.
(** What a call did; [ar_cached] and [ar_decided] (no limit was left undecided)
    only record it. *)
(** The result of [solve_until], /repo/src/assignment_solver.rs:71-151. *)
Record answer := mkAnswer { ar_result : option assignment; ar_cached : bool; ar_decided : bool; ar_solver : solver; ar_tick : nat }.
(** /repo/src/assignment_solver.rs:153-171 [finish_assignment_result]. *)
Definition finish (A : option assignment) (st : sched_state) (optimal : bool) (sv : solver) (t : nat) : answer :=
  match A with
  | Some a => mkAnswer A false optimal
                (mkSolver (Some st) (if optimal then Some (ss_slots st, a, true) else sv_cache sv)) t
  | None => mkAnswer None false optimal (mkSolver (Some st) (sv_cache sv)) t
  end.
(** /repo/src/assignment_solver.rs:71-151 [solve_until]. *)
Definition solve_until (pr : profile) (d : input_data) (sd : static) (cost : N -> Z) (greedy : bool) (bound : N) (ev : env)
  (deadline : bool) (sv : solver) (S : scheduling) (t : nat) : option (outcome answer) :=
  let start := search_start d bound in
  match prepare_state pr d sd (sv_state sv) S with
  | Panic => Some Panic
  | Err e => Some (Err e)
  | Ok st =>
      let fresh :=
        if greedy then
          Some (let* rt := solve_with_limit pr d sd cost ev deadline st (i_max_pref d) t in
                match rt with
                | (LFeasible A, t') => Ok (finish (Some A) st true sv t')
                | (_, t') => Ok (finish None st false sv t')
                end)
        else match length (i_levels d) with
             | O => Some (Ok (mkAnswer None false true (mkSolver (Some st) (sv_cache sv)) t))
             | Datatypes.S last =>
                 match level_search (solve_with_limit pr d sd cost ev deadline st) (i_levels d) start (length (i_levels d) + 1)
                         start last None true t with
                 | Some (Ok (best, optimal, t')) => Some (Ok (finish best st optimal sv t'))
                 | Some (Err e) => Some (Err e)
                 | Some Panic => Some Panic
                 | None => None
                 end
             end in
      match sv_cache sv with
      | Some (slots, A, opt) =>
          if same_slots slots (ss_slots st) && opt then Some (Ok (mkAnswer (Some A) true true (mkSolver (Some st) (sv_cache sv)) t))
          else fresh
      | None => fresh
      end
  end.
