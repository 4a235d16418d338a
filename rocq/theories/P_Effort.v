(** Proofs for C82 and C83: M_Effort is M_Flow, M_Search and M_Climb with
    additional outputs; what the counter and the depths can be. *)
From Verif Require Import Base M_Data M_Scoring M_Rng M_Critical M_Search M_Flow M_Climb P_Climb1 M_Effort.
From Coq Require Import Permutation.

(** ** Erasure *)
Definition omap {A B} (f : A -> B) (x : outcome A) : outcome B := let* a := x in Ok (f a).
Definition obmap {A B} (f : A -> B) (x : option (outcome A)) : option (outcome B) := option_map (omap f) x.
Definition told (l : list message) : list event := flat_map (fun x => match x with Told e => [e] | _ => [] end) l.
Lemma told_app a b : told (a ++ b) = told a ++ told b. Proof. apply flat_map_app. Qed.
Lemma told_lp l : told (map ToldLp l) = []. Proof. induction l; cbn; auto. Qed.
Lemma told_depth (f : nat -> f32) l : told (map (fun x => ToldDepth (f x)) l) = []. Proof. induction l; cbn; auto. Qed.

Section Flow.
Context (pr : profile) (d : input_data) (sd : static) (cost : N -> Z) (ev : env) (dl : bool).
Lemma limit_erase st limit t m :
  omap fst (solve_with_limit_m pr d sd cost ev dl st limit t m) = solve_with_limit pr d sd cost ev dl st limit t.
Proof.
  unfold solve_with_limit_m, solve_with_limit. destruct (dl && ev_expired ev t); [reflexivity|].
  destruct (build_flow pr d sd cost st limit) as [f| |]; cbn [bind omap]; auto. destruct (dl && ev_expired ev (t + 1)); [reflexivity|].
  destruct (ev_lp ev (t + 2) f) as [g|]; [|reflexivity]. destruct (decode _ _ _ _ _); reflexivity.
Qed.
Lemma search_erase st levels start fuel : forall low high best o t m,
  obmap fst (level_search_m (solve_with_limit_m pr d sd cost ev dl st) levels start fuel low high best o t m) =
  level_search (solve_with_limit pr d sd cost ev dl st) levels start fuel low high best o t.
Proof.
  induction fuel as [|fuel IH]; intros low high best o t m; cbn [level_search_m level_search]; destruct (negb (low <=? high)); try reflexivity.
  destruct (get levels _) as [limit| |]; try reflexivity. rewrite <- (limit_erase st limit t m).
  destruct (solve_with_limit_m pr d sd cost ev dl st limit t m) as [[[r t'] m']| |]; cbn [omap bind fst obmap option_map]; try reflexivity.
  destruct r; try apply IH. destruct (_ =? start); [reflexivity|apply IH].
Qed.
Lemma until_erase greedy bound sv S t m :
  obmap fst (solve_until_m pr d sd cost greedy bound ev dl sv S t m) = solve_until pr d sd cost greedy bound ev dl sv S t.
Proof.
  unfold solve_until_m, solve_until. destruct (prepare_state pr d sd (sv_state sv) S) as [st| |]; try reflexivity.
  assert (X : obmap fst (if greedy
     then Some (let* rt := solve_with_limit_m pr d sd cost ev dl st (i_max_pref d) t m in
                match rt with
                | (LFeasible A, t', m') => Ok (finish (Some A) st true sv t', m')
                | (_, t', m') => Ok (finish None st false sv t', m')
                end)
     else match length (i_levels d) with
          | O => Some (Ok (mkAnswer None false true (mkSolver (Some st) (sv_cache sv)) t, m))
          | Datatypes.S last =>
                 match level_search_m (solve_with_limit_m pr d sd cost ev dl st) (i_levels d) (search_start d bound) (length (i_levels d) + 1)
                         (search_start d bound) last None true t m with
                 | Some (Ok (best, optimal, t', m')) => Some (Ok (finish best st optimal sv t', m'))
                 | Some (Err e) => Some (Err e)
                 | Some Panic => Some Panic
                 | None => None
                 end
          end) = 
     (if greedy then
          Some (let* rt := solve_with_limit pr d sd cost ev dl st (i_max_pref d) t in
                match rt with
                | (LFeasible A, t') => Ok (finish (Some A) st true sv t')
                | (_, t') => Ok (finish None st false sv t')
                end)
        else match length (i_levels d) with
             | O => Some (Ok (mkAnswer None false true (mkSolver (Some st) (sv_cache sv)) t))
             | Datatypes.S last =>
                 match level_search (solve_with_limit pr d sd cost ev dl st) (i_levels d) (search_start d bound) (length (i_levels d) + 1)
                         (search_start d bound) last None true t with
                 | Some (Ok (best, optimal, t')) => Some (Ok (finish best st optimal sv t'))
                 | Some (Err e) => Some (Err e)
                 | Some Panic => Some Panic
                 | None => None
                 end
             end)).
  { destruct greedy.
    - rewrite <- (limit_erase st (i_max_pref d) t m).
      destruct (solve_with_limit_m pr d sd cost ev dl st (i_max_pref d) t m) as [[[[A| |] t'] m']| |]; reflexivity.
    - destruct (length (i_levels d)) as [|last]; [reflexivity|].
      rewrite <- (search_erase st (i_levels d) (search_start d bound) (Datatypes.S last + 1) (search_start d bound) last None true t m).
      destruct (level_search_m _ _ _ _ _ _ _ _ _ _) as [[[[[best o] t'] m']| |]|]; reflexivity. }
  destruct (sv_cache sv) as [[[slots A] opt]|]; [|exact X]. destruct (same_slots slots (ss_slots st) && opt); [reflexivity|exact X].
Qed.
End Flow.

Section Search.
Context (pr : profile) (d : input_data) (o : oracle).
Lemma run_erase late sets order suffix fuel : forall m,
  obmap fst (run_m pr d o late sets order suffix fuel m) = run pr d o late sets order suffix fuel m.
Proof.
  induction fuel as [|fuel IH]; intros m; cbn [run_m run]; [reflexivity|].
  destruct (step pr d o late sets order suffix m) as [[m'|r t]| |]; try reflexivity.
  rewrite <- IH. destruct (run_m pr d o late sets order suffix fuel m') as [[[[r t] ds]| |]|]; reflexivity.
Qed.
Lemma scheduling_erase late sets tick fuel :
  obmap fst (solve_scheduling_m pr d o late sets tick fuel) = solve_scheduling pr d o late sets tick fuel.
Proof. unfold solve_scheduling_m, solve_scheduling. destruct (max_suffix _ _ _); try reflexivity. apply run_erase. Qed.
Lemma relax_erase a dl cst sfuel fuel : forall limit tick,
  obmap fst (relax_m pr d o a dl cst sfuel fuel limit tick) = relax pr d o a dl cst sfuel fuel limit tick.
Proof.
  induction fuel as [|fuel IH]; intros limit tick; cbn [relax_m relax]; [reflexivity|].
  destruct (_ && _)%bool; [reflexivity|]. rewrite <- scheduling_erase.
  destruct (solve_scheduling_m pr d o _ _ tick sfuel) as [[[[r t] ds]| |]|]; try reflexivity. cbn [obmap option_map omap bind fst].
  destruct (result_slots r) as [|s0 sl] eqn:E.
  - destruct (limit =? i_max_pref d)%N; [reflexivity|]. rewrite <- IH.
    destruct (relax_m pr d o a dl cst sfuel fuel (preference_after d limit) t) as [[[n ds']| |]|]; reflexivity.
  - destruct (slots_to_scheduling d (s0 :: sl)); reflexivity.
Qed.
Lemma next_erase a dl cst sfuel fuel tick :
  obmap fst (next_scheduling_m pr d o a dl cst sfuel fuel tick) = next_scheduling pr d o a dl cst sfuel fuel tick.
Proof. unfold next_scheduling_m, next_scheduling. destruct (next_in_range _ _ _ _); try reflexivity. apply relax_erase. Qed.
End Search.

Section Worker.
Context (pr : profile) (P : problem) (w : world) (dl : bool).
Definition drop3 {A B} (x : A * meter * B) : A := fst (fst x).
Definition keep3 {A} (x : A * meter * list message) : A * list event := (fst (fst x), told (snd x)).
Definition keep1 {A} (x : A * meter * list message) : A * event := (fst (fst x), match told (snd x) with [e] => e | _ => EvIterations 0 end).
Lemma bindo_obmap {A B C} (f : A -> B) (g : B -> option (outcome C)) x : bindo (obmap f x) g = bindo x (fun a => g (f a)).
Proof. destruct x as [[a| |]|]; reflexivity. Qed.
Lemma candidate_erase S h m :
  obmap keep1 (solve_candidate_m pr P w dl S h m) = solve_candidate pr P w dl S h.
Proof.
  unfold solve_candidate_m, solve_candidate. rewrite <- (until_erase pr (p_input P) (p_static P) (p_cost P) (w_env w) dl _ _ _ _ _ m).
  destruct (solve_until_m _ _ _ _ _ _ _ _ _ _ _ _) as [[[a m']| |]|]; try reflexivity.
  cbn [obmap option_map omap bind fst bindo]. unfold keep1. cbn [fst snd]. rewrite told_app, told_lp. reflexivity.
Qed.
Lemma candidate_told S h m sol h' m' e : solve_candidate_m pr P w dl S h m = Some (Ok (sol, h', m', e)) -> told e = [EvAssignments (hc_assignments h + 1)].
Proof.
  unfold solve_candidate_m. destruct (solve_until_m _ _ _ _ _ _ _ _ _ _ _ _) as [[[a m1]| |]|]; cbn [bindo]; try discriminate.
  intros E. injection E as <- <- <- <-. rewrite told_app, told_lp. reflexivity.
Qed.
Lemma candidate_event S h sol h' e : solve_candidate pr P w dl S h = Some (Ok (sol, h', e)) -> e = EvAssignments (hc_assignments h + 1).
Proof. unfold solve_candidate. destruct (solve_until _ _ _ _ _ _ _ _ _ _ _) as [[a| |]|]; cbn [bindo]; try discriminate. intros E. congruence. Qed.
Lemma explore_erase ns : forall b found h m ev,
  obmap keep3 (explore_m pr P w dl ns b found h m ev) = explore pr P w dl ns b found h (told ev).
Proof.
  induction ns as [|n ns IH]; intros b found h m ev; cbn [explore_m explore]; [reflexivity|].
  destruct (dl && _); [reflexivity|]. rewrite <- (candidate_erase n (at_tick h (hc_tick h + 1)) m).
  destruct (solve_candidate_m _ _ _ _ _ _ _) as [[[[[sol h'] m'] e]| |]|] eqn:E; try reflexivity.
  apply candidate_told in E. cbn [obmap option_map omap bind bindo]. unfold keep1. cbn [fst snd]. rewrite E.
  destruct (score_of pr P sol) as [sc| |]; cbn [bindo]; try reflexivity. destruct (score_lt sc (b_score b)); rewrite IH; rewrite ?told_app, E; reflexivity.
Qed.
Lemma climb_erase sw fuel : forall b h m ev,
  obmap keep3 (climb_m pr P w dl sw fuel b h m ev) = climb pr P w dl sw fuel b h (told ev).
Proof.
  induction fuel as [|fuel IH]; intros b h m ev; cbn [climb_m climb]; [reflexivity|].
  destruct (dl && _); [reflexivity|]. destruct (expect (sol_scheduling (b_sol b))) as [cur| |]; cbn [bindo]; try reflexivity.
  destruct (pick_neighbors _ _ _ _ _ _ _) as [[nt| |]|]; cbn [bindo]; try reflexivity.
  rewrite <- (explore_erase (fst nt) b false (at_tick h (snd nt)) m ev).
  destruct (explore_m _ _ _ _ _ _ _ _ _ _) as [[[[[[[al fo] b'] h'] m'] ev']| |]|]; cbn [obmap option_map omap bind bindo]; try reflexivity.
  unfold keep3. cbn [fst snd]. destruct (al && fo); [apply IH|reflexivity].
Qed.
Lemma hill_erase tn S h m : obmap keep3 (hill_solve_m pr P w dl tn S h m) = hill_solve pr P w dl tn S h.
Proof.
  unfold hill_solve_m, hill_solve. rewrite <- (candidate_erase S h m).
  destruct (solve_candidate_m _ _ _ _ _ _ _) as [[[[[sol h'] m'] e]| |]|] eqn:E; try reflexivity.
  apply candidate_told in E. cbn [obmap option_map omap bind bindo]. unfold keep1. cbn [fst snd]. rewrite E.
  destruct (score_of pr P sol) as [sc| |]; cbn [bindo]; try reflexivity. destruct (negb (score_finite sc)).
  { cbn. unfold keep3. cbn [fst snd]. rewrite E. reflexivity. }
  replace [EvAssignments (hc_assignments h + 1); EvBest sol sc] with (told (e ++ [Told (EvBest sol sc)])) by (rewrite told_app, E; reflexivity).
  rewrite <- (climb_erase (tn_swap tn) (tn_climb tn) (mkBest sol sc) h' m').
  destruct (climb_m _ _ _ _ _ _ _ _ _ _) as [[[[[b h''] m''] ev]| |]|]; reflexivity.
Qed.
Lemma iterate_erase tn number : forall g m,
  obmap keep3 (iterate_m pr P w dl tn number g m) = iterate pr P w dl tn number g.
Proof.
  induction number as [|number IH]; intros g m; cbn [iterate_m iterate]; [reflexivity|].
  destruct (dl && _); [reflexivity|]. rewrite <- next_erase.
  destruct (next_scheduling_m _ _ _ _ _ _ _ _ _) as [[[n ds]| |]|]; cbn [obmap option_map omap bind bindo fst]; try reflexivity.
  destruct (nx_sched n) as [cur|].
  2:{ cbn. unfold keep3. cbn [fst snd]. rewrite told_depth. reflexivity. }
  rewrite <- (hill_erase tn cur (sg_climber g) m).
  destruct (hill_solve_m _ _ _ _ _ _ _ _) as [[[[[sol h] m'] ev]| |]|]; cbn [obmap option_map omap bind bindo]; try reflexivity.
  unfold keep3 at 2. cbn [fst snd]. destruct (score_of pr P sol) as [sc| |]; cbn [bindo]; try reflexivity.
  match goal with |- context [iterate_m pr P w dl tn number ?g2 m'] => rewrite <- (IH g2 m'); destruct (iterate_m pr P w dl tn number g2 m') as [[[[[k g3] m''] ev']| |]|] end; try reflexivity.
  cbn [obmap option_map omap bind bindo]. unfold keep3. cbn [fst snd]. rewrite !told_app, told_depth. destruct (score_lt _ _); reflexivity.
Qed.
End Worker.
