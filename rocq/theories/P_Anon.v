(** The solvers do not read names: every function of the solve session gives the
    same result on two inputs that differ in names only (for C71). *)
From Verif Require Import Base M_Data M_Scoring M_Rng M_Critical M_Search M_Flow M_Climb M_Threads Spec_Meta P_Meta.

Lemma bind_cong {A B} (x y : outcome A) (f g : A -> outcome B) : x = y -> (forall a, f a = g a) -> bind x f = bind y g.
Proof. intros -> H. destruct y; cbn; auto. Qed.
Lemma bindo_cong {A B} (x y : option (outcome A)) (f g : A -> option (outcome B)) :
  x = y -> (forall a, f a = g a) -> bindo x f = bindo y g.
Proof. intros -> H. destruct y as [[a| |]|]; cbn; auto. Qed.
Lemma mfilter_same {X} (f g : X -> outcome bool) l : (forall x, f x = g x) -> mfilter f l = mfilter g l.
Proof. intros H. induction l as [|x t IH]; cbn [mfilter]; auto. rewrite H, IH. auto. Qed.

Section Anon.
Variables d d' : input_data.
Hypothesis SN : same_but_names d d'.

Lemma an_slots : length (i_slots d') = length (i_slots d). Proof. apply (sn_slots _ _ SN). Qed.
Lemma an_choices : length (i_choices d') = length (i_choices d). Proof. exact (nm_choices d d' SN). Qed.
Lemma an_choosers : length (i_choosers d') = length (i_choosers d). Proof. exact (nm_choosers d d' SN). Qed.
Lemma an_choice {Y} i (f g : choice_data -> outcome Y) :
  (forall c c', like_choice c c' -> f c' = g c) -> bind (get (i_choices d') i) f = bind (get (i_choices d) i) g.
Proof.
  intros H. pose proof (sn_choices _ _ SN) as HF. revert i. induction HF as [|a b t t' Hab _ IH]; intros [|i]; cbn; auto.
  unfold Base.get in *. cbn. apply IH.
Qed.
Lemma an_chooser {Y} i (f g : chooser_data -> outcome Y) :
  (forall c c', cs_prefs c' = cs_prefs c -> f c' = g c) -> bind (get (i_choosers d') i) f = bind (get (i_choosers d) i) g.
Proof.
  intros H. pose proof (sn_choosers _ _ SN) as HF. revert i. induction HF as [|a b t t' Hab _ IH]; intros [|i]; cbn; auto.
  unfold Base.get in *. cbn. apply IH.
Qed.

Ltac sizes := rewrite ?an_slots, ?an_choices, ?an_choosers, ?(sn_sched _ _ SN), ?(sn_assign _ _ SN), ?(sn_groups _ _ SN), ?(sn_levels _ _ SN),
                ?(sn_max _ _ SN), ?(sn_cmap _ _ SN), ?(sn_pmap _ _ SN).
Ltac go known :=
  repeat (cbn beta iota; sizes; known;
    first
    [ reflexivity
    | progress intros
    | match goal with
      | |- bind (get (i_choices d') _) _ = _ => apply an_choice; let H := fresh in intros ? ? H; destruct H as (?E1 & ?E2 & ?E3 & ?E4);
            repeat match goal with E : _ = _ |- _ => rewrite E in *; clear E end
      | |- bind (get (i_choosers d') _) _ = _ => apply an_chooser; let H := fresh in intros ? ? H; rewrite H; clear H
      | |- bind _ _ = bind _ _ => apply bind_cong
      | |- bindo _ _ = bindo _ _ => apply bindo_cong
      | |- mfold _ _ _ = mfold _ _ _ => apply mfold_same
      | |- mforall _ _ = mforall _ _ => apply mforall_same
      | |- mexists _ _ = mexists _ _ => apply mexists_same
      | |- mfilter _ _ = mfilter _ _ => apply mfilter_same
      | |- mmap _ _ = mmap _ _ => apply mmap_same
      | |- Some _ = Some _ => f_equal
      | |- Ok _ = Ok _ => f_equal
      | |- (if ?b then _ else _) = (if ?b then _ else _) => destruct b eqn:?
      | |- match ?x with _ => _ end = match ?x with _ => _ end => destruct x eqn:?
      end ]).

(** ** Preparation *)
Lemma an_chooser_set pr x p : chooser_set pr d' x p = chooser_set pr d x p.
Proof. unfold chooser_set. go idtac. Qed.
Lemma an_analyze pr : analyze_sets pr d' = analyze_sets pr d.
Proof. unfold analyze_sets. go idtac. unfold analyze_one, chooser_slots. go ltac:(rewrite ?an_chooser_set). Qed.
Lemma an_cache sets : build_cache d' sets = build_cache d sets.
Proof. unfold build_cache. sizes. auto. Qed.
Lemma an_bound_of sets : bound_of d' sets = bound_of d sets.
Proof. unfold bound_of. sizes. auto. Qed.
Lemma an_prepare pr a b c : prepare_analysis pr d' a b c = prepare_analysis pr d a b c.
Proof. unfold prepare_analysis, new_analysis. rewrite an_analyze. go ltac:(rewrite ?an_cache, ?an_bound_of). Qed.
Lemma an_static : new_static d' = new_static d.
Proof. unfold new_static, static_keys_ok. go idtac. Qed.

(** ** The scheduling search *)
Lemma an_cons c : constraints_for d' c = constraints_for d c.
Proof. unfold constraints_for. sizes. auto. Qed.
Lemma an_sets dec sets : satisfies_critical_sets d' dec sets = satisfies_critical_sets d dec sets.
Proof. unfold satisfies_critical_sets. sizes. auto. Qed.
Lemma an_offset pr s x z : offset_ok pr d' s x z = offset_ok pr d s x z.
Proof. unfold offset_ok. go idtac. Qed.
Lemma an_con1 pr c s st k : sat_con1 pr d' c s st k = sat_con1 pr d c s st k.
Proof. unfold sat_con1. go ltac:(rewrite ?an_offset). Qed.
Lemma an_sat pr c s st : sat_constraints pr d' c s st = sat_constraints pr d c s st.
Proof. unfold sat_constraints, check_slot_sizes. rewrite an_cons. go ltac:(rewrite ?an_con1). Qed.
Lemma an_imposs pr st a : has_impossibilities pr d' st a = has_impossibilities pr d st a.
Proof. unfold has_impossibilities. go idtac. Qed.
Lemma an_crit pr st a c : critical_slots pr d' st a c = critical_slots pr d st a c.
Proof. unfold critical_slots. go idtac. Qed.
Lemma an_passing pr st c : passing_slots pr d' st c = passing_slots pr d st c.
Proof. unfold passing_slots. go ltac:(rewrite ?an_sat). Qed.
Lemma an_feasible_slots pr o t st c : feasible_slots pr d' o t st c = feasible_slots pr d o t st c.
Proof. unfold feasible_slots. go ltac:(rewrite ?an_sat, ?an_passing). Qed.
Lemma an_scramble o t : choice_scramble d' o t = choice_scramble d o t.
Proof.
  unfold choice_scramble. sizes. unfold sort_desc, constraints_for. sizes. auto.
Qed.
Lemma an_remove pr st c : remove_sums pr d' st c = remove_sums pr d st c.
Proof. unfold remove_sums. go idtac. Qed.
Lemma an_apply pr st c s : apply_decision pr d' st c s = apply_decision pr d st c s.
Proof. unfold apply_decision. go ltac:(rewrite ?an_remove). Qed.
Lemma an_clear pr st c : clear_decision pr d' st c = clear_decision pr d st c.
Proof. unfold clear_decision. go ltac:(rewrite ?an_remove). Qed.
Lemma an_convert dec : convert_decisions d' dec = convert_decisions d dec.
Proof. unfold convert_decisions. sizes. auto. Qed.
Lemma an_back sl : slots_to_scheduling d' sl = slots_to_scheduling d sl.
Proof. unfold slots_to_scheduling. sizes. auto. Qed.
Lemma an_suffix pr l : max_suffix pr d' l = max_suffix pr d l.
Proof. induction l as [|c t IH]; cbn [max_suffix]; auto. rewrite IH. go idtac. Qed.
Lemma an_sums pr S : forall i mn mx, feas_sums pr d' i S mn mx = feas_sums pr d i S mn mx.
Proof. induction S as [|x S IH]; intros i mn mx; cbn [feas_sums]; auto. go ltac:(rewrite ?IH). Qed.
Lemma an_sched_feasible pr S : sched_is_feasible pr d' S = sched_is_feasible pr d S.
Proof. unfold sched_is_feasible. rewrite (nm_sat_sched d d' SN). unfold n_choosers, n_slots. go ltac:(rewrite ?an_sums). Qed.
Lemma an_candidates pr o sets suf t st n c : node_candidates pr d' o sets suf t st n c = node_candidates pr d o sets suf t st n c.
Proof. unfold node_candidates. go ltac:(rewrite ?an_imposs, ?an_sets, ?an_crit, ?an_feasible_slots, ?an_sat). Qed.
Lemma an_leaf pr st : leaf pr d' st = leaf pr d st.
Proof. unfold leaf. go ltac:(rewrite ?an_convert, ?an_back, ?an_sched_feasible). Qed.
Lemma an_step pr o late sets order suf m : step pr d' o late sets order suf m = step pr d o late sets order suf m.
Proof. unfold step. go ltac:(rewrite ?an_candidates, ?an_clear, ?an_apply, ?an_leaf). Qed.
Lemma an_run pr o late late' sets order suf : (forall t, late' t = late t) ->
  forall fuel m, run pr d' o late' sets order suf fuel m = run pr d o late sets order suf fuel m.
Proof.
  intros HL. induction fuel as [|f IH]; intros m; cbn [run]; auto.
  assert (E : step pr d' o late' sets order suf m = step pr d o late sets order suf m).
  { rewrite an_step. unfold step. rewrite HL. auto. }
  rewrite E. destruct (step pr d o late sets order suf m) as [[m'|r t]| |]; auto.
Qed.
Lemma an_solve pr o late late' sets t fuel : (forall t, late' t = late t) ->
  solve_scheduling pr d' o late' sets t fuel = solve_scheduling pr d o late sets t fuel.
Proof.
  intros HL. unfold solve_scheduling. rewrite an_scramble, an_suffix. sizes. destruct (max_suffix _ _ _); auto. apply an_run; auto.
Qed.
Lemma an_relax pr o a dl cs sf : forall fuel lim t, relax pr d' o a dl cs sf fuel lim t = relax pr d o a dl cs sf fuel lim t.
Proof.
  induction fuel as [|f IH]; intros lim t; cbn [relax]; auto. sizes. destruct (negb _ && _); auto.
  rewrite (an_solve pr o (late_at d o dl lim)) by (intros u; unfold late_at; sizes; auto).
  destruct (solve_scheduling _ _ _ _ _ _ _) as [[[r t']| |]|]; auto. unfold preference_after. sizes.
  destruct (result_slots r) as [|x l]; [|rewrite an_back; auto]. rewrite IH. auto.
Qed.
Lemma an_next pr o a dl cs sf f t : next_scheduling pr d' o a dl cs sf f t = next_scheduling pr d o a dl cs sf f t.
Proof. unfold next_scheduling. sizes. destruct (next_in_range _ _ _ _); auto. apply an_relax. Qed.

(** ** The assignment solver *)
Lemma an_blocked sd S bs : build_blocked d' sd S bs = build_blocked d sd S bs.
Proof. unfold build_blocked. go idtac. unfold blocked_one. go idtac. Qed.
Lemma an_place pr st c s : place pr d' st c s = place pr d st c s.
Proof. unfold place. go idtac. Qed.
Lemma an_scratch pr sd S : scratch_state pr d' sd S = scratch_state pr d sd S.
Proof. unfold scratch_state. go ltac:(rewrite ?an_blocked, ?an_place). Qed.
Lemma an_move pr st c a b : move_choice pr d' st c a b = move_choice pr d st c a b.
Proof. unfold move_choice. go ltac:(rewrite ?an_place). Qed.
Lemma an_state pr sd c S : prepare_state pr d' sd c S = prepare_state pr d sd c S.
Proof. unfold prepare_state, update_state. go ltac:(rewrite ?an_scratch, ?an_move, ?an_blocked). Qed.
Lemma an_flow pr sd cost st lim : build_flow pr d' sd cost st lim = build_flow pr d sd cost st lim.
Proof.
  unfold build_flow, flow_supplies, flow_chooser_edges, flow_choice_edges, create_edge_groups. go idtac.
  - unfold chooser_edge. go idtac.
  - unfold pair_groups. go idtac.
Qed.
Lemma an_decode sd st f x : decode d' sd st f x = decode d sd st f x.
Proof. unfold decode. go idtac. Qed.
Lemma an_limit pr sd cost ev dl st lim t : solve_with_limit pr d' sd cost ev dl st lim t = solve_with_limit pr d sd cost ev dl st lim t.
Proof. unfold solve_with_limit. go ltac:(rewrite ?an_flow, ?an_decode). Qed.
Lemma an_levels (f g : N -> nat -> outcome (limit_result * nat)) levels start : (forall x t, f x t = g x t) ->
  forall fuel low high best opt t, level_search f levels start fuel low high best opt t = level_search g levels start fuel low high best opt t.
Proof.
  intros H. induction fuel as [|n IH]; intros; cbn [level_search]; auto. destruct (negb _); auto. destruct (get levels _); auto.
  rewrite H. destruct (g _ _) as [[[|  |] t']| |]; auto. destruct (_ =? _); auto.
Qed.
Lemma an_until pr sd cost g b ev dl sv S t : solve_until pr d' sd cost g b ev dl sv S t = solve_until pr d sd cost g b ev dl sv S t.
Proof.
  unfold solve_until, search_start. rewrite an_state. sizes. destruct (prepare_state _ _ _ _ _) as [st| |]; auto. rewrite an_limit.
  destruct (length (i_levels d)) as [|n]; auto.
  rewrite (an_levels _ _ (i_levels d) _ (an_limit pr sd cost ev dl st)). auto.
Qed.

(** ** Local search *)
Lemma an_neighbor S k : neighbor d' S k = neighbor d S k.
Proof. unfold neighbor, with_data. sizes. auto. Qed.
Lemma an_add_swap pr o sw S res t : add_swap pr d' o sw S res t = add_swap pr d o sw S res t.
Proof. unfold add_swap, swap_neighbor, with_data. sizes. go ltac:(rewrite ?an_sched_feasible). Qed.
Lemma an_keys pr o sw mx swaps S : forall keys i res t, key_neighbors pr d' o sw mx swaps S keys i res t = key_neighbors pr d o sw mx swaps S keys i res t.
Proof.
  induction keys as [|k keys IH]; intros; cbn [key_neighbors]; auto. go ltac:(rewrite ?an_neighbor, ?an_sched_feasible, ?an_add_swap, ?IH).
Qed.
Lemma an_swaps pr o sw mx S : forall tries res t, swap_neighbors pr d' o sw mx S tries res t = swap_neighbors pr d o sw mx S tries res t.
Proof. induction tries as [|n IH]; intros; cbn [swap_neighbors]; auto. go ltac:(rewrite ?an_add_swap, ?IH). Qed.
Lemma an_pick pr o sw mx S t : pick_neighbors pr d' o sw mx S t = pick_neighbors pr d o sw mx S t.
Proof.
  unfold pick_neighbors, n_cells. sizes. destruct (if mx <? _ then _ else _) as [keys t1]. rewrite an_keys. go ltac:(rewrite ?an_swaps).
Qed.
End Anon.

(** ** Sessions *)
(** [P] with the input [d]. *)
Definition for_input (P : problem) (d : input_data) : problem :=
  mkProblem d (p_analysis P) (p_static P) (p_pow P) (p_cost P) (p_greedy P) (p_any P) (p_max_neighbors P) (p_cs_timeout P).

Section Session.
Variables (d' : input_data) (P : problem).
Hypothesis SN : same_but_names (p_input P) d'.
Local Notation P' := (for_input P d').

Lemma an_candidate pr w dl S h : solve_candidate pr P' w dl S h = solve_candidate pr P w dl S h.
Proof. unfold solve_candidate. cbn [for_input p_input p_static p_cost p_greedy p_analysis]. rewrite (an_until _ _ SN). auto. Qed.
Lemma an_score pr sol : score_of pr P' sol = score_of pr P sol.
Proof. unfold score_of. cbn [for_input p_input p_pow p_greedy]. apply (nm_evaluate _ _ SN). Qed.
Lemma an_explore pr w dl ns : forall b found h ev, explore pr P' w dl ns b found h ev = explore pr P w dl ns b found h ev.
Proof.
  induction ns as [|n ns IH]; intros; cbn [explore]; auto. destruct (dl && _); auto. rewrite an_candidate. apply bindo_cong; auto.
  intros [[sol h'] e]. rewrite an_score. apply bindo_cong; auto. intros sc. destruct (score_lt _ _); auto.
Qed.
Lemma an_climb pr w dl sw : forall fuel b h ev, climb pr P' w dl sw fuel b h ev = climb pr P w dl sw fuel b h ev.
Proof.
  induction fuel as [|n IH]; intros; cbn [climb]; auto. destruct (dl && _); auto. apply bindo_cong; auto. intros cur.
  cbn [for_input p_input p_max_neighbors]. rewrite (an_pick _ _ SN). apply bindo_cong; auto. intros nt.
  fold (for_input P d'). rewrite an_explore. apply bindo_cong; auto. intros [[[[all fd] b'] h'] ev']. destruct (all && fd); auto.
Qed.
Lemma an_hill pr w dl tn S h : hill_solve pr P' w dl tn S h = hill_solve pr P w dl tn S h.
Proof.
  unfold hill_solve. rewrite an_candidate. apply bindo_cong; auto. intros [[sol h1] e]. rewrite an_score. apply bindo_cong; auto. intros sc.
  destruct (negb _); auto. rewrite an_climb. auto.
Qed.
Lemma an_iterate pr w dl tn : forall n g, iterate pr P' w dl tn n g = iterate pr P w dl tn n g.
Proof.
  induction n as [|n IH]; intros g; cbn [iterate]; auto. destruct (dl && _); auto.
  cbn [for_input p_input p_analysis p_cs_timeout]. rewrite (an_next _ _ SN). apply bindo_cong; auto. intros nx. destruct (nx_sched nx); auto.
  fold (for_input P d'). rewrite an_hill. apply bindo_cong; auto. intros [[sol h] ev]. rewrite an_score. apply bindo_cong; auto. intros sc.
  rewrite IH. auto.
Qed.
Lemma an_wmove pr w flag wk ls wk' : wmove pr P w flag wk ls wk' -> wmove pr P' w flag wk ls wk'.
Proof.
  intros H. destruct H.
  - apply mv_stop with (expired := expired); auto.
  - apply mv_start.
  - apply mv_iterate with (tn := tn). rewrite an_iterate. auto.
  - apply mv_crash with (tn := tn) (r := r); auto. rewrite an_iterate. auto.
  - apply mv_success; auto.
  - apply mv_last; auto. cbn [for_input p_input]. rewrite (an_slots _ _ SN). auto.
  - apply mv_again; auto. cbn [for_input p_input]. rewrite (an_slots _ _ SN). auto.
Qed.
Lemma an_moves pr ws s tr s' : moves pr P ws s tr s' -> moves pr P' ws s tr s'.
Proof.
  induction 1 as [s|s l s1 tr s2 Hm _ IH]; [constructor|]. econstructor; [|exact IH].
  destruct Hm; [|constructor]. econstructor; [eassumption|]. apply an_wmove; auto.
Qed.
Lemma an_start n : start P' n = start P n.
Proof. unfold start, num_threads. cbn [for_input p_input]. rewrite (an_slots _ _ SN). auto. Qed.
End Session.
