(** Property theorems about the time limit: C77. *)
From Verif Require Import Base M_Data Spec M_Scoring M_Rng M_Critical Spec_Search M_Search P_Search3 P_Search5 P_Built T_Search
  M_Flow Spec_Flow Spec_Calls P_Flow1 P_Flow7 M_Climb M_Threads Spec_Climb Spec_Threads P_Climb1 P_Climb4 P_Session Spec_Deadline P_Brute T_Climb.
From Coq Require Import Permutation.
Notation length := Datatypes.length.
Notation get := Base.get.
Import ListNotations.
Open Scope list_scope.

(** ** Once the deadline has passed, the assignment solver poses no further LP: its
    answer does not depend on the LP library, and is the remembered assignment of
    this scheduling or none. *)
Lemma late_limit pr d sd cost ev st limit t : past (ev_expired ev) t -> solve_with_limit pr d sd cost ev true st limit t = Ok (LIncomplete, t + 1).
Proof. intros H. unfold solve_with_limit. cbn [andb]. rewrite (H t ltac:(lia)). reflexivity. Qed.
Lemma late_levels pr d sd cost ev ev' st levels start fuel : ev_expired ev' = ev_expired ev ->
  forall low high best o t, past (ev_expired ev) t ->
  level_search (solve_with_limit pr d sd cost ev true st) levels start fuel low high best o t =
  level_search (solve_with_limit pr d sd cost ev' true st) levels start fuel low high best o t /\
  forall b o' t', level_search (solve_with_limit pr d sd cost ev true st) levels start fuel low high best o t = Some (Ok (b, o', t')) -> b = best /\ t' <= t + fuel.
Proof.
  intros E. induction fuel as [|fuel IH]; intros low high best o t HP; cbn [level_search].
  - destruct (negb (low <=? high)); split; auto; intros b o' t' H; [injection H as <- <- <-; split; auto; lia|discriminate].
  - destruct (negb (low <=? high)). { split; auto. intros b o' t' H. injection H as <- <- <-. split; auto; lia. }
    destruct (get levels _) as [limit| |]; [|split; auto; discriminate|split; auto; discriminate].
    rewrite !late_limit by (auto; rewrite ?E; auto). destruct (IH (low + (high - low) / 2 + 1) high best false (t + 1)) as [I1 I2].
    { intros n Hn. apply HP. lia. }
    split; auto. intros b o' t' H. destruct (I2 _ _ _ H) as [-> Ht]. split; auto. lia.
Qed.
Lemma prepared_slots pr d sd c S st : prepare_state pr d sd c S = Ok st -> ss_slots st = S.
Proof.
  unfold prepare_state, update_state, scratch_state. intros H. destruct c as [p|].
  - repeat (apply bind_ok in H as (? & _ & H)). injection H as <-. reflexivity.
  - repeat (apply bind_ok in H as (? & _ & H)). injection H as <-. reflexivity.
Qed.
Theorem C77_no_lp_after_the_deadline :
  forall (pr : profile) (d : input_data) (sd : static) (cost : N -> Z) (greedy : bool) (bound : N) (ev ev' : env) (sv : solver) (S : scheduling) (t : nat),
    past (ev_expired ev) t -> ev_expired ev' = ev_expired ev ->
    solve_until pr d sd cost greedy bound ev true sv S t = solve_until pr d sd cost greedy bound ev' true sv S t /\
    forall a, solve_until pr d sd cost greedy bound ev true sv S t = Some (Ok a) ->
      ar_result a = None \/ exists A, ar_result a = Some A /\ sv_cache sv = Some (S, A, true).
Proof.
  intros pr d sd cost greedy bound ev ev' sv S t HP E. rewrite !solve_until_eq.
  destruct (prepare_state pr d sd (sv_state sv) S) as [st| |] eqn:EP; [|split; [reflexivity|discriminate]|split; [reflexivity|discriminate]].
  assert (HSl : ss_slots st = S) by (eapply prepared_slots; eauto).
  assert (HFr : fresh pr d sd cost greedy bound ev true sv st t = fresh pr d sd cost greedy bound ev' true sv st t /\
    forall a, fresh pr d sd cost greedy bound ev true sv st t = Some (Ok a) -> ar_result a = None).
  { unfold fresh. destruct greedy.
    - rewrite !late_limit by (auto; rewrite ?E; auto). cbn. split; auto. intros a H. injection H as <-. reflexivity.
    - destruct (length (i_levels d)) as [|last]; [split; auto; intros a H; injection H as <-; reflexivity|].
      destruct (late_levels pr d sd cost ev ev' st (i_levels d) (search_start d bound) (Datatypes.S last + 1) E (search_start d bound) last None true t HP) as [L1 L2].
      rewrite <- L1. split; auto. intros a H.
      destruct (level_search _ _ _ _ _ _ _ _ _) as [[[[b o'] t']| |]|] eqn:EL; try discriminate. injection H as <-.
      destruct (L2 _ _ _ eq_refl) as [-> _]. reflexivity. }
  destruct HFr as [F1 F2]. destruct (sv_cache sv) as [[[slots A] opt]|] eqn:EC.
  - destruct (same_slots slots (ss_slots st) && opt) eqn:EB.
    + split; [auto|]. intros a H. injection H as <-. right. exists A. apply andb_true_iff in EB as [EB ->]. apply (same_slots_ok cost bound) in EB. subst slots. rewrite HSl. split; reflexivity.
    + split; [auto|]. intros a H. left. auto.
  - split; [auto|]. intros a H. left. auto.
Qed.
Print Assumptions C77_no_lp_after_the_deadline.
Definition always (_ : nat) : bool := true.
(** A climber's assignment solver that has just assigned S5. *)
Definition sv77 : solver :=
  match solve_until Debug d5 sd5 T_Flow.cube false 0 (brute_env T_Flow.no_clock) true new_solver S5 0 with Some (Ok a) => ar_solver a | _ => new_solver end.
Example C77_lp_witness :
  past (ev_expired (brute_env always)) 0 /\
  (exists a, solve_until Debug d5 sd5 T_Flow.cube false 0 (brute_env always) true new_solver S5 0 = Some (Ok a) /\ ar_result a = None) /\
  exists a, solve_until Debug d5 sd5 T_Flow.cube false 0 (brute_env always) true sv77 S5 0 = Some (Ok a) /\ ar_result a = Some [[0; 1]; [0; 1]].
Proof.
  split; [intros n _; reflexivity|]. split; eexists; (split; [vm_compute; reflexivity|reflexivity]).
Qed.

(** ** The scheduling search gives up: one turn for each remaining preference limit,
    no scheduling. *)
Lemma late_solve pr d o late sets t sfuel : fair o -> i_choices d <> [] -> past late t ->
  solve_scheduling pr d o late sets t (Datatypes.S sfuel) = Some (Ok (STimeout, t + 2)) \/
  exists r, solve_scheduling pr d o late sets t (Datatypes.S sfuel) = Some r /\ forall x, r <> Ok x.
Proof.
  intros HF HN HP. unfold solve_scheduling. pose proof (Permutation_length (scramble_order d o t HF)) as HL.
  rewrite seq_length in HL. set (order := choice_scramble d o t) in *. clearbody order.
  destruct (max_suffix pr d order) as [suffix| |]; [|right; eexists; split; [reflexivity|discriminate]|right; eexists; split; [reflexivity|discriminate]].
  left. cbn [M_Search.run]. unfold step. cbn [m_depth m_tick]. destruct (i_choices d) as [|c0 cs]; [congruence|]. cbn [length] in HL.
  replace (0 <? length order) with true by (symmetry; apply Nat.ltb_lt; lia). replace (late (Datatypes.S t)) with true by (symmetry; apply HP; lia).
  do 3 f_equal. lia.
Qed.
Lemma late_relax pr d o a cs sfuel : fair o -> i_choices d <> [] -> levels_ok d -> forall fuel limit t,
  In limit (i_levels d) -> above d limit < fuel -> past (o_late o) t ->
  exists r, relax pr d o a true cs (Datatypes.S sfuel) fuel limit t = Some r /\
    forall n, r = Ok n -> nx_sched n = None /\ nx_tick n = t + 2 * length (nx_limits n).
Proof.
  intros HF HN HL. induction fuel as [|fuel IH]; intros limit t Hin Hab HP; [lia|]. cbn [relax].
  destruct (negb (limit =? i_max_pref d)%N && (cs <? 0)%Z); [eexists; split; [reflexivity|discriminate]|].
  assert (HP' : past (late_at d o true limit) t) by (intros n Hn; unfold late_at; cbn; apply HP; auto).
  destruct (late_solve pr d o (late_at d o true limit) (for_preference a limit) t sfuel HF HN HP') as [-> | (r & -> & Hr)].
  - cbn [result_slots]. destruct (N.eqb_spec limit (i_max_pref d)) as [Em|Hne].
    + eexists. split; [reflexivity|]. intros n H. injection H as <-. cbn. split; auto; lia.
    + destruct (find_after d limit HL Hin Hne) as [A1 A2]. pose proof (above_decreases d _ _ A1 A2).
      destruct (IH (preference_after d limit) (t + 2) A1 ltac:(lia)) as (r & -> & Hr). { intros n Hn. apply HP. lia. }
      destruct r as [n'| |]; [|eexists; split; [reflexivity|discriminate]|eexists; split; [reflexivity|discriminate]].
      eexists. split; [reflexivity|]. intros n Hn. injection Hn as <-. destruct (Hr n' eq_refl) as [H1 H2]. cbn. split; auto. lia.
  - destruct r as [x| |]; [elim (Hr x); auto| |]; eexists; (split; [reflexivity|discriminate]).
Qed.
Lemma above_le d p : above d p <= length (i_levels d).
Proof. unfold above. induction (i_levels d) as [|y L IH]; cbn; auto. destruct (p <? y)%N; cbn; lia. Qed.
Theorem C77_search_gives_up :
  forall (pr : profile) (d : input_data) (o : oracle) (analyze simplify : bool) (a : analysis) (cs_timeout : Z) (t : nat),
    fair o -> levels_ok d -> i_choices d <> [] -> new_analysis pr d analyze simplify = Ok a -> past (o_late o) t ->
    exists r, next_scheduling pr d o a true cs_timeout 1 (length (i_levels d) + 1) t = Some r /\
      forall n, r = Ok n -> nx_sched n = None /\ nx_tick n = t + 1 + 2 * length (nx_limits n) /\ length (nx_limits n) <= length (i_levels d).
Proof.
  intros pr d o analyze simplify a cs t HF HL HN Ha HP.
  destruct (next_unfold pr d o a true cs 1 (length (i_levels d) + 1) t HF) as (limit & Hlim & E).
  assert (Hin : In limit (i_levels d)) by (destruct Hlim as [-> | ->]; [apply (lv_max _ HL)|eapply an_bound_in; eauto]).
  destruct (late_relax pr d o a cs 0 HF HN HL (length (i_levels d) + 1) limit (Datatypes.S t) Hin) as (r & Er & Hr).
  { pose proof (above_le d limit). lia. } { intros n Hn. apply HP. lia. }
  exists r. rewrite E. split; auto. intros n ->. destruct (Hr n eq_refl) as [H1 H2]. split; auto. split; [lia|].
  rewrite <- E in Er. apply (C44_relaxation_steps _ _ _ _ _ _ _ _ _ _ _ _ HL HF Ha Er).
Qed.
Print Assumptions C77_search_gives_up.
Definition o77 : oracle := mkOracle (fun t => Z.of_nat ((t + 1) mod 3000)) (fun _ l => l) always.
Lemma o77_fair : fair o77.
Proof. destruct (o_count_fair 1) as [H1 H2]. constructor; [exact H1|exact H2]. Qed.
Example C77_search_witness :
  fair o77 /\ levels_ok d5 /\ i_choices d5 <> [] /\ (exists an si, new_analysis Debug d5 an si = Ok a5) /\ past (o_late o77) 0 /\
  exists n, next_scheduling Debug d5 o77 a5 true 3 1 (length (i_levels d5) + 1) 0 = Some (Ok n) /\ nx_sched n = None /\ nx_limits n = [0; 5]%N.
Proof.
  split; [exact o77_fair|]. split; [apply (ro_levels _ _ P5_roomy)|]. split; [discriminate|]. split; [apply (ro_sets _ _ P5_roomy)|].
  split; [intros n _; reflexivity|]. eexists. split; [vm_compute; reflexivity|]. split; reflexivity.
Qed.

(** So an iteration whose search the deadline catches finds nothing, whatever turns
    it is granted. *)
Lemma late_relax_none pr d o a cs sfuel : fair o -> i_choices d <> [] -> forall fuel limit t n, past (o_late o) t ->
  relax pr d o a true cs sfuel fuel limit t = Some (Ok n) -> nx_sched n = None.
Proof.
  intros HF HN. induction fuel as [|fuel IH]; intros limit t n HP H; [discriminate|]. cbn [relax] in H.
  destruct (negb (limit =? i_max_pref d)%N && (cs <? 0)%Z); [discriminate|].
  assert (HP' : past (late_at d o true limit) t) by (intros m Hm; unfold late_at; cbn; apply HP; auto).
  destruct sfuel as [|sfuel].
  { destruct (solve_scheduling pr d o (late_at d o true limit) (for_preference a limit) t 0) as [[[r t']| |]|] eqn:E; try discriminate.
    unfold solve_scheduling in E. destruct (max_suffix pr d _); discriminate. }
  destruct (late_solve pr d o (late_at d o true limit) (for_preference a limit) t sfuel HF HN HP') as [E | (r & E & Hr)]; rewrite E in H.
  - cbn [result_slots] in H. destruct (limit =? i_max_pref d)%N; [injection H as <-; reflexivity|].
    destruct (relax pr d o a true cs (Datatypes.S sfuel) fuel (preference_after d limit) (t + 2)) as [[n'| |]|] eqn:ER; try discriminate.
    injection H as <-. cbn. refine (IH _ _ _ _ ER). intros m Hm. apply HP. lia.
  - destruct r as [x| |]; [elim (Hr x); auto| |]; discriminate.
Qed.
Theorem C77_iteration_gives_up :
  forall (pr : profile) (P : problem) (w : world) (tn : turns) (g : shotgun) (k : nat) (g' : shotgun) (ev : list event),
    fair (w_sched w) -> i_choices (p_input P) <> [] -> past (o_late (w_sched w)) (sg_stick g) ->
    iterate pr P w true tn 1 g = Some (Ok (k, g', ev)) ->
    k = 0 /\ ev = [] /\ sg_best g' = sg_best g /\ sg_climber g' = sg_climber g.
Proof.
  intros pr P w tn g k g' ev HF HN HP H. cbn [iterate] in H. destruct (true && w_late w (sg_tick g)); [injection H as <- <- <-; auto|].
  apply bindo_ok in H as (n & Hn & H).
  assert (E : nx_sched n = None).
  { destruct (next_unfold pr (p_input P) (w_sched w) (p_analysis P) true (p_cs_timeout P) (tn_search tn) (tn_relax tn) (sg_stick g) HF) as (limit & _ & E).
    rewrite E in Hn. eapply late_relax_none; [exact HF|exact HN| |exact Hn]. intros m Hm. apply HP. lia. }
  rewrite E in H. injection H as <- <- <-. auto.
Qed.
Print Assumptions C77_iteration_gives_up.
Definition w77 : world := mkWorld o77 o77 (brute_env always) always.
Example C77_iteration_witness : fair (w_sched w77) /\ i_choices (p_input P5) <> [] /\ past (o_late (w_sched w77)) 0 /\
  exists g', iterate Debug P5 (mkWorld o77 (o_count 1) (brute_env T_Flow.no_clock) T_Flow.no_clock) true tn1 1 new_shotgun = Some (Ok (0, g', [])) /\ sg_stick g' = 5.
Proof. split; [exact o77_fair|]. split; [discriminate|]. split; [intros n _; reflexivity|]. eexists. split; [vm_compute; reflexivity|reflexivity]. Qed.

(** ** The local search stops: it looks at no further scheduling. *)
Theorem C77_climb_stops :
  forall (pr : profile) (P : problem) (w : world) (h : climber),
    past (o_late (w_hill w)) (hc_tick h) ->
    (** in the middle of a climb, between two steps or between two neighbours *)
    (forall swaps fuel b ev, climb pr P w true swaps (Datatypes.S fuel) b h ev = Some (Ok (b, at_tick h (hc_tick h + 1), ev))) /\
    (forall n ns b found ev, explore pr P w true (n :: ns) b found h ev = Some (Ok (false, found, b, at_tick h (hc_tick h + 1), ev))) /\
    (** a whole climb: only the scheduling it starts from is assigned *)
    (forall tn S sol h' ev, hill_solve pr P w true tn S h = Some (Ok (sol, h', ev)) ->
       hc_assignments h' = hc_assignments h + 1 /\ (sol = SolInvalid \/ sol_scheduling sol = Some S)).
Proof.
  intros pr P w h HP.
  assert (HC : forall h0 swaps fuel b ev, hc_tick h0 = hc_tick h -> climb pr P w true swaps (Datatypes.S fuel) b h0 ev = Some (Ok (b, at_tick h0 (hc_tick h + 1), ev))).
  { intros h0 swaps fuel b ev E. cbn [climb]. rewrite E. rewrite (HP (hc_tick h) ltac:(lia)). reflexivity. }
  split; [intros; apply HC; auto|]. split.
  - intros n ns b found ev. cbn [explore]. rewrite (HP (hc_tick h) ltac:(lia)). reflexivity.
  - intros tn S sol h' ev H. unfold hill_solve in H. apply bindo_ok in H as ([[sol0 h0] e0] & HS & H).
    unfold solve_candidate in HS. apply bindo_ok in HS as (a & _ & HS). injection HS as <- <- <-.
    apply bindo_ok in H as (sc & _ & H). destruct (negb (score_finite sc)).
    + injection H as <- <- <-. cbn. auto.
    + apply bindo_ok in H as ([[b h1] ev1] & HCl & H). injection H as <- <- <-.
      destruct (tn_climb tn) as [|fuel]; [discriminate|]. rewrite HC in HCl by reflexivity. injection HCl as <- <- <-. cbn. split; auto.
      right. unfold new_solution. destruct (ar_result a); reflexivity.
Qed.
Print Assumptions C77_climb_stops.
Example C77_climb_witness : past (o_late (w_hill w77)) (hc_tick new_climber) /\
  exists sol h' ev, hill_solve Debug P5 (mkWorld (o_count 0) o77 (brute_env T_Flow.no_clock) T_Flow.no_clock) true tn1 S5 new_climber = Some (Ok (sol, h', ev)) /\
    sol = SolComplete S5 [[0; 1]; [0; 1]] /\ hc_assignments h' = 1.
Proof. split; [intros n _; reflexivity|]. do 3 eexists. split; [vm_compute; reflexivity|]. split; reflexivity. Qed.

(** ** A worker stops: after the deadline it makes at most four more moves, starts no
    search, and keeps its best solution and what it has reported. *)
Lemma late_iterate pr P w tn g r : past (w_late w) (sg_tick g) -> iterate pr P w true tn 1 g = Some r ->
  exists g', r = Ok (0, g', []) /\ sg_best g' = sg_best g /\ sg_climber g' = sg_climber g /\ sg_iterations g' = sg_iterations g /\ sg_tick g <= sg_tick g'.
Proof.
  intros HP H. cbn [iterate] in H. cbn [andb] in H. rewrite (HP (sg_tick g) ltac:(lia)) in H. injection H as <-. eexists. split; [reflexivity|]. cbn. repeat split; auto; lia.
Qed.
Theorem C77_worker_stops :
  forall (pr : profile) (P : problem) (ws : nat -> world) (s : session) tr (s' : session) (i : nat) (wk wk' : worker),
    nth_error (se_workers s) i = Some wk -> past (w_late (ws i)) (sg_tick (wk_gun wk)) ->
    moves pr P ws s tr s' -> nth_error (se_workers s') i = Some wk' ->
    moves_of i tr <= 4 /\ sg_best (wk_gun wk') = sg_best (wk_gun wk) /\ wk_events wk' = wk_events wk /\
    sg_climber (wk_gun wk') = sg_climber (wk_gun wk) /\ sg_iterations (wk_gun wk') = sg_iterations (wk_gun wk) /\
    (wk_pc wk' = WCrashed -> wk_pc wk = WCrashed).
Proof.
  intros pr P ws s tr s' i wk wk' E HP M E'.
  (* one more move is possible from [WAfter 1] than from [WAfter 0] *)
  set (left := fun wk => match wk_pc wk with WAfter k => if k <? 1 then 1 else 4 | WCheck => 3 | WIterate => 2 | _ => 0 end).
  assert (G : forall s tr s', moves pr P ws s tr s' -> forall wk wk', nth_error (se_workers s) i = Some wk -> past (w_late (ws i)) (sg_tick (wk_gun wk)) ->
    nth_error (se_workers s') i = Some wk' ->
    moves_of i tr <= left wk /\ sg_best (wk_gun wk') = sg_best (wk_gun wk) /\ wk_events wk' = wk_events wk /\
    sg_climber (wk_gun wk') = sg_climber (wk_gun wk) /\ sg_iterations (wk_gun wk') = sg_iterations (wk_gun wk) /\
    (wk_pc wk' = WCrashed -> wk_pc wk = WCrashed)).
  { clear - left. intros s tr s' M. induction M as [s|s l s1 tr s2 M1 M2 IH]; intros wk wk' E HP E'.
    - rewrite E in E'. injection E' as <-. cbn. repeat split; auto; lia.
    - inversion M1 as [s0 j wk0 ls wk1 E0 W|]; subst; unfold moves_of; cbn [filter fst].
      + destruct (Nat.eqb_spec j i) as [->|Hne].
        * rewrite E in E0. injection E0 as <-.
          assert (E1 : nth_error (upd (se_workers s) i wk1) i = Some wk1) by (apply nth_error_upd_same, nth_error_Some; congruence).
          cbn [length].
          inversion W; subst; cbn [wk_gun wk_events wk_pc] in *.
          -- destruct (IH _ _ E1 HP E') as (I1 & I2). unfold left in *; cbn in *. unfold moves_of in I1. split; [lia|]. intuition discriminate.
          -- destruct (IH _ _ E1 HP E') as (I1 & I2). unfold left in *; cbn in *. unfold moves_of in I1. split; [lia|]. intuition discriminate.
          -- destruct (late_iterate _ _ _ _ _ _ HP H) as (g2 & Eg & Hb & Hc & Hi & Ht). injection Eg as -> -> ->.
             destruct (IH _ _ E1 ltac:(intros n Hn; apply HP; cbn in Hn; lia) E') as (I1 & I2 & I3 & I4 & I5 & I6). unfold left in *; cbn in *. unfold moves_of in I1.
             rewrite app_nil_r in I3. repeat split; try congruence; try lia. intros F. specialize (I6 F). discriminate.
          -- destruct (late_iterate _ _ _ _ _ _ HP H) as (g2 & -> & _). elim (H0 _ eq_refl).
          -- destruct (IH _ _ E1 HP E') as (I1 & I2). unfold left in *; cbn in *. unfold moves_of in I1. split; [destruct k; cbn in *; lia|]. intuition discriminate.
          -- destruct (IH _ _ E1 HP E') as (I1 & I2). unfold left in *; cbn in *. unfold moves_of in I1. split; [destruct k; cbn in *; lia|]. intuition discriminate.
          -- destruct (IH _ _ E1 HP E') as (I1 & I2). unfold left in *; cbn in *. unfold moves_of in I1.
             apply orb_false_iff in H0 as [_ H0]. rewrite H0. split; [lia|]. intuition discriminate.
        * assert (E1 : nth_error (upd (se_workers s) j wk1) i = Some wk) by (rewrite nth_error_upd_other; auto). apply (IH _ _ E1 HP E').
      + apply (IH _ _ E HP E'). }
  destruct (G _ _ _ M _ _ E HP E') as (G1 & G2). split; auto. unfold left in G1. destruct (wk_pc wk) as [| |k| |]; try lia. destruct (k <? 1); lia.
Qed.
Print Assumptions C77_worker_stops.
Example C77_worker_witness :
  nth_error (se_workers (start P5 2)) 0 = Some new_worker /\ past (w_late ((fun _ => w77) 0)) (sg_tick (wk_gun new_worker)) /\
  exists s', moves Debug P5 (fun _ => w77) (start P5 2) [(Some 0, [LLoad false; LStart]); (Some 0, [LIterated]); (Some 0, [LOther])] s' /\
    exists wk', nth_error (se_workers s') 0 = Some wk' /\ wk_pc wk' = WDone.
Proof.
  split; [reflexivity|]. split; [intros n _; reflexivity|]. eexists. split.
  - change (start P5 2) with (mkSession false [new_worker; new_worker]).
    eapply mvs_step; [eapply (mv_worker _ _ _ _ 0); [reflexivity|eapply mv_start]|]. cbn [upd se_workers se_flag existsb orb].
    eapply mvs_step; [eapply (mv_worker _ _ _ _ 0); [reflexivity|eapply (mv_iterate _ _ _ _ _ _ tn1); vm_compute; reflexivity]|]. cbn [upd se_workers se_flag existsb orb app].
    eapply mvs_step; [eapply (mv_worker _ _ _ _ 0); [reflexivity|apply mv_last; vm_compute; reflexivity]|]. cbn [upd se_workers se_flag existsb orb app].
    constructor.
  - eexists. split; reflexivity.
Qed.
