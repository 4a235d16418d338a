(** No worker panics. *)
From Verif Require Import Base M_Data Spec M_Scoring P_Scoring P_Feasible P_Score P_Minor M_Rng P_Rng M_Critical Spec_Search M_Search P_Sums P_Search3 P_Search5
  M_Flow Spec_Flow Spec_Calls P_Flow1 P_Flow2 P_Flow3 P_Flow7 M_Climb M_Threads Spec_Climb Spec_Threads P_Climb1 P_Climb2 P_Climb3 P_Climb4 P_Climb5 P_Threads.
From Coq Require Import Permutation.

Definition safe {A} (e : option (outcome A)) : Prop := forall r, e = Some r -> exists x, r = Ok x.
Lemma safe_ok {A} (x : A) : safe (Some (Ok x)). Proof. intros r H. injection H as <-. eauto. Qed.
Lemma safe_is {A} (e : outcome A) : (exists x, e = Ok x) -> safe (Some e). Proof. intros [x ->]. apply safe_ok. Qed.
Lemma safe_bind {A B} (e : option (outcome A)) (f : A -> option (outcome B)) : safe e -> (forall a, e = Some (Ok a) -> safe (f a)) -> safe (bindo e f).
Proof. intros HE HF r. destruct e as [[a|m|]|]; cbn; intros H; try (destruct (HE _ eq_refl); discriminate); try discriminate. eapply HF; eauto. Qed.

(** More turns do not change a result of the scheduling search. *)
Lemma run_more pr d o late sets order suffix : forall fuel m r, M_Search.run pr d o late sets order suffix fuel m = Some r ->
  forall fuel', fuel <= fuel' -> M_Search.run pr d o late sets order suffix fuel' m = Some r.
Proof.
  induction fuel as [|fuel IH]; intros m r H fuel' Hle; [discriminate|]. destruct fuel' as [|fuel']; [lia|]. cbn [M_Search.run] in *.
  destruct (step pr d o late sets order suffix m) as [[m'|x t]| |]; auto. apply (IH m'); auto. lia.
Qed.
Lemma search_more pr d o late sets t fuel r fuel' : solve_scheduling pr d o late sets t fuel = Some r -> fuel <= fuel' -> solve_scheduling pr d o late sets t fuel' = Some r.
Proof. unfold solve_scheduling. destruct (max_suffix pr d (choice_scramble d o t)); auto. intros H Hle. eapply run_more; eauto. Qed.
Lemma relax_more pr d o a dl cs : forall fuel sfuel limit t r, relax pr d o a dl cs sfuel fuel limit t = Some r ->
  forall sfuel' fuel', sfuel <= sfuel' -> fuel <= fuel' -> relax pr d o a dl cs sfuel' fuel' limit t = Some r.
Proof.
  induction fuel as [|fuel IH]; intros sfuel limit t r H sfuel' fuel' H1 H2; [discriminate|]. destruct fuel' as [|fuel']; [lia|]. cbn [relax] in *.
  destruct (negb (limit =? i_max_pref d)%N && (cs <? 0)%Z); auto.
  destruct (solve_scheduling pr d o (late_at d o dl limit) (for_preference a limit) t sfuel) as [x|] eqn:E; [|discriminate].
  rewrite (search_more _ _ _ _ _ _ _ _ sfuel' E H1). destruct x as [[x t']| |]; auto. destruct (result_slots x); auto.
  destruct (limit =? i_max_pref d)%N; auto.
  destruct (relax pr d o a dl cs sfuel fuel (preference_after d limit) t') as [y|] eqn:E2; [|discriminate].
  rewrite (IH sfuel _ _ _ E2 sfuel' fuel') by lia. auto.
Qed.
Lemma next_more pr d o a dl cs sfuel fuel t r sfuel' fuel' : next_scheduling pr d o a dl cs sfuel fuel t = Some r -> sfuel <= sfuel' -> fuel <= fuel' ->
  next_scheduling pr d o a dl cs sfuel' fuel' t = Some r.
Proof. unfold next_scheduling. destruct (next_in_range pr (o_sample o t) 0 pref_relaxation); auto. intros H H1 H2. eapply relax_more; eauto. Qed.

(** The inputs, environments and options on which nothing overflows. *)

Section Safe.
Context (pr : profile) (P : problem) (HR : roomy pr P).
Let d := p_input P.
Local Definition HF : fits d := ro_fits _ _ HR.
Local Definition HW : wf_input d := ro_wf _ _ HR.
Lemma HLay : layout d (p_static P). Proof. apply static_layout, (ro_static _ _ HR). Qed.

Lemma feasible_total n : shaped d n -> exists b, sched_is_feasible pr d n = Ok b /\ (b = true <-> valid_scheduling d n).
Proof. intros [HL Hr]. apply (sched_is_feasible_exact pr d n HF HW HL Hr). apply totals_sums; auto. apply (sr_totals _ (ro_search _ _ HR)). Qed.
Lemma feasible_valid n : length n = length (i_choices d) -> sched_is_feasible pr d n = Ok true -> valid_scheduling d n.
Proof.
  intros HL H. destruct (sched_is_feasible_sound pr d n HF HW HL H) as (V1 & _). destruct (feasible_total n (conj HL V1)) as (b & E & HB).
  apply HB. congruence.
Qed.

(** *** Neighbourhoods *)
Section Picking.
Context (o : oracle) (HFair : fair o) (S : scheduling) (HS : shaped d S).
Lemma index_safe t : 0 < length S -> safe (Some (random_index pr o (length S) t)).
Proof.
  intros H0. apply safe_is. eexists. apply random_index_total; auto. destruct HS as [E _]. rewrite E. apply (sr_choices _ (ro_search _ _ HR)).
Qed.
Lemma fresh_safe taken : 0 < length S -> forall fuel t, safe (fresh_index pr o (length S) taken fuel t).
Proof.
  intros H0. induction fuel as [|fuel IH]; intros t; cbn [fresh_index]; [intros r E; discriminate|].
  apply safe_bind; [apply index_safe; auto|]. intros i _. destruct (existsb (Nat.eqb i) taken); auto using safe_ok.
Qed.
Lemma three_safe t : safe (Some (next_in_range pr (o_sample o t) 0 3)).
Proof.
  destruct (next_in_range_ok pr (o_sample o t) 0 3) as (z & -> & _); try (unfold i32_min, i32_max; lia); [apply fair_sample; auto|]. apply safe_ok.
Qed.
Lemma grow_safe sw : 0 < length S -> forall fuel idx t, safe (grow_cycle pr o (length S) sw fuel idx t).
Proof.
  intros H0. induction fuel as [|fuel IH]; intros idx t; cbn [grow_cycle]; [intros r E; discriminate|].
  apply safe_bind; [apply three_safe|]. intros z _. destruct ((z =? 0)%Z && (length idx <? length S / 2)); [|apply safe_ok].
  apply safe_bind; [apply fresh_safe; auto|]. intros it _. apply IH.
Qed.
Lemma swap_safe sw t : 0 < length S -> safe (swap_neighbor pr d o sw S t).
Proof.
  intros H0. unfold swap_neighbor. apply safe_bind; [apply index_safe; auto|]. intros i Ei. injection Ei as Ei. apply random_index_lt in Ei; auto.
  apply safe_bind; [apply grow_safe; auto|]. intros [idx t'] Eg. cbn [fst snd]. apply safe_is.
  apply grow_cycle_ok in Eg as (HN & Hlt & [more Em] & _); auto; [|constructor; [intros []|constructor]|intros j [<-|[]]; auto].
  assert (Hne : idx <> []) by (rewrite Em; discriminate).
  assert (Hlast : last idx 0 < length S) by (apply Hlt; pose proof (last_nth idx 0 Hne) as E; eapply nth_error_In; eauto).
  destruct (nth_error S (last idx 0)) as [carry|] eqn:Ec; [|apply nth_error_None in Ec; lia]. unfold get. rewrite Ec. cbn [bind].
  destruct (rotate_ok idx carry S HN Hlt) as (S' & out & -> & HL' & _). cbn [bind]. unfold with_data. destruct HS as [HL _]. rewrite HL', HL, Nat.eqb_refl. cbn [bind]. eauto.
Qed.
Lemma swap_shaped sw t n t' : swap_neighbor pr d o sw S t = Some (Ok (n, t')) -> shaped d n.
Proof.
  intros H. apply swap_neighbor_ok in H as (cyc & _ & _ & _ & _ & _ & HP & HL); auto. split; auto. eapply perm_in_range; eauto. apply HS.
Qed.
Lemma feasible_safe n : shaped d n -> safe (Some (sched_is_feasible pr d n)).
Proof. intros H. apply safe_is. destruct (feasible_total n H) as (b & -> & _). eauto. Qed.
Lemma add_safe sw res t : 0 < length S -> safe (add_swap pr d o sw S res t).
Proof.
  intros H0. unfold add_swap. apply safe_bind; [apply swap_safe; auto|]. intros [n t'] En. cbn [fst snd]. apply swap_shaped in En.
  apply safe_bind; [apply feasible_safe; auto|]. intros ok _. apply safe_ok.
Qed.
Lemma keys_safe sw max swaps : (swaps = true -> 0 < length S) -> forall keys index res t, (forall k, In k keys -> k < n_cells d) -> safe (key_neighbors pr d o sw max swaps S keys index res t).
Proof.
  intros H0. induction keys as [|k keys IH]; intros index res t Hk; cbn [key_neighbors]; [apply safe_ok|].
  destruct (max <=? length res); [apply safe_ok|]. destruct (max * 32 <? index); [apply safe_ok|].
  assert (Hk' : forall k, In k keys -> k < n_cells d) by (intros; apply Hk; right; auto).
  destruct (neighbor_move d S k HS (Hk k (or_introl eq_refl))) as (n & En & Hn). apply safe_bind; [rewrite En; apply safe_ok|]. intros n' En'. assert (n' = n) by congruence. subst n'.
  apply safe_bind; [apply feasible_safe; eapply one_move_shaped; eauto|]. intros ok _. destruct ok; cbn [negb]; auto.
  apply safe_bind; [|intros; apply IH; auto]. destruct swaps; [apply add_safe; auto|apply safe_ok].
Qed.
Lemma swaps_safe sw max : 0 < length S -> forall tries res t, safe (swap_neighbors pr d o sw max S tries res t).
Proof.
  intros H0. induction tries as [|tries IH]; intros res t; cbn [swap_neighbors]; [apply safe_ok|]. destruct (max <=? length res); [apply safe_ok|].
  apply safe_bind; [apply add_safe; auto|]. intros; apply IH.
Qed.
Lemma pick_safe sw max t : safe (pick_neighbors pr d o sw max S t).
Proof.
  unfold pick_neighbors. assert (H0 : (1 <? length (i_choices d)) && (1 <? length (i_slots d)) = true -> 0 < length S).
  { intros E. apply andb_true_iff in E as [E _]. apply Nat.ltb_lt in E. destruct HS as [-> _]. lia. }
  assert (Hk : forall k, In k (fst (if max <? n_cells d then (o_shuffle o t (seq 0 (n_cells d)), t + 1) else (seq 0 (n_cells d), t))) -> k < n_cells d).
  { intros k. destruct (max <? n_cells d); cbn [fst]; intros Hin; [apply (Permutation_in _ (Permutation_sym (fair_shuffle o HFair t _))) in Hin|]; apply in_seq in Hin; lia. }
  destruct (if max <? n_cells d then _ else _) as [keys t1]. apply safe_bind; [apply keys_safe; auto|]. intros [res t2] _.
  destruct ((1 <? length (i_choices d)) && (1 <? length (i_slots d))); cbn [andb]; [|apply safe_ok]. destruct (length res <? max); [apply swaps_safe; auto|apply safe_ok].
Qed.
End Picking.

(** *** Candidates *)
Definition cache_one (sv : solver) : Prop := forall S A o, sv_cache sv = Some (S, A, o) -> one_choice_per_slot d S A.
Notation history := (history pr d (p_static P) (p_cost P) (p_greedy P) (an_bound (p_analysis P))).
Definition live (h : climber) : Prop := exists l, history l (hc_solver h) /\ (forall c, In c l -> valid_scheduling d (cl_sched c)) /\ cache_one (hc_solver h).
Definition good (sol : solution) : Prop :=
  match sol with
  | SolInvalid => True
  | SolScheduling x => valid_scheduling d x
  | SolComplete x A => valid_scheduling d x /\ one_choice_per_slot d x A
  end.
Lemma new_live : live new_climber.
Proof. exists []. split; [constructor|]. split; [intros c []|]. intros x A o E. discriminate. Qed.
Lemma sums_ok S : valid_scheduling d S -> forall s, (slot_sum ch_min (i_choices d) S s <= N.of_nat (length (i_choosers d)))%N.
Proof.
  intros H s. destruct (Nat.lt_ge_cases s (length (i_slots d))) as [Hs|Hs]; [apply (vs_sums _ _ H s Hs)|].
  assert (slot_sum ch_min (i_choices d) S s = 0%N) as ->; [|lia]. pose proof (vs_range _ _ H) as Hr. unfold scheduled_in in Hr. clear - Hr Hs. revert Hr. revert S.
  induction (i_choices d) as [|ch cs IH]; intros S Hr; [destruct S as [|[] ?]; reflexivity|]. destruct S as [|x S]; [reflexivity|]. cbn [slot_sum]. rewrite IH.
  - destruct x as [t|]; auto. specialize (Hr 0 t eq_refl). destruct (Nat.eqb_spec t s); [lia|auto].
  - intros c t Hc. apply (Hr (Datatypes.S c)). auto.
Qed.
Lemma valid_is_shaped S : valid_scheduling d S -> shaped d S.
Proof. intros H. split; [apply (vs_length _ _ H)|apply (vs_range _ _ H)]. Qed.

Lemma levels_one ev dl st S levels start fuel : honest_lp ev dl -> state_for pr d S st -> valid_scheduling d S -> forall low high best o t r o' t',
  (forall A, best = Some A -> one_choice_per_slot d S A) ->
  level_search (solve_with_limit pr d (p_static P) (p_cost P) ev dl st) levels start fuel low high best o t = Some (Ok (r, o', t')) ->
  forall A, r = Some A -> one_choice_per_slot d S A.
Proof.
  intros HE HSt HV. induction fuel as [|fuel IH]; intros low high best o t r o' t' HB H A HA; cbn [level_search] in H.
  - destruct (negb (low <=? high)); [|discriminate]. injection H as <- <- <-. auto.
  - destruct (negb (low <=? high)); [injection H as <- <- <-; auto|]. destruct (get levels (low + (high - low) / 2)) as [l| |]; try discriminate.
    destruct (solve_with_limit pr d (p_static P) (p_cost P) ev dl st l t) as [[[B| |] t1]| |] eqn:EL; try discriminate; [|eapply IH; eauto|eapply IH; eauto].
    assert (HB' : one_choice_per_slot d S B).
    { pose proof (limit_sound pr d (p_static P) (p_cost P) HW HLay (ro_groups _ _ HR) (ro_size _ _ HR) S st HSt (sums_ok S HV) ev dl HE l t _ _ EL) as [HA' _]. apply (al_one _ _ _ _ HA'). }
    destruct (low + (high - low) / 2 =? start).
    + apply some_inj, ok_inj in H. assert (E : r = Some B) by congruence. rewrite E in HA. injection HA as <-. auto.
    + eapply IH; [|exact H|exact HA]. intros A0 E0. injection E0 as <-. auto.
Qed.
Lemma until_one ev dl l sv S t a : honest_lp ev dl -> history l sv -> (forall c, In c l -> valid_scheduling d (cl_sched c)) -> cache_one sv -> valid_scheduling d S ->
  solve_until pr d (p_static P) (p_cost P) (p_greedy P) (an_bound (p_analysis P)) ev dl sv S t = Some (Ok a) ->
  cache_one (ar_solver a) /\ forall A, ar_result a = Some A -> one_choice_per_slot d S A.
Proof.
  intros HE Hh Hl HC HV H. apply solve_until_inv in H as (st & EP & _ & HX).
  pose proof (history_prepared pr d (p_static P) (p_cost P) (p_greedy P) (an_bound (p_analysis P)) HW HLay l sv S st Hh (valid_is_shaped S HV) EP) as HSt.
  pose proof (sf_slots _ _ _ _ HSt) as ESl.
  destruct HX as [(_ & E1 & A & E2 & E3)|(_ & EF & EC)].
  - split; [intros S0 A0 o0; rewrite E1; apply HC|]. intros B HB. rewrite E3 in HB. injection HB as <-. rewrite ESl in E2. eapply HC; eauto.
  - assert (HO : forall A, ar_result a = Some A -> one_choice_per_slot d S A).
    { unfold fresh in EF. destruct (p_greedy P).
      - apply some_inj in EF. apply bind_ok in EF as ([[A| |] t'] & EL & EF); apply ok_inj in EF; subst a; intros B HB; cbn in HB; try discriminate.
        injection HB as <-.
        pose proof (limit_sound pr d (p_static P) (p_cost P) HW HLay (ro_groups _ _ HR) (ro_size _ _ HR) S st HSt (sums_ok S HV) ev dl HE _ _ _ _ EL) as [HA' _]. apply (al_one _ _ _ _ HA').
      - destruct (length (i_levels d)) as [|last]; [injection EF as <-; discriminate|].
        destruct (level_search _ _ _ _ _ _ _ _ _) as [[[[best optimal] t']| |]|] eqn:EL; try discriminate. apply some_inj, ok_inj in EF. subst a.
        intros A HA. assert (E : ar_result (finish best st optimal sv t') = best) by (destruct best; auto). rewrite E in HA.
        eapply levels_one; eauto. intros; discriminate. }
    split; auto. intros S0 A0 o0 H0. destruct EC as [E|(B & EB & _ & E)]; rewrite E in H0.
    + eapply HC; eauto.
    + injection H0 as <- <- _. rewrite ESl. auto.
Qed.
Lemma score_safe sol : good sol -> exists sc, score_of pr P sol = Ok sc.
Proof.
  destruct sol as [|x|x A]; cbn [good]; try (cbn; eauto; fail). intros [HV [HA HO]]. unfold score_of. apply evaluate_total; auto.
  - exact HF.
  - exact HW.
  - apply (ro_pref _ _ HR).
  - apply (vs_length _ _ HV).
  - intros p row Hp. apply (HO p row Hp).
  - apply (vs_range _ _ HV).
  - intros p c (row & Hp & Hc). destruct (HO p row Hp) as (_ & H & _). auto.
Qed.

Section Worker.
Context (w : world) (deadline : bool) (HE : honest_lp (w_env w) deadline) (HFair : fair (w_hill w)) (HSch : fair (w_sched w)).
Lemma candidate_safe S h : live h -> valid_scheduling d S ->
  exists sol h' e, solve_candidate pr P w deadline S h = Some (Ok (sol, h', e)) /\ live h' /\ good sol /\ sol_scheduling sol = Some S.
Proof.
  intros (l & Hh & Hl & HC) HV. unfold solve_candidate.
  destruct (history_total pr d (p_static P) (p_cost P) (p_greedy P) (an_bound (p_analysis P)) HW HLay (ro_groups _ _ HR) (ro_size _ _ HR) (ro_levels _ _ HR)
    l (hc_solver h) S (w_env w) deadline (hc_atick h) Hh (valid_is_shaped S HV) HE (sums_ok S HV) (fun c s Hc => sums_ok _ (Hl c Hc) s)) as (a & Ea & _).
  fold d. rewrite Ea. cbn [bindo]. do 3 eexists. split; [reflexivity|].
  destruct (until_one _ _ l _ _ _ _ HE Hh Hl HC HV Ea) as [HC' HO]. split; [|split].
  - exists (mkCall S (w_env w) deadline (hc_solver h) (hc_atick h) a :: l). cbn [hc_solver]. split; [|split; auto].
    + apply (his_call _ _ _ _ _ _ l (mkCall S (w_env w) deadline (hc_solver h) (hc_atick h) a)); auto. apply valid_is_shaped; auto.
    + intros c [<-|Hc]; auto.
  - destruct (ar_result a) as [A|] eqn:EA; cbn; auto.
  - destruct (ar_result a); auto.
Qed.
Lemma live_tick h t : live h -> live (at_tick h t). Proof. auto. Qed.
Definition step_ok (b : best) (h : climber) : Prop := live h /\ good (b_sol b) /\ sol_scheduling (b_sol b) <> None.
Lemma explore_safe ns : (forall n, In n ns -> valid_scheduling d n) -> forall b found h ev, step_ok b h ->
  exists all found' b' h' ev', explore pr P w deadline ns b found h ev = Some (Ok (all, found', b', h', ev')) /\ step_ok b' h'.
Proof.
  intros Hns. induction ns as [|n ns IH]; intros b found h ev (H1 & H2 & H3); cbn [explore].
  - do 5 eexists. split; [reflexivity|]. split; auto.
  - destruct (deadline && o_late (w_hill w) (hc_tick h)); [do 5 eexists; split; [reflexivity|]; split; auto|].
    destruct (candidate_safe n (at_tick h (hc_tick h + 1)) (live_tick _ _ H1) (Hns n (or_introl eq_refl))) as (sol & h1 & e & -> & A1 & A2 & A3). cbn [bindo].
    destruct (score_safe sol A2) as [sc ->]. cbn [bindo]. assert (Hns' : forall m, In m ns -> valid_scheduling d m) by (intros; apply Hns; right; auto).
    destruct (score_lt sc (b_score b)); apply IH; auto; split; auto. split; auto. cbn. congruence.
Qed.
Lemma climb_safe sw fuel : forall b h ev, step_ok b h -> safe (climb pr P w deadline sw fuel b h ev).
Proof.
  induction fuel as [|fuel IH]; intros b h ev (H1 & H2 & H3); cbn [climb]; [intros r E; discriminate|].
  destruct (deadline && o_late (w_hill w) (hc_tick h)); [apply safe_ok|].
  destruct (sol_scheduling (b_sol b)) as [S|] eqn:ES; [|congruence]. cbn [expect bindo].
  assert (HV : valid_scheduling d S) by (destruct (b_sol b); cbn in ES, H2; try discriminate; injection ES as <-; tauto).
  pose proof (valid_is_shaped S HV) as HSh.
  apply safe_bind; [apply pick_safe; auto|]. intros [ns t] Ep. cbn [fst snd].
  destruct (pick_neighbors_ok _ _ _ _ _ _ _ _ _ HFair HSh Ep) as (Hn & _).
  destruct (explore_safe ns) with (b := b) (found := false) (h := at_tick h t) (ev := ev) as (all & found & b' & h' & ev' & -> & HO).
  { intros n Hin. destruct (Hn n Hin) as ([HL _] & Hf & _). apply feasible_valid; auto. }
  { split; auto. split; auto. congruence. }
  cbn [bindo]. destruct (all && found); [apply IH; auto|apply safe_ok].
Qed.
(** The states of a climb stay live, whatever it returns. *)
Lemma climb_live sw fuel : forall b h ev b' h' ev', step_ok b h -> climb pr P w deadline sw fuel b h ev = Some (Ok (b', h', ev')) -> step_ok b' h'.
Proof.
  induction fuel as [|fuel IH]; intros b h ev b' h' ev' (H1 & H2 & H3) H; cbn [climb] in H; [discriminate|].
  destruct (deadline && o_late (w_hill w) (hc_tick h)).
  { apply some_inj, ok_inj in H. assert (E : b' = b /\ h' = at_tick h (hc_tick h + 1)) by (split; congruence). destruct E as [-> ->]. split; auto. }
  destruct (sol_scheduling (b_sol b)) as [S|] eqn:ES; [|congruence]. cbn [expect bindo] in H.
  assert (HV : valid_scheduling d S) by (destruct (b_sol b); cbn in ES, H2; try discriminate; injection ES as <-; tauto).
  apply bindo_ok in H as ([ns t] & Ep & H). cbn [fst snd] in H.
  destruct (pick_neighbors_ok _ _ _ _ _ _ _ _ _ HFair (valid_is_shaped S HV) Ep) as (Hn & _).
  destruct (explore_safe ns) with (b := b) (found := false) (h := at_tick h t) (ev := ev) as (all & found & b1 & h1 & ev1 & E & HO).
  { intros n Hin. destruct (Hn n Hin) as ([HL _] & Hf & _). apply feasible_valid; auto. }
  { split; auto. split; auto. congruence. }
  rewrite E in H. cbn [bindo] in H. destruct (all && found); [eapply IH; eauto|].
  apply some_inj, ok_inj in H. assert (EE : b' = b1 /\ h' = h1) by (split; congruence). destruct EE as [-> ->]. auto.
Qed.
Lemma hill_safe tn S h : live h -> valid_scheduling d S -> safe (hill_solve pr P w deadline tn S h) /\
  forall sol h' ev, hill_solve pr P w deadline tn S h = Some (Ok (sol, h', ev)) -> live h' /\ good sol.
Proof.
  intros Hh HV. unfold hill_solve. destruct (candidate_safe S h Hh HV) as (sol & h1 & e & -> & A1 & A2 & A3). cbn [bindo].
  destruct (score_safe sol A2) as [sc ->]. cbn [bindo]. destruct (negb (score_finite sc)).
  { split; [apply safe_ok|]. intros s h' ev E. apply some_inj, ok_inj in E. assert (EE : s = SolInvalid /\ h' = h1) by (split; congruence). destruct EE as [-> ->]. cbn. auto. }
  assert (HO : step_ok (mkBest sol sc) h1) by (split; auto; split; auto; cbn; congruence). split.
  - apply safe_bind; [apply climb_safe; auto|]. intros [[b h2] ev] _. apply safe_ok.
  - intros s h' ev E. apply bindo_ok in E as ([[b h2] ev2] & EC & E). apply climb_live in EC as (L1 & L2 & _); auto.
    apply some_inj, ok_inj in E. assert (EE : s = b_sol b /\ h' = h2) by (split; congruence). destruct EE as [-> ->]. auto.
Qed.
Lemma next_safe sfuel fuel t : safe (next_scheduling pr d (w_sched w) (p_analysis P) deadline (p_cs_timeout P) sfuel fuel t).
Proof.
  intros r E. destruct (ro_sets _ _ HR) as (analyze & simplify & Ha). fold d in Ha.
  pose proof (next_more _ _ _ _ _ _ _ _ _ _ (Nat.max sfuel (search_cost d + 1)) (Nat.max fuel (length (i_levels d) + 1)) E ltac:(lia) ltac:(lia)) as E'.
  destruct (next_unfold pr d (w_sched w) (p_analysis P) deadline (p_cs_timeout P) (Nat.max sfuel (search_cost d + 1)) (Nat.max fuel (length (i_levels d) + 1)) t HSch) as (limit & Hlim & EN).
  rewrite EN in E'. pose proof (ro_levels _ _ HR) as HL. fold d in HL.
  assert (Hin : In limit (i_levels d)) by (destruct Hlim as [-> | ->]; [apply (lv_max _ HL)|eapply an_bound_in; eauto]).
  destruct (relax_total pr d (w_sched w) (p_analysis P) deadline (p_cs_timeout P) (Nat.max sfuel (search_cost d + 1)) HW HF (ro_search _ _ HR) HSch HL) with
    (fuel := Nat.max fuel (length (i_levels d) + 1)) (limit := limit) (tick := Datatypes.S t) as (n & En); auto.
  - intros p. pose proof (ro_analysis _ _ HR) as HA. eapply for_preference_lt; eauto; [apply HW|apply (az_min _ HA)|apply (az_cap _ HA)|apply (lv_sorted _ HL)].
  - apply (ro_timeout _ _ HR).
  - lia.
  - assert (G : forall p L, length (filter (fun l => p <? l)%N L) <= length L).
    { clear. intros p L. induction L as [|y L IH]; cbn; auto. destruct (p <? y)%N; cbn; lia. }
    specialize (G limit (i_levels d)). unfold above. lia.
  - exists n. congruence.
Qed.
Lemma iterate_safe tn : forall number g, live (sg_climber g) -> safe (iterate pr P w deadline tn number g) /\
  forall k g' ev, iterate pr P w deadline tn number g = Some (Ok (k, g', ev)) -> live (sg_climber g').
Proof.
  induction number as [|number IH]; intros g Hg; cbn [iterate].
  - split; [apply safe_ok|]. intros k g' ev E. injection E as <- <- <-. auto.
  - destruct (deadline && w_late w (sg_tick g)).
    { split; [apply safe_ok|]. intros k g' ev E. injection E as <- <- <-. auto. }
    assert (HX : forall n S, next_scheduling pr (p_input P) (w_sched w) (p_analysis P) deadline (p_cs_timeout P) (tn_search tn) (tn_relax tn) (sg_stick g) = Some (Ok n) ->
       nx_sched n = Some S -> valid_scheduling d S).
    { intros n S En ES. destruct (next_feasible _ _ _ _ _ _ _ _ _ _ _ En ES) as [HL Hf]. apply feasible_valid; auto. }
    split.
    + apply safe_bind; [apply next_safe|]. intros n En. destruct (nx_sched n) as [S|] eqn:ES; [|apply safe_ok]. destruct (hill_safe tn S (sg_climber g) Hg (HX n S En ES)) as [H1 H2].
      apply safe_bind; auto. intros [[sol h] ev] Eh. destruct (H2 _ _ _ Eh) as [H3 H4]. destruct (score_safe sol H4) as [sc ->]. cbn [bindo].
      apply safe_bind; [apply IH; auto|]. intros [[k g3] ev'] _. apply safe_ok.
    + intros k g' ev H. apply bindo_ok in H as (n & En & H). destruct (nx_sched n) as [S|] eqn:ES.
      * destruct (hill_safe tn S (sg_climber g) Hg (HX n S En ES)) as [H1 H2]. apply bindo_ok in H as ([[sol h] ev1] & Eh & H). destruct (H2 _ _ _ Eh) as [H3 H4].
        apply bindo_ok in H as (sc & Es & H). apply bindo_ok in H as ([[k1 g1] ev2] & Ei & H). apply IH in Ei; auto.
        apply some_inj, ok_inj in H. assert (EE : g' = g1) by congruence. subst. auto.
      * injection H as <- <- <-. auto.
Qed.
End Worker.

(** *** Sessions *)
Definition upright (s : session) : Prop := forall wk, In wk (se_workers s) -> live (sg_climber (wk_gun wk)) /\ wk_pc wk <> WCrashed.
Lemma wmove_safe w flag wk ls wk' : honest_lp (w_env w) true -> fair (w_hill w) -> fair (w_sched w) -> live (sg_climber (wk_gun wk)) -> wk_pc wk <> WCrashed ->
  wmove pr P w flag wk ls wk' -> live (sg_climber (wk_gun wk')) /\ wk_pc wk' <> WCrashed.
Proof.
  intros H1 H2 H3 HLv HC M. destruct M as [| |g ev tn k g' ev' E|g ev tn r E Hr| | |]; cbn [wk_gun wk_pc] in *; try (split; [solve [auto]|discriminate]).
  - split; [|discriminate]. exact (proj2 (iterate_safe w true H1 H2 H3 tn 1 g HLv) _ _ _ E).
  - exfalso. destruct (iterate_safe w true H1 H2 H3 tn 1 g HLv) as [HS _]. destruct (HS r E) as [x Hx]. eapply Hr; eauto.
Qed.
Lemma move_safe ws s l s' : working ws -> upright s -> move pr P ws s l s' -> upright s'.
Proof.
  intros HWs H M. destruct M as [s i wk ls wk' E M|s]; auto. intros x Hx. cbn in Hx. apply in_upd in Hx as [->|Hx]; auto.
  destruct (H wk (nth_error_In _ _ E)) as [A B]. destruct (HWs i) as (W1 & W2 & W3). eapply wmove_safe; eauto.
Qed.
Lemma session_safe ws threads tr s : working ws -> moves pr P ws (start P threads) tr s -> upright s.
Proof.
  intros HWs M. assert (H0 : upright (start P threads)).
  { intros wk Hin. apply repeat_spec in Hin. subst. split; [apply new_live|discriminate]. }
  induction M; auto. apply IHM. eapply move_safe; eauto.
Qed.
End Safe.
