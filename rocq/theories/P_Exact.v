(** Sessions nobody disturbs: what their result says about all solutions. *)
From Verif Require Import Base M_Data Spec M_Scoring P_Scoring P_Feasible P_Score Spec_Score P_Finite P_Check M_Build Spec_Input P_Input
  M_Rng P_Rng M_Critical Spec_Search M_Search P_Sums P_Search1 P_Search3 P_Search5 P_Search6 P_Built T_Search
  M_Flow Spec_Flow Spec_Calls P_Flow1 P_Flow6 P_Flow7 T_Flow M_Climb M_Threads Spec_Climb Spec_Threads
  P_Climb1 P_Climb2 P_Climb3 P_Climb4 P_Threads P_Climb5 P_Climb6 P_Session.

(** A clock that never expires makes the deadline irrelevant. *)
Section Calm.
Context (pr : profile) (d : input_data) (sd : static) (cost : N -> Z) (ev : env) (HX : forall t, ev_expired ev t = false).
Lemma calm_limit st limit t : solve_with_limit pr d sd cost ev true st limit t = solve_with_limit pr d sd cost ev false st limit t.
Proof. unfold solve_with_limit. rewrite !HX. reflexivity. Qed.
Lemma level_ext (f g : N -> nat -> outcome (limit_result * nat)) levels start : (forall l t, f l t = g l t) -> forall fuel low high best o t,
  level_search f levels start fuel low high best o t = level_search g levels start fuel low high best o t.
Proof.
  intros H. induction fuel as [|fuel IH]; intros low high best o t; cbn [level_search]; auto.
  destruct (negb (low <=? high)); auto. destruct (get levels (low + (high - low) / 2)) as [l| |]; auto. rewrite H.
  destruct (g l t) as [[[A| |] t1]| |]; auto. destruct (low + (high - low) / 2 =? start); auto.
Qed.
Lemma calm_until greedy bound sv S t : solve_until pr d sd cost greedy bound ev true sv S t = solve_until pr d sd cost greedy bound ev false sv S t.
Proof.
  rewrite !solve_until_eq. destruct (prepare_state pr d sd (sv_state sv) S) as [st| |]; auto.
  assert (E : fresh pr d sd cost greedy bound ev true sv st t = fresh pr d sd cost greedy bound ev false sv st t).
  { unfold fresh. rewrite calm_limit. destruct greedy; auto. destruct (length (i_levels d)) as [|last]; auto.
    rewrite (level_ext _ (solve_with_limit pr d sd cost ev false st)); auto. intros; apply calm_limit. }
  rewrite E. reflexivity.
Qed.
Lemma calm_honest : honest_lp ev true -> honest_lp ev false.
Proof. intros H t f. specialize (H t f). destruct (ev_lp ev t f); auto. destruct H as [[_ H]|H]; [rewrite HX in H; discriminate|auto]. Qed.
End Calm.

(** A first call without deadline decides whether an assignment exists. *)
Lemma first_call_exact pr P ev S t a : roomy pr P -> honest_lp ev false -> valid_scheduling (p_input P) S ->
  solve_until pr (p_input P) (p_static P) (p_cost P) (p_greedy P) (an_bound (p_analysis P)) ev false new_solver S t = Some (Ok a) ->
  match ar_result a with
  | Some A => allowed (p_input P) S (i_max_pref (p_input P)) A
  | None => forall B, ~ allowed (p_input P) S (i_max_pref (p_input P)) B
  end.
Proof.
  intros HR HE HV H. set (d := p_input P) in *.
  pose proof (ro_wf _ _ HR) as HW. pose proof (ro_groups _ _ HR) as HG. pose proof (ro_size _ _ HR) as HZ. pose proof (ro_levels _ _ HR) as HLv. fold d in HW, HG, HZ, HLv.
  assert (HL : layout d (p_static P)) by (apply static_layout, (ro_static _ _ HR)).
  pose proof (his_new pr d (p_static P) (p_cost P) (p_greedy P) (an_bound (p_analysis P))) as Hh.
  destruct (p_greedy P) eqn:Eg.
  - apply solve_until_inv in H as (st & EP & _ & HX).
    pose proof (history_prepared pr d (p_static P) (p_cost P) true (an_bound (p_analysis P)) HW HL [] new_solver S st Hh (valid_shaped _ _ HV) EP) as HSt.
    destruct HX as [(_ & _ & A & E & _)|(_ & EF & _)]; [discriminate E|]. unfold fresh in EF. apply some_inj in EF. apply bind_ok in EF as ([r t'] & EL & EF).
    pose proof (limit_sound pr d (p_static P) (p_cost P) HW HL HG HZ S st HSt (valid_sums _ _ HV) ev false HE _ _ _ _ EL) as HS.
    destruct r as [A| |]; apply ok_inj in EF; subst a; cbn [ar_result finish].
    + exact (proj1 HS).
    + exact HS.
    + exfalso. unfold solve_with_limit in EL. cbn [andb] in EL. apply bind_ok in EL as (f & _ & EL). destruct (ev_lp ev (t + 2) f); [|discriminate].
      apply bind_ok in EL as (A & _ & EL). discriminate.
  - set (c := mkCall S ev false new_solver t a).
    assert (HRun : run pr d (p_static P) (p_cost P) false (an_bound (p_analysis P)) c) by exact H.
    pose proof (undeadlined_decided pr d (p_static P) (p_cost P) false (an_bound (p_analysis P)) c HRun eq_refl eq_refl) as Hdec.
    assert (HE' : forall c0, In c0 [c] -> honest_lp (cl_env c0) (cl_deadline c0)) by (intros c0 [<-|[]]; exact HE).
    pose proof (decided_sound pr d (p_static P) (p_cost P) false (an_bound (p_analysis P)) HW HL HG HZ False HLv [] c Hh (valid_shaped _ _ HV) HRun Hdec (valid_sums _ _ HV) HE' ltac:(intros; contradiction)) as HA.
    change (ar_result a) with (ar_result (cl_answer c)). destruct (ar_result (cl_answer c)) as [A|]; cbn in HA.
    + destruct HA as (i & l & H1 & H2 & H3 & _). eapply allowed_mono; [|exact H3]. apply (lv_le _ HLv). eapply nth_error_In; eauto.
    + destruct (levels_some d HLv) as [last HLen]. pose proof (search_start_le d (an_bound (p_analysis P)) last HLen) as Hst.
      destruct (nth_error (i_levels d) last) as [l|] eqn:El; [|apply nth_error_None in El; lia].
      assert (Hl : (i_max_pref d <= l)%N).
      { destruct (In_nth_error _ _ (lv_max _ HLv)) as [j Hj]. assert (j < length (i_levels d)) by (apply nth_error_Some; congruence).
        eapply (ascending (i_levels d) j last); eauto; [apply (lv_sorted _ HLv)|lia]. }
      intros B HB. apply (HA last l Hst El B). eapply allowed_mono; eauto.
Qed.

(** The scheduling search without time limit (C12, with a deadline that is never
    reached). *)
Lemma calm_search_none pr d o analyze simplify a dl cs sfuel fuel tick n :
  wf_input d -> fits d -> searchable d -> analyzable d -> levels_ok d -> fair o -> i_choosers d <> [] -> (forall t, o_late o t = false) ->
  new_analysis pr d analyze simplify = Ok a ->
  next_scheduling pr d o a dl cs sfuel fuel tick = Some (Ok n) -> nx_sched n = None ->
  (forall late sets t fuel t', solve_scheduling pr d o late sets t fuel <> Some (Ok (SRejected, t'))) ->
  forall S, ~ valid_scheduling d S.
Proof.
  intros HW HFit HS HA HL HF Hne Hcalm Ha H HN HR S HV.
  destruct (next_unfold pr d o a dl cs sfuel fuel tick HF) as (limit & Hlim & E). rewrite E in H. clear E.
  assert (Hin : In limit (i_levels d)) by (destruct Hlim as [-> | ->]; [apply (lv_max _ HL)|eapply an_bound_in; eauto]).
  destruct (relax_spec _ _ _ _ _ _ _ HL _ _ _ _ Hin H) as (_ & _ & _ & (t & t' & ES) & HM). rewrite HN in HM. destruct HM as [EL EN].
  destruct (result_slots_nil _ _ _ _ _ _ _ _ _ HW HFit HF (or_intror (sr_totals _ HS)) ES EN) as [E|[E|E]]; rewrite E in ES.
  - apply (solve_timeout _ _ _ _ _ _ _ _ HW HF) in ES; auto. intros k. unfold late_at. rewrite Hcalm. apply andb_false_r.
  - refine (solve_exhausted _ _ _ _ _ _ _ _ HW HFit HS HF _ ES S HV _).
    + eapply for_preference_lt; eauto; [apply (az_min _ HA)|apply (az_cap _ HA)|apply (lv_sorted _ HL)].
    + rewrite EL. eapply valid_covers_max; eauto; [apply (az_min _ HA)|apply (az_cap _ HA)|]. destruct (i_choosers d); [congruence|discriminate].
  - eapply HR; eauto.
Qed.

(** One slot and nothing optional: there is only one candidate. *)
Lemma single_unique d (S T : scheduling) : length (i_slots d) = 1 -> (forall ch, In ch (i_choices d) -> ch_optional ch = false) ->
  valid_scheduling d S -> valid_scheduling d T -> S = T.
Proof.
  intros H1 HO HS HT. apply nth_error_ext. intros c. 
  assert (G : forall X, valid_scheduling d X -> nth_error X c = if c <? length (i_choices d) then Some (Some 0) else None).
  { intros X HX. destruct (Nat.ltb_spec c (length (i_choices d))) as [Hc|Hc]; [|apply nth_error_None; rewrite (vs_length _ _ HX); auto].
    destruct (nth_error X c) as [[s|]|] eqn:E.
    - pose proof (vs_range _ _ HX c s E). f_equal. f_equal. lia.
    - exfalso. destruct (nth_error (i_choices d) c) as [ch|] eqn:Ech; [|apply nth_error_None in Ech; lia].
      pose proof (vs_optional _ _ HX c ch Ech E). rewrite (HO ch (nth_error_In _ _ Ech)) in H. discriminate.
    - apply nth_error_None in E. rewrite (vs_length _ _ HX) in E. lia. }
  rewrite (G S HS), (G T HT). reflexivity.
Qed.
Lemma single_not_rejected pr d o late sets t fuel t' T : wf_input d -> fits d -> searchable d -> fair o -> valid_scheduling d T ->
  length (i_slots d) = 1 -> (forall ch, In ch (i_choices d) -> ch_optional ch = false) ->
  solve_scheduling pr d o late sets t fuel <> Some (Ok (SRejected, t')).
Proof.
  intros HW HFit HS HF HV H1 HOp H. unfold solve_scheduling in H. pose proof (scramble_order d o t HF) as HO. set (order := choice_scramble d o t) in *.
  destruct (max_suffix pr d order) as [suffix| |]; try discriminate.
  apply (run_inv _ _ _ _ _ _ _ (fun _ => True) HW HF HO) in H as (m & HI & _ & H); auto; [|apply start_inv; auto].
  apply step_inv in H as [(m' & c & b & r & E & _)|[(_ & _ & E)|[(c & r & E & _)|(HD & res & Hr & E)]]]; try discriminate.
  injection E as <- ->. pose proof (iv_state _ _ _ _ HI) as HST. destruct (leaf_inv _ _ _ _ HST Hr) as (sl & b & _ & _ & _ & Hb & E).
  destruct b; [discriminate|].
  destruct (sched_is_feasible_exact pr d (placed (st_dec (m_st m))) HFit HW) as (b & Eb & Hv).
  { rewrite placed_length. apply (so_len _ _ _ HST). } { apply (placed_range _ _ _ HST). }
  { apply totals_sums; [apply (sr_totals _ HS)|]. rewrite placed_length. apply (so_len _ _ _ HST). }
  rewrite Hb in Eb. injection Eb as <-. assert (EQ : placed (st_dec (m_st m)) = T); [|assert (false = true) by (apply Hv; rewrite EQ; auto); discriminate].
  apply nth_error_ext. intros c. unfold placed. rewrite nth_error_map.
  destruct (Nat.lt_ge_cases c (length (i_choices d))) as [Hc|Hc].
  - destruct (nth_error (i_choices d) c) as [ch|] eqn:Ech; [|apply nth_error_None in Ech; lia].
    assert (ET : nth_error T c = Some (Some 0)).
    { destruct (nth_error T c) as [[s|]|] eqn:E2.
      - pose proof (vs_range _ _ HV c s E2). f_equal. f_equal. lia.
      - pose proof (vs_optional _ _ HV c ch Ech E2) as F. rewrite (HOp ch (nth_error_In _ _ Ech)) in F. discriminate.
      - apply nth_error_None in E2. rewrite (vs_length _ _ HV) in E2. lia. }
    rewrite ET. assert (Hin : In c order).
    { apply (Permutation.Permutation_in _ HO). apply in_seq. lia. }
    destruct (In_nth_error _ _ Hin) as [i Hi]. destruct (nth_error (st_dec (m_st m)) c) as [x|] eqn:Ex.
    + cbn [option_map]. destruct x as [| |s].
      * apply (iv_dec _ _ _ _ HI i c Hi) in Ex. assert (i < length order) by (apply nth_error_Some; congruence). lia.
      * destruct (so_omit _ _ _ HST c Ex) as (ch' & E1 & E2). rewrite (HOp ch' (nth_error_In _ _ E1)) in E2. discriminate.
      * pose proof (so_slots _ _ _ HST c s Ex). cbn. f_equal. f_equal. lia.
    + apply nth_error_None in Ex. rewrite (so_len _ _ _ HST) in Ex. lia.
  - rewrite (proj2 (nth_error_None _ _)); [|rewrite (so_len _ _ _ HST); auto]. symmetry. apply nth_error_None. rewrite (vs_length _ _ HV). auto.
Qed.

(** ** Sessions *)
Section Undisturbed.
Context (pr : profile) (P : problem) (ws : nat -> world) (threads : nat).
Let d := p_input P.
Context (HR : roomy pr P) (HWk : working ws) (HCalm : forall i, calm (ws i)).
Notation one := (length (i_slots d) = 1).

(** How worker [i] came to hold [g]: by an iteration that completed [k] climbs. *)
Definition came (i : nat) (g : shotgun) (k : nat) : Prop :=
  exists tn g0 ev, (one -> g0 = new_shotgun) /\ iterate pr P (ws i) true tn 1 g0 = Some (Ok (k, g, ev)).
Definition told (flag : bool) (i : nat) (wk : worker) : Prop :=
  match wk_pc wk with
  | WCheck | WIterate => one -> wk_gun wk = new_shotgun
  | WAfter k => came i (wk_gun wk) k
  | WDone => (exists k, came i (wk_gun wk) k /\ (p_any P = true /\ score_finite (b_score (sg_best (wk_gun wk))) = true \/ one \/ k = 0)) \/ (flag = true /\ ~ one)
  | WCrashed => True
  end.
Definition quiet (s : session) : Prop :=
  length (se_workers s) = num_threads P threads /\
  (se_flag s = true -> p_any P = true /\ exists wk, In wk (se_workers s) /\ wk_pc wk = WDone /\ score_finite (b_score (sg_best (wk_gun wk))) = true) /\
  forall i wk, nth_error (se_workers s) i = Some wk -> told (se_flag s) i wk.
Lemma told_flag flag flag' i wk : (flag = true -> flag' = true) -> told flag i wk -> told flag' i wk.
Proof. unfold told. intros H. destruct (wk_pc wk); auto. intros [T|[F T]]; auto. Qed.
Lemma quiet_start : quiet (start P threads).
Proof.
  split; [apply repeat_length|]. split; [discriminate|]. intros i wk E. apply nth_error_In, repeat_spec in E. subst wk. intros _. reflexivity.
Qed.
Lemma wmove_told i flag wk ls wk' : (one -> flag = true -> wk_pc wk = WDone) -> told flag i wk -> ls <> [LLoad false] -> wmove pr P (ws i) flag wk ls wk' ->
  told (flag || cancels ls) i wk'.
Proof.
  intros Hone HT HL M. destruct M as [g ev seen expired H1 H2|g ev|g ev tn k g' ev' E|g ev tn r E Hr|k g ev E|k g ev E1 E2|k g ev E1 E2]; unfold told in *; cbn [wk_pc wk_gun] in *.
  - destruct seen; [|exfalso; apply HL; reflexivity]. right. rewrite (H1 eq_refl). split; [reflexivity|]. intros Ho. discriminate (Hone Ho (H1 eq_refl)).
  - exact HT.
  - exists tn, g, ev'. auto.
  - exact I.
  - left. exists k. apply andb_true_iff in E as [E0 E]. auto.
  - left. exists k. split; auto. right. apply orb_true_iff in E2 as [E2|E2]; [left; apply Nat.eqb_eq; auto|right; apply Nat.ltb_lt in E2; lia].
  - intros Ho. apply orb_false_iff in E2 as [E2 _]. apply Nat.eqb_neq in E2. contradiction.
Qed.
Lemma quiet_move s l s' : quiet s -> move pr P ws s l s' -> fst l <> None -> snd l <> [LLoad false] -> quiet s'.
Proof.
  intros (Q1 & Q2 & Q3) M H1 H2. pose proof M as M'. destruct M as [s i wk ls wk' E M|s]; [|cbn in H1; congruence]. cbn [fst snd] in *.
  assert (Hi : i < length (se_workers s)) by (apply nth_error_Some; congruence).
  split; [cbn; rewrite upd_length; auto|]. split.
  - intros Hf. cbn [se_flag] in Hf. apply orb_true_iff in Hf as [Hf|Hf].
    + destruct (Q2 Hf) as (Hany & wk0 & Hin & HD & Hfin). destruct (In_nth_error _ _ Hin) as [j Hj]. split; auto. exists wk0. split; auto.
      destruct (done_stays pr P ws s [(Some i, ls)] _ j wk0 (mvs_step _ _ _ _ _ _ _ _ M' (mvs_refl _ _ _ _)) Hj HD) as [E' _]. eapply nth_error_In; eauto.
    + assert (HC : In LCancel ls). { apply existsb_exists in Hf as (x & Hx & Hx'). destruct x; try discriminate; auto. }
      destruct (worker_cancels pr P ws s i ls _ M' HC) as (Hany & wk0 & E0 & HD & Hfin). split; auto. exists wk0. split; auto. eapply nth_error_In; eauto.
  - cbn [se_workers se_flag]. intros j wkj Ej. destruct (Nat.eq_dec j i) as [->|Hji].
    + rewrite nth_error_upd_same in Ej by auto. injection Ej as <-. eapply wmove_told; eauto.
      intros Ho Hf. destruct (Q2 Hf) as (_ & wk0 & Hin & HD & _). unfold num_threads in Q1. fold d in Q1. rewrite Ho in Q1. cbn in Q1.
      destruct (se_workers s) as [|a [|b l]]; cbn in Q1; try discriminate. destruct Hin as [<-|[]]. destruct i as [|i]; [|cbn in Hi; lia]. cbn in E. injection E as <-. auto.
    + rewrite nth_error_upd_other in Ej by auto. eapply told_flag; [|exact (Q3 j wkj Ej)]. intros ->. reflexivity.
Qed.
Lemma quiet_moves s tr s' : moves pr P ws s tr s' -> undisturbed tr -> quiet s -> quiet s'.
Proof.
  induction 1 as [|s l s1 tr s2 M MM IH]; auto. intros HU HQ. apply IH; [intros x Hx; apply HU; right; auto|].
  destruct (HU l (or_introl eq_refl)) as [U1 U2]. eapply quiet_move; eauto.
Qed.

(** The session's result: nothing better than it among the workers' bests. *)
Lemma finished_result tr s : moves pr P ws (start P threads) tr s -> (forall wk, In wk (se_workers s) -> is_finished wk = true) ->
  (forall wk, In wk (se_workers s) -> wk_pc wk = WDone) /\ exists sol, wait s = Ok sol.
Proof.
  intros M HFin. assert (HD : forall wk, In wk (se_workers s) -> wk_pc wk = WDone).
  { intros wk Hin. destruct (session_safe pr P HR ws threads tr s HWk M wk Hin) as [_ HC]. specialize (HFin wk Hin). unfold is_finished in HFin. destruct (wk_pc wk); congruence. }
  split; auto. unfold wait, join_all. rewrite join_done; auto. eauto.
Qed.
Lemma finite_result tr s sol wk : moves pr P ws (start P threads) tr s -> wait s = Ok sol -> In wk (se_workers s) ->
  score_finite (b_score (sg_best (wk_gun wk))) = true -> exists S A, sol = SolComplete S A /\ valid_solution d S A.
Proof.
  intros M HWt Hin Hf. assert (HS : session_ok pr P threads s) by (apply (session_reach pr P ws threads (ro_fits _ _ HR) (ro_wf _ _ HR) (fun i => proj1 (proj2 (HWk i))) _ _ M)).
  destruct (result_ok pr P threads s sol HS HWt) as (Es & Hsc & Hb & _).
  set (b := shown no_best (map (fun wk => sg_best (wk_gun wk)) (se_workers s))) in *.
  assert (HFb : score_finite (b_score b) = true).
  { eapply score_le_finite; [|exact Hf]. apply (shown_ok (p_greedy P)); [apply infinite_mode|intros x Hx; eapply gun_mode; eauto|]. apply in_map_iff. eauto. }
  destruct Hb as [Hb|(_ & wk1 & _ & _ & HG & Eb)]; [rewrite Hb in HFb; discriminate|].
  destruct (finite_valid pr (p_pow P) (p_greedy P) d (b_sol b) (b_score b) (ro_fits _ _ HR) (ro_wf _ _ HR)) as (S & A & E & HV); auto.
  { rewrite Eb. apply (go_cand _ _ _ HG). }
  exists S, A. split; auto. congruence.
Qed.

(** No climb was made because there was no scheduling. *)
Lemma came_none i g : came i g 0 -> i_choosers d <> [] ->
  (forall T late sets t fuel t', valid_scheduling d T -> solve_scheduling pr d (w_sched (ws i)) late sets t fuel <> Some (Ok (SRejected, t'))) ->
  forall T, ~ valid_scheduling d T.
Proof.
  intros (tn & g0 & ev & _ & E) Hne HN T HV. cbn [iterate] in E. assert (C1 : forall t, o_late (w_sched (ws i)) t = false) by (intros t; apply (HCalm i t)). assert (C4 : forall t, w_late (ws i) t = false) by (intros t; apply (HCalm i t)). rewrite C4, andb_false_r in E.
  apply bindo_ok in E as (n & En & E). destruct (nx_sched n) as [S|] eqn:ES.
  - apply bindo_ok in E as ([[sol h] ev1] & _ & E). apply bindo_ok in E as (sc & _ & E). cbn [bindo] in E. apply some_inj, ok_inj in E. apply (f_equal (fun x => fst (fst x))) in E. cbn in E. discriminate E.
  - destruct (ro_sets _ _ HR) as (analyze & simplify & Ha). fold d in Ha. destruct (HWk i) as (_ & _ & W3). refine (calm_search_none pr d (w_sched (ws i)) analyze simplify _ _ _ _ _ _ n _ _ _ _ _ W3 Hne C1 Ha En ES _ T HV);
      try apply HR. intros. apply (HN T); auto.
Qed.
(** The outcome of a session that found nothing. *)
Lemma invalid_none tr s sol : moves pr P ws (start P threads) tr s -> undisturbed tr -> wait s = Ok sol -> ~ one -> i_choosers d <> [] ->
  (forall i T late sets t fuel t', valid_scheduling d T -> solve_scheduling pr d (w_sched (ws i)) late sets t fuel <> Some (Ok (SRejected, t'))) ->
  (p_any P = true /\ exists S A, sol = SolComplete S A /\ valid_solution d S A) \/ forall T, ~ valid_scheduling d T.
Proof.
  intros M HU HWt Hone Hne HN. destruct (quiet_moves _ _ _ M HU quiet_start) as (Q1 & Q2 & Q3). pose proof (proj1 (wait_ok s sol HWt)) as HD.
  assert (H0 : exists wk, nth_error (se_workers s) 0 = Some wk).
  { assert (0 < length (se_workers s)). { rewrite Q1. unfold num_threads. destruct (length (i_slots (p_input P)) =? 1); lia. }
    destruct (se_workers s); [cbn in H; lia|cbn; eauto]. }
  destruct H0 as [wk E]. pose proof (nth_error_In _ _ E) as Hin. pose proof (Q3 0 wk E) as HT. unfold told in HT. rewrite (HD wk Hin) in HT.
  destruct HT as [(k & HC & [[Hany Hf]|[Ho| ->]])|[Hf _]].
  - left. split; auto. eapply finite_result; eauto.
  - contradiction.
  - right. eapply came_none; eauto.
  - left. destruct (Q2 Hf) as (Hany & wk1 & Hin1 & _ & Hf1). split; auto. eapply finite_result; eauto.
Qed.

(** One slot: the only candidate is tried, and the best is at least as good. *)
Lemma single_result tr s sol : one -> (forall ch, In ch (i_choices d) -> ch_optional ch = false) -> i_choosers d <> [] ->
  tame (p_pow P) d -> (N.of_nat (length (i_choosers d)) * N.of_nat (length (i_slots d)) < 8388608)%N ->
  moves pr P ws (start P threads) tr s -> undisturbed tr -> wait s = Ok sol ->
  (exists S A, sol = SolComplete S A /\ valid_solution d S A /\
     (p_greedy P = false -> (i_max_pref d <= 16777216)%N -> (forall p c y, pref_of d p c y -> In y (i_levels d)) ->
      (forall p, In p (i_levels d) -> (p < an_bound (p_analysis P))%N -> exists q x data, (p <= q)%N /\ critical_at d q x data) ->
      forall S' A' x y, valid_solution d S' A' -> worst_pref d A x -> worst_pref d A' y -> (x <= y)%N)) \/
  (sol = SolInvalid /\ forall S A, ~ valid_solution d S A).
Proof.
  intros Hone Hopt Hne Htame Hseats M HU HWt. destruct (quiet_moves _ _ _ M HU quiet_start) as (Q1 & Q2 & Q3).
  pose proof (proj1 (wait_ok s sol HWt)) as HD. pose proof (ro_fits _ _ HR) as HF. pose proof (ro_wf _ _ HR) as HW. fold d in HF, HW.
  assert (HS : session_ok pr P threads s) by (apply (session_reach pr P ws threads HF HW (fun i => proj1 (proj2 (HWk i))) _ _ M)).
  destruct (result_ok pr P threads s sol HS HWt) as (Es & Hsc & Hb & Hmin).
  set (b := shown no_best (map (fun wk => sg_best (wk_gun wk)) (se_workers s))) in *.
  assert (H0 : exists wk, se_workers s = [wk]).
  { unfold num_threads in Q1. fold d in Q1. rewrite Hone in Q1. cbn in Q1. destruct (se_workers s) as [|a [|b0 l]]; cbn in Q1; try discriminate. eauto. }
  destruct H0 as [wk Ewk]. assert (E0 : nth_error (se_workers s) 0 = Some wk) by (rewrite Ewk; reflexivity).
  pose proof (nth_error_In _ _ E0) as Hin. pose proof (Q3 0 wk E0) as HT. unfold told in HT. rewrite (HD wk Hin) in HT.
  destruct HT as [(k & HC & _)|[_ HC]]; [|contradiction]. pose proof HC as (tn & g0 & ev & Hg & E). rewrite (Hg Hone) in E. clear Hg g0.
  destruct (HWk 0) as (W1 & W2 & W3). assert (HNR : forall T late sets t fuel t', valid_scheduling d T -> solve_scheduling pr d (w_sched (ws 0)) late sets t fuel <> Some (Ok (SRejected, t'))).
  { intros T late sets t fuel t' HV. apply (single_not_rejected pr d (w_sched (ws 0)) late sets t fuel t' T); auto. apply (ro_search _ _ HR). }
  assert (HNone : (forall S A, ~ valid_solution d S A) -> score_finite (b_score b) = false -> sol = SolInvalid /\ forall S A, ~ valid_solution d S A).
  { intros HN Hf. split; auto. destruct Hb as [Hb|(Hb & _)]; [|congruence]. rewrite Es, Hb. reflexivity. }
  cbn [iterate] in E. assert (C4 : forall t, w_late (ws 0) t = false) by (intros t; apply (HCalm 0 t)). rewrite C4, andb_false_r in E.
  apply bindo_ok in E as (n & En & E). fold d in En. destruct (nx_sched n) as [cur|] eqn:ES.
  - destruct (next_feasible _ _ _ _ _ _ _ _ _ _ _ En ES) as [HL Hfe]. assert (HV : valid_scheduling d cur) by (apply (feasible_valid pr P HR cur HL Hfe)).
    pose proof (feasible_ok _ _ _ HF HW HL Hfe) as HSc.
    apply bindo_ok in E as ([[sol1 h] ev1] & Eh & E). apply bindo_ok in E as (sc & Esc & E). injection Esc as Esc. cbn [bindo] in E. apply some_inj, ok_inj in E.
    assert (Eg : wk_gun wk = mkShotgun h (nx_tick n) 1 1 (if score_lt sc (b_score no_best) then mkBest sol1 sc else no_best)).
    { apply (f_equal (fun x => snd (fst x))) in E. cbn in E. symmetry. exact E. }
    destruct (hill_solve_ok pr P (ws 0) true HF HW W2 tn cur _ _ _ _ (go_climber _ _ _ (new_gun_ok pr P)) HSc Eh) as (first & rest & HH).
    destruct (hd_start _ _ _ _ _ _ _ _ _ _ _ HH) as (h1 & e & Ec). unfold solve_candidate in Ec. apply bindo_ok in Ec as (a & Ea & Ec).
    assert (C3 : forall t, ev_expired (w_env (ws 0)) t = false) by (intros t; apply (HCalm 0 t)).
    change (hc_solver (sg_climber new_shotgun)) with new_solver in Ea. change (hc_atick (sg_climber new_shotgun)) with 0 in Ea.
    rewrite (calm_until _ _ _ _ _ C3) in Ea. pose proof (calm_honest _ C3 W1) as HE.
    pose proof (first_call_exact pr P _ cur 0 a HR HE HV Ea) as HX. fold d in HX.
    assert (Ef : first = new_solution cur (ar_result a)). { apply some_inj, ok_inj in Ec. congruence. } clear Ec.
    assert (HHeld : forall c, c < length (i_choices d) -> held cur c).
    { intros c Hc. destruct (nth_error cur c) as [[x|]|] eqn:Ex; [exists x; exact Ex| |apply nth_error_None in Ex; rewrite HL in Ex; fold d in Ex; lia].
      destruct (nth_error (i_choices d) c) as [ch|] eqn:Ech; [|apply nth_error_None in Ech; lia].
      pose proof (vs_optional _ _ HV c ch Ech Ex) as F. rewrite (Hopt ch (nth_error_In _ _ Ech)) in F. discriminate. }
    assert (HM : forall B, prefs_within d B (i_max_pref d)).
    { intros B p cc y Hp _ (ch & X1 & X2). apply (wf_max _ HW ch y); eapply nth_error_In; eauto. }
    destruct (ar_result a) as [A|] eqn:EA.
    + left. assert (HVA : valid_solution d cur A) by (apply (C07_allowed_is_valid d cur A (i_max_pref d) HW HV HHeld); auto).
      destruct (valid_finite pr (p_pow P) (p_greedy P) d cur A HF HW (ro_pref _ _ HR) HVA Hseats Htame) as (fsc & Efs & Hfin & _).
      assert (Hle : score_le (b_score b) fsc).
      { apply (Hmin wk first fsc Hin); [|rewrite Ef; exact Efs]. rewrite Eg. cbn [sg_climber]. rewrite (hd_found _ _ _ _ _ _ _ _ _ _ _ HH). apply in_or_app. right. left. reflexivity. }
      assert (HFb : score_finite (b_score b) = true) by (eapply score_le_finite; eauto).
      destruct Hb as [Hb|(_ & wk1 & _ & _ & HG & Eb)]; [rewrite Hb in HFb; discriminate|].
      destruct (finite_valid pr (p_pow P) (p_greedy P) d (b_sol b) (b_score b) HF HW) as (S & B & Eb1 & HVB); auto.
      { rewrite Eb. apply (go_cand _ _ _ HG). }
      exists S, B. split; [congruence|]. split; auto. intros Hgr Hmax Hlev Hbd S' A' x y HV' Hx Hy.
      assert (ES1 : S = cur) by (apply (single_unique d); auto; apply HVB). assert (ES2 : S' = cur) by (apply (single_unique d); auto; apply HV'). subst S S'.
      destruct (ro_sets _ _ HR) as (analyze & simplify & Ha). fold d in Ha.
      rewrite Hgr in Ea. pose proof (C06_worst_preference_minimal_all_held_partial pr d (p_static P) (p_cost P) analyze simplify (p_analysis P) []
        (mkCall cur (w_env (ws 0)) false new_solver 0 a) HW (ro_groups _ _ HR) (ro_levels _ _ HR) (ro_size _ _ HR) (ro_analysis _ _ HR) (ro_static _ _ HR) Ha Hbd
        (his_new _ _ _ _ _ _) HV Ea eq_refl) as HC06. cbn [cl_sched cl_env cl_deadline cl_answer] in HC06. rewrite EA in HC06.
      destruct HC06 as [_ HC06]; auto. { intros c0 [<-|[]]. exact HE. }
      assert (Hw : exists z, worst_pref d A z).
      { destruct (respects_rows d cur A HL (vsol_rest _ _ _ HVA)) as [R1 R2]. destruct (evaluate_major_worst d A HW R1 R2) as (m & _ & Hm). eauto. }
      destruct Hw as [z Hz]. pose proof (HC06 A' z y HV' Hz Hy) as Hzy. destruct (N.le_gt_cases x y) as [|Hgt]; auto. exfalso.
      unfold score_of in Hsc. rewrite Hgr in Efs.
      assert (HEb : evaluate pr (p_pow P) false d (SolComplete cur B) = Ok (b_score b)).
      { unfold P_Climb3.scored, score_of in Hsc. rewrite Eb1, Hgr in Hsc. exact Hsc. }
      assert (HLt : score_cmp fsc (b_score b) = Lt).
      { refine (worst_smaller_wins pr (p_pow P) d cur A cur B fsc (b_score b) z x HW Hmax HL HL _ _ Efs Hfin HEb HFb Hz Hx _); [apply HVA|apply HVB|lia]. }
      apply score_lt_iff in HLt. rewrite (score_le_not_lt _ _ Hle) in HLt. discriminate.
    + right. apply HNone.
      * intros S B HVB. assert (ES1 : S = cur) by (apply (single_unique d); auto; apply HVB). subst S. apply (HX B).
        apply (C07_allowed_is_valid d cur B (i_max_pref d) HW HV HHeld); auto.
      * cbn [new_solution] in Ef. destruct (hd_first_score _ _ _ _ _ _ _ _ _ _ _ HH) as (fsc & Efs & Hinf & _). rewrite Ef in Efs. unfold score_of in Efs. cbn in Efs. injection Efs as <-.
        destruct (Hinf eq_refl) as (-> & _ & _). unfold score_of in Esc. cbn in Esc. injection Esc as <-. 
        assert (EB : b = no_best). { unfold b. rewrite Ewk. cbn [map]. rewrite Eg. reflexivity. }
        rewrite EB. reflexivity.
  - right. apply some_inj, ok_inj in E. apply HNone.
    + assert (HC0 : came 0 (wk_gun wk) 0). { destruct HC as (tn1 & g1 & ev2 & Hg1 & E1). apply (f_equal (fun x => fst (fst x))) in E. cbn in E. subst k. exists tn1, g1, ev2. auto. }
      intros S A HV. eapply (came_none 0 (wk_gun wk) HC0 Hne HNR S). apply HV.
    + assert (EB : b = no_best). { unfold b. rewrite Ewk. cbn [map]. apply (f_equal (fun x => snd (fst x))) in E. cbn in E. rewrite <- E. reflexivity. }
      rewrite EB. reflexivity.
Qed.
End Undisturbed.
