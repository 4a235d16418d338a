(** Traces of a session: cancellation, progress; iterations end. *)
From Verif Require Import Base M_Data Spec M_Scoring P_Scoring P_Feasible P_Score P_Minor M_Rng P_Rng M_Critical Spec_Search M_Search P_Sums P_Search3 P_Search5
  M_Flow Spec_Flow Spec_Calls P_Flow1 P_Flow7 M_Climb M_Threads Spec_Climb Spec_Threads P_Climb1 P_Climb2 P_Climb3 P_Climb4 P_Climb5 P_Threads P_Climb6.

Section Traces.
Context (pr : profile) (P : problem) (ws : nat -> world).
Notation moves := (moves pr P ws).
Lemma moves_split a : forall s b s', moves s (a ++ b) s' -> exists m, moves s a m /\ moves m b s'.
Proof.
  induction a as [|l a IH]; intros s b s' H; [exists s; split; [constructor|auto]|]. cbn in H. inversion H as [|s0 l0 s1 tr s2 M1 M2]; subst.
  apply IH in M2 as (m & A & B). exists m. split; auto. econstructor; eauto.
Qed.
Lemma move_flag s i ls s' : move pr P ws s (i, ls) s' -> se_flag s' = se_flag s || cancels ls.
Proof. intros M. inversion M; subst; cbn [se_flag]; auto. cbn. rewrite orb_true_r. auto. Qed.
(** A worker that left its loop stays out. *)
Lemma done_stays s tr s' i wk : moves s tr s' -> nth_error (se_workers s) i = Some wk -> wk_pc wk = WDone ->
  nth_error (se_workers s') i = Some wk /\ forall ls, ~ In (Some i, ls) tr.
Proof.
  intros M. revert wk. induction M as [s|s l s1 tr s2 M MM IH]; intros wk E HD; [split; auto|].
  assert (G : nth_error (se_workers s1) i = Some wk /\ forall ls, l <> (Some i, ls)).
  { destruct M as [s j wk0 ls wk' E0 M|s]; cbn [se_workers].
    - destruct (Nat.eq_dec j i) as [->|Hne].
      + rewrite E in E0. injection E0 as <-. destruct M; discriminate.
      + split; [rewrite nth_error_upd_other; auto|]. intros ls0 F. congruence.
    - split; auto. intros ls F. discriminate. }
  destruct G as [G1 G2]. destruct (IH wk G1 HD) as [H1 H2]. split; auto. intros ls [F|F]; [apply (G2 ls F)|apply (H2 ls F)].
Qed.
Lemma load_true s i ls s' : move pr P ws s (Some i, ls) s' -> In (LLoad true) ls -> exists wk, nth_error (se_workers s') i = Some wk /\ wk_pc wk = WDone.
Proof.
  intros M H. inversion M as [s0 i0 wk ls0 wk' E M0|]; subst. cbn [se_workers].
  assert (Hi : i < length (se_workers s)) by (apply nth_error_Some; congruence).
  exists wk'. rewrite nth_error_upd_same by auto. split; auto. inversion M0; subst; auto; cbn in H; repeat (destruct H as [H|H]; try discriminate; try tauto).
Qed.
Lemma observed_stops s tr s' t1 i ls t2 : moves s tr s' -> tr = t1 ++ (Some i, ls) :: t2 -> In (LLoad true) ls -> forall ls', ~ In (Some i, ls') t2.
Proof.
  intros M -> H. apply moves_split in M as (m & _ & M). inversion M as [|s0 l0 s1 tr s2 M1 M2]; subst.
  destruct (load_true _ _ _ _ M1 H) as (wk & E & HD). eapply done_stays; eauto.
Qed.
(** With up-to-date reads nobody starts once the flag is set. *)
Definition rank (wk : worker) : nat := match wk_pc wk with WIterate => 3 | WAfter _ => 2 | WCheck => 1 | _ => 0 end.
Lemma flagged_moves : forall tr s s', moves s tr s' -> fresh_reads true tr -> se_flag s = true ->
  (forall j ls, In (j, ls) tr -> ~ In LStart ls) /\
  forall i wk, nth_error (se_workers s) i = Some wk -> moves_of i tr <= rank wk.
Proof.
  induction tr as [|[j ls] tr IH]; intros s s' M HF HFl.
  - split; [intros j ls []|]. intros. cbn. lia.
  - inversion M as [|s0 l0 s1 tr0 s2 M1 M2]; subst. cbn [fresh_reads] in HF. destruct HF as [HL HF]. cbn [orb] in HF.
    assert (HFl1 : se_flag s1 = true) by (rewrite (move_flag _ _ _ _ M1), HFl; auto). destruct (IH _ _ M2 HF HFl1) as [I1 I2].
    assert (HS : ~ In LStart ls).
    { intros F. inversion M1 as [s0 i wk ls0 wk' E M0|]; subst; [|destruct F as [F|[]]; discriminate].
      inversion M0; subst; cbn in F; repeat (destruct F as [F|F]; try discriminate; try tauto).
      specialize (HL false (or_introl eq_refl)). discriminate. }
    split; [intros j0 ls0 [E|H]; [injection E as <- <-; auto|eauto]|].
    intros i wk E. unfold moves_of. cbn [filter fst]. inversion M1 as [s0 i0 wk0 ls0 wk' E0 M0|]; subst.
    + destruct (Nat.eqb_spec i0 i) as [->|Hne].
      * rewrite E in E0. injection E0 as <-.
        assert (E1 : nth_error (upd (se_workers s) i wk') i = Some wk') by (apply nth_error_upd_same, nth_error_Some; congruence).
        specialize (I2 i wk' E1). cbn [length]. unfold moves_of in I2.
        inversion M0; subst; cbn in I2 |- *; try lia. exfalso. apply HS. cbn. auto.
      * assert (E1 : nth_error (upd (se_workers s) i0 wk') i = Some wk) by (rewrite nth_error_upd_other; auto). apply (I2 i wk E1).
    + apply (I2 i wk E).
Qed.
Lemma fresh_reads_app a : forall flag b, fresh_reads flag (a ++ b) -> fresh_reads (flag || existsb (fun l => cancels (snd l)) a) b.
Proof.
  induction a as [|[j ls] a IH]; intros flag b H; cbn [app fresh_reads existsb snd] in *; [rewrite orb_false_r; auto|]. destruct H as [_ H]. apply IH in H. rewrite <- orb_assoc in H. auto.
Qed.
Lemma moves_flag : forall tr s s', moves s tr s' -> se_flag s' = se_flag s || existsb (fun l => cancels (snd l)) tr.
Proof.
  induction tr as [|[j ls] tr IH]; intros s s' M; inversion M as [|s0 l0 s1 tr0 s2 M1 M2]; subst; [cbn; rewrite orb_false_r; auto|].
  rewrite (IH _ _ M2), (move_flag _ _ _ _ M1). cbn [existsb snd]. rewrite orb_assoc. auto.
Qed.
Lemma after_cancel s a b s' : se_flag s = false -> moves s (a ++ b) s' -> fresh_reads false (a ++ b) -> existsb (fun l => cancels (snd l)) a = true ->
  (forall j ls, In (j, ls) b -> ~ In LStart ls) /\ forall i, moves_of i b <= 3.
Proof.
  intros H0 M HF HC. apply moves_split in M as (m & M1 & M2). apply fresh_reads_app in HF. rewrite HC in HF. cbn [orb] in HF.
  pose proof (moves_flag _ _ _ M1) as E. rewrite H0, HC in E. cbn in E. destruct (flagged_moves _ _ _ M2 HF E) as [I1 I2]. split; auto.
  intros i. destruct (nth_error (se_workers m) i) as [wk|] eqn:Ei.
  - specialize (I2 i wk Ei). assert (rank wk <= 3) by (unfold rank; destruct (wk_pc wk); lia). lia.
  - (* a worker that does not exist does not move *)
    assert (G : forall tr s s', moves s tr s' -> nth_error (se_workers s) i = None -> moves_of i tr = 0).
    { clear. induction tr as [|[j ls] tr IH]; intros s s' M E; [reflexivity|]. inversion M as [|s0 l0 s1 tr0 s2 M1 M2]; subst. unfold moves_of. cbn [filter fst].
      inversion M1 as [s0 i0 wk0 ls0 wk' E0 M0|]; subst.
      - destruct (Nat.eqb_spec i0 i) as [->|]; [congruence|]. apply (IH _ _ M2). cbn [se_workers]. rewrite nth_error_upd_other; auto.
      - apply (IH _ _ M2). auto. }
    rewrite (G _ _ _ M2 Ei). lia.
Qed.
(** Only a worker with a finite best sets the flag. *)
Lemma worker_cancels s i ls s' : move pr P ws s (Some i, ls) s' -> In LCancel ls ->
  p_any P = true /\ exists wk, nth_error (se_workers s') i = Some wk /\ wk_pc wk = WDone /\ score_finite (b_score (sg_best (wk_gun wk))) = true.
Proof.
  intros M H. inversion M as [s0 i0 wk ls0 wk' E M0|]; subst. cbn [se_workers].
  assert (Hi : i < length (se_workers s)) by (apply nth_error_Some; congruence).
  inversion M0; subst; cbn in H; repeat (destruct H as [H|H]; try discriminate; try tauto).
  apply andb_true_iff in H0 as [H0 H1]. split; auto. eexists. split; [apply nth_error_upd_same; auto|]. cbn. auto.
Qed.
End Traces.

(** One iteration ends. *)
Lemma iterate_ends pr P w deadline g : roomy pr P -> fair (w_hill w) -> fair (w_sched w) -> visits (w_hill w) (length (i_choices (p_input P))) ->
  gun_ok pr P g ->
  exists n r, forall tn, n <= tn_search tn -> n <= tn_relax tn -> n <= tn_swap tn -> n <= tn_climb tn -> iterate pr P w deadline tn 1 g = Some r.
Proof.
  intros HR HFh HFs HV Hg. cbn [iterate]. destruct (deadline && w_late w (sg_tick g)); [exists 0; eauto|].
  set (d := p_input P) in *. pose proof (ro_fits _ _ HR) as HF. pose proof (ro_wf _ _ HR) as HW. fold d in HF, HW.
  destruct (ro_sets _ _ HR) as (analyze & simplify & Ha). fold d in Ha. pose proof (ro_levels _ _ HR) as HL. fold d in HL.
  set (N0 := Nat.max (search_cost d + 1) (length (i_levels d) + 1)).
  assert (HT : forall sfuel fuel, N0 <= sfuel -> N0 <= fuel -> exists n, next_scheduling pr d (w_sched w) (p_analysis P) deadline (p_cs_timeout P) sfuel fuel (sg_stick g) = Some (Ok n)).
  { intros sfuel fuel H1 H2. destruct (next_unfold pr d (w_sched w) (p_analysis P) deadline (p_cs_timeout P) sfuel fuel (sg_stick g) HFs) as (limit & Hlim & ->).
    assert (Hin : In limit (i_levels d)) by (destruct Hlim as [-> | ->]; [apply (lv_max _ HL)|eapply an_bound_in; eauto]).
    apply relax_total; auto.
    - apply (ro_search _ _ HR).
    - intros p. pose proof (ro_analysis _ _ HR) as HA. eapply for_preference_lt; eauto; [apply (az_min _ HA)|apply (az_cap _ HA)|apply (lv_sorted _ HL)].
    - apply (ro_timeout _ _ HR).
    - unfold N0 in *. lia.
    - assert (G : forall p L, length (filter (fun l => p <? l)%N L) <= length L).
      { clear. intros p L. induction L as [|y L IH]; cbn; auto. destruct (p <? y)%N; cbn; lia. }
      specialize (G limit (i_levels d)). unfold above, N0 in *. lia. }
  destruct (HT N0 N0 (le_n _) (le_n _)) as (n & En).
  assert (HN : forall sfuel fuel, N0 <= sfuel -> N0 <= fuel -> next_scheduling pr d (w_sched w) (p_analysis P) deadline (p_cs_timeout P) sfuel fuel (sg_stick g) = Some (Ok n)).
  { intros. eapply next_more; eauto. }
  destruct (nx_sched n) as [S|] eqn:ES.
  2:{ exists N0. eexists. intros tn H1 H2 _ _. rewrite HN by auto. cbn [bindo]. rewrite ES. reflexivity. }
  destruct (next_feasible _ _ _ _ _ _ _ _ _ _ _ En ES) as [HLn HFe]. pose proof (feasible_ok _ _ _ HF HW HLn HFe) as HS.
  destruct (hill_ends pr P w deadline HF HW HFh HV S (sg_climber g) (go_climber _ _ _ Hg) HS) as (n1 & r1 & H1).
  exists (Nat.max N0 n1). destruct r1 as [[[sol h] ev]|m|].
  - destruct (score_of pr P sol) as [sc|m|] eqn:Esc; eexists; intros tn B1 B2 B3 B4; rewrite HN by lia; cbn [bindo]; rewrite ES, H1 by lia; cbn [bindo]; rewrite Esc; cbn [bindo]; reflexivity.
  - eexists; intros tn B1 B2 B3 B4; rewrite HN by lia; cbn [bindo]; rewrite ES, H1 by lia; reflexivity.
  - eexists; intros tn B1 B2 B3 B4; rewrite HN by lia; cbn [bindo]; rewrite ES, H1 by lia; reflexivity.
Qed.

(** A climb without deadline ends at a local optimum. *)
Lemma hill_local_optimum pr P w tn S h sol h' ev S1 A : fits (p_input P) -> wf_input (p_input P) -> fair (w_hill w) ->
  climber_ok P h -> sched_ok (p_input P) S -> hill_solve pr P w false tn S h = Some (Ok (sol, h', ev)) -> sol = SolComplete S1 A ->
  2 * n_cells (p_input P) < p_max_neighbors P ->
  exists sc, score_of pr P sol = Ok sc /\ forall S2, one_move (p_input P) S1 S2 -> sched_is_feasible pr (p_input P) S2 = Ok true ->
    exists cand, In cand (hc_found h') /\ sol_scheduling cand = Some S2 /\ forall sc2, score_of pr P cand = Ok sc2 -> score_le sc sc2.
Proof.
  intros HF HW HFair Hh HS H Es Hmax. unfold hill_solve in H. apply bindo_ok in H as ([[first h1] e] & Ec & H).
  apply candidate_ok in Ec as (Hh1 & Hf1 & Hc1 & Hs1 & _); auto. apply bindo_ok in H as (sc & Esc & H). injection Esc as Esc.
  destruct (score_finite sc) eqn:EF; cbn [negb] in H; [|apply some_inj, ok_inj in H; congruence].
  apply bindo_ok in H as ([[b h2] ev2] & EC & H). apply some_inj, ok_inj in H. assert (E : sol = b_sol b /\ h' = h2) by (split; congruence). destruct E as [-> ->].
  destruct (climb_ok pr P w false HF HW HFair _ _ _ _ _ _ _ _ (Esc : scored pr P (mkBest first sc)) (EF : score_finite (b_score (mkBest first sc)) = true) Hc1 Hh1 EC) as (fs & es & HC & HD).
  destruct (climbed_best pr P _ _ _ _ _ _ _ _ Hh1 HC Hc1 (EF : score_finite (b_score (mkBest first sc)) = true) (Esc : scored pr P (mkBest first sc))) as [Hcb _].
  destruct (HD eq_refl) as (S0 & ns & t & hh & fs1 & fs2 & X1 & X2 & X3 & X4). rewrite Es in X1. injection X1 as <-.
  exists (b_score b). split; [apply (cd_scored _ _ _ _ _ _ _ _ _ _ HC)|]. intros S2 Hm Hfe.
  rewrite Es in Hcb. destruct Hcb as [HSok _].
  destruct (pick_neighbors_ok _ _ _ _ _ _ _ _ _ HFair (proj1 HSok) X3) as (_ & _ & Hall). pose proof (Hall Hmax S2 Hm Hfe) as Hin.
  assert (Hin2 : In (Some S2) (map sol_scheduling fs2)) by (rewrite X4; apply in_map; auto). apply in_map_iff in Hin2 as (cand & E2 & Hcand).
  assert (Hfs : In cand fs) by (rewrite X2; apply in_or_app; auto).
  exists cand. split; [|split; auto].
  - rewrite (cd_found _ _ _ _ _ _ _ _ _ _ HC). apply in_or_app. auto.
  - intros sc2 E. apply (cd_min _ _ _ _ _ _ _ _ _ _ HC cand sc2 Hfs E).
Qed.
Lemma startable_ok d S : startable d S <-> sched_ok d S.
Proof. unfold startable, sched_ok, shaped. tauto. Qed.
Lemma used_ok pr P w h : fits (p_input P) -> wf_input (p_input P) -> fair (w_hill w) -> used pr P w h -> climber_ok P h.
Proof.
  intros HF HW HFair H. induction H as [|h dl tn S sol h' ev Hu IH HS E].
  - split; [intros S A o E; discriminate|intros sol []].
  - apply startable_ok in HS. destruct (hill_solve_ok pr P w dl HF HW HFair tn S h sol h' ev IH HS E) as (f & r & HD). apply (hd_ok _ _ _ _ _ _ _ _ _ _ _ HD).
Qed.
Lemma valid_startable d S : valid_scheduling d S -> startable d S.
Proof. intros H. split; [apply (vs_length _ _ H)|]. split; [apply (vs_range _ _ H)|apply (vs_optional _ _ H)]. Qed.
