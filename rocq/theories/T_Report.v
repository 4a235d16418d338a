(** Property theorems about the final line of a session, with the accounts of the
    work done: C82, C83. *)
From Verif Require Import Base M_Data M_Scoring Spec M_Rng P_Rng M_Build P_Input M_Critical M_Search M_Flow M_Climb M_Threads P_Climb1 Spec_Cost
  Spec_Climb Spec_Threads M_Names M_Status Spec_Status P_Status M_Effort Spec_Effort P_Effort P_Effort2 P_Effort3 P_Effort4 T_Input T_Climb T_Repro T_Status T_Effort.
From Coq Require Import Sorted Reals Floats.SpecFloat Lra String.
Notation length := Datatypes.length.
Notation get := Base.get.

(** ** C82, C83.  [ls] are all messages the workers sent, [ms] their instance
    counters; the last look at the gauges sees them all.  Then the final line gives
    the score of the result, the numbers of iterations, assignments and solver
    instances of all workers together, and a depth between 0 and the maximum shown. *)
Theorem C82_final_line_counts_the_work :
  forall (pr : profile) (P : problem) (ws : nat -> world) (threads : nat) tr (s : session) (ls : list (list message)) (ms : list meter)
         timeout starts (first : glance) (loop : list glance) (last : glance) calls (sol : solution) (line : string),
    wf_input (p_input P) -> fits (p_input P) -> (forall i, fair (w_hill (ws i))) -> (forall i, fair (w_sched (ws i))) ->
    StronglySorted N.lt (i_levels (p_input P)) ->
    moves pr P ws (start P threads) tr s -> all_from_workers s (seen (first :: loop ++ [last])) ->
    length ls = length (se_workers s) -> length ms = length (se_workers s) ->
    (forall i wk l m, nth_error (se_workers s) i = Some wk -> nth_error ls i = Some l -> nth_error ms i = Some m -> worked pr P (ws i) (wk_gun wk) m l) ->
    gl_lp last = shown_lp (map heard ls) -> gl_depth last = shown_depth (map heard ls) ->
    (N.of_nat (length (i_choices (p_input P))) <= 65535)%N -> (N.of_nat (length (se_workers s)) <= 65535)%N ->
    (N.of_nat (length (se_workers s)) * N.of_nat (length (i_choices (p_input P))) <= 16777216)%N ->
    track timeout starts (max_depth (p_input P)) (empties s) first loop last (wait s) = (calls, Ok (sol, line)) -> sol <> SolInvalid ->
    exists (sc : score) (it asg lp depth most : string) (v : R),
      score_of pr P sol = Ok sc /\
      line = ("Solved " ++ score_text sc ++ "; i/a/l " ++ it ++ "/" ++ asg ++ "/" ++ lp ++ "; depth " ++ depth ++ "/" ++ most)%string /\
      number it = Some (Z.of_nat (list_sum (map (fun wk => sg_iterations (wk_gun wk)) (se_workers s)))) /\
      number asg = Some (Z.of_nat (list_sum (map (fun wk => hc_assignments (sg_climber (wk_gun wk))) (se_workers s)))) /\
      number lp = Some (Z.of_nat (list_sum (map mt_count ms))) /\
      shows depth 1 v /\ (0 <= v <= INR (length (i_choices (p_input P))))%R /\ shows most 1 (INR (length (i_choices (p_input P)))).
Proof.
  intros pr P ws threads tr s ls ms timeout starts first loop last calls sol line HW HF HFH HFS HS M HA Hls Hms HWk EL ED N1 N2 N3 E Hsol.
  destruct (C68_final_line_reports_result pr P ws threads tr s timeout starts (max_depth (p_input P)) first loop last calls sol line HW HF HFH M HA E) as (_ & [[E0 _]|(sc & _ & Esc & _ & El)]); [tauto|].
  assert (HR : received pr P ws s ls).
  { split; auto. intros i wk l Hi Hl. destruct (nth_error ms i) as [m|] eqn:Em.
    - exists m, []. rewrite app_nil_r. eauto.
    - apply nth_error_None in Em. assert (i < length (se_workers s)) by (apply nth_error_Some; congruence). lia. }
  destruct (C83_shown_depth_is_within_the_shown_maximum pr P ws s ls HFS HR) as (D1 & D2 & D3); [auto|rewrite Hls; auto|rewrite Hls; auto|].
  assert (ELP : shown_lp (map heard ls) = list_sum (map mt_count ms)).
  { rewrite (proj1 (C82_shown_count pr P ws s ls HS HR)).
    assert (EW : forall i l m, nth_error ls i = Some l -> nth_error ms i = Some m -> length (lp_reports l) = mt_count m).
    { intros i l m Hl Hm. assert (Hi : i < length (se_workers s)) by (rewrite <- Hls; apply nth_error_Some; congruence).
      destruct (nth_error (se_workers s) i) as [wk|] eqn:Ew; [|apply nth_error_None in Ew; lia].
      destruct (C82_instances_of_a_worker pr P (ws i) (wk_gun wk) m l HS (HWk i wk l m Ew Hl Hm)) as (E1 & _). rewrite E1. apply seq_length. }
    assert (HLM : length ls = length ms) by congruence. clear -EW HLM. revert ms HLM EW.
    induction ls as [|l ls IH]; intros [|m ms] HLM EW; try discriminate; [reflexivity|]. cbn [map list_sum fold_right]. unfold list_sum in *. cbn [fold_right].
    rewrite (EW 0 l m eq_refl eq_refl). f_equal. apply IH; [cbn in HLM; lia|]. intros i l' m' H1 H2. exact (EW (Datatypes.S i) l' m' H1 H2). }
  assert (DM : is_fin (max_depth (p_input P)) = true).
  { clear -N1. unfold max_depth, depth_value. rewrite (proj2 (N.leb_le _ _) N1). apply P_Finite.of_N_below. unfold u32_max. lia. }
  exists sc, (n_to_string (N.of_nat (list_sum (map (fun wk => sg_iterations (wk_gun wk)) (se_workers s))))),
    (n_to_string (N.of_nat (list_sum (map (fun wk => hc_assignments (sg_climber (wk_gun wk))) (se_workers s))))),
    (n_to_string (N.of_nat (gl_lp last))), (str_float (gl_depth last) 1), (str_float (max_depth (p_input P)) 1), (f32_value (gl_depth last)).
  split; [exact Esc|]. split; [exact El|]. rewrite !number_n, !nat_N_Z, EL, ELP, ED. split; [auto|]. split; [auto|]. split; [auto|].
  split; [apply str_float_shows; auto|]. split; [rewrite D3 in D2; exact D2|]. rewrite <- D3. apply str_float_shows; auto.
Qed.
Print Assumptions C82_final_line_counts_the_work.

(** Witness: the session of C35, watched in three looks, the last with the gauges
    of C82. *)
Definition ls82 : list (list message) := [snd im5; []].
Definition last82 : glance := mkGlance (skipn 2 log5) (fun i => (800000000 + N.of_nat i)%N) (shown_lp (map heard ls82)) (shown_depth (map heard ls82)).
Definition track82 := track 60 [0; 0]%N (max_depth (p_input P5)) (empties s5) (look68 [] 0 0) [look68 (firstn 2 log5) 400 1] last82 (wait s5).
Lemma worked_two pr P w g m l ev i wk k n :
  worked pr P w g m l ->
  nth_error (se_workers (mkSession true [mkWorker WDone g ev; mkWorker WDone new_shotgun []])) i = Some wk ->
  nth_error [l; []] i = Some k -> nth_error [m; new_meter] i = Some n -> worked pr P w (wk_gun wk) n k.
Proof.
  intros W Hw Hl Hm. destruct i as [|[|i]]; cbn [nth_error se_workers] in Hw, Hl, Hm; try (destruct i; discriminate).
  - injection Hw as <-. injection Hl as <-. injection Hm as <-. exact W.
  - injection Hw as <-. injection Hl as <-. injection Hm as <-. constructor.
Qed.
Lemma seen_last a b m l m' l' c d e : seen (look68 [] 0 0 :: [look68 a m l] ++ [mkGlance b c d e]) = seen (look68 [] 0 0 :: [look68 a m l] ++ [look68 b m' l']).
Proof. reflexivity. Qed.
Example C82_final_line_witness :
  moves Debug P5 ws5 (start P5 2) trace5 s5 /\
  all_from_workers s5 (seen (look68 [] 0 0 :: [look68 (firstn 2 log5) 400 1] ++ [last82])) /\
  length ls82 = length (se_workers s5) /\
  (forall i wk l m, nth_error (se_workers s5) i = Some wk -> nth_error ls82 i = Some l -> nth_error [snd (fst im5); new_meter] i = Some m ->
     worked Debug P5 (ws5 i) (wk_gun wk) m l) /\
  (exists sol, snd track82 = Ok (sol, "Solved (0, 0.00000); i/a/l 1/27/22; depth 1.5/3.0"%string) /\ sol <> SolInvalid).
Proof.
  split; [exact moves5|]. split; [unfold last82; rewrite (seen_last (firstn 2 log5) (skipn 2 log5) 400 1 800 4); exact (proj1 (proj2 C68_witness))|]. split; [reflexivity|]. split.
  - intros i wk l m. unfold s5, ls82. destruct im5_it5 as (_ & <- & <-). exact (worked_two Debug P5 w5 _ _ _ _ i wk l m im5_worked).
  - eexists. split; [vm_compute; reflexivity|discriminate].
Qed.

(** ** C69: the bar has a length, one unit per millisecond of the timeout, and it
    is full exactly when no whole millisecond is left. *)
Theorem C69_full_when_time_is_up :
  forall (timeout : Z) t0 n t (g : glance),
    (timeout <= i32_max)%Z -> n <> 0 -> (forall i, gl_clock g i = t) ->
    (0 < bar_length timeout)%N /\
    ((0 < timeout)%Z -> Z.of_N (bar_length timeout) = (timeout * 1000)%Z /\
       (position_at timeout (repeat t0 n) g = bar_length timeout <-> (Z.to_N timeout * 1000000000 < t - t0 + 1000000)%N)).
Proof.
  intros timeout t0 n t g HT Hn Hg. unfold bar_length. split; [lia|]. intros Hp.
  assert (E : N.max (N.max (timeout_ms timeout) 1) 1 = (Z.to_N timeout * 1000)%N) by (unfold timeout_ms; rewrite Z.max_l by lia; lia).
  rewrite E. split; [rewrite N2Z.inj_mul, Z2N.id by lia; reflexivity|]. rewrite (C69_position_is_elapsed_time timeout t0 n t g HT Hn Hg).
  set (k := (t - t0)%N). set (m := Z.to_N timeout). pose proof (N.div_mod (k + 999999) 1000000 ltac:(lia)) as HD. pose proof (N.mod_lt (k + 999999) 1000000 ltac:(lia)) as HM.
  set (q := ((k + 999999) / 1000000)%N) in *. set (r := ((k + 999999) mod 1000000)%N) in *. clearbody q r k m. clear -HD HM.
  split; intros H; [assert (m * 1000 <= q)%N by lia; lia|]. assert (m * 1000 <= q)%N by lia. lia.
Qed.
Print Assumptions C69_full_when_time_is_up.
Example C69_full_witness : (60 <= i32_max)%Z /\ (0 < 60)%Z /\
  position_at 60 (repeat 5%N 3) (mkGlance [] (fun _ => 59999000006)%N 0 f32_zero) = bar_length 60 /\
  position_at 60 (repeat 5%N 3) (mkGlance [] (fun _ => 59999000005)%N 0 f32_zero) <> bar_length 60.
Proof. repeat split; vm_compute; try discriminate; reflexivity. Qed.
