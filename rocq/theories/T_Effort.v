(** Property theorems about the progress line's account of the work done: C82, C83. *)
From Verif Require Import Base M_Data M_Scoring Spec M_Rng P_Rng M_Build P_Input M_Critical M_Search M_Flow M_Climb M_Threads P_Climb1 Spec_Cost
  M_Effort Spec_Effort P_Effort P_Effort2 P_Effort3 P_Effort4 T_Input T_Climb T_Repro.
From Coq Require Import Sorted Reals Floats.SpecFloat Lra.

(** A worker's first iteration, for the examples. *)
Definition im5 : nat * shotgun * meter * list message :=
  value (0, new_shotgun, new_meter, []) (iterate_m Debug P5 w5 true tn1 1 new_shotgun new_meter).
Lemma im5_eq : iterate_m Debug P5 w5 true tn1 1 new_shotgun new_meter = Some (Ok im5).
Proof. vm_compute. reflexivity. Qed.
Lemma im5_it5 : fst (fst (fst im5)) = 1 /\ snd (fst (fst im5)) = snd (fst it5) /\ told (snd im5) = snd it5.
Proof. vm_compute. auto. Qed.
Lemma im5_worked : worked Debug P5 w5 (snd (fst (fst im5))) (snd (fst im5)) (snd im5).
Proof.
  pose proof im5_eq as E. destruct im5 as [[[k g] m] l].
  exact (wo_next Debug P5 w5 new_shotgun new_meter [] tn1 k g m l (wo_new Debug P5 w5) E).
Qed.
Lemma d5_levels : StronglySorted N.lt (i_levels d5).
Proof. vm_compute. repeat (constructor; [|repeat constructor]). all: repeat constructor. Qed.
Lemma received_two pr P w g m l ev n : worked pr P w g m l ->
  received pr P (fun _ => w) (mkSession true [mkWorker WDone g ev; mkWorker WDone new_shotgun []]) [firstn n l; []].
Proof.
  intros W. split; [reflexivity|]. intros [|[|i]] wk k Hw Hl; cbn [nth_error se_workers] in Hw, Hl; try (destruct i; discriminate).
  - injection Hw as <-. injection Hl as <-. cbn [wk_gun]. exists m, (skipn n l). rewrite firstn_skipn. exact W.
  - injection Hw as <-. injection Hl as <-. exists new_meter, []. constructor.
Qed.
Lemma received5 n : received Debug P5 ws5 s5 [firstn n (snd im5); []].
Proof.
  unfold s5. destruct im5_it5 as (_ & <- & <-). exact (received_two Debug P5 w5 _ _ _ _ n im5_worked).
Qed.

(** The workers of M_Climb and M_Threads, with the additional messages. *)
Theorem C82_every_session_is_counted :
  forall (pr : profile) (P : problem) (ws : nat -> world) (n : nat) tr (s : session) (i : nat) (wk : worker),
    moves pr P ws (start P n) tr s -> nth_error (se_workers s) i = Some wk ->
    exists m l, worked pr P (ws i) (wk_gun wk) m l /\ told l = wk_events wk.
Proof.
  intros pr P ws n tr s i wk H. set (ok := fun s : session => forall i wk, nth_error (se_workers s) i = Some wk ->
    exists m l, worked pr P (ws i) (wk_gun wk) m l /\ told l = wk_events wk).
  assert (G : forall s tr s', moves pr P ws s tr s' -> ok s -> ok s').
  { clear. intros s tr s' H. induction H as [|s l s' tr s'' H _ IH]; auto. intros K. apply IH. clear IH s''.
    inversion H as [s0 j wj ls wj' Hj Hm|]; subst; [|exact K]. intros i wk Hi. cbn [se_workers] in Hi.
    destruct (Nat.eq_dec i j) as [->|Hne].
    2:{ rewrite nth_error_upd_other in Hi by auto. apply K; auto. }
    rewrite nth_error_upd_same in Hi by (apply nth_error_Some; congruence). injection Hi as <-.
    destruct (K j wj Hj) as (m & l & Hw & Hl). destruct Hm as [g ev seen expired _ _|g ev|g ev tn k g' ev' HI|g ev tn r _ _|k g ev _|k g ev _ _|k g ev _ _]; cbn [wk_gun wk_events] in *; try (exists m, l; auto; fail).
    pose proof (iterate_erase pr P (ws j) true tn 1 g m) as E. rewrite HI in E.
    destruct (iterate_m pr P (ws j) true tn 1 g m) as [[[[[k1 g1] m1] l1]| |]|] eqn:EI; unfold obmap, option_map, omap in E; cbn [bind] in E; try discriminate.
    assert (k1 = k /\ g1 = g' /\ told l1 = ev') as (-> & -> & <-) by (unfold keep3 in E; cbn [fst snd] in E; repeat split; congruence).
    exists m1, (l ++ l1). split; [eapply wo_next; eauto|]. rewrite told_app, Hl. auto. }
  intros Hi. refine (G _ _ _ H _ i wk Hi). intros j wj Hj. cbn [start se_workers] in Hj. apply nth_error_In, repeat_spec in Hj. subst wj.
  exists new_meter, []. split; [constructor|reflexivity].
Qed.
Print Assumptions C82_every_session_is_counted.
Example C82_session_witness : moves Debug P5 ws5 (start P5 2) trace5 s5 /\
  nth_error (se_workers s5) 0 = Some (mkWorker WDone (snd (fst it5)) (snd it5)) /\
  worked Debug P5 w5 (snd (fst it5)) (snd (fst im5)) (snd im5) /\ told (snd im5) = snd it5.
Proof.
  destruct im5_it5 as (_ & E1 & E2). split; [exact moves5|]. split; [reflexivity|]. rewrite <- E1. split; [exact im5_worked|exact E2].
Qed.

(** One request: the instances solved for it. *)
Theorem C82_instances_of_one_request :
  forall (pr : profile) (d : input_data) (sd : static) (cost : N -> Z) (greedy : bool) (bound : N) (ev : env) (deadline : bool)
         (sv : solver) (S : scheduling) (t : nat) (a : answer) (m : meter),
    solve_until pr d sd cost greedy bound ev deadline sv S t = Some (Ok a) -> StronglySorted N.lt (i_levels d) ->
    exists m' ls, solve_until_m pr d sd cost greedy bound ev deadline sv S t m = Some (Ok (a, m')) /\
      mt_count m' = mt_count m + length ls /\ mt_limits m' = mt_limits m ++ ls /\
      (ar_cached a = true -> ls = []) /\
      (greedy = true -> length ls <= 1 /\ forall x, In x ls -> x = i_max_pref d) /\
      (greedy = false -> length ls <= Nat.log2 (candidates d bound) + 1 /\ NoDup ls /\
         forall x, In x ls -> In x (i_levels d) /\ ((bound <= x)%N \/ forall y, In y (i_levels d) -> (y <= x)%N)) /\
      (deadline = false -> ar_cached a = false -> greedy = true \/ i_levels d <> [] -> 1 <= length ls).
Proof.
  intros pr d sd cost greedy bound ev dl sv S t a m H HS. rewrite <- (until_erase pr d sd cost ev dl greedy bound sv S t m) in H.
  destruct (solve_until_m pr d sd cost greedy bound ev dl sv S t m) as [[[a1 m']| |]|] eqn:E; cbn in H; try discriminate.
  assert (a1 = a) by congruence. subst a1. destruct (until_meter _ _ _ _ _ _ _ _ _ _ _ _ _ _ E HS) as (ls & -> & K).
  exists (after m ls), ls. split; auto.
Qed.
Print Assumptions C82_instances_of_one_request.
(** Two levels: limit 0 is infeasible, so 5 is tried as well. *)
Example C82_one_request_witness :
  StronglySorted N.lt (i_levels d5) /\ candidates d5 0 = 2 /\
  match solve_until_m Debug d5 sd5 (p_cost P5) false 0 (w_env w5) true new_solver [Some 0; Some 1; Some 0] 0 new_meter with
  | Some (Ok (a, m)) => ar_cached a = false /\ mt_limits m = [0; 5]%N /\ mt_count m = 2
  | _ => False
  end.
Proof. split; [exact d5_levels|]. vm_compute. auto. Qed.

(** A worker: its reports are 1, 2, 3, ... *)
Definition per_assignment (P : problem) : nat :=
  if p_greedy P then 1 else Nat.log2 (candidates (p_input P) (an_bound (p_analysis P))) + 1.
Theorem C82_instances_of_a_worker :
  forall (pr : profile) (P : problem) (w : world) (g : shotgun) (m : meter) (l : list message),
    StronglySorted N.lt (i_levels (p_input P)) -> worked pr P w g m l ->
    lp_reports l = seq 1 (mt_count m) /\ assignment_reports l = seq 1 (hc_assignments (sg_climber g)) /\
    mt_count m <= hc_assignments (sg_climber g) * per_assignment P.
Proof.
  intros pr P w g m l HS H. destruct (worked_counts _ _ _ _ _ _ HS H) as [[H1 _] [H2 _] H3 _]. rewrite !Nat.sub_0_r in *. auto.
Qed.
Print Assumptions C82_instances_of_a_worker.
Example C82_worker_witness : worked Debug P5 w5 (snd (fst (fst im5))) (snd (fst im5)) (snd im5) /\
  mt_count (snd (fst im5)) = 22 /\ hc_assignments (sg_climber (snd (fst (fst im5)))) = 27 /\ per_assignment P5 = 2.
Proof. split; [exact im5_worked|]. vm_compute. auto. Qed.

(** A poll: the number shown is the number of instances reported so far, and is
    bounded by the number of assignments shown. *)
Theorem C82_shown_count :
  forall (pr : profile) (P : problem) (ws : nat -> world) (s : session) (ls : list (list message)),
    StronglySorted N.lt (i_levels (p_input P)) -> received pr P ws s ls ->
    shown_lp (map heard ls) = list_sum (map (fun l => length (lp_reports l)) ls) /\
    shown_lp (map heard ls) <= (list_sum (map (fun l => latest (assignment_reports l) 0) ls) + length ls) * per_assignment P.
Proof.
  intros pr P ws s ls HS [HL HR].
  assert (A : forall l, In l ls -> ga_lp (heard l) = length (lp_reports l) /\ length (lp_reports l) <= (latest (assignment_reports l) 0 + 1) * per_assignment P).
  { intros l Hl. apply In_nth_error in Hl as (i & Hi). assert (Hw : i < length (se_workers s)) by (rewrite <- HL; apply nth_error_Some; congruence).
    destruct (nth_error (se_workers s) i) as [wk|] eqn:Ew; [|apply nth_error_None in Ew; lia].
    destruct (HR i wk l Ew Hi) as (m & rest & W). destruct (worked_counts _ _ _ _ _ _ HS W) as [[H1 _] [H2 _] _ H4]. rewrite !Nat.sub_0_r in *.
    rewrite lp_app in H1. rewrite asg_app in H2.
    assert (Q : forall (a b : list nat) k n, a ++ b = seq k n -> a = seq k (length a)).
    { clear. induction a as [|x a IH]; intros b k n E; auto. destruct n as [|n]; [discriminate|]. cbn in E. injection E as <- E. cbn. f_equal. eapply IH; eauto. }
    pose proof (Q _ _ _ _ H1) as E1. pose proof (Q _ _ _ _ H2) as E2. split.
    - unfold heard. rewrite hear_lp, E1. cbn [ga_lp empty_gauge]. change (0 + 1) with 1. rewrite seq_length. exact (latest_seq 0 _).
    - rewrite E2 at 1. replace (latest (seq (0 + 1) (length (assignment_reports l))) 0) with (length (assignment_reports l)) by (rewrite latest_seq; auto).
      apply (H4 l rest). reflexivity. }
  assert (F : forall gs k, fold_left (fun n g => n + ga_lp g) gs k = k + list_sum (map ga_lp gs)).
  { induction gs as [|g gs IH]; intros k; cbn [fold_left map]; [cbn; lia|]. rewrite IH. unfold list_sum. cbn [fold_right]. lia. }
  unfold shown_lp. rewrite F, map_map. cbn [Nat.add]. clear HL HR F. induction ls as [|l ls IH]; [split; [reflexivity|apply Nat.le_0_l]|].
  destruct (IH ltac:(intros x Hx; apply A; right; auto)) as [I1 I2]. destruct (A l (or_introl eq_refl)) as [A1 A2].
  cbn [map list_sum fold_right length] in *. unfold list_sum in *. cbn [fold_right]. rewrite A1, I1. split; auto. rewrite I1 in I2. nia.
Qed.
Print Assumptions C82_shown_count.
Example C82_shown_witness : received Debug P5 ws5 s5 [firstn 13 (snd im5); []] /\
  shown_lp (map heard [firstn 13 (snd im5); []]) = 4 /\ latest (assignment_reports (firstn 13 (snd im5))) 0 = 1.
Proof. split; [apply received5|]. vm_compute. auto. Qed.

(** ** C83 *)
Theorem C83_shown_depth_is_within_the_shown_maximum :
  forall (pr : profile) (P : problem) (ws : nat -> world) (s : session) (ls : list (list message)),
    (forall i, fair (w_sched (ws i))) -> received pr P ws s ls ->
    (N.of_nat (length (i_choices (p_input P))) <= 65535)%N -> (N.of_nat (length ls) <= 65535)%N ->
    (N.of_nat (length ls) * N.of_nat (length (i_choices (p_input P))) <= 16777216)%N ->
    is_fin (shown_depth (map heard ls)) = true /\
    (0 <= f32_value (shown_depth (map heard ls)) <= f32_value (max_depth (p_input P)))%R /\
    f32_value (max_depth (p_input P)) = INR (length (i_choices (p_input P))).
Proof.
  intros pr P ws s ls HF [HL HR] HD HN HP.
  assert (E : f32_value (max_depth (p_input P)) = INR (length (i_choices (p_input P)))).
  { unfold max_depth. destruct (depth_B _ HD) as (b & <- & _ & V). rewrite P_Cost.B_val, V, INR_IZR_INZ. auto. }
  rewrite E. destruct (mean_depth (length (i_choices (p_input P))) (map heard ls)) as [K1 K2]; rewrite ?map_length; auto.
  intros g Hg. apply in_map_iff in Hg as (l & <- & Hl). apply In_nth_error in Hl as (i & Hi).
  assert (Hw : i < length (se_workers s)) by (rewrite <- HL; apply nth_error_Some; congruence).
  destruct (nth_error (se_workers s) i) as [wk|] eqn:Ew; [|apply nth_error_None in Ew; lia].
  destruct (HR i wk l Ew Hi) as (m & rest & W). eapply heard_deep; eauto.
Qed.
Print Assumptions C83_shown_depth_is_within_the_shown_maximum.
(** In the middle of the first search the first of two workers is at depth 1: the
    mean shown is 0.5, the maximum 3. *)
Example C83_witness : (forall i, fair (w_sched (ws5 i))) /\ received Debug P5 ws5 s5 [firstn 2 (snd im5); []] /\
  f32_value (shown_depth (map heard [firstn 2 (snd im5); []])) = (1/2)%R /\ length (i_choices (p_input P5)) = 3.
Proof.
  split; [intros i; apply o_count_fair|]. split; [apply received5|]. split; [|reflexivity].
  replace (shown_depth _) with (S754_finite false 8388608 (-24)) by (vm_compute; reflexivity). cbv [f32_value]. simpl. lra.
Qed.
(** The limit on threads and choices is needed: with 257 threads that have all placed
    65535 choices the sum is rounded up, and the mean is shown above the maximum. *)
Definition crowd : list gauge := repeat (mkGauge (depth_value (N.to_nat 65535)) 0) 257.
Example C83_beyond_the_limit :
  SFltb (depth_value (N.to_nat 65535)) (shown_depth crowd) = true /\ shown_depth crowd = S754_finite false 16776961 (-8).
Proof. vm_compute. auto. Qed.

(** After a completed iteration the worker's depth is the maximum. *)
Theorem C83_a_finished_search_shows_full_depth :
  forall (pr : profile) (P : problem) (w : world) (g : shotgun) (m : meter) (l : list message) tn g' m' l',
    fair (w_sched w) -> worked pr P w g m l -> iterate_m pr P w true tn 1 g m = Some (Ok (1, g', m', l')) ->
    ga_depth (heard (l ++ l')) = max_depth (p_input P).
Proof.
  intros pr P w g m l tn g' m' l' HF _ HI. destruct (iteration_deep _ _ _ _ HF _ _ _ _ _ _ HI) as (ds & E).
  unfold heard. rewrite hear_depth, deep_app, E, map_app, app_assoc. unfold latest. cbn [map]. apply last_last.
Qed.
Print Assumptions C83_a_finished_search_shows_full_depth.
Example C83_full_depth_witness : fst (fst (fst im5)) = 1 /\ max_depth (p_input P5) = S754_finite false 12582912 (-22) /\
  iterate_m Debug P5 w5 true tn1 1 new_shotgun new_meter = Some (Ok im5).
Proof. split; [exact (proj1 im5_it5)|]. split; [vm_compute; reflexivity|exact im5_eq]. Qed.
