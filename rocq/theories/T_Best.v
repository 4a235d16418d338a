(** C67: does the assignment stage return the assignment with the best score?
    The assignment stage minimizes sums of (preference + 1) ^ exponent
    (assignment_solver.rs:399-401), the score adds preference ^ exponent
    (scoring.rs:255-259).  Vocabulary as in T_Flow.v and T_Cost.v. *)
From Verif Require Import Base M_Data M_Scoring M_Build M_Critical M_Flow Spec Spec_Score Spec_Input Spec_Search Spec_Flow Spec_Calls Spec_Cost.
From Verif Require Import P_Check P_Score P_Minor P_Built P_Brute P_Flow1 P_Flow2 P_Flow3 P_Flow4 P_Flow5 P_Flow6 P_Flow7 T_Flow P_Cost P_Best.
From Coq Require Import Reals Lra Floats.SpecFloat String.
Notation length := Datatypes.length. Notation get := Base.get.

(** Exponent 2: the cost of the assignment stage and the power of the score. *)
Definition next_square (y : N) : Z := Z.of_N ((y + 1) ^ 2)%N.
Definition square (x : f32) : f32 := f32_mul x x.

(** Processed preferences of p: 0 2 4, of q: 2 3 4, of r: 4 4 3; each of the
    three choices takes one chooser. *)
Definition r67 : reader := mkReader [mkSlot "s"]
  [mkProto "x" 1 1 1 false; mkProto "y" 1 1 1 false; mkProto "z" 1 1 1 false]
  [mkChooser "p" [4;2;0]%N; mkChooser "q" [2;1;0]%N; mkChooser "r" [0;0;1]%N] [].
Definition d67 : input_data := Eval vm_compute in match build_input Debug r67 with Ok d => d | _ => T_Input.d1 end.
Definition S67 : scheduling := [Some 0; Some 0; Some 0].
Lemma r67_builds pr : build_input pr r67 = Ok d67. Proof. destruct pr; vm_compute; reflexivity. Qed.
Lemma d67_wf : wf_input d67. Proof. apply wf_input_b_ok. vm_compute; reflexivity. Qed.
Lemma d67_fits : fits d67. Proof. apply fits_b_ok. vm_compute; reflexivity. Qed.
Lemma d67_size : solvable_size d67. Proof. apply size_b_ok. vm_compute; reflexivity. Qed.
Lemma d67_valid : valid_solution d67 S67 [[0]; [1]; [2]] /\ valid_solution d67 S67 [[1]; [0]; [2]].
Proof. split; (apply check_solution_ok; [exact d67_fits|exact d67_wf|vm_compute; reflexivity]). Qed.

Lemma allowed_67 l A : In l (i_levels d67) -> allowed d67 S67 l A ->
  (forall B, allowed d67 S67 l B -> (assignment_cost d67 next_square A <= assignment_cost d67 next_square B)%Z) -> A = [[0]; [1]; [2]].
Proof.
  intros Hl HA HC.
  destruct (al_one _ _ _ _ HA) as [HLA H1]. change (length (i_choosers d67)) with 3 in HLA. change (length (i_slots d67)) with 1 in H1.
  destruct A as [|ra [|rb [|rc [|rd A]]]]; try discriminate. clear HLA.
  assert (K : forall p row, nth_error [ra; rb; rc] p = Some row -> exists x, row = [x] /\ x < 3).
  { intros p row Hrow. destruct (H1 p row Hrow) as (HLr & Hh' & _). destruct row as [|x [|]]; try discriminate. exists x. split; auto.
    destruct (Hh' x (or_introl eq_refl)) as [s Hs]. unfold scheduled_in in Hs. change 3 with (length S67). apply nth_error_Some. congruence. }
  destruct (K 0 ra eq_refl) as (x & -> & Hx). destruct (K 1 rb eq_refl) as (y & -> & Hy). destruct (K 2 rc eq_refl) as (z & -> & Hz).
  assert (Hl4 : l = 4%N).
  { assert (H3 : exists v, pref_of d67 2 z v /\ (3 <= v)%N).
    { destruct z as [|[|[|z]]]; [exists 4%N|exists 4%N|exists 3%N|lia]; (split; [eexists; split; reflexivity|lia]). }
    destruct H3 as (v & Hv & H3). pose proof (al_prefs _ _ _ _ HA 2 z v ltac:(cbn; lia) ltac:(exists [z]; cbn; auto) Hv). cbn in Hl. intuition lia. }
  subst l. clear Hl.
  assert (NE : forall cc, cc < 3 -> x = cc \/ y = cc \/ z = cc).
  { intros cc Hcc. assert (exists ch, nth_error (i_choices d67) cc = Some ch /\ ch_min ch = 1%N) as (ch & Hch & Hm).
    { destruct cc as [|[|[|cc]]]; [| | |lia]; (eexists; split; reflexivity). }
    assert (Hhd : held S67 cc) by (destruct cc as [|[|[|cc]]]; [| | |lia]; (eexists; reflexivity)).
    destruct (al_bounds _ _ _ _ HA cc ch Hch Hhd) as (m & (lst & ND & Hin & <-) & Hmin & _). rewrite Hm in Hmin.
    destruct lst as [|p lst]; [cbn in Hmin; lia|]. destruct (proj1 (Hin p) (or_introl eq_refl)) as (row & Hr & Hc).
    destruct p as [|[|[|p]]]; cbn in Hr; [| | |destruct p; discriminate]; injection Hr as <-; destruct Hc as [<-|[]]; auto. }
  pose proof (NE 0 ltac:(lia)) as N0. pose proof (NE 1 ltac:(lia)) as N1. pose proof (NE 2 ltac:(lia)) as N2.
  assert (HB : allowed d67 S67 4 [[0]; [1]; [2]]).
  { apply respects_allowed; [exact d67_wf|apply d67_valid| |].
    - change (length (i_choices d67)) with 3. intros cc Hc. do 3 (destruct cc as [|cc]; [eexists; reflexivity|]). lia.
    - intros p cc v Hp _ (ch & Q1 & Q2). apply (wf_max _ d67_wf ch v); eapply nth_error_In; eauto. }
  specialize (HC _ HB). clear HA HB H1 K NE.
  destruct x as [|[|[|x]]]; [| | |lia]; destruct y as [|[|[|y]]]; try lia; destruct z as [|[|[|z]]]; try lia; auto;
    exfalso; vm_compute in HC; apply HC; reflexivity.
Qed.

(** Full statement: with an optimizing library, no assignment of the scheduling
    scores better than the returned one.  False with exponent 2, with normal and
    with greedy scoring: every optimizing library is led to the first of two
    valid assignments (preferences 0 3 3), the second one (2 2 3) scores better. *)
Theorem C67_best_score_refuted :
  exists (r : reader) (d : input_data) (S : scheduling) (B : assignment),
    (forall pr, build_input pr r = Ok d) /\ valid_solution d S B /\
    forall (pr : profile) (sd : static) (greedy : bool) (bound : N) (h : list call) (c : call) (A : assignment),
      new_static d = Ok sd ->
      history pr d sd next_square greedy bound h (cl_before c) -> cl_sched c = S ->
      run pr d sd next_square greedy bound c -> (greedy = false -> cl_deadline c = false) ->
      (forall c0, In c0 (c :: h) -> honest_lp (cl_env c0) (cl_deadline c0) /\ optimal_lp (cl_env c0)) ->
      ar_result (cl_answer c) = Some A ->
      exists scA scB, evaluate pr square greedy d (SolComplete S A) = Ok scA /\
        evaluate pr square greedy d (SolComplete S B) = Ok scB /\
        score_finite scA = true /\ score_cmp scB scA = Lt.
Proof.
  exists r67, d67, S67, [[1]; [0]; [2]]. split; [apply r67_builds|]. split; [apply d67_valid|].
  intros pr sd greedy bound h c A HN Hh ES HR HD HE EA.
  assert (HV : valid_scheduling d67 (cl_sched c)) by (rewrite ES; apply d67_valid).
  destruct (C51_answer_is_cheapest pr d67 sd next_square greedy bound h c A d67_wf (built_grouped Debug r67 d67 (r67_builds Debug))
    (built_levels Debug r67 d67 (r67_builds Debug)) d67_size HN Hh HV HR HD HE EA) as (l & Hl & _ & HA & HC & _).
  rewrite ES in HA, HC. rewrite (allowed_67 l A Hl HA HC).
  destruct greedy, pr; do 2 eexists; (split; [vm_compute; reflexivity|]); (split; [vm_compute; reflexivity|]); split; vm_compute; reflexivity.
Qed.
Print Assumptions C67_best_score_refuted.

(** Such calls exist: a library that tries all integer points. *)
Definition sd67 : static := match new_static d67 with Ok s => s | _ => sd1 end.
Definition ans67 (greedy : bool) : answer := answer_of (solve_until Debug d67 sd67 next_square greedy 0 (brute_env no_clock) false new_solver S67 0).
Definition call67 (greedy : bool) : call := mkCall S67 (brute_env no_clock) false new_solver 0 (ans67 greedy).
Example C67_refuted_witness : forall greedy,
  new_static d67 = Ok sd67 /\ history Debug d67 sd67 next_square greedy 0 [] (cl_before (call67 greedy)) /\
  run Debug d67 sd67 next_square greedy 0 (call67 greedy) /\
  (forall c0, In c0 [call67 greedy] -> honest_lp (cl_env c0) (cl_deadline c0) /\ optimal_lp (cl_env c0)) /\
  ar_result (cl_answer (call67 greedy)) = Some [[0]; [1]; [2]].
Proof.
  intros greedy. split; [vm_compute; reflexivity|]. split; [constructor|]. split; [destruct greedy; vm_compute; reflexivity|]. split.
  - intros c0 [<-|[]]. split; [apply exact_honest, brute_exact|apply exact_optimal, brute_exact].
  - destruct greedy; vm_compute; reflexivity.
Qed.

(** Proved when the cost of the assignment stage is an affine function of the
    power used by the score, as with exponent 1 (y + 1 and y) and exponent 0
    (both 1): the answer has the least relative cost among all assignments
    within its level, in greedy mode among all; so none of them beats its score
    by more than rounding (C66).  Missing: other exponents (refuted above). *)
Theorem C67_best_score_partial :
  forall (pr : profile) (d : input_data) (sd : static) (cost : N -> Z) (pow : f32 -> f32) (a b : R)
         (greedy : bool) (bound : N) (h : list call) (c : call) (A : assignment),
    wf_input d -> fits d -> grouped d -> levels_ok d -> solvable_size d -> new_static d = Ok sd ->
    (0 < a)%R -> (forall y, (y <= i_max_pref d)%N -> IZR (cost y) = (a * f32_value (pow (f32_of_N y)) + b)%R) -> tame pow d ->
    history pr d sd cost greedy bound h (cl_before c) -> valid_scheduling d (cl_sched c) -> run pr d sd cost greedy bound c ->
    (greedy = false -> cl_deadline c = false) ->
    (forall c0, In c0 (c :: h) -> honest_lp (cl_env c0) (cl_deadline c0) /\ optimal_lp (cl_env c0)) ->
    ar_result (cl_answer c) = Some A ->
    exists l, In l (i_levels d) /\ (greedy = true -> l = i_max_pref d) /\ allowed d (cl_sched c) l A /\
      forall B, allowed d (cl_sched c) l B -> (relative_cost pow d A <= relative_cost pow d B)%R.
Proof.
  intros pr d sd cost pow a b greedy bound h c A HW HF HG HLv HZ HN Ha HAff HT Hh HV HR HD HE EA.
  destruct (C51_answer_is_cheapest pr d sd cost greedy bound h c A HW HG HLv HZ HN Hh HV HR HD HE EA) as (l & Hl & Hg & HA & HC & _).
  exists l. split; auto. split; auto. split; auto. intros B HB. specialize (HC B HB).
  assert (SH : forall X, allowed d (cl_sched c) l X -> length X = length (i_choosers d) /\ forall r, In r X -> length r = length (i_slots d)).
  { intros X HX. destruct (al_one _ _ _ _ HX) as [L R]. split; auto. intros r Hr. apply In_nth_error in Hr. destruct Hr as [p Hp]. apply (R p r Hp). }
  destruct (SH A HA) as [LA RA]. destruct (SH B HB) as [LB RB].
  pose proof (cheaper_means_cheaper d cost pow a b A B Ha HAff HW LA LB RA RB HC) as Hle.
  unfold relative_cost, Rdiv. apply Rmult_le_compat_r; auto. left. apply Rinv_0_lt_compat. rewrite <- scaling_value.
  destruct (P_Finite.tame_parts pow d HT) as (sm & se & -> & _). cbn [f32_value].
  apply Rmult_lt_0_compat; [rewrite Rmult_1_l; apply IZR_lt; lia|apply powerRZ_lt; lra].
Qed.
Print Assumptions C67_best_score_partial.
Definition next (y : N) : Z := Z.of_N (y + 1)%N.
Definition ans67b (greedy : bool) : answer := answer_of (solve_until Debug d67 sd67 next greedy 0 (brute_env no_clock) false new_solver S67 0).
Definition call67b (greedy : bool) : call := mkCall S67 (brute_env no_clock) false new_solver 0 (ans67b greedy).
Example C67_partial_witness : forall greedy,
  wf_input d67 /\ fits d67 /\ grouped d67 /\ levels_ok d67 /\ solvable_size d67 /\ new_static d67 = Ok sd67 /\
  (forall y, (y <= i_max_pref d67)%N -> IZR (next y) = (1 * f32_value (P_Minor.pow1 (f32_of_N y)) + 1)%R) /\ tame P_Minor.pow1 d67 /\
  valid_scheduling d67 S67 /\ run Debug d67 sd67 next greedy 0 (call67b greedy) /\
  (forall c0, In c0 [call67b greedy] -> honest_lp (cl_env c0) (cl_deadline c0) /\ optimal_lp (cl_env c0)) /\
  ar_result (cl_answer (call67b greedy)) <> None.
Proof.
  intros greedy. split; [exact d67_wf|]. split; [exact d67_fits|]. split; [exact (built_grouped Debug r67 d67 (r67_builds Debug))|].
  split; [exact (built_levels Debug r67 d67 (r67_builds Debug))|]. split; [exact d67_size|]. split; [vm_compute; reflexivity|].
  split.
  { intros y Hy. change (i_max_pref d67) with 4%N in Hy. destruct (of_N_exact y) as (bb & Eb & Vb); [lia|]. unfold P_Minor.pow1. rewrite <- Eb, B_val, Vb.
    unfold next. rewrite N2Z.inj_add, plus_IZR. cbn [Z.of_N]. lra. }
  split.
  { unfold tame. cbn zeta. repeat split; try reflexivity.
    all: assert (Hx : x = 0%N \/ x = 1%N \/ x = 2%N \/ x = 3%N \/ x = 4%N) by (cbn in H; lia).
    all: destruct Hx as [-> | [-> | [-> | [-> | ->]]]]; vm_compute; auto. }
  split; [apply d67_valid|]. split; [destruct greedy; vm_compute; reflexivity|]. split.
  - intros c0 [<-|[]]. split; [apply exact_honest, brute_exact|apply exact_optimal, brute_exact].
  - destruct greedy; vm_compute; discriminate.
Qed.
