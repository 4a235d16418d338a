(** Property theorems C08, C09, C10, C41 (scores and feasibility checks). *)
From Verif Require Import Base M_Data M_Scoring Spec P_Scoring P_Feasible P_Score P_Minor Spec_Score P_Finite.
From Coq Require Import Floats.SpecFloat.

(** C08 (full statement): for all scores [a b c], [score_cmp] is reflexive,
    antisymmetric, its [<=] is transitive, equality of scores means "compares
    equal", and non-finite scores are worst.
    False across modes: *)
Theorem C08_transitivity_refuted :
  exists a b c : score,
    score_finite a = true /\ score_finite b = true /\ score_finite c = true /\
    score_cmp a b = Lt /\ score_cmp b c = Lt /\ score_cmp c a = Lt.
Proof.
  exists (mkScore (f32_of_N 3) (f32_of_N 3)), (mkScore (f32_of_N 5) (f32_of_N 1)), (mkScore S754_nan (f32_of_N 2)).
  vm_compute. repeat split.
Qed.
Print Assumptions C08_transitivity_refuted.

(** ... and the derived [==] disagrees with the order: a greedy score compares
    equal to itself but is not [==] to itself. *)
Theorem C08_equality_refuted :
  exists a : score, score_finite a = true /\ score_cmp a a = Eq /\ score_eqb a a = false.
Proof. exists (mkScore S754_nan (f32_of_N 2)). vm_compute. repeat split. Qed.
Print Assumptions C08_equality_refuted.

(** Proved: within one scoring mode (all greedy or none greedy) the order is a
    total preorder and non-finite scores are worst.  Missing: mixed modes and
    [==], where it fails. *)
Theorem C08_score_order_partial :
  forall a b c : score,
    score_cmp a a = Eq /\
    score_cmp a b = CompOpp (score_cmp b a) /\
    (same_mode a b -> same_mode b c ->
     score_cmp a b <> Gt -> score_cmp b c <> Gt -> score_cmp a c <> Gt) /\
    (score_finite a = false -> score_cmp a b <> Lt) /\
    (score_finite a = false -> score_finite b = true -> score_cmp a b = Gt).
Proof.
  exact (fun a b c => conj (score_cmp_refl a) (conj (score_cmp_antisym a b)
    (conj (score_le_trans a b c) (conj (fun H => proj1 (score_nonfinite_worst a b H))
                                       (fun H => proj2 (score_nonfinite_worst a b H)))))).
Qed.
Print Assumptions C08_score_order_partial.

Example C08_witness :
  let a := mkScore (f32_of_N 1) (f32_of_N 7) in
  let b := mkScore (f32_of_N 2) (f32_of_N 1) in
  let c := mkScore (f32_of_N 2) (f32_of_N 3) in
  same_mode a b /\ same_mode b c /\ score_cmp a b = Lt /\ score_cmp b c = Lt.
Proof. vm_compute. repeat split. Qed.

(** C09, for inputs whose preferences stay within 2^24. *)
Theorem C09_smaller_worst_preference_wins_partial :
  forall (pr : profile) (pow : f32 -> f32) (d : input_data)
         (S1 S2 : scheduling) (A1 A2 : assignment) (sc1 sc2 : score) (x1 x2 : N),
    wf_input d -> (i_max_pref d <= 16777216)%N ->
    valid_solution d S1 A1 -> valid_solution d S2 A2 ->
    evaluate pr pow false d (SolComplete S1 A1) = Ok sc1 -> score_finite sc1 = true ->
    evaluate pr pow false d (SolComplete S2 A2) = Ok sc2 -> score_finite sc2 = true ->
    worst_pref d A1 x1 -> worst_pref d A2 x2 -> (x1 < x2)%N ->
    score_cmp sc1 sc2 = Lt.
Proof.
  exact (fun pr pow d S1 S2 A1 A2 sc1 sc2 x1 x2 HW HM V1 V2 =>
    worst_smaller_wins pr pow d S1 A1 S2 A2 sc1 sc2 x1 x2 HW HM
      (vs_length _ _ (vsol_sched _ _ _ V1)) (vs_length _ _ (vsol_sched _ _ _ V2))
      (vsol_rest _ _ _ V1) (vsol_rest _ _ _ V2)).
Qed.
Print Assumptions C09_smaller_worst_preference_wins_partial.
(** Two valid solutions, worst preferences 0 and 2. *)
Definition A10b : assignment := [[0]; [1]].
Lemma d10_rows A : A = A10 \/ A = A10b -> forall p row, nth_error A p = Some row ->
  length row = n_slots d10 /\ forall c, In c row -> c < n_choices d10.
Proof.
  intros [-> | ->] p row; destruct p as [|[|p]]; cbn; try (destruct p; discriminate);
    intros E; injection E as <-; split; auto; intros c [<-|[]]; lia.
Qed.
Lemma d10_valid_b : valid_solution d10 S10 A10b.
Proof.
  constructor; [exact (vsol_sched _ _ _ d10_valid)|].
  apply sol_is_feasible_sound; auto using d10_wf, d10_fits.
  - intros p row Hp. eapply (d10_rows A10b); eauto.
Qed.
Example C09_witness : exists sc1 sc2,
  wf_input d10 /\ (i_max_pref d10 <= 16777216)%N /\ valid_solution d10 S10 A10 /\ valid_solution d10 S10 A10b /\
  evaluate Debug pow1 false d10 (SolComplete S10 A10) = Ok sc1 /\ score_finite sc1 = true /\
  evaluate Debug pow1 false d10 (SolComplete S10 A10b) = Ok sc2 /\ score_finite sc2 = true /\
  worst_pref d10 A10 0 /\ worst_pref d10 A10b 2.
Proof.
  eexists. eexists. split; [exact d10_wf|]. split; [vm_compute; discriminate|]. split; [exact d10_valid|]. split; [exact d10_valid_b|].
  split; [vm_compute; reflexivity|]. split; [vm_compute; reflexivity|]. split; [vm_compute; reflexivity|]. split; [vm_compute; reflexivity|]. split.
  - destruct (evaluate_major_worst d10 A10 d10_wf eq_refl (d10_rows _ (or_introl eq_refl))) as (m & Em & W).
    assert (E : evaluate_major d10 A10 = Ok 0%N) by (vm_compute; reflexivity). congruence.
  - destruct (evaluate_major_worst d10 A10b d10_wf eq_refl (d10_rows _ (or_intror eq_refl))) as (m & Em & W).
    assert (E : evaluate_major d10 A10b = Ok 2%N) by (vm_compute; reflexivity). congruence.
Qed.

(** Beyond 2^24 the full statement fails: solution [A9a] has worst preference
    2^24, [A9b] has 2^24+1, yet [A9b] gets the better score (exponent 1). *)
Theorem C09_smaller_worst_preference_refuted :
  exists (d : input_data) (S : scheduling) (A1 A2 : assignment) (sc1 sc2 : score) (x1 x2 : N),
    wf_input d /\ fits d /\ valid_solution d S A1 /\ valid_solution d S A2 /\
    (forall pr, evaluate pr (fun x => x) false d (SolComplete S A1) = Ok sc1 /\
                evaluate pr (fun x => x) false d (SolComplete S A2) = Ok sc2) /\
    score_finite sc1 = true /\ score_finite sc2 = true /\
    worst_pref d A1 x1 /\ worst_pref d A2 x2 /\ (x1 < x2)%N /\ score_cmp sc1 sc2 = Gt.
Proof.
  exists d9, S9, A9a, A9b, (mkScore (f32_of_N 16777216) f32_two), (mkScore (f32_of_N 16777217) f32_one),
    16777216%N, 16777217%N.
  split; [exact d9_wf|]. split; [exact d9_fits|].
  split; [exact (d9_valid _ (or_introl eq_refl))|]. split; [exact (d9_valid _ (or_intror eq_refl))|].
  split; [exact (fun pr => conj (d9_score_a pr) (d9_score_b pr))|].
  split; [reflexivity|]. split; [reflexivity|].
  split; [|split; [|split; [reflexivity|vm_compute; reflexivity]]].
  - destruct (evaluate_major_worst d9 A9a d9_wf eq_refl (d9_rows _ (or_introl eq_refl))) as (m & Em & W).
    assert (E : evaluate_major d9 A9a = Ok 16777216%N) by (vm_compute; reflexivity). congruence.
  - destruct (evaluate_major_worst d9 A9b d9_wf eq_refl (d9_rows _ (or_intror eq_refl))) as (m & Em & W).
    assert (E : evaluate_major d9 A9b = Ok 16777217%N) by (vm_compute; reflexivity). congruence.
Qed.
Print Assumptions C09_smaller_worst_preference_refuted.

(** C10, first half: a complete solution that breaks a constraint, a bound or
    the one-choice-per-slot rule gets the infinite score.  (The shape
    hypotheses are what [Scheduling::with_data] and [Assignment::new] assert
    plus "assigned choices take place"; otherwise evaluation panics.) *)
Theorem C10_invalid_gives_infinite_score :
  forall (pr : profile) (pow : f32 -> f32) (g : bool) (d : input_data) (S : scheduling) (A : assignment),
    fits d -> wf_input d -> (i_max_pref d < u32_max)%N ->
    length S = n_choices d -> length A = n_choosers d ->
    (forall p row, nth_error A p = Some row -> length row = n_slots d) ->
    (forall c s, scheduled_in S c s -> s < n_slots d) ->
    (forall p c, attends A p c -> held S c) ->
    ~ respects_all d S A ->
    evaluate pr pow g d (SolComplete S A) = Ok (mkScore f32_inf f32_inf).
Proof.
  intros pr pow g d S A HF HW HM HL HA HR HS HH Hn.
  destruct (evaluate_total pr pow g d S A HF HW HM HL HA HR HS HH) as [sc E].
  destruct (sol_is_feasible_total d S A HF HW HL HA HR HS HH) as [b Hb]. destruct b.
  - exfalso. exact (Hn (sol_is_feasible_sound d S A HF HW HL HA HR Hb)).
  - rewrite E. f_equal. exact (evaluate_infeasible _ _ _ _ _ _ _ Hb E).
Qed.
Print Assumptions C10_invalid_gives_infinite_score.

(** C10: whatever is evaluated, a finite score means the solution respects
    everything (no assumption on the powers, the profile or the slots). *)
Theorem C10_finite_score_means_valid :
  forall (pr : profile) (pow : f32 -> f32) (g : bool) (d : input_data) (S : scheduling) (A : assignment) (sc : score),
    fits d -> wf_input d -> length S = n_choices d -> length A = n_choosers d ->
    (forall p row, nth_error A p = Some row -> length row = n_slots d) ->
    evaluate pr pow g d (SolComplete S A) = Ok sc -> score_finite sc = true ->
    respects_all d S A.
Proof.
  exact (fun pr pow g d S A sc HF HW HL HA HR E F =>
    sol_is_feasible_sound d S A HF HW HL HA HR (evaluate_finite_feasible pr pow g d S A sc E F)).
Qed.
Print Assumptions C10_finite_score_means_valid.

Example C10_witness : (* a valid solution with a finite score exists *)
  wf_input d10 /\ fits d10 /\ valid_solution d10 S10 A10 /\
  evaluate Debug pow1 false d10 (SolComplete S10 A10) = Ok (mkScore f32_zero f32_zero).
Proof. split; [exact d10_wf|]. split; [exact d10_fits|]. split; [exact d10_valid|]. vm_compute. reflexivity. Qed.

(** C10, second half, is false: with an exponent so large that the largest
    preference's power overflows f32, a valid solution gets the infinite score. *)
Theorem C10_valid_gives_finite_score_refuted :
  exists (d : input_data) (S : scheduling) (A : assignment),
    wf_input d /\ fits d /\ valid_solution d S A /\
    forall (pr : profile) (pow : f32 -> f32) (g : bool),
      pow (f32_of_N 2) = f32_inf ->   (* e.g. 2^200 with --pref-exp 200 *)
      evaluate pr pow g d (SolComplete S A) = Ok (mkScore f32_inf f32_inf).
Proof. exact (ex_intro _ d10 (ex_intro _ S10 (ex_intro _ A10
  (conj d10_wf (conj d10_fits (conj d10_valid (fun pr pow g H => d10_infinite pr pow g H))))))). Qed.
Print Assumptions C10_valid_gives_finite_score_refuted.

(** ... and with a negative exponent ([0.powf(e)] is infinite for [e < 0]) no
    valid solution of any input gets a finite score. *)
Theorem C10_negative_exponent_refuted :
  forall (pr : profile) (pow : f32 -> f32) (g : bool) (d : input_data) (S : scheduling) (A : assignment),
    fits d -> wf_input d -> (i_max_pref d < u32_max)%N -> valid_solution d S A ->
    pow f32_zero = f32_inf ->
    evaluate pr pow g d (SolComplete S A) = Ok (mkScore f32_inf f32_inf).
Proof. exact inf_power_of_zero. Qed.
Print Assumptions C10_negative_exponent_refuted.

(** C10, second half, when no power overflows ([tame], see Spec_Score.v) and
    there are fewer than 2^23 seats (choosers times slots): a valid solution
    gets a finite score, in both scoring modes. *)
Theorem C10_valid_gives_finite_score_partial :
  forall (pr : profile) (pow : f32 -> f32) (g : bool) (d : input_data) (S : scheduling) (A : assignment),
    fits d -> wf_input d -> (i_max_pref d < u32_max)%N -> valid_solution d S A ->
    (N.of_nat (length (i_choosers d)) * N.of_nat (length (i_slots d)) < 2 ^ 23)%N ->
    tame pow d ->
    exists sc, evaluate pr pow g d (SolComplete S A) = Ok sc /\ score_finite sc = true /\ is_nan (sc_major sc) = g.
Proof. exact valid_finite. Qed.
Print Assumptions C10_valid_gives_finite_score_partial.

Example C10_partial_witness :
  wf_input d10 /\ fits d10 /\ (i_max_pref d10 < u32_max)%N /\ valid_solution d10 S10 A10 /\
  (N.of_nat (length (i_choosers d10)) * N.of_nat (length (i_slots d10)) < 2 ^ 23)%N /\
  tame pow1 d10 /\ (1 < i_max_pref d10)%N.
Proof.
  split; [exact d10_wf|]. split; [exact d10_fits|]. split; [reflexivity|]. split; [exact d10_valid|].
  split; [reflexivity|]. split; [|reflexivity].
  unfold tame. cbn zeta. repeat split; try reflexivity.
  all: assert (Hx : x = 0%N \/ x = 1%N \/ x = 2%N) by (cbn in H; lia).
  all: destruct Hx as [-> | [-> | ->]]; vm_compute; auto.
Qed.

(** C41: with the true per-slot sums inside u32, the feasibility check decides
    exactly the specification, in both build profiles. *)
Theorem C41_feasibility_check_exact_partial :
  forall (pr : profile) (d : input_data) (S : scheduling),
    fits d -> wf_input d -> length S = n_choices d ->
    (forall c s, scheduled_in S c s -> s < n_slots d) ->
    (forall s, slot_sum ch_min (i_choices d) S s <= u32_max /\ slot_sum ch_max (i_choices d) S s <= u32_max)%N ->
    exists b, sched_is_feasible pr d S = Ok b /\ (b = true <-> valid_scheduling d S).
Proof. exact sched_is_feasible_exact. Qed.
Print Assumptions C41_feasibility_check_exact_partial.
(** A scheduling that is valid and one that is not (the second slot stays empty). *)
Definition d41 : input_data := mkInput (i_choices d10) (i_choosers d10) [mkSlot String.EmptyString; mkSlot String.EmptyString] [] [] [] [0; 2]%N 2 [[]; []] [[]; []].
Example C41_witness :
  fits d41 /\ wf_input d41 /\
  (forall S, S = [Some 0; Some 1] \/ S = [Some 0; Some 0] -> length S = n_choices d41 /\ (forall c s, scheduled_in S c s -> s < n_slots d41) /\
     (forall s, slot_sum ch_min (i_choices d41) S s <= u32_max /\ slot_sum ch_max (i_choices d41) S s <= u32_max)%N) /\
  sched_is_feasible Debug d41 [Some 0; Some 1] = Ok true /\ sched_is_feasible Debug d41 [Some 0; Some 0] = Ok false.
Proof.
  split; [constructor; cbn; unfold u32_max, i32_max; lia|]. split.
  { constructor; cbn; try (intros; contradiction); try discriminate.
    - intros ch [<-|[<-|[]]]; reflexivity.
    - intros ch x [<-|[<-|[]]] [<-|[<-|[]]]; lia.
    - intros c [<-|[<-|[]]]; unfold u32_max; cbn; lia. }
  split; [|split; vm_compute; reflexivity]. intros S HS. split; [destruct HS as [-> | ->]; reflexivity|]. split.
  - intros c s. destruct HS as [-> | ->]; destruct c as [|[|c]]; cbn; try (intros E; injection E as <-; lia); destruct c; discriminate.
  - intros s. destruct HS as [-> | ->]; destruct s as [|[|s]]; cbn; unfold u32_max; lia.
Qed.
