(** C66: what the score says about the cost of a solution.  [evaluate] is
    Scoring::evaluate; [valid_solution], [worst_pref] are in Spec.v, [tame] in
    Spec_Score.v and [relative_cost], [rounding], [seats] in Spec_Cost.v. *)
From Verif Require Import Base M_Data M_Scoring Spec Spec_Score P_Minor Spec_Cost P_Check P_Cost.
From Coq Require Import Floats.SpecFloat Reals Lra.

(** The secondary part of the score of a valid solution is its relative cost,
    the sum over all seats of preference ^ exponent divided by (largest
    preference ^ exponent), up to rounding. *)
Theorem C66_score_is_cost :
  forall (pr : profile) (pow : f32 -> f32) (g : bool) (d : input_data) (S : scheduling) (A : assignment) (sc : score),
    fits d -> wf_input d -> (i_max_pref d < u32_max)%N -> valid_solution d S A ->
    (N.of_nat (length (i_choosers d)) * N.of_nat (length (i_slots d)) <= 2 ^ 22)%N -> tame pow d ->
    evaluate pr pow g d (SolComplete S A) = Ok sc ->
    is_fin (sc_minor sc) = true /\
    (Rabs (f32_value (sc_minor sc) - relative_cost pow d A) <= rounding d (relative_cost pow d A))%R.
Proof.
  intros pr pow g d S A sc HF HW HM V HN HT HE. split; [|exact (score_cost pr pow g d S A sc HF HW HM V HN HT HE)].
  destruct (score_parts pr pow g d S A sc HF HW HM V HN HT HE) as [H _]. apply andb_prop in H. apply H.
Qed.
Print Assumptions C66_score_is_cost.

(** Of two valid solutions with the same worst preference (or in greedy mode,
    whatever their worst preferences), the one that is cheaper by more than the
    rounding gets the better score. *)
Theorem C66_cheaper_scores_better :
  forall (pr : profile) (pow : f32 -> f32) (g : bool) (d : input_data)
         (S1 S2 : scheduling) (A1 A2 : assignment) (sc1 sc2 : score) (x1 x2 : N),
    fits d -> wf_input d -> (i_max_pref d < u32_max)%N ->
    valid_solution d S1 A1 -> valid_solution d S2 A2 ->
    (N.of_nat (length (i_choosers d)) * N.of_nat (length (i_slots d)) <= 2 ^ 22)%N -> tame pow d ->
    evaluate pr pow g d (SolComplete S1 A1) = Ok sc1 -> evaluate pr pow g d (SolComplete S2 A2) = Ok sc2 ->
    worst_pref d A1 x1 -> worst_pref d A2 x2 -> g = true \/ x1 = x2 ->
    (relative_cost pow d A1 + rounding d (relative_cost pow d A1) + rounding d (relative_cost pow d A2)
       < relative_cost pow d A2)%R ->
    score_cmp sc1 sc2 = Lt.
Proof.
  exact (fun pr pow g d S1 S2 A1 A2 sc1 sc2 x1 x2 HF HW HM V1 V2 HN HT => cheaper_wins pr pow g d S1 A1 S2 A2 sc1 sc2 x1 x2 HF HW HM V1 V2 HN HT).
Qed.
Print Assumptions C66_cheaper_scores_better.

(** Three choosers, two choices in one slot, each prefers the first choice; one
    or two of them get the second one (exponent 1). *)
Definition d66 : input_data := mkInput
  [mkChoice String.EmptyString 1 3 None false; mkChoice String.EmptyString 1 3 None false]
  [mkChooser String.EmptyString [0; 2]%N; mkChooser String.EmptyString [0; 2]%N; mkChooser String.EmptyString [1; 2]%N]
  [mkSlot String.EmptyString] [] [] [] [0; 1; 2]%N 2 [[]; []] [[]; []].
Definition S66 : scheduling := [Some 0; Some 0].
Definition A66 : assignment := [[0]; [1]; [0]].
Definition B66 : assignment := [[0]; [1]; [1]].

Lemma of_small : f32_value (f32_of_N 0) = 0%R /\ f32_value (f32_of_N 1) = 1%R /\ f32_value (f32_of_N 2) = 2%R.
Proof.
  repeat split.
  - destruct (of_N_exact 1 eq_refl) as (b & <- & V). rewrite B_val, V. reflexivity.
  - destruct (of_N_exact 2 eq_refl) as (b & <- & V). rewrite B_val, V. reflexivity.
Qed.

Lemma cost_A66 : relative_cost P_Minor.pow1 d66 A66 = (3 / 2)%R /\ relative_cost P_Minor.pow1 d66 B66 = 2%R.
Proof.
  unfold relative_cost. change (i_max_pref d66) with 2%N. cbn [N.eqb Pos.eqb]. unfold A66, B66. cbn [rows_cost map fold_right]. unfold P_Minor.pow1.
  change (preference d66 0 0) with 0%N. change (preference d66 1 1) with 2%N. change (preference d66 2 0) with 1%N. change (preference d66 2 1) with 2%N.
  destruct of_small as (-> & -> & ->). split; lra.
Qed.

Example C66_witness :
  fits d66 /\ wf_input d66 /\ (i_max_pref d66 < u32_max)%N /\ valid_solution d66 S66 A66 /\ valid_solution d66 S66 B66 /\
  (N.of_nat (length (i_choosers d66)) * N.of_nat (length (i_slots d66)) <= 2 ^ 22)%N /\ tame P_Minor.pow1 d66 /\
  worst_pref d66 A66 2 /\ worst_pref d66 B66 2 /\
  relative_cost P_Minor.pow1 d66 A66 = (3 / 2)%R /\
  (relative_cost P_Minor.pow1 d66 A66 + rounding d66 (relative_cost P_Minor.pow1 d66 A66) + rounding d66 (relative_cost P_Minor.pow1 d66 B66)
     < relative_cost P_Minor.pow1 d66 B66)%R.
Proof.
  assert (HF : fits d66) by (apply fits_b_ok; vm_compute; reflexivity).
  assert (HW : wf_input d66) by (apply wf_input_b_ok; vm_compute; reflexivity).
  split; auto. split; auto. split; [reflexivity|].
  split; [apply check_solution_ok; auto; vm_compute; reflexivity|]. split; [apply check_solution_ok; auto; vm_compute; reflexivity|].
  split; [vm_compute; discriminate|]. split.
  { unfold tame. cbn zeta. repeat split; try reflexivity.
    all: assert (Hx : x = 0%N \/ x = 1%N \/ x = 2%N) by (cbn in H; lia).
    all: destruct Hx as [-> | [-> | ->]]; vm_compute; auto. }
  assert (W : forall A, (A = A66 \/ A = B66) -> worst_pref d66 A 2).
  { intros A HA. split.
    - intros p c y Hp _ (ch & H1 & H2). apply nth_error_In in H1. apply nth_error_In in H2. apply (wf_max _ HW ch y H1 H2).
    - right. exists 1, 1. split; [cbn; lia|]. split.
      + exists [1]. destruct HA as [-> | ->]; (split; [reflexivity|left; reflexivity]).
      + exists (mkChooser String.EmptyString [0; 2]%N). split; reflexivity. }
  split; [auto|]. split; [auto|]. destruct cost_A66 as [-> ->]. split; [reflexivity|].
  unfold rounding, seats. cbn [d66 i_choosers i_slots length INR].
  change (powerRZ 2 (-23)) with (/ (2 ^ 23))%R. change (powerRZ 2 (-149)) with (/ (2 ^ 149))%R.
  assert (/ (2 ^ 149) <= / (2 ^ 23))%R by (apply Rinv_le_contravar; [apply pow_lt; lra|apply Rle_pow; [lra|lia]]).
  lra.
Qed.

(** C10 with the default options ([--pref-exp 3]): no power can overflow, so a
    valid solution of any input gets a finite score. *)
Theorem C10_default_exponent_partial :
  forall (pr : profile) (pow : f32 -> f32) (g : bool) (d : input_data) (S : scheduling) (A : assignment),
    fits d -> wf_input d -> (i_max_pref d < u32_max)%N -> valid_solution d S A ->
    (N.of_nat (length (i_choosers d)) * N.of_nat (length (i_slots d)) < 2 ^ 23)%N -> cubes pow d ->
    exists sc, evaluate pr pow g d (SolComplete S A) = Ok sc /\ score_finite sc = true /\ is_nan (sc_major sc) = g.
Proof.
  intros pr pow g d S A HF HW HM V HN HC. exact (P_Finite.valid_finite pr pow g d S A HF HW HM V HN (cubes_tame pow d HM HC)).
Qed.
Print Assumptions C10_default_exponent_partial.
Definition cube66 (x : f32) : f32 := f32_mul (f32_mul x x) x.
Example C10_default_witness : fits d66 /\ wf_input d66 /\ (i_max_pref d66 < u32_max)%N /\ valid_solution d66 S66 A66 /\
  (N.of_nat (length (i_choosers d66)) * N.of_nat (length (i_slots d66)) < 2 ^ 23)%N /\ cubes cube66 d66.
Proof.
  destruct C66_witness as (HF & HW & HM & V & _). do 4 (split; [assumption|]). split; [reflexivity|].
  assert (E0 : cube66 (f32_of_N 0) = S754_zero false) by (vm_compute; reflexivity).
  assert (E1 : cube66 (f32_of_N 1) = S754_finite false 8388608 (-23)) by (vm_compute; reflexivity).
  assert (E2 : cube66 (f32_of_N 2) = S754_finite false 8388608 (-20)) by (vm_compute; reflexivity).
  assert (V0 : f32_value (cube66 (f32_of_N 0)) = 0%R) by (rewrite E0; reflexivity).
  assert (V1 : f32_value (cube66 (f32_of_N 1)) = 1%R) by (rewrite E1; cbn [f32_value]; change (powerRZ 2 (-23)) with (/ 2 ^ 23)%R; rewrite (pow_IZR 2 23); change (2 ^ Z.of_nat 23)%Z with 8388608%Z; lra).
  assert (V2 : f32_value (cube66 (f32_of_N 2)) = 8%R) by (rewrite E2; cbn [f32_value]; change (powerRZ 2 (-20)) with (/ 2 ^ 20)%R; rewrite (pow_IZR 2 20); change (2 ^ Z.of_nat 20)%Z with 1048576%Z; lra).
  intros x Hx. change (i_max_pref d66) with 2%N in Hx.
  assert (C : x = 0%N \/ x = 1%N \/ x = 2%N) by lia.
  assert (D : forall y, (y <= x)%N -> y = 0%N \/ (y = 1%N /\ (1 <= x)%N) \/ (y = 2%N /\ x = 2%N)) by (intros; lia).
  destruct C as [-> | [-> | ->]]; (split; [first [rewrite E0; left; reflexivity | right; first [rewrite E1 | rewrite E2]; do 2 eexists; reflexivity]|]);
    (split; [vm_compute; reflexivity|]); (split; [first [rewrite V0 | rewrite V1 | rewrite V2]; cbn; lra|]);
    intros y Hy; destruct (D y Hy) as [-> | [[-> H] | [-> H]]]; rewrite ?V0, ?V1, ?V2; try lra; try lia; try discriminate.
Qed.
