(** Specification for C10: when the powers taken by the score stay in range. *)
From Verif Require Import Base M_Data M_Scoring.
From Coq Require Import Floats.SpecFloat.

(** The powers of the preferences 0, 1, .., [i_max_pref] are (proper)
    non-negative numbers, none exceeds the power of the largest preference (1 if
    there is no preference above 0), and that one is positive and below 2^100.
    This is the case for every exponent >= 0 unless [i_max_pref ^ exponent]
    reaches 2^100; it is false for negative exponents, where [0 ^ exponent] is
    infinite. *)
Definition tame (pow : f32 -> f32) (d : input_data) : Prop :=
  let largest := if (i_max_pref d =? 0)%N then f32_of_N 1 else pow (f32_of_N (i_max_pref d)) in
  valid_binary prec32 emax32 largest = true /\
  SFltb f32_zero largest = true /\ SFltb largest (f32_of_N (2 ^ 100)) = true /\
  forall x, (x <= i_max_pref d)%N ->
    valid_binary prec32 emax32 (pow (f32_of_N x)) = true /\
    (pow (f32_of_N x) = S754_zero false \/ SFltb f32_zero (pow (f32_of_N x)) = true) /\
    SFleb (pow (f32_of_N x)) largest = true.
