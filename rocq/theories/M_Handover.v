(** The numbers that /repo/src/mip_flow.rs hands to the LP library, and the numbers it
    reads back: conversions between integers and f64. *)
From Verif Require Import Base M_Warn.
From Coq Require Import Floats.SpecFloat.

(** /repo/src/mip_flow.rs:138: the factor of an edge's variable in the objective,
    [cost as f64]. *)
Definition lp_factor (cost : Z) : f64 := f64_of_Z cost.
(** /repo/src/mip_flow.rs:128 (the largest value of an edge's variable) and 177 (the
    supply of a node): [f64::from] of an [i32]; the code negates the latter. *)
Definition lp_number (z : Z) : f64 := f64_of_Z z.
(** /repo/src/mip_flow.rs:188 [x.round() as i32]: to the nearest integer, halves away
    from zero; then saturating, 0 for NaN. *)
Definition lp_answer (x : f64) : Z :=
  match x with
  | S754_zero _ | S754_nan => 0
  | S754_infinity s => if s then i32_min else i32_max
  | S754_finite s m e =>
      let n := if (0 <=? e)%Z then Zpos m * 2 ^ e else (2 * Zpos m + 2 ^ (- e)) / (2 * 2 ^ (- e)) in
      Z.max i32_min (Z.min (if s then - n else n) i32_max)
  end%Z.
