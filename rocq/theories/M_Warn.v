(** Edge costs and the overflow warning: double-precision arithmetic of
    /repo/src/assignment_solver.rs and /repo/src/main.rs. *)
From Verif Require Import Base M_Data.
From Coq Require Import Floats.SpecFloat.

(** [f64], used at /repo/src/main.rs:70-73 and /repo/src/assignment_solver.rs:399-401.  The
    arithmetic of Coq's [SpecFloat]: IEEE 754, round to nearest even. *)
Definition f64 := spec_float.
(** Precision of [f64] (/repo/src/main.rs:71): 53 bits. *)
Definition prec64 : Z := 53.
(** Exponent range of [f64] (/repo/src/main.rs:71). *)
Definition emax64 : Z := 1024.
(** The [f64] next to an integer; [f64::from] of a [u32] (/repo/src/main.rs:71-72,
    /repo/src/assignment_solver.rs:399) is exact. *)
Definition f64_of_Z (z : Z) : f64 := binary_normalize prec64 emax64 z 0 false.
(** [f64::from], /repo/src/main.rs:71-72. *)
Definition f64_of_N (n : N) : f64 := f64_of_Z (Z.of_N n).
(** [x as i64] at /repo/src/assignment_solver.rs:401: toward zero, saturating, 0 for NaN. *)
Definition f64_to_i64 (x : f64) : Z :=
  match x with
  | S754_zero _ | S754_nan => 0
  | S754_infinity s => if s then - 2 ^ 63 else 2 ^ 63 - 1
  | S754_finite s m e =>
      let n := if (0 <=? e)%Z then Zpos m * 2 ^ e else Zpos m / 2 ^ (- e) in
      Z.max (- 2 ^ 63) (Z.min (if s then - n else n) (2 ^ 63 - 1))
  end%Z.
(** /repo/src/assignment_solver.rs:399-401: the cost of an edge for a preference; [pow] is
    [powf] with the preference exponent in effect. *)
Definition edge_cost (pow : f64 -> f64) (pref : N) : Z := f64_to_i64 (pow (SFadd prec64 emax64 (f64_of_N pref) (f64_of_Z 1))).
(** /repo/src/main.rs:70-73: the condition of the overflow warning. *)
Definition warns (pow : f64 -> f64) (d : input_data) : bool :=
  let chooser_count := N.min (N.of_nat (length (i_choosers d))) u32_max in
  SFleb (SFsub prec64 emax64 (f64_of_Z (2 ^ 63)) (f64_of_Z 1))
        (SFmul prec64 emax64 (pow (f64_of_N (i_max_pref d))) (f64_of_N chooser_count)).
