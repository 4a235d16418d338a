(** Specification for C89: powers of preferences as real numbers. *)
From Verif Require Import Base M_Data M_Warn.
From Coq Require Import Floats.SpecFloat Reals.

(** The real number an f64 stands for (0 for infinities and NaN). *)
Definition f64_value (x : f64) : R :=
  match x with
  | S754_finite s m e => ((if s then -1 else 1) * IZR (Zpos m) * powerRZ 2 e)%R
  | _ => 0%R
  end.
(** [pow] computes [n ^ x] for the positive integers up to 2^32 with a relative error of
    at most 2^-52 (the accuracy of the usual C libraries), and returns infinity only if
    the power is huge. *)
Definition accurate_power (pow : f64 -> f64) (x : R) : Prop :=
  forall n : N, (1 <= n <= 2 ^ 32)%N ->
    (exists m e, pow (f64_of_N n) = S754_finite false m e /\ SpecFloat.bounded prec64 emax64 m e = true /\
       (Rabs (f64_value (pow (f64_of_N n)) - Rpower (IZR (Z.of_N n)) x) <= Rpower (IZR (Z.of_N n)) x * powerRZ 2 (-52))%R) \/
    (pow (f64_of_N n) = S754_infinity false /\ (powerRZ 2 1000 <= Rpower (IZR (Z.of_N n)) x)%R).
(** [pow] returns a double next to the power: no other positive double is closer. *)
Definition rounded_power (pow : f64 -> f64) (x : R) : Prop :=
  forall n : N, (1 <= n <= 2 ^ 32)%N ->
    ((Rpower (IZR (Z.of_N n)) x < powerRZ 2 1024)%R /\
     exists m e, pow (f64_of_N n) = S754_finite false m e /\ SpecFloat.bounded prec64 emax64 m e = true /\
       forall m' e', SpecFloat.bounded prec64 emax64 m' e' = true ->
         (Rabs (f64_value (pow (f64_of_N n)) - Rpower (IZR (Z.of_N n)) x) <= Rabs (f64_value (S754_finite false m' e') - Rpower (IZR (Z.of_N n)) x))%R) \/
    (pow (f64_of_N n) = S754_infinity false /\ (powerRZ 2 1000 <= Rpower (IZR (Z.of_N n)) x)%R).
(** An exponent of at least one with correctly rounded powers, or exponent one, where the
    power is the number itself, or an exponent of at least 1.01 with accurate powers. *)
Definition growing (pow : f64 -> f64) (x : R) : Prop :=
  ((1 <= x)%R /\ rounded_power pow x) \/
  (x = 1%R /\ forall n : N, (1 <= n <= 2 ^ 32)%N -> pow (f64_of_N n) = f64_of_N n) \/ ((101 / 100 <= x)%R /\ accurate_power pow x).
