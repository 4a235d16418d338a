(** Specification for C66: the mathematical (real-number) cost of an assignment. *)
From Verif Require Import Base M_Data M_Scoring.
From Coq Require Import Floats.SpecFloat Reals.

(** The real number an f32 stands for (0 for infinities and NaN). *)
Definition f32_value (x : f32) : R :=
  match x with
  | S754_finite s m e => ((if s then -1 else 1) * IZR (Zpos m) * powerRZ 2 e)%R
  | _ => 0%R
  end.

(** The preference value chooser number [p] gave to choice [c]. *)
Definition preference (d : input_data) (p c : nat) : N :=
  match nth_error (i_choosers d) p with
  | Some ch => nth c (cs_prefs ch) 0%N
  | None => 0%N
  end.

(** Sum over the seats of the rows [rows], the first of which is that of chooser
    [p], of (preference ^ exponent); [pow x] is [x ^ exponent]. *)
Fixpoint rows_cost (pow : f32 -> f32) (d : input_data) (p : nat) (rows : list (list nat)) : R :=
  match rows with
  | [] => 0%R
  | row :: rest =>
      (fold_right Rplus 0 (map (fun c => f32_value (pow (f32_of_N (preference d p c)))) row)
       + rows_cost pow d (S p) rest)%R
  end.

(** The sum over all seats of preference ^ exponent, relative to
    (largest preference ^ exponent), or to 1 if no preference exceeds 0. *)
Definition relative_cost (pow : f32 -> f32) (d : input_data) (A : assignment) : R :=
  (rows_cost pow d 0 A /
   (if (i_max_pref d =? 0)%N then 1 else f32_value (pow (f32_of_N (i_max_pref d)))))%R.

(** The number of seats: choosers times slots. *)
Definition seats (d : input_data) : R :=
  (INR (length (i_choosers d)) * INR (length (i_slots d)))%R.

(** How far single-precision rounding may move a score: a relative error of
    (seats + 2) / 2^23 and an absolute one of seats / 2^149. *)
Definition rounding (d : input_data) (cost : R) : R :=
  (cost * (seats d + 2) * powerRZ 2 (-23) + seats d * powerRZ 2 (-149))%R.

(** [pow] is a reasonable [x ^ 3] (the default exponent) on the preferences of
    [d]: a non-negative finite f32, at most twice and at least half the true
    cube, and larger for larger preferences. *)
Definition cubes (pow : f32 -> f32) (d : input_data) : Prop :=
  forall x, (x <= i_max_pref d)%N ->
    (pow (f32_of_N x) = S754_zero false \/ exists m e, pow (f32_of_N x) = S754_finite false m e) /\
    valid_binary prec32 emax32 (pow (f32_of_N x)) = true /\
    (IZR (Z.of_N x) ^ 3 / 2 <= f32_value (pow (f32_of_N x)) <= 2 * IZR (Z.of_N x) ^ 3)%R /\
    forall y, (y <= x)%N -> (f32_value (pow (f32_of_N y)) <= f32_value (pow (f32_of_N x)))%R.
