(** Specification for C97: exact hand-over of numbers. *)
From Verif Require Import Base M_Data M_Flow M_Warn Spec_Warn M_Handover.
From Coq Require Import Floats.SpecFloat Reals.

(** A double-precision number: 53 bits, exponents of the standard range. *)
Definition genuine (x : f64) : Prop :=
  match x with S754_finite _ m e => SpecFloat.bounded prec64 emax64 m e = true | _ => True end.
(** The library reads [y] where the solver means the integer [z]. *)
Definition arrives (y : f64) (z : Z) : Prop := (exists s, y = S754_zero s /\ z = 0%Z) \/ (exists s m e, y = S754_finite s m e) /\ f64_value y = IZR z.
(** The cost has been cut off at the largest 64-bit integer. *)
Definition cut_off (e : edge) : Prop := e_cost e = (2 ^ 63 - 1)%Z.

(** The objective as the library sees it, at the point [x]: factors times values. *)
Fixpoint library_objective (es : list edge) (x : list Z) : R :=
  match es, x with
  | e :: es, v :: x => (f64_value (lp_factor (e_cost e)) * IZR v + library_objective es x)%R
  | _, _ => 0%R
  end.
(** The total cost meant by the solver. *)
Fixpoint total_cost (es : list edge) (x : list Z) : Z :=
  match es, x with
  | e :: es, v :: x => (e_cost e * v + total_cost es x)%Z
  | _, _ => 0%Z
  end.
(** The library's answers [ys] lie within a half of the integers [x]. *)
Definition close_to (ys : list f64) (x : list Z) : Prop :=
  Forall2 (fun y z => (forall s, y <> S754_infinity s) /\ y <> S754_nan /\ (Rabs (f64_value y - IZR z) < / 2)%R) ys x.
