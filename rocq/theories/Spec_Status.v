(** Specification for C68 and C69: numbers as text. *)
From Verif Require Import Base M_Data Spec_Cost.
From Coq Require Import String Ascii Reals.
Open Scope string_scope.

(** The number that a string of decimal digits denotes ([acc]: the digits before it). *)
Fixpoint digits (acc : Z) (s : string) : option Z :=
  match s with
  | EmptyString => Some acc
  | String c t =>
      let v := (Z.of_N (N_of_ascii c) - 48)%Z in
      if ((0 <=? v) && (v <=? 9))%Z then digits (acc * 10 + v) t else None
  end.
Definition number (s : string) : option Z := match s with EmptyString => None | _ => digits 0 s end.

(** [t] is a decimal number with [k] digits after the point, and differs from [v]
    by at most half a unit of its last digit. *)
Definition shows (t : string) (k : nat) (v : R) : Prop :=
  exists (sign : string) (int frac : string) (a b : Z),
    (sign = "" \/ sign = "-") /\ t = (sign ++ int ++ "." ++ frac)%string /\
    number int = Some a /\ digits 0 frac = Some b /\ String.length frac = k /\
    (Rabs ((if String.eqb sign "-" then -1 else 1) * (IZR a + IZR b / 10 ^ k) - v) <= / 2 / 10 ^ k)%R.

(** What is shown on the bar, oldest first. *)
From Verif Require Import M_Climb M_Threads M_Status.
Definition positions (calls : list bar_call) : list N := flat_map (fun c => match c with SetPosition n => [n] | _ => [] end) calls.
Definition messages (calls : list bar_call) : list string := flat_map (fun c => match c with SetMessage t => [t] | _ => [] end) calls.
(** Everything that arrived in a series of looks. *)
Definition seen (gs : list glance) : list (nat * event) := flat_map gl_arrived gs.
