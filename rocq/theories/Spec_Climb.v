(** Specification vocabulary for the local search. *)
From Verif Require Import Base M_Data Spec.
From Coq Require Import Permutation.

(** [S'] differs from [S] in the slot of exactly one choice, whose new value is a
    slot of the input or "not scheduled". *)
Definition one_move (d : input_data) (S S' : scheduling) : Prop :=
  length S' = length S /\
  exists c, c < length (i_choices d) /\ nth_error S' c <> nth_error S c /\
    (forall s, scheduled_in S' c s -> s < length (i_slots d)) /\
    forall c', c' <> c -> nth_error S' c' = nth_error S c'.

(** [S'] arises from [S] by handing the slots of the choices [cycle] on to the
    next choice in the cycle (the last one's to the first). *)
Definition rotated (cycle : list nat) (S S' : scheduling) : Prop :=
  length S' = length S /\
  (forall c, ~ In c cycle -> nth_error S' c = nth_error S c) /\
  (forall a b, nth_error cycle 0 = Some a -> nth_error cycle (length cycle - 1) = Some b -> nth_error S' a = nth_error S b) /\
  (forall k a b, nth_error cycle k = Some a -> nth_error cycle (Datatypes.S k) = Some b -> nth_error S' b = nth_error S a).
