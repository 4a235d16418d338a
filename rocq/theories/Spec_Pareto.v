(** Specification for C88: one assignment improves on another for the same
    scheduling. *)
From Verif Require Import Base M_Data Spec Spec_Flow.

(** In the scheduling [S], in every slot every chooser's choice under [B] is one the
    chooser likes at least as much as the one under [A] (a lower preference number
    is better) ... *)
Definition nobody_worse (d : input_data) (S : scheduling) (A B : assignment) : Prop :=
  forall p s c c' v v', attends A p c -> scheduled_in S c s -> attends B p c' -> scheduled_in S c' s ->
    pref_of d p c v -> pref_of d p c' v' -> (v' <= v)%N.
(** ... and some chooser's choice in some slot is one that the chooser likes better. *)
Definition somebody_better (d : input_data) (S : scheduling) (A B : assignment) : Prop :=
  exists p s c c' v v', attends A p c /\ scheduled_in S c s /\ attends B p c' /\ scheduled_in S c' s /\
    pref_of d p c v /\ pref_of d p c' v' /\ (v' < v)%N.
Definition improves (d : input_data) (S : scheduling) (A B : assignment) : Prop := nobody_worse d S A B /\ somebody_better d S A B.

(** Choices tied by chains of same-choosers constraints have one audience (also when
    a choice that links them is not held). *)
Definition tied_together (d : input_data) (S : scheduling) (A : assignment) : Prop :=
  forall a b, tied d a b -> held S a -> held S b -> forall p, attends A p a <-> attends A p b.

(** Among the preferences that occur, a worse one costs more. *)
Definition worse_costs_more (d : input_data) (cost : N -> Z) : Prop :=
  forall p c v p' c' v', pref_of d p c v -> pref_of d p' c' v' -> (v < v')%N -> (cost v < cost v')%Z.
