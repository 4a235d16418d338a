(** Specification for C79: the same input with its slots and choosers listed in
    another order. *)
From Verif Require Import Base M_Data M_Scoring Spec M_Build.
From Coq Require Import Permutation.

(** [l'] is [l] in another order: the [i]-th element of [l] is the [f i]-th of [l']. *)
Definition placed {X} (f : nat -> nat) (l l' : list X) : Prop :=
  length l' = length l /\ (forall i j, f i = f j -> i = j) /\ forall i, nth_error l' (f i) = nth_error l i.

(** The same input with its slots and choosers listed in another order. *)
Record relisted (fs fc : nat -> nat) (r r' : reader) : Prop := {
  rl_slots : placed fs (r_slots r) (r_slots r');
  rl_no_slots : r_slots r = [] -> forall s, fs s = s;  (* then there is one generated slot *)
  rl_choosers : placed fc (r_choosers r) (r_choosers r');
  rl_choices : r_choices r' = r_choices r;
  rl_exprs : r_exprs r' = r_exprs r
}.

(** No choice of several parts (such a choice occupies consecutive slots, so for
    it the order of the slots is part of the input). *)
Definition single_parts (r : reader) : Prop := forall p, In p (r_choices r) -> (p_parts p <= 1)%N.

(** The same scheduling: choice [c] is held in slot [fs s] instead of [s]. *)
Definition same_schedule (fs : nat -> nat) (S S' : scheduling) : Prop :=
  length S' = length S /\
  (forall c s, scheduled_in S c s -> scheduled_in S' c (fs s)) /\ (forall c, not_held S c -> not_held S' c).

(** The same assignment: the row of chooser [p] is now the row of chooser [fc p],
    with the same choices. *)
Definition same_assignment (fc : nat -> nat) (A A' : assignment) : Prop :=
  length A' = length A /\
  forall p row, nth_error A p = Some row -> exists row', nth_error A' (fc p) = Some row' /\ Permutation row row'.

(** A score that some valid solution of the input reaches. *)
Definition reaches (pr : profile) (pow : f32 -> f32) (g : bool) (r : reader) (v : score) : Prop :=
  exists d S A, build_input pr r = Ok d /\ valid_solution d S A /\ evaluate pr pow g d (SolComplete S A) = Ok v.
