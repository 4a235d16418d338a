(** Specification for C79, second half: the same input with its choices and
    constraints listed in another order. *)
From Verif Require Import Base M_Data Spec M_Scoring M_Build Spec_Input Spec_Order.
From Coq Require Import Permutation.

(** The same input with its choices and its constraints listed in another order:
    the [i]-th choice is now the [f i]-th, and so is every chooser's preference
    for it. *)
Record choices_relisted (f : nat -> nat) (r r' : reader) : Prop := {
  cl_slots : r_slots r' = r_slots r;
  cl_choices : placed f (r_choices r) (r_choices r');
  cl_choosers : Forall2 (fun c c' => cs_name c' = cs_name c /\ placed f (cs_prefs c) (cs_prefs c'))
                        (r_choosers r) (r_choosers r');
  cl_exprs : Permutation (r_exprs r) (r_exprs r')
}.

(** Where the processed choices go: part [k] of the [i]-th declared choice becomes
    part [k] of the [f i]-th. *)
Definition parts_move (f g : nat -> nat) (r r' : reader) : Prop :=
  forall i k c, is_part (r_choices r) i k c -> is_part (r_choices r') (f i) k (g c).

(** The same input listed in another order altogether: first the choices and
    the constraints, then the choosers and (without multi-part choices) the slots. *)
Definition listed_anew (r r' : reader) : Prop :=
  exists f m, choices_relisted f r m /\
    Permutation (r_choosers m) (r_choosers r') /\
    (r_slots r' = r_slots m \/ (Permutation (r_slots m) (r_slots r') /\ single_parts r)) /\
    r_choices r' = r_choices m /\ r_exprs r' = r_exprs m.
