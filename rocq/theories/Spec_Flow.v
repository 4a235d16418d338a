(** Independent specification for the assignment stage. *)
From Verif Require Import Base M_Data Spec.
From Coq Require Import Relation_Operators.

(** Choices tied to one audience: a chain of same-choosers constraints joins them. *)
Definition joined (d : input_data) (a b : nat) : Prop := exists e, In (mkC ChoicesHaveSameChoosers a (TChoice b) e) (i_assign d).
Definition tied (d : input_data) : nat -> nat -> Prop := clos_refl_sym_trans nat (joined d).
(** The processed input lists the classes of that relation (every accepted input
    does, by C16). *)
Record grouped (d : input_data) : Prop := {
  gr_cover : forall c, c < length (i_choices d) -> exists g, In g (i_groups d) /\ In c g;
  gr_class : forall g a b, In g (i_groups d) -> In a g -> b < length (i_choices d) -> (In b g <-> tied d a b);
  gr_range : forall g c, In g (i_groups d) -> In c g -> c < length (i_choices d)
}.

(** The assignments that the assignment stage looks for: one choice per slot, the
    bounds, the assignment constraints, tied choices have one audience (also when
    a choice that links them is not held), all preferences within the limit. *)
Record allowed (d : input_data) (S : scheduling) (limit : N) (A : assignment) : Prop := {
  al_one : one_choice_per_slot d S A;
  al_bounds : bounds_respected d S A;
  al_cons : forall k, In k (i_assign d) -> asg_means S A k;
  al_tied : forall a b, tied d a b -> held S a -> held S b -> forall p, attends A p a <-> attends A p b;
  al_prefs : prefs_within d A limit
}.

(** Sum over all choosers and the choices they attend of the cost of the
    chooser's preference. *)
Definition pref_at (d : input_data) (p c : nat) : N :=
  match nth_error (i_choosers d) p with Some x => nth c (cs_prefs x) 0%N | None => 0%N end.
Definition row_cost (d : input_data) (cost : N -> Z) (p : nat) (row : list nat) : Z :=
  fold_right Z.add 0%Z (map (fun c => cost (pref_at d p c)) row).
Definition assignment_cost (d : input_data) (cost : N -> Z) (A : assignment) : Z :=
  fold_right Z.add 0%Z (map (fun pr => row_cost d cost (fst pr) (snd pr)) (combine (seq 0 (length A)) A)).

(** Two assignments send everyone to the same choices. *)
Definition same_attendance (A B : assignment) : Prop := forall p c, attends A p c <-> attends B p c.

(** Inputs whose flow network can be built without exceeding a machine integer. *)
Record solvable_size (d : input_data) : Prop := {
  sz_nodes : (N.of_nat (length (i_choosers d) * length (i_slots d) + length (i_choices d) + length (i_slots d)) <= u32_max)%N;
  sz_choosers : (Z.of_nat (length (i_choosers d)) <= i32_max)%Z;
  sz_bounds : forall c, In c (i_choices d) -> (ch_min c <= ch_max c)%N /\ (Z.of_N (ch_max c) <= i32_max)%Z
}.
