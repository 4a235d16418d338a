(** Data types of the model: constraints, input data, schedulings, assignments. *)
From Verif Require Import Base.

(** /repo/src/constraint.rs:5-22 [ConstraintType]. *)
Inductive kind :=
| Invalid
| ChoiceIsInSlot
| ChoiceIsNotInSlot
| ChoicesAreInSameSlot
| ChoicesAreNotInSameSlot
| ChoicesHaveOffset
| SlotHasLimitedSize
| SlotContainsChoice
| SlotNotContainsChoice
| SlotsHaveSameChoices
| ChoicesHaveSameChoosers
| ChooserIsInChoice
| ChooserIsNotInChoice
| ChoosersHaveSameChoices
| ChoiceContainsChooser
| ChoiceNotContainsChooser.

(** /repo/src/constraint.rs:1 [CONSTRAINT_TYPE_DISCRIMINATION_LIMIT]. *)
Definition discrimination_limit : N := 65536.

(** /repo/src/constraint.rs:6-21 [kind as usize]. *)
Definition kind_code (k : kind) : N :=
  match k with
  | Invalid => 0
  | ChoiceIsInSlot => 1
  | ChoiceIsNotInSlot => 2
  | ChoicesAreInSameSlot => 3
  | ChoicesAreNotInSameSlot => 4
  | ChoicesHaveOffset => 5
  | SlotHasLimitedSize => 6
  | SlotContainsChoice => 7
  | SlotNotContainsChoice => 8
  | SlotsHaveSameChoices => 9
  | ChoicesHaveSameChoosers => discrimination_limit
  | ChooserIsInChoice => discrimination_limit + 1
  | ChooserIsNotInChoice => discrimination_limit + 2
  | ChoosersHaveSameChoices => discrimination_limit + 3
  | ChoiceContainsChooser => discrimination_limit + 4
  | ChoiceNotContainsChooser => discrimination_limit + 5
  end.

(** Derived [PartialEq] on [ConstraintType], constraint.rs:3. *)
Definition kind_eqb (a b : kind) : bool := (kind_code a =? kind_code b)%N.

(** /repo/src/constraint.rs:26-33 [SlotSizeLimitOp], with its [repr(i32)] value
    (the derived [Ord] follows the discriminant). *)
Inductive limit_op := OpEq | OpGt | OpGeq | OpNeq | OpLeq | OpLt.

(** /repo/src/constraint.rs:25-33: the discriminants. *)
Definition op_code (o : limit_op) : Z :=
  match o with OpEq => 1 | OpGt => 2 | OpGeq => 3 | OpNeq => -1 | OpLeq => -2 | OpLt => -3 end.

(** /repo/src/constraint.rs:50-56 [ConstraintTarget]. *)
Inductive target :=
| TNone
| TSlot (s : nat)
| TChoice (c : nat)
| TChooser (p : nat)
| TLimit (n : N).

(** /repo/src/constraint.rs:59-63 [ConstraintExtra]. *)
Inductive extra :=
| ENone
| EOffset (z : Z)
| EOp (o : limit_op).

(** /repo/src/constraint.rs:66-71 [Constraint]. *)
Record constraint := mkC { c_kind : kind; c_left : nat; c_right : target; c_extra : extra }.

(** /repo/src/constraint.rs:125-133. *)
Definition is_scheduling_constraint (c : constraint) : bool :=
  (kind_code (c_kind c) <? discrimination_limit)%N && negb (kind_eqb (c_kind c) Invalid).
(** /repo/src/constraint.rs:130-133 [is_assignment_constraint]. *)
Definition is_assignment_constraint (c : constraint) : bool :=
  (discrimination_limit <=? kind_code (c_kind c))%N && negb (kind_eqb (c_kind c) Invalid).

(** /repo/src/constraint.rs:136-181: the payload accessors, which panic on the
    wrong shape. *)
Definition con_slot (c : constraint) : outcome nat :=
  match c_right c with TSlot s => Ok s | _ => Panic end.
(** /repo/src/constraint.rs:143-149 [other_choice]. *)
Definition con_other_choice (c : constraint) : outcome nat :=
  match c_right c with TChoice x => Ok x | _ => Panic end.
(** /repo/src/constraint.rs:151-157 [other_chooser]. *)
Definition con_other_chooser (c : constraint) : outcome nat :=
  match c_right c with TChooser x => Ok x | _ => Panic end.
(** /repo/src/constraint.rs:159-165 [limit]. *)
Definition con_limit (c : constraint) : outcome N :=
  match c_right c with TLimit n => Ok n | _ => Panic end.
(** /repo/src/constraint.rs:167-173 [offset]. *)
Definition con_offset (c : constraint) : outcome Z :=
  match c_extra c with EOffset z => Ok z | _ => Panic end.
(** /repo/src/constraint.rs:175-181 [slot_size_limit_op]. *)
Definition con_op (c : constraint) : outcome limit_op :=
  match c_extra c with EOp o => Ok o | _ => Panic end.

(** /repo/src/choice_data.rs:3-9 [ChoiceData]. *)
Record choice_data := mkChoice {
  ch_name : string;
  ch_min : N;
  ch_max : N;
  ch_cont : option nat;
  ch_optional : bool
}.

(** /repo/src/chooser_data.rs:3-6 [ChooserData]. *)
Record chooser_data := mkChooser { cs_name : string; cs_prefs : list N }.

(** /repo/src/slot_data.rs:3-5 [SlotData]. *)
Record slot_data := mkSlot { sl_name : string }.

(** /repo/src/input_data.rs:7-28 [InputData].  The two lookup [BTreeMap]s have
    exactly the keys [0..len] after [build_constraint_maps]
    (input_builder.rs:284-294), so they are lists indexed by choice / chooser. *)
Record input_data := mkInput {
  i_choices : list choice_data;
  i_choosers : list chooser_data;
  i_slots : list slot_data;
  i_sched : list constraint;
  i_assign : list constraint;
  i_groups : list (list nat);
  i_levels : list N;
  i_max_pref : N;
  i_choice_map : list (list constraint);
  i_chooser_map : list (list constraint)
}.

(** [input_data.choices.len()], /repo/src/input_data.rs:9. *)
Definition n_choices (d : input_data) : nat := length (i_choices d).
(** [input_data.choosers.len()], /repo/src/input_data.rs:11. *)
Definition n_choosers (d : input_data) : nat := length (i_choosers d).
(** [input_data.slots.len()], /repo/src/input_data.rs:13. *)
Definition n_slots (d : input_data) : nat := length (i_slots d).

(** /repo/src/scheduling.rs:6 [Scheduling(Vec<Option<usize>>)]. *)
Definition scheduling := list (option nat).

(** /repo/src/assignment.rs:5 [Assignment(Vec<Vec<usize>>)]. *)
Definition assignment := list (list nat).

(** /repo/src/solution.rs:5-17 [Solution]. *)
Inductive solution :=
| SolInvalid
| SolScheduling (s : scheduling)
| SolComplete (s : scheduling) (a : assignment).

(** /repo/src/solution.rs:42-44 [is_invalid]. *)
Definition is_invalid (s : solution) : bool :=
  match s with SolComplete _ _ => false | _ => true end.

(** /repo/src/options.rs:6-44 [Options]: the fields the modelled solver code
    reads.  [preference_exponent] is not a field here: it only enters through
    [f32::powf] (M_Scoring) and [f64::powf] (M_Flow), which are function
    parameters there.  Timeouts are replaced by clock oracles; file names and
    thread count are arguments of the functions that use them. *)
Record options := mkOptions {
  o_greedy : bool;
  o_any : bool;
  o_max_neighbors : nat;
  o_no_critical_sets : bool;
  o_no_simplification : bool
}.
