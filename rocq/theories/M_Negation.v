(** Negated constraints: /repo/src/constraint.rs (not used by the program itself). *)
From Verif Require Import Base M_Data.

(** /repo/src/constraint.rs:37-46 [SlotSizeLimitOp::negation]. *)
Definition op_negation (o : limit_op) : limit_op :=
  match o with OpEq => OpNeq | OpNeq => OpEq | OpGt => OpLeq | OpGeq => OpLt | OpLeq => OpGt | OpLt => OpGeq end.

(** The kind replaced, everything else kept. *)
(** /repo/src/constraint.rs:88-118 [neg.kind = ...]. *)
Definition with_kind (c : constraint) (k : kind) : constraint := mkC k (c_left c) (c_right c) (c_extra c).

(** /repo/src/constraint.rs:88-118 [Constraint::negation]; panics for a limit without an
    operator. *)
Definition negation (c : constraint) : outcome constraint :=
  match c_kind c with
  | ChoiceIsInSlot => Ok (with_kind c ChoiceIsNotInSlot)
  | ChoiceIsNotInSlot => Ok (with_kind c ChoiceIsInSlot)
  | ChoicesAreInSameSlot => Ok (with_kind c ChoicesAreNotInSameSlot)
  | ChoicesAreNotInSameSlot => Ok (with_kind c ChoicesAreInSameSlot)
  | SlotHasLimitedSize => let* o := con_op c in Ok (mkC SlotHasLimitedSize (c_left c) (c_right c) (EOp (op_negation o)))
  | SlotContainsChoice => Ok (with_kind c SlotNotContainsChoice)
  | SlotNotContainsChoice => Ok (with_kind c SlotContainsChoice)
  | ChooserIsInChoice => Ok (with_kind c ChooserIsNotInChoice)
  | ChooserIsNotInChoice => Ok (with_kind c ChooserIsInChoice)
  | ChoiceContainsChooser => Ok (with_kind c ChoiceNotContainsChooser)
  | ChoiceNotContainsChooser => Ok (with_kind c ChoiceContainsChooser)
  | Invalid | ChoicesHaveOffset | SlotsHaveSameChoices | ChoicesHaveSameChoosers | ChoosersHaveSameChoices => Ok (with_kind c Invalid)
  end.
