(** Specification for C92: opposite constraints. *)
From Verif Require Import Base M_Data Spec Spec_Input M_Build M_Script Spec_Script.
Notation length := Datatypes.length.
Notation get := Base.get.

(** The relation that cannot hold together with this one. *)
Definition opposite (rel : rel_kind) : rel_kind :=
  match rel with
  | REq => RNeq | RNeq => REq
  | RGt => RLeq | RLeq => RGt
  | RLt => RGeq | RGeq => RLt
  | RContains => RNotContains | RNotContains => RContains
  end.

(** The script says [l rel rt]; an equation may be written either way round. *)
Definition stated (tr : list event) (l : operand) (rel : rel_kind) (rt : operand) : Prop :=
  In (l, rel, rt) (constraints_of tr) \/ (rel = REq \/ rel = RNeq) /\ In (rt, rel, l) (constraints_of tr).

(** The pairs [l rt] that can be related by both of two opposite relations, with the
    choices whose absence would satisfy both. *)
Inductive comparable (tr : list event) (ps : list proto) : operand -> rel_kind -> operand -> list nat -> Prop :=
| cm_slot l i k j c s rel : slot_of l i k -> choice_at tr ps i k c -> slot_at tr j s -> rel = REq \/ rel = RNeq ->
    comparable tr ps l rel (OpSlot j) []
| cm_slots l rt i k j m c c' rel : slot_of l i k -> slot_of rt j m -> choice_at tr ps i k c -> choice_at tr ps j m c' -> rel = REq \/ rel = RNeq ->
    comparable tr ps l rel rt [c]
| cm_timetable i j s c rel : slot_at tr i s -> choice_at tr ps j 0 c -> rel = RContains \/ rel = RNotContains ->
    comparable tr ps (OpSlotChoices i) rel (OpChoice j) []
| cm_choices i j p c rel : chooser_at tr i p -> choice_at tr ps j 0 c -> rel = RContains \/ rel = RNotContains ->
    comparable tr ps (OpChooserChoices i) rel (OpChoice j) [c]
| cm_choosers l i k j p c rel : choosers_of l i k -> choice_at tr ps i k c -> chooser_at tr j p -> rel = RContains \/ rel = RNotContains ->
    comparable tr ps l rel (OpChooser j) [c]
| cm_size i z s rel : slot_at tr i s -> rel <> RContains -> rel <> RNotContains ->
    comparable tr ps (OpSlotSize i) rel (OpInt z) [].
