(** Specification for C24: what a name inside a constraint refers to. *)
From Verif Require Import Base M_Data M_Build Spec_Input Spec_Script.
From Coq Require Import String.
Notation length := Datatypes.length.

(** The names of the input's objects of the kind an accessor speaks about. *)
Definition names_of (d : input_data) (a : accessor) : list string :=
  match a_kind a with
  | ASlot => map sl_name (i_slots d)
  | AChoice => map ch_name (i_choices d)
  | AChooser => map cs_name (i_choosers d)
  | _ => []
  end.

(** The accessor speaks about an object by its name (not about a number). *)
Definition by_name (a : accessor) : Prop := a_kind a = ASlot \/ a_kind a = AChoice \/ a_kind a = AChooser.

(** The objects the accessor's name matches at the best level. *)
Definition matches (d : input_data) (a : accessor) (l : list nat) : Prop := best_match (names_of d a) (levels (a_name a)) l.

(** Both sides of a constraint, in either order. *)
Definition sides (e : expr) (a b : accessor) : Prop :=
  (e_left e = a /\ e_right e = b) \/ (e_left e = b /\ e_right e = a).

(** [a'] is [a], or [a] with its name completed to the full name (borne by no
    other object) of the one object it matches. *)
Definition completed (d : input_data) (a a' : accessor) : Prop :=
  a' = a \/
  (by_name a /\ a_kind a' = a_kind a /\ a_sub a' = a_sub a /\ a_part a' = a_part a /\
   exists i, matches d a [i] /\ nth_error (names_of d a) i = Some (a_name a') /\
     forall j, nth_error (names_of d a) j = Some (a_name a') -> j = i).

(** Constraints with some of their names completed. *)
Definition completed_expr (d : input_data) (e e' : expr) : Prop :=
  completed d (e_left e) (e_left e') /\ e_rel e' = e_rel e /\ completed d (e_right e) (e_right e').

(** The same declarations with other constraints. *)
Definition with_exprs (r : reader) (es : list expr) : reader := mkReader (r_slots r) (r_choices r) (r_choosers r) es.
