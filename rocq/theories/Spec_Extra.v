(** Specification for C86: the same input with one more optional choice. *)
From Verif Require Import Base M_Data Spec M_Names M_Build Spec_Input Spec_Meta.
From Coq Require Import String.
Notation length := Datatypes.length.

(** [r'] is [r] with the optional choice [q] (of any number of parts) declared
    last, and with one more preference, for [q], given by every chooser. *)
Record with_extra (q : proto) (r r' : reader) : Prop := {
  we_optional : p_optional q = true;
  we_slots : r_slots r' = r_slots r;
  we_choices : r_choices r' = r_choices r ++ [q];
  we_choosers : Forall2 (fun c c' => cs_name c' = cs_name c /\ exists y, cs_prefs c' = cs_prefs c ++ [y])
                        (r_choosers r) (r_choosers r');
  we_exprs : r_exprs r' = r_exprs r
}.

(** The constraints of [r] write choices with their full names, none of which is
    also the name of [q] or of one of its parts. *)
Definition not_meant (q : proto) (r : reader) : Prop :=
  forall e a, In e (r_exprs r) -> (a = e_left e \/ a = e_right e) -> a_kind a = AChoice ->
    (exists i, choice_called r i (a_name a)) /\
    (forall k, k < copies q -> listed_as (p_name q) k <> a_name a).

(** The scheduling [S] with the parts of [q] not taking place. *)
Definition without (q : proto) (S : scheduling) : scheduling := S ++ repeat None (copies q).
