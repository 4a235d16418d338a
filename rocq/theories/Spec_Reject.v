(** Specification for C87: what can be wrong with an input, and how it is said. *)
From Verif Require Import Base M_Data Spec M_Names M_Build Spec_Input Spec_Meta Spec_Status Spec_Script Spec_Labels Spec_Names.
From Coq Require Import Ascii String.
Notation length := Datatypes.length.
Open Scope string_scope.

(** ** Supported forms of constraints (/repo/doc/src/Manual.md) *)
Inductive form : acc_kind * acc_kind -> rel_kind -> acc_kind * acc_kind -> Prop :=
| fo_choice_slot R : R = REq \/ R = RNeq -> form (AChoice, ASlot) R (ASlot, ANotSet)
| fo_choices_slot R : R = REq \/ R = RNeq -> form (AChoice, ASlot) R (AChoice, ASlot)
| fo_slot_choice R : R = RContains \/ R = RNotContains -> form (ASlot, AChoice) R (AChoice, ANotSet)
| fo_slots : form (ASlot, AChoice) REq (ASlot, AChoice)
| fo_audiences : form (AChoice, AChooser) REq (AChoice, AChooser)
| fo_chooser_choice R : R = RContains \/ R = RNotContains -> form (AChooser, AChoice) R (AChoice, ANotSet)
| fo_choosers : form (AChooser, AChoice) REq (AChooser, AChoice)
| fo_choice_chooser R : R = RContains \/ R = RNotContains -> form (AChoice, AChooser) R (AChooser, ANotSet)
| fo_size R : R <> RContains -> R <> RNotContains -> form (ASlot, ASize) R (AInteger, ANotSet).
Definition shape (a : accessor) := (a_kind a, a_sub a).
(** Either side may come first. *)
Definition supported (e : expr) : Prop :=
  form (shape (e_left e)) (e_rel e) (shape (e_right e)) \/ form (shape (e_right e)) (e_rel e) (shape (e_left e)).

(** ** Names *)
(** The names among which an accessor's name is looked up: of a choice with parts,
    every part is listed. *)
Definition declared_names (r : reader) (a : accessor) : list string :=
  match a_kind a with
  | ASlot => slot_names r
  | AChoice => flat_map (fun q => map (listed_as (p_name q)) (seq 0 (copies q))) (r_choices r)
  | AChooser => map cs_name (r_choosers r)
  | _ => []
  end.
(** [a]'s name means the objects at the positions [l]. *)
Definition refers (r : reader) (a : accessor) (l : list nat) : Prop :=
  best_match (declared_names r a) (levels (a_name a)) l.
(** One of the constraint's names means nothing. *)
Definition void (r : reader) (e : expr) : Prop := exists a b, sides e a b /\ by_name a /\ refers r a [].

(** ** Faults *)
(** The number written as [s], possibly with a sign [+]. *)
Definition value (s : string) : option Z := match s with String "+"%char t => number t | _ => number s end.
(** One side of a constraint is wrong, and the message. *)
Inductive side_fault (r : reader) (a : accessor) : string -> Prop :=
| sf_ambiguous l : by_name a -> refers r a l -> 2 <= length l ->
    side_fault r a ("The name """ ++ a_name a ++ """ is ambiguous.")
| sf_part c i k q num : a_kind a = AChoice -> refers r a [c] ->
    nth_error (r_choices r) i = Some q -> is_part (r_choices r) i k c ->
    copies q <= k + a_part a -> decimal (a_part a) num ->
    side_fault r a ("The given choice doesn't have a part " ++ num ++ ".")
| sf_empty : a_kind a = AInteger -> a_name a = "" -> side_fault r a "cannot parse integer from empty string"
| sf_digit : a_kind a = AInteger -> a_name a <> "" -> value (a_name a) = None -> side_fault r a "invalid digit found in string"
| sf_large s t n : a_kind a = AInteger -> a_name a = (s ++ t)%string -> value s = Some n -> (n > 18446744073709551615)%Z ->
    side_fault r a "number too large to fit in target type".
(** A constraint is wrong, and the message. *)
Inductive expr_fault (r : reader) (e : expr) : string -> Prop :=
| ef_form : ~ supported e -> expr_fault r e "Unsupported constraint."
| ef_side a b m : supported e -> sides e a b -> side_fault r a m -> expr_fault r e m.
(** An input is wrong, and the message. *)
Inductive fault (r : reader) : string -> Prop :=
| fa_prefs i c :
    nth_error (r_choosers r) i = Some c -> length (cs_prefs c) <> length (r_choices r) ->
    (forall j c', j < i -> nth_error (r_choosers r) j = Some c' -> length (cs_prefs c') = length (r_choices r)) ->
    fault r ("Wrong number of preferences given for chooser """ ++ cs_name c ++ """.")
| fa_expr es1 e es2 m :
    r_exprs r = (es1 ++ e :: es2)%list -> expr_fault r e m ->
    (forall e', In e' es1 -> supported e' /\ (void r e' \/ forall m', ~ expr_fault r e' m')) ->
    fault r m
| fa_unsat :
    ((forall e a b, In e (r_exprs r) -> sides e a b -> a_kind a = ASlot -> exists s, the_slot r a s) ->
     forall S A, (forall s, s < length (r_slots r) -> exists c, scheduled_in S c s) ->
                 ~ forall e, In e (r_exprs r) -> says false r S A e) ->
    fault r "The given constraints are not satisfiable.".
