(** Specification for C81: how declared objects are named in the output tables. *)
From Verif Require Import Base M_Data Spec M_Build Spec_Input Spec_Output Spec_Status.
From Coq Require Import String Ascii.
Notation length := Datatypes.length.
Open Scope string_scope.

(** A positive number in decimal, without leading zeros. *)
Definition decimal (n : nat) (t : string) : Prop := number t = Some (Z.of_nat n) /\ forall u, t <> String "0" u.

(** The text shown for part [k] (counted from 0) of a choice declared as [n]: the
    first part under the declared name, the others as "[2] n", "[3] n", ... *)
Definition label (n : string) (k : nat) (t : string) : Prop :=
  (k = 0 /\ shown n t) \/
  (1 <= k /\ exists num, decimal (k + 1) num /\ t = ("[" ++ num ++ "] " ++ n)%string).

(** The slots: the declared ones, or one called "Generated Slot". *)
Definition slot_names (r : reader) : list string :=
  match r_slots r with [] => ["Generated Slot"] | _ => map sl_name (r_slots r) end.

(** The rows of the scheduling table: one per part of each declared choice, in
    order, with the name of the slot it is held in. *)
Definition schedule_rows (r : reader) (sch : scheduling) (rows : list (list string)) : Prop :=
  length rows = first_index (r_choices r) (length (r_choices r)) /\
  forall i k c q, nth_error (r_choices r) i = Some q -> is_part (r_choices r) i k c ->
    exists nm sn, nth_error rows c = Some [nm; sn] /\ label (p_name q) k nm /\
      ((exists s, scheduled_in sch c s /\ nth_error (slot_names r) s = Some sn) \/ (not_held sch c /\ sn = "not scheduled")).

(** The rows of the assignment table: one per declared chooser, a cell per slot
    with the part the chooser attends there. *)
Definition attendance_rows (r : reader) (sch : scheduling) (A : assignment) (rows : list (list string)) : Prop :=
  length rows = length (r_choosers r) /\
  forall p pc, nth_error (r_choosers r) p = Some pc ->
    exists cells, nth_error rows p = Some (cs_name pc :: cells) /\ length cells = length (slot_names r) /\
      forall s, s < length (slot_names r) ->
        exists c i k q nm, attends A p c /\ scheduled_in sch c s /\ nth_error (r_choices r) i = Some q /\
          is_part (r_choices r) i k c /\ nth_error cells s = Some nm /\ label (p_name q) k nm.

(** Declared names that cannot be mistaken for each other or for parts. *)
Definition plain_names (r : reader) : Prop :=
  (forall i j q q', nth_error (r_choices r) i = Some q -> nth_error (r_choices r) j = Some q' -> p_name q = p_name q' -> i = j) /\
  (forall q t, In q (r_choices r) -> p_name q <> String "~" t /\ p_name q <> String "[" t).
