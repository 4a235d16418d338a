(** What the outputs are supposed to be.  Independent of M_Output. *)
From Verif Require Import Base M_Data Spec.
From Coq Require Import String Ascii.
Notation length := Datatypes.length.
Open Scope string_scope.
Open Scope list_scope.

(** ** CSV *)
Definition newline : ascii := ascii_of_nat 10.
Definition dquote : ascii := ascii_of_nat 34.
(** Every cell in double quotes, cells separated by comma and blank, rows by
    line breaks. *)
Definition cell_text (c : string) : string := String dquote (c ++ String dquote "").
Fixpoint row_text (r : list string) : string :=
  match r with
  | [] => ""
  | [c] => cell_text c
  | c :: t => (cell_text c ++ ", " ++ row_text t)%string
  end.
Fixpoint table_text (rows : list (list string)) : string :=
  match rows with
  | [] => ""
  | [r] => row_text r
  | r :: t => (row_text r ++ String newline (table_text t))%string
  end.

(** A reader of such texts: expecting a cell; inside one; after one; after a comma. *)
Inductive csv_state := Opening | Inside (acc : string) | Behind | Comma.
Fixpoint csv_scan (st : csv_state) (row : list string) (rows : list (list string)) (s : string)
  : option (list (list string)) :=
  match s, st with
  | EmptyString, Behind => Some (rows ++ [row])
  | EmptyString, _ => None
  | String c t, Opening => if Ascii.eqb c dquote then csv_scan (Inside "") row rows t else None
  | String c t, Inside acc => if Ascii.eqb c dquote then csv_scan Behind (row ++ [acc]) rows t
                              else csv_scan (Inside (acc ++ String c "")) row rows t
  | String c t, Behind => if Ascii.eqb c "," then csv_scan Comma row rows t
                          else if Ascii.eqb c newline then csv_scan Opening [] (rows ++ [row]) t
                          else None
  | String c t, Comma => if Ascii.eqb c " " then csv_scan Opening row rows t else None
  end.
Definition csv_read (s : string) : option (list (list string)) := csv_scan Opening [] [] s.

Definition quote_free (s : string) : Prop := ~ In dquote (list_ascii_of_string s).

(** How the name of a choice is shown: without the mark of generated parts. *)
Definition shown (name text : string) : Prop :=
  name = String "~" text \/ (text = name /\ forall t, name <> String "~" t).

(** The table of a scheduling: one row per choice. *)
Definition scheduling_table (d : input_data) (sch : scheduling) (rows : list (list string)) : Prop :=
  length rows = length (i_choices d) /\
  forall c ch, nth_error (i_choices d) c = Some ch ->
    exists nm sn, nth_error rows c = Some [nm; sn] /\ shown (ch_name ch) nm /\
      ((exists s sl, scheduled_in sch c s /\ nth_error (i_slots d) s = Some sl /\ sn = sl_name sl) \/
       (not_held sch c /\ sn = "not scheduled")).

(** The table of an assignment: one row per chooser, one column per slot, naming
    the choice the chooser attends there. *)
Definition assignment_table (d : input_data) (sch : scheduling) (A : assignment) (rows : list (list string)) : Prop :=
  length rows = length (i_choosers d) /\
  forall p pc, nth_error (i_choosers d) p = Some pc ->
    exists cells, nth_error rows p = Some (cs_name pc :: cells) /\ length cells = length (i_slots d) /\
      forall s, s < length (i_slots d) ->
        exists c ch nm, attends A p c /\ scheduled_in sch c s /\ nth_error (i_choices d) c = Some ch /\
                        nth_error cells s = Some nm /\ shown (ch_name ch) nm.

(** No quotation marks in any name. *)
Definition quote_free_names (d : input_data) : Prop :=
  (forall ch, In ch (i_choices d) -> quote_free (ch_name ch)) /\
  (forall sl, In sl (i_slots d) -> quote_free (sl_name sl)) /\
  (forall pc, In pc (i_choosers d) -> quote_free (cs_name pc)).

(** ** Log lines *)
(** [lines] followed by the unfinished line [rest], as one byte sequence. *)
Definition laid_out (lines : list (list ascii)) (rest : list ascii) : list ascii :=
  flat_map (fun l => l ++ [newline]) lines ++ rest.
Definition one_line (l : list ascii) : Prop := ~ In newline l.
Definition split_at_newlines (b : list ascii) (lines : list (list ascii)) (rest : list ascii) : Prop :=
  b = laid_out lines rest /\ Forall one_line lines /\ one_line rest.

(** ** Interleavings *)
Inductive interleaving {A} : list A -> list A -> list A -> Prop :=
| il_nil : interleaving [] [] []
| il_left x l r m : interleaving l r m -> interleaving (x :: l) r (x :: m)
| il_right x l r m : interleaving l r m -> interleaving l (x :: r) (x :: m).
