(** Model of reading CSV files in scripts: /repo/src/input/rhai_interface.rs:252-261,
    704-720, 768-800. *)
From Verif Require Import Base.
From Coq Require Import String.
Import ListNotations.
Notation length := Datatypes.length.
Open Scope list_scope.

(** A Rust [char]: its code point. *)
(** The type of [separator], /repo/src/input/rhai_interface.rs:704. *)
Definition char := N.
(** The default separator, /repo/src/input/rhai_interface.rs:253, 256. *)
Definition comma : char := 44%N.

(** The csv crate on a file with a delimiter byte (not modelled): the file cannot be
    opened, or a sequence of records, each a row or an error, in file order. *)
(** Called at /repo/src/input/rhai_interface.rs:708-714. *)
Definition library := string -> N -> string + list (string + list string).

(** /repo/src/input/rhai_interface.rs:713-717: the loop over the records; the first
    error ends it. *)
Fixpoint collect (records : list (string + list string)) (rows : list (list string)) : outcome (list (list string)) :=
  match records with
  | [] => Ok rows
  | inl msg :: _ => Err msg
  | inr row :: records => collect records (rows ++ [row])
  end.
(** /repo/src/input/rhai_interface.rs:704-720 [read_file_csv]. *)
Definition msg_separator : string := "CSV separator must fit in one byte.".
(** /repo/src/input/rhai_interface.rs:704-720 [read_file_csv]. *)
Definition read_file_csv (lib : library) (filename : string) (separator : char) : outcome (list (list string)) :=
  if (255 <? separator)%N then Err msg_separator
  else match lib filename separator with
       | inl msg => Err msg
       | inr records => collect records []
       end.
(** /repo/src/input/rhai_interface.rs:252-261: the three script functions. *)
Definition read_csv1 (lib : library) (filename : string) : outcome (list (list string)) := read_file_csv lib filename comma.
(** /repo/src/input/rhai_interface.rs:255-258: [read_csv] with a string. *)
Definition read_csv_text (lib : library) (filename : string) (separator : list char) : outcome (list (list string)) :=
  read_file_csv lib filename (match separator with c :: _ => c | [] => comma end).
(** /repo/src/input/rhai_interface.rs:259-261: [read_csv] with a character. *)
Definition read_csv_char (lib : library) (filename : string) (separator : char) : outcome (list (list string)) :=
  read_file_csv lib filename separator.

(** /repo/src/input/rhai_interface.rs:769-771 [rows_accessor]. *)
Definition csv_rows (rows : list (list string)) : list (list string) := rows.
(** /repo/src/input/rhai_interface.rs:773-780 [row_accessor] (texts of the messages
    left out). *)
Definition csv_row (rows : list (list string)) (index : Z) : outcome (list string) :=
  if (index <? 0)%Z then Err "out of range integral type conversion attempted"%string
  else match nth_error rows (Z.to_nat index) with
       | Some row => Ok row
       | None => Err "CSV row is out of bounds."%string
       end.
(** /repo/src/input/rhai_interface.rs:782-790 [index_accessor]. *)
Definition csv_index (rows : list (list string)) (index : Z) : list string :=
  if (index <? 0)%Z then []
  else match nth_error rows (Z.to_nat index) with Some row => row | None => [] end.
