(** Specification for C91: the inline forms of the command line. *)
From Verif Require Import Base.
From Verif Require Import M_Script Spec_Args.
From Coq Require Import String Ascii.
Notation length := Datatypes.length.
Notation get := Base.get.
Open Scope string_scope.
Open Scope list_scope.

(** [said ws l]: the words [ws] of a command line say, in this order, the options [l]. *)
Inductive said : list string -> list (key * string) -> Prop :=
| sd_end : said [] []
| sd_dashes : said ["--"] []
(** --name value, -n value: the value does not look like an option *)
| sd_value k w v ws l : In w (names k) -> with_value k -> ~ option_like v -> said ws l -> said (w :: v :: ws) ((k, v) :: l)
(** --switch, -s *)
| sd_switch k w ws l : In w (names k) -> ~ with_value k -> k <> KHelp -> said ws l -> said (w :: ws) ((k, "") :: l)
(** --name=value *)
| sd_equals k n v ws l : In (String "-" (String "-" n)) (names k) -> with_value k -> said ws l ->
    said ((String "-" (String "-" n) ++ "=" ++ v)%string :: ws) ((k, v) :: l)
(** -nVALUE *)
| sd_joined k c x v ws l : In (String "-" (String c "")) (names k) -> with_value k -> x <> "="%char -> said ws l ->
    said (String "-" (String c (String x v)) :: ws) ((k, String x v) :: l)
(** -n=VALUE *)
| sd_joined_equals k c v ws l : In (String "-" (String c "")) (names k) -> with_value k -> said ws l ->
    said (String "-" (String c (String "=" v)) :: ws) ((k, v) :: l)
(** -sREST: the switch -s, then what -REST says *)
| sd_cluster k c x rest ws l : In (String "-" (String c "")) (names k) -> ~ with_value k -> k <> KHelp -> x <> "-"%char ->
    said (String "-" (String x rest) :: ws) l -> said (String "-" (String c (String x rest)) :: ws) ((k, "") :: l).

(** No option but [--input] is given twice. *)
Definition once (l : list (key * string)) : Prop :=
  forall l1 k v l2, l = l1 ++ (k, v) :: l2 -> k <> KInput -> untold l2 k.
