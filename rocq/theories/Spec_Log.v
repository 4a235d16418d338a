(** Specification for C90: reading the log of a run. *)
From Verif Require Import Base M_Data Spec_Status M_Output M_Log.
From Coq Require Import String.
Notation length := Datatypes.length.
Open Scope list_scope.

(** The tables delivered, without the messages. *)
Definition effects (l : list entry) : list effect := flat_map (fun x => match x with Gave y => [y] | Said _ _ => [] end) l.
(** [a] is the number [n] in decimal digits. *)
Definition counted (a : string) (n : nat) : Prop := number a = Some (Z.of_nat n).
(** No error is reported. *)
Definition no_error (l : list entry) : Prop := forall t, ~ In (Said Error t) l.
(** Every file written is announced by the message directly before. *)
Definition announced (l : list entry) : Prop :=
  forall i path text, nth_error l i = Some (Gave (EFile path text)) ->
    exists j, i = S j /\ nth_error l j = Some (Said Info ("Writing output to `" ++ path ++ "`.")%string).
(** The message with which a failed run ends. *)
Definition complaint (m : string) : entry := Said Error ("Error in input: " ++ m)%string.
(** How the delivery of one table looks: printed, or written to a file whose path is
    announced. *)
Definition delivery (output : option string) (suffix text : string) : list entry :=
  match output with
  | Some f => [Said Info ("Writing output to `" ++ (f ++ suffix) ++ "`.")%string; Gave (EFile (f ++ suffix) text)]
  | None => [Gave (EPrint (text ++ String (Ascii.ascii_of_nat 10) (String (Ascii.ascii_of_nat 10) "")))]
  end.

(** What the preparation says: whether critical sets are analysed, how many there are,
    and the bound that follows. *)
From Verif Require Import M_Critical M_Scoring M_Flow M_Threads M_Main.
From Verif Require M_Script.
Import M_Script(settings, s_no_cs, s_no_cs_simp, s_greedy).
Inductive prepared_as {F} (pr : profile) (pow : F -> f32 -> f32) (cost : F -> N -> Z) (o : settings F) (d : input_data) : list entry -> Prop :=
| pa_skipped P : s_no_cs o = true \/ s_greedy o = true \/ length (i_slots d) <= 1 -> prepare pr pow cost o d = Ok P ->
    prepared_as pr pow cost o d [Said Info "Skipping critical set analysis."]
| pa_analyzed P a b : s_no_cs o = false -> s_greedy o = false -> 1 < length (i_slots d) -> s_no_cs_simp o = true -> prepare pr pow cost o d = Ok P ->
    counted a (length (an_sets (M_Climb.p_analysis P))) -> number b = Some (Z.of_N (an_bound (M_Climb.p_analysis P))) ->
    prepared_as pr pow cost o d [Said Info "Performing critical set analysis without simplification.";
      Said Info ("Critical-set analysis complete: " ++ a ++ " set(s).")%string;
      Said Info ("Critical set analysis gives a preference bound of " ++ b ++ ".")%string]
| pa_simplified P sets a c b : s_no_cs o = false -> s_greedy o = false -> 1 < length (i_slots d) -> s_no_cs_simp o = false -> prepare pr pow cost o d = Ok P ->
    analyze_sets pr d = Ok sets -> counted a (length sets) ->
    counted c (length (an_sets (M_Climb.p_analysis P))) -> number b = Some (Z.of_N (an_bound (M_Climb.p_analysis P))) ->
    prepared_as pr pow cost o d [Said Info "Performing critical set analysis with simplification.";
      Said Info ("Critical-set analysis complete: " ++ a ++ " set(s).")%string;
      Said Info ("Critical-set simplification complete: " ++ c ++ " set(s).")%string;
      Said Info ("Critical set analysis gives a preference bound of " ++ b ++ ".")%string].
