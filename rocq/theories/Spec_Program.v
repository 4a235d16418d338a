(** Specification for C75 and C76: runs of the whole program whose session is not
    disturbed. *)
From Verif Require Import Base M_Data Spec M_Scoring M_Rng M_Critical M_Search M_Flow Spec_Calls M_Climb M_Threads Spec_Threads M_Output M_Main.
From Verif Require M_Script.
From Coq Require Import String.
Notation length := Datatypes.length.
Import M_Script(settings, s_threads).

(** Like [solved] (M_Main.v), for a session that is neither cancelled from outside
    nor stopped by the clock. *)
Inductive solved_undisturbed {F} (good : world -> Prop) (pr : profile) (pow : F -> f32 -> f32) (cost : F -> N -> Z) (o : settings F) (d : input_data)
  : outcome solution -> Prop :=
| su_unprepared : prepare pr pow cost o d = Panic -> solved_undisturbed good pr pow cost o d Panic
| su_session P ws tr s : prepare pr pow cost o d = Ok P -> (forall i, good (ws i) /\ calm (ws i)) ->
    moves pr P ws (start P (N.to_nat (s_threads o))) tr s -> undisturbed tr -> forallb is_finished (se_workers s) = true ->
    solved_undisturbed good pr pow cost o d (wait s).
