(** Specification for C82 and C83: what the progress line says about the work done. *)
From Verif Require Import Base M_Data M_Scoring M_Flow M_Climb M_Threads M_Effort Spec.

(** The numbers of instances a worker reports, oldest first. *)
Definition lp_reports (l : list message) : list nat := flat_map (fun x => match x with ToldLp n => [n] | _ => [] end) l.
(** The depths it reports. *)
Definition depth_reports (l : list message) : list f32 := flat_map (fun x => match x with ToldDepth v => [v] | _ => [] end) l.
(** The number of assignments it reports to have tried. *)
Definition assignment_reports (l : list message) : list nat :=
  flat_map (fun x => match x with Told (EvAssignments n) => [n] | _ => [] end) l.
(** The latest of a list of reports. *)
Definition latest {A} (l : list A) (x : A) : A := List.last l x.

(** The levels from which a limit is taken: those at or above the bound (the last
    one if there is none). *)
Definition candidates (d : input_data) (bound : N) : nat :=
  Nat.max 1 (length (filter (fun x => bound <=? x)%N (i_levels d))).

(** A worker that ran any number of iterations, with its counter and all messages
    it sent, oldest first. *)
Inductive worked (pr : profile) (P : problem) (w : world) : shotgun -> meter -> list message -> Prop :=
| wo_new : worked pr P w new_shotgun new_meter []
| wo_next g m l tn k g' m' l' : worked pr P w g m l -> iterate_m pr P w true tn 1 g m = Some (Ok (k, g', m', l')) ->
    worked pr P w g' m' (l ++ l').

(** What the poller knows of a worker from the messages [l]. *)
Definition heard (l : list message) : gauge := fold_left hear l empty_gauge.
(** The messages that have arrived by the time of a poll: of each worker of the
    session those it sent up to some point. *)
Definition received (pr : profile) (P : problem) (ws : nat -> world) (s : session) (ls : list (list message)) : Prop :=
  length ls = length (se_workers s) /\
  forall i wk l, nth_error (se_workers s) i = Some wk -> nth_error ls i = Some l ->
    exists m rest, worked pr P (ws i) (wk_gun wk) m (l ++ rest).
