(** Model of a solve session: /repo/src/threaded_solver.rs,
    /repo/src/cancellation.rs. *)
From Verif Require Import Base M_Data M_Scoring M_Rng M_Critical M_Search M_Flow M_Climb.
From Coq Require Import String.
Notation length := Datatypes.length.

(** Where a worker thread stands, /repo/src/threaded_solver.rs:123-134. *)
Inductive wpc :=
| WCheck                   (* about to evaluate the loop condition (123) *)
| WIterate                 (* about to run an iteration (124) *)
| WAfter (done : nat)      (* iteration over, [done] = its result (125-131) *)
| WDone                    (* left the loop, progress returned (134) *)
| WCrashed.                (* panicked *)
(** [wk_events]: everything the worker has sent so far, oldest first. *)
(** /repo/src/threaded_solver.rs:114-135. *)
Record worker := mkWorker { wk_pc : wpc; wk_gun : shotgun; wk_events : list event }.
(** /repo/src/threaded_solver.rs:115-116. *)
Definition new_worker : worker := mkWorker WCheck new_shotgun [].

(** What happens when a worker moves. *)
(** The steps of /repo/src/threaded_solver.rs:123-134. *)
Inductive label :=
| LLoad (seen : bool)      (* read the cancellation flag *)
| LStart                   (* decided to run another iteration *)
| LIterated
| LCancel                  (* set the flag *)
| LOther.

(** One move of a worker, /repo/src/threaded_solver.rs:123-134.  [flag] is the
    shared flag before the move.  The flag is read with relaxed ordering
    (cancellation.rs:19-21): a read may return a stale [false], never a [true]
    that was not written.  Reading the flag, testing the clock and starting are
    one move; the clock is arbitrary.  An iteration is one move: it touches
    nothing shared but the event channel; the order in which events of different
    workers arrive is left open where events are used (C35). *)
Inductive wmove (pr : profile) (P : problem) (w : world) (flag : bool) : worker -> list label -> worker -> Prop :=
| mv_stop : forall g ev seen expired, (seen = true -> flag = true) -> seen || expired = true ->
    wmove pr P w flag (mkWorker WCheck g ev) [LLoad seen] (mkWorker WDone g ev)
| mv_start : forall g ev,
    wmove pr P w flag (mkWorker WCheck g ev) [LLoad false; LStart] (mkWorker WIterate g ev)
| mv_iterate : forall g ev tn k g' ev', iterate pr P w true tn 1 g = Some (Ok (k, g', ev')) ->
    wmove pr P w flag (mkWorker WIterate g ev) [LIterated] (mkWorker (WAfter k) g' (ev ++ ev'))
| mv_crash : forall g ev tn r, iterate pr P w true tn 1 g = Some r -> (forall x, r <> Ok x) ->
    wmove pr P w flag (mkWorker WIterate g ev) [LOther] (mkWorker WCrashed g ev)
| mv_success : forall k g ev, p_any P && score_finite (b_score (sg_best g)) = true ->
    wmove pr P w flag (mkWorker (WAfter k) g ev) [LCancel] (mkWorker WDone g ev)
| mv_last : forall k g ev, p_any P && score_finite (b_score (sg_best g)) = false ->
    (length (i_slots (p_input P)) =? 1) || (k <? 1) = true ->
    wmove pr P w flag (mkWorker (WAfter k) g ev) [LOther] (mkWorker WDone g ev)
| mv_again : forall k g ev, p_any P && score_finite (b_score (sg_best g)) = false ->
    (length (i_slots (p_input P)) =? 1) || (k <? 1) = false ->
    wmove pr P w flag (mkWorker (WAfter k) g ev) [LOther] (mkWorker WCheck g ev).

(** The running session: the shared flag and the workers. *)
(** /repo/src/threaded_solver.rs:101-136. *)
Record session := mkSession { se_flag : bool; se_workers : list worker }.
(** /repo/src/threaded_solver.rs:88-92. *)
Definition num_threads (P : problem) (thread_count : nat) : nat :=
  if length (i_slots (p_input P)) =? 1 then 1 else Nat.max thread_count 1.
(** /repo/src/threaded_solver.rs:86-169 [start]. *)
Definition start (P : problem) (thread_count : nat) : session :=
  mkSession false (repeat new_worker (num_threads P thread_count)).

(** Any worker moves, or the caller cancels (186-188).  The world of worker [i]
    is [ws i]. *)
Inductive move (pr : profile) (P : problem) (ws : nat -> world) : session -> option nat * list label -> session -> Prop :=
| mv_worker : forall s i wk ls wk', nth_error (se_workers s) i = Some wk -> wmove pr P (ws i) (se_flag s) wk ls wk' ->
    move pr P ws s (Some i, ls)
      (mkSession (se_flag s || existsb (fun l => match l with LCancel => true | _ => false end) ls) (upd (se_workers s) i wk'))
| mv_cancel : forall s, move pr P ws s (None, [LCancel]) (mkSession true (se_workers s)).
(** Any interleaving of the threads spawned at /repo/src/threaded_solver.rs:106-136. *)
Inductive moves (pr : profile) (P : problem) (ws : nat -> world) : session -> list (option nat * list label) -> session -> Prop :=
| mvs_refl : forall s, moves pr P ws s [] s
| mvs_step : forall s l s' tr s'', move pr P ws s l s' -> moves pr P ws s' tr s'' -> moves pr P ws s (l :: tr) s''.

(** /repo/src/threaded_solver.rs:138-150: joining the workers in order. *)
Definition is_finished (wk : worker) : bool := match wk_pc wk with WDone | WCrashed => true | _ => false end.
(** /repo/src/threaded_solver.rs:143-149: one worker. *)
Definition join_one (b : best) (wk : worker) : outcome best :=
  match wk_pc wk with
  | WDone => Ok (if score_lt (b_score (sg_best (wk_gun wk))) (b_score b) then sg_best (wk_gun wk) else b)
  | _ => Panic
  end.
(** /repo/src/threaded_solver.rs:138-150. *)
Definition join_all (wks : list worker) : outcome best := mfold join_one wks no_best.
(** /repo/src/threaded_solver.rs:267-272 [wait], for a session whose workers have
    all finished. *)
Definition wait (s : session) : outcome solution :=
  match join_all (se_workers s) with
  | Ok b => Ok (b_sol b)
  | _ => Err "worker panic"%string
  end.

(** ** Progress reports *)

(** /repo/src/shotgun_solver.rs:7-15 as kept by the poller (depth and LP counter
    left out). *)
Record tprogress := mkTP { tp_best : best; tp_iterations : nat; tp_assignments : nat }.
(** /repo/src/threaded_solver.rs:275-287 [empty_progress]. *)
Definition empty_progress : tprogress := mkTP no_best 0 0.
(** /repo/src/threaded_solver.rs:207-225: one event. *)
Definition apply_event (p : tprogress) (e : event) : tprogress :=
  match e with
  | EvBest sol sc => if score_lt sc (b_score (tp_best p)) then mkTP (mkBest sol sc) (tp_iterations p) (tp_assignments p) else p
  | EvIterations n => mkTP (tp_best p) n (tp_assignments p)
  | EvAssignments n => mkTP (tp_best p) (tp_iterations p) n
  end.
(** /repo/src/threaded_solver.rs:205-227: the drained events, each tagged with its
    worker; events of unknown workers are ignored. *)
Definition drain (tps : list tprogress) (log : list (nat * event)) : list tprogress :=
  fold_left (fun tps we => match nth_error tps (fst we) with
                           | Some p => upd tps (fst we) (apply_event p (snd we))
                           | None => tps
                           end) log tps.
(** /repo/src/threaded_solver.rs:229-255: the aggregate (remaining time and depth
    left out). *)
Definition aggregate (tps : list tprogress) : tprogress :=
  fold_left (fun a p => mkTP (if score_lt (b_score (tp_best p)) (b_score (tp_best a)) then tp_best p else tp_best a)
                             (tp_iterations a + tp_iterations p) (tp_assignments a + tp_assignments p)) tps empty_progress.
(** /repo/src/threaded_solver.rs:190-259 [progress]: a poll takes the events that
    arrived since the last one, keeps the updated table and shows the aggregate. *)
Definition poll (tps : list tprogress) (arrived : list (nat * event)) : list tprogress * tprogress :=
  let tps' := drain tps arrived in (tps', aggregate tps').
