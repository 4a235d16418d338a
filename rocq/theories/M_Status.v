(** Model of the status line of a solve session: /repo/src/status.rs
    ([track_solver] and its texts), the remaining time in
    /repo/src/threaded_solver.rs, the text form of scores. *)
From Verif Require Import Base M_Data M_Scoring M_Names M_Climb M_Threads.
From Coq Require Import String Ascii Floats.SpecFloat.
Notation length := Datatypes.length.
Open Scope string_scope.
Open Scope list_scope.

(** ** Numbers as text *)

(** The exact value m * 2^e times 10^k, rounded to an integer, ties to even: what
    Rust's [{:.k$}] prints of a finite float (library function, modelled from its
    documentation). *)
(** Library code, called at /repo/src/util.rs:4 and /repo/src/status.rs:249, 268. *)
Definition scaled (k : nat) (m : positive) (e : Z) : N :=
  let n := (Zpos m * 10 ^ Z.of_nat k)%Z in
  if (0 <=? e)%Z then Z.to_N (n * 2 ^ e)
  else
    let b := (2 ^ (- e))%Z in
    let q := (n / b)%Z in
    Z.to_N (match (2 * (n mod b) ?= b)%Z with
            | Lt => q
            | Gt => q + 1
            | Eq => if Z.even q then q else q + 1
            end)%Z.
(** Library code behind /repo/src/util.rs:4. *)
Definition digit (n : N) : string := String (ascii_of_N (48 + n mod 10)) "".
(** The last [k] decimal digits of [n]. *)
(** Library code behind /repo/src/util.rs:4. *)
Fixpoint padded (k : nat) (n : N) : string :=
  match k with
  | O => ""
  | S k' => (padded k' (n / 10) ++ digit n)%string
  end.
(** Library code behind /repo/src/util.rs:4. *)
Definition fixed_point (k : nat) (n : N) : string :=
  match k with
  | O => n_to_string n
  | _ => (n_to_string (n / 10 ^ N.of_nat k) ++ "." ++ padded k n)%string
  end.
(** The sign; library code behind /repo/src/util.rs:4. *)
Definition minus (s : bool) : string := if s then "-" else "".
(** /repo/src/util.rs:3-5 [str_float] (the argument is an f32 widened to f64, which
    keeps its value); also [{:.1}] in /repo/src/status.rs:248-251, 273-274. *)
Definition str_float (x : f32) (k : nat) : string :=
  match x with
  | S754_nan => "NaN"
  | S754_infinity s => (minus s ++ "inf")%string
  | S754_zero s => (minus s ++ fixed_point k 0)%string
  | S754_finite s m e => (minus s ++ fixed_point k (scaled k m e))%string
  end.
(** /repo/src/score.rs:13-26 [Display for Score]. *)
Definition score_text (s : score) : string :=
  if is_nan (sc_major s) then str_float (sc_minor s) 5
  else ("(" ++ str_float (sc_major s) 0 ++ ", " ++ str_float (sc_minor s) 5 ++ ")")%string.
(** The counters of /repo/src/status.rs:242-245, 268. *)
Definition count_text (n : nat) : string := n_to_string (N.of_nat n).

(** ** Time *)

(** [Duration::from_secs(u64::try_from(timeout_seconds).unwrap_or_default())], in
    nanoseconds (/repo/src/threaded_solver.rs:239-241). *)
Definition timeout_ns (timeout : Z) : N := (Z.to_N timeout * 1000000000)%N.
(** /repo/src/threaded_solver.rs:229-245: what is left of the timeout, in
    milliseconds, the largest value of all workers.  [clock i] is the clock (in
    nanoseconds) when worker [i] is looked at; a clock before the start counts as
    no time elapsed (truncated subtraction). *)
Definition worker_remaining (timeout : Z) (start now : N) : N :=
  N.min ((timeout_ns timeout - (now - start)) / 1000000) 9223372036854775807.
(** /repo/src/threaded_solver.rs:230-245: the largest over all workers. *)
Definition remaining_ms (timeout : Z) (starts : list N) (clock : nat -> N) : N :=
  fold_left (fun m (is : nat * N) => N.max m (worker_remaining timeout (snd is) (clock (fst is))))
            (combine (seq 0 (length starts)) starts) 0%N.
(** /repo/src/status.rs:66: length of the bar before [max(1)]. *)
Definition timeout_ms (timeout : Z) : N := (Z.to_N (Z.max timeout 0) * 1000)%N.
(** /repo/src/status.rs:67, 183-188 [solver_progress_bar]. *)
Definition bar_length (timeout : Z) : N := N.max (N.max (timeout_ms timeout) 1) 1.
(** /repo/src/status.rs:72-74, 87-89. *)
Definition bar_position (timeout : Z) (remaining : N) : N :=
  N.min (timeout_ms timeout - remaining) (N.max (timeout_ms timeout) 1).

(** ** Texts *)

(** One look at the running session: the events that arrived, the clock, and the
    parts of the report that are modelled in M_Effort only (LP counter, search depth). *)
(** /repo/src/threaded_solver.rs:14-24 [ThreadedSolverProgress] as read at /repo/src/status.rs:68, 71, 79. *)
Record glance := mkGlance { gl_arrived : list (nat * event); gl_clock : nat -> N; gl_lp : nat; gl_depth : f32 }.

(** /repo/src/status.rs:241-263 [format_solver_message] (without the colour codes
    that [style] adds). *)
Definition message (maxdepth : f32) (p : tprogress) (lp : nat) (depth : f32) : string :=
  let counters := (count_text (tp_iterations p) ++ "/" ++ count_text (tp_assignments p) ++ "/" ++ count_text lp)%string in
  let depths := ("d" ++ str_float depth 1 ++ "/" ++ str_float maxdepth 1)%string in
  if score_finite (b_score (tp_best p)) then (score_text (b_score (tp_best p)) ++ " " ++ counters)%string
  else if Nat.eqb lp 0 && Nat.eqb (tp_iterations p) 0 && Nat.eqb (tp_assignments p) 0 then ("no solution yet " ++ depths)%string
  else ("no solution yet " ++ depths ++ " " ++ counters)%string.
(** /repo/src/status.rs:265-279 [format_solver_summary]. *)
Definition summary (maxdepth : f32) (p : tprogress) (lp : nat) (depth : f32) : string :=
  if score_finite (b_score (tp_best p)) then
    (score_text (b_score (tp_best p)) ++ "; i/a/l " ++ count_text (tp_iterations p) ++ "/" ++ count_text (tp_assignments p) ++ "/" ++ count_text lp
       ++ "; depth " ++ str_float depth 1 ++ "/" ++ str_float maxdepth 1)%string
  else "no score".

(** ** [track_solver], /repo/src/status.rs:65-99 *)

(** What is done to the bar. *)
(** /repo/src/status.rs:123-139. *)
Inductive bar_call := SetPosition (n : N) | SetMessage (t : string) | FinishAndClear.
(** [first]: the look before the loop (68); [loop]: the looks while the session
    runs (70-77); [last]: the look after it has ended (79); [result]: what [wait]
    returns (80-86).  The result: the calls on the bar, in order, and either the
    solution with the line that is printed, or the error. *)
Definition position_at (timeout : Z) (starts : list N) (g : glance) : N :=
  bar_position timeout (remaining_ms timeout starts (gl_clock g)).
(** /repo/src/status.rs:70-77: the loop. *)
Fixpoint watch (timeout : Z) (starts : list N) (maxdepth : f32) (tps : list tprogress) (loop : list glance)
  : list tprogress * list bar_call :=
  match loop with
  | [] => (tps, [])
  | g :: rest =>
      let (tps1, p) := poll tps (gl_arrived g) in
      let (tps2, calls) := watch timeout starts maxdepth tps1 rest in
      (tps2, SetPosition (position_at timeout starts g) :: SetMessage (message maxdepth p (gl_lp g) (gl_depth g)) :: calls)
  end.
(** /repo/src/status.rs:65-99 [track_solver]. *)
Definition track (timeout : Z) (starts : list N) (maxdepth : f32) (tps : list tprogress)
  (first : glance) (loop : list glance) (last : glance) (result : outcome solution) : list bar_call * outcome (solution * string) :=
  let (tps1, p1) := poll tps (gl_arrived first) in
  let opening := SetMessage (message maxdepth p1 (gl_lp first) (gl_depth first)) in
  let (tps2, calls) := watch timeout starts maxdepth tps1 loop in
  let (_, p3) := poll tps2 (gl_arrived last) in
  match result with
  | Ok sol =>
      let line := match sol with
                  | SolInvalid => "No solution found."
                  | _ => ("Solved " ++ summary maxdepth p3 (gl_lp last) (gl_depth last))%string
                  end in
      (opening :: calls ++ [SetPosition (position_at timeout starts last); FinishAndClear], Ok (sol, line))
  | Err e => (opening :: calls ++ [FinishAndClear], Err e)
  | Panic => (opening :: calls, Panic)
  end.
