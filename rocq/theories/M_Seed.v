(** Model of seeding: /repo/src/main.rs:15-27, /repo/src/threaded_solver.rs:98-100,
    /repo/src/shotgun_solver.rs:127-128. *)
From Verif Require Import Base M_Data M_Scoring M_Names M_Rng M_Critical M_Search M_Flow M_Climb M_Threads.
From Coq Require Import String.

(** /repo/src/main.rs:16-26.  [var] is the variable WASSIGN_SEED ([None] if it is
    unset or not Unicode), [nanos] the time since the epoch in nanoseconds (0 if
    the clock stands before it).  A number of nanoseconds beyond u64 becomes 0. *)
Definition clock_seed (nanos : N) : N := if (nanos <? two64)%N then nanos else 0%N.
(** /repo/src/main.rs:16-26. *)
Definition initial_seed (var : option string) (nanos : N) : N :=
  match var with
  | Some v => match parse_unsigned (two64 - 1) v with Some n => n | None => clock_seed nanos end
  | None => clock_seed nanos
  end.

(** The seeds of worker [i]: /repo/src/threaded_solver.rs:98-100 (its search
    engine), /repo/src/shotgun_solver.rs:128 (its local search engine). *)
Definition search_seed (seed : N) (i : nat) : N := mix_seed seed (N.of_nat i).
(** /repo/src/shotgun_solver.rs:128. *)
Definition climb_seed (seed : N) (i : nat) : N := ((search_seed seed i + 1) mod two64)%N.

(** A random engine as a function of its seed (StdRng::seed_from_u64,
    /repo/src/rng.rs:20-26): its answers to the requests in the order they are
    made.  The real engine's answer depends on the kinds of the earlier requests as
    well; those are determined by the earlier answers, so the function of the
    request number stands for it in a given solver. *)
Record engine := mkEngine { en_sample : N -> nat -> Z; en_shuffle : N -> nat -> list nat -> list nat }.
(** The clock as seen by worker [i]: the answers to its three kinds of tests. *)
(** The clock is read at /repo/src/scheduling_solver.rs:523, /repo/src/hill_climbing_solver.rs:60, 71, /repo/src/shotgun_solver.rs:173 and /repo/src/threaded_solver.rs:123. *)
Record clock := mkClock { ck_search : nat -> bool; ck_climb : nat -> bool; ck_worker : nat -> bool }.
(** The world of worker [i] when the seed is [seed]. *)
(** /repo/src/threaded_solver.rs:98-116 and /repo/src/shotgun_solver.rs:126-128. *)
Definition seeded_world (en : engine) (lp : nat -> env) (ck : nat -> clock) (seed : N) (i : nat) : world :=
  mkWorld (mkOracle (en_sample en (search_seed seed i)) (en_shuffle en (search_seed seed i)) (ck_search (ck i)))
          (mkOracle (en_sample en (climb_seed seed i)) (en_shuffle en (climb_seed seed i)) (ck_climb (ck i)))
          (lp i) (ck_worker (ck i)).
