(** Model of randomness: /repo/src/rng.rs, /repo/src/util.rs (riffle_shuffle). *)
From Verif Require Import Base.
From Coq Require Import Permutation.

(** The random engine and the clock are outside the model: every theorem holds
    for all oracles.  [tick] counts the requests made so far.
    - [o_sample t]: /repo/src/rng.rs:53-57 [sample_i32];
    - [o_shuffle t l]: /repo/src/rng.rs:65-68 [shuffle] on indices / markers;
    - [o_late t]: the test [time_now() > time_limit]. *)
Record oracle := mkOracle {
  o_sample : nat -> Z;
  o_shuffle : nat -> list nat -> list nat;
  o_late : nat -> bool
}.
(** What the engine guarantees: samples are i32, shuffling permutes. *)
(** The engine is called at /repo/src/rng.rs:54-56, 65-67. *)
Record fair (o : oracle) : Prop := {
  fair_sample : forall t, (i32_min <= o_sample o t <= i32_max)%Z;
  fair_shuffle : forall t l, Permutation l (o_shuffle o t l)
}.

(** [i32] addition and subtraction. *)
(** Used at /repo/src/rng.rs:61. *)
Definition i32_wrap (pr : profile) (z : Z) : outcome Z :=
  if (i32_min <=? z)%Z && (z <=? i32_max)%Z then Ok z
  else match pr with Debug => Panic | Release => Ok ((z + 2147483648) mod 4294967296 - 2147483648)%Z end.

(** [i32::rem_euclid]: panics for a zero divisor (and for MIN rem -1). *)
(** Used at /repo/src/rng.rs:61. *)
Definition rem_euclid (a b : Z) : outcome Z :=
  if (b =? 0)%Z then Panic
  else if (a =? i32_min)%Z && (b =? -1)%Z then Panic
  else Ok (a mod Z.abs b)%Z.

(** /repo/src/rng.rs:59-63 [next_in_range]. *)
Definition next_in_range (pr : profile) (sample lo hi : Z) : outcome Z :=
  let* w := i32_wrap pr (hi - lo) in
  let* r := rem_euclid sample w in
  i32_wrap pr (lo + r).

(** /repo/src/util.rs:15-38 [riffle_shuffle]; [pattern] is the shuffled marker
    vector (0 = left, otherwise right). *)
Fixpoint riffle {A} (pattern : list nat) (l r : list A) : outcome (list A) :=
  match pattern with
  | [] => Ok []
  | O :: p => match l with
              | x :: l' => let* t := riffle p l' r in Ok (x :: t)
              | [] => Panic
              end
  | S _ :: p => match r with
                | x :: r' => let* t := riffle p l r' in Ok (x :: t)
                | [] => Panic
                end
  end.
(** /repo/src/util.rs:15-36 [riffle_shuffle]. *)
Definition riffle_shuffle {A} (o : oracle) (tick : nat) (l r : list A) : outcome (list A) :=
  riffle (o_shuffle o tick (repeat 0 (length l) ++ repeat 1 (length r))) l r.

(** /repo/src/rng.rs:70-75 [mix_seed] on u64 (values below 2^64). *)
Definition two64 : N := 18446744073709551616.
(** /repo/src/rng.rs:70-75 [mix_seed]. *)
Definition mix_seed (seed stream : N) : N :=
  let v := N.lxor seed ((stream + 0x9E3779B97F4A7C15) mod two64)%N in
  let v := ((N.lxor v (N.shiftr v 30)) * 0xBF58476D1CE4E5B9 mod two64)%N in
  let v := ((N.lxor v (N.shiftr v 27)) * 0x94D049BB133111EB mod two64)%N in
  N.lxor v (N.shiftr v 31).
