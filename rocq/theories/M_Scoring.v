(** Schedulings, assignments, scoring and the score order
    (/repo/src/scheduling.rs, assignment.rs, scoring.rs, score.rs). *)
From Verif Require Import Base M_Data.
From Coq Require Import Floats.SpecFloat Sorting.Mergesort.

(** ** Sorting of index lists *)

(** [sort_unstable] on [Vec<usize>]: any sort gives the same list of numbers, so
    insertion sort stands for it. *)
(** Used at /repo/src/assignment.rs:39, 47. *)
Fixpoint insert_nat (x : nat) (l : list nat) : list nat :=
  match l with
  | [] => [x]
  | h :: t => if x <=? h then x :: l else h :: insert_nat x t
  end.
(** /repo/src/assignment.rs:39, 47 [sort_unstable]. *)
Fixpoint sort_nat (l : list nat) : list nat :=
  match l with [] => [] | h :: t => insert_nat h (sort_nat t) end.

(** [==] on [Vec<usize>], /repo/src/scoring.rs:188-189, 207-208. *)
Fixpoint list_nat_eqb (a b : list nat) : bool :=
  match a, b with
  | [], [] => true
  | x :: xs, y :: ys => (x =? y) && list_nat_eqb xs ys
  | _, _ => false
  end.

(** ** Scheduling *)

(** /repo/src/scheduling.rs:55-57 [slot_of]. *)
Definition slot_of (s : scheduling) (choice : nat) : outcome (option nat) := get s choice.

(** /repo/src/scoring.rs:121-154: number of choices in a slot; counts over
    [0..choices.len()] and so panics if the scheduling is shorter. *)
Definition count_in_slot (d : input_data) (s : scheduling) (slot : nat) : outcome nat :=
  mfold (fun n c => let* x := slot_of s c in
                    Ok (if opt_nat_eqb x (Some slot) then S n else n))
        (seq 0 (n_choices d)) 0.

(** /repo/src/scoring.rs:157-164: comparison for [SlotHasLimitedSize]. *)
Definition limit_ok (o : limit_op) (count lim : N) : bool :=
  match o with
  | OpEq => (count =? lim)%N
  | OpNeq => negb (count =? lim)%N
  | OpGt => (lim <? count)%N
  | OpLt => (count <? lim)%N
  | OpGeq => (lim <=? count)%N
  | OpLeq => (count <=? lim)%N
  end.

(** One iteration of /repo/src/scoring.rs:107-171
    [satisfies_constraints_scheduling]. *)
Definition sat_sched1 (d : input_data) (s : scheduling) (c : constraint) : outcome bool :=
  let left := c_left c in
  match c_kind c with
  | ChoiceIsInSlot =>
      let* x := slot_of s left in let* t := con_slot c in
      Ok (opt_nat_eqb x (Some t))
  | ChoiceIsNotInSlot =>
      let* x := slot_of s left in let* t := con_slot c in
      Ok (negb (opt_nat_eqb x (Some t)))
  | ChoicesAreInSameSlot =>
      let* x := slot_of s left in let* o := con_other_choice c in let* y := slot_of s o in
      Ok (opt_nat_eqb x y)
  | ChoicesAreNotInSameSlot =>
      let* x := slot_of s left in
      if is_some x then
        let* o := con_other_choice c in let* y := slot_of s o in
        if is_some y then Ok (negb (opt_nat_eqb x y)) else Ok true
      else Ok true
  | ChoicesHaveOffset =>
      let* x := slot_of s left in let* o := con_other_choice c in let* y := slot_of s o in
      match x, y with
      | Some l, Some r =>
          let* r' := to_i32 r in let* l' := to_i32 l in let* off := con_offset c in
          Ok (r' - l' =? off)%Z
      | None, None => Ok true
      | _, _ => Ok false
      end
  | SlotHasLimitedSize =>
      let* n := count_in_slot d s left in
      let* o := con_op c in let* lim := con_limit c in
      Ok (limit_ok o (sat_u32 n) lim)
  | _ => Panic
  end.

(** /repo/src/scoring.rs:103-174 [satisfies_constraints_scheduling]. *)
Definition sat_sched (d : input_data) (s : scheduling) : outcome bool :=
  mforall (sat_sched1 d s) (i_sched d).

(** /repo/src/scheduling.rs:29-46: the summing loop of [is_feasible]; [None]
    stands for the early [return false]. *)
Fixpoint feas_sums (p : profile) (d : input_data) (idx : nat) (s : scheduling)
         (mn mx : list N) : outcome (option (list N * list N)) :=
  match s with
  | [] => Ok (Some (mn, mx))
  | None :: t =>
      let* c := get (i_choices d) idx in
      if ch_optional c then feas_sums p d (S idx) t mn mx else Ok None
  | Some slot :: t =>
      let* c := get (i_choices d) idx in
      let* a := get mn slot in let* a' := add_u32 p a (ch_min c) in let* mn' := set mn slot a' in
      let* b := get mx slot in let* b' := add_u32 p b (ch_max c) in let* mx' := set mx slot b' in
      feas_sums p d (S idx) t mn' mx'
  end.

(** /repo/src/scheduling.rs:24-49 [Scheduling::is_feasible]. *)
Definition sched_is_feasible (p : profile) (d : input_data) (s : scheduling) : outcome bool :=
  let z := repeat 0%N (n_slots d) in
  let cnt := sat_u32 (n_choosers d) in
  let* r := feas_sums p d 0 s z z in
  match r with
  | None => Ok false
  | Some (mn, mx) =>
      let* ok := mforall (fun slot =>
                   let* a := get mn slot in
                   let* b := get mx slot in
                   Ok (negb ((cnt <? a)%N || (b <? cnt)%N))) (seq 0 (n_slots d)) in
      if ok then sat_sched d s else Ok false
  end.

(** ** Assignment *)

(** /repo/src/assignment.rs:26-28 [choice_of]. *)
Definition choice_of (a : assignment) (chooser slot : nat) : outcome nat :=
  let* row := get a chooser in get row slot.

(** /repo/src/assignment.rs:30-41 [choosers_ordered]. *)
Definition choosers_ordered (d : input_data) (a : assignment) (choice : nat) : outcome (list nat) :=
  let* l := mfold (fun acc p =>
              mfold (fun acc' s => let* x := choice_of a p s in
                                   Ok (if x =? choice then acc' ++ [p] else acc'))
                    (seq 0 (n_slots d)) acc)
            (seq 0 (n_choosers d)) [] in
  Ok (sort_nat l).

(** /repo/src/assignment.rs:43-49 [choices_ordered]. *)
Definition choices_ordered (d : input_data) (a : assignment) (chooser : nat) : outcome (list nat) :=
  let* l := mmap (fun s => choice_of a chooser s) (seq 0 (n_slots d)) in
  Ok (sort_nat l).

(** /repo/src/assignment.rs:51-58 [is_in_choice]. *)
Definition is_in_choice (d : input_data) (a : assignment) (chooser choice : nat) : outcome bool :=
  mexists (fun s => let* x := choice_of a chooser s in Ok (x =? choice)) (seq 0 (n_slots d)).

(** One iteration of /repo/src/scoring.rs:181-215
    [satisfies_constraints_assignment]. *)
Definition sat_asg1 (d : input_data) (s : scheduling) (a : assignment) (c : constraint) : outcome bool :=
  let left := c_left c in
  match c_kind c with
  | ChoicesHaveSameChoosers =>
      let* o := con_other_choice c in let* y := slot_of s o in
      if is_some y then
        let* x := slot_of s left in
        if is_some x then
          let* l1 := choosers_ordered d a left in let* l2 := choosers_ordered d a o in
          Ok (list_nat_eqb l1 l2)
        else Ok true
      else Ok true
  | ChooserIsInChoice =>
      let* o := con_other_choice c in let* y := slot_of s o in
      if is_some y then is_in_choice d a left o else Ok true
  | ChooserIsNotInChoice =>
      let* o := con_other_choice c in
      let* b := is_in_choice d a left o in Ok (negb b)
  | ChoosersHaveSameChoices =>
      let* l1 := choices_ordered d a left in
      let* o := con_other_chooser c in let* l2 := choices_ordered d a o in
      Ok (list_nat_eqb l1 l2)
  | _ => Panic
  end.

(** /repo/src/scoring.rs:176-218 [satisfies_constraints_assignment]. *)
Definition sat_asg (d : input_data) (s : scheduling) (a : assignment) : outcome bool :=
  mforall (sat_asg1 d s a) (i_assign d).

(** /repo/src/scoring.rs:47-61: the coverage loop of [Scoring::is_feasible] for
    one chooser.  State: which slots are already taken, attendance counters.
    [None] = early [return false].  The [u32] counters are kept unbounded: one
    counter would need 2^32 increments to overflow. *)
Fixpoint cover_row (slots : scheduling) (a : assignment) (chooser : nat) (todo : list nat)
         (taken : list bool) (counts : list N) : outcome (option (list bool * list N)) :=
  match todo with
  | [] => Ok (Some (taken, counts))
  | slot :: t =>
      let* choice := choice_of a chooser slot in
      let* os := get slots choice in
      let* sl := expect os in
      let* b := get taken sl in
      if b then Ok None else
      let* taken' := set taken sl true in
      let* n := get counts choice in
      let* counts' := set counts choice (n + 1)%N in
      cover_row slots a chooser t taken' counts'
  end.

(** /repo/src/scoring.rs:47-61: the loop over the choosers. *)
Fixpoint cover_all (d : input_data) (slots : scheduling) (a : assignment) (todo : list nat)
         (counts : list N) : outcome (option (list N)) :=
  match todo with
  | [] => Ok (Some counts)
  | chooser :: t =>
      let* r := cover_row slots a chooser (seq 0 (n_slots d)) (repeat false (n_slots d)) counts in
      match r with
      | None => Ok None
      | Some (_, counts') => cover_all d slots a t counts'
      end
  end.

(** /repo/src/scoring.rs:27-74 [Scoring::is_feasible] of a complete solution. *)
Definition sol_is_feasible (d : input_data) (s : scheduling) (a : assignment) : outcome bool :=
  let* slots := mmap (fun c => slot_of s c) (seq 0 (n_choices d)) in
  let* b1 := sat_sched d s in
  if negb b1 then Ok false else
  let* b2 := sat_asg d s a in
  if negb b2 then Ok false else
  let* r := cover_all d slots a (seq 0 (n_choosers d)) (repeat 0%N (n_choices d)) in
  match r with
  | None => Ok false
  | Some counts =>
      mforall (fun i =>
        let* x := slot_of s i in
        match x with
        | None => Ok true
        | Some _ =>
            let* cnt := get counts i in
            let* c := get (i_choices d) i in
            Ok (negb ((cnt <? ch_min c)%N || (ch_max c <? cnt)%N))
        end) (seq 0 (n_choices d))
  end.

(** ** Scores *)

(** IEEE single precision, axiom-free ([Coq.Floats.SpecFloat]). *)
(** The type of /repo/src/score.rs:3-4. *)
Definition f32 := spec_float.
(** Precision of [f32] (/repo/src/score.rs:3-4): 24 bits. *)
Definition prec32 : Z := 24.
(** Exponent range of [f32] (/repo/src/score.rs:3-4). *)
Definition emax32 : Z := 128.
(** [as f32], /repo/src/scoring.rs:18, 89, 258. *)
Definition f32_of_Z (z : Z) : f32 := binary_normalize prec32 emax32 z 0 false.
(** [+] on [f32], /repo/src/scoring.rs:257 (the sum of the histogram). *)
Definition f32_add (x y : f32) : f32 := SFadd prec32 emax32 x y.
(** [*] on [f32], /repo/src/scoring.rs:258. *)
Definition f32_mul (x y : f32) : f32 := SFmul prec32 emax32 x y.
(** [/] on [f32], /repo/src/scoring.rs:258. *)
Definition f32_div (x y : f32) : f32 := SFdiv prec32 emax32 x y.
(** [f32::INFINITY], /repo/src/scoring.rs:81-82. *)
Definition f32_inf : f32 := S754_infinity false.
(** [0.0], the start of the sum, /repo/src/scoring.rs:255. *)
Definition f32_zero : f32 := S754_zero false.

(** [x as f32] for an unsigned integer: round to nearest even. *)
(** /repo/src/scoring.rs:18, 89, 258. *)
Definition f32_of_N (n : N) : f32 := f32_of_Z (Z.of_N n).

(** [f32::is_nan], /repo/src/score.rs:9, 15, 44-45. *)
Definition is_nan (x : f32) : bool := match x with S754_nan => true | _ => false end.
(** [f32::is_finite]. *)
(** /repo/src/score.rs:9 and /repo/src/scoring.rs:93. *)
Definition is_fin (x : f32) : bool :=
  match x with S754_zero _ | S754_finite _ _ _ => true | _ => false end.

(** [f32::total_cmp].  [SpecFloat] has a single NaN without sign; the code only
    uses the result for non-NaN operands (score.rs:43-48), NaN is put last. *)
Definition total_cmp (x y : f32) : comparison :=
  match SFcompare x y with
  | Some Eq =>
      match x, y with
      | S754_zero true, S754_zero false => Lt
      | S754_zero false, S754_zero true => Gt
      | _, _ => Eq
      end
  | Some c => c
  | None => match is_nan x, is_nan y with true, true => Eq | true, false => Gt | _, _ => Lt end
  end.

(** /repo/src/score.rs:2-5 [Score]. *)
Record score := mkScore { sc_major : f32; sc_minor : f32 }.

(** /repo/src/score.rs:8-10 [Score::is_finite]. *)
Definition score_finite (s : score) : bool :=
  is_fin (sc_minor s) && (is_fin (sc_major s) || is_nan (sc_major s)).

(** /repo/src/score.rs:36-54 [Ord::cmp]. *)
Definition score_cmp (a b : score) : comparison :=
  match score_finite a, score_finite b with
  | false, false => Eq
  | false, true => Gt
  | true, false => Lt
  | true, true =>
      let m := total_cmp (sc_major a) (sc_major b) in
      if is_nan (sc_major a) || is_nan (sc_major b) || match m with Eq => true | _ => false end
      then total_cmp (sc_minor a) (sc_minor b)
      else m
  end.

(** [a < b] through [partial_cmp] (score.rs:30-34). *)
Definition score_lt (a b : score) : bool := match score_cmp a b with Lt => true | _ => false end.

(** Derived [PartialEq] (score.rs:1): IEEE [==] on both fields. *)
Definition score_eqb (a b : score) : bool :=
  SFeqb (sc_major a) (sc_major b) && SFeqb (sc_minor a) (sc_minor b).

(** /repo/src/scoring.rs:80-83. *)
Definition score_infinite : score := mkScore f32_inf f32_inf.

(** /repo/src/scoring.rs:222-232 [evaluate_major]. *)
Definition evaluate_major (d : input_data) (a : assignment) : outcome N :=
  mfold (fun m p =>
    mfold (fun m' s =>
      let* c := choice_of a p s in
      let* ch := get (i_choosers d) p in
      let* pref := get (cs_prefs ch) c in
      Ok (N.max m' pref)) (seq 0 (n_slots d)) m)
    (seq 0 (n_choosers d)) 0%N.

(** /repo/src/scoring.rs:240-253: the histogram of assigned preferences. *)
Definition pref_histogram (p : profile) (d : input_data) (a : assignment) : outcome (list N) :=
  let* len := add_u32 p (i_max_pref d) 1 in
  mfold (fun h ch =>
    mfold (fun h' s =>
      let* c := choice_of a ch s in
      let* cd := get (i_choosers d) ch in
      let* pref := get (cs_prefs cd) c in
      let i := N.to_nat pref in
      let* n := get h' i in
      set h' i (n + 1)%N) (seq 0 (n_slots d)) h)
    (seq 0 (n_choosers d)) (repeat 0%N (N.to_nat len)).

(** /repo/src/scoring.rs:255-260: the summing loop; [pow x] stands for
    [x.powf(preference_exponent as f32)] (an arbitrary function here), [pref] is
    the index of the first remaining counter. *)
Fixpoint minor_sum (pow : f32 -> f32) (scaling : f32) (pref : N) (h : list N) (sum : f32) : f32 :=
  match h with
  | [] => sum
  | n :: t =>
      minor_sum pow scaling (pref + 1)%N t
        (f32_add sum (f32_div (f32_mul (f32_of_N n) (pow (f32_of_N pref))) scaling))
  end.

(** /repo/src/scoring.rs:14-19: [scaling] as set by [Scoring::new]. *)
Definition scoring_scaling (pow : f32 -> f32) (d : input_data) : f32 :=
  if (i_max_pref d =? 0)%N then f32_of_Z 1 else pow (f32_of_N (i_max_pref d)).

(** /repo/src/scoring.rs:234-261 [evaluate_minor]. *)
Definition evaluate_minor (p : profile) (pow : f32 -> f32) (d : input_data)
           (s : scheduling) (a : assignment) : outcome f32 :=
  let* ok := sol_is_feasible d s a in
  if negb ok then Ok f32_inf else
  let* h := pref_histogram p d a in
  Ok (minor_sum pow (scoring_scaling pow d) 0 h f32_zero).

(** /repo/src/scoring.rs:78-101 [Scoring::evaluate]. *)
Definition evaluate (p : profile) (pow : f32 -> f32) (greedy : bool) (d : input_data)
           (sol : solution) : outcome score :=
  match sol with
  | SolComplete s a =>
      let* major := (if greedy then Ok S754_nan
                     else let* m := evaluate_major d a in Ok (f32_of_N m)) in
      let* minor := evaluate_minor p pow d s a in
      if (is_fin major || is_nan major) && is_fin minor then Ok (mkScore major minor)
      else Ok score_infinite
  | _ => Ok score_infinite
  end.
