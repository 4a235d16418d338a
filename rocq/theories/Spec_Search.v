(** Independent specification for the scheduling search and critical sets. *)
From Verif Require Import Base M_Data Spec.
From Coq Require Import Sorted.

(** Every slot holds one of the choices of [data]. *)
Definition covers_slots (d : input_data) (S : scheduling) (data : list nat) : Prop :=
  forall s, s < length (i_slots d) -> exists c, In c data /\ scheduled_in S c s.

(** [data] lists, in order, the choices that chooser [x] rates at most [q]. *)
Definition liked (d : input_data) (q : N) (x : nat) (data : list nat) : Prop :=
  StronglySorted lt data /\
  forall c, In c data <-> c < length (i_choices d) /\ exists y, pref_of d x c y /\ (y <= q)%N.

(** Sum of a quantity over the listed choices. *)
Definition sum_over (f : choice_data -> N) (d : input_data) (l : list nat) : N :=
  fold_right (fun c t => (match nth_error (i_choices d) c with Some ch => f ch | None => 0 end + t)%N) 0%N l.

(** The critical sets of level [q]: the liked sets that could still miss a slot
    by capacity, i.e. whose minimal audiences fit beside one empty slot. *)
Definition critical_at (d : input_data) (q : N) (x : nat) (data : list nat) : Prop :=
  In q (i_levels d) /\ x < length (i_choosers d) /\ liked d q x data /\
  (sum_over ch_min d data <= N.of_nat (length (i_choosers d)) * N.of_nat (length (i_slots d) - 1))%N.

(** All bound sums stay within u32. *)
Definition total (f : choice_data -> N) (d : input_data) : N := fold_right (fun c t => (f c + t)%N) 0%N (i_choices d).
Definition totals_fit (d : input_data) : Prop := (total ch_min d <= u32_max /\ total ch_max d <= u32_max)%N.

(** Constraint [k] is one that placing choice [c] can break. *)
Definition concerns (c : nat) (k : constraint) : Prop :=
  match c_kind k with
  | ChoiceIsInSlot | ChoiceIsNotInSlot => c_left k = c
  | ChoicesAreInSameSlot | ChoicesAreNotInSameSlot | ChoicesHaveOffset => c_left k = c \/ c_right k = TChoice c
  | SlotHasLimitedSize => True
  | _ => False
  end.

(** Inputs on which no machine integer of the scheduling search overflows; the
    last two clauses hold of every accepted input. *)
Record searchable (d : input_data) : Prop := {
  sr_totals : totals_fit d;
  sr_choices : (Z.of_nat (length (i_choices d)) <= i32_max)%Z;
  sr_slots : (2 * Z.of_nat (length (i_slots d)) <= i32_max)%Z;
  sr_limits : forall k n, In k (i_sched d) -> c_right k = TLimit n -> (Z.of_N n <= i32_max)%Z;
  sr_offsets : forall k z, In k (i_sched d) -> c_extra k = EOffset z -> (- i32_max <= z <= i32_max)%Z;
  sr_map : length (i_choice_map d) = length (i_choices d) /\
           forall c l k, nth_error (i_choice_map d) c = Some l -> In k l -> In k (i_sched d) /\ concerns c k
}.

(** The preference levels are strictly ascending, start with 0 and end with the
    largest preference (proved for every accepted input in C21). *)
Record levels_ok (d : input_data) : Prop := {
  lv_sorted : StronglySorted N.lt (i_levels d);
  lv_zero : In 0%N (i_levels d);
  lv_max : In (i_max_pref d) (i_levels d);
  lv_le : forall l, In l (i_levels d) -> (l <= i_max_pref d)%N
}.

(** Inputs on which no machine integer of the critical-set analysis overflows. *)
Record analyzable (d : input_data) : Prop := {
  az_min : (total ch_min d <= u32_max)%N;
  az_cap : (N.of_nat (length (i_choosers d)) * N.of_nat (length (i_slots d) - 1) <= u32_max)%N
}.

(** No constraint relates a choice to itself (a choice apart from itself, or
    before itself, can only be left out). *)
Definition no_self_relation (d : input_data) : Prop :=
  forall k c, In k (i_sched d) -> c_kind k = ChoicesAreNotInSameSlot \/ c_kind k = ChoicesHaveOffset ->
    c_right k = TChoice c -> c_left k <> c.

(** Wherever a slot's choices do not admit all choosers yet, any further choice
    fits there: a slot never becomes overfull by a choice it needs. *)
Definition never_overfull (d : input_data) : Prop :=
  forall (S : scheduling) (c : nat) (ch : choice_data) (s : nat),
    length S = length (i_choices d) -> nth_error (i_choices d) c = Some ch -> not_held S c ->
    (slot_sum ch_max (i_choices d) S s < N.of_nat (length (i_choosers d)))%N ->
    (slot_sum ch_min (i_choices d) S s + ch_min ch <= N.of_nat (length (i_choosers d)))%N.

(** The table by choice lists every constraint on that choice (C40). *)
Definition map_complete (d : input_data) : Prop :=
  forall c l k, nth_error (i_choice_map d) c = Some l -> In k (i_sched d) -> concerns c k -> In k l.
