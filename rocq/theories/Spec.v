(** Independent specification: what it means for a scheduling, an assignment
    and a solution to be valid.  Only the data types of [M_Data] are used, no
    function of the model.  Everything is said with quantifiers over choices,
    slots and choosers. *)
From Verif Require Import Base M_Data.

(** Choice [c] takes place in slot [s] / does not take place at all. *)
Definition scheduled_in (S : scheduling) (c s : nat) : Prop := nth_error S c = Some (Some s).
Definition held (S : scheduling) (c : nat) : Prop := exists s, scheduled_in S c s.
Definition not_held (S : scheduling) (c : nat) : Prop := nth_error S c = Some None.

(** Chooser [p] attends choice [c] (in some slot). *)
Definition attends (A : assignment) (p c : nat) : Prop :=
  exists row, nth_error A p = Some row /\ In c row.

(** [P] is true of exactly [n] numbers. *)
Definition cardinal (P : nat -> Prop) (n : nat) : Prop :=
  exists l, NoDup l /\ (forall x, In x l <-> P x) /\ length l = n.

(** Sum of a per-choice quantity over the choices that take place in slot [s]. *)
Fixpoint slot_sum (f : choice_data -> N) (cs : list choice_data) (S : scheduling) (s : nat) : N :=
  match cs, S with
  | c :: cs', x :: S' =>
      ((match x with Some t => if Nat.eqb t s then f c else 0 | None => 0 end) + slot_sum f cs' S' s)%N
  | _, _ => 0%N
  end.

Definition rel_holds (o : limit_op) (x y : N) : Prop :=
  match o with
  | OpEq => x = y
  | OpNeq => x <> y
  | OpGt => (x > y)%N
  | OpLt => (x < y)%N
  | OpGeq => (x >= y)%N
  | OpLeq => (x <= y)%N
  end.

(** Meaning of a constraint that talks about the scheduling only. *)
Definition sched_means (S : scheduling) (k : constraint) : Prop :=
  match c_kind k, c_right k, c_extra k with
  | ChoiceIsInSlot, TSlot s, _ => scheduled_in S (c_left k) s
  | ChoiceIsNotInSlot, TSlot s, _ => ~ scheduled_in S (c_left k) s
  | ChoicesAreInSameSlot, TChoice c', _ =>
      forall s, scheduled_in S (c_left k) s <-> scheduled_in S c' s
  | ChoicesAreNotInSameSlot, TChoice c', _ =>
      forall s, ~ (scheduled_in S (c_left k) s /\ scheduled_in S c' s)
  | ChoicesHaveOffset, TChoice c', EOffset z =>
      (not_held S (c_left k) /\ not_held S c') \/
      (exists s s', scheduled_in S (c_left k) s /\ scheduled_in S c' s' /\
                    (Z.of_nat s' = Z.of_nat s + z)%Z)
  | SlotHasLimitedSize, TLimit n, EOp o =>
      exists m, cardinal (fun c => scheduled_in S c (c_left k)) m /\ rel_holds o (N.of_nat m) n
  | SlotContainsChoice, TChoice c, _ => scheduled_in S c (c_left k)
  | SlotNotContainsChoice, TChoice c, _ => ~ scheduled_in S c (c_left k)
  | SlotsHaveSameChoices, TSlot s', _ =>
      forall c, scheduled_in S c (c_left k) <-> scheduled_in S c s'
  | _, _, _ => False
  end.

(** Meaning of a constraint on who attends what.  Requirements that a chooser
    attends a choice, and that two choices share their choosers, only apply when
    the choices are held (an optional choice may be dropped). *)
Definition asg_means (S : scheduling) (A : assignment) (k : constraint) : Prop :=
  match c_kind k, c_right k with
  | ChoicesHaveSameChoosers, TChoice c' =>
      held S (c_left k) -> held S c' -> forall p, attends A p (c_left k) <-> attends A p c'
  | ChooserIsInChoice, TChoice c => held S c -> attends A (c_left k) c
  | ChooserIsNotInChoice, TChoice c => ~ attends A (c_left k) c
  | ChoosersHaveSameChoices, TChooser p' => forall c, attends A (c_left k) c <-> attends A p' c
  | ChoiceContainsChooser, TChooser p => held S (c_left k) -> attends A p (c_left k)
  | ChoiceNotContainsChooser, TChooser p => ~ attends A p (c_left k)
  | _, _ => False
  end.

Definition means (S : scheduling) (A : assignment) (k : constraint) : Prop :=
  if (kind_code (c_kind k) <? 65536)%N then sched_means S k else asg_means S A k.

(** A scheduling that can be used: every choice gets a slot of the input or, if
    it is optional, none; in every slot the bounds of the choices held there
    admit all choosers; the scheduling constraints hold. *)
Record valid_scheduling (d : input_data) (S : scheduling) : Prop := {
  vs_length : length S = length (i_choices d);
  vs_range : forall c s, scheduled_in S c s -> s < length (i_slots d);
  vs_optional : forall c ch, nth_error (i_choices d) c = Some ch -> not_held S c ->
                             ch_optional ch = true;
  vs_sums : forall s, s < length (i_slots d) ->
            (slot_sum ch_min (i_choices d) S s <= N.of_nat (length (i_choosers d)) /\
             N.of_nat (length (i_choosers d)) <= slot_sum ch_max (i_choices d) S s)%N;
  vs_cons : forall k, In k (i_sched d) -> sched_means S k
}.

(** Every chooser has exactly one choice per slot. *)
Definition one_choice_per_slot (d : input_data) (S : scheduling) (A : assignment) : Prop :=
  length A = length (i_choosers d) /\
  forall p row, nth_error A p = Some row ->
    length row = length (i_slots d) /\
    (forall c, In c row -> held S c) /\
    (forall s, s < length (i_slots d) -> exists! c, In c row /\ scheduled_in S c s).

(** Every held choice has between min and max choosers. *)
Definition bounds_respected (d : input_data) (S : scheduling) (A : assignment) : Prop :=
  forall c ch, nth_error (i_choices d) c = Some ch -> held S c ->
    exists m, cardinal (fun p => attends A p c) m /\
              (ch_min ch <= N.of_nat m /\ N.of_nat m <= ch_max ch)%N.

(** What scoring can see of a complete solution. *)
Record respects_all (d : input_data) (S : scheduling) (A : assignment) : Prop := {
  ra_one : one_choice_per_slot d S A;
  ra_bounds : bounds_respected d S A;
  ra_sched : forall k, In k (i_sched d) -> sched_means S k;
  ra_asg : forall k, In k (i_assign d) -> asg_means S A k
}.

(** A valid complete solution. *)
Record valid_solution (d : input_data) (S : scheduling) (A : assignment) : Prop := {
  vsol_sched : valid_scheduling d S;
  vsol_rest : respects_all d S A
}.

(** The preference of chooser [p] for choice [c]. *)
Definition pref_of (d : input_data) (p c : nat) (x : N) : Prop :=
  exists ch, nth_error (i_choosers d) p = Some ch /\ nth_error (cs_prefs ch) c = Some x.

(** Every attended choice has normalized preference at most [x] /
    [x] is the worst one. *)
Definition prefs_within (d : input_data) (A : assignment) (x : N) : Prop :=
  forall p c y, p < length (i_choosers d) -> attends A p c -> pref_of d p c y -> (y <= x)%N.
Definition worst_pref (d : input_data) (A : assignment) (x : N) : Prop :=
  prefs_within d A x /\
  (x = 0%N \/ exists p c, p < length (i_choosers d) /\ attends A p c /\ pref_of d p c x).

(** Shape of a processed constraint: what its consumers expect. *)
Definition sched_shape (d : input_data) (k : constraint) : Prop :=
  let nc := length (i_choices d) in
  let ns := length (i_slots d) in
  match c_kind k, c_right k, c_extra k with
  | ChoiceIsInSlot, TSlot s, _ | ChoiceIsNotInSlot, TSlot s, _ => c_left k < nc /\ s < ns
  | ChoicesAreInSameSlot, TChoice c, _ | ChoicesAreNotInSameSlot, TChoice c, _ =>
      c_left k < nc /\ c < nc
  | ChoicesHaveOffset, TChoice c, EOffset _ => c_left k < nc /\ c < nc
  | SlotHasLimitedSize, TLimit n, EOp _ => c_left k < ns /\ (n <= u32_max)%N
  | _, _, _ => False
  end.

Definition asg_shape (d : input_data) (k : constraint) : Prop :=
  let nc := length (i_choices d) in
  let np := length (i_choosers d) in
  match c_kind k, c_right k with
  | ChoicesHaveSameChoosers, TChoice c => c_left k < nc /\ c < nc
  | ChooserIsInChoice, TChoice c | ChooserIsNotInChoice, TChoice c => c_left k < np /\ c < nc
  | ChoosersHaveSameChoices, TChooser p => c_left k < np /\ p < np
  | _, _ => False
  end.

(** Well-formed processed input: the shape invariant the solvers rely on
    (proved for every accepted input in C39). *)
Record wf_input (d : input_data) : Prop := {
  wf_slots : length (i_slots d) <> 0;
  wf_sched : forall k, In k (i_sched d) -> sched_shape d k;
  wf_asg : forall k, In k (i_assign d) -> asg_shape d k;
  wf_prefs : forall ch, In ch (i_choosers d) -> length (cs_prefs ch) = length (i_choices d);
  wf_max : forall ch x, In ch (i_choosers d) -> In x (cs_prefs ch) -> (x <= i_max_pref d)%N;
  wf_u32 : (i_max_pref d <= u32_max)%N;
  wf_bounds_u32 : forall c, In c (i_choices d) -> (ch_min c <= u32_max /\ ch_max c <= u32_max)%N
}.

(** Machine-size limits that any input held in memory meets. *)
Record fits (d : input_data) : Prop := {
  fit_choosers : (N.of_nat (length (i_choosers d)) < u32_max)%N;
  fit_choices : (N.of_nat (length (i_choices d)) < u32_max)%N;
  fit_slots : (Z.of_nat (length (i_slots d)) <= i32_max)%Z
}.
