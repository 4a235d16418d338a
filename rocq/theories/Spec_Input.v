(** Independent specification of the input stage: what declarations mean.
    Uses only data types; nothing of the builder's functions. *)
From Verif Require Import Base M_Data Spec M_Names M_Build.

(** ** What a constraint list requires *)

(** Kind and target of a constraint fit together (what the constraint builder
    can produce). *)
Definition shaped (k : constraint) : Prop :=
  match c_kind k, c_right k, c_extra k with
  | ChoiceIsInSlot, TSlot _, _ | ChoiceIsNotInSlot, TSlot _, _
  | ChoicesAreInSameSlot, TChoice _, _ | ChoicesAreNotInSameSlot, TChoice _, _
  | ChoicesHaveOffset, TChoice _, EOffset _
  | SlotHasLimitedSize, TLimit _, EOp _
  | SlotContainsChoice, TChoice _, _ | SlotNotContainsChoice, TChoice _, _
  | SlotsHaveSameChoices, TSlot _, _
  | ChoicesHaveSameChoosers, TChoice _, _
  | ChooserIsInChoice, TChoice _, _ | ChooserIsNotInChoice, TChoice _, _
  | ChoosersHaveSameChoices, TChooser _, _
  | ChoiceContainsChooser, TChooser _, _ | ChoiceNotContainsChooser, TChooser _, _ => True
  | _, _, _ => False
  end.

(** ... and its indices name existing objects. *)
Definition indexed (nc ns np : nat) (k : constraint) : Prop :=
  match c_kind k, c_right k, c_extra k with
  | ChoiceIsInSlot, TSlot s, _ | ChoiceIsNotInSlot, TSlot s, _ => c_left k < nc /\ s < ns
  | ChoicesAreInSameSlot, TChoice c, _ | ChoicesAreNotInSameSlot, TChoice c, _
  | ChoicesHaveOffset, TChoice c, EOffset _ => c_left k < nc /\ c < nc
  | SlotHasLimitedSize, TLimit n, EOp _ => c_left k < ns /\ (n <= u32_max)%N
  | SlotContainsChoice, TChoice c, _ | SlotNotContainsChoice, TChoice c, _ => c_left k < ns /\ c < nc
  | SlotsHaveSameChoices, TSlot s, _ => c_left k < ns /\ s < ns
  | ChoicesHaveSameChoosers, TChoice c, _ => c_left k < nc /\ c < nc
  | ChooserIsInChoice, TChoice c, _ | ChooserIsNotInChoice, TChoice c, _ => c_left k < np /\ c < nc
  | ChoosersHaveSameChoices, TChooser p, _ => c_left k < np /\ p < np
  | ChoiceContainsChooser, TChooser p, _ | ChoiceNotContainsChooser, TChooser p, _ => c_left k < nc /\ p < np
  | _, _, _ => False
  end.

(** ** Declared objects *)

(** A declared choice becomes this many processed choices (0 parts count as 1). *)
Definition copies (p : proto) : nat := Nat.max 1 (N.to_nat (p_parts p)).

(** Index of the first processed choice of the [i]-th declared one. *)
Fixpoint first_index (ps : list proto) (i : nat) : nat :=
  match i, ps with
  | S j, p :: t => copies p + first_index t j
  | _, _ => 0
  end.

(** Processed choice [c] is part [k] (counted from 0) of the [i]-th declared choice. *)
Definition is_part (ps : list proto) (i k c : nat) : Prop :=
  exists p, nth_error ps i = Some p /\ k < copies p /\ c = first_index ps i + k.

(** The object an accessor written in the script refers to. *)
Definition the_choice (r : reader) (a : accessor) (c : nat) : Prop :=
  exists i p, nth_error (r_choices r) i = Some p /\ p_name p = a_name a /\
              is_part (r_choices r) i (a_part a) c.
Definition the_slot (r : reader) (a : accessor) (s : nat) : Prop :=
  (exists sl, nth_error (r_slots r) s = Some sl /\ sl_name sl = a_name a).
Definition the_chooser (r : reader) (a : accessor) (p : nat) : Prop :=
  exists cd, nth_error (r_choosers r) p = Some cd /\ cs_name cd = a_name a.

Definition z_rel (r : rel_kind) (x y : Z) : Prop :=
  match r with
  | REq => x = y | RNeq => x <> y | RGt => (x > y)%Z | RLt => (x < y)%Z
  | RGeq => (x >= y)%Z | RLeq => (x <= y)%Z | _ => True
  end.
(** [x R y] iff [y (mirror R) x]. *)
Definition mirror_rel (r : rel_kind) : rel_kind :=
  match r with RGt => RLt | RLt => RGt | RGeq => RLeq | RLeq => RGeq | x => x end.
Definition is_order (r : rel_kind) : bool :=
  match r with RGt | RLt | RGeq | RLeq => true | _ => false end.

(** Documented meaning of the supported expressions [l R r]
    (/repo/doc/src/Manual.md).  [strict = false] weakens attendance requirements
    to choices that take place. *)
Definition says_direct (strict : bool) (r : reader) (S : scheduling) (A : assignment)
           (l : accessor) (rel : rel_kind) (rr : accessor) : Prop :=
  match a_kind l, a_sub l, rel, a_kind rr, a_sub rr with
  | AChoice, ASlot, REq, ASlot, ANotSet =>
      forall c s, the_choice r l c -> the_slot r rr s -> scheduled_in S c s
  | AChoice, ASlot, RNeq, ASlot, ANotSet =>
      forall c s, the_choice r l c -> the_slot r rr s -> ~ scheduled_in S c s
  | AChoice, ASlot, REq, AChoice, ASlot =>
      forall c c', the_choice r l c -> the_choice r rr c' ->
        forall s, scheduled_in S c s <-> scheduled_in S c' s
  | AChoice, ASlot, RNeq, AChoice, ASlot =>
      forall c c', the_choice r l c -> the_choice r rr c' ->
        forall s, ~ (scheduled_in S c s /\ scheduled_in S c' s)
  | ASlot, AChoice, RContains, AChoice, ANotSet =>
      forall s c, the_slot r l s -> the_choice r rr c -> scheduled_in S c s
  | ASlot, AChoice, RNotContains, AChoice, ANotSet =>
      forall s c, the_slot r l s -> the_choice r rr c -> ~ scheduled_in S c s
  | ASlot, AChoice, REq, ASlot, AChoice =>
      forall s s', the_slot r l s -> the_slot r rr s' ->
        forall c, scheduled_in S c s <-> scheduled_in S c s'
  | AChoice, AChooser, REq, AChoice, AChooser =>
      forall c c', the_choice r l c -> the_choice r rr c' ->
        (strict = false -> held S c /\ held S c') ->
        forall p, attends A p c <-> attends A p c'
  | AChooser, AChoice, RContains, AChoice, ANotSet =>
      forall p c, the_chooser r l p -> the_choice r rr c ->
        (strict = false -> held S c) -> attends A p c
  | AChooser, AChoice, RNotContains, AChoice, ANotSet =>
      forall p c, the_chooser r l p -> the_choice r rr c -> ~ attends A p c
  | AChooser, AChoice, REq, AChooser, AChoice =>
      forall p p', the_chooser r l p -> the_chooser r rr p' ->
        forall c, attends A p c <-> attends A p' c
  | AChoice, AChooser, RContains, AChooser, ANotSet =>
      forall c p, the_choice r l c -> the_chooser r rr p ->
        (strict = false -> held S c) -> attends A p c
  | AChoice, AChooser, RNotContains, AChooser, ANotSet =>
      forall c p, the_choice r l c -> the_chooser r rr p -> ~ attends A p c
  | ASlot, ASize, _, AInteger, ANotSet =>
      forall s z m, the_slot r l s -> a_name rr = z_to_string z ->
        cardinal (fun c => scheduled_in S c s) m -> z_rel rel (Z.of_nat m) z
  | _, _, _, _, _ => True
  end.

(** The relation holds read from left to right and, with the operator mirrored,
    from right to left ([contains] is only read from left to right). *)
Definition says (strict : bool) (r : reader) (S : scheduling) (A : assignment) (e : expr) : Prop :=
  says_direct strict r S A (e_left e) (e_rel e) (e_right e) /\
  match e_rel e with
  | RContains | RNotContains => True
  | rel => says_direct strict r S A (e_right e) (mirror_rel rel) (e_left e)
  end.

(** Values of the reader that Rust stores as u32. *)
Record reader_u32 (r : reader) : Prop := {
  ru_choices : forall p, In p (r_choices r) ->
     (p_min p <= u32_max /\ p_max p <= u32_max /\ p_parts p <= u32_max)%N;
  ru_prefs : forall c x, In c (r_choosers r) -> In x (cs_prefs c) -> (x <= u32_max)%N
}.
