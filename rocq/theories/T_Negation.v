(** Property theorem about negated constraints: C97. *)
From Verif Require Import Base M_Data Spec P_Scoring M_Negation.

(** The constraints that can be negated, with what belongs to their kind. *)
Definition negatable (k : constraint) : Prop :=
  match c_kind k, c_right k, c_extra k with
  | ChoiceIsInSlot, TSlot _, _ | ChoiceIsNotInSlot, TSlot _, _ | ChoicesAreInSameSlot, TChoice _, _ | ChoicesAreNotInSameSlot, TChoice _, _
  | SlotHasLimitedSize, TLimit _, EOp _ | SlotContainsChoice, TChoice _, _ | SlotNotContainsChoice, TChoice _, _
  | ChooserIsInChoice, TChoice _, _ | ChooserIsNotInChoice, TChoice _, _
  | ChoiceContainsChooser, TChooser _, _ | ChoiceNotContainsChooser, TChooser _, _ => True
  | _, _, _ => False
  end.
(** The choices a constraint talks about. *)
Definition choices_of (k : constraint) : list nat :=
  match c_kind k, c_right k with
  | ChoiceIsInSlot, _ | ChoiceIsNotInSlot, _ | ChoiceContainsChooser, _ | ChoiceNotContainsChooser, _ => [c_left k]
  | ChoicesAreInSameSlot, TChoice c | ChoicesAreNotInSameSlot, TChoice c => [c_left k; c]
  | SlotContainsChoice, TChoice c | SlotNotContainsChoice, TChoice c | ChooserIsInChoice, TChoice c | ChooserIsNotInChoice, TChoice c => [c]
  | _, _ => []
  end.

Lemma scheduled_dec S c s : scheduled_in S c s \/ ~ scheduled_in S c s.
Proof.
  unfold scheduled_in. destruct (nth_error S c) as [[t|]|]; try (right; discriminate).
  destruct (Nat.eq_dec t s) as [->|H]; [left; reflexivity|right; congruence].
Qed.
Lemma attends_dec A p c : attends A p c \/ ~ attends A p c.
Proof.
  unfold attends. destruct (nth_error A p) as [row|] eqn:E.
  - destruct (in_dec Nat.eq_dec c row) as [H|H]; [left; eauto|right]. intros (r & Hr & Hi). congruence.
  - right. intros (r & Hr & _). discriminate.
Qed.
Lemma scheduled_fun S c s t : scheduled_in S c s -> scheduled_in S c t -> s = t.
Proof. unfold scheduled_in. congruence. Qed.
Lemma same_slot_split S a b : held S a -> held S b ->
  ((forall s, scheduled_in S a s <-> scheduled_in S b s) <-> ~ (forall s, ~ (scheduled_in S a s /\ scheduled_in S b s))).
Proof.
  intros [s Ha] [t Hb]. split.
  - intros H G. apply (G s). split; auto. apply H. exact Ha.
  - intros H. destruct (Nat.eq_dec s t) as [->|Hn].
    + intros x. split; intros Hx; [rewrite (scheduled_fun _ _ _ _ Hx Ha)|rewrite (scheduled_fun _ _ _ _ Hx Hb)]; auto.
    + exfalso. apply H. intros x [H1 H2]. apply Hn. rewrite (scheduled_fun _ _ _ _ Ha H1). apply (scheduled_fun _ _ _ _ H2 Hb).
Qed.
Lemma rel_negation o x y : rel_holds (op_negation o) x y <-> ~ rel_holds o x y.
Proof. destruct o; cbn; lia. Qed.
Lemma slot_count S s : exists m, cardinal (fun c => scheduled_in S c s) m.
Proof.
  set (l := filter (fun c => match nth_error S c with Some (Some t) => Nat.eqb t s | _ => false end) (seq 0 (length S))).
  exists (length l), l. split; [apply NoDup_filter, seq_NoDup|]. split; [|reflexivity]. intros c. unfold l. rewrite filter_In, in_seq. unfold scheduled_in.
  split.
  - intros [_ H]. destruct (nth_error S c) as [[t|]|]; try discriminate. apply Nat.eqb_eq in H. congruence.
  - intros H. rewrite H, Nat.eqb_refl. split; auto. assert (c < length S) by (apply nth_error_Some; congruence). lia.
Qed.

Theorem C97_negation_is_the_opposite :
  forall (S : scheduling) (A : assignment) (k : constraint),
    negatable k -> (forall c, In c (choices_of k) -> held S c) ->
    exists k', negation k = Ok k' /\ (means S A k' <-> ~ means S A k).
Proof.
  intros S A [kd l r ex] HN HH.
  assert (G : forall x, negation (mkC kd l r ex) = Ok x -> (means S A x <-> ~ means S A (mkC kd l r ex)) ->
    exists k', negation (mkC kd l r ex) = Ok k' /\ (means S A k' <-> ~ means S A (mkC kd l r ex))) by eauto.
  destruct kd, r; try contradiction; try (destruct ex; contradiction);
    try (eapply G; [reflexivity|]; cbv -[scheduled_in attends held cardinal rel_holds op_negation N.of_nat not iff]).
  - tauto.
  - pose proof (scheduled_dec S l s). tauto.
  - rewrite (same_slot_split S l c); [|apply HH; cbn; auto..].
    assert (D : (forall s, ~ (scheduled_in S l s /\ scheduled_in S c s)) \/ ~ (forall s, ~ (scheduled_in S l s /\ scheduled_in S c s))).
    { destruct (HH l ltac:(cbn; auto)) as [t Ht]. destruct (scheduled_dec S c t) as [Hc|Hc].
      - right. intros K. apply (K t). auto.
      - left. intros x [H1 H2]. apply Hc. rewrite (scheduled_fun _ _ _ _ Ht H1). exact H2. }
    tauto.
  - apply same_slot_split; apply HH; cbn; auto.
  - destruct ex as [| |o]; try contradiction. eapply G; [reflexivity|].
    cbv -[scheduled_in attends held cardinal rel_holds op_negation N.of_nat not iff].
    destruct (slot_count S l) as [m Hm]. split.
    + intros (m1 & H1 & R1) (m2 & H2 & R2). rewrite (cardinal_unique _ _ _ H2 H1) in R2. apply rel_negation in R1. contradiction.
    + intros H. exists m. split; [exact Hm|]. apply rel_negation. intros R. apply H. eauto.
  - tauto.
  - pose proof (scheduled_dec S c l). tauto.
  - pose proof (HH c ltac:(cbn; auto)). pose proof (attends_dec A l c). tauto.
  - pose proof (HH c ltac:(cbn; auto)). pose proof (attends_dec A l c). tauto.
  - pose proof (HH l ltac:(cbn; auto)). pose proof (attends_dec A p l). tauto.
  - pose proof (HH l ltac:(cbn; auto)). pose proof (attends_dec A p l). tauto.
Qed.
Print Assumptions C97_negation_is_the_opposite.

(** Negating twice gives the constraint back. *)
Theorem C97_negation_twice :
  forall (k k' : constraint), negatable k -> negation k = Ok k' -> negatable k' /\ negation k' = Ok k /\ choices_of k' = choices_of k.
Proof.
  intros [kd l r ex] k' HN H. destruct kd, r; try contradiction; try (injection H as <-; cbn; auto; fail).
  destruct ex as [| |o]; try contradiction. injection H as <-. split; [exact I|]. split; [destruct o; reflexivity|reflexivity].
Qed.
Print Assumptions C97_negation_twice.

(** What cannot be negated becomes a constraint that nothing meets; a limit without its
    operator is a panic. *)
Theorem C97_no_negation :
  forall (S : scheduling) (A : assignment) (k : constraint),
    In (c_kind k) [Invalid; ChoicesHaveOffset; SlotsHaveSameChoices; ChoicesHaveSameChoosers; ChoosersHaveSameChoices] ->
    exists k', negation k = Ok k' /\ c_kind k' = Invalid /\ ~ means S A k'.
Proof.
  intros S A [kd l r ex] H. cbn [c_kind In] in H.
  destruct H as [<- | [<- | [<- | [<- | [<- | []]]]]]; (eexists; split; [reflexivity|]; split; [reflexivity|]); destruct r; intros [].
Qed.
Print Assumptions C97_no_negation.
Theorem C97_negation_panics :
  forall (k : constraint), negation k = Panic <-> c_kind k = SlotHasLimitedSize /\ forall o, c_extra k <> EOp o.
Proof.
  intros [kd l r ex]. cbn [c_kind c_extra]. split.
  - destruct kd; try discriminate. destruct ex; try discriminate; intros _; split; auto; discriminate.
  - intros [-> H]. destruct ex as [| |o]; try reflexivity. destruct (H o eq_refl).
Qed.
Print Assumptions C97_negation_panics.

(** The condition is needed: of two dropped choices it is true that they are in the same
    slot and that they are not; a chooser need not be, and is not, in a dropped choice. *)
Theorem C97_dropped_choices :
  exists (S : scheduling) (A : assignment) (k k' : constraint), negatable k /\ negation k = Ok k' /\ means S A k /\ means S A k' /\
    exists q q', negatable q /\ negation q = Ok q' /\ means S A q /\ means S A q'.
Proof.
  exists [None; None; Some 0], [[2]], (mkC ChoicesAreInSameSlot 0 (TChoice 1) ENone), (mkC ChoicesAreNotInSameSlot 0 (TChoice 1) ENone).
  split; [exact I|]. split; [reflexivity|]. split; [intros s; cbn; tauto|]. split; [intros s [H _]; discriminate|].
  exists (mkC ChooserIsInChoice 0 (TChoice 1) ENone), (mkC ChooserIsNotInChoice 0 (TChoice 1) ENone).
  split; [exact I|]. split; [reflexivity|]. split; [intros [s H]; discriminate|]. intros (row & H & Hi). injection H as <-. destruct Hi as [Hi|[]]. discriminate.
Qed.
Print Assumptions C97_dropped_choices.

Example C97_witness :
  let S := [Some 0; Some 1] in let A := [[0; 1]] in
  let k := mkC SlotHasLimitedSize 0 (TLimit 1) (EOp OpGt) in let q := mkC ChooserIsInChoice 0 (TChoice 1) ENone in
  negatable k /\ (forall c, In c (choices_of k) -> held S c) /\ negation k = Ok (mkC SlotHasLimitedSize 0 (TLimit 1) (EOp OpLeq)) /\
  negatable q /\ (forall c, In c (choices_of q) -> held S c) /\ means S A q.
Proof.
  cbn zeta. split; [exact I|]. split; [intros c []|]. split; [reflexivity|]. split; [exact I|]. split.
  - intros c [<-|[]]. exists 1. reflexivity.
  - intros _. exists [0; 1]. cbn. auto.
Qed.
