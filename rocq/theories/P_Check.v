(** Boolean checkers used to exhibit concrete inputs and solutions. *)
From Verif Require Import Base M_Data M_Scoring Spec P_Scoring P_Feasible P_Score.

Definition sched_shape_b (d : input_data) (k : constraint) : bool :=
  let nc := length (i_choices d) in
  let ns := length (i_slots d) in
  match c_kind k, c_right k, c_extra k with
  | ChoiceIsInSlot, TSlot s, _ | ChoiceIsNotInSlot, TSlot s, _ => (c_left k <? nc) && (s <? ns)
  | ChoicesAreInSameSlot, TChoice c, _ | ChoicesAreNotInSameSlot, TChoice c, _ => (c_left k <? nc) && (c <? nc)
  | ChoicesHaveOffset, TChoice c, EOffset _ => (c_left k <? nc) && (c <? nc)
  | SlotHasLimitedSize, TLimit n, EOp _ => (c_left k <? ns) && (n <=? u32_max)%N
  | _, _, _ => false
  end.
Definition asg_shape_b (d : input_data) (k : constraint) : bool :=
  let nc := length (i_choices d) in
  let np := length (i_choosers d) in
  match c_kind k, c_right k with
  | ChoicesHaveSameChoosers, TChoice c => (c_left k <? nc) && (c <? nc)
  | ChooserIsInChoice, TChoice c | ChooserIsNotInChoice, TChoice c => (c_left k <? np) && (c <? nc)
  | ChoosersHaveSameChoices, TChooser p => (c_left k <? np) && (p <? np)
  | _, _ => false
  end.
Definition wf_input_b (d : input_data) : bool :=
  negb (length (i_slots d) =? 0) && forallb (sched_shape_b d) (i_sched d) && forallb (asg_shape_b d) (i_assign d)
  && forallb (fun ch => (length (cs_prefs ch) =? length (i_choices d)) && forallb (fun x => x <=? i_max_pref d)%N (cs_prefs ch)) (i_choosers d)
  && (i_max_pref d <=? u32_max)%N && forallb (fun c => (ch_min c <=? u32_max)%N && (ch_max c <=? u32_max)%N) (i_choices d).
Definition fits_b (d : input_data) : bool :=
  (N.of_nat (length (i_choosers d)) <? u32_max)%N && (N.of_nat (length (i_choices d)) <? u32_max)%N
  && (Z.of_nat (length (i_slots d)) <=? i32_max)%Z.

Lemma sched_shape_b_ok d k : sched_shape_b d k = true -> sched_shape d k.
Proof.
  unfold sched_shape_b, sched_shape. destruct (c_kind k), (c_right k), (c_extra k); try discriminate;
    rewrite andb_true_iff, ?Nat.ltb_lt, ?N.leb_le; auto.
Qed.
Lemma asg_shape_b_ok d k : asg_shape_b d k = true -> asg_shape d k.
Proof.
  unfold asg_shape_b, asg_shape. destruct (c_kind k), (c_right k); try discriminate;
    rewrite andb_true_iff, ?Nat.ltb_lt; auto.
Qed.
Lemma wf_input_b_ok d : wf_input_b d = true -> wf_input d.
Proof.
  unfold wf_input_b. rewrite !andb_true_iff, !forallb_forall, negb_true_iff, Nat.eqb_neq, N.leb_le.
  intros (((((H1 & H2) & H3) & H4) & H5) & H6). constructor; auto.
  - intros k Hk. apply sched_shape_b_ok; auto.
  - intros k Hk. apply asg_shape_b_ok; auto.
  - intros ch Hc. apply H4 in Hc. apply andb_true_iff in Hc as [Hc _]. apply Nat.eqb_eq; auto.
  - intros ch x Hc Hx. apply H4 in Hc. apply andb_true_iff in Hc as [_ Hc]. rewrite forallb_forall in Hc.
    apply N.leb_le; auto.
  - intros c Hc. apply H6 in Hc. apply andb_true_iff in Hc as [A B]. apply N.leb_le in A, B. auto.
Qed.
Lemma fits_b_ok d : fits_b d = true -> fits d.
Proof.
  unfold fits_b. rewrite !andb_true_iff, !N.ltb_lt, Z.leb_le. intros ((? & ?) & ?). constructor; auto.
Qed.

Definition is_ok_true (o : outcome bool) : bool := match o with Ok b => b | _ => false end.
Lemma is_ok_true_ok o : is_ok_true o = true -> o = Ok true.
Proof. destruct o as [[|]| |]; cbn; congruence. Qed.

Definition rows_b (d : input_data) (A : assignment) : bool :=
  (length A =? length (i_choosers d)) && forallb (fun row => length row =? length (i_slots d)) A.

Definition check_scheduling (d : input_data) (S : scheduling) : bool :=
  (length S =? length (i_choices d)) && is_ok_true (sched_is_feasible Debug d S).
Definition check_respects (d : input_data) (S : scheduling) (A : assignment) : bool :=
  (length S =? length (i_choices d)) && rows_b d A && is_ok_true (sol_is_feasible d S A).
Definition check_solution (d : input_data) (S : scheduling) (A : assignment) : bool :=
  check_scheduling d S && check_respects d S A.

Lemma rows_b_ok d A : rows_b d A = true -> length A = length (i_choosers d) /\
  forall p row, nth_error A p = Some row -> length row = length (i_slots d).
Proof.
  unfold rows_b. rewrite andb_true_iff, Nat.eqb_eq, forallb_forall. intros [H1 H2]. split; auto.
  intros p row Hp. apply nth_error_In in Hp. apply H2, Nat.eqb_eq in Hp. auto.
Qed.
Lemma check_scheduling_ok d S : fits d -> wf_input d -> check_scheduling d S = true -> valid_scheduling d S.
Proof.
  unfold check_scheduling. rewrite andb_true_iff, Nat.eqb_eq. intros HF HW [H1 H2]. apply is_ok_true_ok in H2.
  apply sched_is_feasible_debug; auto.
Qed.
Lemma check_respects_ok d S A : fits d -> wf_input d -> check_respects d S A = true -> respects_all d S A.
Proof.
  unfold check_respects. rewrite !andb_true_iff, Nat.eqb_eq. intros HF HW [[H1 H2] H3]. apply is_ok_true_ok in H3.
  destruct (rows_b_ok _ _ H2). apply sol_is_feasible_sound; auto.
Qed.
Lemma check_solution_ok d S A : fits d -> wf_input d -> check_solution d S A = true -> valid_solution d S A.
Proof.
  unfold check_solution. rewrite andb_true_iff. intros HF HW [H1 H2]. constructor;
    [apply check_scheduling_ok|apply check_respects_ok]; auto.
Qed.
