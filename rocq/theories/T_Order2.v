(** Property theorem C79, continued: the order in which choices and
    constraints are listed does not matter. *)
From Verif Require Import Base M_Data Spec M_Scoring P_Scoring P_Feasible P_Check M_Union M_Names M_Build
  Spec_Input P_Input P_Input2 P_Input3 Spec_Meta P_Meta T_Input T_Meta Spec_Order P_Order T_Order Spec_Order2 P_Order2.
From Coq Require Import String Permutation.
Notation length := Datatypes.length.
Notation get := Base.get.
Open Scope string_scope.
Import ListNotations.
Open Scope list_scope.

(** ** C79, part three.  List the constraints in another order, and the choices
    (with every chooser's preferences moved accordingly).  If the input was accepted, it still is; part [k] of
    a choice is now found at another index [g c], with the same name, bounds and
    optional flag, and every chooser likes it as before; and a scheduling or
    solution is valid exactly when the renumbered one is, with the same score. *)
Theorem C79_choice_order_irrelevant :
  forall (pr : profile) (f : nat -> nat) (r r' : reader) (d : input_data),
    choices_relisted f r r' -> reader_u32 r -> build_input pr r = Ok d ->
    exists (d' : input_data) (g : nat -> nat), build_input pr r' = Ok d' /\
      parts_move f g r r' /\ (forall c c', g c = g c' -> c = c') /\
      i_slots d' = i_slots d /\ i_levels d' = i_levels d /\ i_max_pref d' = i_max_pref d /\
      length (i_choices d') = length (i_choices d) /\
      (forall c ch, nth_error (i_choices d) c = Some ch ->
         exists ch', nth_error (i_choices d') (g c) = Some ch' /\ ch_name ch' = ch_name ch /\
           ch_min ch' = ch_min ch /\ ch_max ch' = ch_max ch /\ ch_optional ch' = ch_optional ch) /\
      length (i_choosers d') = length (i_choosers d) /\
      (forall p ch, nth_error (i_choosers d) p = Some ch ->
         exists ch', nth_error (i_choosers d') p = Some ch' /\ cs_name ch' = cs_name ch /\
           placed g (cs_prefs ch) (cs_prefs ch')) /\
      (forall S S', placed g S S' -> (valid_scheduling d' S' <-> valid_scheduling d S)) /\
      (forall S S' A, placed g S S' -> (valid_solution d' S' (map (map g) A) <-> valid_solution d S A)) /\
      (fits d -> forall pow gr S S' A, placed g S S' -> valid_solution d S A ->
         evaluate pr pow gr d' (SolComplete S' (map (map g) A)) = evaluate pr pow gr d (SolComplete S A)).
Proof.
  intros pr f r r' d CL HU H. destruct (build_moved f r r' CL pr d HU H) as (d' & H' & HU' & DM).
  pose proof (built_wf _ _ _ H HU) as WF. pose proof (built_wf _ _ _ H' HU') as WF'.
  pose proof (cl_choices _ _ _ CL) as PF. set (g := regroup f (r_choices r) (r_choices r')).
  exists d', g. split; auto. split. { intros i k c. apply (mv_part f _ _ PF). }
  split. { apply (mv_inj f _ _ PF). }
  split; [apply DM|]. split; [apply DM|]. split; [apply DM|]. split. { rewrite (dm_n _ _ _ _ _ DM), (dm_n' _ _ _ _ _ DM). auto. }
  split; [apply DM|]. split; [apply DM|]. split; [apply DM|]. split; [|split].
  - intros S S' PS. apply (cm_valid_scheduling f r r' d d' CL DM WF S S' PS).
  - intros S S' A PS. apply (cm_valid f r r' d d' CL DM WF S S' A PS).
  - intros FI pow gr S S' A PS V. apply (cm_evaluate f r r' d d' CL DM WF WF' pr pow gr S S' A PS); auto.
    revert FI. apply fits_same; [apply DM|rewrite (dm_n _ _ _ _ _ DM), (dm_n' _ _ _ _ _ DM); auto|rewrite (dm_slots _ _ _ _ _ DM); auto].
Qed.
Print Assumptions C79_choice_order_irrelevant.

(** Seen from outside. *)
Lemma C79_choices_as_good pr f r r' d : choices_relisted f r r' -> reader_u32 r -> build_input pr r = Ok d -> fits d ->
  exists d', build_input pr r' = Ok d' /\ reader_u32 r' /\ fits d' /\ i_max_pref d' = i_max_pref d /\
    ((exists S A, valid_solution d' S A) <-> (exists S A, valid_solution d S A)) /\
    forall pow gr v, reaches pr pow gr r' v <-> reaches pr pow gr r v.
Proof.
  intros CL HU H FI. destruct (build_moved f r r' CL pr d HU H) as (d' & H' & HU' & DM).
  pose proof (built_wf _ _ _ H HU) as WF. pose proof (built_wf _ _ _ H' HU') as WF'.
  assert (FI' : fits d').
  { revert FI. apply fits_same; [apply DM|rewrite (dm_n _ _ _ _ _ DM), (dm_n' _ _ _ _ _ DM); auto|rewrite (dm_slots _ _ _ _ _ DM); auto]. }
  set (g := regroup f (r_choices r) (r_choices r')).
  pose proof (dm_n _ _ _ _ _ DM) as L1. pose proof (dm_n' _ _ _ _ _ DM) as L2.
  assert (TO : forall S A, valid_solution d S A -> exists S', placed g S S').
  { intros S A V. apply (cm_forth f r r' d d' CL DM). apply (vs_length _ _ (vsol_sched _ _ _ V)). }
  assert (BK : forall S' A', valid_solution d' S' A' -> exists S A, placed g S S' /\ A' = map (map g) A /\ valid_solution d S A).
  { intros S' A' V. destruct (cm_back f r r' d d' CL DM S') as (S & PS). { rewrite (vs_length _ _ (vsol_sched _ _ _ V)). congruence. }
    destruct (cm_rows f r r' d d' CL DM A') as (A & EA).
    { intros row c Hrow Hc. apply In_nth_error in Hrow as (p & Hp). destruct (ra_one _ _ _ (vsol_rest _ _ _ V)) as [_ Q].
      destruct (Q p row Hp) as (_ & Q2 & _). destruct (Q2 c Hc) as (s & Hs). rewrite L1, <- L2, <- (vs_length _ _ (vsol_sched _ _ _ V)).
      eapply nth_error_lt; exact Hs. }
    exists S, A. split; auto. split; auto. rewrite EA in V. apply (cm_valid f r r' d d' CL DM WF S S' A PS); auto. }
  exists d'. split; auto. split; auto. split; auto. split; [apply DM|]. split.
  - split.
    + intros (S' & A' & V). destruct (BK _ _ V) as (S & A & _ & _ & V0). eauto.
    + intros (S & A & V). destruct (TO _ _ V) as (S' & PS). exists S', (map (map g) A). apply (cm_valid f r r' d d' CL DM WF S S' A PS); auto.
  - intros pow gr v. split; intros (d0 & S & A & Hd & V & HE).
    + assert (d0 = d') by congruence. subst d0. destruct (BK _ _ V) as (S0 & A0 & PS & -> & V0). exists d, S0, A0. split; auto. split; auto.
      rewrite <- HE. symmetry. apply (cm_evaluate f r r' d d' CL DM WF WF'); auto.
    + assert (d0 = d) by congruence. subst d0. destruct (TO _ _ V) as (S' & PS). exists d', S', (map (map g) A). split; auto. split.
      * apply (cm_valid f r r' d d' CL DM WF S S' A PS); auto.
      * rewrite <- HE. apply (cm_evaluate f r r' d d' CL DM WF WF'); auto.
Qed.

(** ** C79, part four.  Shuffle choices, constraints, choosers and (without multi-part choices)
    slots: the input is still accepted, it has a valid solution exactly when it
    had one, and valid solutions reach exactly the same scores. *)
Theorem C79_any_listing_is_as_good :
  forall (pr : profile) (r r' : reader) (d : input_data),
    listed_anew r r' -> reader_u32 r -> build_input pr r = Ok d -> fits d -> (i_max_pref d < u32_max)%N ->
    exists d', build_input pr r' = Ok d' /\
      ((exists S A, valid_solution d' S A) <-> (exists S A, valid_solution d S A)) /\
      forall pow gr v, reaches pr pow gr r' v <-> reaches pr pow gr r v.
Proof.
  intros pr r r' d (f & m & CL & HP & HS & E1 & E2) HU H FI MX.
  destruct (C79_choices_as_good pr f r m d CL HU H FI) as (dm & Hm & HUm & FIm & EMm & K1 & K2).
  assert (SPm : single_parts r -> single_parts m).
  { intros SP p Hp. apply SP. apply (Permutation_in p (Permutation_sym (placed_perm _ _ _ (cl_choices _ _ _ CL)))); auto. }
  destruct (C79_shuffled_inputs_are_as_good pr m r' dm) as (d' & H' & K1' & K2'); auto.
  { destruct HS as [HS|[HS SP]]; auto. } { rewrite EMm; auto. }
  exists d'. split; auto. split; [tauto|]. intros pow gr v. rewrite K2', K2. tauto.
Qed.
Print Assumptions C79_any_listing_is_as_good.

(** r1 (T_Input.v) with its constraints backwards and its choices listed as c, b, a: the two parts of "a", at 0
    and 1, are now at 2 and 3; "b", at 2, is at 1; and "c", at 3, is at 0. *)
Definition r79p : reader := mkReader (r_slots r1) (rev (r_choices r1))
  [mkChooser "Ann" [2; 5; 1]%N; mkChooser "Bob" [3; 0; 9]%N; mkChooser "Cid" [0; 9; 4]%N] (rev (r_exprs r1)).
(** ... and with its choosers backwards as well. *)
Definition r79q : reader := mkReader (r_slots r1) (r_choices r79p) (rev (r_choosers r79p)) (r_exprs r79p).
Example C79_choices_witness : choices_relisted flip3 r1 r79p /\ listed_anew r1 r79q /\ reader_u32 r1 /\ build_input Debug r1 = Ok d1 /\ fits d1 /\
  (i_max_pref d1 < u32_max)%N /\ valid_solution d1 S1 A1 /\
  (forall f g, parts_move f g r1 r79p -> (forall i, i < 3 -> f i = flip3 i) -> map g [0; 1; 2; 3] = [2; 3; 1; 0]) /\
  exists d', build_input Debug r79p = Ok d' /\ valid_solution d' [Some 0; Some 1; Some 0; Some 1] [[0; 1]; [2; 3]; [0; 1]].
Proof.
  assert (CL : choices_relisted flip3 r1 r79p).
  { assert (PL : forall (X : Type) (x y z : X), placed flip3 [x; y; z] [z; y; x]).
    { intros X x y z. split; [reflexivity|]. split; [exact flip3_inj|]. intros [|[|[|i]]]; cbn; auto. }
    constructor; [reflexivity|apply PL| |apply Permutation_rev].
    repeat (apply Forall2_cons; [split; [reflexivity|apply PL]|]). apply Forall2_nil. }
  split; [exact CL|]. split.
  { exists flip3, r79p. split; [exact CL|]. split; [apply Permutation_rev|]. split; [left; reflexivity|]. split; reflexivity. }
  split; [exact r1_u32|]. split; [exact r1_builds|]. split; [exact d1_fits|]. split; [vm_compute; reflexivity|]. split; [exact d1_valid|]. split.
  { intros f g PM F.
    assert (G : forall i k c x, i < 3 -> is_part (r_choices r1) i k c -> x = first_index (r_choices r79p) (flip3 i) + k -> g c = x).
    { intros i k c x Hi HP ->. destruct (PM _ _ _ HP) as (q & _ & _ & E). rewrite E, F; auto. }
    cbn [map]. f_equal; [|f_equal; [|f_equal; [|f_equal]]].
    - apply (G 0 0 0); [lia| |reflexivity]. eexists. split; [reflexivity|]. split; [vm_compute; repeat constructor|reflexivity].
    - apply (G 0 1 1); [lia| |reflexivity]. eexists. split; [reflexivity|]. split; [vm_compute; repeat constructor|reflexivity].
    - apply (G 1 0 2); [lia| |reflexivity]. eexists. split; [reflexivity|]. split; [vm_compute; repeat constructor|reflexivity].
    - apply (G 2 0 3); [lia| |reflexivity]. eexists. split; [reflexivity|]. split; [vm_compute; repeat constructor|reflexivity]. }
  eexists. split; [vm_compute; reflexivity|]. apply check_solution_ok; [apply fits_b_ok|apply wf_input_b_ok|]; vm_compute; reflexivity.
Qed.
