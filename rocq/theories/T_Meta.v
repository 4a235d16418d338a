(** Property theorems that compare two inputs: C70 (more constraints, other
    order), C71 (other names), C72 (looser bounds). *)
From Verif Require Import Base M_Data Spec M_Scoring P_Scoring P_Feasible P_Check M_Union M_Names M_Build
  Spec_Input P_Input P_Input2 P_Input3 Spec_Meta P_Meta T_Input.
From Coq Require Import String Permutation.
Notation length := Datatypes.length.
Notation get := Base.get.
Open Scope string_scope.
Import ListNotations.
Open Scope list_scope.

Lemma fits_same d d' : length (i_choosers d') = length (i_choosers d) -> length (i_choices d') = length (i_choices d) ->
  length (i_slots d') = length (i_slots d) -> fits d -> fits d'.
Proof. intros E1 E2 E3 [F1 F2 F3]. constructor; rewrite ?E1, ?E2, ?E3; assumption. Qed.
Lemma built_wf pr r d : build_input pr r = Ok d -> reader_u32 r -> wf_input d.
Proof. intros H HU. destruct (build_inv _ _ _ H) as (raw & cs & css & B). eapply b_wf; eauto. Qed.
Lemma valid_feasible d S A : fits d -> wf_input d -> valid_solution d S A -> sol_is_feasible d S A = Ok true.
Proof. intros HF HW [V R]. apply sol_is_feasible_complete; auto; [exact (vs_length _ _ V)|exact (vs_range _ _ V)]. Qed.

(** ** C70: an input that is accepted stays accepted when constraints are taken away, and then every
    scheduling and every solution that was valid stays valid. *)
Theorem C70_more_constraints_fewer_solutions :
  forall (pr : profile) (r r' : reader) (more : list expr) (d' : input_data),
    same_objects r r' -> Permutation (r_exprs r') (r_exprs r ++ more) -> reader_u32 r ->
    build_input pr r' = Ok d' ->
    exists d, build_input pr r = Ok d /\
      (forall S, valid_scheduling d' S -> valid_scheduling d S) /\
      (forall S A, valid_solution d' S A -> valid_solution d S A) /\
      (* the added constraints can only lower (improve) normalized preferences *)
      (forall p c x x', pref_of d p c x -> pref_of d' p c x' -> (x' <= x)%N).
Proof.
  intros pr r r' more d' HO HP HU H'. destruct (build_below pr r r' more d' HO HP HU H') as (d & Hd & BE).
  exists d. split; auto. split; [|split].
  - intros S. apply (below_scheduling r d d' S BE).
  - intros S A. apply (below_solution pr r d d' S A Hd BE).
  - intros p c x x' (ch & Hch & Hx) (ch' & Hch' & Hx'). destruct (be_chooser _ _ _ BE p ch ch' Hch Hch') as (_ & _ & K). eauto.
Qed.
Print Assumptions C70_more_constraints_fewer_solutions.

(** The order in which constraints are stated is irrelevant: the same inputs are
    accepted, with the same choices, bounds and preferences, the same valid
    solutions, and the same scores for them. *)
Theorem C70_order_of_constraints_irrelevant :
  forall (pr : profile) (r r' : reader) (d : input_data),
    same_objects r r' -> Permutation (r_exprs r') (r_exprs r) -> reader_u32 r ->
    build_input pr r = Ok d ->
    exists d', build_input pr r' = Ok d' /\
      i_slots d' = i_slots d /\ i_choices d' = i_choices d /\ i_choosers d' = i_choosers d /\
      i_levels d' = i_levels d /\ i_max_pref d' = i_max_pref d /\
      (forall S, valid_scheduling d' S <-> valid_scheduling d S) /\
      (forall S A, valid_solution d' S A <-> valid_solution d S A) /\
      (fits d -> forall pow g S A, valid_solution d S A ->
         evaluate pr pow g d' (SolComplete S A) = evaluate pr pow g d (SolComplete S A)).
Proof.
  intros pr r r' d (E1 & E2 & E3) HP HU H.
  assert (HU' : reader_u32 r') by (constructor; rewrite ?E2, ?E3; apply HU).
  assert (HO : same_objects r r') by (repeat split; auto). assert (HO' : same_objects r' r) by (repeat split; auto).
  assert (HP1 : Permutation (r_exprs r) (r_exprs r' ++ [])) by (rewrite app_nil_r; apply Permutation_sym; auto).
  assert (HP2 : Permutation (r_exprs r') (r_exprs r ++ [])) by (rewrite app_nil_r; auto).
  destruct (build_below pr r' r [] d HO' HP1 HU' H) as (d' & Hd' & BE').
  destruct (build_below pr r r' [] d' HO HP2 HU Hd') as (d0 & Hd0 & BE). assert (d0 = d) by congruence. subst d0.
  destruct (below_both _ _ _ _ BE BE') as (F1 & F2 & F3 & F4 & F5).
  assert (VS : forall S A, valid_solution d' S A <-> valid_solution d S A).
  { intros S A. split; [apply (below_solution pr r); auto|apply (below_solution pr r'); auto]. }
  exists d'. repeat (split; [assumption|]). split; [|split; [exact VS|]].
  - intros S. split; [apply (below_scheduling r _ _ _ BE)|apply (below_scheduling r' _ _ _ BE')].
  - intros HF pow g S A HV. apply evaluate_same_objects; auto.
    + rewrite F1. auto.
    + apply valid_feasible; auto. eapply built_wf; eauto.
    + apply valid_feasible; [|eapply built_wf; eauto|apply VS; auto]. revert HF. apply fits_same; congruence.
Qed.
Print Assumptions C70_order_of_constraints_irrelevant.

(** r1 (T_Input.v) without its size constraint, and with its constraints reversed. *)
Definition r70 : reader := mkReader (r_slots r1) (r_choices r1) (r_choosers r1) (firstn 3 (r_exprs r1)).
Definition r70r : reader := mkReader (r_slots r1) (r_choices r1) (r_choosers r1) (rev (r_exprs r1)).
Example C70_witness : same_objects r70 r1 /\ Permutation (r_exprs r1) (r_exprs r70 ++ skipn 3 (r_exprs r1)) /\
  reader_u32 r70 /\ build_input Debug r1 = Ok d1 /\ valid_solution d1 S1 A1 /\
  Permutation (r_exprs r70r) (r_exprs r1) /\ r_exprs r70r <> r_exprs r1 /\ reader_u32 r1 /\ fits d1.
Proof.
  split; [repeat split; auto|]. split; [apply Permutation_refl|].
  split. { destruct r1_u32 as [K1 K2]. constructor; auto. }
  split; [exact r1_builds|]. split; [exact d1_valid|]. split; [apply Permutation_sym, Permutation_rev|].
  split; [discriminate|]. split; [exact r1_u32|exact d1_fits].
Qed.

(** ** C71: names are only names.  If every object is written with its full name
    and names are clear, a consistent renaming leads to the same verdict, and the
    processed inputs differ in names only; valid solutions and scores agree. *)
Theorem C71_names_do_not_matter :
  forall (pr : profile) (r r' : reader),
    renamed r r' -> clear_names r -> clear_names r' ->
    match build_input pr r, build_input pr r' with
    | Ok d, Ok d' => same_but_names d d' /\
        (forall S, valid_scheduling d' S <-> valid_scheduling d S) /\
        (forall S A, valid_solution d' S A <-> valid_solution d S A) /\
        (forall pow g sol, evaluate pr pow g d' sol = evaluate pr pow g d sol)
    | Err m, Err m' => same_complaint r r' m m'
    | Panic, Panic => True
    | _, _ => False
    end.
Proof.
  intros pr r r' RN CN CN'. pose proof (build_renamed pr r r' RN CN CN') as H. unfold like_outcome in H.
  destruct (build_input pr r) as [d| |], (build_input pr r') as [d'| |]; auto.
  pose proof (same_but_names_sym _ _ H) as H2. split; auto. split; [|split].
  - intros S. split; apply nm_valid_scheduling; auto.
  - intros S A. split; apply nm_valid; auto.
  - intros pow g sol. apply nm_evaluate; auto.
Qed.
Print Assumptions C71_names_do_not_matter.

(** r1 with every name replaced. *)
Definition r71 : reader := mkReader
  [mkSlot "Monday"; mkSlot "Tuesday"]
  [mkProto "Pottery" 1 2 2 false; mkProto "Chess" 1 2 1 false; mkProto "Choir" 1 2 1 false]
  [mkChooser "P1" [1; 5; 2]%N; mkChooser "P2" [9; 0; 3]%N; mkChooser "P3" [4; 9; 0]%N]
  [mkE (acc_choice "Pottery" ASlot 0) REq (acc_slot "Monday" ANotSet);
   mkE (acc_chooser "P1" AChoice) RContains (acc_choice "Chess" ANotSet 0);
   mkE (acc_choice "Chess" ASlot 0) RNeq (acc_slot "Monday" ANotSet);
   mkE (acc_slot "Monday" ASize) RLeq (acc_int "2")].
Ltac clear_by_cases :=
  constructor;
  [intros i j n (s & Hs & Es) (t & Ht & Et); destruct i as [|[|[|i]]], j as [|[|[|j]]]; cbn in Hs, Ht; try discriminate;
   (reflexivity || (injection Hs as <-; injection Ht as <-; cbn in Es, Et; congruence) || (destruct i; discriminate) || (destruct j; discriminate))
  |intros i j n (s & Hs & Es) (t & Ht & Et); destruct i as [|[|[|i]]], j as [|[|[|j]]]; cbn in Hs, Ht; try discriminate;
   (reflexivity || (injection Hs as <-; injection Ht as <-; cbn in Es, Et; congruence) || (destruct i; discriminate) || (destruct j; discriminate))
  |intros i j n n' k (s & Hs & Es) (t & Ht & Et) HK EL; specialize (HK t Ht);
   destruct i as [|[|[|i]]], j as [|[|[|j]]]; cbn in Hs, Ht; try discriminate; try (destruct i; discriminate); try (destruct j; discriminate);
   injection Hs as <-; injection Ht as <-; cbn in Es, Et; subst n n'; unfold copies in HK; cbn in HK;
   destruct k as [|[|k]]; try lia; cbn in EL; try discriminate; auto].
Example C71_witness : renamed r1 r71 /\ clear_names r1 /\ clear_names r71 /\ build_input Debug r1 = Ok d1.
Proof.
  split; [|split; [|split; [|exact r1_builds]]].
  - constructor; cbn; try (repeat constructor; fail).
    constructor; [|constructor; [|constructor; [|constructor; [|constructor]]]];
        (split; [reflexivity|]; split; (repeat (split; [reflexivity|])); cbn; auto).
      + exists 0; split; eexists; split; reflexivity.
      + exists 0; split; eexists; split; reflexivity.
      + exists 0; split; eexists; split; reflexivity.
      + exists 1; split; eexists; split; reflexivity.
      + exists 1; split; eexists; split; reflexivity.
      + exists 0; split; eexists; split; reflexivity.
      + exists 0; split; eexists; split; reflexivity.
  - clear_by_cases.
  - clear_by_cases.
Qed.

(** The hypothesis on full names is needed: constraints find objects by parts of
    names, so a renaming of an object that the constraint does not mean can change
    the verdict.  "Room" is found as part of "Chess Room"; once another choice is
    called "Tea Room", the name is ambiguous. *)
Definition r71a (other : string) : reader := mkReader [mkSlot "s"]
  [mkProto "Chess Room" 0 1 1 false; mkProto other 0 1 1 false] [mkChooser "p" [0;0]%N]
  [mkE (acc_choice "Room" ASlot 0) REq (acc_slot "s" ANotSet)].
Theorem C71_partial_names_refuted :
  exists (r r' : reader) (d : input_data) (m : string),
    clear_names r /\ clear_names r' /\ r_slots r' = r_slots r /\ r_choosers r' = r_choosers r /\ r_exprs r' = r_exprs r /\
    Forall2 (fun p p' => p_min p' = p_min p /\ p_max p' = p_max p /\ p_parts p' = p_parts p /\ p_optional p' = p_optional p)
            (r_choices r) (r_choices r') /\
    (forall pr, build_input pr r = Ok d) /\ (forall pr, build_input pr r' = Err m).
Proof.
  destruct (build_input Debug (r71a "Chess")) as [d| |] eqn:E; try (vm_compute in E; discriminate).
  destruct (build_input Debug (r71a "Tea Room")) as [|m|] eqn:E'; try (vm_compute in E'; discriminate).
  exists (r71a "Chess"), (r71a "Tea Room"), d, m. vm_compute in E, E'. injection E as <-. injection E' as <-.
  split; [clear_by_cases|]. split; [clear_by_cases|]. repeat (split; [reflexivity|]). split; [repeat constructor|].
  split; intros [|]; vm_compute; reflexivity.
Qed.
Print Assumptions C71_partial_names_refuted.

(** ** C72: lowering minima, raising maxima and making choices optional keeps the
    input accepted, every valid solution valid and its score unchanged. *)
Theorem C72_relaxing_bounds_keeps_solutions :
  forall (pr : profile) (r r' : reader) (d : input_data),
    relaxed r r' -> reader_u32 r -> reader_u32 r' -> build_input pr r = Ok d ->
    exists d', build_input pr r' = Ok d' /\
      (forall S A, valid_solution d S A -> valid_solution d' S A) /\
      (fits d -> forall pow g S A, valid_solution d S A ->
         evaluate pr pow g d' (SolComplete S A) = evaluate pr pow g d (SolComplete S A)).
Proof.
  intros pr r r' d RX HU HU' H. destruct (build_looser pr r r' d RX HU HU' H) as (d' & Hd' & LO).
  exists d'. split; auto. split. { intros S A. apply looser_solution; auto. }
  intros HF pow g S A HV. apply evaluate_same_objects; try apply LO.
  - rewrite (lo_slots _ _ LO). auto.
  - apply valid_feasible; auto. eapply built_wf; eauto.
  - apply valid_feasible; [|eapply built_wf; eauto|apply (looser_solution d); auto]. revert HF. apply fits_same.
    + rewrite (lo_choosers _ _ LO); auto. + apply (lo_nchoices _ _ LO). + rewrite (lo_slots _ _ LO); auto.
Qed.
Print Assumptions C72_relaxing_bounds_keeps_solutions.
Definition r72 : reader := mkReader (r_slots r1)
  [mkProto "a" 0 9 2 false; mkProto "b" 1 2 1 true; mkProto "c" 1 3 1 false] (r_choosers r1) (r_exprs r1).
Example C72_witness : relaxed r1 r72 /\ reader_u32 r1 /\ reader_u32 r72 /\ build_input Debug r1 = Ok d1 /\ valid_solution d1 S1 A1 /\ fits d1.
Proof.
  split. { constructor; auto. cbn. repeat constructor; cbn; auto; try lia; discriminate. }
  split; [exact r1_u32|]. split.
  { destruct r1_u32 as [_ K2]. constructor; auto. intros p [<-|[<-|[<-|[]]]]; cbn; unfold u32_max; lia. }
  split; [exact r1_builds|]. split; [exact d1_valid|exact d1_fits].
Qed.
