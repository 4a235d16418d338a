(** Property theorem C80: preferences on another scale. *)
From Verif Require Import Base M_Data Spec M_Scoring P_Scoring P_Feasible P_Score P_Check M_Union M_Names M_Build
  Spec_Input P_Input P_Input2 P_Input3 Spec_Meta P_Meta P_Finite T_Score T_Input T_Meta P_Grade.
From Coq Require Import String.
Notation length := Datatypes.length.
Notation get := Base.get.
Open Scope string_scope.
Import ListNotations.
Open Scope list_scope.

Lemma regraded_sym_valid f d d' : data_regraded f d d' ->
  (forall S, valid_scheduling d' S <-> valid_scheduling d S) /\ (forall S A, valid_solution d' S A <-> valid_solution d S A).
Proof.
  intros DG. assert (E2 : length (i_slots d') = length (i_slots d)) by (rewrite (dg_slots _ _ _ DG); auto). split.
  - intros S. split; apply same_valid_scheduling; solve [auto|apply DG|symmetry; auto; apply DG].
  - intros S A. split; apply same_valid_solution; solve [auto|apply DG|symmetry; auto; apply DG].
Qed.

(** ** C80, part one.  Replace every stated preference [x] by [f x], for a
    strictly increasing [f].  An accepted input stays accepted, with the same
    choices, bounds and constraints and the same valid schedulings and solutions;
    which of two choices (of the same or of different choosers) counts as the
    better one, and which of two assignments has the smaller worst preference,
    does not change. *)
Theorem C80_only_the_order_matters_for_the_worst :
  forall (pr : profile) (f : N -> N) (r r' : reader) (d : input_data),
    (forall x y, (x < y)%N -> (f x < f y)%N) -> regraded f r r' -> reader_u32 r -> reader_u32 r' ->
    build_input pr r = Ok d ->
    exists d', build_input pr r' = Ok d' /\
      i_slots d' = i_slots d /\ i_choices d' = i_choices d /\ i_sched d' = i_sched d /\ i_assign d' = i_assign d /\
      (forall S, valid_scheduling d' S <-> valid_scheduling d S) /\
      (forall S A, valid_solution d' S A <-> valid_solution d S A) /\
      (forall p c q e x x' y y', pref_of d p c x -> pref_of d' p c x' -> pref_of d q e y -> pref_of d' q e y' ->
         ((x < y)%N <-> (x' < y')%N)) /\
      (forall A B x x' y y', worst_pref d A x -> worst_pref d' A x' -> worst_pref d B y -> worst_pref d' B y' ->
         ((x < y)%N <-> (x' < y')%N)) /\
      (* so, where worst preferences differ, the scores compare as before *)
      ((i_max_pref d <= 16777216)%N -> (i_max_pref d' <= 16777216)%N ->
       forall pow pow' S T A B sa sb sa' sb' x y,
         valid_solution d S A -> valid_solution d T B -> worst_pref d A x -> worst_pref d B y -> x <> y ->
         evaluate pr pow false d (SolComplete S A) = Ok sa -> evaluate pr pow false d (SolComplete T B) = Ok sb ->
         evaluate pr pow' false d' (SolComplete S A) = Ok sa' -> evaluate pr pow' false d' (SolComplete T B) = Ok sb' ->
         score_finite sa = true -> score_finite sb = true -> score_finite sa' = true -> score_finite sb' = true ->
         score_lt sa' sb' = score_lt sa sb).
Proof.
  intros pr f r r' d INC RG HU HU' H. destruct (build_regraded f INC pr r r' d RG HU HU' H) as (d' & H' & DG).
  pose proof (built_wf _ _ _ H HU) as WF. pose proof (built_wf _ _ _ H' HU') as WF'.
  destruct (regraded_sym_valid _ _ _ DG) as [VSC VS].
  assert (LE : forall p c y, pref_of d p c y -> (y <= i_max_pref d)%N).
  { intros p c y (ch & Hch & Hy). apply (wf_max _ WF ch); eapply nth_error_In; eauto. }
  assert (WL : forall A x, worst_pref d A x -> (x <= i_max_pref d)%N).
  { intros A x [_ [-> |(p & c & _ & _ & Hx)]]; [lia|eauto]. }
  assert (WW : forall A B x x' y y', worst_pref d A x -> worst_pref d' A x' -> worst_pref d B y -> worst_pref d' B y' ->
         ((x < y)%N <-> (x' < y')%N)).
  { intros A B x x' y y' Hx Hx' Hy Hy'.
    rewrite (worst_pref_unique _ _ _ _ Hx' (worst_regraded f d d' A x INC WF DG Hx)).
    rewrite (worst_pref_unique _ _ _ _ Hy' (worst_regraded f d d' B y INC WF DG Hy)).
    apply grade_lt; eauto. }
  exists d'. split; auto. split; [apply DG|]. split; [apply DG|]. split; [apply DG|]. split; [apply DG|].
  split; auto. split; auto. split; [|split; auto].
  - intros p c q e x x' y y' Hx Hx' Hy Hy'.
    apply (dg_prefs _ _ _ DG) in Hx' as (x0 & Hx0 & ->). apply (dg_prefs _ _ _ DG) in Hy' as (y0 & Hy0 & ->).
    assert (x0 = x). { destruct Hx as (ch & K1 & K2), Hx0 as (ch' & K1' & K2'). assert (ch' = ch) by congruence. subst ch'. congruence. }
    assert (y0 = y). { destruct Hy as (ch & K1 & K2), Hy0 as (ch' & K1' & K2'). assert (ch' = ch) by congruence. subst ch'. congruence. }
    subst x0 y0. apply grade_lt; eauto.
  - intros M1 M2 pow pow' S T A B sa sb sa' sb' x y VA VB Hx Hy Hne EA EB EA' EB' Fa Fb Fa' Fb'.
    pose proof (worst_regraded f d d' A x INC WF DG Hx) as Hx'. pose proof (worst_regraded f d d' B y INC WF DG Hy) as Hy'.
    pose proof (WW _ _ _ _ _ _ Hx Hx' Hy Hy') as C1. pose proof (WW _ _ _ _ _ _ Hy Hy' Hx Hx') as C2.
    apply VS in VA as VA'. apply VS in VB as VB'.
    assert (ANTI : forall s t, score_cmp s t = Lt -> score_lt t s = false).
    { intros s t K. unfold score_lt. rewrite (score_cmp_antisym t s), K. auto. }
    destruct (N.lt_total x y) as [K|[K|K]]; [|lia|].
    + pose proof (C09_smaller_worst_preference_wins_partial pr pow d S T A B sa sb x y WF M1 VA VB EA Fa EB Fb Hx Hy K) as Q1.
      pose proof (C09_smaller_worst_preference_wins_partial pr pow' d' S T A B sa' sb' _ _ WF' M2 VA' VB' EA' Fa' EB' Fb' Hx' Hy' (proj1 C1 K)) as Q2.
      unfold score_lt. rewrite Q1, Q2. auto.
    + pose proof (C09_smaller_worst_preference_wins_partial pr pow d T S B A sb sa y x WF M1 VB VA EB Fb EA Fa Hy Hx K) as Q1.
      pose proof (C09_smaller_worst_preference_wins_partial pr pow' d' T S B A sb' sa' _ _ WF' M2 VB' VA' EB' Fb' EA' Fa' Hy' Hx' (proj1 C2 K)) as Q2.
      rewrite (ANTI _ _ Q1), (ANTI _ _ Q2). auto.
Qed.
Print Assumptions C80_only_the_order_matters_for_the_worst.

(** ** C80, part two: on a linear scale, [f x = a x + b], normalized preferences
    (and so the worst one) are multiplied by [a]; the offset [b] disappears. *)
Theorem C80_linear_scales :
  forall (pr : profile) (a b : N) (r r' : reader) (d : input_data),
    (0 < a)%N -> regraded (fun x => a * x + b)%N r r' -> reader_u32 r -> reader_u32 r' -> build_input pr r = Ok d ->
    exists d', build_input pr r' = Ok d' /\ (forall S A, valid_solution d' S A <-> valid_solution d S A) /\
      (forall p c x, pref_of d p c x -> pref_of d' p c (a * x)%N) /\
      (forall A x, worst_pref d A x -> worst_pref d' A (a * x)%N).
Proof.
  intros pr a b r r' d Ha RG HU HU' H.
  assert (INC : forall x y, (x < y)%N -> (a * x + b < a * y + b)%N) by (intros x y K; nia).
  destruct (build_regraded _ INC pr r r' d RG HU HU' H) as (d' & H' & DG).
  pose proof (built_wf _ _ _ H HU) as WF.
  assert (LE : forall p c y, pref_of d p c y -> (y <= i_max_pref d)%N).
  { intros p c y (ch & Hch & Hy). apply (wf_max _ WF ch); eapply nth_error_In; eauto. }
  assert (GR : forall x, (x <= i_max_pref d)%N -> grade (fun x => a * x + b)%N (i_max_pref d) x = (a * x)%N).
  { intros x Hx. unfold grade. assert (a * (i_max_pref d - x) + a * x = a * i_max_pref d)%N by nia. lia. }
  exists d'. split; auto. split; [apply (regraded_sym_valid _ _ _ DG)|]. split.
  - intros p c x Hx. rewrite <- GR by eauto. apply (dg_prefs _ _ _ DG). eauto.
  - intros A x Hx. rewrite <- GR. { apply worst_regraded; auto. }
    destruct Hx as [_ [-> |(p & c & _ & _ & Hx)]]; [lia|eauto].
Qed.
Print Assumptions C80_linear_scales.

(** r1 (T_Input.v) with preferences 3x + 7 instead of x. *)
Definition r80 : reader := mkReader (r_slots r1) (r_choices r1)
  [mkChooser "Ann" [10; 22; 13]%N; mkChooser "Bob" [34; 7; 16]%N; mkChooser "Cid" [19; 34; 7]%N] (r_exprs r1).
Example C80_witness : regraded (fun x => 3 * x + 7)%N r1 r80 /\ reader_u32 r1 /\ reader_u32 r80 /\
  build_input Debug r1 = Ok d1 /\ valid_solution d1 S1 A1 /\ pref_of d1 0 1 8%N /\
  exists d', build_input Debug r80 = Ok d' /\ pref_of d' 0 1 24%N.
Proof.
  split. { constructor; auto. repeat constructor. }
  split; [exact r1_u32|].
  split. { constructor; [apply r1_u32|]. cbn. intros c x [<-|[<-|[<-|[]]]]; cbn; unfold u32_max; intuition lia. }
  split; [exact r1_builds|]. split; [exact d1_valid|].
  split. { eexists. split; vm_compute; reflexivity. }
  eexists. split; [vm_compute; reflexivity|]. eexists. split; reflexivity.
Qed.
