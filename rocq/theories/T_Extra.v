(** C86: an additional optional choice never hurts.  [build_input] is the input
    builder, [evaluate] Scoring::evaluate; [with_extra], [not_meant], [without]
    are in Spec_Extra.v. *)
From Verif Require Import Base M_Data Spec M_Scoring P_Scoring M_Names M_Build Spec_Input P_Compile P_Input P_Check Spec_Meta P_Meta Spec_Extra P_Extra T_Input T_Meta.
From Coq Require Import String.
Notation length := Datatypes.length.
Local Open Scope string_scope.
Local Open Scope list_scope.

(** An accepted input stays accepted when an optional choice is declared in
    addition.  The solutions of the new input in which the additional choice does
    not take place are exactly the solutions of the old one; if nobody gave it a
    preference above the largest one given before, they keep their scores. *)
Theorem C86_optional_choice_never_hurts :
  forall (pr : profile) (q : proto) (r r' : reader) (d : input_data),
    with_extra q r r' -> not_meant q r -> reader_u32 r' ->
    (Z.of_nat (first_index (r_choices r') (length (r_choices r'))) <= i32_max)%Z ->
    build_input pr r = Ok d ->
    exists d', build_input pr r' = Ok d' /\
      length (i_choices d') = length (i_choices d) + copies q /\
      (forall S, length S = length (i_choices d) -> (valid_scheduling d' (without q S) <-> valid_scheduling d S)) /\
      (forall S A, length S = length (i_choices d) -> (valid_solution d' (without q S) A <-> valid_solution d S A)) /\
      (fits d' -> (forall c' y, In c' (r_choosers r') -> In y (cs_prefs c') -> (y <= i_max_pref d)%N) ->
         forall pow g S A, valid_solution d S A ->
           evaluate pr pow g d' (SolComplete (without q S) A) = evaluate pr pow g d (SolComplete S A)).
Proof.
  intros pr q r r' d WE NM HU' HN H.
  assert (HU : reader_u32 r).
  { constructor.
    - intros p Hp. apply (ru_choices _ HU'). rewrite (we_choices _ _ _ WE). apply in_or_app; auto.
    - intros c x Hc Hx. apply In_nth_error in Hc as [i Hi]. destruct (Forall2_nth _ _ _ (we_choosers _ _ _ WE) _ _ Hi) as (c' & Hc' & _ & y & E).
      apply (ru_prefs _ HU' c' x); [eapply nth_error_In; eauto|]. rewrite E. apply in_or_app; auto. }
  rewrite <- (blocks_length _ 0) in HN.
  destruct (build_extra pr q r r' d WE NM HU HU' HN H) as (d' & Hd' & XC). exists d'. split; auto.
  pose proof (built_wf _ _ _ H HU) as HW. pose proof (built_wf _ _ _ Hd' HU') as HW'.
  split; [apply (xc_n _ _ _ XC)|]. split; [|split].
  - intros S LS. apply (xs_valid_scheduling q d d' XC HW S LS HW').
  - intros S A LS. apply (xs_valid q d d' XC HW S LS HW').
  - intros FI' HM pow g S A V. apply (xs_evaluate q d d' XC HW); auto.
    + exact (vs_length _ _ (vsol_sched _ _ _ V)).
    + destruct FI' as [F1 F2 F3]. pose proof (xc_n _ _ _ XC). pose proof (xc_np _ _ _ XC). pose proof (xc_slots _ _ _ XC) as ES.
      constructor; [lia|lia|]. rewrite <- ES. auto.
    + destruct (build_inv _ _ _ H) as (raw & cs & css & B). destruct (build_inv _ _ _ Hd') as (raw' & cs' & css' & B').
      destruct (max_pref_is r) as [M1 M2]. destruct (max_pref_is r') as [M1' M2'].
      rewrite <- (bf_max _ _ _ _ _ _ B) in M1, M2. rewrite <- (bf_max _ _ _ _ _ _ B') in M1', M2'. apply N.le_antisymm.
      * destruct M2' as [-> |(c & Hc & Hm)]; [lia|]. eapply HM; eauto.
      * destruct M2 as [-> |(c & Hc & Hm)]; [lia|]. apply In_nth_error in Hc as [i Hi].
        destruct (Forall2_nth _ _ _ (we_choosers _ _ _ WE) _ _ Hi) as (c' & Hc' & _ & y & E).
        apply (M1' c'); [eapply nth_error_In; eauto|]. rewrite E. apply in_or_app; auto.
Qed.
Print Assumptions C86_optional_choice_never_hurts.

(** r1 with an additional optional choice of two parts. *)
Definition q86 : proto := mkProto "extra" 1 7 2 true.
Definition r86 : reader := mkReader (r_slots r1) (r_choices r1 ++ [q86])
  (map (fun c => mkChooser (cs_name c) (cs_prefs c ++ [1%N])) (r_choosers r1)) (r_exprs r1).
Example C86_witness : with_extra q86 r1 r86 /\ not_meant q86 r1 /\ reader_u32 r86 /\
  (Z.of_nat (first_index (r_choices r86) (length (r_choices r86))) <= i32_max)%Z /\
  build_input Debug r1 = Ok d1 /\ valid_solution d1 S1 A1 /\ length S1 = length (i_choices d1) /\ r_exprs r1 <> [] /\
  (exists d', build_input Debug r86 = Ok d' /\ fits d') /\
  (forall c' y, In c' (r_choosers r86) -> In y (cs_prefs c') -> (y <= i_max_pref d1)%N).
Proof.
  split. { constructor; auto. cbn. repeat (constructor; [split; [reflexivity|eexists; reflexivity]|]). constructor. }
  split.
  { intros e a He Ha HK. cbn in He.
    assert (a_name a = "a" \/ a_name a = "b") as HN.
    { destruct He as [<- |[<- |[<- |[<- |[]]]]]; destruct Ha as [-> | ->]; cbn in HK |- *; try discriminate HK; auto. }
    clear He Ha. split.
    - destruct HN as [-> | ->]; [exists 0|exists 1]; eexists; split; reflexivity.
    - intros k Hk. assert (k = 0 \/ k = 1) as [-> | ->] by (change (copies q86) with 2 in Hk; lia);
        destruct HN as [-> | ->]; vm_compute; discriminate. }
  split.
  { destruct r1_u32 as [K1 K2]. constructor.
    - intros p Hp. cbn [r86 r_choices] in Hp. apply in_app_or in Hp as [Hp|[<- |[]]]; [apply K1; auto|vm_compute; repeat split; discriminate].
    - intros c x Hc Hx. cbn [r86 r_choosers] in Hc. apply in_map_iff in Hc as (c0 & <- & Hc0). cbn in Hx. apply in_app_or in Hx as [Hx|[<- |[]]]; [eapply K2; eauto|vm_compute; discriminate]. }
  split; [vm_compute; discriminate|]. split; [exact r1_builds|]. split; [exact d1_valid|]. split; [reflexivity|]. split; [discriminate|]. split.
  { destruct (build_input Debug r86) as [d'| |] eqn:E; try (vm_compute in E; discriminate). exists d'. split; auto.
    vm_compute in E. injection E as <-. apply fits_b_ok. vm_compute. reflexivity. }
  assert (E : i_max_pref d1 = max_pref_of (r_choosers r86)) by (vm_compute; reflexivity). intros c' y Hc Hy. rewrite E.
  destruct (max_pref_is r86) as [M _]. eapply M; eauto.
Qed.

(** The hypothesis on full names is needed: with a choice found by part of its
    name, the additional choice can make the name ambiguous. *)
Theorem C86_partial_names_refuted :
  exists (q : proto) (r r' : reader) (d : input_data) (m : string),
    with_extra q r r' /\ clear_names r' /\ reader_u32 r' /\
    (forall pr, build_input pr r = Ok d) /\ (forall pr, build_input pr r' = Err m).
Proof.
  set (r := mkReader [mkSlot "s"] [mkProto "Chess Room" 0 1 1 false] [mkChooser "p" [0]%N]
              [mkE (acc_choice "Room" ASlot 0) REq (acc_slot "s" ANotSet)]).
  set (q := mkProto "Tea Room" 0 1 1 true).
  set (r' := mkReader (r_slots r) (r_choices r ++ [q]) [mkChooser "p" [0; 0]%N] (r_exprs r)).
  destruct (build_input Debug r) as [d| |] eqn:E; try (vm_compute in E; discriminate).
  destruct (build_input Debug r') as [|m|] eqn:E'; try (vm_compute in E'; discriminate).
  exists q, r, r', d, m. vm_compute in E, E'. injection E as <-. injection E' as <-.
  split. { constructor; auto. constructor; [split; [reflexivity|eexists; reflexivity]|constructor]. }
  split; [unfold r', r, q; cbn [r_slots r_choices r_exprs app]; clear_by_cases|].
  split. { constructor.
    - intros p [<- |[<- |[]]]; vm_compute; repeat split; discriminate.
    - intros c x [<- |[]] [<- |[<- |[]]]; vm_compute; discriminate. }
  split; intros [|]; vm_compute; reflexivity.
Qed.
Print Assumptions C86_partial_names_refuted.
