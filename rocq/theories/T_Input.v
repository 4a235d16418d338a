(** Property theorems about reading an input: C02, C03, C16-C21, C37, C39-C41,
    C46, C48, C49.  Readers ([reader]) are what a script has registered;
    [build_input] compiles them. *)
From Verif Require Import Base M_Data Spec M_Scoring P_Scoring P_Feasible P_Check M_Union M_Names M_Build P_Union
  Spec_Input P_Con P_Compile P_Resolve P_Limits P_Input P_Input2 P_Input3.
From Coq Require Import String Sorted.
Notation length := Datatypes.length.
Notation get := Base.get.
Open Scope string_scope.
Import ListNotations.
Open Scope list_scope.

(** ** Sample readers *)
Definition acc_slot (n : string) (sub : acc_kind) : accessor := mkA ASlot sub n 0.
Definition acc_choice (n : string) (sub : acc_kind) (part : nat) : accessor := mkA AChoice sub n part.
Definition acc_chooser (n : string) (sub : acc_kind) : accessor := mkA AChooser sub n 0.
Definition acc_int (n : string) : accessor := mkA AInteger ANotSet n 0.

(** Two slots; "a" in two parts, "b" and "c" single; three choosers; [a] starts
    in slot s1, Ann attends b, b's slot is not s1, at most two choices in s1. *)
Definition r1 : reader := mkReader
  [mkSlot "s1"; mkSlot "s2"]
  [mkProto "a" 1 2 2 false; mkProto "b" 1 2 1 false; mkProto "c" 1 2 1 false]
  [mkChooser "Ann" [1; 5; 2]%N; mkChooser "Bob" [9; 0; 3]%N; mkChooser "Cid" [4; 9; 0]%N]
  [mkE (acc_choice "a" ASlot 0) REq (acc_slot "s1" ANotSet);
   mkE (acc_chooser "Ann" AChoice) RContains (acc_choice "b" ANotSet 0);
   mkE (acc_choice "b" ASlot 0) RNeq (acc_slot "s1" ANotSet);
   mkE (acc_slot "s1" ASize) RLeq (acc_int "2")].
Definition d1 : input_data := match build_input Debug r1 with Ok d => d | _ => mkInput [] [] [] [] [] [] [] 0 [] [] end.
Definition S1 : scheduling := [Some 0; Some 1; Some 1; Some 0].
Definition A1 : assignment := [[3; 2]; [0; 1]; [3; 2]].
Lemma r1_builds : build_input Debug r1 = Ok d1.
Proof. vm_compute. reflexivity. Qed.
Lemma r1_u32 : reader_u32 r1.
Proof.
  constructor; cbn.
  - intros p [<-|[<-|[<-|[]]]]; cbn; unfold u32_max; lia.
  - intros c x [<-|[<-|[<-|[]]]]; cbn; unfold u32_max; intuition lia.
Qed.
Lemma d1_wf : wf_input d1. Proof. apply wf_input_b_ok. vm_compute. reflexivity. Qed.
Lemma d1_fits : fits d1. Proof. apply fits_b_ok. vm_compute. reflexivity. Qed.
Lemma d1_valid : valid_solution d1 S1 A1.
Proof. apply check_solution_ok; [exact d1_fits|exact d1_wf|vm_compute; reflexivity]. Qed.

(** ** C02.  Full statement: for every expression [e] of an accepted input and
    every valid solution, [says false r S A e] ([says] is the documented
    meaning, requirements on attending a choice being conditional on the choice
    being held).  Proved for all expressions except order relations whose slot
    size stands on the right; false for those (next theorem). *)
Theorem C02_declared_constraints_hold_partial :
  forall (pr : profile) (r : reader) (d : input_data) (S : scheduling) (A : assignment) (e : expr),
    build_input pr r = Ok d -> valid_solution d S A -> In e (r_exprs r) ->
    (is_order (e_rel e) = true -> a_kind (e_left e) = ASlot) ->
    says false r S A e.
Proof.
  exact (fun pr r d S A e H V He HO => built_says pr r d S A e false H (vsol_rest _ _ _ V) He HO
           (fun E => False_ind _ (Bool.diff_false_true E))).
Qed.
Print Assumptions C02_declared_constraints_hold_partial.

(** Without optional choices (every choice held) the unconditional reading holds. *)
Theorem C02_all_held_partial :
  forall (pr : profile) (r : reader) (d : input_data) (S : scheduling) (A : assignment) (e : expr),
    build_input pr r = Ok d -> valid_solution d S A -> In e (r_exprs r) ->
    (is_order (e_rel e) = true -> a_kind (e_left e) = ASlot) ->
    (forall c, c < length (i_choices d) -> held S c) ->
    says true r S A e.
Proof.
  exact (fun pr r d S A e H V He HO HH => built_says pr r d S A e true H (vsol_rest _ _ _ V) He HO (fun _ => HH)).
Qed.
Print Assumptions C02_all_held_partial.

Example C02_witness : build_input Debug r1 = Ok d1 /\ valid_solution d1 S1 A1 /\
  In (mkE (acc_chooser "Ann" AChoice) RContains (acc_choice "b" ANotSet 0)) (r_exprs r1) /\
  the_chooser r1 (acc_chooser "Ann" AChoice) 0 /\ the_choice r1 (acc_choice "b" ANotSet 0) 2 /\ attends A1 0 2.
Proof.
  split; [exact r1_builds|]. split; [exact d1_valid|]. split; [cbn; auto|].
  split; [eexists; split; reflexivity|]. split.
  - exists 1, (mkProto "b" 1 2 1 false). repeat split. exists (mkProto "b" 1 2 1 false). repeat split. vm_compute. lia.
  - exists [3; 2]. split; [reflexivity|]. cbn; auto.
Qed.

(** Four choices in one slot although the script says [3 >= s.size]. *)
Definition r2 : reader := mkReader [mkSlot "s"]
  [mkProto "a" 1 1 1 false; mkProto "b" 1 1 1 false; mkProto "c" 1 1 1 false; mkProto "d" 1 1 1 false]
  [mkChooser "p" [0;0;0;0]%N; mkChooser "q" [0;0;0;0]%N; mkChooser "t" [0;0;0;0]%N; mkChooser "u" [0;0;0;0]%N]
  [mkE (acc_int "3") RGeq (acc_slot "s" ASize)].
Theorem C02_mirrored_order_refuted :
  exists (r : reader) (d : input_data) (S : scheduling) (A : assignment) (e : expr),
    (forall pr, build_input pr r = Ok d) /\ valid_solution d S A /\ In e (r_exprs r) /\ ~ says false r S A e.
Proof.
  destruct (build_input Debug r2) as [d2| |] eqn:E; [|vm_compute in E; discriminate|vm_compute in E; discriminate].
  exists r2, d2, [Some 0; Some 0; Some 0; Some 0], [[0]; [1]; [2]; [3]], (mkE (acc_int "3") RGeq (acc_slot "s" ASize)).
  vm_compute in E. injection E as <-. split; [intros [|]; vm_compute; reflexivity|]. split; [|split].
  - apply check_solution_ok; [apply fits_b_ok|apply wf_input_b_ok|]; vm_compute; reflexivity.
  - cbn; auto.
  - intros [_ H]. unfold says_direct in H; cbn in H. specialize (H 0 3%Z 4).
    assert (4 <= 3)%Z; [|lia]. enough (H' : (4 <= 3)%Z) by exact H'. cut (z_rel RLeq (Z.of_nat 4) 3); [cbn; lia|].
    apply H.
    + eexists; split; reflexivity.
    + reflexivity.
    + exists [0;1;2;3]. split; [repeat (constructor; [cbn; intuition lia|]); constructor|]. split; [|reflexivity].
      intros x. unfold scheduled_in. split.
      * cbn. intuition (subst; reflexivity).
      * destruct x as [|[|[|[|x]]]]; cbn; auto. destruct x; discriminate.
Qed.
Print Assumptions C02_mirrored_order_refuted.

(** Read unconditionally, [chooser.choices.contains(c)] fails for an optional
    choice that is not held: the solution is accepted anyway. *)
Definition r3 : reader := mkReader [mkSlot "s"]
  [mkProto "a" 1 1 1 false; mkProto "b" 1 1 1 true] [mkChooser "p" [0;0]%N]
  [mkE (acc_chooser "p" AChoice) RContains (acc_choice "b" ANotSet 0)].
Theorem C02_optional_choice_refuted :
  exists (r : reader) (d : input_data) (S : scheduling) (A : assignment) (e : expr),
    (forall pr, build_input pr r = Ok d) /\ valid_solution d S A /\ In e (r_exprs r) /\ ~ says true r S A e.
Proof.
  destruct (build_input Debug r3) as [d3| |] eqn:E; [|vm_compute in E; discriminate|vm_compute in E; discriminate].
  exists r3, d3, [Some 0; None], [[0]], (mkE (acc_chooser "p" AChoice) RContains (acc_choice "b" ANotSet 0)).
  vm_compute in E. injection E as <-. split; [intros [|]; vm_compute; reflexivity|]. split; [|split].
  - apply check_solution_ok; [apply fits_b_ok|apply wf_input_b_ok|]; vm_compute; reflexivity.
  - cbn; auto.
  - intros [H _]. unfold says_direct in H; cbn in H. destruct (H 0 1) as (row & Hr & Hi).
    + eexists; split; reflexivity.
    + exists 1, (mkProto "b" 1 1 1 true). repeat split. exists (mkProto "b" 1 1 1 true). repeat split. vm_compute. lia.
    + discriminate.
    + cbn in Hr. injection Hr as <-. destruct Hi as [E|[]]. discriminate.
Qed.
Print Assumptions C02_optional_choice_refuted.

(** ** C03 *)
Theorem C03_parts_consecutive_same_audience :
  forall (pr : profile) (r : reader) (d : input_data) (S : scheduling) (A : assignment) (i : nat) (p : proto),
    build_input pr r = Ok d -> valid_solution d S A -> nth_error (r_choices r) i = Some p ->
    let part k := first_index (r_choices r) i + k in
    let n := Nat.max 1 (N.to_nat (p_parts p)) in
    ((forall k, k < n -> not_held S (part k)) \/
     (exists s, forall k, k < n -> scheduled_in S (part k) (s + k))) /\
    (forall k q, k < n -> (attends A q (part 0) <-> attends A q (part k))).
Proof. exact built_parts. Qed.
Print Assumptions C03_parts_consecutive_same_audience.

Example C03_witness : build_input Debug r1 = Ok d1 /\ valid_solution d1 S1 A1 /\
  (exists p, nth_error (r_choices r1) 0 = Some p /\ p_parts p = 2%N) /\
  scheduled_in S1 0 0 /\ scheduled_in S1 1 1.
Proof. split; [exact r1_builds|]. split; [exact d1_valid|]. split; [eexists; split; reflexivity|]. split; reflexivity. Qed.

(** ** C16: [i_groups] are the connected components of the same-choosers
    constraints, each group sorted, no group repeated. *)
Theorem C16_groups_are_components :
  forall (pr : profile) (r : reader) (d : input_data),
    build_input pr r = Ok d ->
    let joined a b := exists e, In (mkC ChoicesHaveSameChoosers a (TChoice b) e) (i_assign d) in
    let n := length (i_choices d) in
    (forall c, c < n -> exists! g, In g (i_groups d) /\ In c g) /\
    (forall g c, In g (i_groups d) -> In c g -> c < n) /\
    (forall g a b, In g (i_groups d) -> In a g -> b < n ->
       (In b g <-> Relation_Operators.clos_refl_sym_trans nat joined a b)) /\
    (forall g, In g (i_groups d) -> g <> [] /\ StronglySorted lt g) /\
    NoDup (i_groups d).
Proof.
  intros pr r d H joined n. destruct (build_inv _ _ _ H) as (raw & cs & css & B).
  destruct (get_dependent_ok _ _ _ (bf_groups _ _ _ _ _ _ B)) as [G _]. fold n in G.
  assert (L : forall a b, linked (same_pairs cs) a b <-> Relation_Operators.clos_refl_sym_trans nat joined a b).
  { intros a b. rewrite (b_linked _ _ _ _ _ _ B). unfold one_audience, linked, joined.
    split; intros K; induction K as [x y Hxy| | |]; try (constructor; assumption);
      try (eapply Relation_Operators.rst_trans; eassumption).
    - apply Relation_Operators.rst_step, same_pairs_in; auto.
    - apply Relation_Operators.rst_step, same_pairs_in; auto. }
  split; [|split; [|split; [|split]]].
  - intros c Hc. destruct (ig_cover _ _ _ G c Hc) as (g & Hg & Hi). exists g. split; auto.
    intros g' [Hg' Hi']. eapply (ig_one _ _ _ G); eauto.
  - exact (ig_range _ _ _ G).
  - intros g a b Hg Ha Hb. rewrite <- L. pose proof (ig_class _ _ _ G g a b Hg Ha). tauto.
  - intros g Hg. split; [apply (ig_nonempty _ _ _ G); auto|apply (ig_sorted _ _ _ G); auto].
  - exact (ig_nodup _ _ _ G).
Qed.
Print Assumptions C16_groups_are_components.
Example C16_witness : build_input Debug r1 = Ok d1 /\ i_groups d1 = [[0; 1]; [2]; [3]].
Proof. split; [exact r1_builds|vm_compute; reflexivity]. Qed.

(** ** C17 *)
Theorem C17_preprocessing_loses_nothing :
  forall (cs : list constraint) (n : nat) (out : list constraint) (S : scheduling) (A : assignment),
    (forall k, In k cs -> shaped k) ->
    reduce_and_optimize cs n = Ok (out, false) ->
    (forall k, In k out -> means S A k) -> forall k, In k cs -> means S A k.
Proof. exact reduce_loses_nothing. Qed.
Print Assumptions C17_preprocessing_loses_nothing.
Definition cs17 : list constraint :=
  [mkC SlotContainsChoice 1 (TChoice 2) ENone; mkC ChoicesHaveSameChoosers 0 (TChoice 1) ENone;
   mkC ChoicesHaveSameChoosers 1 (TChoice 3) ENone; mkC ChoiceContainsChooser 0 (TChooser 0) ENone].
Example C17_witness : (forall k, In k cs17 -> shaped k) /\ exists out, reduce_and_optimize cs17 4 = Ok (out, false) /\ length out > length cs17.
Proof.
  split. { intros k [<-|[<-|[<-|[<-|[]]]]]; exact I. }
  eexists. split; [vm_compute; reflexivity|]. cbn. lia.
Qed.

(** ** C18.  Full statement: for every list [cs] of constraints on existing
    objects and every [S A] with one choice per slot that respects the bounds,
    if all of [cs] holds then all of the processed list holds.  Proved when
    every choice is held and attended and no attendance requirement is
    repeated; false when one is repeated. *)
Theorem C18_preprocessing_invents_nothing_partial :
  forall (d : input_data) (S : scheduling) (A : assignment) (cs out : list constraint) (b : bool) (np : nat),
    let n := length (i_choices d) in
    one_choice_per_slot d S A ->
    (forall c, c < n -> held S c) -> (forall c, c < n -> exists p, attends A p c) ->
    (forall c s, scheduled_in S c s -> s < length (i_slots d)) ->
    (forall k, In k cs -> indexed n (length (i_slots d)) np k) ->
    NoDup (flat_map attendance_req cs) ->
    reduce_and_optimize cs n = Ok (out, b) ->
    (forall k, In k cs -> means S A k) -> forall k, In k out -> means S A k.
Proof. exact reduce_invents_nothing. Qed.
Print Assumptions C18_preprocessing_invents_nothing_partial.
Definition cs18 : list constraint :=
  [mkC SlotContainsChoice 1 (TChoice 2) ENone; mkC ChoicesHaveSameChoosers 0 (TChoice 1) ENone;
   mkC ChoiceContainsChooser 0 (TChooser 1) ENone].
Example C18_witness :
  let n := length (i_choices d1) in
  one_choice_per_slot d1 S1 A1 /\ (forall c, c < n -> held S1 c) /\ (forall c, c < n -> exists p, attends A1 p c) /\
  (forall k, In k cs18 -> indexed n (length (i_slots d1)) 3 k) /\ NoDup (flat_map attendance_req cs18) /\
  (exists out, reduce_and_optimize cs18 n = Ok (out, false)) /\ (forall k, In k cs18 -> means S1 A1 k).
Proof.
  split; [apply (ra_one _ _ _ (vsol_rest _ _ _ d1_valid))|].
  split. { change (length (i_choices d1)) with 4. intros c Hc. do 4 (destruct c as [|c]; [eexists; reflexivity|]). lia. }
  split. { change (length (i_choices d1)) with 4. intros c Hc. destruct c as [|[|[|[|c]]]];
    [exists 1, [0;1]|exists 1, [0;1]|exists 0, [3;2]|exists 0, [3;2]|lia]; (split; [reflexivity|cbn; auto]). }
  split. { change (length (i_choices d1)) with 4. change (length (i_slots d1)) with 2. intros k [<-|[<-|[<-|[]]]]; cbn; lia. }
  split. { cbn. constructor; [cbn; tauto|constructor]. }
  split. { eexists. vm_compute. reflexivity. }
  intros k [<-|[<-|[<-|[]]]]; unfold means; cbn.
  - reflexivity.
  - intros _ _ p. split; intros (row & Hr & Hi); exists row; (split; [auto|]);
      (destruct p as [|[|[|p]]]; cbn in Hr; try (injection Hr as <-); cbn in *; try lia; destruct p; discriminate).
  - intros _. exists [0;1]. split; [reflexivity|cbn; auto].
Qed.

(** Saying [p.choices.contains(x)] twice makes a solvable input unsolvable. *)
Definition e4 : expr := mkE (acc_chooser "p" AChoice) RContains (acc_choice "x" ANotSet 0).
Definition r4 (es : list expr) : reader := mkReader [mkSlot "s"] [mkProto "x" 1 1 1 false] [mkChooser "p" [0]%N] es.
Theorem C18_repeated_constraint_refuted :
  exists (e : expr) (mk : list expr -> reader) (d d' : input_data) (S : scheduling) (A : assignment),
    (forall es, r_exprs (mk es) = es) /\
    (forall pr, build_input pr (mk [e]) = Ok d) /\ (forall pr, build_input pr (mk [e; e]) = Ok d') /\
    valid_solution d S A /\ forall S' A', ~ valid_solution d' S' A'.
Proof.
  destruct (build_input Debug (r4 [e4])) as [d| |] eqn:E; try (vm_compute in E; discriminate).
  destruct (build_input Debug (r4 [e4; e4])) as [d'| |] eqn:E'; try (vm_compute in E'; discriminate).
  exists e4, r4, d, d', [Some 0], [[0]]. vm_compute in E, E'. injection E as <-. injection E' as <-.
  split; [reflexivity|]. split; [intros [|]; vm_compute; reflexivity|]. split; [intros [|]; vm_compute; reflexivity|].
  split. { apply check_solution_ok; [apply fits_b_ok|apply wf_input_b_ok|]; vm_compute; reflexivity. }
  intros S' A' [HV HR]. destruct HV as [V1 V2 V3 V4 V5]. cbn in *.
  destruct S' as [|x [|]]; try discriminate. destruct x as [s|].
  - specialize (V5 _ (or_introl eq_refl) s). cbn in V5. apply V5. split; reflexivity.
  - specialize (V3 0 _ eq_refl eq_refl). discriminate.
Qed.
Print Assumptions C18_repeated_constraint_refuted.

(** The conditions "attended" and "held" are needed too.  First: a and b may stay
    empty and are to have the same choosers; c takes everybody.  The processed
    input demands different slots for a and b, so the only slot does not do. *)
Definition r18 (es : list expr) : reader := mkReader [mkSlot "s"]
  [mkProto "a" 0 1 1 false; mkProto "b" 0 1 1 false; mkProto "c" 0 2 1 false] [mkChooser "p" [0;0;0]%N] es.
Definition es18 : list expr := [mkE (acc_choice "a" AChooser 0) REq (acc_choice "b" AChooser 0)].
Definition d18 (es : list expr) : input_data := match build_input Debug (r18 es) with Ok d => d | _ => d1 end.
Theorem C18_unattended_refuted :
  exists (mk : list expr -> reader) (es : list expr) (d d' : input_data) (S : scheduling) (A : assignment),
    (forall l, r_exprs (mk l) = l) /\
    (forall pr, build_input pr (mk []) = Ok d) /\ (forall pr, build_input pr (mk es) = Ok d') /\
    valid_solution d S A /\ (forall k, In k (i_assign d') -> asg_means S A k) /\ length (i_assign d') = length es /\
    (forall c, c < length (i_choices d) -> held S c) /\
    forall S' A', ~ valid_solution d' S' A'.
Proof.
  exists r18, es18, (d18 []), (d18 es18), [Some 0; Some 0; Some 0], [[2]].
  split; [reflexivity|]. split; [intros [|]; vm_compute; reflexivity|]. split; [intros [|]; vm_compute; reflexivity|].
  split. { apply check_solution_ok; [apply fits_b_ok|apply wf_input_b_ok|]; vm_compute; reflexivity. }
  split.
  { intros k [<-|[]]. cbn. intros _ _ p. split; intros (row & Hr & Hc); (destruct p as [|[|p]]; [|discriminate..]); cbn in Hr; injection Hr as <-; destruct Hc as [Hc|[]]; discriminate. }
  split; [reflexivity|]. split. { intros c Hc. destruct c as [|[|[|c]]]; try (eexists; reflexivity). vm_compute in Hc. lia. }
  intros S' A' [HV HR]. destruct HV as [V1 V2 V3 V4 V5].
  change (length (i_choices (d18 es18))) with 3 in V1. destruct S' as [|x [|y [|z [|]]]]; try discriminate.
  destruct x as [x|]; [|specialize (V3 0 _ eq_refl eq_refl); discriminate].
  destruct y as [y|]; [|specialize (V3 1 _ eq_refl eq_refl); discriminate].
  pose proof (V2 0 x eq_refl) as X. pose proof (V2 1 y eq_refl) as Y. change (length (i_slots (d18 es18))) with 1 in X, Y.
  assert (x = 0) by lia. assert (y = 0) by lia. subst.
  apply (V5 _ (or_introl eq_refl) 0). split; reflexivity.
Qed.
Print Assumptions C18_unattended_refuted.

(** Second: a and c share their choosers with the optional b, which is not held. *)
Definition r18h (es : list expr) : reader := mkReader [mkSlot "s"]
  [mkProto "a" 1 1 1 false; mkProto "b" 1 1 1 true; mkProto "c" 1 1 1 false] [mkChooser "p" [0;0;0]%N; mkChooser "q" [0;0;0]%N] es.
Definition es18h : list expr :=
  [mkE (acc_choice "a" AChooser 0) REq (acc_choice "b" AChooser 0); mkE (acc_choice "b" AChooser 0) REq (acc_choice "c" AChooser 0)].
Definition d18h (es : list expr) : input_data := match build_input Debug (r18h es) with Ok d => d | _ => d1 end.
Theorem C18_unheld_refuted :
  exists (mk : list expr -> reader) (es : list expr) (d d' : input_data) (S : scheduling) (A : assignment),
    (forall l, r_exprs (mk l) = l) /\
    (forall pr, build_input pr (mk []) = Ok d) /\ (forall pr, build_input pr (mk es) = Ok d') /\
    valid_solution d S A /\ (forall k, In k (i_assign d') -> asg_means S A k) /\ length (i_assign d') = length es /\
    (forall c, held S c -> exists p, attends A p c) /\
    forall S' A', ~ valid_solution d' S' A'.
Proof.
  exists r18h, es18h, (d18h []), (d18h es18h), [Some 0; None; Some 0], [[0]; [2]].
  split; [reflexivity|]. split; [intros [|]; vm_compute; reflexivity|]. split; [intros [|]; vm_compute; reflexivity|].
  split. { apply check_solution_ok; [apply fits_b_ok|apply wf_input_b_ok|]; vm_compute; reflexivity. }
  split. { intros k [<-|[<-|[]]]; cbn; [intros _ [s Hs]|intros [s Hs]]; discriminate Hs. }
  split; [reflexivity|]. split.
  { intros c [s Hs]. destruct c as [|[|[|c]]]; try discriminate Hs; [exists 0, [0]|exists 1, [2]|destruct c; discriminate]; (split; [reflexivity|left; reflexivity]). }
  intros S' A' [HV HR]. destruct HV as [V1 V2 V3 V4 V5].
  change (length (i_choices (d18h es18h))) with 3 in V1. destruct S' as [|x [|y [|z [|]]]]; try discriminate.
  destruct x as [x|]; [|specialize (V3 0 _ eq_refl eq_refl); discriminate].
  destruct z as [z|]; [|specialize (V3 2 _ eq_refl eq_refl); discriminate].
  pose proof (V2 0 x eq_refl) as X. pose proof (V2 2 z eq_refl) as Y. change (length (i_slots (d18h es18h))) with 1 in X, Y.
  assert (x = 0) by lia. assert (z = 0) by lia. subst.
  apply (V5 _ (or_intror (or_introl eq_refl)) 0). split; reflexivity.
Qed.
Print Assumptions C18_unheld_refuted.

(** ** C48: the processed bounds of a choice admit exactly the numbers that the
    declared bounds of every choice with the same audience admit. *)
Theorem C48_bounds_are_intersected :
  forall (pr : profile) (r : reader) (d : input_data) (c : nat) (ch : choice_data),
    build_input pr r = Ok d -> reader_u32 r -> nth_error (i_choices d) c = Some ch ->
    let joined a b := exists e, In (mkC ChoicesHaveSameChoosers a (TChoice b) e) (i_assign d) in
    forall n, (n <= u32_max)%N ->
      ((ch_min ch <= n <= ch_max ch)%N <->
       forall c' i k p, Relation_Operators.clos_refl_sym_trans nat joined c c' ->
         is_part (r_choices r) i k c' -> nth_error (r_choices r) i = Some p ->
         (p_min p <= n <= p_max p)%N).
Proof.
  intros pr r d c ch H HU Hc joined n Hn. rewrite (built_bounds pr r d c ch H HU Hc n Hn).
  assert (L : forall a b, one_audience d a b <-> Relation_Operators.clos_refl_sym_trans nat joined a b).
  { intros a b. unfold one_audience, linked, joined.
    split; intros K; induction K as [x y Hxy| | |]; try (constructor; assumption);
      try (eapply Relation_Operators.rst_trans; eassumption).
    - apply Relation_Operators.rst_step, same_pairs_in; auto.
    - apply Relation_Operators.rst_step, same_pairs_in; auto. }
  split.
  - intros HA c' i k p HL Hp Hi. apply (HA c'); [apply L; auto|]. exists i, k. auto.
  - intros HA c' p HL (i & k & Hp & Hi). apply (HA c' i k p); auto. apply L; auto.
Qed.
Print Assumptions C48_bounds_are_intersected.
Definition r48 : reader := mkReader [mkSlot "s"; mkSlot "t"]
  [mkProto "a" 1 3 1 false; mkProto "b" 2 9 1 false] [mkChooser "p" [0;0]%N; mkChooser "q" [0;0]%N]
  [mkE (acc_choice "a" AChooser 0) REq (acc_choice "b" AChooser 0)].
Example C48_witness : exists d, build_input Debug r48 = Ok d /\ reader_u32 r48 /\ map ch_min (i_choices d) = [2;2]%N /\ map ch_max (i_choices d) = [3;3]%N.
Proof.
  eexists. split; [vm_compute; reflexivity|]. split.
  - constructor; cbn; [intros p [<-|[<-|[]]]; cbn; unfold u32_max; lia|].
    intros c x [<-|[<-|[]]]; cbn; unfold u32_max; intuition lia.
  - split; reflexivity.
Qed.

(** ** C19 is false: [min(5), max(1)] is accepted. *)
Theorem C19_min_le_max_refuted :
  exists (r : reader) (d : input_data) (ch : choice_data),
    (forall pr, read_input pr false r = Ok d) /\ In ch (i_choices d) /\ (ch_max ch < ch_min ch)%N.
Proof.
  exists (mkReader [mkSlot "s"] [mkProto "a" 5 1 1 false] [mkChooser "p" [0]%N] []).
  do 2 eexists. split; [intros [|]; vm_compute; reflexivity|]. split; [left; reflexivity|]. cbn. lia.
Qed.
Print Assumptions C19_min_le_max_refuted.

(** Proved: min <= max after processing if some number of choosers is admitted
    by the declared bounds of the whole same-audience group.  Missing: that such
    a number exists, which reading does not check. *)
Theorem C19_min_le_max_partial :
  forall (pr : profile) (r : reader) (d : input_data) (c : nat) (ch : choice_data) (n : N),
    build_input pr r = Ok d -> reader_u32 r -> nth_error (i_choices d) c = Some ch -> (n <= u32_max)%N ->
    (forall p, In p (r_choices r) -> (p_min p <= n <= p_max p)%N) ->
    (ch_min ch <= ch_max ch)%N.
Proof.
  intros pr r d c ch n H HU Hc Hn HA.
  assert (K : (ch_min ch <= n <= ch_max ch)%N); [|lia].
  apply (proj2 (built_bounds pr r d c ch H HU Hc n Hn)). intros c' p _ (i & k & _ & Hi). apply HA. eapply nth_error_In; eauto.
Qed.
Print Assumptions C19_min_le_max_partial.
(** Exactly when: processed min <= max iff some number is admitted by the declared
    bounds of all choices that must have one audience with this one. *)
Theorem C19_min_le_max_iff_admissible :
  forall (pr : profile) (r : reader) (d : input_data) (c : nat) (ch : choice_data),
    build_input pr r = Ok d -> reader_u32 r -> nth_error (i_choices d) c = Some ch ->
    let joined a b := exists e, In (mkC ChoicesHaveSameChoosers a (TChoice b) e) (i_assign d) in
    ((ch_min ch <= ch_max ch)%N <->
     exists n, (n <= u32_max)%N /\
       forall c' i k p, Relation_Operators.clos_refl_sym_trans nat joined c c' ->
         is_part (r_choices r) i k c' -> nth_error (r_choices r) i = Some p -> (p_min p <= n <= p_max p)%N).
Proof.
  intros pr r d c ch H HU Hc joined. split.
  - intros HL. exists (ch_min ch). assert (Hn : (ch_min ch <= u32_max)%N).
    { destruct (build_inv _ _ _ H) as (raw & cs & css & B). pose proof (wf_bounds_u32 _ (b_wf _ _ _ _ _ _ B HU)) as W. apply nth_error_In in Hc. apply W in Hc. tauto. }
    split; auto. apply (C48_bounds_are_intersected pr r d c ch H HU Hc (ch_min ch) Hn). lia.
  - intros (n & Hn & HA). apply (C48_bounds_are_intersected pr r d c ch H HU Hc n Hn) in HA. lia.
Qed.
Print Assumptions C19_min_le_max_iff_admissible.
Example C19_witness : exists d, build_input Debug r48 = Ok d /\ (forall p, In p (r_choices r48) -> (p_min p <= 2 <= p_max p)%N).
Proof. eexists. split; [vm_compute; reflexivity|]. intros p [<-|[<-|[]]]; cbn; lia. Qed.

(** ** C20: no same-choosers constraint leaves the declared choice [i] and no
    constraint puts chooser [q] into part [c]: the preference is mirrored. *)
Theorem C20_preferences_mirrored :
  forall (pr : profile) (r : reader) (d : input_data) (q c : nat) (x : N) (i k : nat),
    build_input pr r = Ok d -> reader_u32 r ->
    is_part (r_choices r) i k c ->
    (forall a b e, In (mkC ChoicesHaveSameChoosers a (TChoice b) e) (i_assign d) ->
       ((exists k, is_part (r_choices r) i k a) <-> (exists k, is_part (r_choices r) i k b))) ->
    (forall e, ~ In (mkC ChooserIsInChoice q (TChoice c) e) (i_assign d)) ->
    pref_of d q c x ->
    exists cd w, nth_error (r_choosers r) q = Some cd /\ nth_error (cs_prefs cd) i = Some w /\
      x = (i_max_pref d - w)%N /\ (w <= i_max_pref d)%N /\ is_max_pref r (i_max_pref d).
Proof. exact built_prefs_plain. Qed.
Print Assumptions C20_preferences_mirrored.

(** ... and in general: 0 for a required attendance, else the best mirrored
    wish among the choices with the same audience. *)
Theorem C20_preferences_general :
  forall (pr : profile) (r : reader) (d : input_data) (q c : nat) (x : N),
    build_input pr r = Ok d -> reader_u32 r -> pref_of d q c x ->
    ((exists e, In (mkC ChooserIsInChoice q (TChoice c) e) (i_assign d)) -> x = 0%N) /\
    (~ (exists e, In (mkC ChooserIsInChoice q (TChoice c) e) (i_assign d)) ->
      (forall c' y, one_audience d c c' -> mirrored_wish r (i_max_pref d) q c' y -> (x <= y)%N) /\
      (exists c', one_audience d c c' /\ mirrored_wish r (i_max_pref d) q c' x)).
Proof. exact built_prefs. Qed.
Print Assumptions C20_preferences_general.

Example C20_witness : build_input Debug r1 = Ok d1 /\ reader_u32 r1 /\ is_part (r_choices r1) 0 1 1 /\ pref_of d1 1 1 0%N /\
  pref_of d1 0 1 8%N /\ pref_of d1 0 2 0%N /\ pref_of d1 2 2 0%N /\ pref_of d1 1 2 9%N.
Proof.
  split; [exact r1_builds|]. split; [exact r1_u32|].
  split. { exists (mkProto "a" 1 2 2 false). repeat split. vm_compute. lia. }
  repeat split; eexists; split; reflexivity.
Qed.

(** ** C21 *)
Theorem C21_levels_partial :
  forall (pr : profile) (r : reader) (d : input_data), build_input pr r = Ok d ->
    StronglySorted N.lt (i_levels d) /\
    hd_error (i_levels d) = Some 0%N /\ last (i_levels d) 0%N = i_max_pref d /\
    (forall x, In x (i_levels d) <->
       (exists c, In c (r_choosers r) /\ In x (cs_prefs c)) \/ x = i_max_pref d \/ x = 0%N).
Proof.
  intros pr r d H. destruct (build_inv _ _ _ H) as (raw & cs & css & B). rewrite (bf_levels _ _ _ _ _ _ B).
  pose proof (levels_sorted r (i_max_pref d)) as HS.
  pose proof (levels_in r (i_max_pref d)) as HI. split; auto. set (l := build_levels r (i_max_pref d)) in *.
  assert (HM : forall x, In x l -> (x <= i_max_pref d)%N).
  { intros x Hx. apply HI in Hx as [(c & Hc & Hx)|[-> | ->]]; try lia. rewrite (bf_max _ _ _ _ _ _ B).
    apply (proj1 (max_pref_is r) c); auto. }
  split; [|split; [|auto]].
  - assert (H0 : In 0%N l) by (apply HI; auto). destruct HS as [|a t HS HF]; [contradiction|]. cbn. f_equal.
    destruct H0 as [->|H0]; auto. rewrite Forall_forall in HF. specialize (HF _ H0). lia.
  - assert (H0 : In (i_max_pref d) l) by (apply HI; auto). clear HI.
    induction HS as [|a t HS IH HF]; [contradiction|]. rewrite Forall_forall in HF. destruct t as [|b t].
    + cbn. destruct H0 as [->|[]]; auto.
    + change (last (a :: b :: t) 0%N) with (last (b :: t) 0%N). apply IH.
      * intros x Hx. apply HM. right; auto.
      * destruct H0 as [H0|H0]; auto. exfalso. specialize (HF b (or_introl eq_refl)). specialize (HM b (or_intror (or_introl eq_refl))). lia.
Qed.
Print Assumptions C21_levels_partial.
Example C21_witness : exists d, build_input Debug r1 = Ok d /\ i_levels d = [0;1;2;3;4;5;9]%N.
Proof. eexists. split; [exact r1_builds|vm_compute; reflexivity]. Qed.
(** They are not the normalized values: wishes 10 and 3 normalize to 0 and 7,
    but 7 is not a level. *)
Theorem C21_levels_normalized_refuted :
  exists (r : reader) (d : input_data) (p c : nat) (x : N),
    (forall pr, build_input pr r = Ok d) /\ pref_of d p c x /\ ~ In x (i_levels d).
Proof.
  exists (mkReader [mkSlot "s"] [mkProto "a" 1 1 1 false; mkProto "b" 1 1 1 false] [mkChooser "p" [10;3]%N] []).
  eexists. exists 0, 1, 7%N. split; [intros [|]; vm_compute; reflexivity|].
  split; [eexists; split; reflexivity|]. cbn. intuition discriminate.
Qed.
Print Assumptions C21_levels_normalized_refuted.

(** ** C37: for [==] and [!=] exchanging the sides does not change what is
    required (same solutions accepted). *)
Theorem C37_exchanged_sides_partial :
  forall (x : ctx) (a b : accessor) (rel : rel_kind) (l l' : list constraint) (S : scheduling) (A : assignment),
    (rel = REq \/ rel = RNeq) ->
    build_expr x (mkE a rel b) = Ok l -> build_expr x (mkE b rel a) = Ok l' ->
    ((forall k, In k l -> means S A k) <-> (forall k, In k l' -> means S A k)).
Proof.
  exact (fun x a b rel l l' S A HR H H' =>
    conj (swap_same x a rel b l l' S A HR H H') (swap_same x b rel a l' l S A HR H' H)).
Qed.
Print Assumptions C37_exchanged_sides_partial.
Definition x37 : ctx := mkCtx [mkSlot "s"; mkSlot "t"] [mkChooser "p" [0;0]%N] [mkChoice "a" 1 1 None false; mkChoice "b" 1 1 None false].
Example C37_witness : exists l,
  build_expr x37 (mkE (acc_choice "a" ASlot 0) RNeq (acc_slot "t" ANotSet)) = Ok l /\
  build_expr x37 (mkE (acc_slot "t" ANotSet) RNeq (acc_choice "a" ASlot 0)) = Ok l /\ l <> [].
Proof. eexists. split; [vm_compute; reflexivity|]. split; [vm_compute; reflexivity|discriminate]. Qed.
(** For order relations it does: [3 >= s.size] is read as [s.size >= 3]. *)
Theorem C37_mirrored_order_refuted :
  exists (x : ctx) (a b : accessor) (S : scheduling) (A : assignment) (l l' : list constraint),
    build_expr x (mkE a RGeq b) = Ok l /\ build_expr x (mkE b (mirror_rel RGeq) a) = Ok l' /\
    (forall k, In k l' -> means S A k) /\ ~ (forall k, In k l -> means S A k).
Proof.
  exists x37, (acc_int "3"), (acc_slot "s" ASize), [Some 0; Some 0], [[0;1]].
  do 2 eexists. split; [vm_compute; reflexivity|]. split; [vm_compute; reflexivity|].
  assert (HC : cardinal (fun c => scheduled_in [Some 0; Some 0] c 0) 2).
  { exists [0;1]. split; [repeat (constructor; [cbn; intuition lia|]); constructor|]. split; [|reflexivity].
    intros x. unfold scheduled_in. split; [cbn; intuition (subst; reflexivity)|].
    destruct x as [|[|x]]; cbn; auto. destruct x; discriminate. }
  split.
  - intros k [<-|[]]. unfold means, sched_means; cbn. exists 2. split; auto. cbn. lia.
  - intros H. specialize (H _ (or_introl eq_refl)). unfold means, sched_means in H; cbn in H. destruct H as (m & Hm & HR).
    rewrite (cardinal_unique _ _ _ Hm HC) in HR. cbn in HR. lia.
Qed.
Print Assumptions C37_mirrored_order_refuted.

(** ** C39 *)
Theorem C39_accepted_input_well_formed :
  forall (pr : profile) (r : reader) (d : input_data),
    build_input pr r = Ok d -> reader_u32 r ->
    length (i_slots d) <> 0 /\
    (forall k, In k (i_sched d) -> sched_shape d k) /\
    (forall k, In k (i_assign d) -> asg_shape d k) /\
    (forall ch, In ch (i_choosers d) -> length (cs_prefs ch) = length (i_choices d)) /\
    (forall ch x, In ch (i_choosers d) -> In x (cs_prefs ch) -> (x <= i_max_pref d <= u32_max)%N).
Proof.
  intros pr r d H HU. destruct (build_inv _ _ _ H) as (raw & cs & css & B).
  destruct (b_wf _ _ _ _ _ _ B HU) as [W1 W2 W3 W4 W5 W6 W7]. repeat (split; [assumption|]).
  intros ch x Hc Hx. split; [eapply W5; eauto|auto].
Qed.
Print Assumptions C39_accepted_input_well_formed.

(** ... hence the validity check of a complete solution cannot panic. *)
Theorem C39_validity_check_total :
  forall (pr : profile) (r : reader) (d : input_data) (S : scheduling) (A : assignment),
    build_input pr r = Ok d -> reader_u32 r -> fits d ->
    length S = length (i_choices d) -> length A = length (i_choosers d) ->
    (forall p row, nth_error A p = Some row -> length row = length (i_slots d)) ->
    (forall c s, scheduled_in S c s -> s < length (i_slots d)) ->
    (forall p c, attends A p c -> held S c) ->
    exists b, sol_is_feasible d S A = Ok b.
Proof.
  intros pr r d S A H HU HF. destruct (build_inv _ _ _ H) as (raw & cs & css & B).
  exact (sol_is_feasible_total d S A HF (b_wf _ _ _ _ _ _ B HU)).
Qed.
Print Assumptions C39_validity_check_total.
Example C39_witness : build_input Debug r1 = Ok d1 /\ reader_u32 r1 /\ fits d1 /\ i_sched d1 <> [] /\ i_assign d1 <> [].
Proof. split; [exact r1_builds|]. split; [exact r1_u32|]. split; [exact d1_fits|]. vm_compute. split; discriminate. Qed.

(** ** C49: compiling a registered input never panics when integers in
    [slot.size] relations fit u32 and there are at most 2^31-1 processed choices. *)
Theorem C49_reading_never_panics_partial :
  forall (pr : profile) (r : reader),
    reader_u32 r ->
    (forall e a n, In e (r_exprs r) -> a = e_left e \/ a = e_right e -> a_kind a = AInteger ->
       parse_usize (a_name a) = Some n -> (n <= u32_max)%N) ->
    (Z.of_nat (first_index (r_choices r) (length (r_choices r))) <= i32_max)%Z ->
    build_input pr r <> Panic.
Proof. exact (fun pr r HU HE HN => build_no_panic pr r HU (fun e He a n => HE e a n He) HN). Qed.
Print Assumptions C49_reading_never_panics_partial.
Example C49_witness : reader_u32 r1 /\
  (forall e a n, In e (r_exprs r1) -> a = e_left e \/ a = e_right e -> a_kind a = AInteger ->
     parse_usize (a_name a) = Some n -> (n <= u32_max)%N) /\
  (Z.of_nat (first_index (r_choices r1) (length (r_choices r1))) <= i32_max)%Z.
Proof.
  split; [exact r1_u32|]. split.
  - intros e a n [<-|[<-|[<-|[<-|[]]]]] [->| ->]; cbn; try discriminate. intros _ E. injection E as <-. unfold u32_max. lia.
  - vm_compute. discriminate.
Qed.
(** [s.size <= 4294967296] panics instead of being rejected. *)
Theorem C49_huge_integer_refuted :
  exists r : reader, forall pr, reader_u32 r /\ build_input pr r = Panic.
Proof.
  exists (mkReader [mkSlot "s"] [mkProto "a" 1 1 1 false] [mkChooser "p" [0]%N]
            [mkE (acc_slot "s" ASize) RLeq (acc_int "4294967296")]).
  intros pr. split.
  - constructor; cbn; [intros p [<-|[]]; cbn; unfold u32_max; lia|]. intros c x [<-|[]] [<-|[]]. unfold u32_max; lia.
  - destruct pr; vm_compute; reflexivity.
Qed.
Print Assumptions C49_huge_integer_refuted.

(** ** C40: the table by choice is exact. *)
Theorem C40_choice_table_exact_partial :
  forall (pr : profile) (r : reader) (d : input_data), build_input pr r = Ok d ->
    length (i_choice_map d) = length (i_choices d) /\
    forall c l, nth_error (i_choice_map d) c = Some l ->
      forall k, In k l <-> In k (i_sched d) /\
        match c_kind k, c_right k with
        | ChoiceIsInSlot, _ | ChoiceIsNotInSlot, _ => c_left k = c
        | ChoicesAreInSameSlot, TChoice o | ChoicesAreNotInSameSlot, TChoice o | ChoicesHaveOffset, TChoice o =>
            c_left k = c \/ o = c
        | SlotHasLimitedSize, _ => True
        | _, _ => False
        end.
Proof.
  intros pr r d H. destruct (built_maps pr r d H) as (H1 & H2 & _). split; auto.
  intros c l Hl k. rewrite (H2 c l Hl k). unfold mentions.
  destruct (c_kind k), (c_right k); rewrite ?orb_true_iff, ?Nat.eqb_eq; intuition discriminate.
Qed.
Print Assumptions C40_choice_table_exact_partial.
Example C40_witness : build_input Debug r1 = Ok d1 /\ map (@List.length constraint) (i_choice_map d1) = [4;3;2;1].
Proof. split; [exact r1_builds|vm_compute; reflexivity]. Qed.
(** The table by chooser is always empty, even with constraints on choosers. *)
Theorem C40_chooser_table_refuted :
  (forall (pr : profile) (r : reader) (d : input_data), build_input pr r = Ok d ->
     forall p l, nth_error (i_chooser_map d) p = Some l -> l = []) /\
  exists (r : reader) (d : input_data), (forall pr, build_input pr r = Ok d) /\
    In (mkC ChooserIsInChoice 0 (TChoice 2) ENone) (i_assign d).
Proof.
  split.
  - intros pr r d H p l Hl. destruct (built_maps pr r d H) as (_ & _ & E). rewrite E in Hl.
    apply nth_error_In in Hl. apply repeat_spec in Hl. auto.
  - exists r1. eexists. split; [intros [|]; vm_compute; reflexivity|]. vm_compute. auto.
Qed.
Print Assumptions C40_chooser_table_refuted.

(** ** C41 is false without the hypothesis of [C41_feasibility_check_exact_partial]:
    the sum of three large max bounds (each an i32, as scripts give them) wraps around (release) or panics (debug). *)
Theorem C41_max_sum_overflow_refuted :
  exists (r : reader) (d : input_data) (S : scheduling),
    (forall pr, build_input pr r = Ok d) /\ valid_scheduling d S /\
    sched_is_feasible Release d S = Ok false /\ sched_is_feasible Debug d S = Panic.
Proof.
  exists (mkReader [mkSlot "s"] [mkProto "a" 0 2147483647 1 false; mkProto "b" 0 2147483647 1 false; mkProto "c" 0 2 1 false] [mkChooser "p" [0;0;0]%N] []).
  eexists. exists [Some 0; Some 0; Some 0]. split; [intros [|]; vm_compute; reflexivity|].
  split; [|split; vm_compute; reflexivity].
  constructor; cbn.
  - reflexivity.
  - intros [|[|[|c]]] s H; cbn in H; try (injection H as <-; lia). destruct c; discriminate.
  - intros [|[|[|c]]] ch H H'; cbn in H'; try discriminate. destruct c; discriminate.
  - intros [|s] Hs; [|lia]. cbn. lia.
  - intros k [].
Qed.
Print Assumptions C41_max_sum_overflow_refuted.

(** ** C46: if reading reports "not satisfiable", then no [S A] that uses every
    declared slot (as every valid scheduling does when there are choosers and
    every choice admits one) satisfies all declared constraints.  [slots_named]:
    every slot accessor names a declared slot (how the script creates them). *)
Theorem C46_unsatisfiable_is_true :
  forall (pr : profile) (r : reader) (S : scheduling) (A : assignment),
    build_input pr r = Err msg_unsat ->
    (forall e, In e (r_exprs r) -> slots_named r e) ->
    (forall s, s < length (r_slots r) -> exists c, scheduled_in S c s) ->
    ~ (forall e, In e (r_exprs r) -> says false r S A e).
Proof. exact unsat_true. Qed.
Print Assumptions C46_unsatisfiable_is_true.
Definition r46 : reader := mkReader [mkSlot "s"; mkSlot "t"] [mkProto "a" 1 1 1 false; mkProto "b" 1 1 1 false] [mkChooser "p" [0;0]%N]
  [mkE (acc_slot "s" AChoice) REq (acc_slot "t" AChoice)].
Example C46_witness : build_input Debug r46 = Err msg_unsat /\ (forall e, In e (r_exprs r46) -> slots_named r46 e).
Proof.
  split; [vm_compute; reflexivity|]. intros e [<-|[]] a [->| ->] _; [exists 0|exists 1]; eexists; split; reflexivity.
Qed.
(** A valid scheduling of an input with at least one chooser does use every slot. *)
Theorem C46_valid_schedulings_use_every_slot :
  forall (d : input_data) (S : scheduling), i_choosers d <> [] -> valid_scheduling d S ->
    forall s, s < length (i_slots d) -> exists c, scheduled_in S c s.
Proof.
  intros d S Hc V s Hs. destruct (vs_sums _ _ V s Hs) as [_ H2].
  assert (H0 : (slot_sum ch_max (i_choices d) S s <> 0)%N). { destruct (i_choosers d); [congruence|cbn in H2; lia]. }
  clear -H0. unfold scheduled_in. revert S H0. induction (i_choices d) as [|ch t IH]; intros [|x S] H0; cbn in H0; try congruence.
  destruct x as [u|].
  - destruct (Nat.eqb_spec u s) as [->|]; [exists 0; reflexivity|]. destruct (IH S) as [c Hc]; [lia|]. exists (Datatypes.S c); auto.
  - destruct (IH S) as [c Hc]; [lia|]. exists (Datatypes.S c); auto.
Qed.
Print Assumptions C46_valid_schedulings_use_every_slot.
