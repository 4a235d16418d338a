(** Property theorem C79: the order in which slots and choosers are listed does
    not matter. *)
From Verif Require Import Base M_Data Spec M_Scoring P_Scoring P_Feasible P_Check M_Union M_Names M_Build
  Spec_Input P_Input P_Input2 P_Input3 Spec_Meta P_Meta T_Input T_Meta Spec_Order P_Order.
From Coq Require Import String Permutation.
Notation length := Datatypes.length.
Notation get := Base.get.
Open Scope string_scope.
Import ListNotations.
Open Scope list_scope.

(** ** C79, part one.  List the choosers in another order, and the slots too (if
    no choice has several parts).  If the input was accepted, it still is, with
    the same choices, bounds and preference levels, every chooser has the
    preferences it had, and what was a valid scheduling or solution is one, with
    the same score, once slots and choosers are renumbered. *)
Theorem C79_listing_order_irrelevant :
  forall (pr : profile) (fs fc : nat -> nat) (r r' : reader) (d : input_data),
    relisted fs fc r r' -> (forall s, fs s = s) \/ single_parts r -> reader_u32 r ->
    build_input pr r = Ok d ->
    exists d', build_input pr r' = Ok d' /\
      i_choices d' = i_choices d /\ i_levels d' = i_levels d /\ i_max_pref d' = i_max_pref d /\
      placed fs (i_slots d) (i_slots d') /\ placed fc (i_choosers d) (i_choosers d') /\
      (forall S S', same_schedule fs S S' -> (valid_scheduling d' S' <-> valid_scheduling d S)) /\
      (forall S S' A A', same_schedule fs S S' -> same_assignment fc A A' ->
         (valid_solution d' S' A' <-> valid_solution d S A)) /\
      (fits d -> (i_max_pref d < u32_max)%N ->
       forall pow g S S' A A', same_schedule fs S S' -> same_assignment fc A A' -> valid_solution d S A ->
         evaluate pr pow g d' (SolComplete S' A') = evaluate pr pow g d (SolComplete S A)).
Proof.
  intros pr fs fc r r' d RL SP HU H. destruct (build_relisted pr fs fc r r' d RL HU H) as (d' & H' & HU' & DR).
  pose proof (built_wf _ _ _ H HU) as WF. pose proof (built_wf _ _ _ H' HU') as WF'.
  assert (NO : (forall s, fs s = s) \/ (forall k, In k (i_sched d) -> c_kind k <> ChoicesHaveOffset)).
  { destruct SP as [SP|SP]; [left; auto|right; eapply single_no_offset; eauto]. }
  exists d'. split; auto. do 3 (split; [apply DR|]). split; [apply DR|]. split; [apply DR|].
  split; [|split].
  - intros S S' HS. apply same_schedule_eq in HS as ->. apply (rl_valid_scheduling fs fc); auto.
  - intros S S' A A' HS HA. apply same_schedule_eq in HS as ->. apply (rl_valid fs fc); auto.
  - intros FI MX pow g S S' A A' HS HA V. apply same_schedule_eq in HS as ->.
    apply (relisted_evaluate fs fc); auto.
    + revert FI. apply fits_same; [exact (proj1 (dr_choosers _ _ _ _ DR))|rewrite (dr_choices _ _ _ _ DR); auto|exact (proj1 (dr_slots _ _ _ _ DR))].
    + apply (proj2 (rl_valid fs fc d d' DR WF NO S A A' HA)); auto.
Qed.
Print Assumptions C79_listing_order_irrelevant.

(** Moving other lists by the same rule. *)
Lemma placed_along {X Y} f (l l' : list X) (m : list Y) : placed f l l' -> length m = length l -> exists m', placed f m m'.
Proof.
  intros P HL. pose proof P as (H1 & H2 & H3).
  destruct m as [|y m0] eqn:EM.
  { exists []. split; auto. split; auto. intros i. destruct (f i), i; auto. }
  rewrite <- EM in *. clear EM.
  set (inv := fun j => match find (fun i => f i =? j)%nat (seq 0 (length l)) with Some i => i | None => 0 end).
  assert (IV : forall i, i < length l -> inv (f i) = i).
  { intros i Hi. unfold inv. destruct (find _ _) as [k|] eqn:E.
    - apply find_some in E as [_ E]. apply Nat.eqb_eq in E. auto.
    - pose proof (find_none _ _ E i) as N. cbv beta in N. rewrite Nat.eqb_refl in N. discriminate N. apply in_seq. lia. }
  exists (map (fun j => nth (inv j) m y) (seq 0 (length l'))). split; [rewrite map_length, seq_length; lia|]. split; auto.
  intros i. rewrite nth_error_map. destruct (Nat.lt_ge_cases i (length l)) as [K|K].
  - pose proof (placed_lt f l l' i P K) as Q. rewrite nth_error_nth' with (d := 0) by (rewrite seq_length; auto).
    rewrite seq_nth by auto. cbn [option_map Nat.add]. rewrite IV by auto. symmetry. apply nth_error_nth'. lia.
  - destruct (Nat.lt_ge_cases (f i) (length l')) as [Q|Q]; [apply (placed_lt' f l l') in Q; auto; lia|].
    rewrite (proj2 (nth_error_None (seq 0 (length l')) (f i))) by (rewrite seq_length; auto). cbn. symmetry. apply nth_error_None. lia.
Qed.
Lemma placed_assignment fc A A' : placed fc A A' -> same_assignment fc A A'.
Proof. intros (H1 & _ & H3). split; auto. intros p row Hp. exists row. rewrite H3. auto. Qed.

(** ** C79, part two: seen from outside.  Shuffle the choosers, and (without
    multi-part choices) the slots: the same inputs are accepted, and the scores
    that valid solutions reach are the same; in particular there is a solution in
    the one case exactly when there is one in the other, and the best scores agree. *)
Lemma C79_half pr r r' d :
  Permutation (r_choosers r) (r_choosers r') ->
  (r_slots r' = r_slots r \/ (Permutation (r_slots r) (r_slots r') /\ single_parts r)) ->
  r_choices r' = r_choices r -> r_exprs r' = r_exprs r -> reader_u32 r ->
  build_input pr r = Ok d -> fits d -> (i_max_pref d < u32_max)%N ->
  exists d', build_input pr r' = Ok d' /\
    ((exists S A, valid_solution d S A) -> exists S A, valid_solution d' S A) /\
    forall pow g v, reaches pr pow g r v -> reaches pr pow g r' v.
Proof.
  intros HP HS E1 E2 HU H FI MX. destruct (perm_placed _ _ HP) as (fc & PC).
  assert (K : exists fs, relisted fs fc r r' /\ ((forall s, fs s = s) \/ single_parts r)).
  { destruct HS as [HS|[HS SP]].
    - exists (fun s => s). split; [|left; auto]. constructor; auto. rewrite HS. split; auto.
    - destruct (r_slots r) as [|s0 ss] eqn:ES.
      + apply Permutation_nil in HS. exists (fun s => s). split; [|left; auto]. constructor; auto. rewrite ES, HS. split; auto.
      + destruct (perm_placed _ _ HS) as (fs & PS). exists fs. split; auto. constructor; auto; rewrite ES; auto. discriminate. }
  destruct K as (fs & RL & SP).
  destruct (C79_listing_order_irrelevant pr fs fc r r' d RL SP HU H) as (d' & H' & _ & _ & _ & _ & PCh & _ & VS & EV).
  assert (MV : forall S A, valid_solution d S A -> exists A', same_assignment fc A A' /\ valid_solution d' (map (option_map fs) S) A').
  { intros S A V. destruct (placed_along fc _ _ A PCh) as (A' & PA).
    - apply (ra_one _ _ _ (vsol_rest _ _ _ V)).
    - apply placed_assignment in PA. exists A'. split; auto. apply (VS S _ A A'); auto. apply map_same_schedule. }
  exists d'. split; auto. split.
  - intros (S & A & V). destruct (MV S A V) as (A' & _ & V'). eauto.
  - intros pow g v (d0 & S & A & Hd & V & HE). assert (d0 = d) by congruence. subst d0.
    destruct (MV S A V) as (A' & SA & V'). exists d', (map (option_map fs) S), A'. split; auto. split; auto.
    rewrite (EV FI MX pow g S _ A A'); auto. apply map_same_schedule.
Qed.
Theorem C79_shuffled_inputs_are_as_good :
  forall (pr : profile) (r r' : reader) (d : input_data),
    Permutation (r_choosers r) (r_choosers r') ->
    (r_slots r' = r_slots r \/ (Permutation (r_slots r) (r_slots r') /\ single_parts r)) ->
    r_choices r' = r_choices r -> r_exprs r' = r_exprs r -> reader_u32 r ->
    build_input pr r = Ok d -> fits d -> (i_max_pref d < u32_max)%N ->
    exists d', build_input pr r' = Ok d' /\
      ((exists S A, valid_solution d' S A) <-> (exists S A, valid_solution d S A)) /\
      forall pow g v, reaches pr pow g r' v <-> reaches pr pow g r v.
Proof.
  intros pr r r' d HP HS E1 E2 HU H FI MX.
  destruct (C79_half pr r r' d HP HS E1 E2 HU H FI MX) as (d' & H' & K1 & K2).
  assert (HP' : Permutation (r_choosers r') (r_choosers r)) by (apply Permutation_sym; auto).
  assert (HS' : r_slots r = r_slots r' \/ (Permutation (r_slots r') (r_slots r) /\ single_parts r')).
  { destruct HS as [HS|[HS SP]]; [left; auto|right]. split; [apply Permutation_sym; auto|]. unfold single_parts. rewrite E1. auto. }
  assert (HU' : reader_u32 r').
  { destruct HU as [U1 U2]. constructor; [rewrite E1; auto|]. intros c x Hc. apply U2. eapply Permutation_in; eauto. }
  assert (E : i_choices d' = i_choices d /\ i_max_pref d' = i_max_pref d /\ length (i_choosers d') = length (i_choosers d) /\ length (i_slots d') = length (i_slots d)).
  { destruct (perm_placed _ _ HP) as (fc & PC).
    assert (K : exists fs, relisted fs fc r r').
    { destruct HS as [HS|[HS SP]].
      - exists (fun s => s). constructor; auto. rewrite HS. split; auto.
      - destruct (r_slots r) as [|s0 ss] eqn:ES.
        + apply Permutation_nil in HS. exists (fun s => s). constructor; auto. rewrite ES, HS. split; auto.
        + destruct (perm_placed _ _ HS) as (fs & PS). exists fs. constructor; auto; rewrite ES; auto. discriminate. }
    destruct K as (fs & RL). destruct (build_relisted pr fs fc r r' d RL HU H) as (d0 & H0 & _ & DR).
    assert (d0 = d') by congruence. subst d0. split; [apply DR|]. split; [apply DR|]. split; [exact (proj1 (dr_choosers _ _ _ _ DR))|exact (proj1 (dr_slots _ _ _ _ DR))]. }
  destruct E as (Ec & Em & En & Es).
  assert (FI' : fits d') by (revert FI; apply fits_same; [auto|rewrite Ec; auto|auto]).
  assert (MX' : (i_max_pref d' < u32_max)%N) by (rewrite Em; auto).
  destruct (C79_half pr r' r d' HP' HS' (eq_sym E1) (eq_sym E2) HU' H' FI' MX') as (d0 & H0 & K3 & K4).
  assert (d0 = d) by congruence. subst d0.
  exists d'. split; auto. split; [split; auto|]. intros pow g v. split; auto.
Qed.
Print Assumptions C79_shuffled_inputs_are_as_good.

(** r1 (T_Input.v) with its choosers listed backwards: chooser [p] is now chooser
    [2 - p]; the solution (S1, A79) with its rows turned round is valid for it. *)
Definition r79 : reader := mkReader (r_slots r1) (r_choices r1) (rev (r_choosers r1)) (r_exprs r1).
Definition flip3 (p : nat) : nat := match p with 0 => 2 | 1 => 1 | 2 => 0 | _ => p end.
Lemma flip3_inj i j : flip3 i = flip3 j -> i = j.
Proof. destruct i as [|[|[|i]]], j as [|[|[|j]]]; cbn; intros H; lia. Qed.
Definition A79 : assignment := [[3; 2]; [3; 2]; [0; 1]].
Lemma d79_valid : valid_solution d1 S1 A79.
Proof. apply check_solution_ok; [exact d1_fits|exact d1_wf|vm_compute; reflexivity]. Qed.
Example C79_witness : relisted (fun s => s) flip3 r1 r79 /\ reader_u32 r1 /\ build_input Debug r1 = Ok d1 /\ fits d1 /\
  (i_max_pref d1 < u32_max)%N /\ valid_solution d1 S1 A79 /\ same_schedule (fun s => s) S1 S1 /\ same_assignment flip3 A79 (rev A79) /\
  r_choosers r79 <> r_choosers r1 /\ rev A79 <> A79 /\ ~ single_parts r1.
Proof.
  split. { constructor; cbn; auto; (split; [reflexivity|]; split; [auto using flip3_inj|]; auto).
           intros [|[|[|i]]]; cbn; auto. }
  split; [exact r1_u32|]. split; [exact r1_builds|]. split; [exact d1_fits|]. split; [vm_compute; reflexivity|]. split; [exact d79_valid|].
  split. { split; auto. }
  split. { split; auto. intros [|[|[|p]]] row H; cbn in H; try (injection H as <-; eexists; split; [reflexivity|apply Permutation_refl]). destruct p; discriminate. }
  split; [discriminate|]. split; [discriminate|]. intros K. specialize (K (mkProto "a" 1 2 2 false) (or_introl eq_refl)). cbn in K. lia.
Qed.

(** r1 with "a" in one part, and its slots and choosers both backwards. *)
Definition r79s : reader := mkReader (r_slots r1)
  [mkProto "a" 1 3 1 false; mkProto "b" 1 2 1 false; mkProto "c" 1 2 1 false] (r_choosers r1) (r_exprs r1).
Definition r79t : reader := mkReader (rev (r_slots r1)) (r_choices r79s) (rev (r_choosers r1)) (r_exprs r1).
Example C79_witness_slots : exists d, build_input Debug r79s = Ok d /\ single_parts r79s /\ reader_u32 r79s /\ fits d /\
  Permutation (r_choosers r79s) (r_choosers r79t) /\ Permutation (r_slots r79s) (r_slots r79t) /\ r_slots r79t <> r_slots r79s /\
  exists S A, valid_solution d S A.
Proof.
  eexists. split; [vm_compute; reflexivity|]. split. { intros p [<-|[<-|[<-|[]]]]; cbn; lia. }
  split. { constructor; cbn.
    - intros p [<-|[<-|[<-|[]]]]; cbn; unfold u32_max; lia.
    - intros c x [<-|[<-|[<-|[]]]]; cbn; unfold u32_max; intuition lia. }
  match goal with |- fits ?d /\ _ => assert (F : fits d) by (apply fits_b_ok; vm_compute; reflexivity) end.
  split; [exact F|]. split; [apply Permutation_rev|]. split; [apply Permutation_rev|]. split; [discriminate|].
  exists [Some 0; Some 1; Some 1], [[0; 1]; [0; 2]; [0; 1]].
  apply check_solution_ok; [exact F|apply wf_input_b_ok; vm_compute; reflexivity|vm_compute; reflexivity].
Qed.

(** The restriction on the slots is needed: the parts of a choice are held in
    consecutive slots, in the order in which the slots are listed.  With "a" (two
    parts) starting in s1 there is a solution when s1 is listed first, and none
    when it is listed last. *)
Definition r79a : reader := mkReader [mkSlot "s1"; mkSlot "s2"] [mkProto "a" 1 1 2 false] [mkChooser "Ann" [1]%N]
  [mkE (acc_choice "a" ASlot 0) REq (acc_slot "s1" ANotSet)].
Definition r79b : reader := mkReader (rev (r_slots r79a)) (r_choices r79a) (r_choosers r79a) (r_exprs r79a).
Theorem C79_slot_order_matters_for_parts_refuted :
  ~ (forall pr r r' d d', Permutation (r_slots r) (r_slots r') -> r_choices r' = r_choices r -> r_choosers r' = r_choosers r ->
       r_exprs r' = r_exprs r -> reader_u32 r -> build_input pr r = Ok d -> build_input pr r' = Ok d' -> fits d ->
       (exists S A, valid_solution d S A) -> exists S A, valid_solution d' S A).
Proof.
  intros K.
  assert (HU : reader_u32 r79a).
  { constructor; cbn; [intros p [<-|[]]; cbn; unfold u32_max; lia|intros c x [<-|[]]; cbn; unfold u32_max; intuition lia]. }
  assert (B : exists d, build_input Debug r79a = Ok d) by (eexists; vm_compute; reflexivity). destruct B as (d & Hd).
  assert (B' : exists d', build_input Debug r79b = Ok d') by (eexists; vm_compute; reflexivity). destruct B' as (d' & Hd').
  pose proof (built_wf _ _ _ Hd HU) as WF.
  specialize (K Debug r79a r79b d d' (Permutation_rev _) eq_refl eq_refl eq_refl HU Hd Hd').
  vm_compute in Hd, Hd'. injection Hd as <-. injection Hd' as <-.
  destruct K as (S & A & [V _]).
  - apply fits_b_ok. vm_compute. reflexivity.
  - exists [Some 0; Some 1], [[0; 1]]. apply check_solution_ok; [apply fits_b_ok; vm_compute; reflexivity|exact WF|vm_compute; reflexivity].
  - pose proof (vs_cons _ _ V) as C. pose proof (vs_range _ _ V) as R. pose proof (vs_length _ _ V) as L.
    cbn [i_sched i_slots i_choices List.length] in C, R, L.
    pose proof (C _ (or_introl eq_refl)) as C1. pose proof (C _ (or_intror (or_intror (or_introl eq_refl)))) as C2. cbn in C1, C2.
    destruct C2 as [[C2 _]|(s & s' & K1 & K2 & K3)].
    + unfold not_held in C2. unfold scheduled_in in C1. congruence.
    + apply R in K2. unfold scheduled_in in C1, K1. assert (s = 1) by congruence. lia.
Qed.
Print Assumptions C79_slot_order_matters_for_parts_refuted.
