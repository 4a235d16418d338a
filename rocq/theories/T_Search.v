(** Property theorems about critical sets and the scheduling search: C11-C15,
    C44, C47.  [new_analysis] is CriticalSetAnalysis::new, [for_preference] the
    sets used for a preference limit, [next_scheduling] one call of the
    scheduling solver.  [fair o] is all that is assumed of the random engine; the
    clock ([o_late]) is arbitrary. *)
From Verif Require Import Base M_Data Spec M_Scoring P_Scoring P_Feasible P_Check M_Union M_Names M_Build P_Union
  Spec_Input P_Con P_Compile P_Resolve P_Limits P_Input P_Input2 P_Input3 T_Input M_Rng M_Critical Spec_Search P_Critical M_Search
  P_Sums P_Rng P_Search1 P_Search2 P_Search3 P_Search4 P_Search5 P_Search6 P_Built.
From Coq Require Import String Sorted Permutation.
Notation length := Datatypes.length.
Notation get := Base.get.
Open Scope string_scope.
Import ListNotations.
Open Scope list_scope.

(** Accepted inputs meet the hypotheses used below (sizes aside). *)
Lemma accepted_levels_ok : forall pr r d, build_input pr r = Ok d -> levels_ok d.
Proof. exact built_levels. Qed.
Lemma accepted_searchable : forall pr r d, build_input pr r = Ok d -> totals_fit d ->
  (2 * Z.of_nat (length (i_slots d)) <= i32_max)%Z ->
  (forall k n, In k (i_sched d) -> c_right k = TLimit n -> (Z.of_N n <= i32_max)%Z) -> searchable d.
Proof. exact built_searchable. Qed.

Lemma d1_levels : levels_ok d1. Proof. exact (built_levels _ _ _ r1_builds). Qed.
Lemma d1_searchable : searchable d1.
Proof.
  apply (built_searchable _ _ _ r1_builds).
  - split; vm_compute; discriminate.
  - vm_compute; discriminate.
  - intros k n Hk. vm_compute in Hk. repeat (destruct Hk as [<-|Hk]; [cbn; intros E; try discriminate E; injection E as <-; vm_compute; discriminate|]). destruct Hk.
Qed.
Lemma d1_analyzable : analyzable d1. Proof. constructor; vm_compute; discriminate. Qed.

(** A concrete engine: shuffles keep the order, samples are [z]. *)
Definition o_const (z : Z) (late : nat -> bool) : oracle := mkOracle (fun _ => z) (fun _ l => l) late.
Lemma o_const_fair z late : (i32_min <= z <= i32_max)%Z -> fair (o_const z late).
Proof. intros H. constructor; cbn; auto. Qed.

(** ** C11: whatever [next_scheduling] leaves as the current scheduling is valid:
    slots in range, only optional choices omitted, every slot's bounds admit all
    choosers, every scheduling constraint holds.  For every clock, engine,
    analysis, number of earlier calls ([tick]).  Overflow of the bound sums must
    be checked (Debug) or impossible ([totals_fit]). *)
Theorem C11_schedulings_valid_partial :
  forall (pr : profile) (d : input_data) (o : oracle) (a : analysis) (deadline : bool) (cs_timeout : Z)
         (sfuel fuel tick : nat) (n : next_result) (S : scheduling),
    wf_input d -> fits d -> fair o -> pr = Debug \/ totals_fit d ->
    next_scheduling pr d o a deadline cs_timeout sfuel fuel tick = Some (Ok n) -> nx_sched n = Some S ->
    valid_scheduling d S.
Proof.
  intros pr d o a deadline cs sfuel fuel tick n S HW HFit HF HE H HS.
  destruct (next_unfold pr d o a deadline cs sfuel fuel tick HF) as (limit & _ & E). rewrite E in H. clear E.
  revert limit n H HS. generalize (Datatypes.S tick) as t. induction fuel as [|fuel IH]; intros t limit n H HS; [discriminate|]. cbn [relax] in H.
  destruct (negb (limit =? i_max_pref d)%N && (cs <? 0)%Z); [discriminate|].
  destruct (solve_scheduling pr d o (late_at d o deadline limit) (for_preference a limit) t sfuel) as [[[r t']| |]|] eqn:ES; try discriminate.
  destruct (result_slots r) as [|s0 slots] eqn:ER.
  - destruct (limit =? i_max_pref d)%N.
    + injection H as <-. discriminate.
    + destruct (relax pr d o a deadline cs sfuel fuel (preference_after d limit) t') as [[n'| |]|] eqn:EN; try discriminate.
      injection H as <-. cbn in HS. eapply IH; eauto.
  - destruct r as [sl| | |]; try discriminate. cbn in ER. subst sl.
    destruct (solve_found _ _ _ _ _ _ _ _ _ HW HFit HF HE ES) as (sch & E1 & HV & _). rewrite E1 in H. cbn in H. injection H as <-.
    cbn in HS. injection HS as <-. auto.
Qed.
Print Assumptions C11_schedulings_valid_partial.

(** A witness on the sample input: found with the critical sets of the bound. *)
Definition a1 : analysis := match prepare_analysis Debug d1 false false false with Ok a => a | _ => mkAnalysis [] [] 0 end.
Lemma a1_made : new_analysis Debug d1 true true = Ok a1. Proof. vm_compute. reflexivity. Qed.
Example C11_witness : exists n S, next_scheduling Debug d1 (o_const 1 (fun _ => false)) a1 true 5 1000 10 0 = Some (Ok n) /\
  nx_sched n = Some S /\ S <> [] /\ fair (o_const 1 (fun _ => false)) /\ wf_input d1 /\ fits d1 /\ totals_fit d1.
Proof.
  eexists. eexists. split; [vm_compute; reflexivity|]. split; [reflexivity|]. split; [discriminate|].
  split; [apply o_const_fair; unfold i32_min, i32_max; lia|]. split; [exact d1_wf|]. split; [exact d1_fits|exact (sr_totals _ d1_searchable)].
Qed.

(** Without either hypothesis it is false: in a release build minima whose sum
    exceeds u32 wrap around, and the solver yields an overfull scheduling. *)
Definition r11 : reader := mkReader [mkSlot "s"]
  [mkProto "a" 1073741824 1073741824 1 false; mkProto "b" 1073741824 1073741824 1 false;
   mkProto "c" 1073741824 1073741824 1 false; mkProto "d" 1073741824 1073741824 1 false; mkProto "e" 1 1073741824 1 false]
  [mkChooser "p" [0;0;0;0;0]%N] [].
Definition d11 : input_data := match build_input Debug r11 with Ok d => d | _ => d1 end.
Theorem C11_release_overflow_refuted :
  exists (r : reader) (d : input_data) (o : oracle) (a : analysis) (n : next_result) (S : scheduling),
    (forall pr, build_input pr r = Ok d) /\ fair o /\ prepare_analysis Release d false false false = Ok a /\
    next_scheduling Release d o a false 5 100 10 0 = Some (Ok n) /\ nx_sched n = Some S /\ ~ valid_scheduling d S.
Proof.
  exists r11, d11, (o_const 0 (fun _ => false)). eexists. eexists. eexists. split; [intros [|]; vm_compute; reflexivity|].
  split; [apply o_const_fair; unfold i32_min, i32_max; lia|]. split; [vm_compute; reflexivity|].
  split; [vm_compute; reflexivity|]. split; [reflexivity|]. intros HV.
  destruct (vs_sums _ _ HV 0) as [H _]; [vm_compute; lia|]. vm_compute in H. apply H. reflexivity.
Qed.
Print Assumptions C11_release_overflow_refuted.

(** ** C12.  Full statement: if [next_scheduling] yields no scheduling although no
    time limit was ever hit, there is no valid scheduling.  Proved when the last
    search was not abandoned at a complete but rejected scheduling
    ([nx_last n <> SRejected]); false otherwise (next theorem).  Without a
    deadline the search at the largest limit has no time limit, so the clock may
    be arbitrary. *)
Theorem C12_failure_means_none_exists_partial :
  forall (pr : profile) (d : input_data) (o : oracle) (analyze simplify : bool) (a : analysis) (cs_timeout : Z)
         (sfuel fuel tick : nat) (n : next_result),
    wf_input d -> fits d -> searchable d -> analyzable d -> levels_ok d -> fair o -> i_choosers d <> [] ->
    new_analysis pr d analyze simplify = Ok a ->
    next_scheduling pr d o a false cs_timeout sfuel fuel tick = Some (Ok n) -> nx_sched n = None -> nx_last n <> SRejected ->
    forall S, ~ valid_scheduling d S.
Proof.
  intros pr d o analyze simplify a cs sfuel fuel tick n HW HFit HS HA HL HF Hne Ha H HN HR S HV.
  destruct (next_unfold pr d o a false cs sfuel fuel tick HF) as (limit & Hlim & E). rewrite E in H. clear E.
  assert (Hin : In limit (i_levels d)) by (destruct Hlim as [-> | ->]; [apply (lv_max _ HL)|eapply an_bound_in; eauto]).
  destruct (relax_spec _ _ _ _ _ _ _ HL _ _ _ _ Hin H) as (_ & _ & _ & (t & t' & ES) & HM). rewrite HN in HM. destruct HM as [EL EN].
  destruct (result_slots_nil _ _ _ _ _ _ _ _ _ HW HFit HF (or_intror (sr_totals _ HS)) ES EN) as [E|[E|E]]; [|rewrite E in ES|contradiction].
  - rewrite E in ES. apply (solve_timeout _ _ _ _ _ _ _ _ HW HF) in ES; auto. intros k. rewrite EL. unfold late_at. rewrite N.eqb_refl. auto.
  - refine (solve_exhausted _ _ _ _ _ _ _ _ HW HFit HS HF _ ES S HV _).
    + eapply for_preference_lt; eauto; [apply (az_min _ HA)|apply (az_cap _ HA)|apply (lv_sorted _ HL)].
    + rewrite EL. eapply valid_covers_max; eauto; [apply (az_min _ HA)|apply (az_cap _ HA)|]. destruct (i_choosers d); [congruence|discriminate].
Qed.
Print Assumptions C12_failure_means_none_exists_partial.

(** Two choosers, two slots; the slot of b is too small: no scheduling. *)
Definition r12n : reader := mkReader [mkSlot "s"; mkSlot "t"] [mkProto "a" 1 2 1 false; mkProto "b" 1 1 1 false]
  [mkChooser "p" [0;1]%N; mkChooser "q" [1;0]%N] [].
Definition d12n : input_data := match build_input Debug r12n with Ok d => d | _ => d1 end.
Example C12_witness : exists n, next_scheduling Debug d12n (o_const 1 (fun _ => true))
    (match new_analysis Debug d12n true true with Ok a => a | _ => a1 end) false 5 100 10 0 = Some (Ok n) /\
  nx_sched n = None /\ nx_last n <> SRejected /\ wf_input d12n /\ fits d12n /\ searchable d12n /\ analyzable d12n /\ levels_ok d12n.
Proof.
  assert (HB : build_input Debug r12n = Ok d12n) by (vm_compute; reflexivity).
  eexists. split; [vm_compute; reflexivity|]. split; [reflexivity|]. split; [discriminate|].
  split; [apply wf_input_b_ok; vm_compute; reflexivity|]. split; [apply fits_b_ok; vm_compute; reflexivity|].
  split; [|split; [constructor; vm_compute; discriminate|exact (built_levels _ _ _ HB)]].
  apply (built_searchable _ _ _ HB); [split; vm_compute; discriminate|vm_compute; discriminate|intros k m []].
Qed.

(** Three choosers, bounds y 1..1, z 2..3, x 3..3: {y,z} | {x} is valid, but the
    search places y | z, is then forced to add x to y's slot (its minimum is not
    tested on that path), and gives up at the rejected leaf instead of
    backtracking. *)
Definition r12 : reader := mkReader [mkSlot "s"; mkSlot "t"]
  [mkProto "y" 1 1 1 false; mkProto "z" 2 3 1 false; mkProto "x" 3 3 1 false]
  [mkChooser "p" [0;0;0]%N; mkChooser "q" [0;0;0]%N; mkChooser "r" [0;0;0]%N] [].
Definition d12 : input_data := match build_input Debug r12 with Ok d => d | _ => d1 end.
Theorem C12_search_gives_up_refuted :
  exists (r : reader) (d : input_data) (o : oracle) (S : scheduling),
    (forall pr, build_input pr r = Ok d) /\ fair o /\ (forall t, o_late o t = false) /\ valid_scheduling d S /\
    forall pr, exists a n, prepare_analysis pr d false false false = Ok a /\
      next_scheduling pr d o a false 5 100 10 0 = Some (Ok n) /\ nx_sched n = None.
Proof.
  exists r12, d12, (o_const 0 (fun _ => false)), [Some 0; Some 0; Some 1]. split; [intros [|]; vm_compute; reflexivity|].
  split; [apply o_const_fair; unfold i32_min, i32_max; lia|]. split; [reflexivity|]. split.
  - apply check_scheduling_ok; [apply fits_b_ok|apply wf_input_b_ok|]; vm_compute; reflexivity.
  - intros [|]; eexists; eexists; (split; [vm_compute; reflexivity|]); (split; [vm_compute; reflexivity|]); reflexivity.
Qed.
Print Assumptions C12_search_gives_up_refuted.

(** The full statement holds when (i) no constraint relates a choice to itself and
    (ii) a slot never becomes overfull by a choice it still needs, e.g. (last
    clause) when every minimum is at most 1, the default, and no minimum exceeds
    its maximum, or when the minima of all choices add up to at most the number
    of choosers.  Both conditions are needed: (ii) by the previous theorem, (i)
    by the next one. *)
Theorem C12_failure_means_none_exists :
  forall (pr : profile) (r : reader) (d : input_data) (o : oracle) (analyze simplify : bool) (a : analysis) (cs_timeout : Z)
         (sfuel fuel tick : nat) (n : next_result),
    build_input pr r = Ok d -> wf_input d -> fits d -> searchable d -> analyzable d -> fair o -> i_choosers d <> [] ->
    no_self_relation d ->
    never_overfull d \/ (forall ch, In ch (i_choices d) -> ch_min ch <= 1 /\ ch_min ch <= ch_max ch)%N \/
      (total ch_min d <= N.of_nat (length (i_choosers d)))%N ->
    new_analysis pr d analyze simplify = Ok a ->
    next_scheduling pr d o a false cs_timeout sfuel fuel tick = Some (Ok n) -> nx_sched n = None ->
    forall S, ~ valid_scheduling d S.
Proof.
  intros pr r d o analyze simplify a cs sfuel fuel tick n HB HW HFit HS HA HF Hne HNS HNO Ha H HN S HV.
  assert (HNO' : never_overfull d).
  { destruct HNO as [HNO|[HNO|HNO]]; auto; [apply never_overfull_small|apply never_overfull_total]; auto. }
  pose proof (built_levels _ _ _ HB) as HL.
  apply (C12_failure_means_none_exists_partial pr d o analyze simplify a cs sfuel fuel tick n HW HFit HS HA HL HF Hne Ha H HN) with (S := S); auto.
  intros HR.
  destruct (next_unfold pr d o a false cs sfuel fuel tick HF) as (limit & Hlim & E). rewrite E in H. clear E.
  assert (Hin : In limit (i_levels d)) by (destruct Hlim as [-> | ->]; [apply (lv_max _ HL)|eapply an_bound_in; eauto]).
  destruct (relax_spec _ _ _ _ _ _ _ HL _ _ _ _ Hin H) as (_ & _ & _ & (t & t' & ES) & _). rewrite HR in ES. revert ES.
  eapply solve_not_rejected; eauto. apply (built_map_complete _ _ _ HB HW).
Qed.
Print Assumptions C12_failure_means_none_exists.
Example C12_full_witness : exists n, build_input Debug r12n = Ok d12n /\
  next_scheduling Debug d12n (o_const 1 (fun _ => true))
    (match new_analysis Debug d12n true true with Ok a => a | _ => a1 end) false 5 100 10 0 = Some (Ok n) /\
  nx_sched n = None /\ no_self_relation d12n /\ (forall ch, In ch (i_choices d12n) -> ch_min ch <= 1 /\ ch_min ch <= ch_max ch)%N.
Proof.
  eexists. split; [vm_compute; reflexivity|]. split; [vm_compute; reflexivity|]. split; [reflexivity|]. split; [intros k c []|].
  intros ch Hch. vm_compute in Hch. destruct Hch as [<-|[<-|[]]]; cbn; lia.
Qed.

(** A choice kept apart from itself (here by saying twice that p attends the
    optional choice a) is not noticed before the leaf: the search places it, the
    leaf rejects, and the valid scheduling without it is never tried. *)
Definition r12s : reader := mkReader [mkSlot "s"] [mkProto "a" 1 1 1 true; mkProto "b" 1 2 1 false]
  [mkChooser "p" [0;0]%N; mkChooser "q" [0;0]%N]
  [mkE (acc_chooser "p" AChoice) RContains (acc_choice "a" ANotSet 0); mkE (acc_chooser "p" AChoice) RContains (acc_choice "a" ANotSet 0)].
Definition d12s : input_data := match build_input Debug r12s with Ok d => d | _ => d1 end.
Theorem C12_self_relation_refuted :
  exists (r : reader) (d : input_data) (o : oracle) (S : scheduling),
    (forall pr, build_input pr r = Ok d) /\ fair o /\ valid_scheduling d S /\
    (forall ch, In ch (i_choices d) -> ch_min ch <= 1 /\ ch_min ch <= ch_max ch)%N /\
    forall pr, exists a n, prepare_analysis pr d false false false = Ok a /\
      next_scheduling pr d o a false 5 100 10 0 = Some (Ok n) /\ nx_sched n = None.
Proof.
  exists r12s, d12s, (o_const 0 (fun _ => false)), [None; Some 0]. split; [intros [|]; vm_compute; reflexivity|].
  split; [apply o_const_fair; unfold i32_min, i32_max; lia|]. split.
  { apply check_scheduling_ok; [apply fits_b_ok|apply wf_input_b_ok|]; vm_compute; reflexivity. }
  split. { intros ch Hch. vm_compute in Hch. destruct Hch as [<-|[<-|[]]]; cbn; lia. }
  intros [|]; eexists; eexists; (split; [vm_compute; reflexivity|]); (split; [vm_compute; reflexivity|]); reflexivity.
Qed.
Print Assumptions C12_self_relation_refuted.

(** ** C13: a solution in which every chooser's preferences stay within [p] has,
    for every critical set used for limit [p], one of its choices in every slot. *)
Theorem C13_critical_sets_are_necessary :
  forall (pr : profile) (d : input_data) (analyze simplify : bool) (a : analysis) (S : scheduling) (A : assignment) (p : N) (s : cset),
    wf_input d -> analyzable d -> levels_ok d -> new_analysis pr d analyze simplify = Ok a ->
    valid_solution d S A -> prefs_within d A p -> In s (for_preference a p) ->
    covers_slots d S (set_data s).
Proof.
  intros pr d analyze simplify a S A p s HW HA HL Ha HV HP Hs.
  exact (critical_necessary pr d analyze simplify a S A p HW (az_min _ HA) (az_cap _ HA) (lv_sorted _ HL) Ha
           (vs_length _ _ (vsol_sched _ _ _ HV)) (ra_one _ _ _ (vsol_rest _ _ _ HV)) HP s Hs).
Qed.
Print Assumptions C13_critical_sets_are_necessary.
Definition r13 : reader := mkReader [mkSlot "s"; mkSlot "t"] [mkProto "a" 1 2 1 false; mkProto "b" 1 2 1 false]
  [mkChooser "p" [0;1]%N; mkChooser "q" [1;0]%N] [].
Definition d13 : input_data := match build_input Debug r13 with Ok d => d | _ => d1 end.
Lemma r13_builds : build_input Debug r13 = Ok d13. Proof. vm_compute. reflexivity. Qed.
Example C13_witness : exists a s, new_analysis Debug d13 true true = Ok a /\ In s (for_preference a 1) /\ set_data s = [0; 1] /\
  valid_solution d13 [Some 0; Some 1] [[0;1]; [0;1]] /\ prefs_within d13 [[0;1]; [0;1]] 1 /\
  wf_input d13 /\ analyzable d13 /\ levels_ok d13.
Proof.
  eexists. exists (mkSet 1 [0; 1]). split; [vm_compute; reflexivity|]. split; [vm_compute; auto|]. split; [reflexivity|].
  split; [apply check_solution_ok; [apply fits_b_ok|apply wf_input_b_ok|]; vm_compute; reflexivity|]. split.
  - assert (HW : wf_input d13) by (apply wf_input_b_ok; vm_compute; reflexivity). intros p c y _ _ (ch & H1 & H2). change 1%N with (i_max_pref d13).
    apply (wf_max _ HW ch); eapply nth_error_In; eauto.
  - split; [apply wf_input_b_ok; vm_compute; reflexivity|]. split; [constructor; vm_compute; discriminate|exact (built_levels _ _ _ r13_builds)].
Qed.

(** ** C14: a scheduling covers all sets kept for a level iff it covers every
    critical set ([critical_at], defined from the preferences alone) of that
    level or above. *)
Theorem C14_pruning_loses_nothing :
  forall (pr : profile) (d : input_data) (simplify : bool) (a : analysis) (S : scheduling) (p : N),
    wf_input d -> analyzable d -> levels_ok d -> new_analysis pr d true simplify = Ok a -> In p (i_levels d) ->
    ((forall s, In s (for_preference a p) -> covers_slots d S (set_data s)) <->
     (forall q x data, (p <= q)%N -> critical_at d q x data -> covers_slots d S data)).
Proof.
  intros pr d simplify a S p HW HA HL Ha Hp.
  exact (critical_exact pr d simplify a S p HW (az_min _ HA) (az_cap _ HA) (lv_sorted _ HL) Ha Hp).
Qed.
Print Assumptions C14_pruning_loses_nothing.
(** The analysis itself always succeeds on such inputs. *)
Theorem C14_analysis_succeeds :
  forall (pr : profile) (d : input_data) (analyze simplify : bool), wf_input d -> analyzable d ->
    exists a, new_analysis pr d analyze simplify = Ok a.
Proof. intros pr d analyze simplify HW HA. exact (analysis_total pr d analyze simplify HW (az_min _ HA) (az_cap _ HA)). Qed.
Print Assumptions C14_analysis_succeeds.
(** On [d13] sets are kept for level 0; chooser 0 likes only choice 1, a critical set that
    the scheduling above does not cover. *)
Example C14_witness : exists a s, new_analysis Debug d13 true true = Ok a /\ In 0%N (i_levels d13) /\ In s (for_preference a 0) /\
  critical_at d13 0 0 [1] /\ ~ covers_slots d13 [Some 0; Some 1] [1] /\ wf_input d13 /\ analyzable d13 /\ levels_ok d13.
Proof.
  eexists. eexists. split; [vm_compute; reflexivity|]. split; [vm_compute; auto|]. split; [vm_compute; left; reflexivity|].
  split; [|split; [|split; [apply wf_input_b_ok; vm_compute; reflexivity|split; [constructor; vm_compute; discriminate|exact (built_levels _ _ _ r13_builds)]]]].
  - split; [vm_compute; auto|]. split; [vm_compute; auto|]. split; [|vm_compute; discriminate].
    split; [repeat constructor|]. intros c. split.
    + intros [<-|[]]. split; [vm_compute; auto|]. exists 0%N. split; [|vm_compute; discriminate].
      eexists. split; vm_compute; reflexivity.
    + intros (Hc & y & (ch & H1 & H2) & Hy). vm_compute in H1. injection H1 as <-.
      destruct c as [|[|c]]; [|left; reflexivity|exfalso; change (length (i_choices d13)) with 2 in Hc; lia].
      exfalso. vm_compute in H2. injection H2 as <-. vm_compute in Hy. auto.
  - intros H. destruct (H 0) as (c & [<-|[]] & Hs); [vm_compute; auto|]. discriminate.
Qed.

(** ** C15.  Full statement: if [p] is a level below the reported bound, no valid
    solution stays within [p].  Proved for levels at or above which some critical
    set exists; false in general (next theorem). *)
Theorem C15_bound_is_true_partial :
  forall (pr : profile) (d : input_data) (analyze simplify : bool) (a : analysis) (S : scheduling) (A : assignment) (p q : N) (x : nat) (data : list nat),
    wf_input d -> analyzable d -> new_analysis pr d analyze simplify = Ok a ->
    In p (i_levels d) -> (p < an_bound a)%N ->
    (p <= q)%N -> critical_at d q x data ->
    valid_solution d S A -> ~ prefs_within d A p.
Proof.
  intros pr d analyze simplify a S A p q x data HW HA Ha Hp Hlt Hpq HC HV HP. destruct analyze.
  - exact (bound_true pr d simplify a S A p HW (az_min _ HA) (az_cap _ HA) Ha
             (vs_length _ _ (vsol_sched _ _ _ HV)) (ra_one _ _ _ (vsol_rest _ _ _ HV)) HP Hp Hlt q x data Hpq HC).
  - injection Ha as <-. cbn in Hlt. lia.
Qed.
Print Assumptions C15_bound_is_true_partial.

Example C15_witness : exists a, new_analysis Debug d13 true true = Ok a /\ In 0%N (i_levels d13) /\ (0 < an_bound a)%N /\
  critical_at d13 0 0 [1] /\ valid_solution d13 [Some 0; Some 1] [[0;1]; [0;1]].
Proof.
  eexists. split; [vm_compute; reflexivity|]. split; [vm_compute; auto|]. split; [vm_compute; reflexivity|]. split.
  - split; [vm_compute; auto|]. split; [vm_compute; lia|]. split; [|vm_compute; discriminate]. split; [repeat constructor|].
    intros c. split.
    + intros [<-|[]]. split; [vm_compute; lia|]. exists 0%N. split; [|lia]. eexists. split; reflexivity.
    + intros (Hc & y & (ch & H1 & H2) & Hy). cbn in H1. injection H1 as <-. destruct c as [|[|c]]; [|left; auto|vm_compute in Hc; lia].
      cbn in H2. injection H2 as <-. lia.
  - apply check_solution_ok; [apply fits_b_ok|apply wf_input_b_ok|]; vm_compute; reflexivity.
Qed.

(** One chooser, two slots, choices a and b (one person each), who rates them 5
    and 3: the critical set of level 3 is discarded, the bound is 5, yet the only
    valid solution stays within 3. *)
Definition r15 : reader := mkReader [mkSlot "s"; mkSlot "t"] [mkProto "a" 1 1 1 false; mkProto "b" 1 1 1 false] [mkChooser "p" [5;3]%N] [].
Definition d15 : input_data := match build_input Debug r15 with Ok d => d | _ => d1 end.
Theorem C15_bound_too_high_refuted :
  exists (r : reader) (d : input_data) (S : scheduling) (A : assignment) (p : N),
    (forall pr, build_input pr r = Ok d) /\ In p (i_levels d) /\ valid_solution d S A /\ prefs_within d A p /\
    forall pr, exists a, prepare_analysis pr d false false false = Ok a /\ (p < an_bound a)%N.
Proof.
  exists r15, d15, [Some 0; Some 1], [[0; 1]], 3%N. split; [intros [|]; vm_compute; reflexivity|].
  split; [vm_compute; auto|]. split; [apply check_solution_ok; [apply fits_b_ok|apply wf_input_b_ok|]; vm_compute; reflexivity|]. split.
  - intros q c x _ _ (ch & Hch & Hx). destruct q as [|q]; [|destruct q; discriminate]. cbn in Hch. injection Hch as <-.
    destruct c as [|[|c]]; cbn in Hx; try (injection Hx as <-; lia). destruct c; discriminate.
  - intros [|]; eexists; (split; [vm_compute; reflexivity|]); vm_compute; reflexivity.
Qed.
Print Assumptions C15_bound_too_high_refuted.

(** ** C44: the limits tried are strictly increasing levels, at most one search
    per level, and a failing call ends with the largest limit. *)
Theorem C44_relaxation_steps :
  forall (pr : profile) (d : input_data) (o : oracle) (analyze simplify : bool) (a : analysis) (deadline : bool) (cs_timeout : Z)
         (sfuel fuel tick : nat) (n : next_result),
    levels_ok d -> fair o -> new_analysis pr d analyze simplify = Ok a ->
    next_scheduling pr d o a deadline cs_timeout sfuel fuel tick = Some (Ok n) ->
    nx_limits n <> [] /\ StronglySorted N.lt (nx_limits n) /\ incl (nx_limits n) (i_levels d) /\
    length (nx_limits n) <= length (i_levels d) /\
    (nx_sched n = None -> last (nx_limits n) 0%N = i_max_pref d).
Proof.
  intros pr d o analyze simplify a deadline cs sfuel fuel tick n HL HF Ha H.
  destruct (next_unfold pr d o a deadline cs sfuel fuel tick HF) as (limit & Hlim & E). rewrite E in H. clear E.
  assert (Hin : In limit (i_levels d)) by (destruct Hlim as [-> | ->]; [apply (lv_max _ HL)|eapply an_bound_in; eauto]).
  destruct (relax_spec _ _ _ _ _ _ _ HL _ _ _ _ Hin H) as ((more & Em) & HS & HI & _ & HM). repeat split; auto.
  - rewrite Em. discriminate.
  - apply NoDup_incl_length; auto. clear - HS. induction HS as [|x l HS IH HFa]; constructor; auto.
    intros Hx. rewrite Forall_forall in HFa. specialize (HFa _ Hx). lia.
  - intros HN. rewrite HN in HM. apply HM.
Qed.
Print Assumptions C44_relaxation_steps.

(** Every call ends: with [fuel] above the number of levels and [sfuel] above
    [search_cost d] (a bound on the turns of one search) it returns, without
    panicking, for every clock. *)
Theorem C44_call_ends :
  forall (pr : profile) (d : input_data) (o : oracle) (analyze simplify : bool) (a : analysis) (deadline : bool) (cs_timeout : Z)
         (sfuel fuel tick : nat),
    wf_input d -> fits d -> searchable d -> analyzable d -> levels_ok d -> fair o -> (0 <= cs_timeout)%Z ->
    new_analysis pr d analyze simplify = Ok a -> search_cost d < sfuel -> length (i_levels d) < fuel ->
    exists n, next_scheduling pr d o a deadline cs_timeout sfuel fuel tick = Some (Ok n).
Proof.
  intros pr d o analyze simplify a deadline cs sfuel fuel tick HW HFit HS HA HL HF Hcs Ha Hsf Hf.
  destruct (next_unfold pr d o a deadline cs sfuel fuel tick HF) as (limit & Hlim & ->).
  assert (Hin : In limit (i_levels d)) by (destruct Hlim as [-> | ->]; [apply (lv_max _ HL)|eapply an_bound_in; eauto]).
  apply relax_total; auto.
  - intros p. eapply for_preference_lt; eauto; [apply (az_min _ HA)|apply (az_cap _ HA)|apply (lv_sorted _ HL)].
  - assert (G : forall p L, length (filter (fun l => p <? l)%N L) <= length L).
    { clear. intros p L. induction L as [|y L IH]; cbn; auto. destruct (p <? y)%N; cbn; lia. }
    specialize (G limit (i_levels d)). unfold above. lia.
Qed.
Print Assumptions C44_call_ends.
Example C44_witness : exists n, next_scheduling Debug d12n (o_const 1 (fun _ => true))
    (mkAnalysis [] [] 0) true 5 100 10 0 = Some (Ok n) /\
  nx_limits n = [0; 1]%N /\ nx_sched n = None /\ new_analysis Debug d12n false false = Ok (mkAnalysis [] [] 0).
Proof. eexists. split; [vm_compute; reflexivity|]. repeat split. Qed.

(** ** C47: bookkeeping of the search. *)
(** The states of a search over the choices in [order]. *)
Inductive search_state (pr : profile) (d : input_data) (o : oracle) (late : nat -> bool) (sets : list cset) (order : list nat)
  (suffix : list N) : mach -> Prop :=
| ss_start t : search_state pr d o late sets order suffix (mkMach (new_state (length (i_choices d)) (length (i_slots d))) [] 0 t)
| ss_step m m' : search_state pr d o late sets order suffix m -> step pr d o late sets order suffix m = Ok (Continue m') ->
    search_state pr d o late sets order suffix m'.
Lemma search_state_inv pr d o late sets order suffix m : wf_input d -> fair o -> Permutation (seq 0 (length (i_choices d))) order ->
  search_state pr d o late sets order suffix m -> inv pr d order m.
Proof.
  intros HW HF HO. induction 1 as [t|m m' _ IH HS]; [apply start_inv; exact HO|]. eapply step_keeps; eauto.
Qed.
Lemma placed_is d (dec : list decision) (S : scheduling) : length dec = length (i_choices d) -> length S = length (i_choices d) ->
  (forall c s, scheduled_in S c s <-> nth_error dec c = Some (InSlot s)) -> S = placed dec.
Proof.
  intros L1 L2 H. apply nth_error_ext. intros c. unfold placed. rewrite nth_error_map.
  destruct (nth_error dec c) as [x|] eqn:E.
  - destruct (nth_error_in_range S c) as [y Hy]; [rewrite L2, <- L1; eapply nth_error_lt; eauto|]. rewrite Hy. cbn. f_equal.
    destruct y as [s|].
    + apply H in Hy. rewrite E in Hy. injection Hy as ->. reflexivity.
    + destruct x as [| |s]; auto. assert (scheduled_in S c s) as HS by (apply H; auto). unfold scheduled_in in HS. congruence.
  - cbn. apply nth_error_None in E. apply nth_error_None. lia.
Qed.

(** At every state the three per-slot tables are those of the decisions made
    ([S]: the scheduling they describe). *)
Theorem C47_bookkeeping_exact :
  forall (pr : profile) (d : input_data) (o : oracle) (late : nat -> bool) (sets : list cset) (order : list nat) (suffix : list N)
         (m : mach) (S : scheduling) (s : nat),
    wf_input d -> fits d -> fair o -> Permutation (seq 0 (length (i_choices d))) order -> pr = Debug \/ totals_fit d ->
    search_state pr d o late sets order suffix m ->
    length S = length (i_choices d) -> (forall c t, scheduled_in S c t <-> nth_error (st_dec (m_st m)) c = Some (InSlot t)) ->
    s < length (i_slots d) ->
    nth_error (st_min (m_st m)) s = Some (slot_sum ch_min (i_choices d) S s) /\
    nth_error (st_max (m_st m)) s = Some (slot_sum ch_max (i_choices d) S s) /\
    (exists n, cardinal (fun c => scheduled_in S c s) n /\ nth_error (st_cnt (m_st m)) s = Some (N.of_nat n)).
Proof.
  intros pr d o late sets order suffix m S s HW HFit HF HO HE HS HLS HP Hs. pose proof (search_state_inv _ _ _ _ _ _ _ _ HW HF HO HS) as HI.
  pose proof (iv_state _ _ _ _ HI) as HSt. pose proof (placed_is d _ S (so_len _ _ _ HSt) HLS HP) as ->.
  assert (T : forall f l, tracks pr f d (st_dec (m_st m)) l -> (pr = Debug \/ total f d <= u32_max)%N ->
    nth_error l s = Some (slot_sum f (i_choices d) (placed (st_dec (m_st m))) s)).
  { intros f l HT [E|Hf].
    - subst pr. destruct HT as [HL HT]. destruct (nth_error_in_range l s) as [v Hv]; [lia|]. rewrite Hv. f_equal.
      apply (HT s v Hv).
    - eapply tracks_at; eauto. apply (so_len _ _ _ HSt). }
  split; [apply T; [apply (so_min _ _ _ HSt)|]|]. { destruct HE as [E|[E _]]; auto. }
  split; [apply T; [apply (so_max _ _ _ HSt)|]|]. { destruct HE as [E|[_ E]]; auto. }
  destruct (cardinal_slot_sum d (placed (st_dec (m_st m))) s HLS) as (n & Hn & E). exists n. split; auto. rewrite E.
  apply T; [apply (so_cnt _ _ _ HSt)|]. right. apply total_one_fits. auto.
Qed.
Print Assumptions C47_bookkeeping_exact.

(** Undoing a decision succeeds in every state and restores the tables of the
    remaining decisions (stated by the previous theorem for later states; here:
    no underflow, and only that decision changes). *)
Theorem C47_undo_never_underflows :
  forall (pr : profile) (d : input_data) (o : oracle) (late : nat -> bool) (sets : list cset) (order : list nat) (suffix : list N)
         (m : mach) (c : nat),
    wf_input d -> fair o -> Permutation (seq 0 (length (i_choices d))) order ->
    search_state pr d o late sets order suffix m -> c < length (i_choices d) ->
    exists st, clear_decision pr d (m_st m) c = Ok st /\ nth_error (st_dec st) c = Some Undecided /\
      forall c', c' <> c -> nth_error (st_dec st) c' = nth_error (st_dec (m_st m)) c'.
Proof.
  intros pr d o late sets order suffix m c HW HF HO HS Hc. pose proof (search_state_inv _ _ _ _ _ _ _ _ HW HF HO HS) as HI.
  destruct (clear_ok pr d (m_st m) c HW (iv_state _ _ _ _ HI) Hc) as (st & E & _ & ED). exists st. split; auto. rewrite ED. split.
  - rewrite nth_error_upd, Nat.eqb_refl. rewrite (so_len _ _ _ (iv_state _ _ _ _ HI)). destruct (Nat.ltb_spec c (length (i_choices d))); auto; lia.
  - intros c' Hne. rewrite nth_error_upd. destruct (Nat.eqb_spec c c'); [congruence|auto].
Qed.
Print Assumptions C47_undo_never_underflows.
Definition step12 (m : mach) : mach :=
  match step Debug d12 (o_const 0 (fun _ => false)) (fun _ => false) [] [0;1;2] [7;6;3;0]%N m with Ok (Continue m') => m' | _ => m end.
Definition start12 : mach := mkMach (new_state (length (i_choices d12)) (length (i_slots d12))) [] 0 0.
Definition m12a : mach := step12 start12.
Definition m12b : mach := step12 m12a.
Lemma m12a_steps : step Debug d12 (o_const 0 (fun _ => false)) (fun _ => false) [] [0;1;2] [7;6;3;0]%N start12 = Ok (Continue m12a).
Proof. vm_compute. reflexivity. Qed.
Lemma m12b_steps : step Debug d12 (o_const 0 (fun _ => false)) (fun _ => false) [] [0;1;2] [7;6;3;0]%N m12a = Ok (Continue m12b).
Proof. vm_compute. reflexivity. Qed.
Example C47_witness : search_state Debug d12 (o_const 0 (fun _ => false)) (fun _ => false) [] [0;1;2] [7;6;3;0]%N m12b /\
  st_dec (m_st m12b) = [InSlot 0; InSlot 1; Undecided] /\ st_max (m_st m12b) = [1; 3]%N.
Proof.
  split; [|split; vm_compute; reflexivity].
  exact (ss_step _ _ _ _ _ _ _ _ _ (ss_step _ _ _ _ _ _ _ _ _ (ss_start _ _ _ _ _ _ _ 0) m12a_steps) m12b_steps).
Qed.
