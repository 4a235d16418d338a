(** Property theorems about the assignment stage: C06, C07, C33, C34, C42, C50,
    C51.  [new_static] is MipFlowStaticData::new, [solve_until] is
    AssignmentSolver::solve_until ([solve] is the case without a deadline),
    [history] are the sequences of calls to one solver.  The LP library is an
    arbitrary function [ev_lp]; what is assumed of it is stated as [honest_lp]
    (no wrong answers) or [optimal_lp].  [cost] stands for (pref+1)^exponent. *)
From Verif Require Import Base M_Data Spec M_Scoring P_Scoring P_Feasible P_Check M_Union M_Names M_Build P_Union
  Spec_Input P_Con P_Compile P_Resolve P_Limits P_Input P_Input2 P_Input3 T_Input M_Rng M_Critical Spec_Search P_Critical M_Search
  P_Sums P_Rng P_Search1 P_Search2 P_Search3 P_Search4 P_Search5 P_Built T_Search
  M_Flow Spec_Flow Spec_Calls P_Flow1 P_Flow2 P_Flow3 P_Flow4 P_Flow5 P_Flow6 P_Flow7 P_Brute.
From Coq Require Import String Sorted Permutation Relation_Operators.
Notation length := Datatypes.length.
Notation get := Base.get.
Notation concat := List.concat.
Open Scope string_scope.
Import ListNotations.
Open Scope list_scope.

Lemma built_grouped pr r d : build_input pr r = Ok d -> grouped d.
Proof.
  intros H. destruct (C16_groups_are_components pr r d H) as (H1 & H2 & H3 & _). constructor.
  - intros c Hc. destruct (H1 c Hc) as (g & [Hg1 Hg2] & _). eauto.
  - intros g a b Hg Ha Hb. apply (H3 g a b Hg Ha Hb).
  - intros g c Hg Hc. eapply H2; eauto.
Qed.
Lemma valid_shaped d S : valid_scheduling d S -> shaped d S.
Proof. intros H. split; [apply (vs_length _ _ H)|apply (vs_range _ _ H)]. Qed.
Lemma slot_sum_out {cs : list choice_data} {S n s} : (forall c t, scheduled_in S c t -> t < n) -> n <= s -> slot_sum ch_min cs S s = 0%N.
Proof.
  unfold scheduled_in. revert S; induction cs as [|ch cs IH]; intros S HR Hs; [destruct S as [|[] ?]; reflexivity|]. destruct S as [|x S]; [reflexivity|]. cbn [slot_sum]. rewrite IH; auto.
  - destruct x as [t|]; auto. specialize (HR 0 t eq_refl). destruct (Nat.eqb_spec t s); [lia|auto].
  - intros c t Hc. apply (HR (Datatypes.S c) t). exact Hc.
Qed.
Lemma valid_sums d S : valid_scheduling d S -> forall s, (slot_sum ch_min (i_choices d) S s <= N.of_nat (length (i_choosers d)))%N.
Proof.
  intros H s. destruct (Nat.lt_ge_cases s (length (i_slots d))) as [Hs|Hs]; [apply (vs_sums _ _ H s Hs)|].
  rewrite (slot_sum_out (vs_range _ _ H) Hs). lia.
Qed.
Lemma respects_allowed d S A x : wf_input d -> respects_all d S A -> (forall c, c < length (i_choices d) -> held S c) -> prefs_within d A x -> allowed d S x A.
Proof.
  intros HW HR HH HP. constructor; auto; try apply HR. intros a b HT _ _. induction HT as [a b (e & Hj)| |a b _ IH|a b c _ IH1 _ IH2]; intros p.
  - pose proof (ra_asg _ _ _ HR _ Hj) as HM. cbn in HM. pose proof (wf_asg _ HW _ Hj) as HSh. cbn in HSh. destruct HSh as [H1 H2]. apply HM; auto.
  - tauto.
  - symmetry. apply IH.
  - rewrite IH1. apply IH2.
Qed.

(** ** C42 *)
Theorem C42_nodes_distinct :
  forall (d : input_data) (sd : static),
    new_static d = Ok sd ->
    NoDup (concat (sd_chooser sd) ++ sd_choice sd ++ sd_slot sd) /\
    length (sd_chooser sd) = length (i_choosers d) /\
    (forall row, In row (sd_chooser sd) -> length row = length (i_slots d)) /\
    length (sd_choice sd) = length (i_choices d) /\
    length (sd_slot sd) = length (i_slots d) /\
    (forall n, In n (concat (sd_chooser sd) ++ sd_choice sd ++ sd_slot sd) -> n < node_count (sd_flow sd)).
Proof.
  intros d sd H. apply static_layout in H as [H1 H2 H3 H4].
  assert (EC : concat (sd_chooser sd) = seq 0 (length (i_choosers d) * length (i_slots d))).
  { rewrite H2. generalize (length (i_slots d)) as n. intros n. assert (G : forall m k, concat (map (fun p => seq (p * n) n) (seq k m)) = seq (k * n) (m * n)).
    { induction m as [|m IH]; intros k; [reflexivity|]. cbn [seq map concat Nat.mul]. rewrite IH. rewrite seq_app. f_equal. f_equal. cbn. lia. }
    apply (G _ 0). }
  rewrite EC, H3, H4, H2, H1. unfold node_count. cbn [fl_supply]. rewrite repeat_length, map_length, !seq_length.
  assert (ES : seq 0 (length (i_choosers d) * length (i_slots d)) ++ seq (length (i_choosers d) * length (i_slots d)) (length (i_choices d)) ++
     seq (length (i_choosers d) * length (i_slots d) + length (i_choices d)) (length (i_slots d)) = seq 0 (nodes d)).
  { unfold nodes. rewrite !seq_app, <- app_assoc. reflexivity. }
  rewrite ES. split; [apply seq_NoDup|]. repeat split; auto.
  - intros row Hin. apply in_map_iff in Hin as (p & <- & _). apply seq_length.
  - intros n Hn. apply in_seq in Hn. lia.
Qed.
Print Assumptions C42_nodes_distinct.
Theorem C42_edge_ids_unique :
  (forall (a b a' b' : nat) (k : N), edge_id a b = Ok k -> edge_id a' b' = Ok k -> a = a' /\ b = b') /\
  (forall a b : nat, (N.of_nat a <= u32_max)%N -> (N.of_nat b <= u32_max)%N -> exists k, edge_id a b = Ok k /\ (k < 2 ^ 64)%N).
Proof.
  split.
  - intros a b a' b' k H H'. apply edge_id_ok in H as [[H1 H2] ->]. apply edge_id_ok in H' as [[H1' H2'] E]. apply key_inj in E; auto.
  - intros a b Ha Hb. exists (key a b). split; [apply edge_id_ok; auto|]. unfold key. rewrite make_long_eq by auto. unfold u32_max in *. change (2 ^ 64)%N with (4294967296 * 4294967296)%N. nia.
Qed.
Print Assumptions C42_edge_ids_unique.
Theorem C42_accepted_input_has_nodes : forall d : input_data, fits d -> exists sd, new_static d = Ok sd.
Proof. exact static_total. Qed.
Print Assumptions C42_accepted_input_has_nodes.
(** The keys the nodes are filed under are distinct too, for fewer than 2^31 - 2
    choosers: chooser/slot keys from each other, and the three kinds from one another. *)
Theorem C42_node_keys_unique :
  (forall p s p' s' k, node_chooser p s = Ok k -> node_chooser p' s' = Ok k -> p = p' /\ s = s') /\
  (forall c c' k, node_choice c = Ok k -> node_choice c' = Ok k -> c = c') /\
  (forall s s' k, node_slot s = Ok k -> node_slot s' = Ok k -> s = s') /\
  (forall c s k, node_choice c = Ok k -> node_slot s <> Ok k) /\
  (forall p s c k, (N.of_nat p < 2147483646)%N -> node_chooser p s = Ok k -> node_choice c <> Ok k /\ node_slot c <> Ok k).
Proof.
  assert (IX : forall n k, index_u32 n = Ok k -> k = N.of_nat n /\ (N.of_nat n <= u32_max)%N).
  { intros n k. unfold index_u32. destruct (N.leb_spec (N.of_nat n) u32_max); intros E; inversion E; auto. }
  assert (ML : forall a b a' b', (a <= u32_max)%N -> (b <= u32_max)%N -> (a' <= u32_max)%N -> (b' <= u32_max)%N ->
                 make_long a b = make_long a' b' -> a = a' /\ b = b').
  { intros a b a' b' H1 H2 H3 H4 E. rewrite !make_long_eq in E by auto. unfold u32_max in *. lia. }
  assert (SH : (slot_id_high <= u32_max)%N) by (vm_compute; discriminate). assert (CH : (choice_id_high <= u32_max)%N) by (vm_compute; discriminate).
  unfold node_chooser, node_choice, node_slot. repeat apply conj.
  - intros p s p' s' k H H'. apply bind_ok in H as (a & Ha & H). apply bind_ok in H as (b & Hb & H). apply bind_ok in H' as (a' & Ha' & H'). apply bind_ok in H' as (b' & Hb' & H').
    injection H as <-. injection H' as E. apply IX in Ha as [-> ?], Hb as [-> ?], Ha' as [-> ?], Hb' as [-> ?]. apply ML in E; auto. lia.
  - intros c c' k H H'. apply bind_ok in H as (b & Hb & H). apply bind_ok in H' as (b' & Hb' & H').
    injection H as <-. injection H' as E. apply IX in Hb as [-> ?], Hb' as [-> ?]. apply ML in E; auto. lia.
  - intros c c' k H H'. apply bind_ok in H as (b & Hb & H). apply bind_ok in H' as (b' & Hb' & H').
    injection H as <-. injection H' as E. apply IX in Hb as [-> ?], Hb' as [-> ?]. apply ML in E; auto. lia.
  - intros c s k H H'. apply bind_ok in H as (b & Hb & H). apply bind_ok in H' as (b' & Hb' & H').
    injection H as <-. injection H' as E. apply IX in Hb as [-> ?], Hb' as [-> ?]. apply ML in E; auto. destruct E as [E _]. revert E. vm_compute. discriminate.
  - intros p s c k Hp H. apply bind_ok in H as (a & Ha & H). apply bind_ok in H as (b & Hb & H). injection H as <-. apply IX in Ha as [-> ?], Hb as [-> ?].
    split; intros H'; apply bind_ok in H' as (b' & Hb' & H'); injection H' as E; apply IX in Hb' as [-> ?]; apply ML in E; auto; unfold choice_id_high, slot_id_high in E; lia.
Qed.
Print Assumptions C42_node_keys_unique.
Definition sd1 : static := match new_static d1 with Ok s => s | _ => mkStatic (mkFlow [] [] [] [] []) [] [] [] end.
Lemma d1_static : new_static d1 = Ok sd1.
Proof. vm_compute. reflexivity. Qed.
Example C42_witness : new_static d1 = Ok sd1 /\ (exists k, node_chooser 2 1 = Ok k /\ node_slot 1 <> Ok k) /\ length (concat (sd_chooser sd1)) = 6 /\ edge_id 3 7 = Ok 12884901895%N /\ edge_id 7 3 <> edge_id 3 7.
Proof.
  split; [exact d1_static|]. split; [eexists; split; [reflexivity|vm_compute; discriminate]|]. split; [reflexivity|]. split; [reflexivity|]. vm_compute. discriminate.
Qed.

(** ** C33: after any history of calls, the state prepared for a scheduling is the
    one computed from that scheduling alone (lists up to order). *)
Theorem C33_state_equals_rebuild :
  forall (pr : profile) (d : input_data) (sd : static) (cost : N -> Z) (greedy : bool) (bound : N)
         (h : list call) (sv : solver) (S : scheduling) (st : sched_state),
    wf_input d -> new_static d = Ok sd -> history pr d sd cost greedy bound h sv -> shaped d S ->
    prepare_state pr d sd (sv_state sv) S = Ok st ->
    exists st', scratch_state pr d sd S = Ok st' /\
      ss_slots st = S /\ ss_slots st' = S /\
      Forall2 (@Permutation nat) (ss_by_slot st) (ss_by_slot st') /\
      ss_cov st = ss_cov st' /\
      (forall e, In e (ss_blocked st) <-> In e (ss_blocked st')).
Proof.
  intros pr d sd cost greedy bound h sv S st HW HN Hh HS E. apply static_layout in HN as HL.
  pose proof (history_prepared pr d sd cost greedy bound HW HL h sv S st Hh HS E) as HSt.
  destruct (history_rebuild pr d sd cost greedy bound HW HL h sv S st Hh HS E) as (st' & E' & H1 & H2). exists st'. split; auto.
  rewrite <- H1, (sf_slots _ _ _ _ HSt). auto.
Qed.
Print Assumptions C33_state_equals_rebuild.
(** The state says what it should: members, sums and bans in terms of the scheduling. *)
Theorem C33_state_describes_scheduling :
  forall (pr : profile) (d : input_data) (sd : static) (cost : N -> Z) (greedy : bool) (bound : N)
         (h : list call) (sv : solver) (S : scheduling) (st : sched_state),
    wf_input d -> new_static d = Ok sd -> history pr d sd cost greedy bound h sv -> shaped d S ->
    (forall s, (slot_sum ch_min (i_choices d) S s <= u32_max)%N) ->
    prepare_state pr d sd (sv_state sv) S = Ok st ->
    length (ss_by_slot st) = length (i_slots d) /\ length (ss_cov st) = length (i_slots d) /\
    (forall s l, nth_error (ss_by_slot st) s = Some l -> NoDup l /\ forall c, In c l <-> scheduled_in S c s) /\
    (forall s v, nth_error (ss_cov st) s = Some v -> v = slot_sum ch_min (i_choices d) S s).
Proof.
  intros pr d sd cost greedy bound h sv S st HW HN Hh HS Hsum E. apply static_layout in HN as HL.
  pose proof (sf_holds _ _ _ _ (history_prepared pr d sd cost greedy bound HW HL h sv S st Hh HS E)) as HH.
  split; [apply (ho_len _ _ _ _ HH)|]. split; [apply (ho_clen _ _ _ _ HH)|]. split; [apply (ho_in _ _ _ _ HH)|].
  intros s v Hv. eapply rep_exact; [apply Hsum|apply (ho_cov _ _ _ _ HH s v Hv)].
Qed.
Print Assumptions C33_state_describes_scheduling.
Theorem C33_update_never_overflows :
  forall (pr : profile) (d : input_data) (sd : static) (cost : N -> Z) (greedy : bool) (bound : N) (h : list call) (sv : solver) (S : scheduling),
    wf_input d -> new_static d = Ok sd -> history pr d sd cost greedy bound h sv ->
    (Z.of_nat (length (i_choosers d)) <= i32_max)%Z ->
    valid_scheduling d S -> (forall c, In c h -> valid_scheduling d (cl_sched c)) ->
    exists st, prepare_state pr d sd (sv_state sv) S = Ok st.
Proof.
  intros pr d sd cost greedy bound h sv S HW HN Hh HZ HS Hc. apply static_layout in HN as HL.
  eapply (history_prepare_total pr d sd cost greedy bound HW HL h sv S); eauto using valid_shaped.
  - right. apply valid_sums; auto.
  - right. intros c s Hin. apply valid_sums; auto.
Qed.
Print Assumptions C33_update_never_overflows.

Definition cube (x : N) : Z := Z.of_N ((x + 1) ^ 3)%N.
Definition no_clock : nat -> bool := fun _ => false.
(** Calls made with the library that tries every point. *)
Definition answer_of (o : option (outcome answer)) : answer := match o with Some (Ok a) => a | _ => mkAnswer None false false new_solver 0 end.
(** The sample: Ann, Bob, Cid; a(2 parts), b, c; see T_Input. *)
Definition S1b : scheduling := [Some 0; Some 1; Some 0; Some 1].
Definition ans1 : answer := Eval vm_compute in answer_of (solve_until Debug d1 sd1 cube false 0 (brute_env no_clock) false new_solver S1 0).
Definition call1 : call := mkCall S1 (brute_env no_clock) false new_solver 0 ans1.
Definition ans2 : answer := Eval vm_compute in answer_of (solve_until Debug d1 sd1 cube false 0 (brute_env no_clock) false (ar_solver ans1) S1b 7).
Definition call2 : call := mkCall S1b (brute_env no_clock) false (ar_solver ans1) 7 ans2.
(** asked again *)
Definition ans3 : answer := Eval vm_compute in answer_of (solve_until Debug d1 sd1 cube false 0 (brute_env no_clock) true (ar_solver ans2) S1b 9).
Definition call3 : call := mkCall S1b (brute_env no_clock) true (ar_solver ans2) 9 ans3.
Definition ans4 : answer := Eval vm_compute in answer_of (solve_until Debug d1 sd1 cube false 0 (brute_env no_clock) false (ar_solver ans2) S1 9).
Definition call4 : call := mkCall S1 (brute_env no_clock) false (ar_solver ans2) 9 ans4.
Lemma d1_shaped S : In S [S1; S1b] -> shaped d1 S.
Proof.
  intros H. split; [destruct H as [<-|[<-|[]]]; reflexivity|]. intros c s Hc. change (length (i_slots d1)) with 2.
  destruct H as [<-|[<-|[]]]; unfold scheduled_in in Hc; do 4 (destruct c as [|c]; [injection Hc as <-; lia|]); destruct c; discriminate.
Qed.
Lemma call1_runs : run Debug d1 sd1 cube false 0 call1.
Proof. unfold run. vm_compute. reflexivity. Qed.
Lemma call2_runs : run Debug d1 sd1 cube false 0 call2.
Proof. unfold run. vm_compute. reflexivity. Qed.
Lemma call3_runs : run Debug d1 sd1 cube false 0 call3.
Proof. unfold run. vm_compute. reflexivity. Qed.
Lemma call4_runs : run Debug d1 sd1 cube false 0 call4.
Proof. unfold run. vm_compute. reflexivity. Qed.
Lemma history1 : history Debug d1 sd1 cube false 0 [call1] (ar_solver ans1).
Proof. change (ar_solver ans1) with (ar_solver (cl_answer call1)). constructor; [constructor|apply d1_shaped; cbn; auto|exact call1_runs]. Qed.
Lemma history2 : history Debug d1 sd1 cube false 0 [call2; call1] (ar_solver ans2).
Proof. change (ar_solver ans2) with (ar_solver (cl_answer call2)). constructor; [exact history1|apply d1_shaped; cbn; auto|exact call2_runs]. Qed.
Example C33_witness : exists st st', history Debug d1 sd1 cube false 0 [call2; call1] (ar_solver ans2) /\ shaped d1 S1 /\
  prepare_state Debug d1 sd1 (sv_state (ar_solver ans2)) S1 = Ok st /\ scratch_state Debug d1 sd1 S1 = Ok st' /\
  ss_by_slot st' = [[0; 3]; [1; 2]] /\ length (ss_blocked st') = 1 /\ sv_state (ar_solver ans2) <> Some st.
Proof.
  eexists _, _. split; [exact history2|]. split; [apply d1_shaped; cbn; auto|]. split; [vm_compute; reflexivity|]. split; [vm_compute; reflexivity|].
  split; [reflexivity|]. split; [reflexivity|]. vm_compute. discriminate.
Qed.

(** ** C34: an answer from the cache is the answer of an earlier call for the same
    scheduling that did compute, and whose computation did not use its deadline:
    without any deadline it gives the same answer. *)
Theorem C34_cache_is_transparent :
  forall (pr : profile) (d : input_data) (sd : static) (cost : N -> Z) (greedy : bool) (bound : N) (h : list call) (c : call),
    wf_input d -> new_static d = Ok sd ->
    history pr d sd cost greedy bound h (cl_before c) -> shaped d (cl_sched c) -> run pr d sd cost greedy bound c ->
    ar_cached (cl_answer c) = true ->
    exists c0, In c0 h /\ cl_sched c0 = cl_sched c /\ ar_cached (cl_answer c0) = false /\
      ar_result (cl_answer c0) = ar_result (cl_answer c) /\ ar_result (cl_answer c0) <> None /\
      solve_until pr d sd cost greedy bound (cl_env c0) false (cl_before c0) (cl_sched c0) (cl_tick c0) = Some (Ok (cl_answer c0)).
Proof.
  intros pr d sd cost greedy bound h c HW HN Hh HS HR HC. apply static_layout in HN as HL.
  destruct (cached_answer pr d sd cost greedy bound HW HL h c Hh HS HR HC) as (c0 & H1 & H2 & H3 & H4 & H5 & H6 & _). exists c0. split; auto. split; auto. split; auto. split; auto. split.
  - rewrite H4. unfold run in HR. apply solve_until_inv in HR as (st & _ & _ & [(_ & _ & A & _ & E)|(E & _)]); congruence.
  - apply decided_rerun; auto.
Qed.
Print Assumptions C34_cache_is_transparent.
Example C34_witness : history Debug d1 sd1 cube false 0 [call2; call1] (cl_before call3) /\ run Debug d1 sd1 cube false 0 call3 /\
  ar_cached (cl_answer call3) = true /\ ar_result (cl_answer call3) = Some [[2; 3]; [0; 1]; [0; 1]].
Proof. split; [exact history2|]. split; [exact call3_runs|]. split; reflexivity. Qed.

(** ** C07.  Full statement: the points of the integer program built for a
    scheduling and a limit are exactly the assignments that respect bounds, limit
    and assignment constraints.  Proved with [allowed], which in addition keeps
    tied choices together when the choice that links them is not held; without
    that addition it is false (C07_unheld_link_refuted), and when every choice is
    held it makes no difference (C07_allowed_is_valid). *)
Theorem C07_program_is_assignment_problem_partial :
  forall (pr : profile) (d : input_data) (sd : static) (cost : N -> Z) (greedy : bool) (bound : N) (h : list call) (sv : solver)
         (S : scheduling) (st : sched_state) (limit : N) (f : flow),
    wf_input d -> grouped d -> solvable_size d -> new_static d = Ok sd ->
    history pr d sd cost greedy bound h sv -> shaped d S ->
    (forall s, (slot_sum ch_min (i_choices d) S s <= N.of_nat (length (i_choosers d)))%N) ->
    prepare_state pr d sd (sv_state sv) S = Ok st -> build_flow pr d sd cost st limit = Ok f ->
    (* every point encodes one allowed assignment, of the same cost *)
    (forall x, feasible_point f x -> exists A, decode d sd st f x = Ok A /\ allowed d S limit A /\ objective f x = assignment_cost d cost A) /\
    (* every allowed assignment is encoded *)
    (forall A, allowed d S limit A -> exists x B, feasible_point f x /\ decode d sd st f x = Ok B /\ same_attendance A B /\
                                                  objective f x = assignment_cost d cost A) /\
    (* by one point *)
    (forall x y A, feasible_point f x -> feasible_point f y -> decode d sd st f x = Ok A -> decode d sd st f y = Ok A -> x = y).
Proof.
  intros pr d sd cost greedy bound h sv S st limit f HW HG HZ HN Hh HS Hsum HP HB. apply static_layout in HN as HL.
  pose proof (history_prepared pr d sd cost greedy bound HW HL h sv S st Hh HS HP) as HSt. split; [|split].
  - intros x Hx. exact (instance_sound pr d sd HW HL HG HZ cost S st HSt Hsum limit f x HB Hx).
  - intros A HA. destruct (asg_rows pr d sd HW HL HG HZ cost S st HSt Hsum limit f A HB HA) as (x & B & H1 & H2 & H3 & H4 & H5). exists x, B.
    rewrite (same_cost d cost S limit A B HA H5 H3). auto.
  - intros x y A HX HY EX EY. eapply (point_unique pr d sd cost S st limit f x y A); eauto. apply (sums_u32 d HZ S Hsum).
Qed.
Print Assumptions C07_program_is_assignment_problem_partial.
(** When every choice is held, and the preferences are within the limit, the
    allowed assignments are those that respect bounds and constraints. *)
Theorem C07_allowed_is_valid :
  forall (d : input_data) (S : scheduling) (A : assignment) (limit : N),
    wf_input d -> valid_scheduling d S -> (forall c, c < length (i_choices d) -> held S c) ->
    (allowed d S limit A <-> valid_solution d S A /\ prefs_within d A limit).
Proof.
  intros d S A limit HW HV HH. split.
  - intros [H1 H2 H3 H4 H5]. split; auto. split; auto. split; auto. apply (vs_cons _ _ HV).
  - intros [HVS HP]. apply respects_allowed; auto. apply HVS.
Qed.
Print Assumptions C07_allowed_is_valid.
Lemma d1_grouped : grouped d1. Proof. exact (built_grouped Debug r1 d1 r1_builds). Qed.
Definition size_b (d : input_data) : bool :=
  (N.of_nat (length (i_choosers d) * length (i_slots d) + length (i_choices d) + length (i_slots d)) <=? u32_max)%N &&
  (Z.of_nat (length (i_choosers d)) <=? i32_max)%Z &&
  forallb (fun c => (ch_min c <=? ch_max c)%N && (Z.of_N (ch_max c) <=? i32_max)%Z) (i_choices d).
Lemma size_b_ok d : size_b d = true -> solvable_size d.
Proof.
  unfold size_b. rewrite !andb_true_iff, forallb_forall, N.leb_le, Z.leb_le. intros [[H1 H2] H3]. constructor; auto.
  intros c Hc. specialize (H3 c Hc). rewrite andb_true_iff, N.leb_le, Z.leb_le in H3. auto.
Qed.
Lemma d1_size : solvable_size d1.
Proof. apply size_b_ok. vm_compute. reflexivity. Qed.
Lemma d1_sums s : (slot_sum ch_min (i_choices d1) S1 s <= N.of_nat (length (i_choosers d1)))%N.
Proof. apply valid_sums. apply d1_valid. Qed.
Example C07_witness : exists st f x, prepare_state Debug d1 sd1 (sv_state (ar_solver ans1)) S1 = Ok st /\
  build_flow Debug d1 sd1 cube st 9 = Ok f /\ feasible_point f x /\ allowed d1 S1 9 [[3; 2]; [0; 1]; [0; 1]].
Proof.
  destruct (C33_update_never_overflows Debug d1 sd1 cube false 0 [call1] (ar_solver ans1) S1 d1_wf d1_static history1) as [st Est].
  { vm_compute. discriminate. }
  { apply d1_valid. }
  { intros c [<-|[]]. apply d1_valid. }
  pose proof (history_prepared Debug d1 sd1 cube false 0 d1_wf (static_layout _ _ d1_static) _ _ S1 st history1 (d1_shaped S1 ltac:(cbn; auto)) Est) as HSt.
  destruct (build_total Debug d1 sd1 d1_wf (static_layout _ _ d1_static) d1_grouped d1_size cube S1 st HSt d1_sums 9) as [f Ef].
  assert (HV : valid_solution d1 S1 [[3; 2]; [0; 1]; [0; 1]]) by (apply check_solution_ok; [exact d1_fits|exact d1_wf|vm_compute; reflexivity]).
  assert (HA : allowed d1 S1 9 [[3; 2]; [0; 1]; [0; 1]]).
  { apply respects_allowed; [exact d1_wf|apply HV| |].
    - change (length (i_choices d1)) with 4. intros c Hc. do 4 (destruct c as [|c]; [eexists; reflexivity|]). lia.
    - intros p c y Hp _ (ch & H1 & H2). assert (E9 : i_max_pref d1 = 9%N) by (vm_compute; reflexivity). rewrite <- E9.
      apply (wf_max _ d1_wf ch y); [eapply nth_error_In; exact H1|eapply nth_error_In; exact H2]. }
  destruct (C07_program_is_assignment_problem_partial Debug d1 sd1 cube false 0 [call1] _ S1 st 9 f d1_wf d1_grouped d1_size d1_static history1 (d1_shaped S1 ltac:(cbn; auto)) d1_sums Est Ef)
    as (_ & H2 & _). destruct (H2 _ HA) as (x & B & Hx & _). exists st, f, x. auto.
Qed.

(** ** C06.  Full statement: the worst preference of the answer is minimal among
    all valid assignments of the scheduling, and no answer means there is none.
    Proved, for every history of the solver, up to the granularity of the level
    list, among assignments that also keep chains of tied choices together
    ([allowed]), and when every level below the reported bound lies below a
    critical set (so that the bound is true, C15).  The gaps are real: see the
    theorems after it. *)
Theorem C06_worst_preference_minimal_partial :
  forall (pr : profile) (d : input_data) (sd : static) (cost : N -> Z) (analyze simplify : bool) (a : analysis) (h : list call) (c : call),
    wf_input d -> grouped d -> levels_ok d -> solvable_size d -> analyzable d ->
    new_static d = Ok sd -> new_analysis pr d analyze simplify = Ok a ->
    (forall p, In p (i_levels d) -> (p < an_bound a)%N -> exists q x data, (p <= q)%N /\ critical_at d q x data) ->
    history pr d sd cost false (an_bound a) h (cl_before c) -> valid_scheduling d (cl_sched c) ->
    run pr d sd cost false (an_bound a) c -> cl_deadline c = false ->
    (forall c0, In c0 (c :: h) -> honest_lp (cl_env c0) (cl_deadline c0)) ->
    match ar_result (cl_answer c) with
    | Some A => allowed d (cl_sched c) (i_max_pref d) A /\
                forall B p, In p (i_levels d) -> allowed d (cl_sched c) p B -> prefs_within d A p
    | None => forall B, ~ allowed d (cl_sched c) (i_max_pref d) B
    end.
Proof.
  intros pr d sd cost analyze simplify a h c HW HG HLv HZ HAz HN Ha Hb Hh HV HR HD HE. apply static_layout in HN as HL.
  pose proof (undeadlined_decided pr d sd cost false (an_bound a) c HR HD eq_refl) as Hdec.
  pose proof (decided_sound pr d sd cost false (an_bound a) HW HL HG HZ False HLv h c Hh (valid_shaped _ _ HV) HR Hdec (valid_sums _ _ HV) HE ltac:(intros; contradiction)) as HA.
  cbn in HA. set (start := search_start d (an_bound a)) in *.
  assert (HB : forall j p B, nth_error (i_levels d) j = Some p -> j < start -> ~ allowed d (cl_sched c) p B).
  { intros j p B Hj Hlt HAl. assert (Hp : In p (i_levels d)) by (eapply nth_error_In; eauto).
    assert (Hpb : (p < an_bound a)%N).
    { unfold start, search_start in Hlt. pose proof (position_from_spec (an_bound a) (i_levels d) 0) as HPf. destruct (position_from (an_bound a) 0 (i_levels d)) as [k|].
      - destruct HPf as (_ & x & _ & _ & HPf). rewrite Nat.sub_0_r in HPf. eapply HPf; eauto.
      - apply HPf; auto. }
    destruct (Hb p Hp Hpb) as (q & x & data & Hq & HC). destruct analyze.
    - exact (bound_true pr d simplify a (cl_sched c) B p HW (az_min _ HAz) (az_cap _ HAz) Ha (vs_length _ _ HV) (al_one _ _ _ _ HAl) (al_prefs _ _ _ _ HAl) Hp Hpb q x data Hq HC).
    - injection Ha as <-. cbn in Hpb. lia. }
  destruct (ar_result (cl_answer c)) as [A|].
  - destruct HA as (i & l & H1 & H2 & H3 & _ & H4). split.
    + eapply allowed_mono; [|exact H3]. apply (lv_le _ HLv). eapply nth_error_In; eauto.
    + intros B p Hp HAl. destruct (In_nth_error _ _ Hp) as [j Hj]. destruct (Nat.lt_ge_cases j i) as [Hji|Hji].
      * exfalso. destruct (Nat.lt_ge_cases j start) as [Hjs|Hjs]; [eapply HB; eauto|eapply H4; eauto].
      * intros q cc y Hq Hat Hy. pose proof (al_prefs _ _ _ _ H3 q cc y Hq Hat Hy) as Hl.
        pose proof (ascending (i_levels d) i j l p (lv_sorted _ HLv) H2 Hj Hji). lia.
  - intros B HAl. destruct (In_nth_error _ _ (lv_max _ HLv)) as [j Hj]. destruct (Nat.lt_ge_cases j start) as [Hjs|Hjs]; [eapply HB; eauto|eapply HA; eauto].
Qed.
Print Assumptions C06_worst_preference_minimal_partial.

(** With every choice held and every preference a level, this is the full
    statement. *)
Theorem C06_worst_preference_minimal_all_held_partial :
  forall (pr : profile) (d : input_data) (sd : static) (cost : N -> Z) (analyze simplify : bool) (a : analysis) (h : list call) (c : call),
    wf_input d -> grouped d -> levels_ok d -> solvable_size d -> analyzable d ->
    new_static d = Ok sd -> new_analysis pr d analyze simplify = Ok a ->
    (forall p, In p (i_levels d) -> (p < an_bound a)%N -> exists q x data, (p <= q)%N /\ critical_at d q x data) ->
    history pr d sd cost false (an_bound a) h (cl_before c) -> valid_scheduling d (cl_sched c) ->
    run pr d sd cost false (an_bound a) c -> cl_deadline c = false ->
    (forall c0, In c0 (c :: h) -> honest_lp (cl_env c0) (cl_deadline c0)) ->
    (forall cc, cc < length (i_choices d) -> held (cl_sched c) cc) ->
    (forall p cc y, pref_of d p cc y -> In y (i_levels d)) ->
    match ar_result (cl_answer c) with
    | Some A => valid_solution d (cl_sched c) A /\
                forall B x y, valid_solution d (cl_sched c) B -> worst_pref d A x -> worst_pref d B y -> (x <= y)%N
    | None => forall B, ~ valid_solution d (cl_sched c) B
    end.
Proof.
  intros pr d sd cost analyze simplify a h c HW HG HLv HZ HAz HN Ha Hb Hh HV HR HD HE Hheld Hlev.
  pose proof (C06_worst_preference_minimal_partial pr d sd cost analyze simplify a h c HW HG HLv HZ HAz HN Ha Hb Hh HV HR HD HE) as H.
  assert (HM : forall B, prefs_within d B (i_max_pref d)).
  { intros B p cc y Hp _ (ch & H1 & H2). apply (wf_max _ HW ch y); eapply nth_error_In; eauto. }
  destruct (ar_result (cl_answer c)) as [A|].
  - destruct H as [H1 H2]. split; [apply (C07_allowed_is_valid d (cl_sched c) A (i_max_pref d) HW HV Hheld); auto|].
    intros B x y HVB [_ HxA] [HyB Hy]. assert (HyL : In y (i_levels d)).
    { destruct Hy as [->|(p & cc & _ & _ & HP)]; [apply (lv_zero _ HLv)|eauto]. }
    assert (HA : prefs_within d A y) by (apply (H2 B y HyL); apply (C07_allowed_is_valid d (cl_sched c) B y HW HV Hheld); auto).
    destruct HxA as [->|(p & cc & Hp & Hat & Hpr)]; [lia|]. exact (HA p cc x Hp Hat Hpr).
  - intros B HVB. apply (H B). apply (C07_allowed_is_valid d (cl_sched c) B (i_max_pref d) HW HV Hheld); auto.
Qed.
Print Assumptions C06_worst_preference_minimal_all_held_partial.
Example C06_witness : history Debug d1 sd1 cube false 0 [call2; call1] (cl_before call4) /\ valid_scheduling d1 S1 /\ run Debug d1 sd1 cube false 0 call4 /\
  an_bound (mkAnalysis [] [] 0) = 0%N /\ new_analysis Debug d1 false false = Ok (mkAnalysis [] [] 0) /\ levels_ok d1 /\ analyzable d1 /\
  (forall c0, In c0 [call4; call2; call1] -> honest_lp (cl_env c0) (cl_deadline c0) /\ optimal_lp (cl_env c0)) /\
  ar_result (cl_answer call4) = Some [[3; 2]; [0; 1]; [0; 1]].
Proof.
  split; [exact history2|]. split; [apply d1_valid|]. split; [exact call4_runs|].
  split; [reflexivity|]. split; [reflexivity|]. split; [exact d1_levels|]. split; [exact d1_analyzable|]. split; [|reflexivity].
  intros c0 [<-|[<-|[<-|[]]]]; (split; [apply exact_honest|apply exact_optimal]); apply brute_exact.
Qed.

(** The gaps.  First: a choice that is not held still ties the choices it links.
    a and c are both to have the audience of the optional choice b, which is not
    held; the valid assignment of worst preference 0 is not considered. *)
Definition r06 : reader := mkReader [mkSlot "s"; mkSlot "t"]
  [mkProto "a" 1 1 1 false; mkProto "b" 1 1 1 true; mkProto "c" 1 1 1 false; mkProto "e" 1 1 1 false; mkProto "f" 1 1 1 false]
  [mkChooser "p" [1;0;0;0;1]%N; mkChooser "q" [0;0;1;1;0]%N]
  [mkE (acc_choice "a" AChooser 0) REq (acc_choice "b" AChooser 0); mkE (acc_choice "b" AChooser 0) REq (acc_choice "c" AChooser 0)].
Definition d06 : input_data := Eval vm_compute in match build_input Debug r06 with Ok d => d | _ => d1 end.
Definition S06 : scheduling := [Some 0; None; Some 1; Some 0; Some 1].
Lemma r06_builds pr : build_input pr r06 = Ok d06. Proof. destruct pr; vm_compute; reflexivity. Qed.
Lemma d06_valid : valid_solution d06 S06 [[0; 4]; [3; 2]].
Proof. apply check_solution_ok; [apply fits_b_ok|apply wf_input_b_ok|]; vm_compute; reflexivity. Qed.
Lemma d06_wf : wf_input d06. Proof. apply wf_input_b_ok. vm_compute; reflexivity. Qed.
Lemma d06_size : solvable_size d06. Proof. apply size_b_ok. vm_compute; reflexivity. Qed.
Theorem C06_unheld_link_refuted :
  exists (r : reader) (d : input_data) (S : scheduling) (B : assignment),
    (forall pr, build_input pr r = Ok d) /\ valid_solution d S B /\ worst_pref d B 0 /\
    forall (pr : profile) (sd : static) (cost : N -> Z) (bound : N) (h : list call) (c : call) (A : assignment),
      new_static d = Ok sd -> history pr d sd cost false bound h (cl_before c) -> cl_sched c = S ->
      run pr d sd cost false bound c -> cl_deadline c = false ->
      (forall c0, In c0 (c :: h) -> honest_lp (cl_env c0) (cl_deadline c0)) ->
      ar_result (cl_answer c) = Some A -> ~ prefs_within d A 0.
Proof.
  exists r06, d06, S06, [[0; 4]; [3; 2]]. split; [apply r06_builds|]. split; [exact d06_valid|]. split.
  { split; [|left; auto]. intros p c y Hp (row & Hr & Hc) (ch & Hch & Hy). destruct p as [|[|p]]; cbn in Hr, Hch; [| |destruct p; discriminate];
    injection Hr as <-; injection Hch as <-; destruct Hc as [<-|[<-|[]]]; cbn in Hy; injection Hy as <-; lia. }
  intros pr sd cost bound h c A HN Hh ES HR HD HE EA HP. apply static_layout in HN as HL.
  pose proof (undeadlined_decided pr d06 sd cost false bound c HR HD eq_refl) as Hdec.
  assert (HV : valid_scheduling d06 (cl_sched c)) by (rewrite ES; apply d06_valid).
  pose proof (decided_sound pr d06 sd cost false bound d06_wf HL (built_grouped Debug r06 d06 (r06_builds Debug)) d06_size False
    (built_levels Debug r06 d06 (r06_builds Debug)) h c Hh (valid_shaped _ _ HV) HR Hdec (valid_sums _ _ HV) HE ltac:(intros; contradiction)) as HA.
  cbn [ar_result] in HA. rewrite EA in HA. destruct HA as (i & l & _ & _ & HA & _). rewrite ES in HA.
  destruct (al_one _ _ _ _ HA) as [HLA H1]. change (length (i_choosers d06)) with 2 in HLA.
  assert (K : forall p s x z, p < 2 -> s < 2 -> (forall cc, scheduled_in S06 cc s -> cc = x \/ cc = z) -> pref_of d06 p z 1 -> attends A p x).
  { intros p s x z Hp Hs Hxz Hz. destruct (nth_error A p) as [row|] eqn:Er; [|apply nth_error_None in Er; lia].
    destruct (H1 p row Er) as (_ & _ & Hu). destruct (Hu s Hs) as (cc & [Hin Hsc] & _). destruct (Hxz cc Hsc) as [-> | ->]; [exists row; auto|].
    exfalso. specialize (HP p z 1%N Hp ltac:(exists row; auto) Hz). lia. }
  assert (P0 : attends A 0 0).
  { apply (K 0 0 0 3); try lia; [|eexists; split; reflexivity]. intros cc Hc. unfold scheduled_in, S06 in Hc. do 5 (destruct cc as [|cc]; [cbn in Hc; try discriminate; auto|]). destruct cc; discriminate. }
  assert (P1 : attends A 1 2).
  { apply (K 1 1 2 4); try lia; [|eexists; split; reflexivity]. intros cc Hc. unfold scheduled_in, S06 in Hc. do 5 (destruct cc as [|cc]; [cbn in Hc; try discriminate; auto|]). destruct cc; discriminate. }
  assert (P2 : attends A 0 2).
  { apply (al_tied _ _ _ _ HA 0 2); auto; try (eexists; reflexivity). apply rst_trans with 1; apply rst_step; eexists; cbn; eauto. }
  destruct (al_bounds _ _ _ _ HA 2 _ eq_refl ltac:(eexists; reflexivity)) as (m & (lst & ND & Hin & <-) & _ & Hmax). cbn in Hmax.
  assert (2 <= length lst); [|lia]. change 2 with (length [0; 1]). apply NoDup_incl_length; [repeat constructor; cbn; intuition lia|].
  intros x [<-|[<-|[]]]; apply Hin; auto.
Qed.
Print Assumptions C06_unheld_link_refuted.

Theorem C07_unheld_link_refuted :
  exists (r : reader) (d : input_data) (S : scheduling) (B : assignment) (limit : N),
    (forall pr, build_input pr r = Ok d) /\ valid_solution d S B /\ prefs_within d B limit /\
    forall (pr : profile) (sd : static) (cost : N -> Z) (st : sched_state) (f : flow) (x : list Z) (B' : assignment),
      new_static d = Ok sd -> prepare_state pr d sd None S = Ok st -> build_flow pr d sd cost st limit = Ok f ->
      feasible_point f x -> decode d sd st f x = Ok B' -> ~ same_attendance B B'.
Proof.
  exists r06, d06, S06, [[0; 4]; [3; 2]], 1%N. split; [apply r06_builds|]. split; [exact d06_valid|]. split.
  { intros p c y Hp _ (ch & H1 & H2). apply (wf_max _ d06_wf ch y); eapply nth_error_In; eauto. }
  intros pr sd cost st f x B' HN HP HB HX HD HS.
  destruct (C07_program_is_assignment_problem_partial pr d06 sd cost false 0 [] new_solver S06 st 1 f d06_wf (built_grouped Debug r06 d06 (r06_builds Debug)) d06_size HN
    (his_new _ _ _ _ _ _) (valid_shaped _ _ (vsol_sched _ _ _ d06_valid)) (valid_sums _ _ (vsol_sched _ _ _ d06_valid)) HP HB) as (H & _).
  destruct (H x HX) as (A & E & HA & _). assert (A = B') by congruence. subst A.
  assert (P2 : attends B' 0 2).
  { apply (al_tied _ _ _ _ HA 0 2); auto; try (eexists; reflexivity); [apply rst_trans with 1; apply rst_step; eexists; cbn; eauto|]. apply HS. exists [0; 4]. cbn; auto. }
  apply HS in P2. destruct P2 as (row & Hr & Hin). cbn in Hr. injection Hr as <-. destruct Hin as [?|[?|[]]]; discriminate.
Qed.
Print Assumptions C07_unheld_link_refuted.

(** Second: the levels are the values the user wrote, preferences are mirrored
    (10 - value).  Here the smallest level with an assignment is 10, the cheapest
    one there has worst preference 9, another valid one 6. *)
Definition r06b : reader := mkReader [mkSlot "s"]
  [mkProto "x" 1 1 1 false; mkProto "y" 1 1 1 false; mkProto "z" 1 1 1 false]
  [mkChooser "p" [1;4;0]%N; mkChooser "q" [0;10;4]%N; mkChooser "r" [4;0;10]%N] [].
Definition d06b : input_data := Eval vm_compute in match build_input Debug r06b with Ok d => d | _ => d1 end.
Definition S06b : scheduling := [Some 0; Some 0; Some 0].
Lemma r06b_builds pr : build_input pr r06b = Ok d06b. Proof. destruct pr; vm_compute; reflexivity. Qed.
Lemma d06b_wf : wf_input d06b. Proof. apply wf_input_b_ok. vm_compute; reflexivity. Qed.
Lemma d06b_size : solvable_size d06b. Proof. apply size_b_ok. vm_compute; reflexivity. Qed.
Theorem C06_coarse_levels_refuted :
  exists (r : reader) (d : input_data) (S : scheduling) (B : assignment),
    (forall pr, build_input pr r = Ok d) /\ valid_solution d S B /\ worst_pref d B 6 /\
    forall (pr : profile) (sd : static) (a : analysis) (h : list call) (c : call) (A : assignment),
      new_static d = Ok sd -> prepare_analysis pr d false false false = Ok a ->
      history pr d sd cube false (an_bound a) h (cl_before c) -> cl_sched c = S ->
      run pr d sd cube false (an_bound a) c -> cl_deadline c = false ->
      (forall c0, In c0 (c :: h) -> honest_lp (cl_env c0) (cl_deadline c0) /\ optimal_lp (cl_env c0)) ->
      ar_result (cl_answer c) = Some A -> ~ prefs_within d A 6.
Proof.
  exists r06b, d06b, S06b, [[1]; [2]; [0]]. split; [apply r06b_builds|].
  assert (HV0 : valid_solution d06b S06b [[1]; [2]; [0]]) by (apply check_solution_ok; [apply fits_b_ok|apply wf_input_b_ok|]; vm_compute; reflexivity).
  assert (HV1 : valid_solution d06b S06b [[0]; [1]; [2]]) by (apply check_solution_ok; [apply fits_b_ok|apply wf_input_b_ok|]; vm_compute; reflexivity).
  split; [exact HV0|]. split.
  { split.
    - intros p c y Hp (row & Hr & Hc) (ch & Hch & Hy). destruct p as [|[|[|p]]]; cbn in Hr, Hch; [| | |destruct p; discriminate];
      injection Hr as <-; injection Hch as <-; destruct Hc as [<-|[]]; cbn in Hy; injection Hy as <-; lia.
    - right. exists 0, 1. split; [cbn; lia|]. split; [exists [1]; cbn; auto|]. eexists; split; reflexivity. }
  intros pr sd a h c A HN _ Hh ES HR HD HE EA HP. apply static_layout in HN as HL.
  pose proof (undeadlined_decided pr d06b sd cube false (an_bound a) c HR HD eq_refl) as Hdec.
  assert (HV : valid_scheduling d06b (cl_sched c)) by (rewrite ES; apply HV0).
  pose proof (decided_sound pr d06b sd cube false (an_bound a) d06b_wf HL (built_grouped Debug r06b d06b (r06b_builds Debug)) d06b_size True
    (built_levels Debug r06b d06b (r06b_builds Debug)) h c Hh (valid_shaped _ _ HV) HR Hdec (valid_sums _ _ HV) (fun c0 H => proj1 (HE c0 H)) (fun c0 H _ => proj2 (HE c0 H))) as HA.
  rewrite EA in HA. destruct HA as (i & l & _ & Hl & HA & HC & _). destruct (HC I) as [_ HC']. clear HC. rewrite ES in HA, HC'.
  destruct (al_one _ _ _ _ HA) as [HLA H1]. change (length (i_choosers d06b)) with 3 in HLA. change (length (i_slots d06b)) with 1 in H1.
  destruct A as [|ra [|rb [|rc [|rd A]]]]; try discriminate. clear HLA.
  assert (K : forall p row, nth_error [ra; rb; rc] p = Some row -> exists x, row = [x] /\ x < 3).
  { intros p row Hrow. destruct (H1 p row Hrow) as (HLr & Hh' & _). destruct row as [|x [|]]; try discriminate. exists x. split; auto.
    destruct (Hh' x (or_introl eq_refl)) as [s Hs]. unfold scheduled_in in Hs. change 3 with (length S06b). apply nth_error_Some. congruence. }
  destruct (K 0 ra eq_refl) as (x & -> & Hx). destruct (K 1 rb eq_refl) as (y & -> & Hy). destruct (K 2 rc eq_refl) as (z & -> & Hz).
  assert (Hl10 : l = 10%N).
  { assert (H6 : exists v, pref_of d06b 0 x v /\ (6 <= v)%N).
    { destruct x as [|[|[|x]]]; [exists 9%N|exists 6%N|exists 10%N|lia]; (split; [eexists; split; reflexivity|lia]). }
    destruct H6 as (v & Hv & H6). pose proof (al_prefs _ _ _ _ HA 0 x v ltac:(cbn; lia) ltac:(exists [x]; cbn; auto) Hv). apply nth_error_In in Hl. cbn in Hl. intuition lia. }
  subst l. clear Hl.
  assert (E0 : forall p row cc v, nth_error [[x]; [y]; [z]] p = Some row -> In cc row -> pref_of d06b p cc v -> (v <= 6)%N).
  { intros p row cc v Hr Hc Hv. apply (HP p cc v); auto; [|exists row; auto]. change (length (i_choosers d06b)) with (length [[x]; [y]; [z]]). apply nth_error_Some. congruence. }
  assert (X : x = 1). { destruct x as [|[|[|x]]]; auto; [specialize (E0 0 [0] 0 9%N)|specialize (E0 0 [2] 2 10%N)|lia]; cbn in E0; exfalso; assert (Q : (9 <= 6)%N \/ (10 <= 6)%N); [left; apply E0; auto; eexists; split; reflexivity|lia|right; apply E0; auto; eexists; split; reflexivity|lia]. }
  assert (Y : y <> 0). { intros ->. specialize (E0 1 [0] 0 10%N eq_refl (or_introl eq_refl) ltac:(eexists; split; reflexivity)). lia. }
  assert (Z : z <> 1). { intros ->. specialize (E0 2 [1] 1 10%N eq_refl (or_introl eq_refl) ltac:(eexists; split; reflexivity)). lia. }
  assert (NE : forall cc ch, nth_error (i_choices d06b) cc = Some ch -> ch_min ch = 1%N -> held S06b cc -> x = cc \/ y = cc \/ z = cc).
  { intros cc ch Hch Hm Hhd. destruct (al_bounds _ _ _ _ HA cc ch Hch Hhd) as (m & (lst & ND & Hin & <-) & Hmin & _). rewrite Hm in Hmin.
    destruct lst as [|p lst]; [cbn in Hmin; lia|]. destruct (proj1 (Hin p) (or_introl eq_refl)) as (row & Hr & Hc).
    destruct p as [|[|[|p]]]; cbn in Hr; [| | |destruct p; discriminate]; injection Hr as <-; destruct Hc as [<-|[]]; auto. }
  pose proof (NE 0 _ eq_refl eq_refl ltac:(eexists; reflexivity)) as N0. pose proof (NE 2 _ eq_refl eq_refl ltac:(eexists; reflexivity)) as N2.
  assert (EZ : z = 0) by (destruct N0 as [?|[?|?]]; congruence). assert (EY : y = 2) by (destruct N2 as [?|[?|?]]; congruence). subst x y z.
  specialize (HC' [[0]; [1]; [2]]). assert (Hbad : (1029 <= 1002)%Z); [|lia]. apply HC'.
  apply respects_allowed; [exact d06b_wf|apply HV1| |].
  - change (length (i_choices d06b)) with 3. intros cc Hc. do 3 (destruct cc as [|cc]; [eexists; reflexivity|]). lia.
  - intros p cc v Hp _ (ch & Q1 & Q2). apply (wf_max _ d06b_wf ch v); eapply nth_error_In; eauto.
Qed.
Print Assumptions C06_coarse_levels_refuted.

(** ** C51: with an optimizing library the answer is a cheapest assignment among
    those within the first level that has one (in greedy mode: among all). *)
Theorem C51_answer_is_cheapest :
  forall (pr : profile) (d : input_data) (sd : static) (cost : N -> Z) (greedy : bool) (bound : N) (h : list call) (c : call) (A : assignment),
    wf_input d -> grouped d -> levels_ok d -> solvable_size d -> new_static d = Ok sd ->
    history pr d sd cost greedy bound h (cl_before c) -> valid_scheduling d (cl_sched c) -> run pr d sd cost greedy bound c ->
    (greedy = false -> cl_deadline c = false) ->
    (forall c0, In c0 (c :: h) -> honest_lp (cl_env c0) (cl_deadline c0) /\ optimal_lp (cl_env c0)) ->
    ar_result (cl_answer c) = Some A ->
    exists l, In l (i_levels d) /\ (greedy = true -> l = i_max_pref d) /\ allowed d (cl_sched c) l A /\
      (forall B, allowed d (cl_sched c) l B -> (assignment_cost d cost A <= assignment_cost d cost B)%Z) /\
      (greedy = false -> forall l' B, In l' (i_levels d) -> (bound <= l')%N -> (l' < l)%N -> ~ allowed d (cl_sched c) l' B).
Proof.
  intros pr d sd cost greedy bound h c A HW HG HLv HZ HN Hh HV HR HD HE EA. apply static_layout in HN as HL.
  assert (Hdec : ar_decided (cl_answer c) = true).
  { destruct greedy; [|apply (undeadlined_decided pr d sd cost false bound c HR (HD eq_refl) eq_refl)].
    unfold run in HR. rewrite solve_until_eq in HR. destruct (prepare_state _ _ _ _ _) as [st| |]; try discriminate.
    assert (G : fresh pr d sd cost true bound (cl_env c) (cl_deadline c) (cl_before c) st (cl_tick c) = Some (Ok (cl_answer c)) -> ar_decided (cl_answer c) = true).
    { unfold fresh. intros E. apply some_inj in E. apply bind_ok in E as ([q t'] & _ & E). destruct q; apply ok_inj in E; rewrite <- E in *; auto; discriminate. }
    destruct (sv_cache (cl_before c)) as [[[slots A'] opt]|]; auto. destruct (same_slots slots (ss_slots st) && opt); auto.
    apply some_inj, ok_inj in HR. rewrite <- HR. auto. }
  pose proof (decided_sound pr d sd cost greedy bound HW HL HG HZ True HLv h c Hh (valid_shaped _ _ HV) HR Hdec (valid_sums _ _ HV)
     (fun c0 H => proj1 (HE c0 H)) (fun c0 H _ => proj2 (HE c0 H))) as HA. destruct greedy.
  - destruct HA as (A' & E & H1 & H2). assert (A' = A) by congruence. subst A'. exists (i_max_pref d). split; [apply (lv_max _ HLv)|]. split; auto. split; auto.
    split; [apply (H2 I)|discriminate].
  - rewrite EA in HA. destruct HA as (i & l & H1 & H2 & H3 & H4 & H5). exists l. split; [eapply nth_error_In; eauto|]. split; [discriminate|]. split; auto.
    split; [apply (H4 I)|]. intros _ l' B Hl' Hb Hlt HB. destruct (In_nth_error _ _ Hl') as [j Hj].
    assert (Hji : j < i). { destruct (Nat.lt_ge_cases j i) as [|Hge]; auto. pose proof (ascending (i_levels d) i j l l' (lv_sorted _ HLv) H2 Hj Hge). lia. }
    assert (Hst : search_start d bound <= j).
    { unfold search_start. pose proof (position_from_spec bound (i_levels d) 0) as HPf. destruct (position_from bound 0 (i_levels d)) as [k|].
      - destruct HPf as (_ & x & _ & _ & HPf). rewrite Nat.sub_0_r in HPf. destruct (Nat.lt_ge_cases j k) as [Hjk|]; auto. specialize (HPf j l' Hjk Hj). lia.
      - specialize (HPf l' Hl'). lia. }
    eapply H5; eauto.
Qed.
Print Assumptions C51_answer_is_cheapest.
Example C51_witness : history Debug d1 sd1 cube false 0 [call2; call1] (cl_before call4) /\ valid_scheduling d1 S1 /\ run Debug d1 sd1 cube false 0 call4 /\
  (forall c0, In c0 [call4; call2; call1] -> honest_lp (cl_env c0) (cl_deadline c0) /\ optimal_lp (cl_env c0)) /\
  ar_result (cl_answer call4) = Some [[3; 2]; [0; 1]; [0; 1]].
Proof. destruct C06_witness as (H1 & H2 & H3 & _ & _ & _ & _ & H4 & H5). auto. Qed.

(** ** C50.  Full statement: solving the assignment of any accepted input never
    panics.  Proved for inputs of solvable size (in particular min <= max for
    every choice) and valid schedulings; false when min exceeds max. *)
Theorem C50_solve_never_panics_partial :
  forall (pr : profile) (d : input_data) (sd : static) (cost : N -> Z) (greedy : bool) (bound : N) (h : list call) (sv : solver)
         (S : scheduling) (ev : env) (deadline : bool) (t : nat),
    wf_input d -> grouped d -> levels_ok d -> solvable_size d -> new_static d = Ok sd ->
    history pr d sd cost greedy bound h sv -> (forall c, In c h -> valid_scheduling d (cl_sched c)) ->
    valid_scheduling d S -> honest_lp ev deadline ->
    exists a, solve_until pr d sd cost greedy bound ev deadline sv S t = Some (Ok a).
Proof.
  intros pr d sd cost greedy bound h sv S ev dl t HW HG HLv HZ HN Hh HVh HV HE. apply static_layout in HN as HL.
  destruct (history_total pr d sd cost greedy bound HW HL HG HZ HLv h sv S ev dl t Hh (valid_shaped _ _ HV) HE (valid_sums _ _ HV)) as (a & Ha & _); eauto.
  intros c s Hc. apply valid_sums; auto.
Qed.
Print Assumptions C50_solve_never_panics_partial.
Example C50_witness : history Debug d1 sd1 cube false 0 [call1] (ar_solver ans1) /\ (forall c, In c [call1] -> valid_scheduling d1 (cl_sched c)) /\
  valid_scheduling d1 S1 /\ solvable_size d1 /\ grouped d1 /\ levels_ok d1 /\ honest_lp (brute_env no_clock) true.
Proof.
  split; [exact history1|]. split; [intros c [<-|[]]; apply d1_valid|]. split; [apply d1_valid|]. split; [exact d1_size|]. split; [exact d1_grouped|]. split; [exact d1_levels|].
  apply exact_honest, brute_exact.
Qed.
(** Choice a takes at least 3 and at most 2 people; b takes up to 5.  The input is
    accepted, a scheduling is valid, and every attempt to assign panics. *)
Definition r50 : reader := mkReader [mkSlot "s"] [mkProto "a" 3 2 1 false; mkProto "b" 0 5 1 false]
  [mkChooser "p" [0;1]%N; mkChooser "q" [1;0]%N; mkChooser "r" [0;0]%N] [].
Definition d50 : input_data := Eval vm_compute in match build_input Debug r50 with Ok d => d | _ => d1 end.
Definition sd50 : static := Eval vm_compute in match new_static d50 with Ok s => s | _ => sd1 end.
Theorem C50_min_above_max_refuted :
  exists (r : reader) (d : input_data) (S : scheduling),
    (forall pr, build_input pr r = Ok d) /\ valid_scheduling d S /\ (exists sd, new_static d = Ok sd) /\
    forall (pr : profile) (sd : static) (greedy : bool) (ev : env) (t : nat), new_static d = Ok sd ->
      solve_until pr d sd cube greedy 0 ev false new_solver S t = Some Panic.
Proof.
  exists r50, d50, [Some 0; Some 0]. split; [intros [|]; vm_compute; reflexivity|].
  split; [apply check_scheduling_ok; [apply fits_b_ok|apply wf_input_b_ok|]; vm_compute; reflexivity|].
  split; [eexists; vm_compute; reflexivity|]. intros pr sd greedy ev t HN.
  assert (E : new_static d50 = Ok sd50) by (vm_compute; reflexivity). rewrite HN in E. apply ok_inj in E. subst sd.
  destruct pr, greedy; vm_compute; reflexivity.
Qed.
Print Assumptions C50_min_above_max_refuted.
