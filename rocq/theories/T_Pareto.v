(** Property theorems: C88. *)
From Verif Require Import Base M_Data Spec M_Scoring P_Scoring Spec_Score P_Check M_Rng M_Critical Spec_Search M_Search P_Sums M_Flow Spec_Flow Spec_Calls P_Flow1 P_Flow7 P_Brute M_Climb M_Threads Spec_Climb Spec_Threads
  M_Build Spec_Input M_Output Spec_Output P_Output1 M_Main Spec_Pareto P_Pareto.
From Verif Require M_Script T_Script T_Climb T_Flow T_Input T_Exact T_Main T_Program.
From Coq Require Import String.
Notation length := Datatypes.length.
Notation get := Base.get.
Import ListNotations.
Open Scope string_scope.
Open Scope list_scope.
Import M_Script(settings, s_inputs, s_output, s_pref_exp, s_cs_timeout, s_threads, op).
Import T_Main(sized, healthy, prepared_roomy).

(** ** C88: no free improvement.  Every assignment that the assignment solver returns,
    in whatever order the schedulings were asked for, with or without deadline, from
    the cache or not, cannot be improved: no assignment that makes a valid solution
    with the same scheduling gives nobody a worse choice in any slot and somebody a
    better one. *)
Theorem C88_assignment_not_improvable :
  forall (pr : profile) (d : input_data) (sd : static) (cost : N -> Z) (greedy : bool) (bound : N) (h : list call) (sv : solver) (c : call) (A B : assignment),
    wf_input d -> grouped d -> solvable_size d -> new_static d = Ok sd -> worse_costs_more d cost ->
    history pr d sd cost greedy bound h sv ->
    (forall c0, In c0 h -> valid_scheduling d (cl_sched c0) /\ honest_lp (cl_env c0) (cl_deadline c0) /\ optimal_lp (cl_env c0)) ->
    In c h -> ar_result (cl_answer c) = Some A ->
    valid_solution d (cl_sched c) B -> tied_together d (cl_sched c) B -> ~ improves d (cl_sched c) A B.
Proof.
  intros pr d sd cost greedy bound h sv c A B HW HG HZ HN HC Hh Hall Hin HA HB HT. apply static_layout in HN as HL.
  destruct (history_cheap pr d sd cost greedy bound HW HL HG HZ h sv Hh) as [_ HX].
  { intros c0 H0. destruct (Hall c0 H0) as (H1 & H2 & H3). split; auto. split; auto. intros s. apply T_Flow.valid_sums. auto. }
  destruct (HX c A Hin HA) as (l & Hl). eapply cheapest_unimproved; eauto. apply Hall. auto.
Qed.
Print Assumptions C88_assignment_not_improvable.

(** The result of a session: any number of workers, any schedule of their steps, any
    clock, cancelled or not. *)
Theorem C88_result_not_improvable :
  forall (pr : profile) (P : problem) (ws : nat -> world) (threads : nat) tr (s : session) (S : scheduling) (A B : assignment),
    roomy pr P -> working ws -> (forall i, optimal_lp (w_env (ws i))) -> worse_costs_more (p_input P) (p_cost P) ->
    moves pr P ws (start P threads) tr s -> wait s = Ok (SolComplete S A) ->
    valid_solution (p_input P) S B -> tied_together (p_input P) S B -> ~ improves (p_input P) S A B.
Proof.
  intros pr P ws threads tr s S A B HR HWs HO HC HM HWt HB HT.
  destruct (T_Climb.C04_result_is_best pr P ws threads tr s _ (ro_wf _ _ HR) (ro_fits _ _ HR) (fun i => proj1 (proj2 (HWs i))) HM HWt) as (sc & _ & [E|(_ & wk & Hwk & Hin)] & _); [discriminate|].
  destruct (session_sharp pr P HR ws threads tr s HWs HO HM wk Hwk) as (_ & _ & HX). destruct (HX _ Hin) as (HV & l & Hl).
  eapply cheapest_unimproved; eauto. apply (ro_wf _ _ HR).
Qed.
Print Assumptions C88_result_not_improvable.
(** In particular if the scheduling holds every choice. *)
Theorem C88_all_held_not_improvable :
  forall (pr : profile) (P : problem) (ws : nat -> world) (threads : nat) tr (s : session) (S : scheduling) (A B : assignment),
    roomy pr P -> working ws -> (forall i, optimal_lp (w_env (ws i))) -> worse_costs_more (p_input P) (p_cost P) ->
    moves pr P ws (start P threads) tr s -> wait s = Ok (SolComplete S A) -> (forall c, c < length (i_choices (p_input P)) -> held S c) ->
    valid_solution (p_input P) S B -> ~ improves (p_input P) S A B.
Proof.
  intros pr P ws threads tr s S A B HR HWs HO HC HM HWt HH HB. eapply C88_result_not_improvable; eauto.
  assert (HA : allowed (p_input P) S (i_max_pref (p_input P)) B).
  { apply T_Flow.respects_allowed; auto; [apply (ro_wf _ _ HR)|apply HB|]. intros p c y _ _ (x & Ex & Ey).
    apply (wf_max _ (ro_wf _ _ HR) x y); eapply nth_error_In; eauto. }
  exact (al_tied _ _ _ _ HA).
Qed.
Print Assumptions C88_all_held_not_improvable.
(** The whole program. *)
Theorem C88_program_not_improvable :
  forall (F : Type) (pr : profile) (pf : string -> option F) (engine : settings F -> string -> list op * option string)
         (pow : F -> f32 -> f32) (cost : F -> N -> Z) (e : surroundings (settings F)) (o o' : settings F) (text : string) (d : input_data)
         (S : scheduling) (A B : assignment),
    program (fun w => healthy w /\ optimal_lp (w_env w)) pr pf engine pow cost e o ->
    env_read e o text = (Ok d, o') -> sized d -> (0 <= s_cs_timeout o')%Z -> worse_costs_more d (cost (s_pref_exp o')) ->
    env_solve e o' d = Ok (SolComplete S A) ->
    valid_solution d S B -> tied_together d S B -> ~ improves d S A B.
Proof.
  intros F pr pf engine pow cost e o o' text d S A B HP HR HZ Hcs HC HS HB HT.
  destruct (T_Program.program_builds _ _ _ _ _ _ _ _ _ _ _ HP HR) as (r & Hb & HU).
  destruct (prepared_roomy F pr pr pow cost o' r d Hb HU HZ Hcs) as (P & EP & RP).
  assert (HSv := pg_solve _ _ _ _ _ _ _ _ HP _ _ _ HR). rewrite HS in HSv. inversion HSv as [|P' ws tr s HPr Hg HM Hfin E]; subst. assert (P' = P) by congruence. subst P'.
  assert (EI : p_input P = d /\ p_cost P = cost (s_pref_exp o')).
  { unfold prepare in EP. apply bind_ok in EP as (an & _ & EP). apply bind_ok in EP as (st & _ & EP). injection EP as <-. auto. }
  destruct EI as [EI EC]. rewrite <- EI in HB, HT, HC |- *. rewrite <- EC in HC.
  eapply C88_result_not_improvable; eauto; intros i; apply (Hg i).
Qed.
Print Assumptions C88_program_not_improvable.

(** *** Witnesses *)
Lemma cube_worse d : worse_costs_more d T_Flow.cube.
Proof. intros p c v p' c' v' _ _ Hlt. unfold T_Flow.cube. apply N2Z.inj_lt, N.pow_lt_mono_l; lia. Qed.
Lemma d5_untied S A : tied_together T_Climb.d5 S A.
Proof.
  intros a b HT _ _ p. induction HT as [a b (e & Hj)| |a b _ IH|a b c _ IH1 _ IH2]; [vm_compute in Hj; destruct Hj|tauto|symmetry; exact IH|rewrite IH1; exact IH2].
Qed.
Example C88_assignment_witness :
  wf_input T_Input.d1 /\ grouped T_Input.d1 /\ solvable_size T_Input.d1 /\ new_static T_Input.d1 = Ok T_Flow.sd1 /\ worse_costs_more T_Input.d1 T_Flow.cube /\
  history Debug T_Input.d1 T_Flow.sd1 T_Flow.cube false 0 [T_Flow.call1] (ar_solver T_Flow.ans1) /\
  (forall c0, In c0 [T_Flow.call1] -> valid_scheduling T_Input.d1 (cl_sched c0) /\ honest_lp (cl_env c0) (cl_deadline c0) /\ optimal_lp (cl_env c0)) /\
  ar_result (cl_answer T_Flow.call1) = Some [[3; 2]; [0; 1]; [0; 1]].
Proof.
  split; [exact T_Input.d1_wf|]. split; [exact T_Flow.d1_grouped|]. split; [exact T_Flow.d1_size|]. split; [exact T_Flow.d1_static|]. split; [apply cube_worse|].
  split; [exact T_Flow.history1|]. split; [|reflexivity]. intros c0 [<-|[]]. split; [apply T_Input.d1_valid|]. split; [apply exact_honest|apply exact_optimal]; apply brute_exact.
Qed.
(** A session, and a valid solution with the same scheduling that its result improves
    on. *)
Example C88_result_witness :
  roomy Debug T_Climb.P5 /\ working T_Climb.ws5 /\ (forall i, optimal_lp (w_env (T_Climb.ws5 i))) /\ worse_costs_more (p_input T_Climb.P5) (p_cost T_Climb.P5) /\
  moves Debug T_Climb.P5 T_Climb.ws5 (start T_Climb.P5 2) T_Climb.trace5 T_Climb.s5 /\
  wait T_Climb.s5 = Ok (SolComplete [Some 0; Some 1; Some 1] [[0; 2]; [0; 1]]) /\
  valid_solution T_Climb.d5 [Some 0; Some 1; Some 1] [[0; 1]; [0; 2]] /\ tied_together T_Climb.d5 [Some 0; Some 1; Some 1] [[0; 1]; [0; 2]] /\
  improves T_Climb.d5 [Some 0; Some 1; Some 1] [[0; 1]; [0; 2]] [[0; 2]; [0; 1]].
Proof.
  split; [exact T_Climb.P5_roomy|]. split; [exact T_Climb.ws5_working|]. split; [intros i; apply exact_optimal, brute_exact|]. split; [apply cube_worse|].
  split; [exact T_Climb.moves5|]. split; [vm_compute; reflexivity|].
  split. { apply check_solution_ok; [apply fits_b_ok|apply wf_input_b_ok|]; vm_compute; reflexivity. }
  split; [apply d5_untied|]. split.
  - intros p s c c' v v' _ _ (row & Hrow & Hin) _ _ (x & Ex & Ev). destruct p as [|[|p]]; cbn in Hrow; [| |destruct p; discriminate]; injection Hrow as <-; vm_compute in Ex; injection Ex as <-;
      destruct Hin as [<-|[<-|[]]]; vm_compute in Ev; injection Ev as <-; apply N.le_0_l.
  - exists 0, 1, 1, 2, 5%N, 0%N. split; [exists [0; 1]; cbn; auto|]. split; [reflexivity|]. split; [exists [0; 2]; cbn; auto|]. split; [reflexivity|].
    split; [eexists; split; vm_compute; reflexivity|]. split; [eexists; split; vm_compute; reflexivity|]. reflexivity.
Qed.
Example C88_program_witness :
  program (fun w => healthy w /\ optimal_lp (w_env w)) Debug T_Script.pf0 (fun _ _ => (T_Main.xs5, None)) (fun (_ : nat) x => x) (fun _ => T_Flow.cube) T_Main.e5 T_Main.o5 /\
  env_read T_Main.e5 T_Main.o5 "" = (Ok T_Climb.d5, T_Main.o5) /\ sized T_Climb.d5 /\ (0 <= s_cs_timeout T_Main.o5)%Z /\
  env_solve T_Main.e5 T_Main.o5 T_Climb.d5 = Ok (SolComplete [Some 0; Some 1; Some 1] [[0; 2]; [0; 1]]).
Proof.
  split; [|split; [exact (T_Main.e5_reads "")|split; [exact T_Main.d5_sized|split; [cbn; lia|vm_compute; reflexivity]]]].
  constructor.
  - reflexivity.
  - intros text d o' H. rewrite T_Main.e5_reads in H. apply T_Main.pair_ok in H as [<- <-].
    cbn [env_solve T_Main.e5]. apply (sv_session _ _ _ _ _ _ T_Climb.P5 T_Climb.ws5 T_Climb.trace5).
    + exact T_Main.prepare5.
    + intros i. split; [apply T_Climb.ws5_working|apply exact_optimal, brute_exact].
    + exact T_Climb.moves5.
    + reflexivity.
  - reflexivity.
Qed.
