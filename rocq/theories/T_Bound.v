(** C06: a preference bound that is too high (C15) makes the assignment worse. *)
From Verif Require Import Base M_Data Spec M_Build Spec_Input P_Check M_Critical P_Critical M_Flow Spec_Flow Spec_Calls P_Flow1 P_Flow2 P_Flow3 P_Flow4 P_Flow5 P_Flow6 P_Flow7 P_Brute P_Built.
From Verif Require T_Flow.
From Coq Require Import String.
Notation length := Datatypes.length.
Notation get := Base.get.
Import ListNotations.
Open Scope string_scope.
Open Scope list_scope.
Import T_Flow(cube, size_b_ok, built_grouped, valid_shaped, valid_sums, respects_allowed).

(** ** C06, third gap (beside C06_unheld_link_refuted and C06_coarse_levels_refuted).
    Every choice is held and every preference is a level.  Choice c needs all three
    choosers, so at the levels 4, 6 and 10 there is no critical set and the bound is
    10: only the largest level is searched.  The answer does not stay within 4 although
    a valid assignment does. *)
Definition r06h : reader := mkReader [mkSlot "s"; mkSlot "t"]
  [mkProto "x" 1 1 1 false; mkProto "y" 1 1 1 false; mkProto "z" 1 1 1 false; mkProto "c" 3 3 1 false]
  [mkChooser "p" [4;6;0;10]%N; mkChooser "q" [0;10;6;10]%N; mkChooser "r" [6;0;10;10]%N] [].
Definition d06h : input_data := Eval vm_compute in match build_input Debug r06h with Ok d => d | _ => T_Flow.d06b end.
Definition S06h : scheduling := [Some 0; Some 0; Some 0; Some 1].
Lemma r06h_builds pr : build_input pr r06h = Ok d06h. Proof. destruct pr; vm_compute; reflexivity. Qed.
Lemma d06h_wf : wf_input d06h. Proof. apply wf_input_b_ok. vm_compute; reflexivity. Qed.
Lemma d06h_size : solvable_size d06h. Proof. apply size_b_ok. vm_compute; reflexivity. Qed.
Lemma d06h_bound pr a : prepare_analysis pr d06h false false false = Ok a -> an_bound a = 10%N.
Proof. destruct pr; vm_compute; intros H; injection H as <-; reflexivity. Qed.
Lemma d06h_prefs : map cs_prefs (i_choosers d06h) = [[6;4;10;0]; [10;0;4;0]; [4;10;0;0]]%N. Proof. reflexivity. Qed.
Lemma d06h_levels : i_levels d06h = [0; 4; 6; 10]%N. Proof. reflexivity. Qed.
Theorem C06_bound_too_high_refuted :
  exists (r : reader) (d : input_data) (S : scheduling) (B : assignment),
    (forall pr, build_input pr r = Ok d) /\ (forall c, c < length (i_choices d) -> held S c) /\ (forall p c y, pref_of d p c y -> In y (i_levels d)) /\
    valid_solution d S B /\ worst_pref d B 4 /\
    forall (pr : profile) (sd : static) (a : analysis) (h : list call) (c : call) (A : assignment),
      new_static d = Ok sd -> prepare_analysis pr d false false false = Ok a ->
      history pr d sd cube false (an_bound a) h (cl_before c) -> cl_sched c = S ->
      run pr d sd cube false (an_bound a) c -> cl_deadline c = false ->
      (forall c0, In c0 (c :: h) -> honest_lp (cl_env c0) (cl_deadline c0) /\ optimal_lp (cl_env c0)) ->
      ar_result (cl_answer c) = Some A -> ~ prefs_within d A 4.
Proof.
  exists r06h, d06h, S06h, [[1; 3]; [2; 3]; [0; 3]]. split; [apply r06h_builds|].
  assert (HV0 : valid_solution d06h S06h [[1; 3]; [2; 3]; [0; 3]]) by (apply check_solution_ok; [apply fits_b_ok|apply wf_input_b_ok|]; vm_compute; reflexivity).
  assert (HV1 : valid_solution d06h S06h [[0; 3]; [1; 3]; [2; 3]]) by (apply check_solution_ok; [apply fits_b_ok|apply wf_input_b_ok|]; vm_compute; reflexivity).
  assert (Hheld : forall c, c < length (i_choices d06h) -> held S06h c).
  { change (length (i_choices d06h)) with 4. intros c Hc. do 4 (destruct c as [|c]; [eexists; reflexivity|]). lia. }
  split; [exact Hheld|]. split.
  { intros p c y (ch & H1 & H2). rewrite d06h_levels. destruct p as [|[|[|p]]]; cbn in H1; [| | |destruct p; discriminate]; injection H1 as <-;
    (destruct c as [|[|[|[|c]]]]; cbn in H2; [| | | |destruct c; discriminate]); injection H2 as <-; cbn; auto. }
  split; [exact HV0|]. split.
  { split.
    - intros p c y Hp (row & Hr & Hc) (ch & Hch & Hy). destruct p as [|[|[|p]]]; cbn in Hr, Hch; [| | |destruct p; discriminate];
      injection Hr as <-; injection Hch as <-; destruct Hc as [<-|[<-|[]]]; cbn in Hy; injection Hy as <-; lia.
    - right. exists 0, 1. split; [cbn; lia|]. split; [exists [1; 3]; cbn; auto|]. eexists; split; reflexivity. }
  intros pr sd a h c A HN Ha Hh ES HR HD HE EA HP. apply static_layout in HN as HL.
  pose proof (undeadlined_decided pr d06h sd cube false (an_bound a) c HR HD eq_refl) as Hdec.
  assert (HV : valid_scheduling d06h (cl_sched c)) by (rewrite ES; apply HV0).
  pose proof (decided_sound pr d06h sd cube false (an_bound a) d06h_wf HL (built_grouped Debug r06h d06h (r06h_builds Debug)) d06h_size True
    (built_levels Debug r06h d06h (r06h_builds Debug)) h c Hh (valid_shaped _ _ HV) HR Hdec (valid_sums _ _ HV) (fun c0 H => proj1 (HE c0 H)) (fun c0 H _ => proj2 (HE c0 H))) as HA.
  rewrite EA in HA. destruct HA as (i & l & Hi & Hl & HA & HC & _). destruct (HC I) as [_ HC']. clear HC. rewrite ES in HA, HC'.
  assert (Hl10 : l = 10%N).
  { rewrite (d06h_bound pr a Ha) in Hi. change (search_start d06h 10) with 3 in Hi. rewrite d06h_levels in Hl.
    do 3 (destruct i as [|i]; [lia|]). destruct i as [|i]; [cbn in Hl; congruence|]. destruct i; discriminate. }
  subst l. clear Hl Hi.
  destruct (al_one _ _ _ _ HA) as [HLA H1]. change (length (i_choosers d06h)) with 3 in HLA. change (length (i_slots d06h)) with 2 in H1.
  assert (K : forall p row, nth_error A p = Some row -> exists t, t < 3 /\ (row = [t; 3] \/ row = [3; t])).
  { intros p row Hrow. destruct (H1 p row Hrow) as (HLr & Hh' & Hu). destruct row as [|u [|v [|]]]; try discriminate.
    assert (B : forall w, In w [u; v] -> w < 4). { intros w Hw. destruct (Hh' w Hw) as [s Hs]. unfold scheduled_in in Hs. change 4 with (length S06h). apply nth_error_Some. congruence. }
    destruct (Hu 1 ltac:(lia)) as (c3 & [Hin3 Hs3] & _). assert (c3 = 3).
    { pose proof (B _ Hin3). unfold scheduled_in, S06h in Hs3. do 4 (destruct c3 as [|c3]; [cbn in Hs3; try discriminate; auto|]). lia. }
    subst c3. destruct (Hu 0 ltac:(lia)) as (t & [Hint Hst] & _). assert (Ht : t < 3).
    { pose proof (B _ Hint). assert (t <> 3) by (intros ->; discriminate). lia. }
    exists t. split; auto. destruct Hin3 as [E3|[E3|[]]], Hint as [Et|[Et|[]]]; subst u || subst v; (subst u || subst v || idtac); auto; lia. }
  destruct A as [|ra [|rb [|rc [|rd A]]]]; try discriminate. clear HLA.
  destruct (K 0 ra eq_refl) as (x & Hx & Ex). destruct (K 1 rb eq_refl) as (y & Hy & Ey). destruct (K 2 rc eq_refl) as (z & Hz & Ez). clear K H1.
  assert (Ax : In x ra) by (destruct Ex as [-> | ->]; cbn; auto). assert (Ay : In y rb) by (destruct Ey as [-> | ->]; cbn; auto). assert (Az : In z rc) by (destruct Ez as [-> | ->]; cbn; auto).
  assert (E0 : forall p row cc v, nth_error [ra; rb; rc] p = Some row -> In cc row -> pref_of d06h p cc v -> (v <= 4)%N).
  { intros p row cc v Hr Hc Hv. apply (HP p cc v); auto; [|exists row; auto]. change (length (i_choosers d06h)) with (length [ra; rb; rc]). apply nth_error_Some. congruence. }
  assert (X : x = 1).
  { destruct x as [|[|[|x]]]; auto; [|  |lia].
    - pose proof (E0 0 ra 0 6%N eq_refl Ax ltac:(eexists; split; reflexivity)). lia.
    - pose proof (E0 0 ra 2 10%N eq_refl Ax ltac:(eexists; split; reflexivity)). lia. }
  assert (Y : y <> 0). { intros ->. pose proof (E0 1 rb 0 10%N eq_refl Ay ltac:(eexists; split; reflexivity)). lia. }
  assert (Z : z <> 1). { intros ->. pose proof (E0 2 rc 1 10%N eq_refl Az ltac:(eexists; split; reflexivity)). lia. }
  assert (NE : forall cc ch, cc < 3 -> nth_error (i_choices d06h) cc = Some ch -> ch_min ch = 1%N -> x = cc \/ y = cc \/ z = cc).
  { intros cc ch Hlt Hch Hm. destruct (al_bounds _ _ _ _ HA cc ch Hch) as (m & (lst & ND & Hin & <-) & Hmin & _). { apply Hheld. change (length (i_choices d06h)) with 4. lia. }
    rewrite Hm in Hmin. destruct lst as [|p lst]; [cbn in Hmin; lia|]. destruct (proj1 (Hin p) (or_introl eq_refl)) as (row & Hr & Hc).
    destruct p as [|[|[|p]]]; cbn in Hr; [| | |destruct p; discriminate]; injection Hr as <-; [destruct Ex as [-> | ->]|destruct Ey as [-> | ->]|destruct Ez as [-> | ->]]; destruct Hc as [?|[?|[]]]; auto; lia. }
  pose proof (NE 0 _ ltac:(lia) eq_refl eq_refl) as N0. pose proof (NE 2 _ ltac:(lia) eq_refl eq_refl) as N2. clear NE.
  assert (EZ : z = 0) by (destruct N0 as [?|[?|?]]; congruence). assert (EY : y = 2) by (destruct N2 as [?|[?|?]]; congruence). subst x y z.
  specialize (HC' [[0; 3]; [1; 3]; [2; 3]]). assert (Hbad : (378 <= 348)%Z); [|lia].
  assert (HC2 : (assignment_cost d06h cube [ra; rb; rc] <= assignment_cost d06h cube [[0; 3]; [1; 3]; [2; 3]]%nat)%Z).
  { apply HC'. apply respects_allowed; [exact d06h_wf|apply HV1|exact Hheld|].
    intros p cc v Hp _ (ch & Q1 & Q2). apply (wf_max _ d06h_wf ch v); eapply nth_error_In; eauto. }
  destruct Ex as [-> | ->], Ey as [-> | ->], Ez as [-> | ->]; exact HC2.
Qed.
Print Assumptions C06_bound_too_high_refuted.
(** A call that meets these conditions. *)
Definition a06h : analysis := Eval vm_compute in match prepare_analysis Debug d06h false false false with Ok a => a | _ => mkAnalysis [] [] 0 end.
Definition sd06h : static := Eval vm_compute in match new_static d06h with Ok a => a | _ => T_Flow.sd1 end.
Definition ans06h : answer := Eval vm_compute in T_Flow.answer_of (solve_until Debug d06h sd06h cube false 10 (brute_env T_Flow.no_clock) false new_solver S06h 0).
Definition call06h : call := mkCall S06h (brute_env T_Flow.no_clock) false new_solver 0 ans06h.
Example C06_bound_witness : new_static d06h = Ok sd06h /\ prepare_analysis Debug d06h false false false = Ok a06h /\
  history Debug d06h sd06h cube false (an_bound a06h) [] (cl_before call06h) /\ run Debug d06h sd06h cube false (an_bound a06h) call06h /\
  honest_lp (cl_env call06h) (cl_deadline call06h) /\ optimal_lp (cl_env call06h) /\ ar_result (cl_answer call06h) = Some [[0; 3]; [1; 3]; [2; 3]].
Proof.
  split; [vm_compute; reflexivity|]. split; [vm_compute; reflexivity|]. split; [constructor|]. split; [vm_compute; reflexivity|].
  split; [apply exact_honest, brute_exact|]. split; [apply exact_optimal, brute_exact|]. vm_compute. reflexivity.
Qed.
