(** Property theorems about giving the solver more work: C78. *)
From Verif Require Import Base M_Data Spec M_Scoring P_Scoring P_Feasible P_Check M_Union M_Names M_Build
  Spec_Input P_Input P_Input2 M_Rng P_Rng M_Critical M_Search M_Flow P_Brute M_Climb M_Threads Spec_Climb Spec_Threads Spec_Repro M_Seed
  P_Flow2 P_Climb1 P_Climb2 P_Climb3 P_Climb4 P_Threads P_Climb6 P_Session P_Repro T_Input T_Search T_Flow T_Climb T_Repro.

(** A worker that goes on keeps its candidates. *)
Section Longer.
Context (pr : profile) (P : problem) (w : world).
Context (HF : fits (p_input P)) (HW : wf_input (p_input P)) (HFair : fair (w_hill w)).
Lemma path_gun n r g ev : path pr P w n r g ev -> gun_ok pr P g.
Proof.
  intros H. induction H as [|n r g ev tn k g' ev' H IH HC HI]; [apply new_gun_ok|].
  apply (iterate_ok pr P w true HF HW HFair tn 1 g k g' ev' IH HI).
Qed.
Lemma path_found m : forall n r g ev r' g' ev', path pr P w n r g ev -> path pr P w m r' g' ev' -> n <= m ->
  exists fs, hc_found (sg_climber g') = hc_found (sg_climber g) ++ fs.
Proof.
  induction m as [|m IH]; intros n r g ev r' g' ev' H H' Hle.
  - assert (n = 0) by lia. subst n. destruct (path_det _ _ _ _ _ _ _ _ _ _ H H') as (_ & -> & _). exists []. rewrite app_nil_r. auto.
  - destruct (Nat.eq_dec n (Datatypes.S m)) as [->|Hne].
    { destruct (path_det _ _ _ _ _ _ _ _ _ _ H H') as (_ & -> & _). exists []. rewrite app_nil_r. auto. }
    inversion H' as [|m0 r0 g0 ev0 tn k g1 ev1 Hp HC HI]; subst.
    destruct (IH _ _ _ _ _ _ _ H Hp ltac:(lia)) as (fs & E). pose proof (path_gun _ _ _ _ Hp) as Hg.
    destruct (iterate_ok pr P w true HF HW HFair tn 1 g0 k g' ev1 Hg HI) as (_ & _ & (fs' & E') & _).
    exists (fs ++ fs'). rewrite E', E, app_assoc. auto.
Qed.
End Longer.

(** ** C78: more work never makes the result worse.  Two sessions on the same
    problem, with the same random streams for the workers they have in common;
    the second has at least as many workers, and each of the first session's
    workers completes at least as many iterations in the second. *)
Theorem C78_more_work_is_never_worse :
  forall (pr : profile) (P : problem) (ws : nat -> world) (threads threads' : nat) tr tr' (s s' : session) (sol sol' : solution) sc sc',
    wf_input (p_input P) -> fits (p_input P) -> (forall i, fair (w_hill (ws i))) ->
    moves pr P ws (start P threads) tr s -> moves pr P ws (start P threads') tr' s' ->
    length (se_workers s) <= length (se_workers s') ->
    (forall i, i < length (se_workers s) -> iterations_of i tr <= iterations_of i tr') ->
    wait s = Ok sol -> wait s' = Ok sol' ->
    score_of pr P sol = Ok sc -> score_of pr P sol' = Ok sc' ->
    score_lt sc sc' = false.
Proof.
  intros pr P ws threads threads' tr tr' s s' sol sol' sc sc' HW HF HFair M M' HL HI W W' Hsc Hsc'.
  pose proof (session_reach pr P ws threads HF HW HFair _ _ M) as HS.
  pose proof (session_reach pr P ws threads' HF HW HFair _ _ M') as HS'.
  destruct (result_ok pr P threads s sol HS W) as (Es & Hb & Hor & _).
  destruct (result_ok pr P threads' s' sol' HS' W') as (Es' & Hb' & _ & Hmin).
  set (b := shown no_best (map (fun wk => sg_best (wk_gun wk)) (se_workers s))) in *.
  set (b' := shown no_best (map (fun wk => sg_best (wk_gun wk)) (se_workers s'))) in *.
  assert (Eb : sc = b_score b) by (unfold scored in Hb; rewrite <- Es, Hsc in Hb; congruence).
  assert (Eb' : sc' = b_score b') by (unfold scored in Hb'; rewrite <- Es', Hsc' in Hb'; congruence).
  destruct Hor as [E|(Hfin & wk & Hwk & Hin & _)].
  { rewrite Eb, E. destruct (score_lt (b_score no_best) sc') eqn:F; auto. apply score_lt_finite in F. discriminate. }
  apply score_le_not_lt. rewrite Eb'. apply In_nth_error in Hwk as [i Hi].
  assert (Hlt : i < length (se_workers s)) by (apply nth_error_Some; congruence).
  destruct (nth_error (se_workers s') i) as [wk'|] eqn:Hi'; [|exfalso; apply nth_error_None in Hi'; lia].
  destruct (session_stands pr P ws false _ _ _ M ltac:(discriminate) i wk Hi) as (r & Hp & _).
  destruct (session_stands pr P ws false _ _ _ M' ltac:(discriminate) i wk' Hi') as (r' & Hp' & _).
  destruct (path_found pr P (ws i) HF HW (HFair i) _ _ _ _ _ _ _ _ Hp Hp' (HI i Hlt)) as (fs & E).
  apply (Hmin wk' sol sc); auto; [eapply nth_error_In; eauto|]. rewrite E. apply in_or_app. auto.
Qed.
Print Assumptions C78_more_work_is_never_worse.

(** Without --any, and as long as nobody cancels and the time does not run out:
    with more threads the result is at least as good. *)
Theorem C78_more_threads_are_never_worse :
  forall (pr : profile) (P : problem) (ws : nat -> world) (threads threads' : nat) tr tr' (s s' : session) (sol sol' : solution) sc sc',
    wf_input (p_input P) -> fits (p_input P) -> (forall i, fair (w_hill (ws i))) ->
    p_any P = false -> threads <= threads' ->
    moves pr P ws (start P threads) tr s -> moves pr P ws (start P threads') tr' s' ->
    undisturbed tr -> undisturbed tr' ->
    wait s = Ok sol -> wait s' = Ok sol' ->
    score_of pr P sol = Ok sc -> score_of pr P sol' = Ok sc' ->
    score_lt sc sc' = false.
Proof.
  intros pr P ws threads threads' tr tr' s s' sol sol' sc sc' HW HF HFair HA HT M M' U U' W W' Hsc Hsc'.
  assert (HL : length (se_workers s) <= length (se_workers s')).
  { rewrite (start_length _ _ _ _ _ _ M), (start_length _ _ _ _ _ _ M'). unfold num_threads. destruct (length (i_slots (p_input P)) =? 1); lia. }
  assert (HX : forall th t x, moves pr P ws (start P th) t x -> undisturbed t -> forall i ls, In (Some i, ls) t -> forall b, ls <> [LLoad b]).
  { intros th t x Mx Ux i ls Hl b. destruct b.
    - apply (unflagged _ _ _ _ _ _ Mx (or_introl HA)) with (l := (Some i, ls)); auto; [|cbn; discriminate]. intros l Hl'. apply Ux; auto.
    - apply (Ux (Some i, ls)); auto. }
  apply (C78_more_work_is_never_worse pr P ws threads threads' tr tr' s s' sol sol' sc sc'); auto.
  intros i Hi. destruct (nth_error (se_workers s) i) as [wk|] eqn:Ei; [|exfalso; apply nth_error_None in Ei; lia].
  destruct (nth_error (se_workers s') i) as [wk'|] eqn:Ei'; [|exfalso; apply nth_error_None in Ei'; lia].
  pose proof (session_stands pr P ws true _ _ _ M (fun _ => HX _ _ _ M U) i wk Ei) as H.
  pose proof (session_stands pr P ws true _ _ _ M' (fun _ => HX _ _ _ M' U') i wk' Ei') as H'.
  destruct (wait_ok _ _ W) as [D _]. destruct (wait_ok _ _ W') as [D' _].
  rewrite (stands_done _ _ _ _ _ _ _ H H'); auto; [apply D|apply D']; eapply nth_error_In; eauto.
Qed.
Print Assumptions C78_more_threads_are_never_worse.

(** ** Concrete sessions *)
(** The sample of C73 without --any; time for one iteration of each worker.  The
    first worker is unlucky: its solution leaves out the choice everybody wants. *)
Definition P78 : problem := mkProblem d73 a73 sd73 (fun x => x) cube false false 0 3.
Definition soon (w : world) : world := mkWorld (w_sched w) (w_hill w) (w_env w) (fun t => 1 <=? t).
Definition ws78 (i : nat) : world := if Nat.eqb i 0 then soon w73 else soon w5.
Definition it78 (i : nat) : nat * shotgun * list event := value (0, new_shotgun, []) (iterate Debug P78 (ws78 i) true tn1 1 new_shotgun).
Definition at78 (i : nat) : nat * shotgun * list event :=
  value (0, new_shotgun, []) (iterate Debug P78 (ws78 i) true tn1 1 (snd (fst (it78 i)))).
Lemma it78_eq i : i < 2 -> iterate Debug P78 (ws78 i) true tn1 1 new_shotgun = Some (Ok (it78 i)) /\ fst (fst (it78 i)) = 1.
Proof. intros H. destruct i as [|[|i]]; [split; vm_compute; reflexivity|split; vm_compute; reflexivity|lia]. Qed.
Lemma at78_eq i : i < 2 -> iterate Debug P78 (ws78 i) true tn1 1 (snd (fst (it78 i))) = Some (Ok (at78 i)) /\ fst (fst (at78 i)) = 0.
Proof. intros H. destruct i as [|[|i]]; [split; vm_compute; reflexivity|split; vm_compute; reflexivity|lia]. Qed.
Definition done78 (i : nat) : worker := mkWorker WDone (snd (fst (at78 i))) (snd (it78 i) ++ snd (at78 i)).
Definition twice (i : nat) : list (option nat * list label) := life i ++ [(Some i, [LOther])] ++ life i ++ [(Some i, [LOther])].
Lemma one78 flag wks i wk : i < 2 -> nth_error wks i = Some wk -> wk = new_worker ->
  moves Debug P78 ws78 (mkSession flag wks) (twice i) (mkSession flag (upd wks i (done78 i))).
Proof.
  intros Hi Hn ->. destruct (it78_eq i Hi) as [E1 K1]. destruct (at78_eq i Hi) as [E2 K2]. unfold done78, twice, life. cbn [app].
  destruct (it78 i) as [[k1 g1] ev1]. destruct (at78 i) as [[k2 g2] ev2]. cbn [fst snd] in *. subst k1 k2.
  assert (Hl : i < length wks) by (apply nth_error_Some; congruence).
  assert (HU : forall x y, upd (upd wks i x) i y = upd wks i y) by (intros; apply P_Flow2.upd_upd).
  assert (HN : forall x, nth_error (upd wks i x) i = Some x) by (intros; apply nth_error_upd_same; auto).
  eapply mvs_step; [eapply mv_worker; [exact Hn|eapply mv_start]|]. cbn [se_flag se_workers existsb]. rewrite !orb_false_r.
  eapply mvs_step; [eapply mv_worker; [apply HN|eapply mv_iterate; exact E1]|]. cbn [se_flag se_workers existsb]. rewrite !orb_false_r, HU.
  eapply mvs_step; [eapply mv_worker; [apply HN|apply mv_again; reflexivity]|]. cbn [se_flag se_workers existsb]. rewrite !orb_false_r, HU.
  eapply mvs_step; [eapply mv_worker; [apply HN|eapply mv_start]|]. cbn [se_flag se_workers existsb]. rewrite !orb_false_r, HU.
  eapply mvs_step; [eapply mv_worker; [apply HN|eapply mv_iterate; exact E2]|]. cbn [se_flag se_workers existsb]. rewrite !orb_false_r, HU.
  eapply mvs_step; [eapply mv_worker; [apply HN|apply mv_last; reflexivity]|]. cbn [se_flag se_workers existsb]. rewrite !orb_false_r, HU.
  constructor.
Qed.
Lemma moves_app pr P ws a : forall s b m s', moves pr P ws s a m -> moves pr P ws m b s' -> moves pr P ws s (a ++ b) s'.
Proof. induction a as [|l a IH]; intros s b m s' H H'; inversion H; subst; auto. cbn [app]. econstructor; eauto. Qed.
(** One thread: the second-best solution; two threads: the best. *)
Example C78_witness :
  wf_input (p_input P78) /\ fits (p_input P78) /\ (forall i, fair (w_hill (ws78 i))) /\ p_any P78 = false /\
  moves Debug P78 ws78 (start P78 1) (twice 0) (mkSession false [done78 0]) /\
  moves Debug P78 ws78 (start P78 2) (twice 0 ++ twice 1) (mkSession false [done78 0; done78 1]) /\
  undisturbed (twice 0) /\ undisturbed (twice 0 ++ twice 1) /\
  wait (mkSession false [done78 0]) = Ok (SolComplete [Some 1; Some 0; None] [[1; 0]; [1; 0]]) /\
  wait (mkSession false [done78 0; done78 1]) = Ok (SolComplete [Some 0; Some 1; Some 0] [[2; 1]; [0; 1]]) /\
  exists sc sc', score_of Debug P78 (SolComplete [Some 1; Some 0; None] [[1; 0]; [1; 0]]) = Ok sc /\
    score_of Debug P78 (SolComplete [Some 0; Some 1; Some 0] [[2; 1]; [0; 1]]) = Ok sc' /\ score_lt sc' sc = true.
Proof.
  assert (Hb : build_input Debug r73 = Ok d73) by (vm_compute; reflexivity).
  split; [apply wf_input_b_ok; vm_compute; reflexivity|]. split; [apply fits_b_ok; vm_compute; reflexivity|].
  split. { intros i. unfold ws78. destruct (Nat.eqb i 0); cbn [w_hill soon w5 w73]; apply o_count_fair. }
  split; [reflexivity|].
  split; [exact (one78 false [new_worker] 0 new_worker ltac:(lia) eq_refl eq_refl)|].
  split. { eapply moves_app; [exact (one78 false [new_worker; new_worker] 0 new_worker ltac:(lia) eq_refl eq_refl)|].
    exact (one78 false [done78 0; new_worker] 1 new_worker ltac:(lia) eq_refl eq_refl). }
  split. { intros l H. cbn in H. repeat (destruct H as [<-|H]; [split; discriminate|]). destruct H. }
  split. { intros l H. cbn in H. repeat (destruct H as [<-|H]; [split; discriminate|]). destruct H. }
  split; [vm_compute; reflexivity|]. split; [vm_compute; reflexivity|].
  eexists. eexists. split; [vm_compute; reflexivity|]. split; [vm_compute; reflexivity|]. vm_compute. reflexivity.
Qed.

(** With --any more threads can make the result worse: the first success stops the
    others, whatever they would have found.  One thread alone returns the best
    solution; with two, the second may be the first to succeed. *)
Theorem C78_any_refuted :
  exists (P : problem) (ws : nat -> world) tr tr' (s s' : session) (sol sol' : solution) (sc sc' : score),
    p_any P = true /\ wf_input (p_input P) /\ fits (p_input P) /\ (forall i, fair (w_hill (ws i))) /\
    moves Debug P ws (start P 1) tr s /\ moves Debug P ws (start P 2) tr' s' /\ undisturbed tr /\ undisturbed tr' /\
    wait s = Ok sol /\ wait s' = Ok sol' /\ score_of Debug P sol = Ok sc /\ score_of Debug P sol' = Ok sc' /\ score_lt sc sc' = true.
Proof.
  exists P73, ws73, alone0, only1, (mkSession true [done73 0]), (mkSession true [idle73; done73 1]),
    (SolComplete [Some 0; Some 1; Some 0] [[2; 1]; [0; 1]]), (SolComplete [Some 1; Some 0; None] [[1; 0]; [1; 0]]),
    (b_score (sg_best (snd (fst (it73 0))))), (b_score (sg_best (snd (fst (it73 1))))).
  split; [reflexivity|]. split; [apply wf_input_b_ok; vm_compute; reflexivity|]. split; [apply fits_b_ok; vm_compute; reflexivity|].
  split. { intros i. unfold ws73. destruct (Nat.eqb i 0); cbn [w_hill w5 w73]; apply o_count_fair. }
  split; [exact alone_moves|]. split; [exact only1_moves|].
  split. { intros l [<-|[<-|[<-|[]]]]; split; discriminate. } split. { intros l [<-|[<-|[<-|[<-|[]]]]]; split; discriminate. }
  split; [vm_compute; reflexivity|]. split; [vm_compute; reflexivity|]. split; [vm_compute; reflexivity|]. split; vm_compute; reflexivity.
Qed.
Print Assumptions C78_any_refuted.
