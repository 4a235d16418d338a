(** A worker's iterations. *)
From Verif Require Import Base M_Data Spec M_Scoring P_Scoring P_Feasible P_Score M_Rng P_Rng M_Critical M_Search M_Flow Spec_Calls P_Flow7
  M_Climb M_Threads Spec_Climb Spec_Threads P_Climb1 P_Climb2 P_Climb3.

Definition keep (b x : best) : best := if score_lt (b_score x) (b_score b) then x else b.
Definition shown (b : best) (l : list best) : best := fold_left keep l b.
Lemma fold_best es : forall tp, tp_best (fold_left apply_event es tp) = shown (tp_best tp) (bests es).
Proof.
  induction es as [|e es IH]; intros tp; auto. cbn [fold_left]. rewrite IH. destruct e as [s c|n|n]; auto.
  cbn. unfold keep at 2. cbn. destruct (score_lt c (b_score (tp_best tp))); auto.
Qed.

Section Shotgun.
Context (pr : profile) (P : problem) (w : world) (deadline : bool).
Let d := p_input P.
Context (HF : fits d) (HW : wf_input d) (HFair : fair (w_hill w)).
Notation scored := (scored pr P).
Notation climber_ok := (climber_ok P).
Notation mode := (in_mode (p_greedy P)).

Lemma shown_climb : forall l b b1, mode (b_score b) -> scored b1 -> (forall x, In x l -> scored x) -> descending (b_score b1) l ->
  shown b (b1 :: l) = if score_lt (b_score (last l b1)) (b_score b) then last l b1 else b.
Proof.
  induction l as [|b2 l IH]; intros b b1 Hb H1 Hl HD; [reflexivity|].
  destruct HD as [HD1 HD2]. assert (H2 : scored b2) by (apply Hl; left; auto). assert (Hl' : forall x, In x l -> scored x) by (intros; apply Hl; right; auto).
  change (shown b (b1 :: b2 :: l)) with (shown (keep b b1) (b2 :: l)). rewrite last_cons.
  assert (HL : score_le (b_score (last l b2)) (b_score b2)) by (eapply descending_le; eauto).
  assert (HSL : scored (last l b2)) by (destruct (last_in_or l b2) as [->|Hin]; auto).
  assert (HLt : score_lt (b_score (last l b2)) (b_score b1) = true) by (apply (le_lt_mode (p_greedy P) _ (b_score b2) _); auto; eapply scored_mode; eauto).
  unfold keep. destruct (score_lt (b_score b1) (b_score b)) eqn:E.
  - rewrite IH; auto; [|eapply scored_mode; eauto]. rewrite HLt.
    rewrite (lt_le_mode (p_greedy P) _ (b_score b1) (b_score b)); auto using score_lt_le; eapply scored_mode; eauto.
  - rewrite IH; auto.
Qed.

Record gun_ok (g : shotgun) : Prop := {
  go_climber : climber_ok (sg_climber g);
  go_scored : scored (sg_best g);
  go_cand : cand_ok d (b_sol (sg_best g));
  go_in : sg_best g = no_best \/ In (b_sol (sg_best g)) (hc_found (sg_climber g)) /\ score_finite (b_score (sg_best g)) = true;
  go_min : forall sol sc, In sol (hc_found (sg_climber g)) -> score_of pr P sol = Ok sc -> score_le (b_score (sg_best g)) sc
}.
Lemma new_gun_ok : gun_ok new_shotgun.
Proof.
  constructor; cbn; auto; try contradiction.
  - split; cbn; [intros S A o E; discriminate|intros sol []].
  - reflexivity.
Qed.
Definition table (g : shotgun) : tprogress := mkTP (sg_best g) (sg_iterations g) (hc_assignments (sg_climber g)).

(** One completed climb. *)
Lemma iteration_ok tn S g sol h ev sc : gun_ok g -> sched_ok d S -> hill_solve pr P w deadline tn S (sg_climber g) = Some (Ok (sol, h, ev)) ->
  score_of pr P sol = Ok sc ->
  let better := score_lt sc (b_score (sg_best g)) in
  forall st tk, let g' := mkShotgun h st tk (sg_iterations g + 1) (if better then mkBest sol sc else sg_best g) in
  gun_ok g' /\ (exists fs, hc_found h = hc_found (sg_climber g) ++ fs) /\
  fold_left apply_event (ev ++ (if better then [EvBest sol sc] else []) ++ [EvIterations (sg_iterations g + 1)]) (table g) = table g' /\
  steady (hc_assignments (sg_climber g)) (sg_iterations g) (ev ++ (if better then [EvBest sol sc] else []) ++ [EvIterations (sg_iterations g + 1)]) /\
  (forall x, In x (bests (ev ++ (if better then [EvBest sol sc] else []) ++ [EvIterations (sg_iterations g + 1)])) -> scored x).
Proof.
  intros Hg HS H Hsc better st tk g'. destruct (hill_solve_ok pr P w deadline HF HW HFair tn S _ _ _ _ (go_climber _ Hg) HS H) as (first & rest & [A1 A2 _ A3 A4 A5 A6]).
  assert (Hscored : scored (mkBest sol sc)) by exact Hsc.
  assert (Hmode : mode sc) by (eapply evaluate_mode; eauto). pose proof (scored_mode _ _ _ (go_scored _ Hg)) as Hmb.
  destruct A4 as (fsc & Ef & Ainf & Afin).
  assert (Hfin : score_finite sc = true -> cand_ok d sol /\ In sol (first :: rest)).
  { intros Hf. destruct (score_finite fsc) eqn:EF.
    - destruct (Afin eq_refl) as (b & bs & _ & _ & Eb & Es & _ & Hc & _ & Hin). split; auto. subst sol b.
      destruct (last_in_or bs (mkBest first fsc)) as [->|Hx]; [left; auto|right; apply Hin; auto].
    - destruct (Ainf eq_refl) as (-> & _). cbn in Hsc. injection Hsc as <-. discriminate. }
  assert (Hbetter : better = true -> score_finite sc = true) by apply score_lt_finite.
  assert (Hev : shown (sg_best g) (bests ev) = if better then mkBest sol sc else sg_best g).
  { destruct (score_finite fsc) eqn:EF.
    - destruct (Afin eq_refl) as (b & bs & E1 & HD & Eb & Es & Hb & _ & _ & Hin). rewrite E1. rewrite shown_climb; auto; [|intros x Hx; apply Hin; auto].
      rewrite <- Eb. assert (E : b = mkBest sol sc). { unfold P_Climb3.scored in Hb. destruct b as [bs0 bc]. cbn in *. subst bs0. congruence. }
      rewrite E. reflexivity.
    - destruct (Ainf eq_refl) as (E1 & _ & E2). rewrite E2. cbn. subst sol. cbn in Hsc. injection Hsc as <-.
      unfold better. rewrite (score_le_not_lt score_infinite); auto. apply score_infinite_last. auto. }
  split; [|split; [|split; [|split]]].
  - constructor; cbn; auto.
    + destruct better; auto. apply (go_scored _ Hg).
    + destruct better eqn:EB; [apply Hfin; auto|apply (go_cand _ Hg)].
    + rewrite A1. destruct better eqn:EB.
      * right. cbn. split; auto. apply in_or_app. right. apply Hfin; auto.
      * destruct (go_in _ Hg) as [H0|[H0 H1]]; auto. right. split; auto. apply in_or_app. auto.
    + intros s c Hin Hc. rewrite A1 in Hin. apply in_app_or in Hin as [Hin|Hin].
      * pose proof (go_min _ Hg s c Hin Hc) as HL. destruct better eqn:EB; auto. cbn.
        apply (le_trans_mode (p_greedy P) _ (b_score (sg_best g))); auto using score_lt_le. eapply evaluate_mode; eauto.
      * pose proof (A6 s c sc Hin Hc Hsc) as HL. destruct better eqn:EB; auto.
        apply (le_trans_mode (p_greedy P) _ sc); auto; [eapply evaluate_mode; eauto|]. apply score_not_lt; auto.
  - eauto.
  - rewrite !fold_left_app. destruct (A5 (table g) eq_refl) as (E1 & E2 & _). pose proof (fold_best ev (table g)) as E3. cbn in E3. rewrite Hev in E3.
    destruct (fold_left apply_event ev (table g)) as [b it asg]. cbn in E1, E2, E3. subst b it asg.
    unfold table, g'. cbn. destruct better eqn:EB; cbn; auto.
    rewrite (score_le_not_lt sc sc); auto using score_le_refl.
  - destruct (A5 (table g) eq_refl) as (E1 & E2 & E3). apply (steady_app _ _ (table g)); auto. rewrite E1, E2. cbn. destruct better; cbn; split; auto; lia.
  - intros x Hx. rewrite !bests_app in Hx. apply in_app_or in Hx as [Hx|Hx].
    + destruct (score_finite fsc) eqn:EF.
      * destruct (Afin eq_refl) as (b & bs & E1 & _ & _ & _ & _ & _ & _ & Hin). rewrite E1 in Hx. destruct Hx as [<-|Hx]; [exact Ef|apply Hin; auto].
      * destruct (Ainf eq_refl) as (_ & _ & E2). rewrite E2 in Hx. destruct Hx.
    + destruct better; cbn in Hx; [|tauto]. destruct Hx as [<-|[]]. auto.
Qed.
Lemma iterate_ok tn number : forall g k g' ev, gun_ok g -> iterate pr P w deadline tn number g = Some (Ok (k, g', ev)) ->
  gun_ok g' /\ k <= number /\ (exists fs, hc_found (sg_climber g') = hc_found (sg_climber g) ++ fs) /\ fold_left apply_event ev (table g) = table g' /\
  steady (hc_assignments (sg_climber g)) (sg_iterations g) ev /\ (forall x, In x (bests ev) -> scored x).
Proof.
  induction number as [|number IH]; intros g k g' ev Hg H; cbn [iterate] in H.
  - injection H as <- <- <-. split; auto. split; auto. split; [exists []; rewrite app_nil_r; auto|]. cbn. split; auto. split; auto. tauto.
  - destruct (deadline && w_late w (sg_tick g)).
    { injection H as <- <- <-. split; [destruct Hg; constructor; auto|]. split; [lia|]. split; [exists []; rewrite app_nil_r; auto|]. split; [reflexivity|]. cbn. tauto. }
    apply bindo_ok in H as (n & En & H). destruct (nx_sched n) as [S|] eqn:ES.
    + destruct (next_feasible _ _ _ _ _ _ _ _ _ _ _ En ES) as [HL HFe]. pose proof (feasible_ok _ _ _ HF HW HL HFe) as HS.
      apply bindo_ok in H as ([[sol h] ev1] & Eh & H). apply bindo_ok in H as (sc & Es & H). injection Es as Es.
      apply bindo_ok in H as ([[k1 g1] ev2] & Ei & H). apply some_inj, ok_inj in H.
      destruct (iteration_ok tn S g sol h ev1 sc Hg HS Eh Es (nx_tick n) (sg_tick g + 1)) as (H1 & (fs & H2) & H3 & H4 & H5).
      apply IH in Ei as (I1 & I2 & (fs2 & I3) & I4 & I5 & I6); auto.
      assert (E : k = k1 + 1 /\ g' = g1 /\ ev = ev1 ++ (if score_lt sc (b_score (sg_best g)) then [EvBest sol sc] else []) ++ [EvIterations (sg_iterations g + 1)] ++ ev2) by (split; [|split]; congruence).
      destruct E as (-> & -> & ->). split; auto. split; [lia|]. split; [|split; [|split]].
      * exists (fs ++ fs2). rewrite I3. cbn [sg_climber]. rewrite H2, app_assoc. auto.
      * rewrite !app_assoc, fold_left_app, <- app_assoc, H3. auto.
      * rewrite !app_assoc. apply (steady_app _ _ (table g)); rewrite <- !app_assoc; auto. rewrite H3. exact I5.
      * intros x Hx. rewrite !app_assoc, bests_app, <- app_assoc in Hx. apply in_app_or in Hx as [Hx|Hx]; auto.
    + injection H as <- <- <-. split; [destruct Hg; constructor; auto|]. split; [lia|]. split; [exists []; rewrite app_nil_r; auto|]. split; [reflexivity|]. cbn. tauto.
Qed.
(** Whatever a worker holds as its best is invalid or a valid solution. *)
Lemma gun_best_valid g S A : gun_ok g -> b_sol (sg_best g) = SolComplete S A -> valid_solution d S A.
Proof.
  intros Hg E. destruct (go_in _ Hg) as [H|[_ Hf]]; [rewrite H in E; discriminate|].
  destruct (finite_valid pr (p_pow P) (p_greedy P) d (b_sol (sg_best g)) (b_score (sg_best g)) HF HW (go_cand _ Hg) (go_scored _ Hg) Hf) as (S' & A' & E' & HV).
  rewrite E in E'. injection E' as <- <-. auto.
Qed.
End Shotgun.
