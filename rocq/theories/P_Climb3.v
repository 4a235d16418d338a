(** The climb: it never loses ground, and everything it reports is sound. *)
From Verif Require Import Base M_Data Spec M_Scoring P_Scoring P_Feasible P_Score M_Rng P_Rng M_Critical M_Search M_Flow Spec_Calls P_Flow7
  M_Climb M_Threads Spec_Climb Spec_Threads P_Climb1 P_Climb2.
From Coq Require Import Permutation.

Lemma bests_app a b : bests (a ++ b) = bests a ++ bests b.
Proof. unfold bests. apply flat_map_app. Qed.
Lemma last_cons {A} (l : list A) x d : last (x :: l) d = last l x.
Proof.
  revert x d; induction l as [|y l IH]; intros x d; auto. rewrite IH. change (last (x :: y :: l) d) with (last (y :: l) d). apply IH.
Qed.
Lemma last_app {A} (l m : list A) d : last (l ++ m) d = last m (last l d).
Proof. revert d; induction l as [|y l IH]; intros d; auto. change ((y :: l) ++ m) with (y :: (l ++ m)). rewrite !last_cons. apply IH. Qed.
(** Counters never fall from [a] (assignments) and [it] (iterations). *)
Fixpoint steady (a it : nat) (es : list event) : Prop :=
  match es with
  | [] => True
  | EvBest _ _ :: t => steady a it t
  | EvIterations n :: t => it <= n /\ steady a n t
  | EvAssignments n :: t => a <= n /\ steady n it t
  end.
Lemma steady_app es es' : forall tp, steady (tp_assignments tp) (tp_iterations tp) es ->
  steady (tp_assignments (fold_left apply_event es tp)) (tp_iterations (fold_left apply_event es tp)) es' ->
  steady (tp_assignments tp) (tp_iterations tp) (es ++ es').
Proof.
  induction es as [|e es IH]; intros tp; cbn [app fold_left steady]; auto. destruct e as [s c|n|n]; cbn [steady].
  - intros H1 H2. assert (E : tp_assignments (apply_event tp (EvBest s c)) = tp_assignments tp /\ tp_iterations (apply_event tp (EvBest s c)) = tp_iterations tp).
    { cbn. destruct (score_lt c (b_score (tp_best tp))); auto. }
    destruct E as [E1 E2]. rewrite <- E1, <- E2. apply IH; auto. rewrite E1, E2. auto.
  - intros [H0 H1] H2. split; auto. apply (IH (apply_event tp (EvIterations n))); auto.
  - intros [H0 H1] H2. split; auto. apply (IH (apply_event tp (EvAssignments n))); auto.
Qed.
(** The counters that a list of events leaves behind. *)
Definition counts (a a' : nat) (es : list event) : Prop := forall tp, tp_assignments tp = a ->
  tp_assignments (fold_left apply_event es tp) = a' /\ tp_iterations (fold_left apply_event es tp) = tp_iterations tp /\ steady a (tp_iterations tp) es.
Lemma counts_nil a : counts a a []. Proof. intros tp H. cbn. auto. Qed.
Lemma counts_app a b c l m : counts a b l -> counts b c m -> counts a c (l ++ m).
Proof.
  intros H1 H2 tp H. rewrite fold_left_app. destruct (H1 tp H) as (E1 & E2 & E3). destruct (H2 _ E1) as (E4 & E5 & E6). split; [|split]; try congruence.
  rewrite <- H in *. apply steady_app; auto. rewrite E1. auto.
Qed.
Lemma counts_best a s c : counts a a [EvBest s c].
Proof. intros tp H. cbn. destruct (score_lt c (b_score (tp_best tp))); auto. Qed.
(** Each entry is better than the one before; the first better than [x]. *)
Fixpoint descending (x : score) (l : list best) : Prop :=
  match l with
  | [] => True
  | b :: t => score_lt (b_score b) x = true /\ descending (b_score b) t
  end.
Lemma descending_app x l m d : b_score d = x -> (descending x (l ++ m) <-> descending x l /\ descending (b_score (last l d)) m).
Proof.
  revert x d; induction l as [|b l IH]; intros x d <-; [cbn; tauto|]. cbn [app descending]. rewrite last_cons. rewrite (IH _ b eq_refl). tauto.
Qed.

Section Climb.
Context (pr : profile) (P : problem) (w : world) (deadline : bool).
Let d := p_input P.
Context (HF : fits d) (HW : wf_input d) (HFair : fair (w_hill w)).

Definition scored (b : best) : Prop := score_of pr P (b_sol b) = Ok (b_score b).
Lemma scored_mode b : scored b -> in_mode (p_greedy P) (b_score b).
Proof. apply evaluate_mode. Qed.
Definition climber_ok (h : climber) : Prop := cache_rows d (hc_solver h) /\ forall sol, In sol (hc_found h) -> cand_ok d sol.

(** From best [b], climber [h], events [ev] to [b'], [h'], [ev']. *)
Record climbed (b : best) (h : climber) (ev : list event) (b' : best) (h' : climber) (ev' : list event) (fs : list solution) (es : list event) : Prop := {
  cd_found : hc_found h' = hc_found h ++ fs;
  cd_events : ev' = ev ++ es;
  cd_ok : climber_ok h';
  cd_desc : descending (b_score b) (bests es);
  cd_last : b' = last (bests es) b;
  cd_in : forall x, In x (bests es) -> In (b_sol x) fs /\ scored x;
  cd_scored : scored b';
  cd_counts : counts (hc_assignments h) (hc_assignments h') es;
  cd_min : forall sol sc, In sol fs -> score_of pr P sol = Ok sc -> score_le (b_score b') sc
}.
Lemma descending_le x l d0 : (forall b, In b l -> scored b) -> scored d0 -> b_score d0 = x -> descending x l -> score_le (b_score (last l d0)) x.
Proof.
  revert x d0; induction l as [|b l IH]; intros x d0 HS H0 <- HD; [apply score_le_refl|].
  destruct HD as [H1 H2]. rewrite last_cons. assert (Hb : scored b) by (apply HS; left; auto).
  assert (HL : scored (last l b)).
  { clear - Hb HS. assert (G : forall y, In y l -> scored y) by (intros; apply HS; right; auto). clear HS. revert b Hb.
    induction l as [|y l IH]; intros b Hb; auto. rewrite last_cons. apply IH; [intros; apply G; right; auto|apply G; left; auto]. }
  eapply (le_trans_mode (p_greedy P) _ (b_score b)); eauto using scored_mode, score_lt_le.
  apply IH; auto. intros; apply HS; right; auto.
Qed.
Lemma climbed_le b h ev b' h' ev' fs es : scored b -> climbed b h ev b' h' ev' fs es -> score_le (b_score b') (b_score b).
Proof. intros Hb H. rewrite (cd_last _ _ _ _ _ _ _ _ H). apply descending_le; auto; [intros x Hx; eapply cd_in; eauto|eapply cd_desc; eauto]. Qed.
Lemma climbed_refl b h ev : scored b -> climber_ok h -> climbed b h ev b h ev [] [].
Proof. intros Hb Hh. constructor; cbn; auto using counts_nil; try (rewrite app_nil_r; auto); intros; contradiction. Qed.
Lemma climbed_trans b h ev b1 h1 ev1 fs1 es1 b2 h2 ev2 fs2 es2 : scored b ->
  climbed b h ev b1 h1 ev1 fs1 es1 -> climbed b1 h1 ev1 b2 h2 ev2 fs2 es2 -> climbed b h ev b2 h2 ev2 (fs1 ++ fs2) (es1 ++ es2).
Proof.
  intros Hb H1 H2. pose proof (climbed_le _ _ _ _ _ _ _ _ (cd_scored _ _ _ _ _ _ _ _ H1) H2) as HLe.
  destruct H1 as [A1 A2 A3 A4 A5 A6 A7 A8' A8], H2 as [B1 B2 B3 B4 B5 B6 B7 B8' B8]. constructor; eauto using counts_app.
  - rewrite B1, A1, app_assoc. auto.
  - rewrite B2, A2, app_assoc. auto.
  - rewrite bests_app, (descending_app _ _ _ b eq_refl), <- A5. auto.
  - rewrite bests_app, last_app, <- A5. auto.
  - intros x Hx. rewrite bests_app in Hx. apply in_app_or in Hx as [Hx|Hx]; [destruct (A6 x Hx)|destruct (B6 x Hx)]; split; auto; apply in_or_app; auto.
  - intros sol sc Hs Hsc. apply in_app_or in Hs as [Hs|Hs]; [|eauto].
    eapply (le_trans_mode (p_greedy P) _ (b_score b1)); eauto using scored_mode. eapply evaluate_mode; eauto.
Qed.

Lemma candidate_ok n h sol h' e : climber_ok h -> sched_ok d n -> solve_candidate pr P w deadline n h = Some (Ok (sol, h', e)) ->
  climber_ok h' /\ hc_found h' = hc_found h ++ [sol] /\ cand_ok d sol /\ sol_scheduling sol = Some n /\ bests [e] = [] /\ hc_tick h' = hc_tick h /\ counts (hc_assignments h) (hc_assignments h') [e].
Proof.
  intros [HC HFo] Hn H. unfold solve_candidate in H. apply bindo_ok in H as (a & Ea & H). apply some_inj, ok_inj in H.
  apply until_rows in Ea as [HC' HA]; auto.
  assert (E1 : sol = new_solution n (ar_result a)) by congruence.
  assert (E2 : h' = mkClimber (ar_solver a) (hc_tick h) (ar_tick a) (hc_assignments h + 1) (hc_found h ++ [sol])) by congruence.
  assert (E3 : e = EvAssignments (hc_assignments h + 1)) by congruence.
  assert (G : cand_ok d sol). { rewrite E1. destruct (ar_result a) as [A|] eqn:EA; cbn; auto. }
  subst h' e. cbn. split.
  - split; auto. cbn. intros s Hs. apply in_app_or in Hs as [Hs|[<-|[]]]; auto.
  - split; auto. split; auto. split; [subst sol; destruct (ar_result a); auto|]. split; auto. split; auto. intros tp Htp. cbn. repeat split; auto. lia.
Qed.

Lemma climber_ok_tick h t : climber_ok h -> climber_ok (at_tick h t). Proof. auto. Qed.
Lemma explore_ok ns : forall b found h ev all found' b' h' ev', scored b -> climber_ok h -> (forall n, In n ns -> sched_ok d n) ->
  explore pr P w deadline ns b found h ev = Some (Ok (all, found', b', h', ev')) ->
  exists fs es, climbed b h ev b' h' ev' fs es /\ (found' = found || negb (length (bests es) =? 0)) /\
    (all = true -> map sol_scheduling fs = map Some ns) /\ (deadline = false -> all = true).
Proof.
  induction ns as [|n ns IH]; intros b found h ev all found' b' h' ev' Hb Hh Hns H; cbn [explore] in H.
  - apply some_inj, ok_inj in H. assert (E : b' = b /\ h' = h /\ ev' = ev /\ found' = found /\ all = true) by (split; [|split; [|split; [|split]]]; congruence).
    destruct E as (-> & -> & -> & -> & ->). exists [], []. split; [apply climbed_refl; auto|]. cbn. rewrite orb_false_r. auto.
  - destruct (deadline && o_late (w_hill w) (hc_tick h)) eqn:ED.
    + apply some_inj, ok_inj in H.
      assert (E : b' = b /\ h' = at_tick h (hc_tick h + 1) /\ ev' = ev /\ found' = found /\ all = false) by (split; [|split; [|split; [|split]]]; congruence).
      destruct E as (-> & -> & -> & -> & ->). exists [], []. split; [|split; [cbn; rewrite orb_false_r; auto|split; [discriminate|intros F; rewrite F in ED; discriminate]]].
      constructor; cbn; auto using counts_nil; try (rewrite app_nil_r; auto); intros; contradiction.
    + apply bindo_ok in H as ([[sol h1] e] & Ec & H). apply candidate_ok in Ec as (Hh1 & Hf1 & Hc1 & Hs1 & He & _ & Hct); auto using climber_ok_tick; [|apply Hns; left; auto].
      apply bindo_ok in H as (sc & Es & H). injection Es as Es. cbn [hc_found at_tick] in Hf1.
      assert (Hns' : forall m, In m ns -> sched_ok d m) by (intros; apply Hns; right; auto).
      destruct (score_lt sc (b_score b)) eqn:EL.
      * assert (HX : climbed b h ev (mkBest sol sc) h1 (ev ++ [e; EvBest sol sc]) [sol] [e; EvBest sol sc]).
        { assert (EB : bests [e; EvBest sol sc] = [mkBest sol sc]) by (change [e; EvBest sol sc] with ([e] ++ [EvBest sol sc]); rewrite bests_app, He; auto).
          constructor; auto; rewrite ?EB; cbn [descending last b_sol b_score In]; auto.
          - intros x [<-|[]]. cbn. split; [auto|exact Es].
          - apply (counts_app _ _ _ [e] [EvBest sol sc] Hct), counts_best.
          - intros s c [<-|[]] Hsc. assert (c = sc) by congruence. subst. apply score_le_refl. }
        apply IH in H as (fs & es & HC & Hfd & Hall & Hdl); auto.
        exists ([sol] ++ fs), ([e; EvBest sol sc] ++ es). split; [eapply climbed_trans; eauto|].
        split; [|split; auto; cbn; intros Ha; rewrite Hs1, (Hall Ha); auto].
        rewrite Hfd. assert (EB : bests ([e; EvBest sol sc] ++ es) = mkBest sol sc :: bests es).
        { rewrite bests_app. change [e; EvBest sol sc] with ([e] ++ [EvBest sol sc]). rewrite bests_app, He. auto. }
        rewrite EB. cbn. rewrite orb_true_r. auto.
      * assert (HX : climbed b h ev b h1 (ev ++ [e]) [sol] [e]).
        { constructor; auto; rewrite ?He; cbn [descending last b_sol b_score In]; auto; [intros; contradiction|].
          intros s c [<-|[]] Hsc. assert (c = sc) by congruence. subst. apply score_not_lt. auto. }
        apply IH in H as (fs & es & HC & Hfd & Hall & Hdl); auto.
        exists ([sol] ++ fs), ([e] ++ es). split; [eapply climbed_trans; eauto|].
        split; [|split; auto; cbn; intros Ha; rewrite Hs1, (Hall Ha); auto]. rewrite bests_app, He. auto.
Qed.

Lemma scored_finite_sched b : scored b -> score_finite (b_score b) = true -> cand_ok d (b_sol b) -> exists S, sol_scheduling (b_sol b) = Some S /\ sched_ok d S.
Proof.
  intros Hb Hf Hc. unfold scored in Hb. destruct (b_sol b) as [|x|x A]; try (cbn in Hb; injection Hb as E; rewrite <- E in Hf; discriminate).
  exists x. split; auto. apply Hc.
Qed.
Lemma last_in_or {A} (l : list A) x : last l x = x \/ In (last l x) l.
Proof. revert x; induction l as [|y l IH]; intros x; auto. rewrite last_cons. right. destruct (IH y) as [->|H]; [left|right]; auto. Qed.
Lemma climbed_best b h ev b' h' ev' fs es : climber_ok h -> climbed b h ev b' h' ev' fs es -> cand_ok d (b_sol b) -> score_finite (b_score b) = true -> scored b ->
  cand_ok d (b_sol b') /\ score_finite (b_score b') = true.
Proof.
  intros Hh HC Hc Hf Hs. split.
  - rewrite (cd_last _ _ _ _ _ _ _ _ HC). destruct (last_in_or (bests es) b) as [->|Hin]; auto.
    apply (cd_in _ _ _ _ _ _ _ _ HC) in Hin as [Hin _]. apply (cd_ok _ _ _ _ _ _ _ _ HC). rewrite (cd_found _ _ _ _ _ _ _ _ HC). apply in_or_app. auto.
  - eapply score_le_finite; eauto. eapply climbed_le; eauto.
Qed.

(** One round of the climb. *)
Lemma round_ok sw b h ev S ns t all found b' h' ev' : scored b -> score_finite (b_score b) = true -> cand_ok d (b_sol b) -> climber_ok h ->
  sol_scheduling (b_sol b) = Some S ->
  pick_neighbors pr d (w_hill w) sw (p_max_neighbors P) S (hc_tick h + 1) = Some (Ok (ns, t)) ->
  explore pr P w deadline ns b false (at_tick h t) ev = Some (Ok (all, found, b', h', ev')) ->
  exists fs es, climbed b h ev b' h' ev' fs es /\ found = negb (length (bests es) =? 0) /\ (all = true -> map sol_scheduling fs = map Some ns) /\ (deadline = false -> all = true).
Proof.
  intros Hb Hf Hc Hh HS HP HE. destruct (scored_finite_sched b Hb Hf Hc) as (S' & ES & HS'). rewrite HS in ES. injection ES as <-.
  destruct (pick_neighbors_ok _ _ _ _ _ _ _ _ _ HFair (proj1 HS') HP) as (Hn & _).
  apply explore_ok in HE as (fs & es & HC & H1 & H2 & H3); auto; [|intros n Hx; eapply is_neighbor_ok; eauto].
  exists fs, es. split; auto. destruct HC. constructor; auto.
Qed.
Lemma climb_ok sw fuel : forall b h ev b' h' ev', scored b -> score_finite (b_score b) = true -> cand_ok d (b_sol b) -> climber_ok h ->
  climb pr P w deadline sw fuel b h ev = Some (Ok (b', h', ev')) ->
  exists fs es, climbed b h ev b' h' ev' fs es /\
    (deadline = false -> exists S ns t h1 fs1 fs2, sol_scheduling (b_sol b') = Some S /\ fs = fs1 ++ fs2 /\
       pick_neighbors pr d (w_hill w) sw (p_max_neighbors P) S (hc_tick h1 + 1) = Some (Ok (ns, t)) /\ map sol_scheduling fs2 = map Some ns).
Proof.
  induction fuel as [|fuel IH]; intros b h ev b' h' ev' Hb Hf Hc Hh H; cbn [climb] in H; [discriminate|].
  destruct (deadline && o_late (w_hill w) (hc_tick h)) eqn:ED.
  - apply some_inj, ok_inj in H. assert (E : b' = b /\ h' = at_tick h (hc_tick h + 1) /\ ev' = ev) by (split; [|split]; congruence).
    destruct E as (-> & -> & ->). exists [], []. split; [|intros F; rewrite F in ED; discriminate].
    constructor; cbn; auto using counts_nil; try (rewrite app_nil_r; auto); intros; contradiction.
  - apply bindo_ok in H as (S & ES & H). injection ES as ES.
    assert (ES' : sol_scheduling (b_sol b) = Some S) by (destruct (sol_scheduling (b_sol b)); cbn in ES; congruence).
    apply bindo_ok in H as ([ns t] & EN & H). cbn [fst snd] in H. apply bindo_ok in H as ([[[[all found] b1] h1] ev1] & EE & H).
    destruct (round_ok _ _ _ _ _ _ _ _ _ _ _ _ Hb Hf Hc Hh ES' EN EE) as (fs & es & HC & Hfd & Hall & Hdl).
    destruct (climbed_best _ _ _ _ _ _ _ _ Hh HC Hc Hf Hb) as [Hc1 Hf1].
    destruct (all && found) eqn:EA.
    + apply IH in H as (fs2 & es2 & HC2 & HD); eauto using cd_scored, cd_ok.
      exists (fs ++ fs2), (es ++ es2). split; [eapply climbed_trans; eauto|]. intros F.
      destruct (HD F) as (S1 & ns1 & t1 & h2 & g1 & g2 & X1 & X2 & X3 & X4).
      exists S1, ns1, t1, h2, (fs ++ g1), g2. rewrite <- app_assoc, <- X2. auto.
    + apply some_inj, ok_inj in H. assert (E : b' = b1 /\ h' = h1 /\ ev' = ev1) by (split; [|split]; congruence).
      destruct E as (-> & -> & ->). exists fs, es. split; auto. intros F. rewrite (Hdl F) in EA. cbn [andb] in EA. rewrite Hfd in EA.
      apply negb_false_iff, Nat.eqb_eq in EA. pose proof (cd_last _ _ _ _ _ _ _ _ HC) as EL. destruct (bests es); [|discriminate]. cbn in EL. subst b1.
      exists S, ns, t, h, [], fs. repeat (split; auto).
Qed.

(** [HillClimbingSolver::solve]. *)
Record hill_done (S : scheduling) (h : climber) (sol : solution) (h' : climber) (ev : list event) (first : solution) (rest : list solution) : Prop := {
  hd_found : hc_found h' = hc_found h ++ first :: rest;
  hd_ok : climber_ok h';
  hd_start : exists h1 e, solve_candidate pr P w deadline S h = Some (Ok (first, h1, e));
  hd_first : sol_scheduling first = Some S;
  hd_first_score : exists sc, score_of pr P first = Ok sc /\ (score_finite sc = false -> sol = SolInvalid /\ rest = [] /\ bests ev = []) /\
    (score_finite sc = true -> exists b bs, bests ev = mkBest first sc :: bs /\ descending sc bs /\ b = last bs (mkBest first sc) /\ sol = b_sol b /\ scored b /\ cand_ok d sol /\
       score_finite (b_score b) = true /\ (forall x, In x bs -> In (b_sol x) rest /\ scored x));
  hd_counts : counts (hc_assignments h) (hc_assignments h') ev;
  hd_min : forall c sc sc', In c (first :: rest) -> score_of pr P c = Ok sc -> score_of pr P sol = Ok sc' -> score_le sc' sc
}.
Lemma hill_solve_ok tn S h sol h' ev : climber_ok h -> sched_ok d S -> hill_solve pr P w deadline tn S h = Some (Ok (sol, h', ev)) ->
  exists first rest, hill_done S h sol h' ev first rest.
Proof.
  intros Hh HS H. unfold hill_solve in H. apply bindo_ok in H as ([[first h1] e] & Ec & H).
  pose proof Ec as Ec0. apply candidate_ok in Ec as (Hh1 & Hf1 & Hc1 & Hs1 & He & _ & Hct); auto. apply bindo_ok in H as (sc & Es & H). injection Es as Es.
  exists first. destruct (score_finite sc) eqn:EF; cbn [negb] in H.
  - apply bindo_ok in H as ([[b h2] ev2] & EC & H). apply some_inj, ok_inj in H.
    assert (E : sol = b_sol b /\ h' = h2 /\ ev = ev2) by (split; [|split]; congruence). destruct E as (-> & -> & ->).
    apply climb_ok in EC as (fs & es & HC & _); auto. destruct HC as [A1 A2 A3 A4 A5 A6 A7 A8' A8].
    assert (HC : climbed (mkBest first sc) h1 [e; EvBest first sc] b h2 ev2 fs es) by (constructor; auto).
    destruct (climbed_best _ _ _ _ _ _ _ _ Hh1 HC Hc1 EF Es) as [Hcb Hfb].
    exists fs. constructor; eauto.
    + rewrite A1, Hf1, <- app_assoc. auto.
    + exists sc. split; auto. split; [congruence|]. intros _. exists b, (bests es). split.
      { rewrite A2, bests_app. change [e; EvBest first sc] with ([e] ++ [EvBest first sc]). rewrite bests_app, He. auto. }
      cbn [b_score] in A4. repeat (split; auto).
    + rewrite A2. apply (counts_app _ (hc_assignments h1)); auto. apply (counts_app _ _ _ [e] [EvBest first sc] Hct), counts_best.
    + intros c x x' [<-|Hin] Hx Hx'.
      * assert (x = sc) by congruence. assert (x' = b_score b) by (unfold scored in A7; congruence). subst. 
        apply (climbed_le (mkBest first sc) _ _ _ _ _ _ _ Es HC).
      * assert (x' = b_score b) by (unfold scored in A7; congruence). subst. eauto.
  - apply some_inj, ok_inj in H. assert (E : sol = SolInvalid /\ h' = h1 /\ ev = [e]) by (split; [|split]; congruence). destruct E as (-> & -> & ->).
    exists []. constructor; eauto.
    + exists sc. split; auto. split; auto. congruence.
    + intros c x x' [<-|[]] Hx Hx'. assert (x = sc) by congruence. subst. apply score_infinite_last; auto.
Qed.
End Climb.
