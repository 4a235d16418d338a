(** The session: workers in any order, the join, the progress reports. *)
From Verif Require Import Base M_Data Spec M_Scoring P_Scoring P_Feasible P_Score M_Rng P_Rng M_Critical M_Search M_Flow Spec_Calls P_Flow7
  M_Climb M_Threads Spec_Climb Spec_Threads P_Climb1 P_Climb2 P_Climb3 P_Climb4.

(** Choosing the first best. *)
Section Shown.
Context (g : bool).
Notation mode b := (in_mode g (b_score b)).
Lemma keep_mode a b : mode a -> mode b -> mode (keep a b).
Proof. unfold keep. destruct (score_lt (b_score b) (b_score a)); auto. Qed.
Lemma shown_ok l : forall b, mode b -> (forall x, In x l -> mode x) ->
  mode (shown b l) /\ (shown b l = b \/ In (shown b l) l /\ score_lt (b_score (shown b l)) (b_score b) = true) /\
  score_le (b_score (shown b l)) (b_score b) /\ forall x, In x l -> score_le (b_score (shown b l)) (b_score x).
Proof.
  induction l as [|y l IH]; intros b Hb Hl; cbn [shown fold_left].
  - split; auto. split; auto. split; [apply score_le_refl|]. intros x [].
  - assert (Hy : mode y) by (apply Hl; left; auto). assert (Hl' : forall x, In x l -> mode x) by (intros; apply Hl; right; auto).
    destruct (IH (keep b y) (keep_mode _ _ Hb Hy) Hl') as (H1 & H2 & H3 & H4). fold (shown (keep b y) l) in *.
    assert (K1 : score_le (b_score (keep b y)) (b_score b)) by (unfold keep; destruct (score_lt (b_score y) (b_score b)) eqn:E; auto using score_lt_le, score_le_refl).
    assert (K2 : score_le (b_score (keep b y)) (b_score y)) by (unfold keep; destruct (score_lt (b_score y) (b_score b)) eqn:E; auto using score_not_lt, score_le_refl).
    split; auto. split; [|split].
    + destruct H2 as [H2|[H2 H5]].
      * rewrite H2. unfold keep. destruct (score_lt (b_score y) (b_score b)) eqn:E; auto. right. split; [left|]; auto.
      * right. split; [right; auto|]. eapply (lt_le_mode g _ (b_score (keep b y))); eauto using keep_mode.
    + eapply (le_trans_mode g _ (b_score (keep b y))); eauto using keep_mode.
    + intros x [<-|Hx]; auto. eapply (le_trans_mode g _ (b_score (keep b y))); eauto using keep_mode.
Qed.
(** Better entries give a better choice. *)
Lemma shown_mono l l' b : mode b -> (forall x, In x l -> mode x) -> (forall x, In x l' -> mode x) ->
  (forall x, In x l -> exists x', In x' l' /\ score_le (b_score x') (b_score x)) -> score_le (b_score (shown b l')) (b_score (shown b l)).
Proof.
  intros Hb Hl Hl' H. destruct (shown_ok l b Hb Hl) as (A1 & A2 & A3 & A4). destruct (shown_ok l' b Hb Hl') as (B1 & B2 & B3 & B4).
  destruct A2 as [->|[Hin _]]; auto. destruct (H _ Hin) as (x' & Hx' & Hle). eapply (le_trans_mode g _ (b_score x')); eauto.
Qed.
End Shown.

(** Joining. *)
Lemma join_fold wks : forall b b', mfold join_one wks b = Ok b' ->
  (forall wk, In wk wks -> wk_pc wk = WDone) /\ b' = shown b (map (fun wk => sg_best (wk_gun wk)) wks).
Proof.
  induction wks as [|wk wks IH]; intros b b' H; cbn [mfold] in H.
  - injection H as <-. split; auto. intros wk [].
  - apply bind_ok in H as (b1 & E & H). apply IH in H as [H1 ->]. unfold join_one in E. destruct (wk_pc wk) eqn:EP; try discriminate. injection E as <-.
    split; [intros x [<-|Hx]; auto|reflexivity].
Qed.
Lemma join_done wks : (forall wk, In wk wks -> wk_pc wk = WDone) -> forall b, mfold join_one wks b = Ok (shown b (map (fun wk => sg_best (wk_gun wk)) wks)).
Proof.
  induction wks as [|wk wks IH]; intros H b; cbn [mfold map]; auto. unfold join_one at 1. rewrite (H wk (or_introl eq_refl)). cbn [bind].
  rewrite IH by (intros; apply H; right; auto). reflexivity.
Qed.
Lemma wait_ok s sol : wait s = Ok sol -> (forall wk, In wk (se_workers s) -> wk_pc wk = WDone) /\
  sol = b_sol (shown no_best (map (fun wk => sg_best (wk_gun wk)) (se_workers s))).
Proof. unfold wait, join_all. destruct (mfold join_one _ _) as [b| |] eqn:E; try discriminate. intros H. injection H as <-. apply join_fold in E as [H ->]. auto. Qed.

(** Progress reports. *)
Lemma sent_app i a b : sent i (a ++ b) = sent i a ++ sent i b.
Proof. unfold sent. rewrite filter_app, map_app. auto. Qed.
Lemma drain_app tps a b : drain tps (a ++ b) = drain (drain tps a) b.
Proof. unfold drain. apply fold_left_app. Qed.
Lemma drain_nth log : forall tps i, nth_error (drain tps log) i = option_map (fold_left apply_event (sent i log)) (nth_error tps i).
Proof.
  induction log as [|[j e] log IH]; intros tps i; [cbn; destruct (nth_error tps i); auto|].
  change (drain tps ((j, e) :: log)) with (drain (match nth_error tps j with Some p => upd tps j (apply_event p e) | None => tps end) log).
  rewrite IH. unfold sent. cbn [filter fst]. destruct (nth_error tps j) as [p|] eqn:E.
  - destruct (Nat.eqb_spec j i) as [->|Hne].
    + rewrite nth_error_upd_same by (apply nth_error_Some; congruence). rewrite E. reflexivity.
    + rewrite nth_error_upd_other by auto. reflexivity.
  - destruct (Nat.eqb_spec j i) as [->|Hne]; auto. rewrite E. reflexivity.
Qed.
Lemma drain_length tps log : length (drain tps log) = length tps.
Proof.
  revert tps; induction log as [|[j e] log IH]; intros tps; auto.
  change (drain tps ((j, e) :: log)) with (drain (match nth_error tps j with Some p => upd tps j (apply_event p e) | None => tps end) log).
  rewrite IH. destruct (nth_error tps j); auto. apply upd_length.
Qed.
Lemma aggregate_gen tps : forall a,
  let r := fold_left (fun a p => mkTP (if score_lt (b_score (tp_best p)) (b_score (tp_best a)) then tp_best p else tp_best a)
                             (tp_iterations a + tp_iterations p) (tp_assignments a + tp_assignments p)) tps a in
  tp_best r = shown (tp_best a) (map tp_best tps) /\ tp_iterations r = tp_iterations a + list_sum (map tp_iterations tps) /\
  tp_assignments r = tp_assignments a + list_sum (map tp_assignments tps).
Proof.
  induction tps as [|p tps IH]; intros a; cbn [fold_left map list_sum fold_right shown]; [cbn; split; [auto|split; lia]|].
  destruct (IH (mkTP (if score_lt (b_score (tp_best p)) (b_score (tp_best a)) then tp_best p else tp_best a)
                             (tp_iterations a + tp_iterations p) (tp_assignments a + tp_assignments p))) as (H1 & H2 & H3).
  cbn zeta. rewrite H1, H2, H3. cbn [tp_best tp_iterations tp_assignments]. split; [reflexivity|]. unfold list_sum. lia.
Qed.
Lemma aggregate_ok tps : aggregate tps = mkTP (shown no_best (map tp_best tps)) (list_sum (map tp_iterations tps)) (list_sum (map tp_assignments tps)).
Proof.
  destruct (aggregate_gen tps empty_progress) as (H1 & H2 & H3). fold (aggregate tps) in *. destruct (aggregate tps) as [b i a].
  cbn in H1, H2, H3. subst. reflexivity.
Qed.
Lemma polls_nth chunks : forall tps k p, nth_error (polls tps chunks) k = Some p ->
  p = aggregate (drain tps (concat (firstn (Datatypes.S k) chunks))).
Proof.
  induction chunks as [|c cs IH]; intros tps k p H; [destruct k; discriminate|]. cbn [polls] in H. destruct k as [|k].
  - cbn in H. injection H as <-. cbn. rewrite app_nil_r. auto.
  - cbn [nth_error] in H. apply IH in H as ->. cbn [firstn concat]. rewrite drain_app. reflexivity.
Qed.


Section Session.
Context (pr : profile) (P : problem) (ws : nat -> world) (threads : nat).
Let d := p_input P.
Context (HF : fits d) (HW : wf_input d) (HFair : forall i, fair (w_hill (ws i))).
Notation scored := (scored pr P).

Record worker_ok (wk : worker) : Prop := {
  wo_gun : gun_ok pr P (wk_gun wk);
  wo_table : fold_left apply_event (wk_events wk) empty_progress = table (wk_gun wk);
  wo_steady : steady 0 0 (wk_events wk);
  wo_scored : forall x, In x (bests (wk_events wk)) -> scored x
}.
Definition session_ok (s : session) : Prop := length (se_workers s) = num_threads P threads /\ forall wk, In wk (se_workers s) -> worker_ok wk.
Lemma new_worker_ok : worker_ok new_worker.
Proof. constructor; cbn; auto using new_gun_ok; tauto. Qed.
Lemma start_ok : session_ok (start P threads).
Proof. split; [apply repeat_length|]. intros wk H. apply repeat_spec in H. subst. apply new_worker_ok. Qed.
Lemma wmove_ok w flag wk ls wk' : fair (w_hill w) -> worker_ok wk -> wmove pr P w flag wk ls wk' -> worker_ok wk'.
Proof.
  intros Hf H M. destruct M as [| |g ev tn k g' ev' E| | | |]; try (destruct H; constructor; auto; fail).
  destruct H as [H1 H2 H3 H4]. cbn [wk_gun wk_events] in *. destruct (iterate_ok pr P w true HF HW Hf _ _ _ _ _ _ H1 E) as (I1 & _ & _ & I2 & I3 & I4).
  constructor; cbn [wk_gun wk_events]; auto.
  - rewrite fold_left_app, H2. auto.
  - apply (steady_app _ _ empty_progress); auto. rewrite H2. auto.
  - intros x Hx. rewrite bests_app in Hx. apply in_app_or in Hx as [Hx|Hx]; auto.
Qed.
Lemma in_upd {A} (l : list A) i x y : In y (upd l i x) -> y = x \/ In y l.
Proof. revert i; induction l as [|z l IH]; intros [|i]; cbn; auto; intros [H|H]; auto. apply IH in H as [->|H]; auto. Qed.
Lemma move_ok s l s' : session_ok s -> move pr P ws s l s' -> session_ok s'.
Proof.
  intros [H1 H2] M. destruct M as [s i wk ls wk' E M|s]; [|split; auto]. split; cbn; [rewrite upd_length; auto|].
  intros x Hx. apply in_upd in Hx as [->|Hx]; auto. eapply wmove_ok; eauto. apply H2. eapply nth_error_In; eauto.
Qed.
Lemma moves_ok s tr s' : moves pr P ws s tr s' -> session_ok s -> session_ok s'.
Proof. induction 1; eauto using move_ok. Qed.
Lemma session_reach tr s : moves pr P ws (start P threads) tr s -> session_ok s.
Proof. intros M. eapply moves_ok; eauto using start_ok. Qed.

Notation guns s := (map (fun wk => sg_best (wk_gun wk)) (se_workers s)).
Lemma no_best_mode g : in_mode g (b_score no_best). Proof. apply infinite_mode. Qed.
Lemma gun_mode s x : session_ok s -> In x (guns s) -> in_mode (p_greedy P) (b_score x).
Proof. intros [_ H] Hx. apply in_map_iff in Hx as (wk & <- & Hwk). apply (scored_mode pr), (go_scored _ _ _ (wo_gun _ (H wk Hwk))). Qed.
Lemma scored_no_best : scored no_best. Proof. reflexivity. Qed.

(** The result. *)
Lemma result_ok s sol : session_ok s -> wait s = Ok sol ->
  let b := shown no_best (guns s) in sol = b_sol b /\ scored b /\
  (b = no_best \/ score_finite (b_score b) = true /\ exists wk, In wk (se_workers s) /\ In sol (hc_found (sg_climber (wk_gun wk))) /\ gun_ok pr P (wk_gun wk) /\ b = sg_best (wk_gun wk)) /\
  (forall wk c sc, In wk (se_workers s) -> In c (hc_found (sg_climber (wk_gun wk))) -> score_of pr P c = Ok sc -> score_le (b_score b) sc).
Proof.
  intros Hs HWt b. apply wait_ok in HWt as [HD ->]. pose proof (gun_mode s) as GM.
  destruct (shown_ok (p_greedy P) (guns s) no_best (no_best_mode _) (fun x Hx => GM x Hs Hx)) as (A1 & A2 & A3 & A4). fold b in A1, A2, A3, A4. fold b. split; [reflexivity|]. clearbody b. destruct Hs as [HL HOk].
  assert (HSc : scored b). { destruct A2 as [->|[Hin _]]; [apply scored_no_best|]. apply in_map_iff in Hin as (wk & <- & Hwk). apply (go_scored _ _ _ (wo_gun _ (HOk wk Hwk))). }
  split; auto. split.
  - destruct A2 as [->|[Hin Hlt]]; auto. right. split; [eapply score_lt_finite; eauto|]. apply in_map_iff in Hin as (wk & Eb & Hwk). exists wk. split; auto.
    pose proof (wo_gun _ (HOk wk Hwk)) as HG. split; auto. rewrite <- Eb. destruct (go_in _ _ _ HG) as [F|[F _]]; auto.
    rewrite <- Eb, F in Hlt. discriminate.
  - intros wk c sc Hwk Hc Hsc. pose proof (wo_gun _ (HOk wk Hwk)) as HG.
    apply (le_trans_mode (p_greedy P) _ (b_score (sg_best (wk_gun wk)))); auto.
    + apply (GM _ (conj HL HOk)). apply in_map_iff. eauto.
    + eapply evaluate_mode; eauto.
    + apply A4. apply in_map_iff. eauto.
    + eapply go_min; eauto.
Qed.

(** Reports. *)
Lemma apply_mono es : forall p, in_mode (p_greedy P) (b_score (tp_best p)) -> (forall x, In x (bests es) -> scored x) -> steady (tp_assignments p) (tp_iterations p) es ->
  let q := fold_left apply_event es p in
  in_mode (p_greedy P) (b_score (tp_best q)) /\ score_le (b_score (tp_best q)) (b_score (tp_best p)) /\ tp_iterations p <= tp_iterations q /\ tp_assignments p <= tp_assignments q.
Proof.
  intros p Hp Hs Hst q. pose proof (fold_best es p) as E. fold q in E. rewrite E.
  destruct (shown_ok (p_greedy P) (bests es) (tp_best p) Hp (fun x Hx => scored_mode pr P x (Hs x Hx))) as (A1 & _ & A3 & _).
  split; auto. split; auto. clear - Hst. subst q. revert p Hst. induction es as [|e es IH]; intros p H; auto. cbn [fold_left].
  destruct e as [s c|n|n]; cbn [steady] in H.
  - assert (E : tp_assignments (apply_event p (EvBest s c)) = tp_assignments p /\ tp_iterations (apply_event p (EvBest s c)) = tp_iterations p).
    { cbn. destruct (score_lt c (b_score (tp_best p))); auto. }
    destruct E as [E1 E2]. destruct (IH (apply_event p (EvBest s c))); [rewrite E1, E2; auto|]. lia.
  - destruct H as [H1 H2]. destruct (IH (apply_event p (EvIterations n)) H2). cbn [apply_event tp_iterations tp_assignments] in *. split; lia.
  - destruct H as [H1 H2]. destruct (IH (apply_event p (EvAssignments n)) H2). cbn [apply_event tp_iterations tp_assignments] in *. split; lia.
Qed.
Lemma steady_split a b : forall p, steady (tp_assignments p) (tp_iterations p) (a ++ b) ->
  steady (tp_assignments p) (tp_iterations p) a /\
  steady (tp_assignments (fold_left apply_event a p)) (tp_iterations (fold_left apply_event a p)) b.
Proof.
  induction a as [|e a IH]; intros p H; cbn [app fold_left steady] in *; auto. destruct e as [s c|n|n]; cbn [steady] in *.
  - assert (E : tp_assignments (apply_event p (EvBest s c)) = tp_assignments p /\ tp_iterations (apply_event p (EvBest s c)) = tp_iterations p).
    { cbn. destruct (score_lt c (b_score (tp_best p))); auto. }
    destruct E as [E1 E2]. rewrite <- E1, <- E2 in H. apply IH in H. rewrite E1, E2 in H. auto.
  - destruct H as [H1 H2]. apply (IH (apply_event p (EvIterations n))) in H2. cbn in H2. tauto.
  - destruct H as [H1 H2]. apply (IH (apply_event p (EvAssignments n))) in H2. cbn in H2. tauto.
Qed.
Lemma drained_nth s log i p : nth_error (drain (empties s) log) i = Some p ->
  p = fold_left apply_event (sent i log) empty_progress /\ exists wk, nth_error (se_workers s) i = Some wk.
Proof.
  intros H. assert (Hi : i < length (se_workers s)).
  { assert (i < length (drain (empties s) log)) by (apply nth_error_Some; congruence). rewrite drain_length in H0. unfold empties in H0. rewrite repeat_length in H0. auto. }
  rewrite drain_nth in H. unfold empties in H. rewrite nth_error_repeat in H by auto. injection H as <-. split; auto.
  destruct (nth_error (se_workers s) i) eqn:E; eauto. apply nth_error_None in E. lia.
Qed.
Lemma drained_mono s a b i p : session_ok s -> from_workers s (a ++ b) -> nth_error (drain (empties s) a) i = Some p ->
  exists q, nth_error (drain (empties s) (a ++ b)) i = Some q /\ in_mode (p_greedy P) (b_score (tp_best p)) /\ in_mode (p_greedy P) (b_score (tp_best q)) /\
   score_le (b_score (tp_best q)) (b_score (tp_best p)) /\ tp_iterations p <= tp_iterations q /\ tp_assignments p <= tp_assignments q /\ scored (tp_best q).
Proof.
  intros [_ Hs] Hlog H. destruct (drained_nth _ _ _ _ H) as [E [wk Ewk]]. destruct (Hlog i wk Ewk) as [rest Er]. pose proof (Hs wk (nth_error_In _ _ Ewk)) as HO.
  rewrite sent_app, <- app_assoc in Er.
  pose proof (wo_steady _ HO) as H1. rewrite Er in H1. apply (steady_split _ _ empty_progress) in H1 as [S1 S2]. rewrite <- E in S2.
  apply (steady_split _ _ p) in S2 as [S2 _]. pose proof (wo_scored _ HO) as H2. rewrite Er, !bests_app in H2.
  destruct (apply_mono (sent i a) empty_progress (no_best_mode _) ltac:(intros; apply H2; apply in_or_app; auto) S1) as (M1 & _). rewrite <- E in M1.
  destruct (apply_mono (sent i b) p M1 ltac:(intros; apply H2; apply in_or_app; right; apply in_or_app; auto) S2) as (M2 & M3 & M4 & M5).
  exists (fold_left apply_event (sent i b) p). split; [rewrite drain_app, drain_nth, H; auto|]. repeat (split; auto).
  rewrite E, <- fold_left_app, fold_best, bests_app.
  destruct (shown_ok (p_greedy P) (bests (sent i a) ++ bests (sent i b)) (tp_best empty_progress) (no_best_mode _)) as (_ & K & _).
  { intros x Hx. apply (scored_mode pr), H2. apply in_app_or in Hx as [Hx|Hx]; apply in_or_app; auto. right. apply in_or_app. auto. }
  destruct K as [->|[K _]]; [apply scored_no_best|]. apply H2. apply in_app_or in K as [K|K]; apply in_or_app; auto. right. apply in_or_app. auto.
Qed.
Lemma sums_mono (f : tprogress -> nat) : forall l l', length l = length l' -> (forall i p, nth_error l i = Some p -> exists q, nth_error l' i = Some q /\ f p <= f q) ->
  list_sum (map f l) <= list_sum (map f l').
Proof.
  induction l as [|p l IH]; intros [|q l'] HL H; cbn in HL; try discriminate; [cbn; auto|]. destruct (H 0 p eq_refl) as (q' & E & Hle). injection E as <-.
  assert (HI : list_sum (map f l) <= list_sum (map f l')) by (apply IH; auto; intros i x Hx; apply (H (Datatypes.S i)); auto).
  cbn in *. unfold list_sum in HI. lia.
Qed.
Lemma report_mono s a b : session_ok s -> from_workers s (a ++ b) ->
  let p := aggregate (drain (empties s) a) in let q := aggregate (drain (empties s) (a ++ b)) in
  score_le (b_score (tp_best q)) (b_score (tp_best p)) /\ tp_iterations p <= tp_iterations q /\ tp_assignments p <= tp_assignments q /\ scored (tp_best q).
Proof.
  intros Hs Hlog p q. unfold p, q. rewrite !aggregate_ok. cbn [tp_best tp_iterations tp_assignments].
  assert (HL : length (drain (empties s) a) = length (drain (empties s) (a ++ b))) by (rewrite !drain_length; auto).
  pose proof (fun i p => drained_mono s a b i p Hs Hlog) as HM.
  assert (HQ : forall x, In x (map tp_best (drain (empties s) (a ++ b))) -> scored x).
  { intros x Hx. apply in_map_iff in Hx as (t & <- & Ht). apply In_nth_error in Ht as [i Hi].
    destruct (nth_error (drain (empties s) a) i) as [t'|] eqn:E; [|apply nth_error_None in E; assert (i < length (drain (empties s) (a ++ b))) by (apply nth_error_Some; congruence); lia].
    destruct (HM i t' E) as (t2 & E2 & _ & _ & _ & _ & _ & HSc). rewrite Hi in E2. injection E2 as <-. auto. }
  split; [|split; [|split]].
  - apply (shown_mono (p_greedy P)); auto using no_best_mode.
    + intros x Hx. apply in_map_iff in Hx as (t & <- & Ht). apply In_nth_error in Ht as [i Hi]. destruct (HM i t Hi) as (t2 & _ & M & _). auto.
    + intros x Hx. apply (scored_mode pr). auto.
    + intros x Hx. apply in_map_iff in Hx as (t & <- & Ht). apply In_nth_error in Ht as [i Hi]. destruct (HM i t Hi) as (t2 & E2 & _ & _ & Hle & _). exists (tp_best t2). split; auto.
      apply in_map. eapply nth_error_In; eauto.
  - apply sums_mono; auto. intros i t Hi. destruct (HM i t Hi) as (t2 & E2 & _ & _ & _ & H1 & _). eauto.
  - apply sums_mono; auto. intros i t Hi. destruct (HM i t Hi) as (t2 & E2 & _ & _ & _ & _ & H1 & _). eauto.
  - destruct (shown_ok (p_greedy P) (map tp_best (drain (empties s) (a ++ b))) no_best (no_best_mode _)) as (_ & K & _); [intros x Hx; apply (scored_mode pr); auto|].
    destruct K as [->|[K _]]; [apply scored_no_best|auto].
Qed.
(** Everything received. *)
Lemma report_final s log : session_ok s -> (forall i wk, nth_error (se_workers s) i = Some wk -> sent i log = wk_events wk) ->
  aggregate (drain (empties s) log) =
  mkTP (shown no_best (guns s)) (list_sum (map (fun wk => sg_iterations (wk_gun wk)) (se_workers s)))
       (list_sum (map (fun wk => hc_assignments (sg_climber (wk_gun wk))) (se_workers s))).
Proof.
  intros [_ Hs] H. rewrite aggregate_ok.
  assert (E : drain (empties s) log = map (fun wk => table (wk_gun wk)) (se_workers s)).
  { apply P_Search3.nth_error_ext. intros i. rewrite drain_nth, nth_error_map. unfold empties. destruct (nth_error (se_workers s) i) as [wk|] eqn:Ewk.
    - rewrite nth_error_repeat by (apply nth_error_Some; congruence). cbn. f_equal. rewrite (H i wk Ewk). apply (wo_table _ (Hs wk (nth_error_In _ _ Ewk))).
    - apply nth_error_None in Ewk. assert (E : nth_error (repeat empty_progress (length (se_workers s))) i = None) by (apply nth_error_None; rewrite repeat_length; auto). rewrite E. auto. }
  rewrite E, !map_map. reflexivity.
Qed.
End Session.
