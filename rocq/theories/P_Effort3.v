(** Proofs for C82: the counter of a worker. *)
From Verif Require Import Base M_Data M_Scoring M_Rng M_Critical M_Search M_Flow M_Climb P_Climb1 M_Effort Spec_Effort P_Effort P_Effort2.
From Coq Require Import Permutation Sorted.

Lemma lp_app a b : lp_reports (a ++ b) = lp_reports a ++ lp_reports b. Proof. apply flat_map_app. Qed.
Lemma asg_app a b : assignment_reports (a ++ b) = assignment_reports a ++ assignment_reports b. Proof. apply flat_map_app. Qed.
Lemma lp_lp l : lp_reports (map ToldLp l) = l. Proof. induction l; cbn; f_equal; auto. Qed.
Lemma asg_lp l : assignment_reports (map ToldLp l) = []. Proof. induction l; cbn; auto. Qed.
Lemma lp_deep (f : nat -> f32) l : lp_reports (map (fun x => ToldDepth (f x)) l) = []. Proof. induction l; cbn; auto. Qed.
Lemma asg_deep (f : nat -> f32) l : assignment_reports (map (fun x => ToldDepth (f x)) l) = []. Proof. induction l; cbn; auto. Qed.

Section Tally.
Context (B : nat).
(** Messages [e] lead from counts [(n, a)] to [(n', a')]. *)
Record counts (n a n' a' : nat) (e : list message) : Prop := {
  co_lp : lp_reports e = seq (n + 1) (n' - n) /\ n <= n';
  co_asg : assignment_reports e = seq (a + 1) (a' - a) /\ a <= a';
  co_bound : n' - n <= (a' - a) * B;
  co_prefix : forall x y, e = x ++ y -> length (lp_reports x) <= (length (assignment_reports x) + 1) * B
}.
Lemma counts_nil n a : counts n a n a [].
Proof.
  constructor; rewrite ?Nat.sub_diag; auto. intros x y E. destruct x; [cbn; lia|discriminate].
Qed.
Lemma counts_app n a n1 a1 n2 a2 e1 e2 : counts n a n1 a1 e1 -> counts n1 a1 n2 a2 e2 -> counts n a n2 a2 (e1 ++ e2).
Proof.
  intros [[L1 N1] [A1 M1] B1 P1] [[L2 N2] [A2 M2] B2 P2]. constructor.
  - rewrite lp_app, L1, L2. split; [|lia]. replace (n2 - n) with ((n1 - n) + (n2 - n1)) by lia. rewrite seq_app. f_equal. f_equal. lia.
  - rewrite asg_app, A1, A2. split; [|lia]. replace (a2 - a) with ((a1 - a) + (a2 - a1)) by lia. rewrite seq_app. f_equal. f_equal. lia.
  - replace (a2 - a) with ((a1 - a) + (a2 - a1)) by lia. nia.
  - intros x y E. destruct (Nat.le_gt_cases (length x) (length e1)) as [H|H].
    + apply (P1 x (skipn (length x) e1)). assert (X : firstn (length x) (e1 ++ e2) = x) by (rewrite E, firstn_app, Nat.sub_diag, firstn_all, firstn_O, app_nil_r; auto).
      rewrite firstn_app in X. replace (length x - length e1) with 0 in X by lia. rewrite firstn_O, app_nil_r in X. rewrite <- X at 1. symmetry. apply firstn_skipn.
    + assert (X : exists z, x = e1 ++ z /\ e2 = z ++ y).
      { exists (skipn (length e1) x). assert (X1 : firstn (length e1) x = e1).
        { assert (Y : firstn (length e1) (e1 ++ e2) = firstn (length e1) (x ++ y)) by (rewrite E; auto).
          rewrite firstn_app, Nat.sub_diag, firstn_all, firstn_O, app_nil_r, firstn_app in Y.
          replace (length e1 - length x) with 0 in Y by lia. rewrite firstn_O, app_nil_r in Y. auto. }
        assert (X2 : x = e1 ++ skipn (length e1) x) by (rewrite <- X1 at 1; symmetry; apply firstn_skipn).
        split; auto. rewrite X2, <- app_assoc in E at 1. apply app_inv_head in E. exact E. }
      destruct X as (z & -> & ->). rewrite lp_app, asg_app, !app_length, L1, A1, !seq_length. pose proof (P2 z y eq_refl). nia.
Qed.
Lemma counts_quiet n a e : lp_reports e = [] -> assignment_reports e = [] -> counts n a n a e.
Proof.
  intros H1 H2. constructor; rewrite ?Nat.sub_diag; auto. intros x y ->. rewrite lp_app in H1. apply app_eq_nil in H1 as [-> _]. cbn. lia.
Qed.
End Tally.

Section Worker.
Context (pr : profile) (P : problem) (w : world) (dl : bool).
Let d := p_input P.
Let B := if p_greedy P then 1 else Nat.log2 (candidates d (an_bound (p_analysis P))) + 1.
Hypothesis HS : StronglySorted N.lt (i_levels d).
Lemma sent_skip m ls : skipn (length (mt_sent m)) (mt_sent (after m ls)) = seq (mt_count m + 1) (length ls).
Proof. unfold after. cbn [mt_sent]. rewrite skipn_app, skipn_all, Nat.sub_diag. reflexivity. Qed.
Notation cnt h m h' m' e := (counts B (mt_count m) (hc_assignments h) (mt_count m') (hc_assignments h') e).
Lemma candidate_counts S h m sol h' m' e : solve_candidate_m pr P w dl S h m = Some (Ok (sol, h', m', e)) -> cnt h m h' m' e.
Proof.
  unfold solve_candidate_m. destruct (solve_until_m _ _ _ _ _ _ _ _ _ _ _ _) as [[[a m1]| |]|] eqn:E; cbn [bindo]; try discriminate.
  intros X. injection X as <- <- <- <-. destruct (until_meter _ _ _ _ _ _ _ _ _ _ _ _ _ _ E HS) as (ls & -> & _ & HG & HL & _).
  assert (HB : length ls <= B).
  { unfold B, d. destruct (p_greedy P); [exact (proj1 (HG eq_refl))|exact (proj1 (HL eq_refl))]. }
  rewrite sent_skip. cbn [hc_assignments mt_count after].
  set (k := length ls) in *. clearbody k. clear -HB. constructor.
  - rewrite lp_app, lp_lp. cbn. rewrite app_nil_r. split; [f_equal|]; lia.
  - rewrite asg_app, asg_lp. cbn. replace (hc_assignments h + 1 - hc_assignments h) with 1 by lia. split; [reflexivity|lia].
  - nia.
  - intros x y E. assert (length (lp_reports x) <= k); [|nia].
    assert (X : length (lp_reports x) + length (lp_reports y) = k).
    { rewrite <- app_length, <- lp_app, <- E, lp_app, lp_lp, app_length, seq_length. cbn. lia. }
    lia.
Qed.
Lemma explore_counts ns : forall b found h m ev al fo b' h' m' ev',
  explore_m pr P w dl ns b found h m ev = Some (Ok (al, fo, b', h', m', ev')) -> exists e, ev' = ev ++ e /\ cnt h m h' m' e.
Proof.
  induction ns as [|n ns IH]; intros b found h m ev al fo b' h' m' ev'; cbn [explore_m].
  - intros H. injection H as <- <- <- <- <- <-. exists []. rewrite app_nil_r. split; auto. apply counts_nil.
  - destruct (dl && _). { intros H. injection H as <- <- <- <- <- <-. exists []. rewrite app_nil_r. split; auto. apply counts_nil. }
    destruct (solve_candidate_m _ _ _ _ _ _ _) as [[[[[sol h1] m1] e]| |]|] eqn:E; cbn [bindo]; try discriminate.
    apply candidate_counts in E. destruct (score_of pr P sol) as [sc| |]; cbn [bindo]; try discriminate.
    destruct (score_lt sc (b_score b)); intros H; apply IH in H as (e2 & -> & H).
    + exists ((e ++ [Told (EvBest sol sc)]) ++ e2). split; [rewrite !app_assoc; auto|].
      eapply counts_app; [|exact H]. eapply counts_app; [exact E|]. apply counts_quiet; reflexivity.
    + exists (e ++ e2). split; [rewrite app_assoc; auto|]. eapply counts_app; eauto.
Qed.
Lemma climb_counts sw fuel : forall b h m ev b' h' m' ev',
  climb_m pr P w dl sw fuel b h m ev = Some (Ok (b', h', m', ev')) -> exists e, ev' = ev ++ e /\ cnt h m h' m' e.
Proof.
  induction fuel as [|fuel IH]; intros b h m ev b' h' m' ev'; cbn [climb_m]; [discriminate|].
  destruct (dl && _). { intros H. injection H as <- <- <- <-. exists []. rewrite app_nil_r. split; auto. apply counts_nil. }
  destruct (expect (sol_scheduling (b_sol b))) as [cur| |]; cbn [bindo]; try discriminate.
  destruct (pick_neighbors _ _ _ _ _ _ _) as [[nt| |]|]; cbn [bindo]; try discriminate.
  destruct (explore_m _ _ _ _ _ _ _ _ _ _) as [[[[[[[al fo] b1] h1] m1] ev1]| |]|] eqn:E; cbn [bindo]; try discriminate.
  apply explore_counts in E as (e & -> & E). cbn [hc_assignments at_tick] in E. destruct (al && fo).
  - intros H. apply IH in H as (e2 & -> & H). exists (e ++ e2). split; [rewrite app_assoc; auto|]. eapply counts_app; eauto.
  - intros H. injection H as <- <- <- <-. eauto.
Qed.
Lemma hill_counts tn S h m sol h' m' e : hill_solve_m pr P w dl tn S h m = Some (Ok (sol, h', m', e)) -> cnt h m h' m' e.
Proof.
  unfold hill_solve_m. destruct (solve_candidate_m _ _ _ _ _ _ _) as [[[[[sol1 h1] m1] e1]| |]|] eqn:E; cbn [bindo]; try discriminate.
  apply candidate_counts in E. destruct (score_of pr P sol1) as [sc| |]; cbn [bindo]; try discriminate.
  destruct (negb (score_finite sc)). { intros H. injection H as <- <- <- <-. auto. }
  destruct (climb_m _ _ _ _ _ _ _ _ _ _) as [[[[[b h2] m2] ev]| |]|] eqn:E2; cbn [bindo]; try discriminate.
  intros H. injection H as <- <- <- <-. apply climb_counts in E2 as (e2 & -> & E2).
  eapply counts_app; [|exact E2]. eapply counts_app; [exact E|]. apply counts_quiet; reflexivity.
Qed.
Lemma iterate_counts tn number : forall g m k g' m' e, iterate_m pr P w dl tn number g m = Some (Ok (k, g', m', e)) ->
  cnt (sg_climber g) m (sg_climber g') m' e.
Proof.
  induction number as [|number IH]; intros g m k g' m' e; cbn [iterate_m].
  { intros H. injection H as <- <- <- <-. apply counts_nil. }
  destruct (dl && _). { intros H. injection H as <- <- <- <-. apply counts_nil. }
  destruct (next_scheduling_m _ _ _ _ _ _ _ _ _) as [[[n ds]| |]|]; cbn [bindo]; try discriminate.
  destruct (nx_sched n) as [cur|].
  2:{ intros H. injection H as <- <- <- <-. cbn [sg_climber]. apply counts_quiet; [apply lp_deep|apply asg_deep]. }
  destruct (hill_solve_m _ _ _ _ _ _ _ _) as [[[[[sol h] m1] ev]| |]|] eqn:E; cbn [bindo]; try discriminate.
  apply hill_counts in E. destruct (score_of pr P sol) as [sc| |]; cbn [bindo]; try discriminate.
  match goal with |- context [iterate_m pr P w dl tn number ?g2 m1] => destruct (iterate_m pr P w dl tn number g2 m1) as [[[[[k2 g3] m2] ev2]| |]|] eqn:E2 end; cbn [bindo]; try discriminate.
  intros H. injection H as <- <- <- <-. apply IH in E2. cbn [sg_climber] in E2.
  eapply counts_app; [apply counts_quiet; [apply lp_deep|apply asg_deep]|]. eapply counts_app; [exact E|].
  eapply counts_app; [apply counts_quiet; destruct (score_lt _ _); reflexivity|].
  change (counts B (mt_count m1) (hc_assignments h) (mt_count m2) (hc_assignments (sg_climber g3)) ([Told (EvIterations (sg_iterations g + 1))] ++ ev2)).
  eapply counts_app; [apply counts_quiet; reflexivity|exact E2].
Qed.
End Worker.
Lemma worked_counts pr P w g m l : StronglySorted N.lt (i_levels (p_input P)) -> worked pr P w g m l ->
  counts (if p_greedy P then 1 else Nat.log2 (candidates (p_input P) (an_bound (p_analysis P))) + 1)
    0 0 (mt_count m) (hc_assignments (sg_climber g)) l.
Proof.
  intros HS H. induction H as [|g m l tn k g' m' l' H IH HI]; [apply counts_nil|].
  eapply counts_app; [exact IH|]. eapply (iterate_counts pr P w true HS); eauto.
Qed.

(** What is heard. *)
Lemma last_cons {A} (l : list A) : forall x y, List.last (x :: l) y = List.last l x.
Proof. induction l as [|z l IH]; intros x y; auto. change (List.last (z :: l) y = List.last (z :: l) x). rewrite !IH. auto. Qed.
Lemma hear_lp l : forall g, ga_lp (fold_left hear l g) = latest (lp_reports l) (ga_lp g).
Proof.
  induction l as [|x l IH]; intros g; cbn [fold_left]; auto. rewrite IH. destruct x; cbn [hear ga_lp]; auto.
  change (lp_reports (ToldLp n :: l)) with (n :: lp_reports l). unfold latest. rewrite last_cons. auto.
Qed.
Lemma hear_depth l : forall g, ga_depth (fold_left hear l g) = latest (depth_reports l) (ga_depth g).
Proof.
  induction l as [|x l IH]; intros g; cbn [fold_left]; auto. rewrite IH. destruct x; cbn [hear ga_depth]; auto.
  change (depth_reports (ToldDepth x :: l)) with (x :: depth_reports l). unfold latest. rewrite last_cons. auto.
Qed.
Lemma latest_seq n k : latest (seq (n + 1) k) n = n + k.
Proof.
  unfold latest. revert n. induction k as [|k IH]; intros n; [cbn; lia|]. cbn [seq]. rewrite last_cons, <- Nat.add_1_r, IH. lia.
Qed.
