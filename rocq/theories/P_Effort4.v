(** Proofs for C83: the depths. *)
From Verif Require Import Base M_Data M_Scoring M_Rng P_Rng M_Critical M_Search Spec_Search M_Flow M_Climb P_Climb1 P_Search3 Spec_Cost P_Cost M_Effort Spec_Effort P_Effort P_Effort3.
From Coq Require Import Permutation Sorted Floats.SpecFloat Reals Lra.
From Flocq Require Import Core BinarySingleNaN.

Lemma deep_app a b : depth_reports (a ++ b) = depth_reports a ++ depth_reports b. Proof. apply flat_map_app. Qed.
Lemma deep_deep (f : nat -> f32) l : depth_reports (map (fun x => ToldDepth (f x)) l) = map f l. Proof. induction l; cbn; f_equal; auto. Qed.
Lemma deep_lp l : depth_reports (map ToldLp l) = []. Proof. induction l; cbn; auto. Qed.

Section Search.
Context (pr : profile) (d : input_data) (o : oracle).
Lemma step_depth late sets order suffix m m' : step pr d o late sets order suffix m = Ok (Continue m') ->
  m_depth m < length order /\ m_depth m' <= length order.
Proof.
  unfold step. destruct (Nat.ltb_spec (m_depth m) (length order)) as [H|H].
  - destruct (late (m_tick m)); [discriminate|]. intros E. apply bind_ok in E as (c & _ & E). apply bind_ok in E as (st & _ & E).
    destruct st as [|bk rest]; [discriminate|]. destruct (negb _); [discriminate|]. split; auto. destruct bk as [|nx bk].
    + destruct (m_depth m) as [|dp]; [discriminate|]. apply bind_ok in E as (pv & _ & E). apply bind_ok in E as (s' & _ & E). injection E as <-. cbn. lia.
    + apply bind_ok in E as (s' & _ & E). injection E as <-. cbn. lia.
  - intros E. apply bind_ok in E as (r & _ & E). discriminate.
Qed.
Lemma run_depths late sets order suffix fuel : forall m r t ds, m_depth m <= length order ->
  run_m pr d o late sets order suffix fuel m = Some (Ok (r, t, ds)) -> forall x, In x ds -> x <= length order.
Proof.
  induction fuel as [|fuel IH]; intros m r t ds Hm; cbn [run_m]; [discriminate|].
  destruct (step pr d o late sets order suffix m) as [[m'|r1 t1]| |] eqn:E; try discriminate.
  - destruct (step_depth _ _ _ _ _ _ E) as [H1 H2].
    destruct (run_m pr d o late sets order suffix fuel m') as [[[[r1 t1] ds1]| |]|] eqn:E2; try discriminate.
    intros H x Hx. assert (ds = turn_depths order m (Continue m') ++ ds1) by congruence. subst ds.
    apply in_app_or in Hx as [Hx|Hx]; [|eapply IH; eauto]. unfold turn_depths in Hx. rewrite (proj2 (Nat.ltb_lt _ _) H1) in Hx.
    destruct Hx as [<-|[<-|[]]]; lia.
  - intros H x Hx. assert (ds = turn_depths order m (Done r1 t1)) by congruence. subst ds. unfold turn_depths in Hx.
    destruct (Nat.ltb_spec (m_depth m) (length order)); [destruct Hx as [<-|[]]; lia|destruct Hx].
Qed.
Hypothesis HF : fair o.
Lemma scramble_length t : length (choice_scramble d o t) = length (i_choices d).
Proof. pose proof (scramble_order d o t HF) as H. apply Permutation_length in H. rewrite seq_length in H. auto. Qed.
Lemma scheduling_depths late sets tick fuel r t ds : solve_scheduling_m pr d o late sets tick fuel = Some (Ok (r, t, ds)) ->
  forall x, In x ds -> x <= length (i_choices d).
Proof.
  unfold solve_scheduling_m. destruct (max_suffix _ _ _) as [sx| |]; try discriminate. intros H x Hx.
  rewrite <- (scramble_length tick). refine (run_depths _ _ _ _ _ _ _ _ _ _ H x Hx). cbn. lia.
Qed.
Lemma relax_depths a dl cst sfuel fuel : forall limit tick n ds, relax_m pr d o a dl cst sfuel fuel limit tick = Some (Ok (n, ds)) ->
  (forall x, In x ds -> x <= length (i_choices d)) /\ (nx_sched n <> None -> exists ds', ds = ds' ++ [length (i_choices d)]).
Proof.
  induction fuel as [|fuel IH]; intros limit tick n ds; cbn [relax_m]; [discriminate|].
  destruct (_ && _)%bool; [discriminate|].
  destruct (solve_scheduling_m pr d o _ _ tick sfuel) as [[[[r t] ds1]| |]|] eqn:E; try discriminate.
  pose proof (scheduling_depths _ _ _ _ _ _ _ E) as HD.
  destruct (result_slots r) as [|s0 sl].
  - destruct (limit =? i_max_pref d)%N. { intros H. injection H as <- <-. split; auto. cbn. congruence. }
    destruct (relax_m pr d o a dl cst sfuel fuel (preference_after d limit) t) as [[[n1 ds']| |]|] eqn:E2; try discriminate.
    destruct (IH _ _ _ _ E2) as [K1 K2]. intros H. injection H as <- <-. cbn [nx_sched]. split.
    + intros x Hx. apply in_app_or in Hx as [Hx|Hx]; auto.
    + intros Hn. destruct (K2 Hn) as (z & ->). exists (ds1 ++ z). rewrite app_assoc. auto.
  - intros H. injection H as H. apply bind_ok in H as (s & _ & H). injection H as <- <-. split; [|eauto].
    intros x Hx. apply in_app_or in Hx as [Hx|[<-|[]]]; auto.
Qed.
Lemma next_depths a dl cst sfuel fuel tick n ds : next_scheduling_m pr d o a dl cst sfuel fuel tick = Some (Ok (n, ds)) ->
  (forall x, In x ds -> x <= length (i_choices d)) /\ (nx_sched n <> None -> exists ds', ds = ds' ++ [length (i_choices d)]).
Proof. unfold next_scheduling_m. destruct (next_in_range _ _ _ _); try discriminate. apply relax_depths. Qed.
End Search.

Section Worker.
Context (pr : profile) (P : problem) (w : world) (dl : bool).
Let d := p_input P.
Lemma candidate_deep S h m sol h' m' e : solve_candidate_m pr P w dl S h m = Some (Ok (sol, h', m', e)) -> depth_reports e = [].
Proof.
  unfold solve_candidate_m. destruct (solve_until_m _ _ _ _ _ _ _ _ _ _ _ _) as [[[a m1]| |]|]; cbn [bindo]; try discriminate.
  intros X. injection X as <- <- <- <-. rewrite deep_app, deep_lp. reflexivity.
Qed.
Lemma explore_deep ns : forall b found h m ev al fo b' h' m' ev',
  explore_m pr P w dl ns b found h m ev = Some (Ok (al, fo, b', h', m', ev')) -> depth_reports ev' = depth_reports ev.
Proof.
  induction ns as [|n ns IH]; intros b found h m ev al fo b' h' m' ev'; cbn [explore_m].
  - intros H. injection H as <- <- <- <- <- <-. auto.
  - destruct (dl && _). { intros H. injection H as <- <- <- <- <- <-. auto. }
    destruct (solve_candidate_m _ _ _ _ _ _ _) as [[[[[sol h1] m1] e]| |]|] eqn:E; cbn [bindo]; try discriminate.
    apply candidate_deep in E. destruct (score_of pr P sol) as [sc| |]; cbn [bindo]; try discriminate.
    destruct (score_lt sc (b_score b)); intros H; apply IH in H; rewrite H, !deep_app, E; cbn; rewrite app_nil_r; auto.
Qed.
Lemma climb_deep sw fuel : forall b h m ev b' h' m' ev',
  climb_m pr P w dl sw fuel b h m ev = Some (Ok (b', h', m', ev')) -> depth_reports ev' = depth_reports ev.
Proof.
  induction fuel as [|fuel IH]; intros b h m ev b' h' m' ev'; cbn [climb_m]; [discriminate|].
  destruct (dl && _). { intros H. injection H as <- <- <- <-. auto. }
  destruct (expect (sol_scheduling (b_sol b))) as [cur| |]; cbn [bindo]; try discriminate.
  destruct (pick_neighbors _ _ _ _ _ _ _) as [[nt| |]|]; cbn [bindo]; try discriminate.
  destruct (explore_m _ _ _ _ _ _ _ _ _ _) as [[[[[[[al fo] b1] h1] m1] ev1]| |]|] eqn:E; cbn [bindo]; try discriminate.
  apply explore_deep in E. destruct (al && fo).
  - intros H. apply IH in H. congruence.
  - intros H. injection H as <- <- <- <-. auto.
Qed.
Lemma hill_deep tn S h m sol h' m' e : hill_solve_m pr P w dl tn S h m = Some (Ok (sol, h', m', e)) -> depth_reports e = [].
Proof.
  unfold hill_solve_m. destruct (solve_candidate_m _ _ _ _ _ _ _) as [[[[[sol1 h1] m1] e1]| |]|] eqn:E; cbn [bindo]; try discriminate.
  apply candidate_deep in E. destruct (score_of pr P sol1) as [sc| |]; cbn [bindo]; try discriminate.
  destruct (negb (score_finite sc)). { intros H. injection H as <- <- <- <-. auto. }
  destruct (climb_m _ _ _ _ _ _ _ _ _ _) as [[[[[b h2] m2] ev]| |]|] eqn:E2; cbn [bindo]; try discriminate.
  intros H. injection H as <- <- <- <-. apply climb_deep in E2. rewrite E2, deep_app, E. reflexivity.
Qed.
Hypothesis HF : fair (w_sched w).
Lemma iterate_deep tn number : forall g m k g' m' e, iterate_m pr P w dl tn number g m = Some (Ok (k, g', m', e)) ->
  exists ds, depth_reports e = map depth_value ds /\ forall x, In x ds -> x <= length (i_choices d).
Proof.
  induction number as [|number IH]; intros g m k g' m' e; cbn [iterate_m].
  { intros H. injection H as <- <- <- <-. exists []. split; auto. intros x []. }
  destruct (dl && _). { intros H. injection H as <- <- <- <-. exists []. split; auto. intros x []. }
  destruct (next_scheduling_m _ _ _ _ _ _ _ _ _) as [[[n ds]| |]|] eqn:EN; cbn [bindo]; try discriminate.
  destruct (next_depths _ _ _ HF _ _ _ _ _ _ _ _ EN) as [HD _].
  destruct (nx_sched n) as [cur|].
  2:{ intros H. injection H as <- <- <- <-. exists ds. split; auto. apply deep_deep. }
  destruct (hill_solve_m _ _ _ _ _ _ _ _) as [[[[[sol h] m1] ev]| |]|] eqn:E; cbn [bindo]; try discriminate.
  apply hill_deep in E. destruct (score_of pr P sol) as [sc| |]; cbn [bindo]; try discriminate.
  match goal with |- context [iterate_m pr P w dl tn number ?g2 m1] => destruct (iterate_m pr P w dl tn number g2 m1) as [[[[[k2 g3] m2] ev2]| |]|] eqn:E2 end; cbn [bindo]; try discriminate.
  intros H. injection H as <- <- <- <-. apply IH in E2 as (ds2 & E2 & H2). exists (ds ++ ds2). split.
  - rewrite !deep_app, deep_deep, E. cbn [app]. rewrite map_app. f_equal. change (depth_reports (Told (EvIterations (sg_iterations g + 1)) :: ev2)) with (depth_reports ev2).
    destruct (score_lt _ _); exact E2.
  - intros x Hx. apply in_app_or in Hx as [Hx|Hx]; auto.
Qed.
Lemma iteration_deep tn g m g' m' e : iterate_m pr P w dl tn 1 g m = Some (Ok (1, g', m', e)) ->
  exists ds, depth_reports e = map depth_value (ds ++ [length (i_choices d)]).
Proof.
  cbn [iterate_m]. destruct (dl && _); [discriminate|].
  destruct (next_scheduling_m _ _ _ _ _ _ _ _ _) as [[[n ds]| |]|] eqn:EN; cbn [bindo]; try discriminate.
  destruct (next_depths _ _ _ HF _ _ _ _ _ _ _ _ EN) as [_ HD].
  destruct (nx_sched n) as [cur|]; [|discriminate].
  destruct (hill_solve_m _ _ _ _ _ _ _ _) as [[[[[sol h] m1] ev]| |]|] eqn:E; cbn [bindo]; try discriminate.
  apply hill_deep in E. destruct (score_of pr P sol) as [sc| |]; cbn [bindo]; try discriminate.
  intros H. injection H as <- <- <-. destruct (HD ltac:(discriminate)) as (ds' & ->). exists ds'.
  rewrite !deep_app, deep_deep, E. cbn [app]. destruct (score_lt _ _); cbn; rewrite app_nil_r; auto.
Qed.
End Worker.
Lemma worked_deep pr P w g m l : fair (w_sched w) -> worked pr P w g m l ->
  exists ds, depth_reports l = map depth_value ds /\ forall x, In x ds -> x <= length (i_choices (p_input P)).
Proof.
  intros HF H. induction H as [|g m l tn k g' m' l' H IH HI]; [exists []; split; auto; intros x []|].
  destruct IH as (ds & E & K). apply (iterate_deep _ _ _ _ HF) in HI as (ds' & E' & K'). exists (ds ++ ds').
  rewrite deep_app, E, E', map_app. split; auto. intros x Hx. apply in_app_or in Hx as [Hx|Hx]; auto.
Qed.
Lemma heard_deep pr P w g m l rest : fair (w_sched w) -> worked pr P w g m (l ++ rest) ->
  exists n, ga_depth (heard l) = depth_value n /\ n <= length (i_choices (p_input P)).
Proof.
  intros HF H. destruct (worked_deep _ _ _ _ _ _ HF H) as (ds & E & K). rewrite deep_app in E.
  assert (X : exists ds1, depth_reports l = map depth_value ds1 /\ forall x, In x ds1 -> x <= length (i_choices (p_input P))).
  { clear -E K. revert ds E K. induction (depth_reports l) as [|v r IH]; intros ds E K; [exists []; split; auto; intros x []|].
    destruct ds as [|x ds]; [discriminate|]. cbn in E. injection E as -> E. destruct (IH ds E) as (ds1 & -> & K1); [intros y Hy; apply K; right; auto|].
    exists (x :: ds1). split; auto. intros y [<-|Hy]; auto. apply K. left; auto. }
  destruct X as (ds1 & X & K1). unfold heard. rewrite hear_depth, X. unfold latest. destruct (exists_last (l := 0 :: ds1) ltac:(discriminate)) as (a & y & Ha).
  assert (G : List.last (map depth_value ds1) f32_zero = depth_value y /\ y <= length (i_choices (p_input P))).
  { destruct (list_eq_dec Nat.eq_dec ds1 []) as [->|Hn].
    - destruct a as [|? [|? ?]]; try discriminate. cbn in Ha. injection Ha as <-. split; [reflexivity|lia].
    - destruct (exists_last Hn) as (b & z & ->). assert (z = y). { change (0 :: b ++ [z]) with ((0 :: b) ++ [z]) in Ha. apply app_inj_tail in Ha. tauto. } subst z.
      rewrite map_app. cbn [map]. rewrite last_last. split; auto. apply K1. apply in_or_app. right. left; auto. }
  exists y. exact G.
Qed.

(** ** Sums and mean *)
Local Open Scope R_scope.
Local Existing Instance Hprec.
Local Existing Instance Hmax.
Lemma int_round z : (0 <= z <= 16777216)%Z -> rnd (IZR z) = IZR z.
Proof.
  intros Hz. apply round_generic; [apply valid_rnd_N|]. apply generic_format_FLT.
  destruct (Z.eq_dec z 16777216) as [->|Hn].
  - exists (Float radix2 8388608 1); cbn; try lia. unfold F2R; cbn. lra.
  - exists (Float radix2 z 0); cbn; try lia. unfold F2R; cbn. lra.
Qed.
Lemma small_lt z : (0 <= z <= 16777216)%Z -> Rabs (IZR z) < bpow radix2 128.
Proof.
  intros Hz. rewrite Rabs_pos_eq by (apply IZR_le; lia). apply Rle_lt_trans with (IZR 16777216); [apply IZR_le; lia|].
  change 16777216%Z with (Zpower radix2 24). rewrite IZR_Zpower by lia. apply bpow_lt. lia.
Qed.
Lemma add_int (x y : B) a b : is_finite x = true -> is_finite y = true -> B2R x = IZR a -> B2R y = IZR b -> (0 <= a)%Z -> (0 <= b)%Z -> (a + b <= 16777216)%Z ->
  exists z : B, f32_add (B2SF x) (B2SF y) = B2SF z /\ is_finite z = true /\ B2R z = IZR (a + b).
Proof.
  intros Fx Fy Hx Hy Ha Hb Hab. exists (Bplus mode_NE x y). split; [apply add_equiv|].
  pose proof (Bplus_correct 24 128 Hprec Hmax mode_NE x y Fx Fy) as C. rewrite Hx, Hy, <- plus_IZR in C.
  change (round radix2 (SpecFloat.fexp 24 128) (round_mode mode_NE) (IZR (a + b))) with (rnd (IZR (a + b))) in C.
  rewrite int_round in C by lia. rewrite Rlt_bool_true in C by (apply small_lt; lia). tauto.
Qed.
Lemma depth_B n : (N.of_nat n <= 65535)%N -> exists b : B, B2SF b = depth_value n /\ is_finite b = true /\ B2R b = IZR (Z.of_nat n).
Proof.
  intros H. unfold depth_value. rewrite (proj2 (N.leb_le _ _) H). destruct (of_N_exact (N.of_nat n) ltac:(lia)) as (b & E & V).
  exists b. split; auto. rewrite V. split; [|f_equal; lia].
  rewrite <- B_fin, E. unfold f32_of_N, f32_of_Z, prec32, emax32. rewrite nat_N_Z, normalize_equiv, B_fin.
  pose proof (binary_normalize_correct 24 128 Hprec Hmax mode_NE (Z.of_nat n) 0 false) as C. cbn zeta in C.
  assert (E' : F2R (Float radix2 (Z.of_nat n) 0) = IZR (Z.of_nat n)) by (unfold F2R; cbn; lra). rewrite E' in C.
  change (round radix2 (SpecFloat.fexp 24 128) (round_mode mode_NE) (IZR (Z.of_nat n))) with (rnd (IZR (Z.of_nat n))) in C.
  rewrite int_round in C by lia. rewrite Rlt_bool_true in C by (apply small_lt; lia). apply C.
Qed.
Lemma sum_depths D : (N.of_nat D <= 65535)%N -> forall (gs : list gauge) (x : B) z,
  (forall g, In g gs -> exists n, ga_depth g = depth_value n /\ (n <= D)%nat) -> is_finite x = true -> B2R x = IZR z -> (0 <= z)%Z ->
  (z + Z.of_nat (length gs) * Z.of_nat D <= 16777216)%Z ->
  exists (y : B) s, fold_left (fun x g => f32_add x (ga_depth g)) gs (B2SF x) = B2SF y /\ is_finite y = true /\ B2R y = IZR s /\
    (z <= s <= z + Z.of_nat (length gs) * Z.of_nat D)%Z.
Proof.
  intros HD. induction gs as [|g gs IH]; intros x z HG Fx Hx Hz Hs; cbn [fold_left].
  - exists x, z. cbn. repeat split; auto; lia.
  - cbn [length] in Hs. destruct (HG g (or_introl eq_refl)) as (n & En & Hn). destruct (depth_B n ltac:(lia)) as (b & Eb & Fb & Vb).
    rewrite En, <- Eb. destruct (add_int x b z (Z.of_nat n) Fx Fb Hx Vb Hz ltac:(lia) ltac:(nia)) as (y & -> & Fy & Vy).
    destruct (IH y (z + Z.of_nat n)%Z ltac:(intros g' Hg'; apply HG; right; auto) Fy Vy ltac:(lia) ltac:(lia)) as (y' & s & E & F & V & K).
    exists y', s. repeat split; auto; cbn [length]; lia.
Qed.
Lemma mean_depth D (gs : list gauge) : (N.of_nat D <= 65535)%N -> (N.of_nat (length gs) <= 65535)%N -> (N.of_nat (length gs) * N.of_nat D <= 16777216)%N ->
  (forall g, In g gs -> exists n, ga_depth g = depth_value n /\ (n <= D)%nat) ->
  is_fin (shown_depth gs) = true /\ 0 <= f32_value (shown_depth gs) <= INR D.
Proof.
  intros HD HL HP HG. unfold shown_depth. set (n := Nat.max (length gs) 1). assert (Hn : (1 <= n)%nat /\ (N.of_nat n <= 65535)%N) by (unfold n; lia).
  destruct (depth_B n (proj2 Hn)) as (b & Eb & Fb & Vb). rewrite <- Eb.
  destruct (sum_depths D HD gs (B754_zero false) 0 HG eq_refl eq_refl ltac:(lia) ltac:(lia)) as (y & s & E & F & V & K).
  change (B2SF (B754_zero false)) with f32_zero in E. rewrite E.
  assert (Nz : B2R b <> 0) by (rewrite Vb; apply not_0_IZR; lia).
  pose proof (Bdiv_correct 24 128 Hprec Hmax mode_NE y b Nz) as C. rewrite V, Vb in C.
  change (round radix2 (SpecFloat.fexp 24 128) (round_mode mode_NE)) with rnd in C.
  assert (Q : 0 <= IZR s / IZR (Z.of_nat n) <= IZR (Z.of_nat D)).
  { assert (0 < IZR (Z.of_nat n)) by (apply IZR_lt; lia). split.
    - apply Rmult_le_pos; [apply IZR_le; lia|]. apply Rlt_le, Rinv_0_lt_compat; auto.
    - apply Rmult_le_reg_r with (IZR (Z.of_nat n)); auto. unfold Rdiv. rewrite Rmult_assoc, Rinv_l, Rmult_1_r by lra.
      rewrite <- mult_IZR. apply IZR_le. unfold n. nia. }
  assert (R1 : 0 <= rnd (IZR s / IZR (Z.of_nat n))) by (apply rnd_nonneg; tauto).
  assert (R2 : rnd (IZR s / IZR (Z.of_nat n)) <= IZR (Z.of_nat D)).
  { rewrite <- (int_round (Z.of_nat D)) by lia. apply round_le; [apply FLT_exp_valid; exact eq_refl|apply valid_rnd_N|tauto]. }
  rewrite Rlt_bool_true in C.
  2:{ rewrite Rabs_pos_eq by auto. apply Rle_lt_trans with (IZR (Z.of_nat D)); auto. pose proof (small_lt (Z.of_nat D) ltac:(lia)) as X. rewrite Rabs_pos_eq in X by (apply IZR_le; lia). auto. }
  destruct C as (C1 & C2 & _). rewrite div_equiv, B_fin, B_val, C1, C2. split; auto. rewrite INR_IZR_INZ. auto.
Qed.
