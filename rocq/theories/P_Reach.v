(** What a session tries comes from the search and from neighbours. *)
From Verif Require Import Base M_Data Spec M_Scoring P_Scoring P_Feasible P_Check M_Rng P_Rng M_Critical Spec_Search M_Search P_Sums P_Search1 P_Search5
  M_Flow M_Climb M_Threads Spec_Climb Spec_Threads P_Climb1 P_Threads P_Climb6 Spec_Reach.
From Coq Require Import Permutation.

Section Within.
Context (pr : profile) (P : problem) (ws : nat -> world) (Q : scheduling -> Prop).
Let d := p_input P.
Context (HD : forall S, drawn pr P ws S -> Q S).
Context (HN : forall i S sw max t res t', Q S -> pick_neighbors pr d (w_hill (ws i)) sw max S t = Some (Ok (res, t')) -> forall n, In n res -> Q n).

(** A candidate of a scheduling in [Q]. *)
Definition of_q (sol : solution) : Prop := exists S, sol_scheduling sol = Some S /\ Q S.
Definition all_q (h : climber) : Prop := forall sol, In sol (hc_found h) -> of_q sol.

Lemma candidate_q w dl S h sol h' e : Q S -> all_q h -> solve_candidate pr P w dl S h = Some (Ok (sol, h', e)) ->
  of_q sol /\ all_q h' /\ In sol (hc_found h').
Proof.
  intros HS Hh H. unfold solve_candidate in H. apply bindo_ok in H as (a & _ & H). injection H as <- <- <-.
  assert (HQ : of_q (new_solution S (ar_result a))) by (exists S; split; auto; destruct (ar_result a); reflexivity).
  split; auto. cbn [hc_found]. split; [|apply in_or_app; right; left; reflexivity].
  intros sol Hin. apply in_app_or in Hin as [Hin|[<-|[]]]; auto.
Qed.
Lemma explore_q w dl ns : (forall n, In n ns -> Q n) -> forall b found h ev all found' b' h' ev', of_q (b_sol b) -> all_q h ->
  explore pr P w dl ns b found h ev = Some (Ok (all, found', b', h', ev')) -> of_q (b_sol b') /\ all_q h' /\ (forall x, In x (hc_found h) -> In x (hc_found h')).
Proof.
  intros Hns. induction ns as [|n ns IH]; intros b found h ev all found' b' h' ev' Hb Hh H; cbn [explore] in H.
  - injection H as <- <- <- <- <-. auto.
  - destruct (dl && o_late (w_hill w) (hc_tick h)); [injection H as <- <- <- <- <-; auto|].
    apply bindo_ok in H as ([[sol h1] e] & Ec & H). apply bindo_ok in H as (sc & _ & H).
    assert (HK : forall x, In x (hc_found h) -> In x (hc_found h1)).
    { intros x Hx. unfold solve_candidate in Ec. apply bindo_ok in Ec as (a & _ & Ec). injection Ec as _ <- _. apply in_or_app. left. exact Hx. }
    apply candidate_q in Ec as (C1 & C2 & C3); [|apply Hns; left; reflexivity|exact Hh].
    assert (IH' := IH (fun n Hn => Hns n (or_intror Hn))).
    destruct (score_lt sc (b_score b)); apply IH' in H as (X1 & X2 & X3); auto; (split; [auto|split; auto]).
Qed.
Lemma climb_q i dl sw fuel : forall b h ev b' h' ev', of_q (b_sol b) -> all_q h -> climb pr P (ws i) dl sw fuel b h ev = Some (Ok (b', h', ev')) ->
  of_q (b_sol b') /\ all_q h' /\ (forall x, In x (hc_found h) -> In x (hc_found h')).
Proof.
  induction fuel as [|fuel IH]; intros b h ev b' h' ev' Hb Hh H; cbn [climb] in H; [discriminate|].
  destruct (dl && o_late (w_hill (ws i)) (hc_tick h)); [injection H as <- <- <-; auto|].
  apply bindo_ok in H as (cur & Ecur & H). apply bindo_ok in H as ([ns t] & Ep & H). apply bindo_ok in H as ([[[[all found] b1] h1] ev1] & Ee & H).
  destruct Hb as (S & ES & HS). rewrite ES in Ecur. injection Ecur as <-.
  apply explore_q in Ee as (E1 & E2 & E3); [|exact (HN i S _ _ _ _ _ HS Ep)|exists S; auto|exact Hh].
  destruct (all && found).
  - apply IH in H as (X1 & X2 & X3); [|exact E1|exact E2]. split; [exact X1|]. split; [exact X2|]. intros x Hx. apply X3, E3. exact Hx.
  - injection H as <- <- <-. auto.
Qed.
Lemma hill_q i dl tn S h sol h' ev : Q S -> all_q h -> hill_solve pr P (ws i) dl tn S h = Some (Ok (sol, h', ev)) ->
  (sol = SolInvalid \/ of_q sol) /\ all_q h' /\ (forall x, In x (hc_found h) -> In x (hc_found h')) /\ exists x, In x (hc_found h') /\ sol_scheduling x = Some S.
Proof.
  intros HS Hh H. unfold hill_solve in H. apply bindo_ok in H as ([[sol1 h1] e] & Ec & H). apply bindo_ok in H as (sc & _ & H).
  assert (HK : forall x, In x (hc_found h) -> In x (hc_found h1)).
  { intros x Hx. unfold solve_candidate in Ec. apply bindo_ok in Ec as (a & _ & Ec). injection Ec as _ <- _. apply in_or_app. left. exact Hx. }
  assert (ES : sol_scheduling sol1 = Some S).
  { unfold solve_candidate in Ec. apply bindo_ok in Ec as (a & _ & Ec). injection Ec as <- _ _. destruct (ar_result a); reflexivity. }
  apply candidate_q in Ec as (C1 & C2 & C3); auto. destruct (score_finite sc); cbn [negb] in H.
  - apply bindo_ok in H as ([[b h2] ev2] & Eb & H). injection H as <- <- <-. apply climb_q in Eb as (X1 & X2 & X3); auto. split; auto. split; auto. split; auto. eauto.
  - injection H as <- <- <-. split; auto. split; auto. split; auto. eauto.
Qed.
(** The invariant of a worker. *)
Definition gun_q (g : shotgun) : Prop :=
  (b_sol (sg_best g) = SolInvalid \/ of_q (b_sol (sg_best g))) /\ all_q (sg_climber g) /\ (0 < sg_iterations g -> hc_found (sg_climber g) <> []).
Lemma new_gun_q : gun_q new_shotgun.
Proof. split; [left; reflexivity|]. split; [intros sol []|cbn; lia]. Qed.
Lemma iterate_q i tn number : forall g k g' ev, gun_q g -> iterate pr P (ws i) true tn number g = Some (Ok (k, g', ev)) -> gun_q g'.
Proof.
  induction number as [|number IH]; intros g k g' ev (G1 & G2 & G3) H; cbn [iterate] in H.
  - injection H as <- <- <-. split; auto.
  - destruct (true && w_late (ws i) (sg_tick g)); [injection H as <- <- <-; split; auto|].
    apply bindo_ok in H as (n & En & H). destruct (nx_sched n) as [cur|] eqn:ES; [|injection H as <- <- <-; split; auto].
    assert (HC : Q cur) by (apply HD; exists i, tn, (sg_stick g), n; auto).
    apply bindo_ok in H as ([[sol h] ev1] & Eh & H). apply bindo_ok in H as (sc & _ & H). apply bindo_ok in H as ([[k2 g2] ev2] & Ei & H). injection H as <- <- <-.
    apply hill_q in Eh as (X1 & X2 & X3 & x & X4 & _); auto. apply IH in Ei; auto. split; [|split].
    + cbn [sg_best]. destruct (score_lt sc (b_score (sg_best g))); auto.
    + exact X2.
    + intros _. cbn [sg_climber]. intros F. rewrite F in X4. destruct X4.
Qed.
Lemma move_q s l s' : (forall wk, In wk (se_workers s) -> gun_q (wk_gun wk)) -> move pr P ws s l s' -> forall wk, In wk (se_workers s') -> gun_q (wk_gun wk).
Proof.
  intros HS M. destruct M as [s i wk ls wk' E M|s]; auto. cbn [se_workers]. intros wk0 Hin. apply in_upd in Hin as [-> |Hin]; auto.
  pose proof (HS wk (nth_error_In _ _ E)) as Hw. destruct M; cbn [wk_gun] in *; auto. eapply iterate_q; eauto.
Qed.
Lemma moves_q s tr s' : moves pr P ws s tr s' -> (forall wk, In wk (se_workers s) -> gun_q (wk_gun wk)) -> forall wk, In wk (se_workers s') -> gun_q (wk_gun wk).
Proof. induction 1 as [|s l s1 tr s2 M MM IH]; auto. intros HS. apply IH. eapply move_q; eauto. Qed.
Lemma session_q threads tr s : moves pr P ws (start P threads) tr s -> forall wk, In wk (se_workers s) -> gun_q (wk_gun wk).
Proof. intros M. apply (moves_q _ _ _ M). intros wk Hin. apply repeat_spec in Hin. subst wk. exact new_gun_q. Qed.
Lemma tried_q threads tr s S : moves pr P ws (start P threads) tr s -> tried s S -> Q S.
Proof.
  intros M (wk & sol & H1 & H2 & H3). destruct (session_q _ _ _ M wk H1) as (_ & G & _). destruct (G sol H2) as (S' & E & HS). congruence.
Qed.
Lemma join_q wks : (forall wk, In wk wks -> gun_q (wk_gun wk)) -> forall b b', (b_sol b = SolInvalid \/ of_q (b_sol b)) -> mfold join_one wks b = Ok b' ->
  b_sol b' = SolInvalid \/ of_q (b_sol b').
Proof.
  induction wks as [|wk wks IH]; intros HS b b' Hb H; [injection H as <-; auto|]. cbn [mfold] in H. apply bind_ok in H as (b1 & E1 & H).
  apply IH in H; auto; [intros; apply HS; right; auto|]. unfold join_one in E1. destruct (wk_pc wk); try discriminate. injection E1 as <-.
  destruct (score_lt _ _); auto. apply (HS wk (or_introl eq_refl)).
Qed.
Lemma result_q threads tr s sol : moves pr P ws (start P threads) tr s -> wait s = Ok sol -> sol = SolInvalid \/ of_q sol.
Proof.
  intros M H. unfold wait in H. destruct (join_all (se_workers s)) as [b| |] eqn:E; try discriminate. injection H as <-.
  eapply join_q; [|left|exact E]; [apply (session_q _ _ _ M)|reflexivity].
Qed.
End Within.

(** The search on an input without optional choices depends on the random engine
    only through the order of the choices. *)
Lemma riffle_zeros {A} (l : list A) : riffle (repeat 0 (length l)) l [] = Ok l.
Proof. induction l as [|x l IH]; cbn [length repeat riffle]; auto. rewrite IH. reflexivity. Qed.
Lemma riffle_left {A} o t (l : list A) : fair o -> riffle_shuffle o t l [] = Ok l.
Proof.
  intros HF. unfold riffle_shuffle. cbn [length repeat]. rewrite app_nil_r. pose proof (fair_shuffle _ HF t (repeat 0 (length l))) as HP.
  apply Permutation_sym, Permutation_repeat in HP. rewrite HP. apply riffle_zeros.
Qed.
Section Det.
Context (pr : profile) (d : input_data) (o o' : oracle) (HF : fair o) (HF' : fair o') (HO : forall ch, In ch (i_choices d) -> ch_optional ch = false).
Lemma feasible_det t t' st c : feasible_slots pr d o t st c = feasible_slots pr d o' t' st c.
Proof.
  unfold feasible_slots. destruct (get (i_choices d) c) as [ch| |] eqn:E; cbn [bind]; auto.
  rewrite (HO ch) by (unfold Base.get in E; destruct (nth_error (i_choices d) c) eqn:E2; [injection E as <-; eapply nth_error_In; eauto|discriminate]). cbn [bind].
  destruct (passing_slots pr d st c) as [sl| |]; cbn [bind]; auto. destruct (mmap _ sl) as [ks| |]; cbn [bind]; auto. rewrite !riffle_left; auto.
Qed.
Lemma step_det late sets order suffix m : step pr d o late sets order suffix m = step pr d o' late sets order suffix m.
Proof.
  unfold step, node_candidates. destruct (m_depth m <? length order); auto. destruct (late (m_tick m)); auto.
  destruct (get order (m_depth m)) as [c| |]; cbn [bind]; auto. rewrite (feasible_det (Datatypes.S (m_tick m)) (Datatypes.S (m_tick m)) (m_st m) c). reflexivity.
Qed.
Lemma run_det late sets order suffix : forall fuel m, run pr d o late sets order suffix fuel m = run pr d o' late sets order suffix fuel m.
Proof. induction fuel as [|f IH]; intros m; cbn [run]; auto. rewrite step_det. destruct (step pr d o' late sets order suffix m) as [[m'|]| |]; auto. Qed.
End Det.
(** Without clock the number of requests made before does not matter. *)
Section Tick.
Context (pr : profile) (d : input_data) (o : oracle) (HF : fair o) (HO : forall ch, In ch (i_choices d) -> ch_optional ch = false).
Definition at_time (m : mach) (t : nat) : mach := mkMach (m_st m) (m_stack m) (m_depth m) t.
Lemma step_tick sets order suffix m t :
  match step pr d o (fun _ => false) sets order suffix m with
  | Ok (Continue m') => exists t', step pr d o (fun _ => false) sets order suffix (at_time m t) = Ok (Continue (at_time m' t'))
  | Ok (Done r _) => exists t', step pr d o (fun _ => false) sets order suffix (at_time m t) = Ok (Done r t')
  | _ => True
  end.
Proof.
  unfold step, at_time. cbn [m_depth m_st m_stack m_tick]. destruct (m_depth m <? length order).
  - destruct (get order (m_depth m)) as [c| |]; cbn [bind]; auto. unfold node_candidates.
    rewrite (feasible_det pr d o o HF HF HO (Datatypes.S (m_tick m)) 0 (m_st m) c), (feasible_det pr d o o HF HF HO (Datatypes.S t) 0 (m_st m) c).
    match goal with |- context [bind ?e _] => destruct e as [stack| |] end; cbn [bind]; auto.
    destruct stack as [|bucket rest]; auto. destruct (negb (length rest =? m_depth m)); auto.
    destruct bucket as [|next bucket].
    + destruct (m_depth m) as [|depth]; [eauto|]. destruct (get order depth) as [prev| |]; cbn [bind]; auto.
      destruct (clear_decision pr d (m_st m) prev) as [st| |]; cbn [bind]; auto. eexists. reflexivity.
    + destruct (apply_decision pr d (m_st m) c next) as [st| |]; cbn [bind]; auto. eexists. reflexivity.
  - destruct (leaf pr d (m_st m)) as [r| |]; cbn [bind]; auto. eexists. reflexivity.
Qed.
Lemma run_tick sets order suffix : forall fuel m t r t1, run pr d o (fun _ => false) sets order suffix fuel m = Some (Ok (r, t1)) ->
  exists t2, run pr d o (fun _ => false) sets order suffix fuel (at_time m t) = Some (Ok (r, t2)).
Proof.
  induction fuel as [|f IH]; intros m t r t1 H; cbn [run] in *; [discriminate|]. pose proof (step_tick sets order suffix m t) as K.
  destruct (step pr d o (fun _ => false) sets order suffix m) as [[m'|r0 t0]| |]; try discriminate.
  - destruct K as [t' ->]. eauto.
  - destruct K as [t' ->]. injection H as -> _. eauto.
Qed.
End Tick.
(** The clock can only end the search early. *)
Lemma run_untimed pr d o late sets order suffix : forall fuel m r t, run pr d o late sets order suffix fuel m = Some (Ok (r, t)) ->
  r = STimeout \/ run pr d o (fun _ => false) sets order suffix fuel m = Some (Ok (r, t)).
Proof.
  induction fuel as [|f IH]; intros m r t H; cbn [run] in *; [discriminate|].
  assert (K : step pr d o late sets order suffix m = step pr d o (fun _ => false) sets order suffix m \/ exists t0, step pr d o late sets order suffix m = Ok (Done STimeout t0)).
  { unfold step. destruct (m_depth m <? length order); auto. destruct (late (m_tick m)); eauto. }
  destruct K as [K|[t0 K]]; rewrite K in H.
  - destruct (step pr d o (fun _ => false) sets order suffix m) as [[m'|r0 t0]| |]; auto.
  - injection H as <- _. auto.
Qed.
Lemma search_orders pr d o o0 late sets t fuel r t' slots : fair o -> fair o0 -> (forall ch, In ch (i_choices d) -> ch_optional ch = false) ->
  (forall order, Permutation (seq 0 (length (i_choices d))) order -> exists suffix t1 n,
     let so := sort_desc (fun c => length (constraints_for d c)) order in
     max_suffix pr d so = Ok suffix /\
     run pr d o0 (fun _ => false) sets so suffix n (mkMach (new_state (length (i_choices d)) (length (i_slots d))) [] 0 0) = Some (Ok (SFound slots, t1))) ->
  solve_scheduling pr d o late sets t fuel = Some (Ok (r, t')) -> r = STimeout \/ r = SFound slots.
Proof.
  intros HF HF0 HO HA H. unfold solve_scheduling, choice_scramble in H.
  destruct (HA _ (fair_shuffle _ HF t (seq 0 (length (i_choices d))))) as (suffix & t1 & n & ES & ER). rewrite ES in H.
  apply (run_tick pr d o0 HF0 HO _ _ _ _ _ (Datatypes.S t)) in ER as [t2 ER]. unfold at_time in ER. cbn [m_st m_stack m_depth] in ER.
  apply run_untimed in H as [H|H]; auto. right. rewrite (run_det pr d o o0 HF HF0 HO) in H.
  apply (run_more _ _ _ _ _ _ _ _ _ _) with (fuel' := fuel + n) in H; [|lia]. apply (run_more _ _ _ _ _ _ _ _ _ _) with (fuel' := fuel + n) in ER; [|lia]. congruence.
Qed.

(** In a rotation along a cycle without repetition every choice of the cycle has
    a predecessor. *)
Lemma rotated_pred cycle (S S' : scheduling) a : rotated cycle S S' -> In a cycle ->
  exists p b, nth_error cycle p = Some b /\ nth_error S' a = nth_error S b /\
    (nth_error cycle (Datatypes.S p) = Some a \/ Datatypes.S p = length cycle /\ nth_error cycle 0 = Some a).
Proof.
  intros (_ & _ & H1 & H2) Hin. apply In_nth_error in Hin as [k Hk]. destruct k as [|k].
  - destruct cycle as [|x cy]; [discriminate|]. destruct (nth_error (x :: cy) (length (x :: cy) - 1)) as [b|] eqn:E; [|apply nth_error_None in E; cbn [length] in E; lia].
    exists (length (x :: cy) - 1), b. split; auto. split; [apply H1; auto|]. right. split; auto. cbn [length]. lia.
  - destruct (nth_error cycle k) as [b|] eqn:E.
    + exists k, b. split; auto. split; [eapply H2; eauto|auto].
    + apply nth_error_None in E. assert (Datatypes.S k < length cycle) by (apply nth_error_Some; congruence). lia.
Qed.
Lemma rotated_inj cycle (S S' : scheduling) a a' v b : rotated cycle S S' -> NoDup cycle -> nth_error S' a = v -> nth_error S' a' = v ->
  nth_error S a <> v -> nth_error S a' <> v -> (forall x, nth_error S x = v -> x = b) -> a = a'.
Proof.
  intros HR ND Ha Ha' Na Na' Hb.
  assert (I : forall x, nth_error S' x = v -> nth_error S x <> v -> In x cycle).
  { intros x E N. destruct (in_dec Nat.eq_dec x cycle) as [|F]; auto. destruct HR as (_ & R & _). rewrite (R x F) in E. contradiction. }
  destruct (rotated_pred _ _ _ _ HR (I a Ha Na)) as (p & c & P1 & P2 & P3). destruct (rotated_pred _ _ _ _ HR (I a' Ha' Na')) as (p' & c' & P1' & P2' & P3').
  assert (c = b) by (apply Hb; congruence). assert (c' = b) by (apply Hb; congruence). subst c c'.
  assert (p = p'). { apply (proj1 (NoDup_nth_error cycle) ND); [apply nth_error_Some; congruence|congruence]. } subst p'.
  destruct P3 as [P3|[P3 P4]], P3' as [P3'|[P3' P4']]; try congruence; exfalso.
  - assert (Datatypes.S p < length cycle) by (apply nth_error_Some; congruence). lia.
  - assert (Datatypes.S p < length cycle) by (apply nth_error_Some; congruence). lia.
Qed.
