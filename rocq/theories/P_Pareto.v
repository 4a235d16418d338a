(** Cheapest assignments cannot be improved; every complete solution of a session is
    a cheapest assignment of its scheduling for some limit. *)
From Verif Require Import Base M_Data Spec M_Scoring P_Scoring M_Rng P_Rng M_Critical Spec_Search M_Search P_Sums P_Search5
  M_Flow Spec_Flow Spec_Calls P_Flow1 P_Flow2 P_Flow3 P_Flow4 P_Flow5 P_Flow6 P_Flow7 M_Climb M_Threads Spec_Climb Spec_Threads P_Climb1 P_Climb2 P_Climb3 P_Climb4 P_Climb5 P_Threads P_Climb6 Spec_Pareto.
From Coq Require Import Permutation.
Local Notation ns d := (length (i_slots d)).

(** ** Rows, slot by slot *)
Lemma row_slots d S A p row : one_choice_per_slot d S A -> nth_error A p = Some row ->
  exists l, Permutation row l /\ Forall2 (fun s c => In c row /\ scheduled_in S c s) (seq 0 (ns d)) l.
Proof.
  intros [_ H] Hrow. destruct (H p row Hrow) as (HLr & Hh & HU).
  assert (exists l, Forall2 (fun s c => In c row /\ scheduled_in S c s) (seq 0 (ns d)) l) as (l & Hl).
  { assert (G : forall k n, (forall s, s < k + n -> s < ns d) -> exists l, Forall2 (fun s c => In c row /\ scheduled_in S c s) (seq k n) l).
    { intros k n. revert k. induction n as [|n IH]; intros k Hlt; [exists []; constructor|]. cbn [seq]. destruct (IH (Datatypes.S k)) as (l & Hl); [intros; apply Hlt; lia|].
      destruct (HU k) as (c & Hc & _); [apply Hlt; lia|]. exists (c :: l). constructor; auto. }
    apply (G 0 (ns d)). auto. }
  exists l. split; auto.
  assert (NDl : NoDup l /\ incl l row).
  { assert (G : forall (ss : list nat) l, NoDup ss -> Forall2 (fun s c => In c row /\ scheduled_in S c s) ss l -> NoDup l /\ incl l row).
    { clear. assert (K : forall s c (ss l : list nat), scheduled_in S c s -> Forall2 (fun s c => In c row /\ scheduled_in S c s) ss l -> In c l -> In s ss).
      { intros s c ss l Hs HF. induction HF as [|t e ss l [_ Ht] HF IH]; intros Hin; [destruct Hin|]. destruct Hin as [->|Hin]; [|right; auto]. left. unfold scheduled_in in *. congruence. }
      intros ss l ND HF. induction HF as [|t e ss l [Hr Ht] HF IH]; [split; [constructor|intros x []]|].
      inversion ND as [|? ? Hni ND']; subst. destruct (IH ND') as [N1 N2]. split.
      - constructor; auto. intros Hin. apply Hni. eapply K; eauto.
      - intros x [<-|Hx]; auto. }
    apply (G (seq 0 (ns d)) l); auto. apply seq_NoDup. }
  destruct NDl as [NDl Hinc]. assert (E : length (seq 0 (ns d)) = length l) by (clear - Hl; induction Hl; cbn; lia). rewrite seq_length in E.
  symmetry. apply NoDup_Permutation_bis; auto. lia.
Qed.
Lemma pref_at_of d p c : wf_input d -> p < length (i_choosers d) -> c < length (i_choices d) -> pref_of d p c (pref_at d p c).
Proof.
  intros HW Hp Hc. unfold pref_of, pref_at. destruct (nth_error (i_choosers d) p) as [x|] eqn:E; [|apply nth_error_None in E; lia].
  exists x. split; auto. apply nth_error_nth'. rewrite (wf_prefs _ HW x (nth_error_In _ _ E)). auto.
Qed.
Lemma of_pref_at d p c v : pref_of d p c v -> pref_at d p c = v.
Proof. intros (x & E & Ev). unfold pref_at. rewrite E. apply nth_error_nth. auto. Qed.

Lemma zsum_le2 {T} (f g : T -> Z) (R : nat -> T -> Prop) (Q : nat -> T -> Prop) ss : forall la lb, Forall2 R ss la -> Forall2 Q ss lb ->
  (forall s a b, In s ss -> In a la -> R s a -> In b lb -> Q s b -> g b <= f a)%Z -> (zsum g lb <= zsum f la)%Z.
Proof.
  induction ss as [|s ss IH]; intros la lb HA HB H; inversion HA as [|? a ? la' Ra HA']; inversion HB as [|? b ? lb' Qb HB']; subst; [apply Z.le_refl|].
  rewrite !zsum_cons. assert (zsum g lb' <= zsum f la')%Z by (apply IH; auto; intros s' a' b' H1 H2 H3 H4 H5; apply (H s'); cbn; auto).
  specialize (H s a b (or_introl eq_refl) (or_introl eq_refl) Ra (or_introl eq_refl) Qb). lia.
Qed.
Lemma zsum_lt2 {T} (f g : T -> Z) (R : nat -> T -> Prop) (Q : nat -> T -> Prop) s0 a0 b0 ss : forall la lb, Forall2 R ss la -> Forall2 Q ss lb ->
  (forall s a b, In s ss -> In a la -> R s a -> In b lb -> Q s b -> g b <= f a)%Z ->
  In s0 ss -> (forall a, R s0 a -> a = a0) -> (forall b, Q s0 b -> b = b0) -> (g b0 < f a0)%Z -> (zsum g lb < zsum f la)%Z.
Proof.
  induction ss as [|s ss IH]; intros la lb HA HB H Hin Ua Ub Hlt; inversion HA as [|? a ? la' Ra HA']; inversion HB as [|? b ? lb' Qb HB']; subst; [destruct Hin|].
  rewrite !zsum_cons. assert (H' : forall s a b, In s ss -> In a la' -> R s a -> In b lb' -> Q s b -> (g b <= f a)%Z) by (intros s' a' b' H1 H2 H3 H4 H5; apply (H s'); cbn; auto).
  specialize (H s a b (or_introl eq_refl) (or_introl eq_refl) Ra (or_introl eq_refl) Qb).
  destruct Hin as [->|Hin].
  - rewrite (Ua a Ra), (Ub b Qb) in *. pose proof (zsum_le2 f g R Q ss la' lb' HA' HB' H'). lia.
  - specialize (IH la' lb' HA' HB' H' Hin Ua Ub Hlt). lia.
Qed.

(** ** A cheapest assignment cannot be improved *)
Lemma cheapest_unimproved d cost S l A B : wf_input d -> valid_scheduling d S -> worse_costs_more d cost -> cheapest d cost S l A ->
  valid_solution d S B -> tied_together d S B -> ~ improves d S A B.
Proof.
  intros HW HV HC [HA Hmin] HVB HT [HN HBt].
  pose proof (ra_one _ _ _ (vsol_rest _ _ _ HVB)) as OB. pose proof (al_one _ _ _ _ HA) as OA.
  assert (Hr : forall c s, scheduled_in S c s -> c < length (i_choices d) /\ s < ns d).
  { intros c s Hc. split; [|apply (vs_range _ _ HV c s Hc)]. rewrite <- (vs_length _ _ HV). apply nth_error_Some. unfold scheduled_in in Hc. congruence. }
  assert (Hother : forall (X Y : assignment) p c' s, one_choice_per_slot d S X -> one_choice_per_slot d S Y -> attends Y p c' -> scheduled_in S c' s -> exists c, attends X p c /\ scheduled_in S c s).
  { intros X Y p c' s OX OY (row & Hrow & Hin) Hs. destruct OX as [LX OX], OY as [LY _]. assert (Hp : p < length X) by (rewrite LX, <- LY; apply nth_error_Some; congruence).
    destruct (nth_error X p) as [rx|] eqn:Ex; [|apply nth_error_None in Ex; lia]. destruct (OX p rx Ex) as (_ & _ & HU). destruct (HU s) as (c & [H1 H2] & _); [apply (Hr c' s Hs)|].
    exists c. split; auto. exists rx. auto. }
  assert (HB : allowed d S l B).
  { constructor; auto.
    - apply (ra_bounds _ _ _ (vsol_rest _ _ _ HVB)).
    - apply (ra_asg _ _ _ (vsol_rest _ _ _ HVB)).
    - intros p c' v' Hp Hat Hv'. pose proof Hat as (row & Hrow & Hin). destruct OB as [LB OB]. destruct (OB p row Hrow) as (_ & Hh & _). destruct (Hh c' Hin) as (s & Hs).
      destruct (Hother A B p c' s OA (conj LB OB) Hat Hs) as (c & Hc & Hcs).
      pose proof (pref_at_of d p c HW Hp (proj1 (Hr c s Hcs))) as Hv. pose proof (HN p s c c' _ _ Hc Hcs Hat Hs Hv Hv').
      pose proof (al_prefs _ _ _ _ HA p c _ Hp Hc Hv). lia. }
  specialize (Hmin B HB). unfold assignment_cost in Hmin. rewrite !sum_zsum in Hmin.
  assert (LA : length A = length B) by (destruct OA as [-> _]; destruct OB as [-> _]; auto).
  assert (Hle : forall p ra rb, nth_error A p = Some ra -> nth_error B p = Some rb -> (row_cost d cost p rb <= row_cost d cost p ra)%Z /\
     ((exists s c c', In c ra /\ scheduled_in S c s /\ In c' rb /\ scheduled_in S c' s /\ (pref_at d p c' < pref_at d p c)%N) -> (row_cost d cost p rb < row_cost d cost p ra)%Z)).
  { intros p ra rb Ha Hb. destruct (row_slots d S A p ra OA Ha) as (la & Pa & Fa). destruct (row_slots d S B p rb OB Hb) as (lb & Pb & Fb).
    assert (Hp : p < length (i_choosers d)) by (destruct OA as [<- _]; apply nth_error_Some; congruence).
    assert (Hmono : forall s a b, In a ra -> scheduled_in S a s -> In b rb -> scheduled_in S b s -> (cost (pref_at d p b) <= cost (pref_at d p a))%Z).
    { intros s a b H1 H2 H3 H4. pose proof (pref_at_of d p a HW Hp (proj1 (Hr a s H2))) as Qa. pose proof (pref_at_of d p b HW Hp (proj1 (Hr b s H4))) as Qb.
      assert (Hle : (pref_at d p b <= pref_at d p a)%N) by (eapply HN; [exists ra; eauto|exact H2|exists rb; eauto|exact H4|exact Qa|exact Qb]).
      apply N.lt_eq_cases in Hle as [Hlt|E]; [|rewrite E; lia]. pose proof (HC _ _ _ _ _ _ Qb Qa Hlt). lia. }
    rewrite (zsum_perm_row d cost p ra la Pa), (zsum_perm_row d cost p rb lb Pb). unfold row_cost. rewrite !sum_zsum. split.
    - eapply zsum_le2; [exact Fa|exact Fb|]. cbn. intros s a b _ _ [H1 H2] _ [H3 H4]. eauto.
    - intros (s & c & c' & H1 & H2 & H3 & H4 & H5). eapply (zsum_lt2 _ _ _ _ s c c'); [exact Fa|exact Fb| | | | |]; cbn.
      + intros s' a b _ _ [G1 G2] _ [G3 G4]. eauto.
      + apply in_seq. pose proof (Hr c s H2). lia.
      + intros a [G1 G2]. destruct OA as [_ OA']. destruct (OA' p ra Ha) as (_ & _ & HU). destruct (HU s) as (x & _ & Ux); [apply (Hr c s H2)|]. transitivity x; [symmetry|]; apply Ux; auto.
      + intros b [G1 G2]. destruct OB as [_ OB']. destruct (OB' p rb Hb) as (_ & _ & HU). destruct (HU s) as (x & _ & Ux); [apply (Hr c s H2)|]. transitivity x; [symmetry|]; apply Ux; auto.
      + apply (HC p c' _ p c); auto; apply pref_at_of; auto; eapply Hr; eauto. }
  destruct HBt as (p & s & c & c' & v & v' & (ra & Ha & H1) & H2 & (rb & Hb & H3) & H4 & H5 & H6 & H7).
  assert (Hstrict : (row_cost d cost p rb < row_cost d cost p ra)%Z).
  { apply (Hle p ra rb Ha Hb). exists s, c, c'. rewrite (of_pref_at _ _ _ _ H5), (of_pref_at _ _ _ _ H6). auto. }
  assert (Hrows : forall q ra rb, nth_error A q = Some ra -> nth_error B q = Some rb -> (row_cost d cost q rb <= row_cost d cost q ra)%Z) by (intros; apply Hle; auto).
  assert (G : forall k (X Y : assignment), length X = length Y ->
    (forall i ra rb, nth_error X i = Some ra -> nth_error Y i = Some rb -> (row_cost d cost (k + i) rb <= row_cost d cost (k + i) ra)%Z) ->
    let sx := zsum (fun q => row_cost d cost (fst q) (snd q)) (combine (seq k (length X)) X) in
    let sy := zsum (fun q => row_cost d cost (fst q) (snd q)) (combine (seq k (length Y)) Y) in
    (sy <= sx)%Z /\ forall i ra rb, nth_error X i = Some ra -> nth_error Y i = Some rb -> (row_cost d cost (k + i) rb < row_cost d cost (k + i) ra)%Z -> (sy < sx)%Z).
  { clear. intros k X. revert k. induction X as [|x X IH]; intros k [|y Y] HL HP; try discriminate; cbn zeta.
    - split; [apply Z.le_refl|]. intros [] ra rb Ea; discriminate.
    - cbn [length seq combine]. rewrite !zsum_cons. cbn [fst snd]. destruct (IH (Datatypes.S k) Y) as [I1 I2]; [cbn in HL; lia| |].
      { intros i ra rb Ea Eb. replace (Datatypes.S k + i) with (k + Datatypes.S i) by lia. apply HP; auto. }
      pose proof (HP 0 x y eq_refl eq_refl) as H0. rewrite Nat.add_0_r in H0. cbn zeta in I1, I2. split; [lia|].
      intros [|i] ra rb Ea Eb Hlt.
      + injection Ea as <-. injection Eb as <-. rewrite Nat.add_0_r in Hlt. lia.
      + assert (Hx := I2 i ra rb Ea Eb). replace (Datatypes.S k + i) with (k + Datatypes.S i) in Hx by lia. specialize (Hx Hlt). lia. }
  destruct (G 0 A B LA) as [_ Gs]; [exact Hrows|]. specialize (Gs p ra rb Ha Hb Hstrict). cbn zeta in Gs. lia.
Qed.

(** ** Every answer is cheapest for some limit *)
Section Answers.
Context (pr : profile) (d : input_data) (sd : static) (cost : N -> Z) (greedy : bool) (bound : N).
Context (HW : wf_input d) (HL : layout d sd) (HG : grouped d) (HZ : solvable_size d).
Notation history := (Spec_Calls.history pr d sd cost greedy bound).
Definition cheap (S : scheduling) (A : assignment) : Prop := exists l, cheapest d cost S l A.
Definition summed (S : scheduling) : Prop := forall s, (slot_sum ch_min (i_choices d) S s <= N.of_nat (length (i_choosers d)))%N.
Definition cache_cheap (sv : solver) : Prop := forall S A o, sv_cache sv = Some (S, A, o) -> cheap S A.

Lemma levels_cheap ev dl st S levels start fuel : honest_lp ev dl -> optimal_lp ev -> state_for pr d S st -> summed S -> forall low high best o t r o' t',
  (forall A, best = Some A -> cheap S A) ->
  level_search (solve_with_limit pr d sd cost ev dl st) levels start fuel low high best o t = Some (Ok (r, o', t')) ->
  forall A, r = Some A -> cheap S A.
Proof.
  intros HE HO HSt HV. induction fuel as [|fuel IH]; intros low high best o t r o' t' HB H A HA; cbn [level_search] in H.
  - destruct (negb (low <=? high)); [|discriminate]. injection H as <- <- <-. auto.
  - destruct (negb (low <=? high)); [injection H as <- <- <-; auto|]. destruct (get levels (low + (high - low) / 2)) as [l| |]; try discriminate.
    destruct (solve_with_limit pr d sd cost ev dl st l t) as [[[B| |] t1]| |] eqn:EL; try discriminate; [|eapply IH; eauto|eapply IH; eauto].
    assert (HB' : cheap S B).
    { pose proof (limit_sound pr d sd cost HW HL HG HZ S st HSt HV ev dl HE l t _ _ EL) as [_ HA']. exists l. auto. }
    destruct (low + (high - low) / 2 =? start).
    + apply some_inj, ok_inj in H. assert (E : r = Some B) by congruence. rewrite E in HA. injection HA as <-. auto.
    + eapply IH; [|exact H|exact HA]. intros A0 E0. injection E0 as <-. auto.
Qed.
Lemma until_cheap ev dl l sv S t a : honest_lp ev dl -> optimal_lp ev -> history l sv -> cache_cheap sv -> shaped d S -> summed S ->
  solve_until pr d sd cost greedy bound ev dl sv S t = Some (Ok a) ->
  cache_cheap (ar_solver a) /\ forall A, ar_result a = Some A -> cheap S A.
Proof.
  intros HE HO Hh HC HS HV H. apply solve_until_inv in H as (st & EP & _ & HX).
  pose proof (history_prepared pr d sd cost greedy bound HW HL l sv S st Hh HS EP) as HSt.
  pose proof (sf_slots _ _ _ _ HSt) as ESl.
  destruct HX as [(_ & E1 & A & E2 & E3)|(_ & EF & EC)].
  - split; [intros S0 A0 o0; rewrite E1; apply HC|]. intros B HB. rewrite E3 in HB. injection HB as <-. rewrite ESl in E2. eapply HC; eauto.
  - assert (HR : forall A, ar_result a = Some A -> cheap S A).
    { unfold fresh in EF. destruct greedy.
      - apply some_inj in EF. apply bind_ok in EF as ([[A| |] t'] & EL & EF); apply ok_inj in EF; subst a; intros B HB; cbn in HB; try discriminate.
        injection HB as <-. pose proof (limit_sound pr d sd cost HW HL HG HZ S st HSt HV ev dl HE _ _ _ _ EL) as [_ HA']. exists (i_max_pref d). auto.
      - destruct (length (i_levels d)) as [|last]; [injection EF as <-; discriminate|].
        destruct (level_search _ _ _ _ _ _ _ _ _) as [[[[best optimal] t']| |]|] eqn:EL; try discriminate. apply some_inj, ok_inj in EF. subst a.
        intros A HA. assert (E : ar_result (finish best st optimal sv t') = best) by (destruct best; auto). rewrite E in HA.
        eapply levels_cheap; eauto. intros; discriminate. }
    split; auto. intros S0 A0 o0 H0. destruct EC as [E|(B & EB & _ & E)]; rewrite E in H0.
    + eapply HC; eauto.
    + injection H0 as <- <- _. rewrite ESl. auto.
Qed.
(** In a history of calls with honest, optimal LP answers. *)
Lemma history_cheap h sv : history h sv -> (forall c, In c h -> honest_lp (cl_env c) (cl_deadline c) /\ optimal_lp (cl_env c) /\ summed (cl_sched c)) ->
  cache_cheap sv /\ forall c A, In c h -> ar_result (cl_answer c) = Some A -> cheap (cl_sched c) A.
Proof.
  induction 1 as [|h c Hh IH HS HR]; intros Hall; [split; [intros S A o E; discriminate|intros c A []]|].
  destruct IH as [I1 I2]; [intros; apply Hall; right; auto|]. destruct (Hall c (or_introl eq_refl)) as (H1 & H2 & H3).
  destruct (until_cheap _ _ h _ _ _ _ H1 H2 Hh I1 HS H3 HR) as [U1 U2]. split; auto.
  intros c0 A [<-|Hin] E; eauto.
Qed.
End Answers.

(** ** Sessions *)
Section Session.
Context (pr : profile) (P : problem) (HR : roomy pr P).
Let d := p_input P.
Local Definition HWp : wf_input d := ro_wf _ _ HR.
Definition fine (sol : solution) : Prop := match sol with SolComplete x A => valid_scheduling d x /\ cheap d (p_cost P) x A | _ => True end.
Definition sharp (h : climber) : Prop := live pr P h /\ cache_cheap d (p_cost P) (hc_solver h) /\ forall sol, In sol (hc_found h) -> fine sol.
Lemma new_sharp : sharp new_climber.
Proof. split; [apply new_live|]. split; [intros S A o E; discriminate|intros sol []]. Qed.

Section Worker.
Context (w : world) (deadline : bool) (HE : honest_lp (w_env w) deadline) (HOp : optimal_lp (w_env w)) (HFair : fair (w_hill w)) (HSch : fair (w_sched w)).
Lemma candidate_sharp S h sol h' e : sharp h -> valid_scheduling d S -> solve_candidate pr P w deadline S h = Some (Ok (sol, h', e)) ->
  sharp h' /\ good P sol /\ sol_scheduling sol = Some S.
Proof.
  intros (HLv & HC & HFd) HV H. destruct (candidate_safe pr P HR w deadline HE S h HLv HV) as (sol0 & h0 & e0 & E0 & L0 & G0 & S0).
  rewrite E0 in H. assert (EE : sol0 = sol /\ h0 = h') by (split; congruence). destruct EE as [-> ->]. split; auto. split; [exact L0|].
  unfold solve_candidate in E0. apply bindo_ok in E0 as (a & Ea & E0). injection E0 as <- <- _. cbn [hc_solver hc_found].
  destruct HLv as (l & Hh & _). 
  destruct (until_cheap pr d (p_static P) (p_cost P) (p_greedy P) (an_bound (p_analysis P)) HWp (HLay pr P HR) (ro_groups _ _ HR) (ro_size _ _ HR)
    (w_env w) deadline l (hc_solver h) S (hc_atick h) a HE HOp Hh HC (valid_is_shaped P S HV) (sums_ok P S HV)) as [U1 U2]; [exact Ea|].
  split; auto. intros sol Hin. apply in_app_or in Hin as [Hin|[<-|[]]]; auto. destruct (ar_result a) as [A|] eqn:EA; cbn; auto.
Qed.
Lemma explore_sharp ns : (forall n, In n ns -> valid_scheduling d n) -> forall b found h ev all found' b' h' ev', step_ok pr P b h -> sharp h ->
  explore pr P w deadline ns b found h ev = Some (Ok (all, found', b', h', ev')) -> step_ok pr P b' h' /\ sharp h'.
Proof.
  intros Hns. induction ns as [|n ns IH]; intros b found h ev all found' b' h' ev' HS Hh H; cbn [explore] in H.
  - injection H as <- <- <- <- <-. auto.
  - destruct (deadline && o_late (w_hill w) (hc_tick h)); [injection H as <- <- <- <- <-; split; auto|].
    apply bindo_ok in H as ([[sol h1] e] & Ec & H). apply bindo_ok in H as (sc & _ & H).
    apply candidate_sharp in Ec as (C1 & C2 & C3); [|exact Hh|apply Hns; left; reflexivity].
    assert (IH' := IH (fun n Hn => Hns n (or_intror Hn))). destruct HS as (H1 & H2 & H3).
    destruct (score_lt sc (b_score b)); apply IH' in H; auto; split; try (apply C1); auto. split; auto. cbn. congruence.
Qed.
Lemma climb_sharp sw fuel : forall b h ev b' h' ev', step_ok pr P b h -> sharp h -> climb pr P w deadline sw fuel b h ev = Some (Ok (b', h', ev')) -> sharp h'.
Proof.
  induction fuel as [|fuel IH]; intros b h ev b' h' ev' HS Hh H; cbn [climb] in H; [discriminate|]. destruct HS as (H1 & H2 & H3).
  destruct (deadline && o_late (w_hill w) (hc_tick h)).
  { injection H as <- <- <-. exact Hh. }
  destruct (sol_scheduling (b_sol b)) as [S|] eqn:ES; [|congruence]. cbn [expect bindo] in H.
  assert (HV : valid_scheduling d S) by (destruct (b_sol b); cbn in ES, H2; try discriminate; injection ES as <-; tauto).
  apply bindo_ok in H as ([ns t] & Ep & H). cbn [fst snd] in H.
  destruct (pick_neighbors_ok _ _ _ _ _ _ _ _ _ HFair (valid_is_shaped P S HV) Ep) as (Hn & _).
  apply bindo_ok in H as ([[[[all found] b1] h1] ev1] & Ee & H).
  apply explore_sharp in Ee as [E1 E2]; [|intros n Hin; destruct (Hn n Hin) as ([HL _] & Hf & _); eapply feasible_valid; eauto|split; auto; split; auto; congruence|exact Hh].
  destruct (all && found); [eapply IH; eauto|]. injection H as <- <- <-. auto.
Qed.
Lemma hill_sharp tn S h sol h' ev : sharp h -> valid_scheduling d S -> hill_solve pr P w deadline tn S h = Some (Ok (sol, h', ev)) -> sharp h'.
Proof.
  intros Hh HV H. unfold hill_solve in H. apply bindo_ok in H as ([[sol1 h1] e] & Ec & H). apply bindo_ok in H as (sc & _ & H).
  apply candidate_sharp in Ec as (C1 & C2 & C3); auto. destruct (score_finite sc); cbn [negb] in H.
  - apply bindo_ok in H as ([[b h2] ev2] & Eb & H). injection H as <- <- <-. apply climb_sharp in Eb; auto. split; [apply C1|]. split; auto. cbn. congruence.
  - injection H as <- <- <-. auto.
Qed.
Lemma iterate_sharp tn : forall number g k g' ev, sharp (sg_climber g) -> iterate pr P w deadline tn number g = Some (Ok (k, g', ev)) -> sharp (sg_climber g').
Proof.
  induction number as [|number IH]; intros g k g' ev Hg H; cbn [iterate] in H; [injection H as <- <- <-; auto|].
  destruct (deadline && w_late w (sg_tick g)); [injection H as <- <- <-; auto|].
  apply bindo_ok in H as (n & En & H). destruct (nx_sched n) as [S|] eqn:ES; [|injection H as <- <- <-; auto].
  apply bindo_ok in H as ([[sol h] ev1] & Eh & H).
  assert (HV : valid_scheduling d S). { destruct (next_feasible _ _ _ _ _ _ _ _ _ _ _ En ES) as [HL Hf]. eapply feasible_valid; eauto. }
  apply hill_sharp in Eh; auto. apply bindo_ok in H as (sc & Es & H). apply bindo_ok in H as ([[k1 g1] ev2] & Ei & H). apply IH in Ei; auto.
  apply some_inj, ok_inj in H. assert (EE : g' = g1) by congruence. subst. auto.
Qed.
End Worker.

Definition sharp_session (s : session) : Prop := forall wk, In wk (se_workers s) -> sharp (sg_climber (wk_gun wk)).
Lemma session_sharp ws threads tr s : working ws -> (forall i, optimal_lp (w_env (ws i))) -> moves pr P ws (start P threads) tr s -> sharp_session s.
Proof.
  intros HWs HOp M. assert (H0 : sharp_session (start P threads)).
  { intros wk Hin. apply repeat_spec in Hin. subst. apply new_sharp. }
  revert H0. induction M as [|a l b t c M Ms IH]; auto. intros H0. apply IH. destruct M as [s i wk ls wk' E M|s]; auto. intros x Hx. cbn in Hx. apply in_upd in Hx as [->|Hx]; auto.
  pose proof (H0 wk (nth_error_In _ _ E)) as A. destruct (HWs i) as (W1 & W2 & W3).
  destruct M; cbn [wk_gun sg_climber] in *; auto. eapply iterate_sharp; [exact W1|apply HOp|exact W2|exact A|eassumption].
Qed.
End Session.
