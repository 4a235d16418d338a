(** Candidates of the local search: their shape and what a finite score means. *)
From Verif Require Import Base M_Data Spec M_Scoring P_Scoring P_Feasible P_Score M_Rng P_Rng M_Critical M_Search M_Flow P_Sums
  P_Search1 P_Search2 P_Search3 P_Search4 P_Search5 P_Flow3 P_Flow4 P_Flow5 Spec_Calls P_Flow7 M_Climb Spec_Climb P_Climb1.
From Coq Require Import Permutation.
Local Notation np d := (length (i_choosers d)).
Local Notation nc d := (length (i_choices d)).
Local Notation ns d := (length (i_slots d)).

(** ** The order on the scores of one mode *)
Definition in_mode (g : bool) (sc : score) : Prop := score_finite sc = true -> is_nan (sc_major sc) = g.
Definition score_le (a b : score) : Prop := score_cmp a b <> Gt.
Lemma score_le_refl a : score_le a a.
Proof. unfold score_le. pose proof (score_cmp_refl a). congruence. Qed.
Lemma score_lt_le a b : score_lt a b = true -> score_le a b.
Proof. intros H. apply score_lt_iff in H. unfold score_le. congruence. Qed.
Lemma score_not_lt a b : score_lt a b = false -> score_le b a.
Proof.
  intros H F. rewrite score_cmp_antisym in F. destruct (score_cmp a b) eqn:E; cbn in F; try discriminate.
  apply score_lt_iff in E. congruence.
Qed.
Lemma score_le_not_lt a b : score_le b a -> score_lt a b = false.
Proof.
  unfold score_le. intros H. destruct (score_lt a b) eqn:E; auto. apply score_lt_iff in E. rewrite score_cmp_antisym, E in H. destruct H. auto.
Qed.
Lemma score_lt_finite a b : score_lt a b = true -> score_finite a = true.
Proof. intros H. apply score_lt_iff in H. destruct (score_finite a) eqn:E; auto. destruct (score_nonfinite_worst a b E). contradiction. Qed.
Lemma score_le_finite a b : score_le a b -> score_finite b = true -> score_finite a = true.
Proof.
  unfold score_le. intros H Hb. destruct (score_finite a) eqn:E; auto. destruct (score_nonfinite_worst a b E) as [_ F]. rewrite F in H; auto.
Qed.
Lemma score_infinite_last a : score_finite a = false -> forall b, score_le b a.
Proof. intros H b. unfold score_le, score_cmp. rewrite H. destruct (score_finite b); discriminate. Qed.
Lemma le_trans_mode g a b c : in_mode g a -> in_mode g b -> in_mode g c -> score_le a b -> score_le b c -> score_le a c.
Proof.
  intros Ma Mb Mc H1 H2. destruct (score_finite c) eqn:Fc; [|apply score_infinite_last; auto].
  pose proof (score_le_finite _ _ H2 Fc) as Fb. pose proof (score_le_finite _ _ H1 Fb) as Fa.
  unfold score_le. eapply score_le_trans; eauto; unfold same_mode; rewrite ?(Ma Fa), ?(Mb Fb), ?(Mc Fc); auto.
Qed.
Lemma lt_le_mode g a b c : in_mode g a -> in_mode g b -> in_mode g c -> score_lt a b = true -> score_le b c -> score_lt a c = true.
Proof.
  intros Ma Mb Mc H1 H2. destruct (score_lt a c) eqn:E; auto. apply score_not_lt in E.
  pose proof (le_trans_mode g b c a Mb Mc Ma H2 E) as F. apply score_le_not_lt in F. congruence.
Qed.
Lemma le_lt_mode g a b c : in_mode g a -> in_mode g b -> in_mode g c -> score_le a b -> score_lt b c = true -> score_lt a c = true.
Proof.
  intros Ma Mb Mc H1 H2. destruct (score_lt a c) eqn:E; auto. apply score_not_lt in E.
  pose proof (le_trans_mode g c a b Mc Ma Mb E H1) as F. apply score_le_not_lt in F. congruence.
Qed.
Lemma infinite_mode g : in_mode g score_infinite. Proof. intros H. discriminate. Qed.
Section NoNan.
Import SpecFloat.
Lemma shr_1_nonneg r : (0 <= shr_m r)%Z -> (0 <= shr_m (shr_1 r))%Z.
Proof. destruct r as [m a b]. cbn. destruct m as [|[p|p|]|[p|p|]]; cbn; lia. Qed.
Lemma iter_nonneg n : forall r, (0 <= shr_m r)%Z -> (0 <= shr_m (iter_pos shr_1 n r))%Z.
Proof. induction n as [n IH|n IH|]; intros r H; cbn [iter_pos]; auto using shr_1_nonneg. Qed.
Lemma shr_fexp_nonneg m e l : (0 <= m)%Z -> (0 <= shr_m (fst (shr_fexp prec32 emax32 m e l)))%Z.
Proof.
  intros H. unfold shr_fexp, shr. assert (H0 : (0 <= shr_m (shr_record_of_loc m l))%Z) by (destruct l as [|[]]; cbn; auto).
  destruct (fexp prec32 emax32 (Zdigits2 m + e) - e)%Z; cbn [fst]; auto. apply iter_nonneg. auto.
Qed.
Lemma f32_of_N_no_nan n : is_nan (f32_of_N n) = false.
Proof.
  unfold f32_of_N, f32_of_Z, binary_normalize. destruct (Z.of_N n) as [|p|p] eqn:E; auto; [|lia].
  unfold binary_round. destruct (shl_align p 0 _) as [m e]. unfold binary_round_aux.
  destruct (shr_fexp prec32 emax32 (Z.pos m) e loc_Exact) as [r1 e1] eqn:E1.
  pose proof (shr_fexp_nonneg (Z.pos m) e loc_Exact ltac:(lia)) as H1. rewrite E1 in H1. cbn [fst] in H1.
  destruct (shr_fexp prec32 emax32 (round_nearest_even (shr_m r1) (loc_of_shr_record r1)) e1 loc_Exact) as [r2 e2] eqn:E2.
  assert (H2 : (0 <= round_nearest_even (shr_m r1) (loc_of_shr_record r1))%Z).
  { unfold round_nearest_even. destruct (loc_of_shr_record r1) as [|[]]; try destruct (Z.even (shr_m r1)); lia. }
  pose proof (shr_fexp_nonneg _ e1 loc_Exact H2) as H3. rewrite E2 in H3. cbn [fst] in H3.
  destruct (shr_m r2); auto; [|lia]. destruct (e2 <=? emax32 - prec32)%Z; auto.
Qed.
End NoNan.
Lemma evaluate_mode pr pow g d sol sc : evaluate pr pow g d sol = Ok sc -> in_mode g sc.
Proof.
  destruct sol as [|S|S A]; cbn [evaluate]; try (intros E; injection E as <-; apply infinite_mode).
  intros E F. apply bind_ok in E as (mj & E1 & E). apply bind_ok in E as (mn & E2 & E).
  destruct ((is_fin mj || is_nan mj) && is_fin mn) eqn:EB; injection E as <-; [|discriminate]. cbn [sc_major].
  destruct g; [injection E1 as <-; auto|]. apply bind_ok in E1 as (m & _ & E1). injection E1 as <-. apply f32_of_N_no_nan.
Qed.

(** ** Shape of assignments *)
Definition rows_ok (d : input_data) (A : assignment) : Prop :=
  length A = np d /\ forall p row, nth_error A p = Some row -> length row = ns d.
Lemma decode_rows d sd st f x A : decode d sd st f x = Ok A -> rows_ok d A.
Proof.
  intros H. pose proof (mmap_length _ _ _ H) as HL. rewrite seq_length in HL. split; auto. intros p row Hp.
  assert (Hlt : p < np d) by (rewrite <- HL; apply nth_error_Some; congruence).
  destruct (mmap_nth _ _ _ p p H) as (row' & E1 & E2).
  { rewrite nth_error_nth' with (d := 0) by (rewrite seq_length; auto). rewrite seq_nth by auto. auto. }
  rewrite Hp in E1. injection E1 as <-. apply mmap_length in E2. rewrite seq_length in E2. auto.
Qed.
Lemma limit_rows pr d sd cost ev dl st limit t A t' : solve_with_limit pr d sd cost ev dl st limit t = Ok (LFeasible A, t') -> rows_ok d A.
Proof.
  unfold solve_with_limit. destruct (dl && ev_expired ev t); [discriminate|]. intros H. apply bind_ok in H as (f & _ & H).
  destruct (dl && ev_expired ev (t + 1)); [discriminate|]. destruct (ev_lp ev (t + 2) f).
  - apply bind_ok in H as (B & HB & H). injection H as <- <-. eapply decode_rows; eauto.
  - destruct (dl && ev_expired ev (t + 3)); discriminate.
Qed.
Lemma levels_rows pr d sd cost ev dl st levels start fuel : forall low high best o t r o' t',
  (forall A, best = Some A -> rows_ok d A) ->
  level_search (solve_with_limit pr d sd cost ev dl st) levels start fuel low high best o t = Some (Ok (r, o', t')) ->
  forall A, r = Some A -> rows_ok d A.
Proof.
  induction fuel as [|fuel IH]; intros low high best o t r o' t' HB H A HA; cbn [level_search] in H.
  - destruct (negb (low <=? high)); [|discriminate]. injection H as <- <- <-. auto.
  - destruct (negb (low <=? high)); [injection H as <- <- <-; auto|].
    destruct (get levels (low + (high - low) / 2)) as [limit| |]; try discriminate.
    destruct (solve_with_limit pr d sd cost ev dl st limit t) as [[[B| |] t1]| |] eqn:E; try discriminate.
    + apply limit_rows in E. destruct (low + (high - low) / 2 =? start).
      * injection H as <- <- <-. injection HA as <-. auto.
      * eapply (IH low _ (Some B)); eauto. intros C EC. injection EC as <-. auto.
    + eapply IH; eauto.
    + eapply IH; eauto.
Qed.
Definition cache_rows (d : input_data) (sv : solver) : Prop := forall S A o, sv_cache sv = Some (S, A, o) -> rows_ok d A.
Lemma until_rows pr d sd cost g bound ev dl sv S t a : cache_rows d sv -> solve_until pr d sd cost g bound ev dl sv S t = Some (Ok a) ->
  cache_rows d (ar_solver a) /\ forall A, ar_result a = Some A -> rows_ok d A.
Proof.
  intros HC H. apply solve_until_inv in H as (st & _ & _ & [(_ & E1 & A & E2 & E3)|(_ & EF & EC)]).
  - split; [intros S0 A0 o0; rewrite E1; apply HC|]. intros B HB. rewrite E3 in HB. injection HB as <-. eapply HC; eauto.
  - assert (HR : forall A, ar_result a = Some A -> rows_ok d A).
    { unfold fresh in EF. destruct g.
      - apply some_inj in EF. apply bind_ok in EF as ([[A| |] t'] & EL & EF); apply ok_inj in EF; subst a; intros B HB; cbn in HB; try discriminate.
        injection HB as <-. eapply limit_rows; eauto.
      - destruct (length (i_levels d)) as [|last]; [injection EF as <-; discriminate|].
        destruct (level_search _ _ _ _ _ _ _ _ _) as [[[[best optimal] t']| |]|] eqn:EL; try discriminate. apply some_inj, ok_inj in EF. subst a.
        intros A HA. assert (E : ar_result (finish best st optimal sv t') = best) by (destruct best; auto). rewrite E in HA.
        eapply levels_rows; eauto. intros; discriminate. }
    split; auto. intros S0 A0 o0 H0. destruct EC as [E|(B & EB & _ & E)]; rewrite E in H0.
    + eapply HC; eauto.
    + injection H0 as _ <- _. auto.
Qed.

(** ** A solution that respects everything has the right sums *)
Lemma respects_sums d S A : wf_input d -> length S = nc d -> respects_all d S A -> forall s, s < ns d ->
  (slot_sum ch_min (i_choices d) S s <= N.of_nat (np d) /\ N.of_nat (np d) <= slot_sum ch_max (i_choices d) S s)%N.
Proof.
  intros HW HL HR s Hs. destruct (ra_one _ _ _ HR) as [HA HO].
  set (here := fun c => match nth_error S c with Some (Some t) => t =? s | _ => false end).
  assert (Hhere : forall c, here c = true <-> scheduled_in S c s).
  { intros c. unfold here, scheduled_in. destruct (nth_error S c) as [[t|]|]; try (split; congruence). rewrite Nat.eqb_eq. split; congruence. }
  set (cnt := fun c => zsum (fun p => if goes A p c then 1%Z else 0%Z) (seq 0 (np d))).
  assert (Hcard : forall c m, cardinal (fun p => attends A p c) m -> cnt c = Z.of_nat m).
  { intros c m Hm. unfold cnt. rewrite zsum_count. f_equal. apply (cardinal_unique (fun p => attends A p c)); auto.
    exists (filter (fun p => goes A p c) (seq 0 (np d))). split; [apply NoDup_filter, seq_NoDup|]. split; auto.
    intros p. rewrite filter_In, in_seq, goes_iff. split; [tauto|]. intros Hp. split; auto. split; [lia|]. cbn.
    destruct Hp as (row & Hrow & _). apply nth_error_lt in Hrow. lia. }
  assert (Htot : zsum (fun c => if here c then cnt c else 0%Z) (seq 0 (nc d)) = Z.of_nat (np d)).
  { transitivity (zsum (fun c => zsum (fun p => if here c then if goes A p c then 1%Z else 0%Z else 0%Z) (seq 0 (np d))) (seq 0 (nc d))).
    { apply zsum_ext. intros c _. destruct (here c); auto. symmetry. apply zsum_zero. auto. }
    rewrite zsum_swap. rewrite <- (seq_length (np d) 0) at 2. rewrite <- zsum_ones. apply zsum_ext. intros p Hp. apply in_seq in Hp.
    destruct (nth_error A p) as [row|] eqn:Er; [|apply nth_error_None in Er; lia].
    destruct (HO p row Er) as (_ & _ & Hone). destruct (Hone s Hs) as (c & [Hc Hsc] & Huniq).
    rewrite (zsum_one _ _ c); [|apply seq_NoDup|apply in_seq; apply nth_error_lt in Hsc; lia|].
    - apply Hhere in Hsc. rewrite Hsc. assert (G : goes A p c = true) by (apply goes_iff; exists row; auto). rewrite G. auto.
    - intros c' _ Hne. destruct (here c') eqn:Eh; auto. destruct (goes A p c') eqn:Eg; auto. exfalso. apply Hne. symmetry. apply Huniq.
      apply Hhere in Eh. apply goes_iff in Eg as (row' & Er' & Hin). rewrite Er in Er'. injection Er' as <-. auto. }
  assert (Hsum : forall f (le : Z -> Z -> Prop), (forall x, le x x) -> (forall a b c e, le a b -> le c e -> le (a + c)%Z (b + e)%Z) ->
     (forall c ch, nth_error (i_choices d) c = Some ch -> scheduled_in S c s -> le (Z.of_N (f ch)) (cnt c)) ->
     le (Z.of_N (slot_sum f (i_choices d) S s)) (zsum (fun c => if here c then cnt c else 0%Z) (seq 0 (nc d)))).
  { intros f le Hrefl Hadd Hle. rewrite slot_sum_lsum by auto.
    assert (G : forall l, (forall c, In c l -> c < nc d) -> le (Z.of_N (lsum (contrib f (i_choices d) S s) l)) (zsum (fun c => if here c then cnt c else 0%Z) l)).
    { induction l as [|c l IH]; intros Hl; [apply Hrefl|]. rewrite lsum_cons, zsum_cons, N2Z.inj_add. apply Hadd; [|apply IH; intros; apply Hl; right; auto].
      assert (Hc : c < nc d) by (apply Hl; left; auto).
      destruct (nth_error (i_choices d) c) as [ch|] eqn:Ech; [|apply nth_error_None in Ech; lia].
      unfold contrib. rewrite Ech. unfold here, weigh. destruct (nth_error S c) as [[t|]|] eqn:ES.
      - destruct (Nat.eqb_spec t s) as [->|]; [apply Hle; auto|apply Hrefl].
      - apply Hrefl.
      - apply Hrefl. }
    apply G. intros c Hc. apply in_seq in Hc. lia. }
  pose proof (ra_bounds _ _ _ HR) as HB. split.
  - pose proof (Hsum ch_min Z.le Z.le_refl ltac:(intros; lia)) as G. rewrite Htot in G.
    assert (X : (Z.of_N (slot_sum ch_min (i_choices d) S s) <= Z.of_nat (np d))%Z); [|lia]. apply G.
    intros c ch Hch Hsc. destruct (HB c ch Hch (ex_intro _ s Hsc)) as (m & Hm & H1 & H2). rewrite (Hcard _ _ Hm). lia.
  - pose proof (Hsum ch_max Z.ge ltac:(intros; lia) ltac:(intros; lia)) as G. rewrite Htot in G.
    assert (X : (Z.of_N (slot_sum ch_max (i_choices d) S s) >= Z.of_nat (np d))%Z); [|lia]. apply G.
    intros c ch Hch Hsc. destruct (HB c ch Hch (ex_intro _ s Hsc)) as (m & Hm & H1 & H2). rewrite (Hcard _ _ Hm). lia.
Qed.

(** ** Candidates *)
Definition sched_ok (d : input_data) (S : scheduling) : Prop :=
  shaped d S /\ forall c ch, nth_error (i_choices d) c = Some ch -> not_held S c -> ch_optional ch = true.
Definition cand_ok (d : input_data) (sol : solution) : Prop :=
  match sol with
  | SolInvalid => True
  | SolScheduling sch => sched_ok d sch
  | SolComplete sch A => sched_ok d sch /\ rows_ok d A
  end.
Lemma finite_valid pr pow g d sol sc : fits d -> wf_input d -> cand_ok d sol -> evaluate pr pow g d sol = Ok sc -> score_finite sc = true ->
  exists S A, sol = SolComplete S A /\ valid_solution d S A.
Proof.
  intros HF HW HC HE Hf. destruct sol as [|S|S A]; try (cbn in HE; injection HE as <-; discriminate).
  destruct HC as [[[HL HR] HO] [HA HRow]]. exists S, A. split; auto.
  pose proof (sol_is_feasible_sound d S A HF HW HL HA HRow (evaluate_finite_feasible pr pow g d S A sc HE Hf)) as HRA.
  constructor; auto. constructor; auto.
  - intros s Hs. eapply respects_sums; eauto.
  - apply (ra_sched _ _ _ HRA).
Qed.
Lemma feasible_ok pr d S : fits d -> wf_input d -> length S = nc d -> sched_is_feasible pr d S = Ok true -> sched_ok d S.
Proof. intros HF HW HL H. destruct (sched_is_feasible_sound pr d S HF HW HL H) as (H1 & H2 & _). split; [split|]; auto. Qed.
Lemma is_neighbor_ok pr d S n : fits d -> wf_input d -> is_neighbor pr d S n -> sched_ok d n.
Proof. intros HF HW ([HL _] & H & _). eapply feasible_ok; eauto. Qed.

(** What the scheduling search yields, in both profiles. *)
Lemma to_scheduling_length d slots S : slots_to_scheduling d slots = Ok S -> length S = nc d.
Proof.
  unfold slots_to_scheduling. intros H. apply (mfold_inv (fun S : scheduling => length S = nc d)) in H; auto; [apply repeat_length|].
  intros b x b' _ Hb Hx. apply (mfold_inv (fun S : scheduling => length S = nc d)) in Hx; auto.
  intros c y c' _ Hc Hy. apply set_ok in Hy as [_ ->]. rewrite upd_length. auto.
Qed.
Lemma solve_found_feasible pr d o late sets t fuel slots t' :
  solve_scheduling pr d o late sets t fuel = Some (Ok (SFound slots, t')) ->
  exists S, slots_to_scheduling d slots = Ok S /\ sched_is_feasible pr d S = Ok true.
Proof.
  unfold solve_scheduling. destruct (max_suffix pr d (choice_scramble d o t)) as [suffix| |]; try discriminate.
  generalize (mkMach (new_state (length (i_choices d)) (length (i_slots d))) [] 0 (Datatypes.S t)) as m.
  induction fuel as [|fuel IH]; intros m H; [discriminate|]. cbn [M_Search.run] in H.
  destruct (step pr d o late sets (choice_scramble d o t) suffix m) as [[m'|r t1]| |] eqn:E; try discriminate; [eauto|].
  injection H as -> ->. unfold step in E. destruct (m_depth m <? length (choice_scramble d o t)).
  - destruct (late (m_tick m)); [discriminate|]. apply bind_ok in E as (choice & _ & E). apply bind_ok in E as (stack & _ & E).
    destruct stack as [|bucket rest]; [discriminate|]. destruct (negb (length rest =? m_depth m)); [discriminate|].
    destruct bucket as [|x bucket].
    + destruct (m_depth m); [discriminate|]. apply bind_ok in E as (prev & _ & E). apply bind_ok in E as (st & _ & E). discriminate.
    + apply bind_ok in E as (st & _ & E). discriminate.
  - apply bind_ok in E as (r & Er & E). injection E as -> _. unfold leaf in Er.
    apply bind_ok in Er as (res & _ & Er). apply bind_ok in Er as (sch & Es & Er). apply bind_ok in Er as (ok & Eo & Er).
    destruct ok; [|discriminate]. injection Er as <-. exists sch. auto.
Qed.
Lemma next_feasible pr d o a deadline cs sfuel fuel tick n S : 
  next_scheduling pr d o a deadline cs sfuel fuel tick = Some (Ok n) -> nx_sched n = Some S ->
  length S = nc d /\ sched_is_feasible pr d S = Ok true.
Proof.
  unfold next_scheduling. destruct (next_in_range pr (o_sample o tick) 0 pref_relaxation) as [z| |]; try discriminate.
  generalize (if (z =? 0)%Z then i_max_pref d else an_bound a) as limit. generalize (Datatypes.S tick) as t. clear.
  revert n. induction fuel as [|fuel IH]; intros n t limit H HS; [discriminate|]. cbn [relax] in H.
  destruct (negb (limit =? i_max_pref d)%N && (cs <? 0)%Z); [discriminate|].
  destruct (solve_scheduling pr d o (late_at d o deadline limit) (for_preference a limit) t sfuel) as [[[r t']| |]|] eqn:ES; try discriminate.
  destruct (result_slots r) as [|s0 slots] eqn:ER.
  - destruct (limit =? i_max_pref d)%N.
    + injection H as <-. discriminate.
    + destruct (relax pr d o a deadline cs sfuel fuel (preference_after d limit) t') as [[n'| |]|] eqn:EN; try discriminate.
      injection H as <-. cbn in HS. eapply IH; eauto.
  - destruct r as [sl| | |]; try discriminate. cbn in ER. subst sl.
    apply solve_found_feasible in ES as (sch & E1 & HF). rewrite E1 in H. cbn in H. injection H as <-.
    cbn in HS. injection HS as <-. split; auto. eapply to_scheduling_length; eauto.
Qed.
