(** The scheduling search: leaves, totality of whole runs, and C11. *)
From Verif Require Import Base M_Data Spec M_Scoring P_Scoring P_Feasible Spec_Search M_Rng M_Critical M_Search P_Sums P_Rng P_Search1 P_Search2.
From Coq Require Import Permutation.

Lemma set_ok_eq {A} (l : list A) i x : i < length l -> set l i x = Ok (upd l i x).
Proof. intros H. unfold set. destruct (Nat.ltb_spec i (length l)); auto; lia. Qed.

Lemma nth_error_ext {A} (l : list A) : forall m, (forall i, nth_error l i = nth_error m i) -> l = m.
Proof.
  induction l as [|a l IH]; intros [|b m] H; auto; try (specialize (H 0); discriminate).
  pose proof (H 0) as H0. cbn in H0. injection H0 as ->. f_equal. apply IH. intros i. apply (H (Datatypes.S i)).
Qed.

(** Writing one slot's list. *)
Lemma write_list s l : forall sch : scheduling, (forall c, In c l -> c < length sch) ->
  exists sch', mfold (fun sch c => set sch c (Some s)) l sch = Ok sch' /\ length sch' = length sch /\
    forall c, nth_error sch' c = if existsb (Nat.eqb c) l then (if c <? length sch then Some (Some s) else None) else nth_error sch c.
Proof.
  induction l as [|a l IH]; intros sch H; cbn [mfold].
  - exists sch; repeat split; auto.
  - rewrite set_ok_eq by (apply H; left; auto). cbn [bind].
    destruct (IH (upd sch a (Some s))) as (sch' & E & L & V). { intros c Hc. rewrite upd_length. apply H; right; auto. }
    exists sch'. split; auto. rewrite upd_length in *. split; auto. intros c. rewrite V. cbn [existsb].
    destruct (existsb (Nat.eqb c) l); [rewrite orb_true_r; auto|]. rewrite orb_false_r, nth_error_upd.
    rewrite (Nat.eqb_sym c a). destruct (Nat.eqb_spec a c) as [->|]; auto.
Qed.

Lemma slots_to_scheduling_ok d slots : (forall l c, In l slots -> In c l -> c < length (i_choices d)) ->
  exists sch, slots_to_scheduling d slots = Ok sch /\ length sch = length (i_choices d) /\
    (forall c s, scheduled_in sch c s -> s < length slots).
Proof.
  intros H. unfold slots_to_scheduling.
  assert (G : forall l k (sch : scheduling), (forall x c, In x l -> In c x -> c < length (i_choices d)) -> length sch = length (i_choices d) ->
    (forall c s, scheduled_in sch c s -> s < k) ->
    exists r, mfold (fun sch si => mfold (fun sch c => set sch c (Some (fst si))) (snd si) sch) (combine (seq k (length l)) l) sch = Ok r /\
      length r = length (i_choices d) /\ forall c s, scheduled_in r c s -> s < k + length l).
  { induction l as [|x l IH]; intros k sch Hl HL HR; cbn [length seq combine mfold].
    - exists sch. repeat split; auto. intros. specialize (HR _ _ H0). lia.
    - cbn [fst snd]. destruct (write_list k x sch) as (sch' & -> & L' & V'). { intros c Hc. rewrite HL. eapply Hl; [left; auto|auto]. }
      cbn [bind]. destruct (IH (Datatypes.S k) sch') as (r & E & Lr & Vr).
      + intros; eapply Hl; eauto. right; auto.
      + congruence.
      + intros c s Hc. unfold scheduled_in in Hc. rewrite V' in Hc. destruct (existsb _ _).
        * destruct (c <? length sch); [injection Hc as <-; lia|discriminate].
        * specialize (HR c s Hc). lia.
      + exists r. repeat split; auto. intros c s Hc. specialize (Vr c s Hc). lia. }
  destruct (G slots 0 (repeat None (length (i_choices d)))) as (r & E & L & V); auto.
  - apply repeat_length.
  - intros c s Hc. apply nth_error_repeat_inv in Hc as [E _]. discriminate.
  - exists r. repeat split; auto.
Qed.

(** Converting the decisions to slots and back yields where they put the choices. *)
Lemma slots_round_trip d dec slots : length dec = length (i_choices d) ->
  (forall c s, nth_error dec c = Some (InSlot s) -> s < length (i_slots d)) ->
  convert_decisions d dec = Ok slots -> slots_to_scheduling d slots = Ok (placed dec).
Proof.
  intros HL HR HC. destruct (convert_total d dec HL HR) as (r & E & Lr & Vr). rewrite E in HC. injection HC as ->.
  unfold slots_to_scheduling.
  assert (G : forall l k (sch : scheduling), k + length l = length (i_slots d) ->
    (forall i b, nth_error l i = Some b -> b = filter (in_slotb (placed dec) (k + i)) (seq 0 (length dec))) ->
    length sch = length (i_choices d) ->
    (forall c x, nth_error (placed dec) c = Some x -> nth_error sch c = Some (match x with Some t => if t <? k then Some t else None | None => None end)) ->
    mfold (fun sch si => mfold (fun sch c => set sch c (Some (fst si))) (snd si) sch) (combine (seq k (length l)) l) sch = Ok (placed dec)).
  { induction l as [|x l IH]; intros k sch HK Hb HLs HV; cbn [length seq combine mfold].
    - f_equal. apply nth_error_ext. intros c. destruct (nth_error (placed dec) c) as [y|] eqn:Ey.
      + rewrite (HV c y Ey). f_equal. destruct y as [t|]; auto. cbn in HK. destruct (Nat.ltb_spec t k); auto.
        unfold placed in Ey. rewrite nth_error_map in Ey. destruct (nth_error dec c) as [q|] eqn:Eq; [|discriminate]. cbn in Ey.
        destruct q; cbn in Ey; try congruence. injection Ey as ->. specialize (HR _ _ Eq). lia.
      + apply nth_error_None in Ey. rewrite placed_length in Ey. apply nth_error_None. lia.
    - cbn [fst snd length] in *. pose proof (Hb 0 x eq_refl) as Hx. rewrite Nat.add_0_r in Hx.
      destruct (write_list k x sch) as (sch' & -> & L' & V').
      { intros c Hc. subst x. apply filter_In in Hc as [Hc _]. apply in_seq in Hc. lia. }
      cbn [bind]. apply IH; try lia.
      + intros i b Hi. replace (Datatypes.S k + i) with (k + Datatypes.S i) by lia. apply Hb. auto.
      + intros c y Hy. rewrite V'.
        assert (Hc : c < length dec). { apply nth_error_lt in Hy. rewrite placed_length in Hy. auto. }
        assert (EB : existsb (Nat.eqb c) x = opt_nat_eqb y (Some k)).
        { apply eq_true_iff_eq. rewrite existsb_exists, opt_nat_eqb_spec. subst x. split.
          - intros (z & Hz & Ez). apply Nat.eqb_eq in Ez. subst z. apply filter_In in Hz as [_ Hz]. apply in_slotb_spec in Hz. unfold scheduled_in in Hz. congruence.
          - intros ->. exists c. split; [|apply Nat.eqb_refl]. apply filter_In. split; [apply in_seq; lia|]. apply in_slotb_spec. auto. }
        rewrite EB. destruct y as [t|]; cbn [opt_nat_eqb].
        * destruct (Nat.eqb_spec t k) as [->|Hne].
          -- destruct (Nat.ltb_spec c (length sch)); [|lia]. destruct (Nat.ltb_spec k (Datatypes.S k)); auto; lia.
          -- rewrite (HV c _ Hy). destruct (Nat.ltb_spec t k), (Nat.ltb_spec t (Datatypes.S k)); auto; lia.
        * apply (HV c _ Hy). }
  apply (G slots 0).
  - lia.
  - intros i b Hi. apply (Vr i b Hi).
  - apply repeat_length.
  - intros c x Hx. apply nth_error_lt in Hx as Hlt. rewrite placed_length in Hlt. rewrite nth_error_repeat_lt by lia. destruct x; auto.
Qed.

(** ** Leaves *)
Lemma placed_range pr d st : state_ok pr d st -> forall c s, scheduled_in (placed (st_dec st)) c s -> s < length (i_slots d).
Proof.
  intros HST c s H. unfold scheduled_in, placed in H. rewrite nth_error_map in H. destruct (nth_error (st_dec st) c) as [x|] eqn:E; [|discriminate].
  cbn in H. destruct x; cbn in H; try congruence. injection H as ->. eapply so_slots; eauto.
Qed.
Lemma leaf_inv pr d st r : state_ok pr d st -> leaf pr d st = Ok r ->
  exists slots b, convert_decisions d (st_dec st) = Ok slots /\ slots_to_scheduling d slots = Ok (placed (st_dec st)) /\
    length slots = length (i_slots d) /\
    sched_is_feasible pr d (placed (st_dec st)) = Ok b /\ r = if b then SFound slots else SRejected.
Proof.
  intros HST H. unfold leaf in H. apply bind_ok in H as (slots & Hc & H).
  pose proof (slots_round_trip d _ slots (so_len _ _ _ HST) (so_slots _ _ _ HST) Hc) as E. rewrite E in H. cbn [bind] in H.
  apply bind_ok in H as (b & Hb & H). injection H as <-. exists slots, b. repeat split; auto.
  destruct (convert_total d _ (so_len _ _ _ HST) (so_slots _ _ _ HST)) as (r' & E' & L & _). congruence.
Qed.
Lemma totals_sums d S : totals_fit d -> length S = length (i_choices d) -> sums_fit d S.
Proof.
  intros [A B] HL s. split; (etransitivity; [apply slot_sum_total; auto|]; auto).
Qed.
Lemma leaf_total pr d st : wf_input d -> fits d -> totals_fit d -> state_ok pr d st -> exists r, leaf pr d st = Ok r.
Proof.
  intros HW HF HT HST. unfold leaf.
  destruct (convert_total d _ (so_len _ _ _ HST) (so_slots _ _ _ HST)) as (slots & E & _). rewrite E. cbn [bind].
  rewrite (slots_round_trip d _ slots (so_len _ _ _ HST) (so_slots _ _ _ HST) E). cbn [bind].
  destruct (sched_is_feasible_exact pr d (placed (st_dec st)) HF HW) as (b & Eb & _).
  - rewrite placed_length. apply (so_len _ _ _ HST).
  - apply (placed_range _ _ _ HST).
  - apply totals_sums; auto. rewrite placed_length. apply (so_len _ _ _ HST).
  - rewrite Eb. cbn; eauto.
Qed.

(** ** Whole runs *)
Lemma run_inv pr d o late sets order suffix (P : mach -> Prop) : wf_input d -> fair o -> is_order d order ->
  (forall m m', inv pr d order m -> P m -> step pr d o late sets order suffix m = Ok (Continue m') -> P m') ->
  forall fuel m r t, inv pr d order m -> P m -> run pr d o late sets order suffix fuel m = Some (Ok (r, t)) ->
  exists m', inv pr d order m' /\ P m' /\ step pr d o late sets order suffix m' = Ok (Done r t).
Proof.
  intros HW HF HO HP. induction fuel as [|fuel IH]; intros m r t HI HPm H; [discriminate|]. cbn [run] in H.
  destruct (step pr d o late sets order suffix m) as [[m'|r' t']| |] eqn:E; try discriminate.
  - apply (IH m'); auto; [eapply step_keeps; eauto|eapply HP; eauto].
  - injection H as -> ->. eauto.
Qed.

Lemma step_total pr d o late sets order suffix m : wf_input d -> fits d -> searchable d -> fair o -> is_order d order ->
  (forall i, i <= length order -> nth_error suffix i = Some (lsum (max_of d) (skipn i order))) ->
  (forall s c, In s sets -> In c (set_data s) -> c < length (i_choices d)) ->
  inv pr d order m -> exists r, step pr d o late sets order suffix m = Ok r.
Proof.
  intros HW HFit HS HF HO HSuf HSets HI. pose proof HI as [I1 I2 I3 I4 I5]. unfold step.
  destruct (Nat.ltb_spec (m_depth m) (length order)) as [Hlt|Hge].
  2:{ destruct (leaf_total pr d (m_st m) HW HFit (sr_totals _ HS) I5) as [r ->]. cbn; eauto. }
  destruct (late (m_tick m)); eauto.
  destruct (nth_error_in_range order (m_depth m) Hlt) as [c Hc]. rewrite (proj2 (get_ok _ _ _) Hc). cbn [bind].
  assert (ES : exists bucket rest, (if length (m_stack m) <=? m_depth m
     then let* b := node_candidates pr d o sets suffix (Datatypes.S (m_tick m)) (m_st m) (m_depth m) c in Ok (b :: m_stack m)
     else Ok (m_stack m)) = Ok (bucket :: rest) /\ length rest = m_depth m /\ forall x, In x bucket -> cand_ok d c x).
  { destruct (Nat.leb_spec (length (m_stack m)) (m_depth m)) as [L|L].
    - destruct (candidates_total pr d HW HFit HS o sets order suffix HF HO HSuf HSets m c HI Hc (Datatypes.S (m_tick m))) as [l El].
      rewrite El. cbn [bind]. exists l, (m_stack m). repeat split; auto; [lia|]. apply (node_candidates_ok _ _ _ _ _ _ _ _ _ _ HF El).
    - destruct (m_stack m) as [|b rest]; cbn in L; [lia|]. exists b, rest. cbn in I2. repeat split; auto; [lia|].
      destruct I4 as [I4 _]. apply I4. replace (length rest) with (m_depth m) by lia. auto. }
  destruct ES as (bucket & rest & -> & Lr & HB). cbn [bind]. rewrite Lr, Nat.eqb_refl. cbn [negb].
  destruct bucket as [|next bucket].
  - destruct (m_depth m) as [|depth'] eqn:Ed; eauto.
    destruct (nth_error_in_range order depth') as [prev Hp]; [lia|]. rewrite (proj2 (get_ok _ _ _) Hp). cbn [bind].
    destruct (clear_ok pr d (m_st m) prev HW I5 (order_lt _ _ _ _ HO Hp)) as (st' & -> & _). cbn; eauto.
  - pose proof (order_lt _ _ _ _ HO Hc) as Hcl. assert (Hu : nth_error (st_dec (m_st m)) c = Some Undecided) by (apply (I3 _ _ Hc); auto).
    assert (EA : exists st, apply_decision pr d (m_st m) c next = Ok st).
    { unfold apply_decision, remove_sums. rewrite (proj2 (get_ok _ _ _) Hu). cbn [bind].
      pose proof (so_len _ _ _ I5) as HL.
      specialize (HB next (or_introl eq_refl)). destruct next as [s|].
      - destruct (nth_error_in_range (i_choices d) c Hcl) as [ch Hch]. rewrite (proj2 (get_ok _ _ _) Hch). cbn [bind].
        destruct (tracks_add_total pr ch_min d _ _ c Undecided s ch (so_min _ _ _ I5) Hu eq_refl HL Hch (proj1 (sr_totals _ HS)) HB) as [l1 ->]. cbn [bind].
        destruct (tracks_add_total pr ch_max d _ _ c Undecided s ch (so_max _ _ _ I5) Hu eq_refl HL Hch (proj2 (sr_totals _ HS)) HB) as [l2 ->]. cbn [bind].
        destruct (tracks_add_total pr one d _ _ c Undecided s ch (so_cnt _ _ _ I5) Hu eq_refl HL Hch (total_one_fits d HFit) HB) as [l3 E3].
        change (one ch) with 1%N in E3. rewrite E3. cbn [bind]. rewrite set_ok_eq by lia. cbn; eauto.
      - rewrite set_ok_eq by lia. cbn; eauto. }
    destruct EA as [st ->]. cbn; eauto.
Qed.

Lemma run_total pr d o late sets order suffix : wf_input d -> fits d -> searchable d -> fair o -> is_order d order ->
  (forall i, i <= length order -> nth_error suffix i = Some (lsum (max_of d) (skipn i order))) ->
  (forall s c, In s sets -> In c (set_data s) -> c < length (i_choices d)) ->
  forall fuel m, inv pr d order m -> cost d order m < fuel ->
  exists r t, run pr d o late sets order suffix fuel m = Some (Ok (r, t)).
Proof.
  intros HW HFit HS HF HO HSuf HSets. induction fuel as [|fuel IH]; intros m HI HC; [lia|]. cbn [run].
  destruct (step_total pr d o late sets order suffix m HW HFit HS HF HO HSuf HSets HI) as [[m'|r t] E]; rewrite E; eauto.
  apply IH.
  - eapply step_keeps; eauto.
  - pose proof (step_decreases _ _ _ _ _ _ _ _ _ HF HI E). lia.
Qed.

(** ** The order of the choices *)
Lemma insert_desc_perm key x l : Permutation (x :: l) (insert_desc key x l).
Proof. induction l as [|y l IH]; cbn; auto. destruct (key y <=? key x); auto. rewrite perm_swap. constructor; auto. Qed.
Lemma sort_desc_perm key l : Permutation l (sort_desc key l).
Proof. induction l as [|x l IH]; cbn; auto. rewrite <- insert_desc_perm. constructor; auto. Qed.
Lemma scramble_order d o t : fair o -> is_order d (choice_scramble d o t).
Proof. intros HF. unfold is_order, choice_scramble. rewrite <- sort_desc_perm. apply (fair_shuffle o HF). Qed.

Definition search_cost (d : input_data) : nat := fresh_cost (length (i_slots d) + 1) (length (i_choices d)).
Lemma start_cost d order t : is_order d order -> cost d order (start d t) = search_cost d.
Proof. intros HO. unfold cost, start, search_cost. cbn. rewrite (order_length _ _ HO). rewrite Nat.sub_0_r. lia. Qed.

Lemma solve_total pr d o late sets t fuel : wf_input d -> fits d -> searchable d -> fair o ->
  (forall s c, In s sets -> In c (set_data s) -> c < length (i_choices d)) -> search_cost d < fuel ->
  exists r t', solve_scheduling pr d o late sets t fuel = Some (Ok (r, t')).
Proof.
  intros HW HFit HS HF HSets Hfuel. unfold solve_scheduling. pose proof (scramble_order d o t HF) as HO. set (order := choice_scramble d o t) in *.
  destruct (max_suffix_ok pr d order) as (suffix & -> & _ & HSuf).
  { intros c Hc. apply (Permutation_in _ (Permutation_sym HO)), in_seq in Hc. lia. }
  { rewrite (order_total d order HO). apply (sr_totals _ HS). }
  apply run_total; auto; [apply start_inv; auto|]. fold (start d (Datatypes.S t)). rewrite start_cost; auto.
Qed.
(** Termination alone needs no range assumption. *)
Lemma solve_ends pr d o late sets t fuel : wf_input d -> fair o -> search_cost d < fuel ->
  exists r, solve_scheduling pr d o late sets t fuel = Some r.
Proof.
  intros HW HF Hfuel. unfold solve_scheduling. pose proof (scramble_order d o t HF) as HO. set (order := choice_scramble d o t) in *.
  destruct (max_suffix pr d order); eauto. apply run_ends; auto; [apply start_inv; auto|]. fold (start d (Datatypes.S t)). rewrite start_cost; auto.
Qed.

(** ** C11 *)
Lemma solve_found pr d o late sets t fuel slots t' : wf_input d -> fits d -> fair o ->
  pr = Debug \/ totals_fit d ->
  solve_scheduling pr d o late sets t fuel = Some (Ok (SFound slots, t')) ->
  exists S, slots_to_scheduling d slots = Ok S /\ valid_scheduling d S /\ length slots = length (i_slots d).
Proof.
  intros HW HFit HF HE H. unfold solve_scheduling in H. pose proof (scramble_order d o t HF) as HO. set (order := choice_scramble d o t) in *.
  destruct (max_suffix pr d order) as [suffix| |]; try discriminate.
  apply (run_inv _ _ _ _ _ _ _ (fun _ => True) HW HF HO) in H as (m & HI & _ & H); auto; [|apply start_inv; auto].
  apply step_inv in H as [(m' & c & b & r & E & _)|[(_ & _ & E)|[(c & r & E & _)|(_ & res & Hr & E)]]]; try discriminate.
  injection E as <- ->. destruct (leaf_inv _ _ _ _ (iv_state _ _ _ _ HI) Hr) as (sl & b & Hc & Hs & HL & Hb & E).
  destruct b; [|discriminate]. injection E as <-. exists (placed (st_dec (m_st m))). split; auto. split; auto.
  pose proof (so_len _ _ _ (iv_state _ _ _ _ HI)) as HLd. rewrite <- placed_length in HLd.
  destruct HE as [->|HT].
  - apply (sched_is_feasible_debug d _ HFit HW HLd Hb).
  - destruct (sched_is_feasible_exact pr d (placed (st_dec (m_st m))) HFit HW HLd (placed_range _ _ _ (iv_state _ _ _ _ HI)) (totals_sums _ _ HT HLd)) as (b & Eb & HV).
    rewrite Hb in Eb; injection Eb as <-. apply HV; auto.
Qed.
