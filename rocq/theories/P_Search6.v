(** When no complete scheduling is ever rejected (C12, full). *)
From Verif Require Import Base M_Data Spec M_Scoring P_Scoring P_Feasible Spec_Search M_Rng M_Critical M_Search P_Critical P_Sums P_Rng P_Search1 P_Search2 P_Search3 P_Search4 P_Search5.
From Coq Require Import Permutation Sorted.

Definition decide (x : option nat) : decision := match x with Some s => InSlot s | None => Omitted end.
Lemma decide_slot x : dec_slot (decide x) = x. Proof. destruct x; auto. Qed.
Lemma decide_decided x : decide x <> Undecided. Proof. destruct x; discriminate. Qed.

Definition complete (d : input_data) (dec : list decision) : Prop :=
  i_choices d <> [] /\ forall c, nth_error dec c <> Some Undecided.

(** Constraint [k] holds of the decisions made so far. *)
Definition so_far (d : input_data) (dec : list decision) (k : constraint) : Prop :=
  match c_kind k, c_right k, c_extra k with
  | ChoiceIsInSlot, TSlot s, _ => forall x, nth_error dec (c_left k) = Some x -> x <> Undecided -> dec_slot x = Some s
  | ChoiceIsNotInSlot, TSlot s, _ => forall x, nth_error dec (c_left k) = Some x -> x <> Undecided -> dec_slot x <> Some s
  | ChoicesAreInSameSlot, TChoice c', _ =>
      forall x y, nth_error dec (c_left k) = Some x -> nth_error dec c' = Some y -> x <> Undecided -> y <> Undecided -> dec_slot x = dec_slot y
  | ChoicesAreNotInSameSlot, TChoice c', _ =>
      forall x y s, nth_error dec (c_left k) = Some x -> nth_error dec c' = Some y -> dec_slot x = Some s -> dec_slot y = Some s -> False
  | ChoicesHaveOffset, TChoice c', EOffset z =>
      forall x y, nth_error dec (c_left k) = Some x -> nth_error dec c' = Some y -> x <> Undecided -> y <> Undecided ->
        (dec_slot x = None /\ dec_slot y = None) \/
        exists s s', dec_slot x = Some s /\ dec_slot y = Some s' /\ (Z.of_nat s' = Z.of_nat s + z)%Z
  | SlotHasLimitedSize, TLimit n, EOp op => complete d dec -> rel_holds op (slot_sum one (i_choices d) (placed dec) (c_left k)) n
  | _, _, _ => True
  end.
Definition good (d : input_data) (dec : list decision) : Prop :=
  (forall k, In k (i_sched d) -> so_far d dec k) /\
  (forall s, s < length (i_slots d) -> (slot_sum ch_min (i_choices d) (placed dec) s <= N.of_nat (length (i_choosers d)))%N) /\
  (complete d dec -> forall s, s < length (i_slots d) -> (N.of_nat (length (i_choosers d)) <= slot_sum ch_max (i_choices d) (placed dec) s)%N).

(** [dec'] is [dec] with everything from position [j] of the order undone. *)
Definition prefix_of (order : list nat) (j : nat) (dec dec' : list decision) : Prop :=
  length dec' = length dec /\
  forall i c, nth_error order i = Some c -> if i <? j then nth_error dec' c = nth_error dec c else nth_error dec' c = Some Undecided.
Fixpoint stack_good (d : input_data) (order : list nat) (dec : list decision) (stack : list (list (option nat))) : Prop :=
  match stack with
  | [] => True
  | b :: rest => (forall c x dec', nth_error order (length rest) = Some c -> In x b -> prefix_of order (length rest) dec dec' -> good d (upd dec' c (decide x))) /\
                 stack_good d order dec rest
  end.
Definition all_good (d : input_data) (order : list nat) (m : mach) : Prop :=
  stack_good d order (st_dec (m_st m)) (m_stack m) /\
  good d (st_dec (m_st m)).

Lemma prefix_upd d order j dec dec' i c x : is_order d order -> nth_error order i = Some c -> j <= i ->
  prefix_of order j (upd dec c x) dec' -> prefix_of order j dec dec'.
Proof.
  intros HO Hi Hj [HL HP]. rewrite upd_length in HL. split; auto. intros i' c' Hi'. specialize (HP i' c' Hi').
  destruct (Nat.ltb_spec i' j); auto. rewrite HP, nth_error_upd_other; auto. intros ->.
  assert (i = i') by (eapply order_inj; eauto). lia.
Qed.
Lemma stack_good_upd d order dec i c x stack : is_order d order -> nth_error order i = Some c -> length stack <= Datatypes.S i ->
  stack_good d order dec stack -> stack_good d order (upd dec c x) stack.
Proof.
  intros HO Hi. induction stack as [|b rest IH]; cbn [stack_good length]; intros HL H; auto. destruct H as [H1 H2]. split.
  - intros c' y dec' Hc' Hy HP. apply H1; auto. apply (prefix_upd d order (length rest) dec dec' i c x); auto. lia.
  - apply IH; auto. lia.
Qed.
Lemma prefix_self pr d order m : is_order d order -> inv pr d order m ->
  forall dec', prefix_of order (m_depth m) (st_dec (m_st m)) dec' -> dec' = st_dec (m_st m).
Proof.
  intros HO HI dec' [HL HP]. apply nth_error_ext. intros c. destruct (Nat.lt_ge_cases c (length (i_choices d))) as [Hc|Hc].
  - destruct (order_all _ _ _ HO Hc) as [i Hi]. specialize (HP i c Hi). destruct (Nat.ltb_spec i (m_depth m)); auto.
    rewrite HP. symmetry. apply (iv_dec _ _ _ _ HI i c Hi). auto.
  - rewrite !(proj2 (nth_error_None _ _)); auto; rewrite ?HL, (so_len _ _ _ (iv_state _ _ _ _ HI)); auto.
Qed.

Lemma good_undo d dec c : length dec = length (i_choices d) -> c < length (i_choices d) -> good d dec -> good d (upd dec c Undecided).
Proof.
  intros HL Hc (G1 & G2 & G3).
  assert (HN : ~ complete d (upd dec c Undecided)).
  { intros [_ H]. apply (H c). apply nth_error_upd_same. lia. }
  assert (HX : forall c' x, nth_error (upd dec c Undecided) c' = Some x -> x = Undecided \/ nth_error dec c' = Some x).
  { intros c' x H. rewrite nth_error_upd in H. destruct (Nat.eqb_spec c c'); auto. destruct (_ <? _); [|discriminate]. injection H as <-. auto. }
  split; [|split].
  - intros k Hk. specialize (G1 k Hk). unfold so_far in *. destruct (c_kind k); auto; destruct (c_right k); auto; try (destruct (c_extra k); auto); try contradiction;
      intros; repeat match goal with H : nth_error (upd _ _ _) _ = Some _ |- _ => apply HX in H as [-> |H] end; try congruence; try discriminate; eauto.
  - intros s Hs. etransitivity; [|apply (G2 s Hs)]. destruct (nth_error_in_range (placed dec) c) as [y Hy]; [rewrite placed_length; lia|].
    destruct (nth_error_in_range (i_choices d) c Hc) as [ch Hch].
    pose proof (slot_sum_upd ch_min (i_choices d) (placed dec) c s None y ch Hy Hch) as E. rewrite placed_upd. cbn [dec_slot]. cbn [weigh] in E. lia.
  - intros HC. contradiction.
Qed.

Section NoRejection.
  Variables (pr : profile) (d : input_data) (o : oracle) (late : nat -> bool) (sets : list cset) (order : list nat) (suffix : list N) (T : scheduling).
  Hypothesis HW : wf_input d.
  Hypothesis HFit : fits d.
  Hypothesis HS : searchable d.
  Hypothesis HF : fair o.
  Hypothesis HO : is_order d order.
  Hypothesis HSuf : forall i, i <= length order -> nth_error suffix i = Some (lsum (max_of d) (skipn i order)).
  Hypothesis HV : valid_scheduling d T.
  Hypothesis HNS : no_self_relation d.
  Hypothesis HNO : never_overfull d.
  Hypothesis HMC : map_complete d.

  Lemma in_constraints_for c k : c < length (i_choices d) -> In k (i_sched d) -> concerns c k -> In k (constraints_for d c).
  Proof.
    intros Hc Hk Hcon. unfold constraints_for. destruct (nth_error (i_choice_map d) c) as [l|] eqn:E; auto. eapply HMC; eauto.
  Qed.

  Lemma upd_at (dec : list decision) c x c' y : c < length dec -> nth_error (upd dec c x) c' = Some y -> (c' = c /\ y = x) \/ (c' <> c /\ nth_error dec c' = Some y).
  Proof.
    intros Hc H. destruct (Nat.eq_dec c c') as [<-|Hne].
    - rewrite nth_error_upd_same in H by auto. injection H as <-. auto.
    - rewrite nth_error_upd_other in H by auto. right. auto.
  Qed.

  (** One accepted decision keeps the constraints. *)
  Lemma accepted_keeps m choice slot : inv pr d order m -> nth_error order (m_depth m) = Some choice ->
    (forall s, slot = Some s -> s < length (i_slots d)) ->
    good d (st_dec (m_st m)) -> sat_constraints pr d choice slot (m_st m) = Ok true ->
    forall k, In k (i_sched d) -> so_far d (upd (st_dec (m_st m)) choice (decide slot)) k.
  Proof.
    intros HI HC Hr HG HSat k Hk. pose proof (order_lt _ _ _ _ HO HC) as Hcl. pose proof (iv_state _ _ _ _ HI) as HST.
    pose proof (so_len _ _ _ HST) as HLd. set (dec := st_dec (m_st m)) in *.
    assert (Hcd : choice < length dec) by lia.
    assert (Hu : nth_error dec choice = Some Undecided) by (apply (iv_dec _ _ _ _ HI _ _ HC); auto).
    unfold sat_constraints in HSat. apply bind_ok in HSat as (ok & Hok & HSat). destruct ok; [|discriminate]. cbn [negb] in HSat.
    assert (H1 : forall k, In k (i_sched d) -> concerns choice k -> sat_con1 pr d choice slot (m_st m) k = Ok true).
    { intros k' Hk' Hcon. apply (proj1 (mforall_true _ _) Hok). apply in_constraints_for; auto. }
    specialize (H1 k Hk). pose proof (wf_sched _ HW k Hk) as HK. pose proof (proj1 HG k Hk) as HG1.
    assert (HNSk := HNS k). unfold so_far in HG1 |- *. unfold sched_shape in HK. unfold sat_con1 in H1. fold dec in H1. unfold concerns in H1.
    destruct (c_kind k) eqn:Ek; auto.
    - destruct (c_right k) as [|t| | |] eqn:Er; try contradiction. intros x Hx Hxu. apply upd_at in Hx as [[E ->]|[Hne Hx]]; auto.
      rewrite decide_slot. specialize (H1 E). unfold con_slot in H1. rewrite Er in H1. cbn [bind] in H1. injection H1 as H1. apply opt_nat_eqb_spec in H1. auto.
    - destruct (c_right k) as [|t| | |] eqn:Er; try contradiction. intros x Hx Hxu. apply upd_at in Hx as [[E ->]|[Hne Hx]]; auto.
      rewrite decide_slot. specialize (H1 E). unfold con_slot in H1. rewrite Er in H1. cbn [bind] in H1. injection H1 as H1.
      apply negb_true_iff, not_true_iff_false in H1. rewrite opt_nat_eqb_spec in H1. auto.
    - destruct (c_right k) as [| |c'| |] eqn:Er; try contradiction. intros x y Hx Hy Hxu Hyu.
      apply upd_at in Hx as [[E1 ->]|[N1 Hx]]; auto; apply upd_at in Hy as [[E2 ->]|[N2 Hy]]; auto.
      + specialize (H1 (or_introl E1)). unfold other_of, con_other_choice in H1. rewrite Er, E1, Nat.eqb_refl in H1. cbn [bind] in H1.
        rewrite (proj2 (get_ok _ _ _) Hy) in H1. cbn [bind] in H1. injection H1 as H1. apply negb_true_iff in H1.
        destruct y; [congruence| |]; cbn [is_undecided negb andb] in H1; apply negb_false_iff, opt_nat_eqb_spec in H1; rewrite decide_slot; auto.
      + subst c'. specialize (H1 (or_intror eq_refl)). unfold other_of in H1. destruct (Nat.eqb_spec (c_left k) choice); [contradiction|]. cbn [bind] in H1.
        rewrite (proj2 (get_ok _ _ _) Hx) in H1. cbn [bind] in H1. injection H1 as H1. apply negb_true_iff in H1.
        destruct x; [congruence| |]; cbn [is_undecided negb andb] in H1; apply negb_false_iff, opt_nat_eqb_spec in H1; rewrite decide_slot; auto.
    - destruct (c_right k) as [| |c'| |] eqn:Er; try contradiction. intros x y s Hx Hy Hxs Hys.
      apply upd_at in Hx as [[E1 ->]|[N1 Hx]]; auto; apply upd_at in Hy as [[E2 ->]|[N2 Hy]]; auto.
      + apply (HNSk c' Hk); auto. congruence.
      + rewrite decide_slot in Hxs. specialize (H1 (or_introl E1)). unfold other_of, con_other_choice in H1. rewrite Er, E1, Nat.eqb_refl in H1. cbn [bind] in H1.
        rewrite (proj2 (get_ok _ _ _) Hy) in H1. cbn [bind] in H1. injection H1 as H1. apply negb_true_iff in H1.
        assert (Eo : opt_nat_eqb (dec_slot y) slot = true) by (apply opt_nat_eqb_spec; congruence).
        rewrite Eo, Hxs in H1. destruct y; cbn in Hys, H1; try discriminate.
      + rewrite decide_slot in Hys. subst c'. specialize (H1 (or_intror eq_refl)). unfold other_of in H1. destruct (Nat.eqb_spec (c_left k) choice); [contradiction|]. cbn [bind] in H1.
        rewrite (proj2 (get_ok _ _ _) Hx) in H1. cbn [bind] in H1. injection H1 as H1. apply negb_true_iff in H1.
        assert (Eo : opt_nat_eqb (dec_slot x) slot = true) by (apply opt_nat_eqb_spec; congruence).
        rewrite Eo, Hys in H1. destruct x; cbn in Hxs, H1; try discriminate.
      + eapply HG1; eauto.
    - destruct (c_right k) as [| |c'| |] eqn:Er; try contradiction. destruct (c_extra k) as [|z|] eqn:Ex; try contradiction.
      pose proof (sr_offsets _ HS k z Hk Ex) as HOff.
      intros x y Hx Hy Hxu Hyu.
      apply upd_at in Hx as [[E1 ->]|[N1 Hx]]; auto; apply upd_at in Hy as [[E2 ->]|[N2 Hy]]; auto.
      + exfalso. apply (HNSk c' Hk); auto. congruence.
      + rewrite decide_slot. specialize (H1 (or_introl E1)). unfold other_of, con_other_choice, con_offset in H1. rewrite Er, Ex, E1, Nat.eqb_refl in H1. cbn [bind] in H1.
        destruct (Nat.eqb_spec c' choice) as [|_]; [contradiction|]. cbn [bind] in H1.
        rewrite (proj2 (get_ok _ _ _) Hy) in H1. cbn [bind] in H1.
        unfold offset_ok in H1. destruct y as [| |t]; [congruence| |].
        * destruct slot; cbn in H1; [discriminate|]. auto.
        * destruct slot as [s|]; cbn [dec_slot is_some Bool.eqb negb] in H1; [|discriminate]. right. exists s, t.
          pose proof (Hr s eq_refl). pose proof (so_slots _ _ _ HST _ _ Hy). pose proof (sr_slots _ HS) as HSl. unfold i32_max in HSl.
          rewrite !to_i32_small in H1 by (unfold i32_max; lia). cbn [bind] in H1. rewrite wrap_ok in H1 by (unfold i32_min, i32_max; lia). cbn [bind] in H1.
          destruct (Z.eqb_spec (Z.of_nat t - Z.of_nat s) z); [|discriminate]. cbn. repeat split; auto. lia.
      + rewrite decide_slot. subst c'. specialize (H1 (or_intror eq_refl)). unfold other_of, con_offset in H1. rewrite Ex in H1.
        destruct (Nat.eqb_spec (c_left k) choice); [contradiction|]. cbn [bind] in H1. rewrite Nat.eqb_refl in H1.
        rewrite wrap_ok in H1 by (unfold i32_min, i32_max in *; lia). cbn [bind] in H1.
        rewrite (proj2 (get_ok _ _ _) Hx) in H1. cbn [bind] in H1.
        unfold offset_ok in H1. destruct x as [| |t]; [congruence| |].
        * destruct slot; cbn in H1; [discriminate|]. auto.
        * destruct slot as [s|]; cbn [dec_slot is_some Bool.eqb negb] in H1; [|discriminate]. right. exists t, s.
          pose proof (Hr s eq_refl). pose proof (so_slots _ _ _ HST _ _ Hx). pose proof (sr_slots _ HS) as HSl. unfold i32_max in HSl.
          rewrite !to_i32_small in H1 by (unfold i32_max; lia). cbn [bind] in H1. rewrite wrap_ok in H1 by (unfold i32_min, i32_max; lia). cbn [bind] in H1.
          destruct (Z.eqb_spec (Z.of_nat t - Z.of_nat s) (- z)); [|discriminate]. cbn. repeat split; auto. lia.
    - clear H1 HG1 HNSk. destruct (c_right k) as [| | | |n] eqn:Er; try contradiction. destruct (c_extra k) as [| |op] eqn:Ex; try contradiction.
      intros [_ HAll]. pose proof (decided_count pr d order T HO HV m HI) as HCnt. rewrite HCnt in HSat.
      assert (HD : m_depth m + 1 = length (i_choices d)).
      { pose proof (iv_depth _ _ _ _ HI). rewrite (order_length _ _ HO) in *. pose proof (nth_error_lt _ _ _ HC) as Hlt. rewrite (order_length _ _ HO) in Hlt.
        destruct (Nat.eq_dec (m_depth m + 1) (length (i_choices d))) as [|Hne]; auto. exfalso.
        destruct (nth_error_in_range order (Datatypes.S (m_depth m))) as [c' Hc']; [rewrite (order_length _ _ HO); lia|].
        apply (HAll c'). rewrite nth_error_upd_other. { apply (iv_dec _ _ _ _ HI _ _ Hc'). lia. }
        intros ->. assert (m_depth m = Datatypes.S (m_depth m)) by (eapply order_inj; eauto). lia. }
      rewrite (proj2 (Nat.eqb_eq _ _) HD) in HSat. unfold check_slot_sizes in HSat.
      pose proof (proj1 (mforall_true _ _) HSat k Hk) as H2. cbn beta in H2. rewrite Ek in H2. cbn [kind_eqb negb] in H2.
      change (negb (kind_eqb SlotHasLimitedSize SlotHasLimitedSize)) with false in H2. cbn iota in H2.
      rewrite (proj2 (get_ok _ _ _) (tracks_at pr one d _ _ (c_left k) (so_cnt _ _ _ HST) HLd (total_one_fits d HFit) (proj1 HK))) in H2.
      cbn [bind] in H2. pose proof (count_small d dec (c_left k) HLd). pose proof (fit_choices _ HFit).
      rewrite add_u32_ok in H2 by (fold dec; destruct (opt_nat_eqb slot (Some (c_left k))); lia). cbn [bind] in H2.
      unfold con_op, con_limit in H2. rewrite Er, Ex in H2. cbn [bind] in H2. injection H2 as H2. apply limit_ok_spec in H2.
      destruct (nth_error_in_range (i_choices d) choice Hcl) as [ch Hch].
      pose proof (slot_sum_upd one (i_choices d) (placed dec) choice (c_left k) slot None ch (placed_nth _ _ _ Hu) Hch) as E.
      rewrite placed_upd, decide_slot. fold dec in H2. cbn [weigh] in E. rewrite N.add_0_r in E. rewrite E.
      assert (Ew : weigh one ch slot (c_left k) = (if opt_nat_eqb slot (Some (c_left k)) then 1 else 0)%N).
      { unfold weigh, one. destruct slot as [u|]; auto. }
      rewrite Ew. exact H2.
  Qed.

  Lemma candidate_good m choice l t x : inv pr d order m -> nth_error order (m_depth m) = Some choice -> good d (st_dec (m_st m)) ->
    node_candidates pr d o sets suffix t (m_st m) (m_depth m) choice = Ok l -> In x l -> good d (upd (st_dec (m_st m)) choice (decide x)).
  Proof.
    intros HI HC HG H Hx. pose proof (order_lt _ _ _ _ HO HC) as Hcl. pose proof (iv_state _ _ _ _ HI) as HST.
    pose proof (so_len _ _ _ HST) as HLd. set (dec := st_dec (m_st m)) in *.
    assert (Hu : nth_error dec choice = Some Undecided) by (apply (iv_dec _ _ _ _ HI _ _ HC); auto).
    destruct (nth_error_in_range (i_choices d) choice Hcl) as [ch Hch].
    assert (HNH : not_held (placed dec) choice) by (unfold not_held; rewrite (placed_nth _ _ _ Hu); auto).
    assert (Hmax : forall s, s < length (i_slots d) -> get (st_max (m_st m)) s = Ok (slot_sum ch_max (i_choices d) (placed dec) s)).
    { intros s Hs. apply get_ok. eapply tracks_at; eauto; [apply (so_max _ _ _ HST)|apply (sr_totals _ HS)]. }
    assert (EU : forall f s, slot_sum f (i_choices d) (placed (upd dec choice (decide x))) s = (slot_sum f (i_choices d) (placed dec) s + weigh f ch x s)%N).
    { intros f s. rewrite placed_upd, decide_slot. pose proof (slot_sum_upd f (i_choices d) (placed dec) choice s x None ch (placed_nth _ _ _ Hu) Hch) as E.
      cbn [weigh] in E. lia. }
    destruct (node_candidates_ok _ _ _ _ _ _ _ _ _ _ HF H) as [HCand _]. specialize (HCand x Hx).
    unfold node_candidates in H. rewrite (proj2 (get_ok _ _ _) (HSuf _ (iv_depth _ _ _ _ HI))) in H. cbn [bind] in H.
    apply bind_ok in H as (imp & Himp & H). apply bind_ok in H as (dead & Hdead & H). destruct dead; [injection H as <-; destruct Hx|].
    destruct imp; [discriminate|]. clear Hdead. apply bind_ok in H as (crit & Hcrit & H).
    pose proof (skipn_cons _ _ _ HC) as ES.
    assert (EM : lsum (max_of d) (skipn (m_depth m) order) = (ch_max ch + lsum (max_of d) (skipn (Datatypes.S (m_depth m)) order))%N).
    { rewrite ES, lsum_cons. unfold max_of at 1. rewrite Hch. auto. }
    assert (HCS : forall s, s < length (i_slots d) -> In s crit <->
        (lsum (max_of d) (skipn (Datatypes.S (m_depth m)) order) + slot_sum ch_max (i_choices d) (placed dec) s < N.of_nat (length (i_choosers d)))%N).
    { intros s Hs. rewrite (mfilter_in _ _ _ Hcrit). rewrite (proj2 (get_ok _ _ _) Hch). cbn [bind]. unfold sub_u32.
      destruct (N.leb_spec (ch_max ch) (lsum (max_of d) (skipn (m_depth m) order))); [|lia]. cbn [bind]. rewrite Hmax by auto. cbn [bind].
      pose proof (placed_plus_rest pr d HS order HO (m_st m) (m_depth m) s HST (iv_dec _ _ _ _ HI)) as HB. fold dec in HB.
      rewrite add_u32_ok by lia. cbn [bind]. rewrite (choosers_u32 d HFit). cbn [bind]. rewrite in_seq.
      replace (lsum (max_of d) (skipn (m_depth m) order) - ch_max ch)%N with (lsum (max_of d) (skipn (Datatypes.S (m_depth m)) order)) by lia.
      split; [intros [_ E]; injection E as E; apply N.ltb_lt; auto|]. intros E. split; [lia|]. f_equal. apply N.ltb_lt. auto. }
    assert (HIm : forall s, s < length (i_slots d) -> (N.of_nat (length (i_choosers d)) <= lsum (max_of d) (skipn (m_depth m) order) + slot_sum ch_max (i_choices d) (placed dec) s)%N).
    { intros s Hs. unfold has_impossibilities in Himp.
      assert (Hn : forall l, mexists (fun slot => let* mm := get (st_max (m_st m)) slot in
          let* sum := add_u32 pr (lsum (max_of d) (skipn (m_depth m) order)) mm in
          let* n := to_u32 (length (i_choosers d)) in Ok (sum <? n)%N) l = Ok false -> In s l ->
          (N.of_nat (length (i_choosers d)) <= lsum (max_of d) (skipn (m_depth m) order) + slot_sum ch_max (i_choices d) (placed dec) s)%N).
      { induction l0 as [|a l0 IH]; intros E Hin; [destruct Hin|]. cbn [mexists] in E. apply bind_ok in E as (b & Eb & E). destruct b; [discriminate|].
        destruct Hin as [->|Hin]; auto. rewrite Hmax in Eb by auto. cbn [bind] in Eb.
        pose proof (placed_plus_rest pr d HS order HO (m_st m) (m_depth m) s HST (iv_dec _ _ _ _ HI)) as HB. fold dec in HB.
        rewrite add_u32_ok in Eb by lia. cbn [bind] in Eb. rewrite (choosers_u32 d HFit) in Eb. cbn [bind] in Eb. injection Eb as Eb. apply N.ltb_ge in Eb. lia. }
      apply (Hn _ Himp). apply in_seq. lia. }
    assert (HSlot : forall s, x = Some s -> s < length (i_slots d)) by (intros s ->; exact HCand).
    (* what each path establishes *)
    assert (HP : sat_constraints pr d choice x (m_st m) = Ok true /\
                 (forall s, x = Some s -> (slot_sum ch_min (i_choices d) (placed dec) s + ch_min ch <= N.of_nat (length (i_choosers d)))%N) /\
                 (forall s, In s crit -> x = Some s)).
    { destruct crit as [|s [|s' crit]].
      - destruct (feasible_slots_perm _ _ _ _ _ _ _ HF H) as (ch' & slots & none_ok & Hch' & Hn & Hs & HP).
        assert (ch' = ch) as -> by congruence. apply (Permutation_in _ (Permutation_sym HP)) in Hx. apply in_app_or in Hx as [Hx|Hx].
        + apply in_map_iff in Hx as (s & <- & Hin). apply (mfilter_in _ _ _ Hs) in Hin as [Hin Hp]. apply in_seq in Hin.
          rewrite (proj2 (get_ok _ _ _) Hch) in Hp. cbn [bind] in Hp.
          rewrite (proj2 (get_ok _ _ _) (tracks_at pr ch_min d _ _ s (so_min _ _ _ HST) HLd (proj1 (sr_totals _ HS)) ltac:(lia))) in Hp. cbn [bind] in Hp. fold dec in Hp.
          pose proof (EU ch_min s) as E. rewrite weigh_same in E.
          pose proof (slot_sum_total ch_min d (placed (upd dec choice (decide (Some s)))) s) as B. rewrite placed_length, upd_length in B. specialize (B HLd).
          pose proof (proj1 (sr_totals _ HS)). rewrite add_u32_ok in Hp by lia. cbn [bind] in Hp. rewrite (choosers_u32 d HFit) in Hp. cbn [bind] in Hp.
          destruct (N.ltb_spec (N.of_nat (length (i_choosers d))) (ch_min ch + slot_sum ch_min (i_choices d) (placed dec) s)); [discriminate|].
          split; auto. split; [|intros ? []]. intros s' E'. injection E' as <-. lia.
        + destruct none_ok; [|destruct Hx]. destruct Hx as [<-|[]]. destruct (ch_optional ch); [|discriminate]. split; auto. split; [discriminate|intros ? []].
      - apply bind_ok in H as (b & Hb & H). injection H as <-. destruct b; [|destruct Hx]. destruct Hx as [<-|[]]. split; auto. split.
        + intros s' E'. injection E' as <-. apply (HNO (placed dec) choice ch s); auto; [rewrite placed_length; auto|].
          pose proof (proj1 (HCS s (HSlot s eq_refl)) (or_introl eq_refl)). lia.
        + intros s' [<-|[]]. auto.
      - injection H as <-. destruct Hx. }
    destruct HP as (HSat & HMin & HCr). split; [|split].
    - intros k Hk. apply accepted_keeps; auto.
    - intros s Hs. rewrite EU. destruct HG as (_ & HG & _). specialize (HG s Hs). unfold weigh. destruct x as [u|]; [|lia].
      destruct (Nat.eqb_spec u s) as [->|]; [|lia]. apply HMin. auto.
    - intros [_ HAll] s Hs. rewrite EU.
      assert (Erest : skipn (Datatypes.S (m_depth m)) order = []).
      { destruct (skipn (Datatypes.S (m_depth m)) order) as [|c' r] eqn:E'; auto. exfalso.
        assert (Hc' : nth_error order (Datatypes.S (m_depth m)) = Some c').
        { rewrite <- (Nat.add_0_r (Datatypes.S (m_depth m))), <- nth_error_skipn, E'. auto. }
        apply (HAll c'). rewrite nth_error_upd_other. { apply (iv_dec _ _ _ _ HI _ _ Hc'). lia. }
        intros ->. assert (m_depth m = Datatypes.S (m_depth m)) by (eapply order_inj; eauto). lia. }
      rewrite Erest in *. cbn [lsum fold_right] in *.
      destruct (N.lt_ge_cases (slot_sum ch_max (i_choices d) (placed dec) s) (N.of_nat (length (i_choosers d)))) as [Hlt|Hge]; [|lia].
      assert (Hin : In s crit) by (apply HCS; auto; lia). rewrite (HCr s Hin), weigh_same.
      specialize (HIm s Hs). lia.
  Qed.

  Lemma step_good m m' : inv pr d order m -> all_good d order m -> step pr d o late sets order suffix m = Ok (Continue m') -> all_good d order m'.
  Proof.
    intros HI [HP1 HGm] H.
    apply step_inv in H as [(m'' & choice & bucket & rest & E & HT & HC)|[(_ & _ & E)|[(c & r & E & _)|(_ & r & _ & E)]]];
      try discriminate. injection E as <-.
    pose proof (turn_buckets pr d o late sets order suffix HF _ _ _ _ HI HT) as HB.
    destruct HT as [T1 T2 T3 T4]. pose proof HI as [I1 I2 I3 I4 I5].
    assert (HSG : stack_good d order (st_dec (m_st m)) (bucket :: rest)).
    { destruct T3 as [(L & -> & HN)|(L & <-)]; auto. split; auto. intros c x dec' Hc Hx Hpre. rewrite T4 in Hc, Hpre.
      rewrite T1 in Hc. injection Hc as <-. rewrite (prefix_self pr d order m HO HI dec' Hpre). eapply candidate_good; eauto. }
    destruct HC as [(depth' & prev & st & -> & Ed & Hp & Hc & ->)|(next & bucket' & st & -> & Ha & ->)]; unfold all_good; cbn [m_st m_stack m_depth].
    - destruct HSG as [_ HSG]. destruct (clear_ok pr d (m_st m) prev HW I5 (order_lt _ _ _ _ HO Hp)) as (st' & E & S' & D'). rewrite E in Hc. injection Hc as <-.
      rewrite D'. split; [eapply stack_good_upd; eauto; lia|]. eapply good_undo; eauto; [apply (so_len _ _ _ I5)|eapply order_lt; eauto].
    - assert (Hu : nth_error (st_dec (m_st m)) choice = Some Undecided) by (apply (I3 _ _ T1); auto).
      assert (Hcand : cand_ok d choice next) by (destruct HB as [HB _]; apply HB; [rewrite T4; auto|left; auto]).
      destruct (apply_ok _ _ _ _ _ _ HW I5 (order_lt _ _ _ _ HO T1) Hu Hcand Ha) as [S' D'].
      destruct HSG as [HSG1 HSG2]. split.
      + rewrite D'. apply (stack_good_upd d order (st_dec (m_st m)) (m_depth m) choice); auto. { cbn [length]. lia. }
        cbn [stack_good]. split; auto. intros c x dec' Hc Hx Hpre. apply HSG1; auto. right; auto.
      + rewrite D'. apply (HSG1 choice next (st_dec (m_st m))); [rewrite T4; auto|left; auto|]. rewrite T4. split; auto.
        intros i c Hi. destruct (Nat.ltb_spec i (m_depth m)); auto. apply (I3 i c Hi). auto.
  Qed.

  (** A complete good state is valid. *)
  Lemma good_valid m : inv pr d order m -> good d (st_dec (m_st m)) -> i_choices d <> [] -> length order <= m_depth m ->
    valid_scheduling d (placed (st_dec (m_st m))).
  Proof.
    intros HI (G1 & G2 & G3) Hne HD. pose proof (iv_state _ _ _ _ HI) as HST. pose proof (so_len _ _ _ HST) as HLd. set (dec := st_dec (m_st m)) in *.
    assert (HAll : forall c, nth_error dec c <> Some Undecided).
    { intros c E. assert (Hc : c < length (i_choices d)) by (rewrite <- HLd; eapply nth_error_lt; eauto).
      destruct (order_all _ _ _ HO Hc) as [i Hi]. apply (iv_dec _ _ _ _ HI i c Hi) in E. apply nth_error_lt in Hi. lia. }
    assert (HX : forall c, c < length (i_choices d) -> exists x, nth_error dec c = Some x /\ x <> Undecided /\ nth_error (placed dec) c = Some (dec_slot x)).
    { intros c Hc. destruct (nth_error_in_range dec c) as [x Hx]; [lia|]. exists x. repeat split; auto; [|apply placed_nth; auto]. intros ->. apply (HAll c); auto. }
    constructor.
    - rewrite placed_length. auto.
    - apply (placed_range _ _ _ HST).
    - intros c ch Hch Hn. destruct (HX c (nth_error_lt _ _ _ Hch)) as (x & Hx & Hxu & Hp). unfold not_held in Hn. rewrite Hp in Hn. injection Hn as Hn.
      destruct x; cbn in Hn; try discriminate; [congruence|]. destruct (so_omit _ _ _ HST c Hx) as (ch' & E & Ho). congruence.
    - intros s Hs. split; auto. apply G3; auto. split; auto.
    - intros k Hk. specialize (G1 k Hk). pose proof (wf_sched _ HW k Hk) as HK. unfold so_far in G1. unfold sched_shape in HK. unfold sched_means.
      destruct (c_kind k); try contradiction; destruct (c_right k) as [|t|c'| |n]; try contradiction.
      + destruct (HX _ (proj1 HK)) as (x & Hx & Hxu & Hp). unfold scheduled_in. rewrite Hp. f_equal. auto.
      + destruct (HX _ (proj1 HK)) as (x & Hx & Hxu & Hp). unfold scheduled_in. rewrite Hp. intros E. injection E as E. apply (G1 x); auto.
      + destruct (HX _ (proj1 HK)) as (x & Hx & Hxu & Hp). destruct (HX _ (proj2 HK)) as (y & Hy & Hyu & Hq). intros s. unfold scheduled_in. rewrite Hp, Hq.
        rewrite (G1 x y); auto. tauto.
      + destruct (HX _ (proj1 HK)) as (x & Hx & Hxu & Hp). destruct (HX _ (proj2 HK)) as (y & Hy & Hyu & Hq). intros s. unfold scheduled_in. rewrite Hp, Hq.
        intros [E1 E2]. injection E1 as E1. injection E2 as E2. apply (G1 x y s); auto.
      + destruct (c_extra k) as [|z|]; try contradiction.
        destruct (HX _ (proj1 HK)) as (x & Hx & Hxu & Hp). destruct (HX _ (proj2 HK)) as (y & Hy & Hyu & Hq). unfold scheduled_in, not_held. rewrite Hp, Hq.
        destruct (G1 x y) as [[E1 E2]|(s & s' & E1 & E2 & E3)]; auto; [left; rewrite E1, E2; auto|]. right. exists s, s'. rewrite E1, E2. auto.
      + destruct (c_extra k) as [| |op]; try contradiction. destruct (cardinal_slot_sum d (placed dec) (c_left k)) as (mm & HM & EM); [rewrite placed_length; auto|].
        exists mm. split; auto. rewrite EM. apply G1. split; auto.
  Qed.

  Lemma done_not_rejected m t : inv pr d order m -> good d (st_dec (m_st m)) -> step pr d o late sets order suffix m <> Ok (Done SRejected t).
  Proof.
    intros HI HG H. apply step_inv in H as [(m' & c & b & r & E & _)|[(_ & _ & E)|[(c & r & E & _)|(HD & res & Hr & E)]]]; try discriminate.
    injection E as <- ->. destruct (leaf_inv _ _ _ _ (iv_state _ _ _ _ HI) Hr) as (sl & b & _ & _ & _ & Hb & E).
    destruct b; [discriminate|]. pose proof (iv_state _ _ _ _ HI) as HST.
    destruct (sched_is_feasible_exact pr d (placed (st_dec (m_st m))) HFit HW) as (b & Eb & Hv).
    { rewrite placed_length. apply (so_len _ _ _ HST). } { apply (placed_range _ _ _ HST). }
    { apply totals_sums; [apply (sr_totals _ HS)|]. rewrite placed_length. apply (so_len _ _ _ HST). }
    rewrite Hb in Eb. injection Eb as <-. assert (false = true); [|discriminate]. apply Hv.
    destruct (i_choices d) as [|c0 cs] eqn:Ec.
    - assert (E1 : placed (st_dec (m_st m)) = T).
      { pose proof (vs_length _ _ HV) as L. pose proof (so_len _ _ _ HST) as L'. rewrite Ec in L, L'. destruct T; [|discriminate].
        destruct (st_dec (m_st m)); [auto|discriminate]. }
      rewrite E1. auto.
    - eapply good_valid; eauto. rewrite Ec. discriminate.
  Qed.
End NoRejection.

Lemma start_good d order t : wf_input d -> all_good d order (start d t).
Proof.
  intros HW. split; [exact I|]. unfold start. cbn [m_st new_state st_dec].
  assert (HU : forall c x, nth_error (repeat Undecided (length (i_choices d))) c = Some x -> x = Undecided).
  { intros c x H. apply nth_error_In, repeat_spec in H. auto. }
  assert (HNC : ~ complete d (repeat Undecided (length (i_choices d)))).
  { intros [Hne H]. apply (H 0). destruct (i_choices d); [congruence|reflexivity]. }
  split; [|split].
  - intros k Hk. unfold so_far. destruct (c_kind k); auto; destruct (c_right k); auto; try (destruct (c_extra k); auto); try contradiction;
      intros; repeat match goal with H : nth_error (repeat _ _) _ = Some _ |- _ => apply HU in H; subst end; try congruence; discriminate.
  - intros s Hs. rewrite slot_sum_none; [lia|]. intros c x Hx. unfold placed in Hx. rewrite nth_error_map in Hx.
    destruct (nth_error (repeat Undecided (length (i_choices d))) c) as [y|] eqn:E; [|discriminate]. apply HU in E. subst y. injection Hx as <-. auto.
  - intros HC. contradiction.
Qed.

Lemma solve_not_rejected pr d o late sets t fuel t' T : wf_input d -> fits d -> searchable d -> fair o -> valid_scheduling d T ->
  no_self_relation d -> never_overfull d -> map_complete d ->
  solve_scheduling pr d o late sets t fuel <> Some (Ok (SRejected, t')).
Proof.
  intros HW HFit HS HF HV HNS HNO HMC H. unfold solve_scheduling in H. pose proof (scramble_order d o t HF) as HO. set (order := choice_scramble d o t) in *.
  destruct (max_suffix_ok pr d order) as (suffix & Es & _ & HSuf).
  { intros c Hc. apply (Permutation_in _ (Permutation_sym HO)), in_seq in Hc. lia. }
  { rewrite (order_total d order HO). apply (sr_totals _ HS). }
  rewrite Es in H.
  assert (HStep : forall m m', inv pr d order m -> all_good d order m -> step pr d o late sets order suffix m = Ok (Continue m') -> all_good d order m').
  { intros m0 m' HI0 HP0 Hstep. eapply step_good; eauto. }
  destruct (run_inv _ _ _ _ _ _ _ (all_good d order) HW HF HO HStep _ _ _ _ (start_inv _ _ _ (Datatypes.S t) HO) (start_good d order (Datatypes.S t) HW) H) as (m & HI & [_ HG] & HD).
  revert HD. eapply done_not_rejected; eauto.
Qed.

(** ** Conditions under which a slot never becomes overfull *)
Lemma never_overfull_total d : (total ch_min d <= N.of_nat (length (i_choosers d)))%N -> never_overfull d.
Proof.
  intros HT S c ch s HL Hch Hn _. pose proof (slot_sum_upd ch_min (i_choices d) S c s (Some s) None ch Hn Hch) as E. rewrite weigh_same in E. cbn [weigh] in E.
  pose proof (slot_sum_total ch_min d (upd S c (Some s)) s) as B. rewrite upd_length in B. specialize (B HL). lia.
Qed.
Lemma never_overfull_small d : i_choosers d <> [] -> (forall ch, In ch (i_choices d) -> (ch_min ch <= 1 /\ ch_min ch <= ch_max ch)%N) -> never_overfull d.
Proof.
  intros Hne HB S c ch s HL Hch Hn Hlt.
  assert (HM : (slot_sum ch_min (i_choices d) S s <= slot_sum ch_max (i_choices d) S s)%N).
  { clear - HB. revert S. induction (i_choices d) as [|a cs IH]; intros [|x S]; cbn [slot_sum]; try lia.
    pose proof (HB a (or_introl eq_refl)). specialize (IH (fun ch H => HB ch (or_intror H)) S).
    destruct x as [u|]; [destruct (Nat.eqb u s)|]; lia. }
  pose proof (HB ch (nth_error_In _ _ Hch)). destruct (i_choosers d) eqn:E; [congruence|]. lia.
Qed.
