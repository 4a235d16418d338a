(** Pruning in the scheduling search is sound (C12). *)
From Verif Require Import Base M_Data Spec M_Scoring P_Scoring P_Feasible Spec_Search M_Rng M_Critical M_Search P_Sums P_Rng P_Search1 P_Search2 P_Search3.
From Coq Require Import Permutation.

(** [T] decides the first [n] choices of the order as the search did. *)
Definition agree (order : list nat) (n : nat) (T : scheduling) (dec : list decision) : Prop :=
  forall j c x, j < n -> nth_error order j = Some c -> nth_error dec c = Some x -> nth_error T c = Some (dec_slot x).

Lemma nth_error_firstn_lt {A} (l : list A) : forall n i, i < n -> nth_error (firstn n l) i = nth_error l i.
Proof. induction l as [|a l IH]; intros [|n] [|i] H; cbn; auto; try lia. apply IH; lia. Qed.

Section Sound.
  Variables (pr : profile) (d : input_data) (sets : list cset) (order : list nat) (suffix : list N) (T : scheduling).
  Hypothesis HW : wf_input d.
  Hypothesis HFit : fits d.
  Hypothesis HS : searchable d.
  Hypothesis HO : is_order d order.
  Hypothesis HSuf : forall i, i <= length order -> nth_error suffix i = Some (lsum (max_of d) (skipn i order)).
  Hypothesis HSets : forall s c, In s sets -> In c (set_data s) -> c < length (i_choices d).
  Hypothesis HV : valid_scheduling d T.
  Hypothesis HCov : forall s, In s sets -> covers_slots d T (set_data s).

  Let HLT : length T = length (i_choices d) := vs_length _ _ HV.

  (** A fresh node whose decisions so far are those of [T]. *)
  Variables (m : mach) (choice : nat).
  Hypothesis HI : inv pr d order m.
  Hypothesis HA : agree order (m_depth m) T (st_dec (m_st m)).
  Hypothesis HC : nth_error order (m_depth m) = Some choice.

  Local Notation st := (m_st m).
  Local Notation dec := (st_dec (m_st m)).
  Let HLd : length dec = length (i_choices d) := so_len _ _ _ (iv_state _ _ _ _ HI).

  Lemma decided_agrees c x : nth_error dec c = Some x -> x <> Undecided -> nth_error T c = Some (dec_slot x).
  Proof.
    intros Hc Hx. assert (Hlt : c < length (i_choices d)). { apply nth_error_lt in Hc. rewrite HLd in Hc. auto. }
    destruct (order_all _ _ _ HO Hlt) as [i Hi]. destruct (Nat.lt_ge_cases i (m_depth m)) as [H|H]; [eapply HA; eauto|].
    apply (iv_dec _ _ _ _ HI _ _ Hi) in H. congruence.
  Qed.
  Lemma choice_undecided : nth_error dec choice = Some Undecided.
  Proof. apply (iv_dec _ _ _ _ HI _ _ HC). auto. Qed.
  Lemma choice_lt : choice < length (i_choices d).
  Proof. eapply order_lt; eauto. Qed.

  (** [T]'s sums are the sums so far plus what [T] does with the rest. *)
  Lemma sum_split f s : slot_sum f (i_choices d) T s =
    (slot_sum f (i_choices d) (placed dec) s + lsum (contrib f (i_choices d) T s) (skipn (m_depth m) order))%N.
  Proof.
    rewrite !slot_sum_lsum by (rewrite ?placed_length; auto). rewrite !(lsum_perm _ _ _ HO).
    rewrite <- (firstn_skipn (m_depth m) order) at 1 2. rewrite !lsum_app.
    assert (E1 : lsum (contrib f (i_choices d) (placed dec) s) (skipn (m_depth m) order) = 0%N).
    { rewrite (lsum_ext _ (fun _ => 0%N)). { clear. induction (skipn (m_depth m) order) as [|a l IH]; auto. }
      intros c Hc. apply In_nth_error in Hc as [i Hi]. rewrite nth_error_skipn in Hi. unfold contrib.
      assert (Hu : nth_error dec c = Some Undecided) by (apply (iv_dec _ _ _ _ HI _ _ Hi); lia).
      rewrite (placed_nth _ _ _ Hu). cbn. destruct (nth_error (i_choices d) c); auto. }
    assert (E2 : lsum (contrib f (i_choices d) (placed dec) s) (firstn (m_depth m) order) = lsum (contrib f (i_choices d) T s) (firstn (m_depth m) order)).
    { apply lsum_ext. intros c Hc. apply In_nth_error in Hc as [i Hi].
      assert (Hlt : i < m_depth m). { apply nth_error_lt in Hi. rewrite firstn_length in Hi. lia. }
      rewrite nth_error_firstn_lt in Hi by auto. unfold contrib.
      destruct (nth_error dec c) as [x|] eqn:Ex.
      - rewrite (placed_nth _ _ _ Ex). rewrite (HA i c x Hlt); auto.
      - apply nth_error_None in Ex. assert (c < length (i_choices d)); [|lia]. eapply (order_lt d order i); auto. }
    rewrite E1, E2. lia.
  Qed.
  Lemma skip_choice : skipn (m_depth m) order = choice :: skipn (Datatypes.S (m_depth m)) order.
  Proof. apply skipn_cons; auto. Qed.
  Lemma contrib_choice f s x ch : nth_error T choice = Some x -> nth_error (i_choices d) choice = Some ch ->
    contrib f (i_choices d) T s choice = weigh f ch x s.
  Proof. intros Hx Hch. unfold contrib. rewrite Hch, Hx. auto. Qed.
  Lemma contrib_max_le s l : (lsum (contrib ch_max (i_choices d) T s) l <= lsum (max_of d) l)%N.
  Proof.
    apply lsum_le. intros c _. unfold contrib, max_of. destruct (nth_error (i_choices d) c); [|lia].
    destruct (nth_error T c); [apply weigh_le|lia].
  Qed.

  (** *** No false impossibility *)
  Lemma no_impossibility : has_impossibilities pr d st (lsum (max_of d) (skipn (m_depth m) order)) = Ok false.
  Proof.
    unfold has_impossibilities. rewrite (mexists_pure _ (fun _ => false)).
    - f_equal. apply existsb_false. auto.
    - intros s Hs. apply in_seq in Hs. pose proof (iv_state _ _ _ _ HI) as HST.
      rewrite (proj2 (get_ok _ _ _) (tracks_at pr ch_max d _ _ s (so_max _ _ _ HST) HLd (proj2 (sr_totals _ HS)) ltac:(lia))). cbn [bind].
      pose proof (placed_plus_rest pr d HS order HO (m_st m) (m_depth m) s HST (iv_dec _ _ _ _ HI)).
      rewrite add_u32_ok by lia. cbn [bind]. rewrite (choosers_u32 d HFit). cbn [bind]. f_equal. apply N.ltb_ge.
      pose proof (sum_split ch_max s) as E. pose proof (contrib_max_le s (skipn (m_depth m) order)).
      pose proof (proj2 (vs_sums _ _ HV s ltac:(lia))). lia.
  Qed.

  (** *** No critical set is given up *)
  Lemma coverable s : In s sets -> set_still_coverable (length (i_slots d)) dec s = Ok true.
  Proof.
    intros Hs. unfold set_still_coverable.
    set (f := fun (acc : list bool * nat * nat) element =>
        let '(covered, count, missing) := acc in
        let* x := get dec element in
        match x with
        | Undecided => Ok (covered, count, Datatypes.S missing)
        | InSlot slot =>
            let* b := get covered slot in
            if b then Ok (covered, count, missing)
            else let* covered' := set covered slot true in Ok (covered', Datatypes.S count, missing)
        | Omitted => Ok (covered, count, missing)
        end).
    assert (G : forall l cov cnt mis, (forall c, In c l -> c < length (i_choices d)) -> length cov = length (i_slots d) ->
      exists cov' cnt' mis', mfold f l (cov, cnt, mis) = Ok (cov', cnt', mis') /\ length cov' = length (i_slots d) /\
        cnt' + length (filter (fun b => b) cov) = cnt + length (filter (fun b => b) cov') /\
        mis' = mis + length (filter (fun c => match nth_error dec c with Some Undecided => true | _ => false end) l) /\
        (forall t, nth_error cov t = Some true -> nth_error cov' t = Some true) /\
        (forall c t, In c l -> nth_error dec c = Some (InSlot t) -> nth_error cov' t = Some true)).
    { induction l as [|c l IH]; intros cov cnt mis Hl HLc; cbn [mfold].
      - exists cov, cnt, mis. cbn. repeat split; auto. intros c t [].
      - assert (Hl' : forall c, In c l -> c < length (i_choices d)) by (intros; apply Hl; right; auto).
        destruct (nth_error_in_range dec c) as [x Hx]; [rewrite HLd; apply Hl; left; auto|].
        unfold f at 1. rewrite (proj2 (get_ok _ _ _) Hx). cbn [bind filter]. rewrite Hx.
        destruct x as [| |t]; cbn [bind].
        + destruct (IH cov cnt (Datatypes.S mis) Hl' HLc) as (cov' & cnt' & mis' & E & L & E1 & E2 & E3 & E4).
          exists cov', cnt', mis'. repeat split; auto. { cbn; lia. } intros c0 t [->|Hc]; eauto. congruence.
        + destruct (IH cov cnt mis Hl' HLc) as (cov' & cnt' & mis' & E & L & E1 & E2 & E3 & E4).
          exists cov', cnt', mis'. repeat split; auto. intros c0 t [->|Hc]; eauto. congruence.
        + pose proof (so_slots _ _ _ (iv_state _ _ _ _ HI) _ _ Hx) as Ht. destruct (nth_error_in_range cov t) as [b Hb]; [lia|].
          rewrite (proj2 (get_ok _ _ _) Hb). cbn [bind]. destruct b; cbn [bind].
          * destruct (IH cov cnt mis Hl' HLc) as (cov' & cnt' & mis' & E & L & E1 & E2 & E3 & E4).
            exists cov', cnt', mis'. repeat split; auto. intros c0 t0 [->|Hc]; eauto. intros E5. assert (t0 = t) as -> by congruence. auto.
          * rewrite set_ok_eq by lia. cbn [bind].
            destruct (IH (upd cov t true) (Datatypes.S cnt) mis Hl') as (cov' & cnt' & mis' & E & L & E1 & E2 & E3 & E4). { rewrite upd_length; auto. }
            assert (EC : length (filter (fun b => b) (upd cov t true)) = Datatypes.S (length (filter (fun b => b) cov))).
            { clear - Hb. revert t Hb. induction cov as [|a cov IH]; intros [|t] Hb; cbn in Hb; try discriminate.
              - injection Hb as ->. cbn. auto.
              - cbn [upd filter]. destruct a; cbn [length]; rewrite (IH t Hb); auto. }
            exists cov', cnt', mis'. repeat split; auto; try lia.
            -- intros u Hu. apply E3. destruct (Nat.eq_dec t u) as [<-|Hne]; [apply nth_error_upd_same; lia|rewrite nth_error_upd_other; auto].
            -- intros c0 t0 [->|Hc]; eauto. intros E5. assert (t0 = t) as -> by congruence. apply E3. apply nth_error_upd_same; lia. }
    destruct (G (set_data s) (repeat false (length (i_slots d))) 0 0) as (cov & cnt & mis & E & L & E1 & E2 & _ & E4).
    { intros; eapply HSets; eauto. } { apply repeat_length. }
    rewrite E. cbn [bind]. f_equal. apply negb_true_iff, Nat.ltb_ge.
    assert (EZ : length (filter (fun b : bool => b) (repeat false (length (i_slots d)))) = 0).
    { clear. induction (length (i_slots d)); auto. }
    rewrite EZ in E1. cbn in E2.
    (* the slots not covered yet inject into the undecided members *)
    set (U := filter (fun c => match nth_error dec c with Some Undecided => true | _ => false end) (set_data s)) in *.
    set (bad := filter (fun t => negb (match nth_error cov t with Some b => b | None => false end)) (seq 0 (length (i_slots d)))).
    assert (Hcount : length bad + length (filter (fun b => b) cov) = length (i_slots d)).
    { unfold bad. rewrite <- L. clear. induction cov as [|a cov IH] using rev_ind; auto.
      rewrite app_length, filter_app, app_length. cbn [length]. rewrite Nat.add_1_r, seq_S, filter_app, app_length. cbn [plus].
      rewrite (filter_ext_in _ (fun t => negb (match nth_error cov t with Some b => b | None => false end)) (seq 0 (length cov))).
      - cbn [filter]. rewrite nth_error_app2, Nat.sub_diag by lia. cbn [nth_error]. destruct a; cbn [negb length]; lia.
      - intros t Ht. apply in_seq in Ht. rewrite nth_error_app1 by lia. auto. }
    assert (Hinj : length bad <= length U).
    { rewrite <- (map_length (fun t => Some (Some t)) bad), <- (map_length (fun c => nth_error T c) U).
      apply NoDup_incl_length.
      - apply FinFun.Injective_map_NoDup; [intros a b; congruence|]. apply NoDup_filter, seq_NoDup.
      - intros z Hz. apply in_map_iff in Hz as (t & <- & Ht). apply filter_In in Ht as [Ht Hb]. apply in_seq in Ht.
        destruct (HCov s Hs t ltac:(lia)) as (c & Hc & Hsc). apply in_map_iff. exists c. split; auto.
        apply filter_In. split; auto. destruct (nth_error_in_range dec c) as [x Hx]; [rewrite HLd; eapply HSets; eauto|].
        rewrite Hx. destruct x as [| |u]; auto; exfalso.
        + pose proof (decided_agrees c Omitted Hx ltac:(discriminate)) as E5. unfold scheduled_in in Hsc. cbn in E5. congruence.
        + pose proof (decided_agrees c (InSlot u) Hx ltac:(discriminate)) as E5. unfold scheduled_in in Hsc. cbn in E5.
          assert (u = t) as -> by congruence. rewrite (E4 c t Hc Hx) in Hb. discriminate. }
    lia.
  Qed.
  Lemma critical_sets_kept : satisfies_critical_sets d dec sets = Ok true.
  Proof. apply mforall_true. apply coverable. Qed.

  (** *** Constraints *)
  Lemma other_agrees c x : nth_error dec c = Some x -> x = Undecided \/ nth_error T c = Some (dec_slot x).
  Proof. intros H. destruct x; auto; right; apply decided_agrees; auto; discriminate. Qed.

  Lemma sat_con1_sound slot k : nth_error T choice = Some slot -> In k (i_sched d) -> concerns choice k ->
    sat_con1 pr d choice slot st k = Ok true.
  Proof.
    intros Hslot Hk Hcon.
    assert (Hr : forall s, slot = Some s -> s < length (i_slots d)). { intros s ->. eapply (vs_range _ _ HV); eauto. }
    destruct (sat_con1_total pr d HW HFit HS choice slot st k choice_lt Hr (iv_state _ _ _ _ HI) Hk) as [b Eb]. rewrite Eb. f_equal.
    pose proof (wf_sched _ HW k Hk) as HK. pose proof (vs_cons _ _ HV k Hk) as HM.
    unfold sat_con1 in Eb. unfold sched_shape in HK. unfold sched_means in HM. unfold concerns in Hcon.
    destruct (c_kind k) eqn:Ek; try contradiction.
    - unfold con_slot in Eb. destruct (c_right k) as [|t| | |]; try contradiction. cbn [bind] in Eb. injection Eb as <-.
      subst choice. apply opt_nat_eqb_spec. unfold scheduled_in in HM. congruence.
    - unfold con_slot in Eb. destruct (c_right k) as [|t| | |]; try contradiction. cbn [bind] in Eb. injection Eb as <-.
      subst choice. apply negb_true_iff, not_true_iff_false. rewrite opt_nat_eqb_spec. intros ->. apply HM. auto.
    - unfold other_of, con_other_choice in Eb. destruct (c_right k) as [| |c'| |]; try contradiction.
      apply bind_ok in Eb as (o & Ho & Eb). apply bind_ok in Eb as (x & Hx & Eb). apply get_ok in Hx. injection Eb as <-.
      destruct (other_agrees o x Hx) as [->|Hx']; [reflexivity|]. apply negb_true_iff. apply andb_false_iff. right. apply negb_false_iff, opt_nat_eqb_spec.
      assert (Hsame : forall u v, (u = c_left k /\ v = c' \/ u = c' /\ v = c_left k) -> forall p q, nth_error T u = Some p -> nth_error T v = Some q -> p = q).
      { intros u v Huv p q Hp Hq. unfold scheduled_in in HM. destruct p as [p|], q as [q|]; auto.
        - destruct Huv as [[-> ->]|[-> ->]].
          + apply HM in Hp. congruence.
          + apply HM in Hp. congruence.
        - destruct Huv as [[-> ->]|[-> ->]]; apply HM in Hp; congruence.
        - destruct Huv as [[-> ->]|[-> ->]]; apply HM in Hq; congruence. }
      destruct (Nat.eqb_spec (c_left k) choice) as [El|Hne]; injection Ho as <-.
      + apply (Hsame c' choice); auto.
      + apply (Hsame (c_left k) choice); auto. left. split; auto. destruct Hcon as [|Hcon]; [contradiction|]. congruence.
    - unfold other_of, con_other_choice in Eb. destruct (c_right k) as [| |c'| |]; try contradiction.
      apply bind_ok in Eb as (o & Ho & Eb). apply bind_ok in Eb as (x & Hx & Eb). apply get_ok in Hx. injection Eb as <-.
      destruct (other_agrees o x Hx) as [->|Hx']; [reflexivity|]. apply negb_true_iff.
      destruct (opt_nat_eqb (dec_slot x) slot) eqn:Eq; [|rewrite andb_false_r; auto]. apply opt_nat_eqb_spec in Eq.
      destruct slot as [s|]; [|rewrite andb_false_r; auto]. exfalso. rewrite Eq in Hx'. apply (HM s). unfold scheduled_in.
      destruct (Nat.eqb_spec (c_left k) choice) as [El|Hne]; injection Ho as <-.
      + split; congruence.
      + destruct Hcon as [|Hcon]; [contradiction|]. injection Hcon as ->. auto.
    - unfold other_of, con_other_choice in Eb. destruct (c_right k) as [| |c'| |]; try contradiction.
      pose proof (sr_offsets _ HS k) as HOff. unfold con_offset in Eb. destruct (c_extra k) as [|z|]; try contradiction. specialize (HOff z Hk eq_refl).
      apply bind_ok in Eb as (o & Ho & Eb). cbn [bind] in Eb. apply bind_ok in Eb as (off & Hoff & Eb). apply bind_ok in Eb as (x & Hx & Eb). apply get_ok in Hx.
      destruct (other_agrees o x Hx) as [->|Hx']. { cbn in Eb. congruence. }
      (* the slots of choice and other differ by [off] in [T] *)
      assert (HD : (slot = None /\ dec_slot x = None) \/ exists s t, slot = Some s /\ dec_slot x = Some t /\ (Z.of_nat t - Z.of_nat s = off)%Z /\ t < length (i_slots d)).
      { assert (Hneg : (if o =? c_left k then i32_wrap pr (- z) else Ok z) = Ok (if o =? c_left k then (- z)%Z else z)).
        { destruct (o =? c_left k); auto. apply wrap_ok. unfold i32_min, i32_max in *. lia. }
        rewrite Hneg in Hoff. injection Hoff as <-.
        destruct (Nat.eqb_spec (c_left k) choice) as [El|Hne]; injection Ho as <-.
        - destruct HM as [[M1 M2]|(s & s' & M1 & M2 & M3)]; unfold not_held, scheduled_in in *.
          + left. split; congruence.
          + right. exists s, s'. destruct (Nat.eqb_spec c' (c_left k)) as [Ec|Ec].
            * assert (s = s') by congruence. subst s'. repeat split; try congruence; try lia. eapply (vs_range _ _ HV); eauto.
            * repeat split; try congruence; try lia. eapply (vs_range _ _ HV); eauto.
        - rewrite Nat.eqb_refl. destruct Hcon as [|Hcon]; [contradiction|]. injection Hcon as ->.
          destruct HM as [[M1 M2]|(s & s' & M1 & M2 & M3)]; unfold not_held, scheduled_in in *.
          + left. split; congruence.
          + right. exists s', s. repeat split; try congruence; try lia. eapply (vs_range _ _ HV); eauto. }
      unfold offset_ok in Eb. destruct HD as [[-> Hn]|(s & t & -> & Ht & Hz & Htl)].
      + destruct x; cbn in Hn, Eb; congruence.
      + destruct x as [| |t']; cbn in Ht; try discriminate. injection Ht as ->. cbn [dec_slot is_some Bool.eqb negb] in Eb.
        pose proof (Hr s eq_refl) as Hsl. pose proof (sr_slots _ HS) as HSl. unfold i32_max in HSl.
        rewrite !to_i32_small in Eb by (unfold i32_max; lia). cbn [bind] in Eb. rewrite wrap_ok in Eb by (unfold i32_min, i32_max; lia). cbn [bind] in Eb.
        destruct (Z.eqb_spec (Z.of_nat t - Z.of_nat s) off) as [|]; [|lia]. cbn [negb] in Eb.
        rewrite wrap_ok in Eb by (unfold i32_min, i32_max; lia). cbn [bind] in Eb.
        rewrite wrap_ok in Eb by (unfold i32_min, i32_max; lia). cbn [bind] in Eb. injection Eb as <-.
        apply negb_true_iff, orb_false_iff. rewrite Z.ltb_ge, Z.leb_gt. lia.
    - destruct (opt_nat_eqb slot (Some (c_left k))) eqn:E; cbn [negb] in Eb; [|congruence]. apply opt_nat_eqb_spec in E.
      unfold con_op, con_limit in Eb. pose proof (sr_limits _ HS k) as HLim.
      destruct (c_right k) as [| | | |n]; try contradiction. destruct (c_extra k) as [| |op]; try contradiction. cbn [bind] in Eb.
      specialize (HLim n Hk eq_refl). destruct HM as (mm & HMc & HMr).
      destruct (cardinal_slot_sum d T (c_left k) HLT) as (m' & HMc' & Em). pose proof (cardinal_unique _ _ _ HMc HMc'). subst m'.
      pose proof (tracks_at pr one d _ _ (c_left k) (so_cnt _ _ _ (iv_state _ _ _ _ HI)) HLd (total_one_fits d HFit) (proj1 HK)) as EC.
      pose proof (count_small d dec (c_left k) HLd) as CS. pose proof (sr_choices _ HS) as HCh.
      assert (Hmore : (slot_sum one (i_choices d) (placed dec) (c_left k) + 1 <= N.of_nat mm)%N).
      { rewrite Em, (sum_split one (c_left k)), skip_choice, lsum_cons.
        destruct (nth_error_in_range (i_choices d) choice choice_lt) as [ch Hch].
        rewrite (contrib_choice one (c_left k) slot ch Hslot Hch), E, weigh_same. change (one ch) with 1%N. lia. }
      destruct op; try congruence; cbn [rel_holds] in HMr; rewrite (u32_to_i32_small n) in Eb by auto; cbn [bind] in Eb;
        rewrite (proj2 (get_ok _ _ _) EC) in Eb; cbn [bind] in Eb; (rewrite u32_to_i32_small in Eb by lia); cbn [bind] in Eb;
        unfold i32_max in *; rewrite wrap_ok in Eb by (unfold i32_min, i32_max; lia); cbn [bind] in Eb;
        rewrite wrap_ok in Eb by (unfold i32_min, i32_max; lia); cbn [bind] in Eb; injection Eb as <-; apply Z.leb_le; lia.
  Qed.

  (** How many choices are decided. *)
  Lemma decided_count : length (filter (fun x => negb (is_undecided x)) dec) = m_depth m.
  Proof.
    assert (E : length (filter (fun x => negb (is_undecided x)) dec) =
                length (filter (fun c => match nth_error dec c with Some x => negb (is_undecided x) | None => false end) (seq 0 (length dec)))).
    { clear. generalize dec as dd; intros dd; induction dd as [|x l IH] using rev_ind; auto. rewrite filter_app, app_length, app_length, IH. cbn [length].
      rewrite Nat.add_1_r, seq_S, filter_app, app_length. cbn [plus].
      rewrite (filter_ext_in (fun c => match nth_error (l ++ [x]) c with Some x0 => negb (is_undecided x0) | None => false end)
                 (fun c => match nth_error l c with Some x0 => negb (is_undecided x0) | None => false end) (seq 0 (length l))).
      - f_equal. cbn [filter]. rewrite nth_error_app2, Nat.sub_diag by lia. cbn [nth_error]. destruct (negb (is_undecided x)); auto.
      - intros c Hc. apply in_seq in Hc. rewrite nth_error_app1 by lia. auto. }
    rewrite E, HLd. rewrite (Permutation_length (perm_filter _ _ _ HO)).
    rewrite <- (firstn_skipn (m_depth m) order), filter_app, app_length.
    pose proof (iv_depth _ _ _ _ HI) as HD.
    set (P := fun c => match nth_error dec c with Some x => negb (is_undecided x) | None => false end).
    assert (E1 : filter P (firstn (m_depth m) order) = firstn (m_depth m) order).
    { assert (G : forall l, (forall c, In c l -> P c = true) -> filter P l = l).
      { induction l as [|a l IH]; intros H; auto. cbn. rewrite (H a) by (left; auto). f_equal. apply IH. intros; apply H; right; auto. }
      apply G. intros c Hc. apply In_nth_error in Hc as [i Hi].
      assert (Hlt : i < m_depth m). { apply nth_error_lt in Hi. rewrite firstn_length in Hi. lia. }
      rewrite nth_error_firstn_lt in Hi by auto. unfold P.
      destruct (nth_error_in_range dec c) as [x Hx]; [rewrite HLd; eapply order_lt; eauto|]. rewrite Hx.
      destruct x; auto. apply (iv_dec _ _ _ _ HI _ _ Hi) in Hx. lia. }
    assert (E2 : filter P (skipn (m_depth m) order) = []).
    { assert (G : forall l, (forall c, In c l -> P c = false) -> filter P l = []).
      { induction l as [|a l IH]; intros H; auto. cbn. rewrite (H a) by (left; auto). apply IH. intros; apply H; right; auto. }
      apply G. intros c Hc. apply In_nth_error in Hc as [i Hi]. rewrite nth_error_skipn in Hi. unfold P.
      assert (Hu : nth_error dec c = Some Undecided) by (apply (iv_dec _ _ _ _ HI _ _ Hi); lia). rewrite Hu. auto. }
    rewrite E1, E2, firstn_length. cbn. lia.
  Qed.

  Lemma sat_sound slot : nth_error T choice = Some slot -> sat_constraints pr d choice slot st = Ok true.
  Proof.
    intros Hslot. unfold sat_constraints.
    rewrite (proj2 (mforall_true (sat_con1 pr d choice slot st) (constraints_for d choice))).
    2:{ intros k Hk. apply constraints_for_ok in Hk as [Hk Hcon]; auto using choice_lt. apply sat_con1_sound; auto. }
    cbn [bind negb]. rewrite decided_count. destruct (Nat.eqb_spec (m_depth m + 1) (length (i_choices d))) as [Hlast|]; auto.
    unfold check_slot_sizes. apply mforall_true. intros k Hk.
    destruct (kind_eqb (c_kind k) SlotHasLimitedSize) eqn:E; cbn [negb]; auto.
    apply N.eqb_eq in E. pose proof (wf_sched _ HW k Hk) as HK. pose proof (vs_cons _ _ HV k Hk) as HM.
    unfold sched_shape in HK. unfold sched_means in HM.
    destruct (c_kind k); try discriminate E. unfold con_op, con_limit.
    destruct (c_right k) as [| | | |n]; try contradiction. destruct (c_extra k) as [| |op]; try contradiction.
    rewrite (proj2 (get_ok _ _ _) (tracks_at pr one d _ _ (c_left k) (so_cnt _ _ _ (iv_state _ _ _ _ HI)) HLd (total_one_fits d HFit) (proj1 HK))).
    cbn [bind]. pose proof (count_small d dec (c_left k) HLd). pose proof (fit_choices _ HFit).
    rewrite add_u32_ok by (destruct (opt_nat_eqb slot (Some (c_left k))); lia). cbn [bind]. f_equal. apply limit_ok_spec.
    destruct HM as (mm & HMc & HMr). destruct (cardinal_slot_sum d T (c_left k) HLT) as (m' & HMc' & Em). pose proof (cardinal_unique _ _ _ HMc HMc'). subst m'.
    assert (EC : (slot_sum one (i_choices d) (placed dec) (c_left k) + (if opt_nat_eqb slot (Some (c_left k)) then 1 else 0))%N = N.of_nat mm).
    { rewrite Em, (sum_split one (c_left k)), skip_choice, lsum_cons.
      destruct (nth_error_in_range (i_choices d) choice choice_lt) as [ch Hch]. rewrite (contrib_choice one (c_left k) slot ch Hslot Hch).
      rewrite skipn_all2 by (rewrite (order_length _ _ HO); lia). cbn [lsum fold_right]. unfold weigh, one.
      destruct slot as [s|]; cbn [opt_nat_eqb]; [destruct (s =? c_left k)|]; lia. }
    rewrite EC. auto.
  Qed.

  (** *** The candidate of [T] is tried *)
  Lemma candidate_kept o t l slot : fair o -> nth_error T choice = Some slot ->
    node_candidates pr d o sets suffix t st (m_depth m) choice = Ok l -> In slot l.
  Proof.
    intros HFair Hslot H. unfold node_candidates in H.
    rewrite (proj2 (get_ok _ _ _) (HSuf _ (iv_depth _ _ _ _ HI))) in H. cbn [bind] in H.
    rewrite no_impossibility in H. cbn [bind] in H. rewrite critical_sets_kept in H. cbn [bind negb] in H.
    apply bind_ok in H as (crit & Hcrit & H).
    destruct (nth_error_in_range (i_choices d) choice choice_lt) as [ch Hch].
    pose proof (iv_state _ _ _ _ HI) as HST.
    assert (EM : lsum (max_of d) (skipn (m_depth m) order) = (ch_max ch + lsum (max_of d) (skipn (Datatypes.S (m_depth m)) order))%N).
    { rewrite skip_choice, lsum_cons. unfold max_of at 1. rewrite Hch. auto. }
    assert (HCS : forall s, In s crit -> slot = Some s).
    { intros s Hin. apply (mfilter_in _ _ _ Hcrit) in Hin as [Hin Hf]. apply in_seq in Hin.
      rewrite (proj2 (get_ok _ _ _) Hch) in Hf. cbn [bind] in Hf. unfold sub_u32 in Hf.
      destruct (N.leb_spec (ch_max ch) (lsum (max_of d) (skipn (m_depth m) order))); [|lia]. cbn [bind] in Hf.
      rewrite (proj2 (get_ok _ _ _) (tracks_at pr ch_max d _ _ s (so_max _ _ _ HST) HLd (proj2 (sr_totals _ HS)) ltac:(lia))) in Hf. cbn [bind] in Hf.
      pose proof (placed_plus_rest pr d HS order HO (m_st m) (m_depth m) s HST (iv_dec _ _ _ _ HI)).
      rewrite add_u32_ok in Hf by lia. cbn [bind] in Hf. rewrite (choosers_u32 d HFit) in Hf. cbn [bind] in Hf. injection Hf as Hf. apply N.ltb_lt in Hf.
      destruct (opt_nat_eqb slot (Some s)) eqn:Es; [apply opt_nat_eqb_spec; auto|]. exfalso.
      pose proof (sum_split ch_max s) as E. rewrite skip_choice, lsum_cons, (contrib_choice ch_max s slot ch Hslot Hch) in E.
      pose proof (contrib_max_le s (skipn (Datatypes.S (m_depth m)) order)).
      assert (Z0 : weigh ch_max ch slot s = 0%N). { unfold weigh. destruct slot as [u|]; auto. cbn in Es. rewrite Es. auto. }
      pose proof (proj2 (vs_sums _ _ HV s ltac:(lia))). lia. }
    destruct crit as [|s [|s' crit]].
    - destruct (feasible_slots_perm _ _ _ _ _ _ _ HFair H) as (ch' & slots & none_ok & Hch' & Hn & Hs & HP).
      assert (ch' = ch) as -> by congruence. apply (Permutation_in _ HP). apply in_or_app.
      destruct slot as [s|].
      + left. apply in_map. apply (mfilter_in _ _ _ Hs).
        assert (Hsl : s < length (i_slots d)) by (eapply (vs_range _ _ HV); eauto). split; [apply in_seq; lia|].
        rewrite (proj2 (get_ok _ _ _) Hch). cbn [bind].
        rewrite (proj2 (get_ok _ _ _) (tracks_at pr ch_min d _ _ s (so_min _ _ _ HST) HLd (proj1 (sr_totals _ HS)) Hsl)). cbn [bind].
        pose proof (sum_split ch_min s) as E. rewrite skip_choice, lsum_cons, (contrib_choice ch_min s (Some s) ch Hslot Hch), weigh_same in E.
        pose proof (slot_sum_total ch_min d T s HLT). pose proof (proj1 (sr_totals _ HS)).
        rewrite add_u32_ok by lia. cbn [bind]. rewrite (choosers_u32 d HFit). cbn [bind].
        pose proof (proj1 (vs_sums _ _ HV s Hsl)).
        destruct (N.ltb_spec (N.of_nat (length (i_choosers d))) (ch_min ch + slot_sum ch_min (i_choices d) (placed dec) s)); [lia|].
        apply sat_sound; auto.
      + right. rewrite (vs_optional _ _ HV choice ch Hch Hslot) in Hn. rewrite (sat_sound None Hslot) in Hn.
        injection Hn as <-. left; auto.
    - pose proof (HCS s (or_introl eq_refl)) as ->. rewrite (sat_sound (Some s) Hslot) in H. cbn [bind] in H. injection H as <-. left; auto.
    - exfalso. pose proof (HCS s (or_introl eq_refl)) as E1. pose proof (HCS s' (or_intror (or_introl eq_refl))) as E2.
      assert (s = s') by congruence. subst s'.
      apply mfilter_nodup in Hcrit; [|apply seq_NoDup]. inversion Hcrit as [|? ? Hn _]; subst. apply Hn. left; auto.
  Qed.
End Sound.
