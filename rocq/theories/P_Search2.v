(** The scheduling search ends and does not panic. *)
From Verif Require Import Base M_Data Spec M_Scoring P_Scoring P_Feasible Spec_Search M_Rng M_Critical M_Search P_Sums P_Rng P_Search1.
From Coq Require Import Permutation.

Lemma nth_error_skipn {A} (l : list A) : forall n i, nth_error (skipn n l) i = nth_error l (n + i).
Proof. induction l as [|a l IH]; intros [|n] i; cbn; auto. destruct i; auto. Qed.

(** ** Termination *)
Fixpoint fresh_cost (b k : nat) : nat :=
  match k with O => 0 | Datatypes.S k' => b * (fresh_cost b k' + 2) end.
Fixpoint stack_cost (n b : nat) (stack : list (list (option nat))) : nat :=
  match stack with
  | [] => 0
  | l :: rest => length l * (fresh_cost b (n - Datatypes.S (length rest)) + 2) + stack_cost n b rest
  end.
Definition cost (d : input_data) (order : list nat) (m : mach) : nat :=
  let n := length order in
  let b := length (i_slots d) + 1 in
  stack_cost n b (m_stack m) + (if length (m_stack m) =? m_depth m then fresh_cost b (n - m_depth m) else 0) + m_depth m.

Lemma step_decreases pr d o late sets order suffix m m' : fair o -> inv pr d order m ->
  step pr d o late sets order suffix m = Ok (Continue m') -> cost d order m' < cost d order m.
Proof.
  intros HF HI H. apply step_inv in H as [(m'' & choice & bucket & rest & E & HT & HC)|[(_ & _ & E)|[(c & r & E & _)|(_ & r & _ & E)]]];
    try discriminate. injection E as <-.
  pose proof (turn_buckets pr d o late sets order suffix HF _ _ _ _ HI HT) as HB. destruct HB as (_ & HB & _).
  destruct HT as [T1 T2 T3 T4]. pose proof (nth_error_lt _ _ _ T1) as Hlt. unfold cost.
  set (b := length (i_slots d) + 1) in *. set (n := length order) in *.
  assert (EF : fresh_cost b (n - m_depth m) = b * (fresh_cost b (n - Datatypes.S (m_depth m)) + 2)).
  { replace (n - m_depth m) with (Datatypes.S (n - Datatypes.S (m_depth m))) by lia. reflexivity. }
  destruct HC as [(depth' & prev & st & -> & Ed & Hp & Hc & ->)|(next & bucket' & st & -> & Ha & ->)]; cbn [m_stack m_depth].
  - rewrite T4. destruct (Nat.eqb_spec (m_depth m) depth'); [lia|].
    destruct T3 as [(L & -> & _)|(L & E)].
    + lia.
    + rewrite E. cbn [stack_cost length]. lia.
  - cbn [length]. rewrite T4. destruct (Nat.eqb_spec (Datatypes.S (m_depth m)) (Datatypes.S (m_depth m))); [|lia].
    cbn [stack_cost]. rewrite T4. cbn [length] in HB. set (w := fresh_cost b (n - Datatypes.S (m_depth m))) in *.
    destruct T3 as [(L & -> & _)|(L & E)].
    + rewrite T4, Nat.eqb_refl, EF. assert (length bucket' * (w + 2) + (w + 2) <= b * (w + 2)).
      { replace (length bucket' * (w + 2) + (w + 2)) with ((length bucket' + 1) * (w + 2)) by ring. apply Nat.mul_le_mono_r. lia. }
      lia.
    + rewrite E. cbn [stack_cost length]. rewrite T4. fold w. destruct (Nat.eqb_spec (Datatypes.S (m_depth m)) (m_depth m)); lia.
Qed.

Lemma run_ends pr d o late sets order suffix : wf_input d -> fair o -> is_order d order -> forall fuel m, inv pr d order m ->
  cost d order m < fuel -> exists r, run pr d o late sets order suffix fuel m = Some r.
Proof.
  intros HW HF HO. induction fuel as [|fuel IH]; intros m HI HC; [lia|]. cbn [run].
  destruct (step pr d o late sets order suffix m) as [[m'|r t]| |] eqn:E; eauto.
  apply IH.
  - eapply step_keeps; eauto.
  - pose proof (step_decreases _ _ _ _ _ _ _ _ _ HF HI E). lia.
Qed.

(** ** No panic *)
Definition sched_ok (d : input_data) (k : constraint) : Prop :=
  In k (i_sched d).

Lemma wrap_ok pr z : (i32_min <= z <= i32_max)%Z -> i32_wrap pr z = Ok z.
Proof.
  unfold i32_wrap. intros [A B]. destruct (Z.leb_spec i32_min z); [|lia]. destruct (Z.leb_spec z i32_max); [|lia]. auto.
Qed.
Lemma to_i32_small n : (Z.of_nat n <= i32_max)%Z -> to_i32 n = Ok (Z.of_nat n).
Proof. intros H. unfold to_i32. destruct (Z.leb_spec (Z.of_nat n) i32_max); auto; lia. Qed.
Lemma u32_to_i32_small n : (Z.of_N n <= i32_max)%Z -> u32_to_i32 n = Ok (Z.of_N n).
Proof. intros H. unfold u32_to_i32. destruct (Z.leb_spec (Z.of_N n) i32_max); auto; lia. Qed.
Lemma to_u32_small n : (N.of_nat n <= u32_max)%N -> to_u32 n = Ok (N.of_nat n).
Proof. intros H. unfold to_u32. destruct (N.leb_spec (N.of_nat n) u32_max); auto; lia. Qed.

Lemma total_one d : total one d = N.of_nat (length (i_choices d)).
Proof. unfold total. induction (i_choices d) as [|c cs IH]; auto. cbn [fold_right length]. rewrite IH. unfold one. lia. Qed.

Lemma tracks_at pr f d dec l s : tracks pr f d dec l -> length dec = length (i_choices d) -> (total f d <= u32_max)%N -> s < length (i_slots d) ->
  nth_error l s = Some (slot_sum f (i_choices d) (placed dec) s).
Proof.
  intros [HL HT] HD Hf Hs. destruct (nth_error_in_range l s) as [v Hv]; [lia|]. rewrite Hv. f_equal.
  eapply rep_exact; [|apply HT; eauto]. pose proof (slot_sum_total f d (placed dec) s). rewrite placed_length in H. lia.
Qed.

Lemma constraints_for_ok d c k : searchable d -> c < length (i_choices d) -> In k (constraints_for d c) -> In k (i_sched d) /\ concerns c k.
Proof.
  intros HS Hc H. unfold constraints_for in H. destruct (sr_map _ HS) as [HL HM].
  destruct (nth_error (i_choice_map d) c) as [l|] eqn:E; [eapply HM; eauto|]. apply nth_error_None in E. lia.
Qed.

Section Totality.
  Variables (pr : profile) (d : input_data).
  Hypothesis HW : wf_input d.
  Hypothesis HFit : fits d.
  Hypothesis HS : searchable d.

  Lemma slots_i32 s : s < length (i_slots d) -> (0 <= Z.of_nat s <= i32_max)%Z.
  Proof. intros H. pose proof (fit_slots _ HFit). lia. Qed.
  Lemma count_small dec s : length dec = length (i_choices d) -> (slot_sum one (i_choices d) (placed dec) s <= N.of_nat (length (i_choices d)))%N.
  Proof. intros H. rewrite <- total_one. apply slot_sum_total. rewrite placed_length. auto. Qed.
  Lemma total_one_fits : (total one d <= u32_max)%N.
  Proof. rewrite total_one. pose proof (fit_choices _ HFit). lia. Qed.

  Lemma other_of_total c k : c < length (i_choices d) -> sched_shape d k ->
    (c_kind k = ChoicesAreInSameSlot \/ c_kind k = ChoicesAreNotInSameSlot \/ c_kind k = ChoicesHaveOffset) ->
    exists x, other_of c k = Ok x /\ x < length (i_choices d).
  Proof.
    intros Hc HK Hk. unfold other_of, con_other_choice. unfold sched_shape in HK.
    destruct Hk as [E|[E|E]]; rewrite E in HK; destruct (c_right k); try contradiction; destruct (c_left k =? c); try (eexists; split; [reflexivity|tauto]);
      destruct (c_extra k); try contradiction; eexists; split; try reflexivity; tauto.
  Qed.

  Lemma offset_ok_total slot x z : (forall s, slot = Some s -> s < length (i_slots d)) ->
    (forall s, x = InSlot s -> s < length (i_slots d)) -> exists b, offset_ok pr d slot x z = Ok b.
  Proof.
    intros Hs Hx. unfold offset_ok. destruct x as [| |t]; eauto.
    - destruct slot; cbn; eauto.
    - destruct slot as [s|]; cbn [dec_slot is_some Bool.eqb negb]; eauto.
      specialize (Hs s eq_refl). specialize (Hx t eq_refl). pose proof (slots_i32 _ Hs). pose proof (slots_i32 _ Hx). pose proof (sr_slots _ HS).
      rewrite !to_i32_small by lia. cbn [bind]. unfold i32_max, i32_min in *. rewrite wrap_ok by (unfold i32_max, i32_min; lia). cbn [bind].
      destruct (Z.eqb_spec (Z.of_nat t - Z.of_nat s) z) as [<-|]; cbn [negb]; eauto.
      rewrite wrap_ok by (unfold i32_max, i32_min; lia). cbn [bind]. rewrite wrap_ok by (unfold i32_max, i32_min; lia). cbn [bind]. eauto.
  Qed.

  Lemma sat_con1_total c slot st k : c < length (i_choices d) -> (forall s, slot = Some s -> s < length (i_slots d)) ->
    state_ok pr d st -> In k (i_sched d) -> exists b, sat_con1 pr d c slot st k = Ok b.
  Proof.
    intros Hc Hs HST Hk. pose proof (wf_sched _ HW k Hk) as HK. pose proof (so_len _ _ _ HST) as HL.
    assert (HOther : forall x, x < length (i_choices d) -> exists y, nth_error (st_dec st) x = Some y) by (intros; apply nth_error_in_range; lia).
    unfold sat_con1. destruct (c_kind k) eqn:Ek; try (unfold sched_shape in HK; rewrite Ek in HK; contradiction).
    - unfold sched_shape in HK; rewrite Ek in HK. unfold con_slot. destruct (c_right k); try contradiction. cbn; eauto.
    - unfold sched_shape in HK; rewrite Ek in HK. unfold con_slot. destruct (c_right k); try contradiction. cbn; eauto.
    - destruct (other_of_total c k Hc HK) as (x & -> & Hx); auto. cbn [bind]. destruct (HOther x Hx) as [y Hy].
      rewrite (proj2 (get_ok _ _ _) Hy). cbn; eauto.
    - destruct (other_of_total c k Hc HK) as (x & -> & Hx); auto. cbn [bind]. destruct (HOther x Hx) as [y Hy].
      rewrite (proj2 (get_ok _ _ _) Hy). cbn; eauto.
    - destruct (other_of_total c k Hc HK) as (x & -> & Hx); auto. cbn [bind]. destruct (HOther x Hx) as [y Hy].
      unfold sched_shape in HK; rewrite Ek in HK. destruct (c_right k); try contradiction.
      pose proof (sr_offsets _ HS k) as HO. unfold con_offset. destruct (c_extra k) as [|z|]; try contradiction. cbn [bind].
      specialize (HO z Hk eq_refl).
      assert (E : exists z', (if x =? c_left k then i32_wrap pr (- z) else Ok z) = Ok z').
      { destruct (x =? c_left k); eauto. rewrite wrap_ok; eauto. unfold i32_min, i32_max in *. lia. }
      destruct E as [z' ->]. cbn [bind]. rewrite (proj2 (get_ok _ _ _) Hy). cbn [bind]. apply offset_ok_total; auto.
      intros s ->. eapply so_slots; eauto.
    - destruct (opt_nat_eqb slot (Some (c_left k))) eqn:E; cbn [negb]; eauto. apply opt_nat_eqb_spec in E.
      unfold sched_shape in HK; rewrite Ek in HK. unfold con_op, con_limit. pose proof (sr_limits _ HS k) as HLim.
      destruct (c_right k) as [| | | |n]; try contradiction. destruct (c_extra k) as [| |op]; try contradiction. cbn [bind].
      specialize (HLim n Hk eq_refl).
      pose proof (tracks_at pr one d _ _ (c_left k) (so_cnt _ _ _ HST) HL total_one_fits (proj1 HK)) as EC.
      pose proof (count_small (st_dec st) (c_left k) HL) as CS. pose proof (sr_choices _ HS).
      destruct op; cbn [bind]; eauto; rewrite u32_to_i32_small by auto; cbn [bind]; rewrite (proj2 (get_ok _ _ _) EC); cbn [bind];
        (rewrite u32_to_i32_small by lia); cbn [bind]; unfold i32_max in *; rewrite wrap_ok by (unfold i32_min, i32_max; lia); cbn [bind];
        rewrite wrap_ok by (unfold i32_min, i32_max; lia); cbn [bind]; eauto.
  Qed.

  Lemma sat_constraints_total c slot st : c < length (i_choices d) -> (forall s, slot = Some s -> s < length (i_slots d)) ->
    state_ok pr d st -> exists b, sat_constraints pr d c slot st = Ok b.
  Proof.
    intros Hc Hs HST. unfold sat_constraints.
    destruct (mforall_ok (sat_con1 pr d c slot st) (constraints_for d c)) as [b ->].
    { intros k Hk. apply sat_con1_total; auto. eapply constraints_for_ok; eauto. }
    cbn [bind]. destruct b; cbn [negb]; eauto. destruct (_ =? _); eauto.
    apply mforall_ok. intros k Hk. destruct (negb (kind_eqb (c_kind k) SlotHasLimitedSize)) eqn:E; eauto.
    apply negb_false_iff, N.eqb_eq in E. pose proof (wf_sched _ HW k Hk) as HK. unfold sched_shape in HK.
    destruct (c_kind k); try discriminate E. unfold con_op, con_limit.
    destruct (c_right k) as [| | | |n]; try contradiction. destruct (c_extra k) as [| |op]; try contradiction.
    rewrite (proj2 (get_ok _ _ _) (tracks_at pr one d _ _ (c_left k) (so_cnt _ _ _ HST) (so_len _ _ _ HST) total_one_fits (proj1 HK))).
    cbn [bind]. pose proof (count_small (st_dec st) (c_left k) (so_len _ _ _ HST)). pose proof (fit_choices _ HFit).
    rewrite add_u32_ok by (destruct (opt_nat_eqb slot (Some (c_left k))); lia). cbn; eauto.
  Qed.

  (** Suffix sums. *)
  Definition max_of (c : nat) : N := match nth_error (i_choices d) c with Some ch => ch_max ch | None => 0%N end.
  Lemma max_suffix_ok order : (forall c, In c order -> c < length (i_choices d)) -> (lsum max_of order <= u32_max)%N ->
    exists suffix, max_suffix pr d order = Ok suffix /\ length suffix = Datatypes.S (length order) /\
      forall i, i <= length order -> nth_error suffix i = Some (lsum max_of (skipn i order)).
  Proof.
    induction order as [|c order IH]; intros Hin HB.
    - exists [0%N]. repeat split; auto. intros [|i] Hi; [auto|cbn in Hi; lia].
    - rewrite lsum_cons in HB. destruct IH as (r & E & L & R). { intros; apply Hin; right; auto. } { lia. }
      cbn [max_suffix]. rewrite E. cbn [bind]. rewrite (proj2 (get_ok _ _ _) (R 0 ltac:(lia))). cbn [bind skipn].
      destruct (nth_error_in_range (i_choices d) c) as [ch Hch]; [apply Hin; left; auto|].
      rewrite (proj2 (get_ok _ _ _) Hch). cbn [bind]. unfold max_of at 1 in HB. rewrite Hch in HB.
      rewrite add_u32_ok by lia. cbn [bind]. eexists; split; [reflexivity|]. split; [cbn; lia|].
      intros [|i] Hi; cbn [nth_error skipn].
      + rewrite lsum_cons. unfold max_of at 2. rewrite Hch. f_equal. lia.
      + apply R. cbn in Hi. lia.
  Qed.
  Lemma order_total order : is_order d order -> lsum max_of order = total ch_max d.
  Proof. intros HO. rewrite total_lsum. symmetry. apply lsum_perm. exact HO. Qed.

  Variables (o : oracle) (late : nat -> bool) (sets : list cset) (order : list nat) (suffix : list N).
  Hypothesis HF : fair o.
  Hypothesis HO : is_order d order.
  Hypothesis HSuf : forall i, i <= length order -> nth_error suffix i = Some (lsum max_of (skipn i order)).
  Hypothesis HSets : forall s c, In s sets -> In c (set_data s) -> c < length (i_choices d).

  Lemma skipn_sum_le i : (lsum max_of (skipn i order) <= u32_max)%N.
  Proof.
    pose proof (order_total order HO) as E. rewrite <- (firstn_skipn i order), lsum_app in E.
    pose proof (proj2 (sr_totals _ HS)). lia.
  Qed.
  (** Decided and undecided maxima together never exceed the total. *)
  Lemma placed_plus_rest st depth s : state_ok pr d st ->
    (forall i c, nth_error order i = Some c -> (nth_error (st_dec st) c = Some Undecided <-> depth <= i)) ->
    (slot_sum ch_max (i_choices d) (placed (st_dec st)) s + lsum max_of (skipn depth order) <= u32_max)%N.
  Proof.
    intros HST HD. pose proof (so_len _ _ _ HST) as HL.
    rewrite slot_sum_lsum by (rewrite placed_length; auto).
    rewrite (lsum_perm _ _ _ HO). rewrite <- (firstn_skipn depth order) at 1. rewrite lsum_app.
    assert (E : lsum (contrib ch_max (i_choices d) (placed (st_dec st)) s) (skipn depth order) = 0%N).
    { rewrite (lsum_ext _ (fun _ => 0%N)). { clear. induction (skipn depth order) as [|a l IH]; auto. }
      intros c Hc. apply In_nth_error in Hc as [i Hi]. rewrite nth_error_skipn in Hi. unfold contrib.
      rewrite (placed_nth _ _ _ (proj2 (HD _ _ Hi) ltac:(lia))). cbn. destruct (nth_error (i_choices d) c); auto. }
    rewrite E. pose proof (order_total order HO) as T. rewrite <- (firstn_skipn depth order), lsum_app in T.
    assert (lsum (contrib ch_max (i_choices d) (placed (st_dec st)) s) (firstn depth order) <= lsum max_of (firstn depth order))%N.
    { apply lsum_le. intros c _. unfold contrib, max_of. destruct (nth_error (i_choices d) c); [|lia].
      destruct (nth_error (placed (st_dec st)) c); [apply weigh_le|lia]. }
    pose proof (proj2 (sr_totals _ HS)). lia.
  Qed.

  Lemma choosers_u32 : to_u32 (length (i_choosers d)) = Ok (N.of_nat (length (i_choosers d))).
  Proof. apply to_u32_small. pose proof (fit_choosers _ HFit). lia. Qed.

  Lemma coverable_total st s : state_ok pr d st -> In s sets -> exists b, set_still_coverable (length (i_slots d)) (st_dec st) s = Ok b.
  Proof.
    intros HST Hs. unfold set_still_coverable.
    assert (G : forall l acc, (forall c, In c l -> c < length (i_choices d)) -> length (fst (fst acc)) = length (i_slots d) ->
      exists r, mfold (fun (acc : list bool * nat * nat) element =>
        let '(covered, count, missing) := acc in
        let* x := get (st_dec st) element in
        match x with
        | Undecided => Ok (covered, count, Datatypes.S missing)
        | InSlot slot =>
            let* b := get covered slot in
            if b then Ok (covered, count, missing)
            else let* covered' := set covered slot true in Ok (covered', Datatypes.S count, missing)
        | Omitted => Ok (covered, count, missing)
        end) l acc = Ok r).
    { induction l as [|c l IH]; intros [[cov cnt] mis] Hl HLc; cbn [mfold]; eauto. cbn [fst] in HLc.
      destruct (nth_error_in_range (st_dec st) c) as [x Hx]; [rewrite (so_len _ _ _ HST); apply Hl; left; auto|].
      rewrite (proj2 (get_ok _ _ _) Hx). cbn [bind]. destruct x as [| |t]; cbn [bind].
      - apply IH; auto. intros; apply Hl; right; auto.
      - apply IH; auto. intros; apply Hl; right; auto.
      - pose proof (so_slots _ _ _ HST _ _ Hx) as Ht. destruct (nth_error_in_range cov t) as [b Hb]; [lia|].
        rewrite (proj2 (get_ok _ _ _) Hb). cbn [bind]. destruct b; cbn [bind].
        + apply IH; auto. intros; apply Hl; right; auto.
        + unfold set. destruct (Nat.ltb_spec t (length cov)); [|lia]. cbn [bind]. apply IH; [intros; apply Hl; right; auto|].
          cbn [fst]. rewrite upd_length. auto. }
    destruct (G (set_data s) (repeat false (length (i_slots d)), 0, 0)) as [[[cov cnt] mis] ->]; [eauto|cbn; apply repeat_length|]. cbn; eauto.
  Qed.

  Lemma mexists_ok {A} (f : A -> outcome bool) l : (forall x, In x l -> exists b, f x = Ok b) -> exists b, mexists f l = Ok b.
  Proof.
    induction l as [|a l IH]; intros H; cbn; eauto. destruct (H a) as [b ->]; [left; auto|]. cbn. destruct b; eauto. apply IH. intros; apply H; right; auto.
  Qed.
  Lemma mfilter_ok {A} (f : A -> outcome bool) l : (forall x, In x l -> exists b, f x = Ok b) -> exists r, mfilter f l = Ok r.
  Proof.
    induction l as [|a l IH]; intros H; cbn; eauto. destruct (H a) as [b ->]; [left; auto|]. cbn.
    destruct IH as [r ->]; [intros; apply H; right; auto|]. cbn. eauto.
  Qed.

  Lemma passing_total st c : c < length (i_choices d) -> state_ok pr d st -> nth_error (st_dec st) c = Some Undecided ->
    exists r, passing_slots pr d st c = Ok r.
  Proof.
    intros Hc HST Hu. apply mfilter_ok. intros s Hs. apply in_seq in Hs.
    destruct (nth_error_in_range (i_choices d) c Hc) as [ch Hch]. rewrite (proj2 (get_ok _ _ _) Hch). cbn [bind].
    pose proof (so_len _ _ _ HST) as HL.
    rewrite (proj2 (get_ok _ _ _) (tracks_at pr ch_min d _ _ s (so_min _ _ _ HST) HL (proj1 (sr_totals _ HS)) ltac:(lia))). cbn [bind].
    pose proof (slot_sum_upd ch_min (i_choices d) (placed (st_dec st)) c s (Some s) None ch (placed_nth _ _ _ Hu) Hch) as E.
    rewrite weigh_same in E. cbn [weigh] in E.
    pose proof (slot_sum_total ch_min d (upd (placed (st_dec st)) c (Some s)) s) as B. rewrite upd_length, placed_length in B. specialize (B HL).
    pose proof (proj1 (sr_totals _ HS)). rewrite add_u32_ok by lia. cbn [bind]. rewrite choosers_u32. cbn [bind].
    destruct (_ <? _)%N; eauto. apply sat_constraints_total; auto. intros s' E'. injection E' as <-. lia.
  Qed.

  Lemma candidates_total m c : inv pr d order m -> nth_error order (m_depth m) = Some c -> forall t,
    exists l, node_candidates pr d o sets suffix t (m_st m) (m_depth m) c = Ok l.
  Proof.
    intros [I1 I2 I3 I4 I5] Hc t. pose proof (order_lt _ _ _ _ HO Hc) as Hcl. pose proof (so_len _ _ _ I5) as HL.
    pose proof (proj2 (sr_totals _ HS)) as HTm.
    assert (Hmax : forall s, s < length (i_slots d) -> get (st_max (m_st m)) s = Ok (slot_sum ch_max (i_choices d) (placed (st_dec (m_st m))) s)).
    { intros s Hs. apply get_ok. eapply tracks_at; eauto. apply (so_max _ _ _ I5). }
    unfold node_candidates. rewrite (proj2 (get_ok _ _ _) (HSuf _ I1)). cbn [bind].
    destruct (mexists_ok (fun slot => let* mm := get (st_max (m_st m)) slot in
        let* sum := add_u32 pr (lsum max_of (skipn (m_depth m) order)) mm in
        let* n := to_u32 (length (i_choosers d)) in Ok (sum <? n)%N) (seq 0 (length (i_slots d)))) as [imp Ei].
    { intros s Hs. apply in_seq in Hs. rewrite Hmax by lia. cbn [bind]. pose proof (placed_plus_rest _ _ s I5 I3).
      rewrite add_u32_ok by lia. cbn [bind]. rewrite choosers_u32. cbn; eauto. }
    unfold has_impossibilities. rewrite Ei. cbn [bind].
    assert (ED : exists dead, (if imp then Ok true else let* b := satisfies_critical_sets d (st_dec (m_st m)) sets in Ok (negb b)) = Ok dead).
    { destruct imp; eauto. unfold satisfies_critical_sets.
      destruct (mforall_ok (set_still_coverable (length (i_slots d)) (st_dec (m_st m))) sets) as [b ->]; [|cbn; eauto].
      intros s Hs. apply coverable_total; auto. }
    destruct ED as [dead ->]. cbn [bind]. destruct dead; eauto.
    pose proof (skipn_cons _ _ _ Hc) as ES.
    destruct (nth_error_in_range (i_choices d) c Hcl) as [ch Hch].
    assert (EM : lsum max_of (skipn (m_depth m) order) = (ch_max ch + lsum max_of (skipn (Datatypes.S (m_depth m)) order))%N).
    { rewrite ES, lsum_cons. unfold max_of at 1. rewrite Hch. auto. }
    destruct (mfilter_ok (fun slot => let* c0 := get (i_choices d) c in
        let* rest := sub_u32 pr (lsum max_of (skipn (m_depth m) order)) (ch_max c0) in
        let* mm := get (st_max (m_st m)) slot in
        let* sum := add_u32 pr rest mm in
        let* n := to_u32 (length (i_choosers d)) in Ok (sum <? n)%N) (seq 0 (length (i_slots d)))) as [crit Ec].
    { intros s Hs. apply in_seq in Hs. rewrite (proj2 (get_ok _ _ _) Hch). cbn [bind]. unfold sub_u32.
      destruct (N.leb_spec (ch_max ch) (lsum max_of (skipn (m_depth m) order))); [|lia]. cbn [bind].
      rewrite Hmax by lia. cbn [bind]. pose proof (placed_plus_rest _ _ s I5 I3). rewrite add_u32_ok by lia. cbn [bind].
      rewrite choosers_u32. cbn; eauto. }
    unfold critical_slots. rewrite Ec. cbn [bind].
    destruct crit as [|s [|s' crit]]; eauto.
    - unfold feasible_slots. rewrite (proj2 (get_ok _ _ _) Hch). cbn [bind].
      assert (EN : exists b, (if ch_optional ch then sat_constraints pr d c None (m_st m) else Ok false) = Ok b).
      { destruct (ch_optional ch); eauto. apply sat_constraints_total; auto. discriminate. }
      destruct EN as [nb ->]. cbn [bind].
      destruct (passing_total (m_st m) c Hcl I5) as [slots Es]; [apply (I3 _ _ Hc); auto|]. rewrite Es. cbn [bind].
      destruct (mmap_ok (fun s => let* mm := get (st_max (m_st m)) s in Ok (mm, s)) slots) as [keyed ->].
      { intros s Hs. apply (mfilter_in _ _ _ Es) in Hs as [Hs _]. apply in_seq in Hs. rewrite Hmax by lia. cbn; eauto. }
      cbn [bind]. destruct (riffle_shuffle_perm o t (map (fun ks : N * nat => Some (snd ks)) (sort_key keyed)) (if nb then [None] else []) HF) as (res & -> & _). eauto.
    - assert (In s [s]) as Hin by (left; auto). apply (mfilter_in _ _ _ Ec) in Hin as [Hin _]. apply in_seq in Hin.
      destruct (sat_constraints_total c (Some s) (m_st m) Hcl) as [b ->]; auto. { intros s' E'. injection E' as <-. lia. } cbn; eauto.
  Qed.

  (** The leaf. *)
  Lemma convert_total dec : length dec = length (i_choices d) -> (forall c s, nth_error dec c = Some (InSlot s) -> s < length (i_slots d)) ->
    exists r, convert_decisions d dec = Ok r /\ length r = length (i_slots d) /\
      forall s l, nth_error r s = Some l -> l = filter (in_slotb (placed dec) s) (seq 0 (length dec)).
  Proof.
    intros HL HSl. unfold convert_decisions.
    assert (G : forall l k res, (forall i, nth_error l i = nth_error dec (k + i)) -> k + length l = length dec -> length res = length (i_slots d) ->
      (forall s b, nth_error res s = Some b -> b = filter (in_slotb (placed dec) s) (seq 0 k)) ->
      exists r, mfold (fun res ci => match snd ci with
          | InSlot s => let* b := get res s in set res s (b ++ [fst ci])
          | _ => Ok res end) (combine (seq k (length l)) l) res = Ok r /\ length r = length (i_slots d) /\
        forall s b, nth_error r s = Some b -> b = filter (in_slotb (placed dec) s) (seq 0 (length dec))).
    { induction l as [|x l IH]; intros k res Hl HK HR HI.
      - cbn in *. exists res. repeat split; auto. rewrite <- HK, Nat.add_0_r. auto.
      - cbn [length seq combine mfold snd fst].
        assert (Hx : nth_error dec k = Some x) by (rewrite <- (Nat.add_0_r k), <- Hl; auto).
        assert (Hnext : forall i, nth_error l i = nth_error dec (Datatypes.S k + i)).
        { intros i. replace (Datatypes.S k + i) with (k + Datatypes.S i) by lia. rewrite <- Hl. auto. }
        assert (Hin : forall s, in_slotb (placed dec) s k = opt_nat_eqb (dec_slot x) (Some s)).
        { intros s. unfold in_slotb. rewrite (placed_nth _ _ _ Hx). auto. }
        assert (Hstep : forall s, filter (in_slotb (placed dec) s) (seq 0 (Datatypes.S k)) =
                 filter (in_slotb (placed dec) s) (seq 0 k) ++ if opt_nat_eqb (dec_slot x) (Some s) then [k] else []).
        { intros s. rewrite seq_S, filter_app. cbn [filter plus]. rewrite Hin. auto. }
        cbn [length] in HK.
        destruct x as [| |s]; cbn [bind].
        + apply IH; auto; try lia. intros s b Hb. rewrite Hstep. cbn. rewrite app_nil_r. auto.
        + apply IH; auto; try lia. intros s b Hb. rewrite Hstep. cbn. rewrite app_nil_r. auto.
        + pose proof (HSl _ _ Hx) as Hs. destruct (nth_error_in_range res s) as [b Hb]; [lia|].
          rewrite (proj2 (get_ok _ _ _) Hb). cbn [bind]. unfold set at 1. destruct (Nat.ltb_spec s (length res)); [|lia]. cbn [bind].
          apply IH; auto; try lia. { rewrite upd_length; auto. }
          intros s' b'. rewrite nth_error_upd, Hstep. cbn [dec_slot opt_nat_eqb]. destruct (Nat.eqb_spec s s') as [<-|Hne].
          * destruct (Nat.ltb_spec s (length res)); [|lia]. intros E. injection E as <-. f_equal. auto.
          * intros Hb'. rewrite app_nil_r. auto. }
    destruct (G dec 0 (repeat [] (length (i_slots d)))) as (r & E & R); eauto.
    - apply repeat_length.
    - intros s b Hb. apply nth_error_repeat_inv in Hb as [-> _]. auto.
  Qed.
End Totality.
