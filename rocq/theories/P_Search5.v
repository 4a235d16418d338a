(** Completeness of exhausted searches (C12) and preference relaxation (C44). *)
From Verif Require Import Base M_Data Spec M_Scoring P_Scoring P_Feasible Spec_Search M_Rng M_Critical M_Search P_Critical P_Sums P_Rng P_Search1 P_Search2 P_Search3 P_Search4.
From Coq Require Import Permutation Sorted.

(** [T] can still be reached from a bucket of the stack. *)
Fixpoint stack_has (order : list nat) (T : scheduling) (dec : list decision) (stack : list (list (option nat))) : Prop :=
  match stack with
  | [] => False
  | b :: rest => (exists c x, nth_error order (length rest) = Some c /\ nth_error T c = Some x /\ In x b /\ agree order (length rest) T dec) \/
                 stack_has order T dec rest
  end.
Definition pending (order : list nat) (T : scheduling) (m : mach) : Prop :=
  stack_has order T (st_dec (m_st m)) (m_stack m) \/
  (length (m_stack m) = m_depth m /\ agree order (m_depth m) T (st_dec (m_st m))).

Lemma agree_upd d order n T dec i c x : is_order d order -> nth_error order i = Some c -> n <= i ->
  agree order n T dec -> agree order n T (upd dec c x).
Proof.
  intros HO Hi Hn HA j c' y Hj Hc' Hy. rewrite nth_error_upd_other in Hy; [eapply HA; eauto|].
  intros ->. assert (i = j) by (eapply order_inj; eauto). lia.
Qed.
Lemma stack_has_upd d order T dec i c x stack : is_order d order -> nth_error order i = Some c -> length stack <= Datatypes.S i ->
  stack_has order T dec stack -> stack_has order T (upd dec c x) stack.
Proof.
  intros HO Hi. induction stack as [|b rest IH]; cbn [stack_has length]; intros HL H; auto.
  destruct H as [(c' & y & H1 & H2 & H3 & H4)|H].
  - left. exists c', y. repeat split; auto. apply (agree_upd d order (length rest) T dec i c x); auto. lia.
  - right. apply IH; auto. lia.
Qed.

Section Complete.
  Variables (pr : profile) (d : input_data) (o : oracle) (late : nat -> bool) (sets : list cset) (order : list nat) (suffix : list N) (T : scheduling).
  Hypothesis HW : wf_input d.
  Hypothesis HFit : fits d.
  Hypothesis HS : searchable d.
  Hypothesis HF : fair o.
  Hypothesis HO : is_order d order.
  Hypothesis HSuf : forall i, i <= length order -> nth_error suffix i = Some (lsum (max_of d) (skipn i order)).
  Hypothesis HSets : forall s c, In s sets -> In c (set_data s) -> c < length (i_choices d).
  Hypothesis HV : valid_scheduling d T.
  Hypothesis HCov : forall s, In s sets -> covers_slots d T (set_data s).

  Lemma turn_has m choice bucket rest : inv pr d order m -> pending order T m -> turn pr d o late sets order suffix m choice bucket rest ->
    stack_has order T (st_dec (m_st m)) (bucket :: rest).
  Proof.
    intros HI HP [T1 T2 T3 T4]. destruct T3 as [(L & -> & HN)|(L & <-)].
    - destruct HP as [HP|[HL HA]]; [right; auto|]. left. pose proof (order_lt _ _ _ _ HO T1) as Hc.
      destruct (nth_error_in_range T choice) as [x Hx]; [rewrite (vs_length _ _ HV); auto|].
      exists choice, x. rewrite T4. repeat split; auto.
      eapply (candidate_kept pr d sets order suffix T HW HFit HS HO HSuf HSets HV HCov m choice HI HA T1 o); eauto.
    - destruct HP as [HP|[HL HA]]; auto. lia.
  Qed.

  Lemma step_pending m m' : inv pr d order m -> pending order T m -> step pr d o late sets order suffix m = Ok (Continue m') -> pending order T m'.
  Proof.
    intros HI HP H. apply step_inv in H as [(m'' & choice & bucket & rest & E & HT & HC)|[(_ & _ & E)|[(c & r & E & _)|(_ & r & _ & E)]]];
      try discriminate. injection E as <-.
    pose proof (turn_has _ _ _ _ HI HP HT) as HH. pose proof (turn_buckets pr d o late sets order suffix HF _ _ _ _ HI HT) as HB.
    destruct HT as [T1 T2 T3 T4]. pose proof HI as [I1 I2 I3 I4 I5].
    destruct HC as [(depth' & prev & st & -> & Ed & Hp & Hc & ->)|(next & bucket' & st & -> & Ha & ->)]; unfold pending; cbn [m_st m_stack m_depth].
    - destruct HH as [(c & x & _ & _ & [] & _)|HH]. left.
      destruct (clear_ok pr d (m_st m) prev HW I5 (order_lt _ _ _ _ HO Hp)) as (st' & E & S' & D'). rewrite E in Hc. injection Hc as <-.
      rewrite D'. eapply stack_has_upd; eauto. lia.
    - assert (Hu : nth_error (st_dec (m_st m)) choice = Some Undecided) by (apply (I3 _ _ T1); auto).
      assert (Hcand : cand_ok d choice next) by (destruct HB as [HB _]; apply HB; [rewrite T4; auto|left; auto]).
      destruct (apply_ok _ _ _ _ _ _ HW I5 (order_lt _ _ _ _ HO T1) Hu Hcand Ha) as [S' D'].
      destruct HH as [(c & x & H1 & H2 & H3 & H4)|HH].
      + rewrite T4 in H1, H4. assert (c = choice) as -> by congruence. destruct H3 as [<-|H3].
        * right. split; [cbn; lia|]. rewrite D'. intros j c y Hj Hc Hy. rewrite nth_error_upd in Hy.
          destruct (Nat.eqb_spec choice c) as [<-|Hne].
          -- destruct (_ <? _); [|discriminate]. injection Hy as <-. rewrite H2. destruct next; auto.
          -- eapply H4; eauto. assert (j <> m_depth m) by congruence. lia.
        * left. left. exists choice, x. rewrite T4. repeat split; auto. rewrite D'. eapply agree_upd; eauto.
      + left. right. rewrite D'. eapply stack_has_upd; eauto. lia.
  Qed.
End Complete.

Lemma start_pending d order T t : pending order T (start d t).
Proof. right. split; auto. intros j c x Hj. cbn in Hj. lia. Qed.

Lemma solve_exhausted pr d o late sets t fuel t' : wf_input d -> fits d -> searchable d -> fair o ->
  (forall s c, In s sets -> In c (set_data s) -> c < length (i_choices d)) ->
  solve_scheduling pr d o late sets t fuel = Some (Ok (SExhausted, t')) ->
  forall T, valid_scheduling d T -> (forall s, In s sets -> covers_slots d T (set_data s)) -> False.
Proof.
  intros HW HFit HS HF HSets H T HV HCov. unfold solve_scheduling in H. pose proof (scramble_order d o t HF) as HO. set (order := choice_scramble d o t) in *.
  destruct (max_suffix_ok pr d order) as (suffix & Es & _ & HSuf).
  { intros c Hc. apply (Permutation_in _ (Permutation_sym HO)), in_seq in Hc. lia. }
  { rewrite (order_total d order HO). apply (sr_totals _ HS). }
  rewrite Es in H.
  assert (HStep : forall m m', inv pr d order m -> pending order T m -> step pr d o late sets order suffix m = Ok (Continue m') -> pending order T m').
  { intros m0 m' HI0 HP0 Hstep. eapply step_pending; eauto. }
  destruct (run_inv _ _ _ _ _ _ _ (pending order T) HW HF HO HStep _ _ _ _ (start_inv _ _ _ (Datatypes.S t) HO) (start_pending d order T (Datatypes.S t)) H) as (m & HI & HP & HD).
  clear H. rename HD into H.
  apply step_inv in H as [(m' & c & b & r & E & _)|[(_ & _ & E)|[(c & r & E & Hd & HT)|(_ & res & Hr & E)]]]; try discriminate.
  - pose proof (turn_has pr d o late sets order suffix T HW HFit HS HF HO HSuf HSets HV HCov _ _ _ _ HI HP HT) as HH.
      pose proof (tu_rest _ _ _ _ _ _ _ _ _ _ _ HT) as HR. rewrite Hd in HR. destruct r; [|discriminate].
      destruct HH as [(c' & x & _ & _ & [] & _)|[]].
  - injection E as <- ->. destruct (leaf_inv _ _ _ _ (iv_state _ _ _ _ HI) Hr) as (sl & b & _ & _ & _ & _ & E).
    destruct b; discriminate.
Qed.
(** A timeout needs the clock. *)
Lemma solve_timeout pr d o late sets t fuel t' : wf_input d -> fair o -> (forall n, late n = false) ->
  solve_scheduling pr d o late sets t fuel <> Some (Ok (STimeout, t')).
Proof.
  intros HW HF HL H. unfold solve_scheduling in H. pose proof (scramble_order d o t HF) as HO. set (order := choice_scramble d o t) in *.
  destruct (max_suffix pr d order) as [suffix| |]; try discriminate.
  apply (run_inv _ _ _ _ _ _ _ (fun _ => True) HW HF HO) in H as (m & HI & _ & H); auto; [|apply start_inv; auto].
  apply step_inv in H as [(m' & c & b & r & E & _)|[(_ & E & _)|[(c & r & E & _)|(_ & res & Hr & E)]]]; try discriminate.
  - rewrite HL in E. discriminate.
  - injection E as <- ->. destruct (leaf_inv _ _ _ _ (iv_state _ _ _ _ HI) Hr) as (sl & b & _ & _ & _ & _ & E). destruct b; discriminate.
Qed.

(** ** The sets used for a limit *)
Lemma for_preference_sets pr d analyze simplify a p s : wf_input d -> (total ch_min d <= u32_max)%N ->
  (N.of_nat (length (i_choosers d)) * N.of_nat (length (i_slots d) - 1) <= u32_max)%N -> StronglySorted N.lt (i_levels d) ->
  new_analysis pr d analyze simplify = Ok a -> In s (for_preference a p) ->
  exists x, x < length (i_choosers d) /\ In (set_pref s) (i_levels d) /\ (p <= set_pref s)%N /\ set_data s = liked_list d (set_pref s) x.
Proof.
  intros HW HT HC HS Ha Hs. destruct analyze; [|injection Ha as <-; destruct Hs].
  destruct (analysis_inv _ _ _ _ HW HT HC Ha) as (K & EC & _). unfold for_preference in Hs. rewrite EC in Hs.
  destruct (find _ _) as [kv|] eqn:Ef; [|destruct Hs].
  assert (Hp : In p (i_levels d)).
  { apply find_some in Ef as [Hi Eq]. apply N.eqb_eq in Eq. subst p.
    assert (G : forall l acc, (forall kv, In kv (snd acc) -> In (fst kv) (i_levels d)) -> (forall x, In x l -> In x (i_levels d)) ->
       forall kv, In kv (snd (fold_left (cache_step (an_sets a)) l acc)) -> In (fst kv) (i_levels d)).
    { induction l as [|q l IH]; intros acc Hacc Hl kv0; cbn [fold_left]; auto. apply IH; [|intros; apply Hl; right; auto].
      unfold cache_step. destruct acc as [m c]; cbn. intros kv1 [<-|H]; auto. cbn. apply Hl; left; auto. }
    unfold build_cache in Hi. eapply (G (rev (i_levels d)) ([], [])); eauto.
    - intros ? [].
    - intros z Hz. apply in_rev; auto. }
  destruct (cache_ok d (an_sets a) HS (fun s Hs => proj1 (proj1 K s Hs)) p Hp) as (m & Em & M1 & _). rewrite Em in Ef. injection Ef as <-.
  cbn in Hs. destruct (M1 s Hs) as [(x & Hx & Hl & Ed & _) [_ Hpq]]. exists x. auto.
Qed.
Lemma for_preference_lt pr d analyze simplify a p : wf_input d -> (total ch_min d <= u32_max)%N ->
  (N.of_nat (length (i_choosers d)) * N.of_nat (length (i_slots d) - 1) <= u32_max)%N -> StronglySorted N.lt (i_levels d) ->
  new_analysis pr d analyze simplify = Ok a ->
  forall s c, In s (for_preference a p) -> In c (set_data s) -> c < length (i_choices d).
Proof.
  intros HW HT HC HS Ha s c Hs Hc. destruct (for_preference_sets _ _ _ _ _ _ _ HW HT HC HS Ha Hs) as (x & _ & _ & _ & E).
  rewrite E in Hc. apply filter_In in Hc as [Hc _]. apply in_seq in Hc. lia.
Qed.
(** At the largest limit the sets ask nothing of a valid scheduling. *)
Lemma valid_covers_max pr d analyze simplify a T : wf_input d -> (total ch_min d <= u32_max)%N ->
  (N.of_nat (length (i_choosers d)) * N.of_nat (length (i_slots d) - 1) <= u32_max)%N -> levels_ok d ->
  new_analysis pr d analyze simplify = Ok a -> length (i_choosers d) <> 0 -> valid_scheduling d T ->
  forall s, In s (for_preference a (i_max_pref d)) -> covers_slots d T (set_data s).
Proof.
  intros HW HT HC HL Ha Hn HV s Hs t Ht.
  destruct (for_preference_sets _ _ _ _ _ _ _ HW HT HC (lv_sorted _ HL) Ha Hs) as (x & Hx & Hl & Hle & E). apply (lv_le _ HL) in Hl.
  pose proof (proj2 (vs_sums _ _ HV t Ht)) as Hsum. rewrite slot_sum_lsum in Hsum by (apply (vs_length _ _ HV)).
  assert (G : forall l, (0 < lsum (contrib ch_max (i_choices d) T t) l)%N -> exists c, In c l /\ scheduled_in T c t).
  { induction l as [|c l IH]; intros H; [cbn in H; lia|]. rewrite lsum_cons in H. unfold contrib at 1 in H.
    destruct (nth_error (i_choices d) c) as [ch|] eqn:Ec; [|destruct IH as (c' & ? & ?); [lia|]; exists c'; split; auto; right; auto].
    destruct (nth_error T c) as [y|] eqn:Ey; [|destruct IH as (c' & ? & ?); [lia|]; exists c'; split; auto; right; auto].
    destruct (opt_nat_eqb y (Some t)) eqn:Eq.
    - apply opt_nat_eqb_spec in Eq. subst y. exists c. split; [left; auto|]. auto.
    - assert (Z0 : weigh ch_max ch y t = 0%N). { unfold weigh. destruct y as [u|]; auto. cbn in Eq. rewrite Eq. auto. }
      destruct IH as (c' & ? & ?); [lia|]. exists c'; split; auto; right; auto. }
  destruct (G (seq 0 (length (i_choices d)))) as (c & Hc & Hsc); [lia|]. exists c. split; auto.
  rewrite E. apply filter_In. split; auto. unfold likes. apply in_seq in Hc.
  destruct (nth_error_in_range (i_choosers d) x Hx) as [p Hp]. rewrite Hp.
  destruct (nth_error_in_range (cs_prefs p) c) as [y Hy]; [rewrite (wf_prefs _ HW p (nth_error_In _ _ Hp)); lia|]. rewrite Hy.
  apply N.leb_le. pose proof (wf_max _ HW p y (nth_error_In _ _ Hp) (nth_error_In _ _ Hy)). lia.
Qed.

(** ** Relaxation *)
Lemma find_after d p : levels_ok d -> In p (i_levels d) -> p <> i_max_pref d ->
  In (preference_after d p) (i_levels d) /\ (p < preference_after d p)%N.
Proof.
  intros HL Hp Hne. unfold preference_after. destruct (find _ _) as [l|] eqn:E.
  - apply find_some in E as [E1 E2]. apply N.ltb_lt in E2. auto.
  - exfalso. pose proof (find_none _ _ E _ (lv_max _ HL)) as F. apply N.ltb_ge in F. pose proof (lv_le _ HL p Hp). lia.
Qed.
Definition above (d : input_data) (p : N) : nat := length (filter (fun l => p <? l)%N (i_levels d)).
Lemma above_decreases d p q : In q (i_levels d) -> (p < q)%N -> above d q < above d p.
Proof.
  intros Hq Hpq. unfold above. induction (i_levels d) as [|l L IH]; [destruct Hq|]. cbn [filter].
  assert (HM : forall L, length (filter (fun l => q <? l)%N L) <= length (filter (fun l => p <? l)%N L)).
  { clear - Hpq. induction L as [|a L IH]; auto. cbn [filter]. destruct (N.ltb_spec q a), (N.ltb_spec p a); cbn [length]; lia. }
  specialize (HM L). destruct Hq as [->|Hq].
  - rewrite N.ltb_irrefl. destruct (N.ltb_spec p q); [|lia]. cbn [length]. lia.
  - specialize (IH Hq). destruct (N.ltb_spec q l), (N.ltb_spec p l); cbn [length]; lia.
Qed.
Lemma bound_in_levels d sets : levels_ok d -> In (bound_of d sets) (i_levels d).
Proof.
  intros HL. unfold bound_of. pose proof (lv_max _ HL) as HM. revert HM. generalize (i_max_pref d).
  assert (G : forall l b, incl l (i_levels d) -> In b (i_levels d) -> In (fold_left (fun b level =>
    match min_size (map set_size (filter (fun s => level <=? set_pref s)%N sets)) with
    | Some m => if length (i_slots d) <=? m then N.min b level else b
    | None => b
    end) l b) (i_levels d)).
  { induction l as [|a l IH]; intros b Hl Hb; cbn [fold_left]; auto. apply IH; [intros z Hz; apply Hl; right; auto|].
    destruct (min_size (map set_size (filter (fun s => (a <=? set_pref s)%N) sets))) as [k|]; auto.
    destruct (length (i_slots d) <=? k); auto. destruct (N.min_spec b a) as [[_ ->]|[_ ->]]; auto. apply Hl; left; auto. }
  intros n Hn. apply G; auto. apply incl_refl.
Qed.
Lemma an_bound_in pr d analyze simplify a : levels_ok d -> new_analysis pr d analyze simplify = Ok a -> In (an_bound a) (i_levels d).
Proof.
  intros HL H. unfold new_analysis in H. destruct analyze.
  - apply bind_ok in H as (sets & _ & H). injection H as <-. cbn. apply bound_in_levels; auto.
  - injection H as <-. cbn. apply (lv_zero _ HL).
Qed.

Lemma result_slots_nil pr d o late sets t fuel r t' : wf_input d -> fits d -> fair o -> pr = Debug \/ totals_fit d ->
  solve_scheduling pr d o late sets t fuel = Some (Ok (r, t')) -> result_slots r = [] -> r = STimeout \/ r = SExhausted \/ r = SRejected.
Proof.
  intros HW HFit HF HE H HR. destruct r; auto. cbn in HR. subst slots.
  destruct (solve_found _ _ _ _ _ _ _ _ _ HW HFit HF HE H) as (sch & _ & _ & HL). cbn in HL. pose proof (wf_slots _ HW). lia.
Qed.

(** What a finished relaxation did. *)
Lemma relax_spec pr d o a deadline cs sfuel : levels_ok d -> forall fuel limit tick n, In limit (i_levels d) ->
  relax pr d o a deadline cs sfuel fuel limit tick = Some (Ok n) ->
  (exists more, nx_limits n = limit :: more) /\ StronglySorted N.lt (nx_limits n) /\ incl (nx_limits n) (i_levels d) /\
  (exists t t', solve_scheduling pr d o (late_at d o deadline (last (nx_limits n) 0%N)) (for_preference a (last (nx_limits n) 0%N)) t sfuel
              = Some (Ok (nx_last n, t'))) /\
  match nx_sched n with
  | Some sch => exists slots, nx_last n = SFound slots /\ slots_to_scheduling d slots = Ok sch
  | None => last (nx_limits n) 0%N = i_max_pref d /\ result_slots (nx_last n) = []
  end.
Proof.
  intros HL. induction fuel as [|fuel IH]; intros limit tick n Hin H; [discriminate|]. cbn [relax] in H.
  destruct (negb (limit =? i_max_pref d)%N && (cs <? 0)%Z); [discriminate|].
  destruct (solve_scheduling pr d o (late_at d o deadline limit) (for_preference a limit) tick sfuel) as [[[r t']| |]|] eqn:ES; try discriminate.
  destruct (result_slots r) as [|s0 slots] eqn:ER.
  - destruct (N.eqb_spec limit (i_max_pref d)) as [Em|Hne].
    + injection H as <-. cbn. repeat split; eauto; [constructor; constructor|]. intros z [<-|[]]; auto.
    + destruct (find_after d limit HL Hin Hne) as [A1 A2].
      destruct (relax pr d o a deadline cs sfuel fuel (preference_after d limit) t') as [[n'| |]|] eqn:EN; try discriminate.
      injection H as <-. destruct (IH _ _ _ A1 EN) as ((more & Em) & I2 & I3 & I4 & I5). cbn [nx_limits nx_last nx_sched].
      assert (EL : last (limit :: nx_limits n') 0%N = last (nx_limits n') 0%N) by (rewrite Em; reflexivity). rewrite EL.
      repeat split; eauto.
      * constructor; auto. rewrite Em in *. inversion I2 as [|? ? I2' HF]; subst. constructor; auto.
        rewrite Forall_forall in *. intros z Hz. specialize (HF z Hz). lia.
      * intros z [<-|Hz]; auto.
  - injection H as H. apply bind_ok in H as (sch & HS & H). injection H as <-. cbn. repeat split; eauto; [constructor; constructor| |].
    + intros z [<-|[]]; auto.
    + destruct r; try discriminate. cbn in ER. subst. exists (s0 :: slots). auto.
Qed.
Lemma last_in {A} (l : list A) x : l <> [] -> In (last l x) l.
Proof. induction l as [|a l IH]; intros H; [congruence|]. destruct l as [|b l]; [left; auto|]. right. apply IH. discriminate. Qed.

Lemma relax_total pr d o a deadline cs sfuel : wf_input d -> fits d -> searchable d -> fair o -> levels_ok d ->
  (forall p s c, In s (for_preference a p) -> In c (set_data s) -> c < length (i_choices d)) -> (0 <= cs)%Z -> search_cost d < sfuel ->
  forall fuel limit tick, In limit (i_levels d) -> above d limit < fuel ->
  exists n, relax pr d o a deadline cs sfuel fuel limit tick = Some (Ok n).
Proof.
  intros HW HFit HS HF HL HSets Hcs Hsf. induction fuel as [|fuel IH]; intros limit tick Hin Hab; [lia|]. cbn [relax].
  destruct (Z.ltb_spec cs 0); [lia|]. rewrite andb_false_r.
  destruct (solve_total pr d o (late_at d o deadline limit) (for_preference a limit) tick sfuel HW HFit HS HF (HSets limit) Hsf) as (r & t' & E). rewrite E.
  destruct (result_slots r) as [|s0 slots] eqn:ER.
  - destruct (N.eqb_spec limit (i_max_pref d)) as [Em|Hne]; eauto.
    destruct (find_after d limit HL Hin Hne) as [A1 A2]. pose proof (above_decreases d _ _ A1 A2).
    destruct (IH (preference_after d limit) t' A1 ltac:(lia)) as [n ->]. eauto.
  - destruct r; try discriminate. cbn in ER. subst slots0.
    destruct (solve_found _ _ _ _ _ _ _ _ _ HW HFit HF (or_intror (sr_totals _ HS)) E) as (sch & -> & _). cbn; eauto.
Qed.

(** The first limit. *)
Lemma next_unfold pr d o a deadline cs sfuel fuel tick : fair o ->
  exists limit, (limit = i_max_pref d \/ limit = an_bound a) /\
    next_scheduling pr d o a deadline cs sfuel fuel tick = relax pr d o a deadline cs sfuel fuel limit (Datatypes.S tick).
Proof.
  intros HF. unfold next_scheduling. destruct (next_in_range_ok pr (o_sample o tick) 0 pref_relaxation) as (z & -> & _);
    try (unfold pref_relaxation, i32_min, i32_max; lia). { apply fair_sample; auto. }
  destruct (z =? 0)%Z; eauto.
Qed.
