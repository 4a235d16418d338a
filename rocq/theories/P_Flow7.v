(** Histories of calls to the assignment solver: its state and its cache. *)
From Verif Require Import Base M_Data M_Scoring M_Flow Spec Spec_Search Spec_Flow Spec_Calls P_Scoring P_Sums P_Search1 P_Search2 P_Search3 P_Search4 P_Feasible P_Flow1 P_Flow2 P_Flow3 P_Flow4 P_Flow5 P_Flow6.
From Coq Require Import Permutation Relation_Operators Sorted.

Local Notation np d := (length (i_choosers d)).
Local Notation nc d := (length (i_choices d)).
Local Notation ns d := (length (i_slots d)).

Lemma ascending (l : list N) i j a b : StronglySorted N.lt l -> nth_error l i = Some a -> nth_error l j = Some b -> i <= j -> (a <= b)%N.
Proof.
  intros HS. revert i j a b. induction HS as [|x l HS IH HF]; intros i j a b Ha Hb Hle; [destruct i; discriminate|].
  destruct i, j; cbn in Ha, Hb; try lia.
  - assert (a = b) by congruence. lia.
  - injection Ha as <-. rewrite Forall_forall in HF. specialize (HF b (nth_error_In _ _ Hb)). lia.
  - eapply IH; eauto. lia.
Qed.
Section History.
Context (pr : profile) (d : input_data) (sd : static) (cost : N -> Z) (greedy : bool) (bound : N).
Notation run := (Spec_Calls.run pr d sd cost greedy bound).
Notation history := (Spec_Calls.history pr d sd cost greedy bound).

(** [solve_until] without the look into the cache. *)
Definition fresh (ev : env) (deadline : bool) (sv : solver) (st : sched_state) (t : nat) : option (outcome answer) :=
  if greedy then
    Some (let* rt := solve_with_limit pr d sd cost ev deadline st (i_max_pref d) t in
          match rt with
          | (LFeasible A, t') => Ok (finish (Some A) st true sv t')
          | (_, t') => Ok (finish None st false sv t')
          end)
  else match length (i_levels d) with
       | O => Some (Ok (mkAnswer None false true (mkSolver (Some st) (sv_cache sv)) t))
       | Datatypes.S last =>
           match level_search (solve_with_limit pr d sd cost ev deadline st) (i_levels d) (search_start d bound) (length (i_levels d) + 1)
                   (search_start d bound) last None true t with
           | Some (Ok (best, optimal, t')) => Some (Ok (finish best st optimal sv t'))
           | Some (Err e) => Some (Err e)
           | Some Panic => Some Panic
           | None => None
           end
       end.
Lemma solve_until_eq ev dl sv S t : solve_until pr d sd cost greedy bound ev dl sv S t =
  match prepare_state pr d sd (sv_state sv) S with
  | Panic => Some Panic
  | Err e => Some (Err e)
  | Ok st =>
      match sv_cache sv with
      | Some (slots, A, opt) =>
          if same_slots slots (ss_slots st) && opt then Some (Ok (mkAnswer (Some A) true true (mkSolver (Some st) (sv_cache sv)) t))
          else fresh ev dl sv st t
      | None => fresh ev dl sv st t
      end
  end.
Proof. reflexivity. Qed.
Lemma same_slots_ok a : forall b, same_slots a b = true <-> a = b.
Proof.
  induction a as [|x a IH]; intros [|y b]; cbn [same_slots]; try (split; [discriminate|intros E; inversion E; fail]); [tauto|].
  rewrite andb_true_iff, opt_nat_eqb_spec, IH. split; [intros [-> ->]; auto|intros E; injection E; auto].
Qed.

Lemma ok_inj {T} (x y : T) : Ok x = Ok y -> x = y. Proof. intros E. injection E. auto. Qed.
Lemma some_inj {T} (x y : T) : Some x = Some y -> x = y. Proof. intros E. injection E. auto. Qed.
Lemma finish_fields A st o sv t : ar_result (finish A st o sv t) = A /\ ar_cached (finish A st o sv t) = false /\ ar_decided (finish A st o sv t) = o /\
  sv_state (ar_solver (finish A st o sv t)) = Some st /\
  (sv_cache (ar_solver (finish A st o sv t)) = sv_cache sv \/
   exists B, A = Some B /\ o = true /\ sv_cache (ar_solver (finish A st o sv t)) = Some (ss_slots st, B, true)).
Proof. destruct A as [A|], o; cbn; repeat split; auto. right. eauto. Qed.

Lemma fresh_fields ev dl sv st t a : fresh ev dl sv st t = Some (Ok a) ->
  ar_cached a = false /\ sv_state (ar_solver a) = Some st /\
  (sv_cache (ar_solver a) = sv_cache sv \/ exists B, ar_result a = Some B /\ ar_decided a = true /\ sv_cache (ar_solver a) = Some (ss_slots st, B, true)).
Proof.
  assert (G : forall A o sv t a, a = finish A st o sv t -> ar_cached a = false /\ sv_state (ar_solver a) = Some st /\
    (sv_cache (ar_solver a) = sv_cache sv \/ exists B, ar_result a = Some B /\ ar_decided a = true /\ sv_cache (ar_solver a) = Some (ss_slots st, B, true))).
  { clear. intros A o sv t a ->. destruct (finish_fields A st o sv t) as (H1 & H2 & H3 & H4 & H5). split; auto. split; auto.
    destruct H5 as [H5|(B & H5 & H6 & H7)]; auto. right. exists B. rewrite H1, H3. auto. }
  unfold fresh. destruct greedy.
  - intros E. apply some_inj in E. apply bind_ok in E as ([r t'] & _ & E). destruct r as [A| |]; apply ok_inj in E; [apply (G (Some A) true sv t')|apply (G None false sv t')|apply (G None false sv t')]; auto.
  - destruct (length (i_levels d)) as [|last]; [intros E; injection E as <-; cbn; auto|].
    destruct (level_search _ _ _ _ _ _ _ _ _) as [[[[best optimal] t']| |]|]; try discriminate. intros E. apply some_inj, ok_inj in E. subst a. eapply G; reflexivity.
Qed.

Lemma solve_until_inv ev dl sv S t a : solve_until pr d sd cost greedy bound ev dl sv S t = Some (Ok a) ->
  exists st, prepare_state pr d sd (sv_state sv) S = Ok st /\ sv_state (ar_solver a) = Some st /\
   ((ar_cached a = true /\ sv_cache (ar_solver a) = sv_cache sv /\ exists A, sv_cache sv = Some (ss_slots st, A, true) /\ ar_result a = Some A) \/
    (ar_cached a = false /\ fresh ev dl sv st t = Some (Ok a) /\
     (sv_cache (ar_solver a) = sv_cache sv \/ exists B, ar_result a = Some B /\ ar_decided a = true /\ sv_cache (ar_solver a) = Some (ss_slots st, B, true)))).
Proof.
  rewrite solve_until_eq. destruct (prepare_state pr d sd (sv_state sv) S) as [st| |]; try discriminate. intros E. exists st. split; auto.
  destruct (sv_cache sv) as [[[slots A] opt]|] eqn:EC.
  - destruct (same_slots slots (ss_slots st) && opt) eqn:EB.
    + injection E as <-. cbn. split; auto. left. repeat split; auto. apply andb_true_iff in EB as [EB ->]. apply same_slots_ok in EB as ->. eauto.
    + destruct (fresh_fields _ _ _ _ _ _ E) as (H1 & H2 & H3). rewrite EC in H3. auto.
  - destruct (fresh_fields _ _ _ _ _ _ E) as (H1 & H2 & H3). rewrite EC in H3. auto.
Qed.

(** ** The state *)
Context (HW : wf_input d) (HL : layout d sd).
Lemma prepare_for (prev : option sched_state) S st : (forall st0, prev = Some st0 -> exists S0, state_for pr d S0 st0) -> shaped d S ->
  prepare_state pr d sd prev S = Ok st -> state_for pr d S st.
Proof.
  intros HP [HS HR] E. unfold prepare_state in E. destruct prev as [st0|].
  - destruct (HP st0 eq_refl) as (S0 & H0). eapply update_for; eauto.
  - eapply scratch_for; eauto.
Qed.
Lemma history_state h sv : history h sv -> match sv_state sv with None => h = [] | Some st => exists c h', h = c :: h' /\ state_for pr d (cl_sched c) st end.
Proof.
  induction 1 as [|h c Hh IH HS HR]; cbn; auto. unfold run in HR. apply solve_until_inv in HR as (st & EP & ES & _). rewrite ES.
  exists c, h. split; auto. eapply prepare_for; eauto. intros st0 E0. rewrite E0 in IH. destruct IH as (c0 & h' & _ & H0). eauto.
Qed.
Lemma history_prepared h sv S st : history h sv -> shaped d S -> prepare_state pr d sd (sv_state sv) S = Ok st -> state_for pr d S st.
Proof. intros Hh HS E. apply history_state in Hh. eapply prepare_for; eauto. intros st0 E0. rewrite E0 in Hh. destruct Hh as (c & h' & _ & H). eauto. Qed.

Lemma state_sums S st : state_for pr d S st -> (pr = Release \/ forall s, slot_sum ch_min (i_choices d) S s <= u32_max)%N.
Proof.
  intros H. case_eq pr; intros Epr; auto. right. intros s. pose proof (sf_holds _ _ _ _ H) as HH. destruct (Nat.lt_ge_cases s (ns d)) as [Hs|Hs].
  - pose proof (ho_clen _ _ _ _ HH) as E. cbn [snd] in E. destruct (nth_error (ss_cov st) s) as [v|] eqn:Ev; [|apply nth_error_None in Ev; lia].
    pose proof (ho_cov _ _ _ _ HH s v Ev) as R. rewrite Epr in R. apply R.
  - assert (slot_sum ch_min (i_choices d) S s = 0%N) as ->; [|unfold u32_max; lia].
    pose proof (sf_range _ _ _ _ H) as HR. pose proof (sf_len _ _ _ _ H) as HLn. clear - HR Hs. unfold scheduled_in in HR. revert HR. revert S.
    induction (i_choices d) as [|ch cs IH]; intros S HR; [destruct S as [|[] ?]; reflexivity|]. destruct S as [|x S]; [reflexivity|]. cbn [slot_sum]. rewrite IH.
    + destruct x as [t|]; auto. specialize (HR 0 t eq_refl). destruct (Nat.eqb_spec t s); [lia|auto].
    + intros c t Hc. apply (HR (Datatypes.S c) t). exact Hc.
Qed.
Lemma same_state S st st' : state_for pr d S st -> state_for pr d S st' ->
  ss_slots st = ss_slots st' /\ Forall2 (@Permutation nat) (ss_by_slot st) (ss_by_slot st') /\ ss_cov st = ss_cov st' /\
  forall e, In e (ss_blocked st) <-> In e (ss_blocked st').
Proof.
  intros H H'. pose proof (sf_holds _ _ _ _ H) as HH. pose proof (sf_holds _ _ _ _ H') as HH'. split; [rewrite (sf_slots _ _ _ _ H), (sf_slots _ _ _ _ H'); auto|]. split; [|split].
  - assert (E : length (ss_by_slot st) = length (ss_by_slot st')) by (rewrite (ho_len _ _ _ _ HH : length (ss_by_slot st) = _); symmetry; apply (ho_len _ _ _ _ HH')).
    assert (G : forall s l l', nth_error (ss_by_slot st) s = Some l -> nth_error (ss_by_slot st') s = Some l' -> Permutation l l').
    { intros s l l' El El'. destruct (ho_in _ _ _ _ HH s l El) as [N1 I1]. destruct (ho_in _ _ _ _ HH' s l' El') as [N2 I2]. apply NoDup_Permutation; auto. intros c. rewrite I1, I2. tauto. }
    clear - E G. revert E G. generalize (ss_by_slot st'). induction (ss_by_slot st) as [|l m IH]; intros [|l' m'] E G; try discriminate; constructor.
    + apply (G 0); auto.
    + apply IH; [cbn in E; lia|]. intros s x y Hx Hy. apply (G (Datatypes.S s)); auto.
  - apply nth_error_ext. intros s. destruct (nth_error (ss_cov st) s) as [v|] eqn:Ev, (nth_error (ss_cov st') s) as [v'|] eqn:Ev'; auto.
    + pose proof (ho_cov _ _ _ _ HH s v Ev) as R. pose proof (ho_cov _ _ _ _ HH' s v' Ev') as R'. unfold rep in *. destruct pr; [destruct R, R'; congruence|congruence].
    + exfalso. apply nth_error_None in Ev'. pose proof (ho_clen _ _ _ _ HH) as E. pose proof (ho_clen _ _ _ _ HH') as E'. cbn [snd] in *. assert (s < length (ss_cov st)) by (apply nth_error_Some; congruence). lia.
    + exfalso. apply nth_error_None in Ev. pose proof (ho_clen _ _ _ _ HH) as E. pose proof (ho_clen _ _ _ _ HH') as E'. cbn [snd] in *. assert (s < length (ss_cov st')) by (apply nth_error_Some; congruence). lia.
  - intros [x y]. rewrite (sf_blocked _ _ _ _ H), (sf_blocked _ _ _ _ H'). tauto.
Qed.
Lemma history_rebuild h sv S st : history h sv -> shaped d S -> prepare_state pr d sd (sv_state sv) S = Ok st ->
  exists st', scratch_state pr d sd S = Ok st' /\
   ss_slots st = ss_slots st' /\ Forall2 (@Permutation nat) (ss_by_slot st) (ss_by_slot st') /\ ss_cov st = ss_cov st' /\
   forall e, In e (ss_blocked st) <-> In e (ss_blocked st').
Proof.
  intros Hh HS E. pose proof (history_prepared h sv S st Hh HS E) as H. destruct HS as [HS1 HS2].
  destruct (scratch_total pr d sd HW HL S HS1 HS2 (state_sums S st H)) as [st' E']. exists st'. split; auto. apply same_state with (S := S); auto. eapply scratch_for; eauto.
Qed.
Lemma history_prepare_total h sv S : history h sv -> shaped d S ->
  (pr = Release \/ forall s, slot_sum ch_min (i_choices d) S s <= N.of_nat (np d))%N ->
  (pr = Release \/ forall c s, In c h -> slot_sum ch_min (i_choices d) (cl_sched c) s <= N.of_nat (np d))%N ->
  (Z.of_nat (np d) <= i32_max)%Z -> exists st, prepare_state pr d sd (sv_state sv) S = Ok st.
Proof.
  intros Hh [HS HR] H1 H2 HZ. pose proof (history_state h sv Hh) as H. unfold prepare_state. destruct (sv_state sv) as [st0|].
  - destruct H as (c & h' & -> & H0). eapply (update_total pr d sd HW HL (cl_sched c)); eauto. destruct H1 as [H1|H1]; auto. destruct H2 as [H2|H2]; auto. right.
    intros s. specialize (H1 s). specialize (H2 c s (or_introl eq_refl)). unfold i32_max, u32_max in *. lia.
  - apply (scratch_total pr d sd HW HL); auto. destruct H1 as [H1|H1]; auto. right. intros s. specialize (H1 s). unfold i32_max, u32_max in *. lia.
Qed.

(** ** The cache *)
Lemma history_cache h sv S0 A o : history h sv -> sv_cache sv = Some (S0, A, o) ->
  o = true /\ exists c, In c h /\ cl_sched c = S0 /\ ar_cached (cl_answer c) = false /\ ar_result (cl_answer c) = Some A /\ ar_decided (cl_answer c) = true /\ run c /\
    exists h0, history h0 (cl_before c).
Proof.
  intros Hh. induction Hh as [|h c Hh IH HS HR]; cbn; [discriminate|]. intros EC. pose proof HR as HR0. unfold run in HR. apply solve_until_inv in HR as (st & EP & ES & HR).
  assert (K : sv_cache (cl_before c) = Some (S0, A, o) -> o = true /\ exists c0, In c0 (c :: h) /\ cl_sched c0 = S0 /\ ar_cached (cl_answer c0) = false /\
      ar_result (cl_answer c0) = Some A /\ ar_decided (cl_answer c0) = true /\ run c0 /\ exists h0, history h0 (cl_before c0)).
  { intros E. destruct (IH E) as (H1 & c0 & H2 & H3). split; auto. exists c0. split; [right; auto|auto]. }
  destruct HR as [(_ & E & _)|(HC & HF & [E|(B & H1 & H2 & E)])].
  - apply K. congruence.
  - apply K. congruence.
  - rewrite E in EC. injection EC as <- <- <-. split; auto. exists c. split; [left; auto|].
    pose proof (sf_slots _ _ _ _ (history_prepared h _ _ st Hh HS EP)) as E1. split; auto. repeat split; auto. eauto.
Qed.

(** A decided answer does not depend on the deadline. *)
Lemma limit_no_deadline ev dl st limit t r t' : solve_with_limit pr d sd cost ev dl st limit t = Ok (r, t') -> r <> LIncomplete ->
  solve_with_limit pr d sd cost ev false st limit t = Ok (r, t').
Proof.
  unfold solve_with_limit. cbn [andb]. destruct (dl && ev_expired ev t); [intros E; injection E as <- _; congruence|].
  destruct (build_flow _ _ _ _ _ _) as [f| |]; cbn [bind]; try discriminate. destruct (dl && ev_expired ev (t + 1)); [intros E; injection E as <- _; congruence|].
  destruct (ev_lp ev (t + 2) f); auto. destruct (dl && ev_expired ev (t + 3)); auto. intros E. injection E as <- _; congruence.
Qed.
Lemma levels_no_deadline ev dl st levels start fuel : forall low high best o t r t',
  level_search (solve_with_limit pr d sd cost ev dl st) levels start fuel low high best o t = Some (Ok (r, true, t')) ->
  o = true /\ level_search (solve_with_limit pr d sd cost ev false st) levels start fuel low high best o t = Some (Ok (r, true, t')).
Proof.
  induction fuel as [|fuel IH]; intros low high best o t r t'; cbn [level_search]; destruct (negb (low <=? high)); try discriminate.
  - intros E. injection E as <- <- <-. auto.
  - intros E. injection E as <- <- <-. auto.
  - destruct (get levels _) as [l| |]; try discriminate. destruct (solve_with_limit pr d sd cost ev dl st l t) as [[[A| |] t1]| |] eqn:ES; try discriminate.
    + rewrite (limit_no_deadline _ _ _ _ _ _ _ ES) by discriminate. destruct (_ =? start); [intros E; injection E as <- <- <-; auto|apply IH].
    + rewrite (limit_no_deadline _ _ _ _ _ _ _ ES) by discriminate. apply IH.
    + intros E. apply IH in E as [E _]. discriminate.
Qed.
Lemma fresh_no_deadline ev dl sv st t a : fresh ev dl sv st t = Some (Ok a) -> ar_decided a = true -> fresh ev false sv st t = Some (Ok a).
Proof.
  unfold fresh. destruct greedy.
  - intros E HD. injection E as E. apply bind_ok in E as ([r t'] & ES & E). destruct r as [A| |].
    + rewrite (limit_no_deadline _ _ _ _ _ _ _ ES) by discriminate. cbn [bind]. f_equal. exact E.
    + injection E as <-. discriminate.
    + injection E as <-. discriminate.
  - destruct (length (i_levels d)) as [|last]; auto.
    destruct (level_search (solve_with_limit pr d sd cost ev dl st) _ _ _ _ _ _ _ _) as [[[[best optimal] t']| |]|] eqn:EL; try discriminate. intros E HD. apply some_inj, ok_inj in E. subst a.
    destruct (finish_fields best st optimal sv t') as (_ & _ & H3 & _). rewrite H3 in HD. subst optimal.
    apply levels_no_deadline in EL as [_ EL]. rewrite EL. auto.
Qed.
Lemma decided_rerun c : run c -> ar_cached (cl_answer c) = false -> ar_decided (cl_answer c) = true ->
  solve_until pr d sd cost greedy bound (cl_env c) false (cl_before c) (cl_sched c) (cl_tick c) = Some (Ok (cl_answer c)).
Proof.
  intros HR HC HD. unfold run in HR. rewrite solve_until_eq in *. destruct (prepare_state _ _ _ _ _) as [st| |]; try discriminate.
  destruct (sv_cache (cl_before c)) as [[[slots A] opt]|].
  - destruct (same_slots slots (ss_slots st) && opt); auto. eapply fresh_no_deadline; eauto.
  - eapply fresh_no_deadline; eauto.
Qed.
Lemma cached_answer h c : history h (cl_before c) -> shaped d (cl_sched c) -> run c -> ar_cached (cl_answer c) = true ->
  exists c0, In c0 h /\ cl_sched c0 = cl_sched c /\ ar_cached (cl_answer c0) = false /\ ar_result (cl_answer c0) = ar_result (cl_answer c) /\ ar_decided (cl_answer c0) = true /\
    run c0 /\ exists h0, history h0 (cl_before c0).
Proof.
  intros Hh HS HR HC. unfold run in HR. apply solve_until_inv in HR as (st & EP & ES & [(_ & _ & A & EC & ER)|(E & _)]); [|congruence].
  pose proof (sf_slots _ _ _ _ (history_prepared h _ _ st Hh HS EP)) as E1. rewrite E1 in EC.
  destruct (history_cache h _ _ _ _ Hh EC) as (_ & c0 & H1 & H2 & H3 & H4 & H5). exists c0. rewrite ER. auto.
Qed.

(** ** What a decided answer means *)
(** What an answer says: the first level (from [start]) at which there is an
    allowed assignment, such an assignment, and no cheaper one if [opt]. *)
Definition cheapest (S : scheduling) (l : N) (A : assignment) : Prop :=
  allowed d S l A /\ forall B, allowed d S l B -> (assignment_cost d cost A <= assignment_cost d cost B)%Z.
Definition answers (opt : Prop) (S : scheduling) (start : nat) (r : option assignment) : Prop :=
  match r with
  | Some A => exists i l, start <= i /\ nth_error (i_levels d) i = Some l /\ allowed d S l A /\ (opt -> cheapest S l A) /\
                forall j l', start <= j -> j < i -> nth_error (i_levels d) j = Some l' -> forall B, ~ allowed d S l' B
  | None => forall j l', start <= j -> nth_error (i_levels d) j = Some l' -> forall B, ~ allowed d S l' B
  end.
Lemma answers_mono (opt opt' : Prop) S start r : (opt' -> opt) -> answers opt S start r -> answers opt' S start r.
Proof. intros H. destruct r as [A|]; auto. intros (i & l & H1 & H2 & H3 & H4 & H5). exists i, l. tauto. Qed.
Context (HG : grouped d) (HZ : solvable_size d).
Section Fixed.
Context (S : scheduling) (st : sched_state) (HSt : state_for pr d S st) (Hsum : forall s, (slot_sum ch_min (i_choices d) S s <= N.of_nat (np d))%N).
Context (ev : env) (dl : bool) (HE : honest_lp ev dl).
Lemma limit_sound limit t r t' : solve_with_limit pr d sd cost ev dl st limit t = Ok (r, t') ->
  match r with LFeasible A => allowed d S limit A /\ (optimal_lp ev -> cheapest S limit A) | LInfeasible => forall A, ~ allowed d S limit A | LIncomplete => dl = true end.
Proof.
  assert (K : forall f g, ev_lp ev (t + 2) f = Some g -> build_flow pr d sd cost st limit = Ok f -> feasible_point f (map g (seq 0 (length (fl_edges f)))) ->
     exists A, decode d sd st f (map g (seq 0 (length (fl_edges f)))) = Ok A /\ allowed d S limit A /\ (optimal_lp ev -> cheapest S limit A)).
  { intros f g Eg EF HF. destruct (instance_sound pr d sd HW HL HG HZ cost S st HSt Hsum limit f _ EF HF) as (A & EA & HA & HC). exists A. split; auto. split; auto. intros HO. split; auto.
    intros B HB. destruct (asg_rows pr d sd HW HL HG HZ cost S st HSt Hsum limit f B EF HB) as (x & B' & HF' & _ & HS & HO' & HA').
    specialize (HO _ _ _ Eg x HF'). rewrite (same_cost d cost S limit B B' HB HA' HS). lia. }
  unfold solve_with_limit. destruct dl; cbn [andb].
  - destruct (ev_expired ev t); [intros E; injection E as <- _; auto|].
    destruct (build_flow pr d sd cost st limit) as [f| |] eqn:EF; cbn [bind]; try discriminate. destruct (ev_expired ev (t + 1)); [intros E; injection E as <- _; auto|].
    specialize (HE (t + 2) f). destruct (ev_lp ev (t + 2) f) as [g|] eqn:Eg.
    + destruct (K f g Eg eq_refl HE) as (A & EA & HA). rewrite EA. intros E. injection E as <- _. auto.
    + replace (t + 2 + 1) with (t + 3) in HE by lia. destruct (ev_expired ev (t + 3)); intros E; injection E as <- _; auto.
      destruct HE as [[_ E]|HE']; [discriminate|]. intros A HA. destruct (asg_rows pr d sd HW HL HG HZ cost S st HSt Hsum limit f A EF HA) as (x & B & HF & _). eapply HE'; eauto.
  - destruct (build_flow pr d sd cost st limit) as [f| |] eqn:EF; cbn [bind]; try discriminate.
    specialize (HE (t + 2) f). destruct (ev_lp ev (t + 2) f) as [g|] eqn:Eg.
    + destruct (K f g Eg eq_refl HE) as (A & EA & HA). rewrite EA. intros E. injection E as <- _. auto.
    + intros E; injection E as <- _. 
      destruct HE as [[E _]|HE']; [discriminate|]. intros A HA. destruct (asg_rows pr d sd HW HL HG HZ cost S st HSt Hsum limit f A EF HA) as (x & B & HF & _). eapply HE'; eauto.
Qed.
Lemma limit_total limit t : exists r t', solve_with_limit pr d sd cost ev dl st limit t = Ok (r, t').
Proof.
  unfold solve_with_limit. destruct (dl && ev_expired ev t); eauto. destruct (build_total pr d sd HW HL HG HZ cost S st HSt Hsum limit) as [f EF]. rewrite EF. cbn [bind].
  destruct (dl && ev_expired ev (t + 1)); eauto. specialize (HE (t + 2) f). destruct (ev_lp ev (t + 2) f) as [g|]; eauto.
  destruct (instance_sound pr d sd HW HL HG HZ cost S st HSt Hsum limit f _ EF HE) as (A & EA & _). rewrite EA. cbn [bind]. eauto.
Qed.

Context (HLv : levels_ok d).
Lemma level_sound start last : length (i_levels d) = Datatypes.S last ->
  forall fuel low high best o t r t', start <= low ->
  (o = true -> forall j l', start <= j -> j < low -> nth_error (i_levels d) j = Some l' -> forall B, ~ allowed d S l' B) ->
  match best with Some A => low <= high + 1 /\ high < last /\ (exists l, nth_error (i_levels d) (high + 1) = Some l /\ allowed d S l A /\ (optimal_lp ev -> cheapest S l A)) | None => high = last end ->
  level_search (solve_with_limit pr d sd cost ev dl st) (i_levels d) start fuel low high best o t = Some (Ok (r, true, t')) ->
  answers (optimal_lp ev) S start r.
Proof.
  intros HLen. induction fuel as [|fuel IH]; intros low high best o t r t' Hsl Hlow Hbest; cbn [level_search]; destruct (Nat.leb_spec low high) as [Hle|Hgt]; cbn [negb]; try discriminate.
  - intros E. injection E as <- -> <-. specialize (Hlow eq_refl). destruct best as [A|].
    + destruct Hbest as (H1 & H2 & l & H3 & H4 & H5). exists (high + 1), l. split; [lia|]. split; auto. split; auto. split; auto. intros j l' Hj1 Hj2. apply Hlow; auto. lia.
    + subst high. intros j l' Hj1 Hj2. apply (Hlow j l'); auto. assert (j < length (i_levels d)) by (apply nth_error_Some; congruence). lia.
  - set (mid := low + (high - low) / 2). assert (Hm : low <= mid <= high).
    { unfold mid. pose proof (Nat.div_le_upper_bound (high - low) 2 (high - low) ltac:(lia) ltac:(lia)). lia. }
    assert (Hhl : high <= last) by (destruct best as [A|]; lia).
    destruct (nth_error (i_levels d) mid) as [l|] eqn:El; [|apply nth_error_None in El; lia]. unfold get. rewrite El.
    destruct (solve_with_limit pr d sd cost ev dl st l t) as [[q t1]| |] eqn:ES; try discriminate. apply limit_sound in ES. destruct q as [A| |].
    + destruct (Nat.eqb_spec mid start) as [Hms|Hms].
      * intros E. injection E as <- -> <-. destruct ES as [ES1 ES2]. exists mid, l. split; [lia|]. split; auto. split; auto. split; auto. intros j l' H1 H2. lia.
      * apply IH; auto. split; [lia|]. split; [lia|]. exists l. split; auto. replace (mid - 1 + 1) with mid by lia. auto.
    + apply IH; try lia.
      * intros Ho j l' Hj1 Hj2 Hj B HB. eapply ES. eapply allowed_mono; [|exact HB]. eapply (ascending (i_levels d)); eauto; [apply (lv_sorted _ HLv)|lia].
      * destruct best as [A|]; auto. destruct Hbest as (H1 & H2 & H3). split; [lia|]. auto.
    + apply IH.
      * lia.
      * intros Hf; discriminate Hf.
      * destruct best as [A|]; auto. destruct Hbest as (H1 & H2 & H3). split; [lia|]. auto.
  - intros E. injection E as <- -> <-. specialize (Hlow eq_refl). destruct best as [A|].
    + destruct Hbest as (H1 & H2 & l & H3 & H4 & H5). exists (high + 1), l. split; [lia|]. split; auto. split; auto. split; auto. intros j l' Hj1 Hj2. apply Hlow; auto. lia.
    + subst high. intros j l' Hj1 Hj2. apply (Hlow j l'); auto. assert (j < length (i_levels d)) by (apply nth_error_Some; congruence). lia.
Qed.
Lemma search_start_le last : length (i_levels d) = Datatypes.S last -> search_start d bound <= last.
Proof.
  intros HLen. unfold search_start. pose proof (position_from_spec bound (i_levels d) 0) as H. destruct (position_from bound 0 (i_levels d)) as [k|]; [|lia].
  destruct H as (_ & x & H1 & _). rewrite Nat.sub_0_r in H1. assert (k < length (i_levels d)) by (apply nth_error_Some; congruence). lia.
Qed.
Lemma levels_some : exists last, length (i_levels d) = Datatypes.S last.
Proof. pose proof (lv_zero _ HLv) as H. destruct (i_levels d) as [|x l]; [destruct H|]. cbn. eauto. Qed.
Lemma fresh_sound sv t a : fresh ev dl sv st t = Some (Ok a) -> ar_decided a = true ->
  if greedy then exists A, ar_result a = Some A /\ allowed d S (i_max_pref d) A /\ (optimal_lp ev -> cheapest S (i_max_pref d) A)
  else answers (optimal_lp ev) S (search_start d bound) (ar_result a).
Proof.
  unfold fresh. destruct greedy.
  - intros E HD. injection E as E. apply bind_ok in E as ([r t'] & ES & E). apply limit_sound in ES. destruct r as [A| |]; injection E as <-; try discriminate.
    exists A. split; auto.
  - destruct levels_some as [last HLen]. rewrite HLen. destruct (level_search _ _ _ _ _ _ _ _ _) as [[[[best optimal] t']| |]|] eqn:EL; try discriminate.
    intros E HD. apply some_inj, ok_inj in E. subst a. destruct (finish_fields best st optimal sv t') as (H1 & _ & H3 & _). rewrite H3 in HD. subst optimal. rewrite H1.
    eapply (level_sound _ _ HLen); [| | |exact EL]; auto; [|reflexivity]. intros _ j l' Hj1 Hj2. lia.
Qed.
Lemma level_total start last : length (i_levels d) = Datatypes.S last -> forall fuel low high best o t, start <= low -> high + 1 - low < fuel -> high <= last ->
  exists r o' t', level_search (solve_with_limit pr d sd cost ev dl st) (i_levels d) start fuel low high best o t = Some (Ok (r, o', t')) /\ (dl = false -> o' = o).
Proof.
  intros HLen. induction fuel as [|fuel IH]; intros low high best o t Hsl Hf Hhl; [lia|]. cbn [level_search]; destruct (Nat.leb_spec low high) as [Hle|Hgt]; cbn [negb]; [|eauto 6].
  set (mid := low + (high - low) / 2). assert (Hm : low <= mid <= high).
  { unfold mid. pose proof (Nat.div_le_upper_bound (high - low) 2 (high - low) ltac:(lia) ltac:(lia)). lia. }
  destruct (nth_error (i_levels d) mid) as [l|] eqn:El; [|apply nth_error_None in El; lia]. unfold get. rewrite El.
  destruct (limit_total l t) as (q & t1 & ES). rewrite ES. apply limit_sound in ES. destruct q as [A| |].
  - destruct (Nat.eqb_spec mid start) as [Hms|Hms]; [eauto 6|]. apply IH; lia.
  - apply IH; lia.
  - destruct (IH (mid + 1) high best false t1) as (r & o' & t' & H1 & H2); [lia|lia|lia|]. exists r, o', t'. split; auto. intros E. congruence.
Qed.
Lemma fresh_total sv t : exists a, fresh ev dl sv st t = Some (Ok a) /\ (dl = false -> greedy = false -> ar_decided a = true).
Proof.
  unfold fresh. destruct greedy.
  - destruct (limit_total (i_max_pref d) t) as (r & t' & ->). cbn [bind]. destruct r; eexists; (split; [reflexivity|]); discriminate.
  - destruct levels_some as [last HLen]. rewrite HLen. pose proof (search_start_le last HLen) as Hst.
    destruct (level_total (search_start d bound) last HLen (Datatypes.S last + 1) (search_start d bound) last None true t) as (r & o & t' & -> & Ho); [lia|lia|lia|].
    eexists. split; [reflexivity|]. intros HD _. destruct (finish_fields r st o sv t') as (_ & _ & H3 & _). rewrite H3. auto.
Qed.
End Fixed.

(** Every decided answer of a history, fresh or from the cache, is exact. *)
Lemma decided_sound (opt : Prop) (HLv : levels_ok d) h c : history h (cl_before c) -> shaped d (cl_sched c) -> run c -> ar_decided (cl_answer c) = true ->
  (forall s, slot_sum ch_min (i_choices d) (cl_sched c) s <= N.of_nat (np d))%N ->
  (forall c0, In c0 (c :: h) -> honest_lp (cl_env c0) (cl_deadline c0)) ->
  (forall c0, In c0 (c :: h) -> opt -> optimal_lp (cl_env c0)) ->
  if greedy then exists A, ar_result (cl_answer c) = Some A /\ allowed d (cl_sched c) (i_max_pref d) A /\ (opt -> cheapest (cl_sched c) (i_max_pref d) A)
  else answers opt (cl_sched c) (search_start d bound) (ar_result (cl_answer c)).
Proof.
  intros Hh HS HR HD Hsum HE HO.
  assert (G : forall c0 h0, history h0 (cl_before c0) -> In c0 (c :: h) -> cl_sched c0 = cl_sched c -> run c0 -> ar_cached (cl_answer c0) = false -> ar_decided (cl_answer c0) = true ->
    if greedy then exists A, ar_result (cl_answer c0) = Some A /\ allowed d (cl_sched c) (i_max_pref d) A /\ (opt -> cheapest (cl_sched c) (i_max_pref d) A)
    else answers opt (cl_sched c) (search_start d bound) (ar_result (cl_answer c0))).
  { intros c0 h0 Hh0 Hin ES HR0 HC0 HD0. unfold run in HR0. apply solve_until_inv in HR0 as (st & EP & _ & [(E & _)|(_ & HF & _)]); [congruence|].
    assert (HSt : state_for pr d (cl_sched c) st) by (rewrite <- ES; eapply history_prepared; [exact Hh0| |exact EP]; rewrite ES; auto).
    pose proof (fresh_sound _ st HSt Hsum _ _ (HE c0 Hin) HLv _ _ _ HF HD0) as G. destruct greedy.
    - destruct G as (A & G1 & G2 & G3). exists A. split; auto.
    - eapply answers_mono; [|exact G]. auto. }
  destruct (ar_cached (cl_answer c)) eqn:EC.
  - destruct (cached_answer h c Hh HS HR EC) as (c0 & H1 & H2 & H3 & H4 & H5 & H6 & h0 & H7). rewrite <- H4. apply (G c0 h0); auto. right; auto.
  - apply (G c h); auto. left; auto.
Qed.
Lemma levels_undeadlined ev st levels start fuel : forall low high best o t r o' t',
  level_search (solve_with_limit pr d sd cost ev false st) levels start fuel low high best o t = Some (Ok (r, o', t')) -> o' = o.
Proof.
  induction fuel as [|fuel IH]; intros low high best o t r o' t'; cbn [level_search]; destruct (negb (low <=? high)); try discriminate.
  - intros E. injection E as <- <- <-. auto.
  - intros E. injection E as <- <- <-. auto.
  - destruct (get levels _) as [l| |]; try discriminate. destruct (solve_with_limit pr d sd cost ev false st l t) as [[[A| |] t1]| |] eqn:ES; try discriminate.
    + destruct (_ =? start); [intros E; injection E as <- <- <-; auto|apply IH].
    + apply IH.
    + exfalso. unfold solve_with_limit in ES. cbn [andb] in ES. apply bind_ok in ES as (f & _ & ES). destruct (ev_lp ev (t + 2) f); [|discriminate].
      apply bind_ok in ES as (A & _ & ES). discriminate.
Qed.
Lemma undeadlined_decided c : run c -> cl_deadline c = false -> greedy = false -> ar_decided (cl_answer c) = true.
Proof.
  intros HR HD Hg. unfold run in HR. rewrite HD, solve_until_eq in HR. destruct (prepare_state _ _ _ _ _) as [st| |]; try discriminate.
  assert (G : fresh (cl_env c) false (cl_before c) st (cl_tick c) = Some (Ok (cl_answer c)) -> ar_decided (cl_answer c) = true).
  { unfold fresh. rewrite Hg. destruct (length (i_levels d)) as [|last]; [intros E; apply some_inj, ok_inj in E; rewrite <- E; auto|].
    destruct (level_search _ _ _ _ _ _ _ _ _) as [[[[best optimal] t']| |]|] eqn:EL; try discriminate. intros E. apply some_inj, ok_inj in E. rewrite <- E.
    apply levels_undeadlined in EL as ->. destruct (finish_fields best st true (cl_before c) t') as (_ & _ & H3 & _). auto. }
  destruct (sv_cache (cl_before c)) as [[[slots A] opt]|]; auto. destruct (same_slots slots (ss_slots st) && opt); auto.
  apply some_inj, ok_inj in HR. rewrite <- HR. auto.
Qed.
Lemma history_total (HLv : levels_ok d) h sv S ev dl t : history h sv -> shaped d S -> honest_lp ev dl ->
  (forall s, slot_sum ch_min (i_choices d) S s <= N.of_nat (np d))%N ->
  (forall c s, In c h -> slot_sum ch_min (i_choices d) (cl_sched c) s <= N.of_nat (np d))%N ->
  exists a, solve_until pr d sd cost greedy bound ev dl sv S t = Some (Ok a) /\ (dl = false -> greedy = false -> ar_decided a = true).
Proof.
  intros Hh HS HE H1 H2. destruct (history_prepare_total h sv S Hh HS (or_intror H1) (or_intror H2) (sz_choosers _ HZ)) as [st EP].
  pose proof (history_prepared h sv S st Hh HS EP) as HSt. rewrite solve_until_eq, EP.
  destruct (fresh_total S st HSt H1 ev dl HE HLv sv t) as (a & EF & HD).
  destruct (sv_cache sv) as [[[slots A] opt]|]; [destruct (same_slots slots (ss_slots st) && opt)|]; eauto.
Qed.
End History.

(** Points are determined by the assignment they encode. *)
Lemma point_unique pr d sd cost S st limit f x y A : wf_input d -> layout d sd -> state_for pr d S st ->
  (forall s, slot_sum ch_min (i_choices d) S s <= u32_max)%N -> build_flow pr d sd cost st limit = Ok f ->
  feasible_point f x -> feasible_point f y -> decode d sd st f x = Ok A -> decode d sd st f y = Ok A -> x = y.
Proof.
  intros HW HL HSt Hsum HBf HX HY EX EY. apply (build_ok pr d sd HW HL cost S st limit HSt) in HBf as HB.
  destruct (feasible_is_point pr d cost S st limit HSt f HB Hsum x HX) as (V & W & HP & ->).
  destruct (feasible_is_point pr d cost S st limit HSt f HB Hsum y HY) as (V' & W' & HP' & ->).
  destruct (decode_reads pr d sd HL cost S st limit HSt f HB V W HP) as (A1 & E1 & R1).
  destruct (decode_reads pr d sd HL cost S st limit HSt f HB V' W' HP') as (A2 & E2 & R2).
  rewrite EX in E1. rewrite EY in E2. injection E1 as <-. injection E2 as <-.
  assert (HV : forall p s c, p < np d -> scheduled_in S c s -> V p s c = V' p s c).
  { intros p s c Hp Hc. destruct (sched_lt pr d S st HSt c s Hc) as [_ Hs]. destruct R1 as [HLn R1]. destruct R2 as [_ R2].
    destruct (nth_error A p) as [row|] eqn:Er; [|apply nth_error_None in Er; lia]. destruct (R1 p row Er) as [_ R1']. destruct (R2 p row Er) as [_ R2'].
    destruct (R1' s Hs) as (c1 & Hc1 & Hs1 & V1). destruct (R2' s Hs) as (c2 & Hc2 & Hs2 & V2). assert (c2 = c1) by congruence. subst c2.
    destruct (lp_01 _ _ _ _ _ _ HP p s c Hp Hc) as [E|E].
    - destruct (lp_01 _ _ _ _ _ _ HP' p s c Hp Hc) as [E'|E']; [congruence|].
      rewrite (seat_unique pr d S st limit HSt V' W' p s c c1 HP' Hp Hc Hs2 E' V2) in E. congruence.
    - rewrite (seat_unique pr d S st limit HSt V W p s c c1 HP Hp Hc Hs1 E V1). congruence. }
  unfold point_of. f_equal; apply map_ext_in.
  - intros [[p s] c] Hin. cbn [fst snd]. destruct (tri_facts pr d S st limit HSt p s c Hin) as (Hp & _ & _ & Hc). auto.
  - intros [c s] Hin. cbn [fst]. assert (Hc : scheduled_in S c s) by (apply helds_in; auto).
    pose proof (lp_room _ _ _ _ _ _ HP c s Hc) as Q1. pose proof (lp_room _ _ _ _ _ _ HP' c s Hc) as Q2.
    rewrite (zsum_ext (fun p => V p s c) (fun p => V' p s c)) in Q1; [lia|]. intros p Hp. apply in_seq in Hp. apply HV; auto. lia.
Qed.
