(** The climb ends. *)
From Verif Require Import Base M_Data Spec M_Scoring P_Scoring P_Feasible P_Score M_Rng P_Rng M_Critical M_Search M_Flow Spec_Calls P_Flow7
  M_Climb M_Threads Spec_Climb Spec_Threads P_Climb1 P_Climb2 P_Climb3.

(** With enough turns there is one definite result. *)
Definition ends {A} (e : nat -> option (outcome A)) : Prop := exists n r, forall m, n <= m -> e m = Some r.
Lemma ends_now {A} (r : outcome A) : ends (fun _ => Some r).
Proof. exists 0, r. auto. Qed.
Lemma ends_bind {A B} (e : nat -> option (outcome A)) (f : nat -> A -> option (outcome B)) :
  ends e -> (forall a n, (forall m, n <= m -> e m = Some (Ok a)) -> ends (fun m => f m a)) -> ends (fun m => bindo (e m) (f m)).
Proof.
  intros (n & r & H) HF. destruct r as [a|msg|].
  - destruct (HF a n H) as (n' & r' & H'). exists (Nat.max n n'), r'. intros m Hm. rewrite H by lia. cbn. apply H'. lia.
  - exists n, (Err msg). intros m Hm. rewrite H by lia. auto.
  - exists n, Panic. intros m Hm. rewrite H by lia. auto.
Qed.
Lemma ends_ext {A} (e e' : nat -> option (outcome A)) : (forall m, e m = e' m) -> ends e -> ends e'.
Proof. intros HE (n & r & H). exists n, r. intros m Hm. rewrite <- HE. auto. Qed.

Section Picking.
Context (pr : profile) (d : input_data) (o : oracle) (HFair : fair o).
Lemma fresh_ends len taken t : visits o len -> (exists i, i < len /\ ~ In i taken) -> ends (fun sw => fresh_index pr o len taken sw t).
Proof.
  intros HV (i & Hi & Hni). destruct (Z.leb_spec (Z.of_nat len) i32_max) as [Hl|Hl].
  2:{ exists 1, Panic. intros [|m] Hm; [lia|]. cbn [fresh_index]. unfold random_index, to_i32. destruct (Z.leb_spec (Z.of_nat len) i32_max); [lia|]. reflexivity. }
  destruct (HV t i Hi) as (k & Hk). clear HV. revert t Hk. induction k as [|k IH]; intros t Hk.
  - rewrite Nat.add_0_r in Hk. exists 1, (Ok (i, t + 1)). intros [|m] Hm; [lia|]. cbn [fresh_index].
    rewrite random_index_total by (auto; lia). cbn [bindo]. rewrite Hk, Nat2Z.id.
    destruct (existsb (Nat.eqb i) taken) eqn:E; auto. apply existsb_exists in E as (x & Hx & E). apply Nat.eqb_eq in E. subst. contradiction.
  - destruct (IH (t + 1)) as (n & r & H). { rewrite <- Hk. do 2 f_equal. lia. }
    rewrite <- Nat.add_1_r in Hk.
    destruct (existsb (Nat.eqb (Z.to_nat (o_sample o t mod Z.of_nat len))) taken) eqn:E.
    + exists (Datatypes.S n), r. intros [|m] Hm; [lia|]. cbn [fresh_index]. rewrite random_index_total by (auto; lia). cbn [bindo]. rewrite E. apply H. lia.
    + exists 1. eexists. intros [|m] Hm; [lia|]. cbn [fresh_index]. rewrite random_index_total by (auto; lia). cbn [bindo]. rewrite E. reflexivity.
Qed.
Lemma untaken len (taken : list nat) : length taken < len -> exists i, i < len /\ ~ In i taken.
Proof.
  intros H. destruct (Exists_dec (fun i => ~ In i taken) (seq 0 len)) as [HE|HE].
  - intros i. destruct (in_dec Nat.eq_dec i taken); [right|left]; tauto.
  - apply Exists_exists in HE as (i & Hi & Hn). apply in_seq in Hi. exists i. split; [lia|auto].
  - exfalso. assert (length (seq 0 len) <= length taken); [|rewrite seq_length in *; lia].
    apply NoDup_incl_length; [apply seq_NoDup|]. intros i Hi. destruct (in_dec Nat.eq_dec i taken); auto. exfalso. apply HE. apply Exists_exists. eauto.
Qed.
Lemma grow_ends len : visits o len -> forall fuel idx t, len / 2 - length idx < fuel -> length idx <= len -> ends (fun sw => grow_cycle pr o len sw fuel idx t).
Proof.
  intros HV. induction fuel as [|fuel IH]; intros idx t Hf Hl; [lia|]. cbn [grow_cycle].
  apply ends_bind; [apply ends_now|]. intros z _ _. destruct ((z =? 0)%Z && (length idx <? len / 2)) eqn:E; [|apply ends_now].
  apply andb_true_iff in E as [_ E]. apply Nat.ltb_lt in E. assert (len / 2 <= len) by (apply Nat.div_le_upper_bound; lia).
  apply ends_bind; [apply fresh_ends; auto; apply untaken; lia|]. intros [i t'] _ _. cbn [fst snd]. apply IH; rewrite app_length; cbn [length]; lia.
Qed.
Lemma swap_ends S t : visits o (length S) -> ends (fun sw => swap_neighbor pr d o sw S t).
Proof.
  intros HV. unfold swap_neighbor. apply ends_bind; [apply ends_now|]. intros i m0 Hi. specialize (Hi _ (le_n _)). injection Hi as Hi. apply random_index_lt in Hi; auto.
  apply ends_bind; [|intros; apply ends_now]. apply grow_ends; auto; cbn [length]; try lia. assert (length S / 2 <= length S) by (apply Nat.div_le_upper_bound; lia). lia.
Qed.
Lemma add_ends S res t : visits o (length S) -> ends (fun sw => add_swap pr d o sw S res t).
Proof. intros HV. unfold add_swap. apply ends_bind; [apply swap_ends; auto|]. intros nt _ _. apply ends_bind; intros; apply ends_now. Qed.
Lemma keys_end max swaps S : visits o (length S) -> forall keys index res t, ends (fun sw => key_neighbors pr d o sw max swaps S keys index res t).
Proof.
  intros HV. induction keys as [|k keys IH]; intros index res t; cbn [key_neighbors]; [apply ends_now|].
  destruct (max <=? length res); [apply ends_now|]. destruct (max * 32 <? index); [apply ends_now|].
  apply ends_bind; [apply ends_now|]. intros n _ _. apply ends_bind; [apply ends_now|]. intros ok _ _. destruct ok; cbn [negb]; auto.
  destruct swaps; [apply (ends_bind (fun sw => add_swap pr d o sw S (res ++ [n]) t))|apply (ends_bind (fun _ => Some (Ok (res ++ [n], t))))]; auto using add_ends, ends_now.
Qed.
Lemma swaps_end max S : visits o (length S) -> forall tries res t, ends (fun sw => swap_neighbors pr d o sw max S tries res t).
Proof.
  intros HV. induction tries as [|tries IH]; intros res t; cbn [swap_neighbors]; [apply ends_now|]. destruct (max <=? length res); [apply ends_now|].
  apply ends_bind; auto using add_ends.
Qed.
Lemma pick_ends max S t : visits o (length S) -> ends (fun sw => pick_neighbors pr d o sw max S t).
Proof.
  intros HV. unfold pick_neighbors. destruct (if max <? n_cells d then _ else _) as [keys t1].
  apply ends_bind; [apply keys_end; auto|]. intros [res t2] _ _. destruct (_ && (length res <? max)); [apply swaps_end; auto|apply ends_now].
Qed.
End Picking.

(** The assignment solver always answers. *)
Lemma level_answers (solve : N -> nat -> outcome (limit_result * nat)) levels start : forall fuel low high best o t,
  start <= low -> high + 1 - low < fuel -> level_search solve levels start fuel low high best o t <> None.
Proof.
  induction fuel as [|fuel IH]; intros low high best o t Hsl Hf; [lia|]. cbn [level_search]. destruct (Nat.leb_spec low high) as [Hle|Hgt]; cbn [negb]; [|discriminate].
  set (mid := low + (high - low) / 2). assert (Hm : low <= mid <= high).
  { unfold mid. pose proof (Nat.div_le_upper_bound (high - low) 2 (high - low) ltac:(lia) ltac:(lia)). lia. }
  destruct (get levels mid) as [l| |]; try discriminate. destruct (solve l t) as [[[A| |] t1]| |]; try discriminate; try (apply IH; lia).
  destruct (Nat.eqb_spec mid start); [discriminate|]. apply IH; lia.
Qed.
Lemma until_answers pr d sd cost g bound ev dl sv S t : solve_until pr d sd cost g bound ev dl sv S t <> None.
Proof.
  rewrite solve_until_eq. destruct (prepare_state pr d sd (sv_state sv) S) as [st| |]; try discriminate.
  assert (HFr : fresh pr d sd cost g bound ev dl sv st t <> None).
  { unfold fresh. destruct g; [discriminate|]. destruct (length (i_levels d)) as [|last] eqn:EL; [discriminate|].
    pose proof (level_answers (solve_with_limit pr d sd cost ev dl st) (i_levels d) (search_start d bound) (Datatypes.S last + 1) (search_start d bound) last None true t (le_n _) ltac:(lia)) as H.
    destruct (level_search _ _ _ _ _ _ _ _ _) as [[[[b o] t']| |]|]; try discriminate. congruence. }
  destruct (sv_cache sv) as [[[slots A] opt]|]; auto. destruct (same_slots slots (ss_slots st) && opt); auto. discriminate.
Qed.

(** All complete solutions. *)
Fixpoint lists_of {A} (l : list A) (n : nat) : list (list A) :=
  match n with
  | O => [[]]
  | Datatypes.S n => flat_map (fun x => map (cons x) (lists_of l n)) l
  end.
Lemma lists_of_in {A} (l : list A) x : forall n, length x = n -> (forall y, In y x -> In y l) -> In x (lists_of l n).
Proof.
  induction x as [|y x IH]; intros n Hn H; cbn in Hn; subst n; cbn [lists_of]; [left; auto|].
  apply in_flat_map. exists y. split; [apply H; left; auto|]. apply in_map, IH; auto. intros z Hz. apply H. right. auto.
Qed.
Definition all_solutions (d : input_data) : list solution :=
  flat_map (fun S => map (SolComplete S) (lists_of (lists_of (seq 0 (length (i_choices d))) (length (i_slots d))) (length (i_choosers d))))
    (lists_of (None :: map Some (seq 0 (length (i_slots d)))) (length (i_choices d))).
Lemma all_solutions_in d S A : valid_solution d S A -> In (SolComplete S A) (all_solutions d).
Proof.
  intros HV. unfold all_solutions. apply in_flat_map. exists S. pose proof (vsol_sched _ _ _ HV) as HS. destruct (ra_one _ _ _ (vsol_rest _ _ _ HV)) as [HA HO]. split.
  - apply lists_of_in; [apply (vs_length _ _ HS)|]. intros [s|] Hs; [|left; auto]. right. apply in_map, in_seq. apply In_nth_error in Hs as [c Hc].
    pose proof (vs_range _ _ HS c s Hc). unfold n_slots in *. lia.
  - apply in_map, lists_of_in; [exact HA|]. intros row Hrow. apply lists_of_in; [apply In_nth_error in Hrow as [p Hp]; apply (HO p row Hp)|]. intros c Hc. apply in_seq. split; [lia|]. cbn.
    apply In_nth_error in Hrow as [p Hp]. assert (HH : held S c) by (destruct (HO p row Hp) as (_ & H & _); auto).
    destruct HH as [s Hs]. assert (c < length S) by (apply nth_error_Some; unfold scheduled_in in Hs; congruence). rewrite (vs_length _ _ HS) in H. exact H.
Qed.
Lemma filter_shrinks {A} (f f' : A -> bool) l x : (forall y, f' y = true -> f y = true) -> In x l -> f x = true -> f' x = false ->
  length (filter f' l) < length (filter f l).
Proof.
  intros HI. assert (G : forall l, length (filter f' l) <= length (filter f l)).
  { induction l0 as [|y l0 IH]; cbn; auto. destruct (f' y) eqn:E; [rewrite (HI y E); cbn; lia|]. destruct (f y); cbn; lia. }
  induction l as [|y l IH]; intros Hin H1 H2; [destruct Hin|]. cbn. destruct Hin as [->|Hin].
  - rewrite H1, H2. cbn. specialize (G l). lia.
  - specialize (IH Hin H1 H2). destruct (f' y) eqn:E; [rewrite (HI y E); cbn; lia|]. destruct (f y); cbn; lia.
Qed.

Section Climbing.
Context (pr : profile) (P : problem) (w : world) (deadline : bool).
Let d := p_input P.
Context (HF : fits d) (HW : wf_input d) (HFair : fair (w_hill w)) (HV : visits (w_hill w) (length (i_choices d))).
Notation scored := (scored pr P).
Notation climber_ok := (climber_ok P).
Notation cand_ok := (cand_ok d).

Lemma candidate_answers S h : solve_candidate pr P w deadline S h <> None.
Proof.
  unfold solve_candidate. pose proof (until_answers pr (p_input P) (p_static P) (p_cost P) (p_greedy P) (an_bound (p_analysis P)) (w_env w) deadline (hc_solver h) S (hc_atick h)) as H.
  destruct (solve_until _ _ _ _ _ _ _ _ _ _ _) as [[a| |]|]; cbn; congruence.
Qed.
Lemma explore_answers ns : forall b found h ev, explore pr P w deadline ns b found h ev <> None.
Proof.
  induction ns as [|n ns IH]; intros b found h ev; cbn [explore]; [discriminate|]. destruct (deadline && o_late (w_hill w) (hc_tick h)); [discriminate|].
  pose proof (candidate_answers n (at_tick h (hc_tick h + 1))) as H. destruct (solve_candidate _ _ _ _ _ _) as [[[[sol h1] e]| |]|]; cbn [bindo]; try congruence.
  destruct (score_of pr P sol) as [sc| |]; cbn [bindo]; try discriminate. destruct (score_lt sc (b_score b)); apply IH.
Qed.
Definition below (b : best) (sol : solution) : bool := match score_of pr P sol with Ok sc => score_lt sc (b_score b) | _ => false end.
Definition room (b : best) : nat := length (filter (below b) (all_solutions d)).
Lemma room_shrinks b b' : scored b -> scored b' -> cand_ok (b_sol b') -> score_lt (b_score b') (b_score b) = true -> room b' < room b.
Proof.
  intros Hb Hb' Hc Hlt. unfold room. apply (filter_shrinks _ _ _ (b_sol b')).
  - intros y. unfold below. destruct (score_of pr P y) as [sc| |] eqn:E; auto. intros H.
    apply (lt_le_mode (p_greedy P) _ (b_score b') _); auto using score_lt_le; try (eapply scored_mode; eauto). eapply evaluate_mode; eauto.
  - pose proof (score_lt_finite _ _ Hlt) as Hfin. destruct (finite_valid pr (p_pow P) (p_greedy P) d (b_sol b') (b_score b') HF HW Hc Hb' Hfin) as (S & A & E & HVal).
    rewrite E in *. apply all_solutions_in; auto.
  - unfold below. unfold P_Climb3.scored in Hb'. rewrite Hb'. auto.
  - unfold below. unfold P_Climb3.scored in Hb'. rewrite Hb'. apply score_le_not_lt, score_le_refl.
Qed.
Lemma climb_ends k : forall b h ev, room b < k -> scored b -> score_finite (b_score b) = true -> cand_ok (b_sol b) -> climber_ok h ->
  exists n r, forall sw fuel, n <= sw -> n <= fuel -> climb pr P w deadline sw fuel b h ev = Some r.
Proof.
  induction k as [|k IH]; intros b h ev Hk Hb Hf Hc Hh; [lia|].
  destruct (deadline && o_late (w_hill w) (hc_tick h)) eqn:EL.
  { exists 1. eexists. intros sw [|fuel] _ H2; [lia|]. cbn [climb]. rewrite EL. reflexivity. }
  destruct (scored_finite_sched pr P b Hb Hf Hc) as (S & ES & HS).
  destruct (pick_ends pr d (w_hill w) HFair (p_max_neighbors P) S (hc_tick h + 1)) as (n1 & r1 & H1).
  { destruct HS as [[E _] _]. rewrite E. auto. }
  assert (Hstep : forall sw fuel, n1 <= sw -> climb pr P w deadline sw (Datatypes.S fuel) b h ev =
     bindo (Some r1) (fun nt => bindo (explore pr P w deadline (fst nt) b false (at_tick h (snd nt)) ev) (fun r => let '(all, found, b', h', ev') := r in
        if all && found then climb pr P w deadline sw fuel b' h' ev' else Some (Ok (b', h', ev'))))).
  { intros sw fuel Hsw. cbn [climb]. rewrite EL, ES. cbn [expect bindo]. fold d. rewrite H1 by auto. reflexivity. }
  destruct r1 as [[ns t]|msg|].
  2:{ exists (Datatypes.S n1). eexists. intros sw [|fuel] A B; [lia|]. rewrite Hstep by lia. reflexivity. }
  2:{ exists (Datatypes.S n1). eexists. intros sw [|fuel] A B; [lia|]. rewrite Hstep by lia. reflexivity. }
  cbn [bindo fst snd] in Hstep. pose proof (explore_answers ns b false (at_tick h t) ev) as HN.
  destruct (explore pr P w deadline ns b false (at_tick h t) ev) as [[[[[[all found] b'] h'] ev']|msg|]|] eqn:EE; [| | |congruence].
  2:{ exists (Datatypes.S n1). eexists. intros sw [|fuel] A B; [lia|]. rewrite Hstep by lia. reflexivity. }
  2:{ exists (Datatypes.S n1). eexists. intros sw [|fuel] A B; [lia|]. rewrite Hstep by lia. reflexivity. }
  cbn [bindo] in Hstep. destruct (all && found) eqn:EA.
  2:{ exists (Datatypes.S n1). eexists. intros sw [|fuel] A B; [lia|]. rewrite Hstep by lia. reflexivity. }
  destruct (round_ok pr P w deadline HF HW HFair n1 b h ev S ns t all found b' h' ev' Hb Hf Hc Hh ES (H1 n1 (le_n _)) EE) as (fs & es & HC & Hfd & _ & _).
  destruct (climbed_best pr P b h ev b' h' ev' fs es Hh HC Hc Hf Hb) as [Hc' Hf'].
  apply andb_true_iff in EA as [_ EA]. rewrite Hfd in EA. apply negb_true_iff, Nat.eqb_neq in EA.
  pose proof (cd_scored _ _ _ _ _ _ _ _ _ _ HC) as Hb'.
  assert (Hlt : score_lt (b_score b') (b_score b) = true).
  { pose proof (cd_last _ _ _ _ _ _ _ _ _ _ HC) as ELa. pose proof (cd_desc _ _ _ _ _ _ _ _ _ _ HC) as HD. pose proof (cd_in _ _ _ _ _ _ _ _ _ _ HC) as HI.
    destruct (bests es) as [|x l]; [cbn in EA; lia|]. rewrite last_cons in ELa. destruct HD as [D1 D2].
    assert (Hx : scored x) by (apply HI; left; auto).
    apply (le_lt_mode (p_greedy P) _ (b_score x) _); auto; try (eapply scored_mode; eauto).
    rewrite ELa. eapply descending_le; eauto. intros y Hy. apply HI. right. auto. }
  pose proof (room_shrinks b b' Hb Hb' Hc' Hlt) as HR.
  destruct (IH b' h' ev' ltac:(lia) Hb' Hf' Hc' (cd_ok _ _ _ _ _ _ _ _ _ _ HC)) as (n2 & r2 & H2).
  exists (Datatypes.S (Nat.max n1 n2)), r2. intros sw [|fuel] A B; [lia|]. rewrite Hstep by lia. apply H2; lia.
Qed.
Lemma hill_ends S h : climber_ok h -> sched_ok d S ->
  exists n r, forall tn, n <= tn_swap tn -> n <= tn_climb tn -> hill_solve pr P w deadline tn S h = Some r.
Proof.
  intros Hh HS. unfold hill_solve. pose proof (candidate_answers S h) as HN.
  destruct (solve_candidate pr P w deadline S h) as [[[[sol h1] e]|msg|]|] eqn:EC; cbn [bindo]; [| | |congruence]; [|exists 0; eauto|exists 0; eauto].
  destruct (candidate_ok pr P w deadline S h sol h1 e Hh HS EC) as (Hh1 & _ & Hc & _).
  destruct (score_of pr P sol) as [sc|msg|] eqn:ES; cbn [bindo]; [|exists 0; eauto|exists 0; eauto].
  destruct (score_finite sc) eqn:EF; cbn [negb]; [|exists 0; eauto].
  destruct (climb_ends (Datatypes.S (room (mkBest sol sc))) (mkBest sol sc) h1 [e; EvBest sol sc]) as (n & r & H); auto.
  exists n. destruct r as [[[b h2] ev]|msg|]; eexists; intros tn A B; rewrite H by auto; cbn; reflexivity.
Qed.
End Climbing.
