(** Property theorems about the local search, the workers and solve sessions:
    C01, C04, C05, C28-C30, C35, C43, C52-C56.  [hill_solve] is
    HillClimbingSolver::solve, [iterate] is ShotgunSolver::iterate, [moves] are the
    interleavings of the workers of a session and its caller, [wait] is
    SolveSession::wait, [polls] are successive calls of SolveSession::progress.
    The LP library, the random engines and the clock are arbitrary functions in
    [world]. *)
From Verif Require Import Base M_Data Spec M_Scoring P_Scoring P_Feasible P_Score P_Minor P_Check M_Build Spec_Input P_Input T_Input
  M_Rng P_Rng M_Critical Spec_Search M_Search P_Sums P_Search3 P_Search5 P_Built T_Search
  M_Flow Spec_Flow Spec_Calls P_Flow1 P_Flow7 P_Brute T_Flow M_Climb M_Threads Spec_Climb Spec_Threads
  P_Climb1 P_Climb2 P_Climb3 P_Climb4 P_Threads P_Climb5 P_Climb6 P_Session.
From Coq Require Import String Permutation.
From Coq Require Znumtheory.
Notation length := Datatypes.length.
Notation get := Base.get.
Notation concat := List.concat.
Open Scope string_scope.
Import ListNotations.
Open Scope list_scope.

(** ** A sample problem *)
(** Two slots; a and b must be held, c may be left out. *)
Definition r5 : reader := mkReader [mkSlot "s"; mkSlot "t"]
  [mkProto "a" 1 2 1 false; mkProto "b" 1 2 1 false; mkProto "c" 1 2 1 true]
  [mkChooser "p" [5;0;5]%N; mkChooser "q" [5;5;0]%N] [].
Definition d5 : input_data := match build_input Debug r5 with Ok d => d | _ => d1 end.
Definition a5 : analysis := match prepare_analysis Debug d5 false false false with Ok a => a | _ => a1 end.
Definition sd5 : static := match new_static d5 with Ok a => a | _ => sd1 end.
(** --any, max_neighbors = 13, preference exponent 3. *)
Definition P5 : problem := mkProblem d5 a5 sd5 (fun x => x) cube false true 13 3.
(** An engine that counts. *)
Definition o_count (k : nat) : oracle := mkOracle (fun t => Z.of_nat ((t + k) mod 3000)) (fun _ l => l) (fun _ => false).
Definition w5 : world := mkWorld (o_count 0) (o_count 1) (brute_env no_clock) no_clock.
Definition tn1 : turns := mkTurns 1000 100 100 100.
Lemma o_count_fair k : fair (o_count k).
Proof.
  constructor; cbn [o_sample o_count o_shuffle]; auto. intros t. pose proof (Nat.mod_upper_bound (t + k) 3000 ltac:(lia)). unfold i32_min, i32_max.
  set (m := (t + k) mod 3000) in *. clearbody m. lia.
Qed.
Lemma o_count_visits k : visits (o_count k) 3.
Proof.
  intros t i Hi. exists (i + 2 * (t + k)). cbn [o_sample o_count]. replace (t + (i + 2 * (t + k)) + k) with (i + (t + k) * 3) by lia.
  change (Z.of_nat 3) with 3%Z. rewrite Nat2Z.inj_mod, <- Znumtheory.Zmod_div_mod; [|lia|lia|exists 1000%Z; reflexivity].
  rewrite Nat2Z.inj_add, Nat2Z.inj_mul. change (Z.of_nat 3) with 3%Z. rewrite Z.mod_add by lia. apply Z.mod_small. lia.
Qed.
Lemma r5_builds : build_input Debug r5 = Ok d5. Proof. vm_compute. reflexivity. Qed.
Lemma d5_wf : wf_input d5. Proof. apply wf_input_b_ok. vm_compute. reflexivity. Qed.
Lemma d5_fits : fits d5. Proof. apply fits_b_ok. vm_compute. reflexivity. Qed.
Lemma d5_searchable : searchable d5.
Proof.
  apply (built_searchable _ _ _ r5_builds).
  - split; vm_compute; discriminate.
  - vm_compute; discriminate.
  - intros k n Hk. vm_compute in Hk. destruct Hk.
Qed.
Lemma P5_roomy : roomy Debug P5.
Proof.
  constructor; cbn [p_input p_static p_analysis p_cs_timeout P5].
  - exact d5_fits.
  - exact d5_wf.
  - exact d5_searchable.
  - constructor; vm_compute; discriminate.
  - exact (built_levels _ _ _ r5_builds).
  - exact (built_grouped _ _ _ r5_builds).
  - apply size_b_ok. vm_compute. reflexivity.
  - vm_compute. reflexivity.
  - vm_compute. reflexivity.
  - exists true, true. vm_compute. reflexivity.
  - lia.
Qed.

(** ** C28: the keys below choices x slots enumerate the ways to move exactly one
    choice, each once, and never the scheduling itself. *)
Theorem C28_neighbours_enumerated :
  forall (d : input_data) (S : scheduling),
    length S = length (i_choices d) -> (forall c s, scheduled_in S c s -> s < length (i_slots d)) ->
    (forall key, key < length (i_choices d) * length (i_slots d) ->
       exists S', neighbor d S key = Ok S' /\ one_move d S S' /\ S' <> S) /\
    (forall S', one_move d S S' -> exists! key, key < length (i_choices d) * length (i_slots d) /\ neighbor d S key = Ok S').
Proof.
  intros d S HL HR. split.
  - intros key Hk. destruct (neighbor_move d S key (conj HL HR) Hk) as (S' & E & HM). exists S'. split; auto. split; auto.
    destruct HM as (_ & c & _ & Hne & _). congruence.
  - intros S' HM. apply (move_neighbor d S S' (conj HL HR) HM).
Qed.
Print Assumptions C28_neighbours_enumerated.
Definition S5 : scheduling := [Some 0; Some 1; None].
Lemma S5_valid : valid_scheduling d5 S5.
Proof. apply check_scheduling_ok; [exact d5_fits|exact d5_wf|vm_compute; reflexivity]. Qed.
Example C28_witness : length S5 = length (i_choices d5) /\ (forall c s, scheduled_in S5 c s -> s < length (i_slots d5)) /\
  map (neighbor d5 S5) (seq 0 6) = [Ok [None; Some 1; None]; Ok [Some 0; None; None]; Ok [Some 0; Some 1; Some 0];
                                    Ok [Some 1; Some 1; None]; Ok [Some 0; Some 0; None]; Ok [Some 0; Some 1; Some 1]].
Proof. split; [apply (vs_length _ _ S5_valid)|]. split; [apply (vs_range _ _ S5_valid)|]. vm_compute. reflexivity. Qed.

(** ** C30: a swap neighbour hands the slots of a cycle of choices around. *)
Theorem C30_swaps_permute :
  forall (pr : profile) (d : input_data) (o : oracle) (turns : nat) (S S' : scheduling) (t t' : nat),
    fair o -> swap_neighbor pr d o turns S t = Some (Ok (S', t')) ->
    Permutation S S' /\
    exists cycle, NoDup cycle /\ cycle <> [] /\ length cycle <= Nat.max 1 (length S / 2) /\
      (forall c, In c cycle -> c < length S) /\ rotated cycle S S'.
Proof.
  intros pr d o turns S S' t t' HF H. destruct (swap_neighbor_ok _ _ _ _ _ _ _ _ HF H) as (cy & H1 & H2 & H3 & H4 & H5 & H6 & _). eauto 10.
Qed.
Print Assumptions C30_swaps_permute.
(** Four choices, a cycle of two. *)
Definition r30 : reader := mkReader [mkSlot "s"; mkSlot "t"]
  [mkProto "a" 1 2 1 true; mkProto "b" 1 2 1 true; mkProto "c" 1 2 1 true; mkProto "d" 1 2 1 true]
  [mkChooser "p" [5;0;5;0]%N; mkChooser "q" [5;5;0;0]%N] [].
Definition d30 : input_data := match build_input Debug r30 with Ok d => d | _ => d1 end.
Example C30_witness : fair (o_count 2) /\ swap_neighbor Debug d30 (o_count 2) 9 [Some 0; Some 1; Some 1; None] 0 = Some (Ok ([Some 1; Some 1; Some 0; None], 4)).
Proof. split; [apply o_count_fair|]. vm_compute. reflexivity. Qed.
(** With at most three choices the cycle has one member and the "neighbour" is
    the scheduling itself. *)
Theorem C30_few_choices_no_swap :
  forall (pr : profile) (d : input_data) (o : oracle) (turns : nat) (S S' : scheduling) (t t' : nat),
    fair o -> length S <= 3 -> swap_neighbor pr d o turns S t = Some (Ok (S', t')) -> S' = S.
Proof.
  intros pr d o turns S S' t t' HF HL H. destruct (C30_swaps_permute _ _ _ _ _ _ _ _ HF H) as (_ & cy & _ & Hne & Hlen & _ & HR).
  assert (Hle : length S / 2 <= 1) by (apply (Nat.div_le_mono _ _ 2) in HL; [exact HL|lia]).
  destruct cy as [|c [|c2 cy]]; [congruence| |cbn [length] in Hlen; lia]. destruct HR as (_ & H1 & H2 & _).
  apply nth_error_ext. intros i. destruct (Nat.eq_dec i c) as [->|Hn]; [apply H2; reflexivity|]. apply H1. intros [F|[]]. congruence.
Qed.
Print Assumptions C30_few_choices_no_swap.
Example C30_few_choices_witness : length S5 <= 3 /\ swap_neighbor Debug d5 (o_count 2) 9 S5 0 = Some (Ok (S5, 2)).
Proof. split; [cbn; lia|]. vm_compute. reflexivity. Qed.

(** ** C29: the neighbours explored in a step are valid schedulings (in a release
    build if the sums fit in u32), and at most one more than [max_neighbors].
    Not proved because false: at most [max_neighbors], see below. *)
Theorem C29_neighbours_valid_partial :
  forall (pr : profile) (d : input_data) (o : oracle) (turns max : nat) (S : scheduling) (t : nat) (res : list scheduling) (t' : nat),
    wf_input d -> fits d -> fair o -> length S = length (i_choices d) -> (forall c s, scheduled_in S c s -> s < length (i_slots d)) ->
    pick_neighbors pr d o turns max S t = Some (Ok (res, t')) ->
    (pr = Debug \/ totals_fit d -> forall S', In S' res -> valid_scheduling d S') /\
    length res <= max + 1 /\
    (length (i_choices d) <= 1 \/ length (i_slots d) <= 1 -> length res <= max).
Proof.
  intros pr d o turns max S t res t' HW HF HFair HL HR H. destruct (pick_neighbors_ok _ _ _ _ _ _ _ _ _ HFair (conj HL HR) H) as (H1 & H2 & _).
  split; [|split].
  - intros Hp S' Hin. destruct (H1 S' Hin) as ([HL' HR'] & Hfe & _). destruct Hp as [-> | Ht].
    + apply (sched_is_feasible_debug d S' HF HW HL' Hfe).
    + destruct (sched_is_feasible_exact pr d S' HF HW HL' HR' (totals_sums _ _ Ht HL')) as (b & E & HB). apply HB. congruence.
  - destruct ((1 <? length (i_choices d)) && (1 <? length (i_slots d)))%nat; lia.
  - intros Hs. replace ((1 <? length (i_choices d)) && (1 <? length (i_slots d)))%nat with false in H2; [lia|]. symmetry.
    apply andb_false_iff. rewrite !Nat.ltb_ge. auto.
Qed.
Print Assumptions C29_neighbours_valid_partial.
Example C29_witness : wf_input d5 /\ fits d5 /\ fair (o_count 1) /\ length S5 = length (i_choices d5) /\
  (forall c s, scheduled_in S5 c s -> s < length (i_slots d5)) /\ totals_fit d5 /\
  exists t', pick_neighbors Debug d5 (o_count 1) 9 2 S5 0 = Some (Ok ([[Some 0; Some 1; Some 0]; [Some 0; Some 1; None]], t')).
Proof.
  split; [exact d5_wf|]. split; [exact d5_fits|]. split; [apply o_count_fair|]. split; [reflexivity|]. split; [apply (vs_range _ _ S5_valid)|].
  split; [apply (sr_totals _ d5_searchable)|]. eexists. vm_compute. reflexivity.
Qed.
(** max_neighbors = 3, four neighbours: a swap is added without looking at the
    limit again. *)
Theorem C29_limit_refuted :
  exists (d : input_data) (o : oracle) (S : scheduling) (turns max : nat) (res : list scheduling) (t' : nat),
    build_input Debug r5 = Ok d /\ valid_scheduling d S /\ fair o /\
    pick_neighbors Debug d o turns max S 0 = Some (Ok (res, t')) /\ max < length res.
Proof.
  exists d5, (o_count 1), S5, 9, 3. destruct (pick_neighbors Debug d5 (o_count 1) 9 3 S5 0) as [[[l t']|m|]|] eqn:E;
    try (exfalso; vm_compute in E; discriminate). exists l, t'. split; [exact r5_builds|]. split; [exact S5_valid|]. split; [apply o_count_fair|]. split; auto.
  assert (EL : match pick_neighbors Debug d5 (o_count 1) 9 3 S5 0 with Some (Ok (l, _)) => length l | _ => 0 end = 4) by (vm_compute; reflexivity).
  rewrite E in EL. lia.
Qed.
Print Assumptions C29_limit_refuted.

Lemma last_nth_error {A} (l : list A) x : l <> [] -> nth_error l (length l - 1) = Some (last l x).
Proof.
  induction l as [|a l IH]; [congruence|]. intros _. destruct l as [|b l]; [reflexivity|]. cbn [length]. replace (S (S (length l)) - 1) with (S (S (length l) - 1)) by lia.
  change (nth_error (b :: l) (length (b :: l) - 1) = Some (last (b :: l) x)). apply IH. discriminate.
Qed.
Lemma descending_pairs : forall l b0, descending (b_score b0) l -> forall k b b', nth_error (b0 :: l) k = Some b -> nth_error (b0 :: l) (k + 1) = Some b' -> score_lt (b_score b') (b_score b) = true.
Proof.
  induction l as [|x l IH]; intros b0 H k b b' E E'; [destruct k as [|[]]; discriminate|]. destruct H as [H1 H2]. destruct k as [|k].
  - cbn in E, E'. congruence.
  - apply (IH x H2 k b b'); auto.
Qed.
(** ** C05: local search never loses ground.  [h] is the local search object after
    any earlier climbs; [first] is what the assignment solver answers for the
    start; [bests ev] are the published improvements, oldest first. *)
Theorem C05_never_loses_ground :
  forall (pr : profile) (P : problem) (w : world) (deadline : bool) (tn : turns) (S : scheduling) (h : climber) (sol : solution) (h' : climber) (ev : list event),
    wf_input (p_input P) -> fits (p_input P) -> fair (w_hill w) -> used pr P w h -> startable (p_input P) S ->
    hill_solve pr P w deadline tn S h = Some (Ok (sol, h', ev)) ->
    (exists first h1 e sc, solve_candidate pr P w deadline S h = Some (Ok (first, h1, e)) /\ score_of pr P first = Ok sc /\
       (sol = SolInvalid /\ bests ev = [] /\ score_finite sc = false \/
        exists sc', score_of pr P sol = Ok sc' /\ score_finite sc' = true /\ score_lt sc sc' = false /\
          nth_error (bests ev) 0 = Some (mkBest first sc) /\ nth_error (bests ev) (length (bests ev) - 1) = Some (mkBest sol sc'))) /\
    (forall k b b', nth_error (bests ev) k = Some b -> nth_error (bests ev) (k + 1) = Some b' -> score_lt (b_score b') (b_score b) = true) /\
    (forall b, In b (bests ev) -> score_of pr P (b_sol b) = Ok (b_score b)).
Proof.
  intros pr P w dl tn S h sol h' ev HW HF HFair Hu HS H. pose proof (used_ok _ _ _ _ HF HW HFair Hu) as Hh. apply startable_ok in HS.
  destruct (hill_solve_ok pr P w dl HF HW HFair tn S h sol h' ev Hh HS H) as (first & rest & HD).
  destruct (hd_start _ _ _ _ _ _ _ _ _ _ _ HD) as (h1 & e & Ec). destruct (hd_first_score _ _ _ _ _ _ _ _ _ _ _ HD) as (sc & Esc & HI & HFi).
  destruct (score_finite sc) eqn:EF.
  - destruct (HFi eq_refl) as (b & bs & Eb & HDe & Elast & Esol & Hsc & _ & Hfb & Hin).
    assert (Hall : forall x, In x (bests ev) -> scored pr P x) by (rewrite Eb; intros x [<-|Hx]; [exact Esc|apply Hin; auto]).
    split; [|split; [|exact Hall]].
    + exists first, h1, e, sc. split; auto. split; auto. right. exists (b_score b). rewrite Esol. split; [exact Hsc|]. split; auto. split.
      * apply score_le_not_lt. rewrite Elast. apply (descending_le pr P) with (d0 := mkBest first sc); auto. intros x Hx. apply Hin; auto.
      * rewrite Eb. split; auto. rewrite (last_nth_error _ (mkBest first sc)) by discriminate. rewrite last_cons, <- Elast. destruct b; auto.
    + rewrite Eb. apply descending_pairs. exact HDe.
  - destruct (HI eq_refl) as (Esol & _ & Eb). rewrite Eb. split; [|split].
    + exists first, h1, e, sc. split; auto.
    + intros k b b' F. destruct k; discriminate.
    + intros b [].
Qed.
Print Assumptions C05_never_loses_ground.
Definition value {A} (dflt : A) (x : option (outcome A)) : A := match x with Some (Ok a) => a | _ => dflt end.
Definition it5 : nat * shotgun * list event := value (0, new_shotgun, []) (iterate Debug P5 w5 true tn1 1 new_shotgun).
Lemma it5_eq : iterate Debug P5 w5 true tn1 1 new_shotgun = Some (Ok it5). Proof. vm_compute. reflexivity. Qed.
Definition start5 : scheduling := [Some 0; Some 1; Some 0].
Lemma start5_ok : startable d5 start5.
Proof. apply valid_startable, check_scheduling_ok; [exact d5_fits|exact d5_wf|vm_compute; reflexivity]. Qed.
(** A climb with an improvement, in a search object that has climbed before. *)
Definition climb5 : solution * climber * list event :=
  value (SolInvalid, new_climber, []) (hill_solve Debug P5 w5 false tn1 start5 new_climber).
Lemma climb5_eq : hill_solve Debug P5 w5 false tn1 start5 new_climber = Some (Ok climb5). Proof. vm_compute. reflexivity. Qed.
Lemma climb5_used : used Debug P5 w5 (snd (fst climb5)).
Proof.
  pose proof climb5_eq as E. destruct climb5 as [[sol h] ev]. eapply us_climb; [apply us_new|exact start5_ok|exact E].
Qed.
Example C05_witness : wf_input d5 /\ fits d5 /\ fair (w_hill w5) /\ used Debug P5 w5 (snd (fst climb5)) /\ startable d5 start5 /\
  match hill_solve Debug P5 w5 true tn1 start5 (snd (fst climb5)) with
  | Some (Ok (sol, _, ev)) => sol = SolComplete [Some 0; Some 1; Some 1] [[0; 2]; [0; 1]] /\ length (bests ev) = 2
  | _ => False
  end.
Proof.
  split; [exact d5_wf|]. split; [exact d5_fits|]. split; [apply o_count_fair|]. split; [exact climb5_used|]. split; [exact start5_ok|].
  vm_compute. split; reflexivity.
Qed.

(** The climb ends, whatever the deadline, if the random stream keeps delivering
    every index: beyond some number of turns the result no longer depends on it. *)
Theorem C05_climb_ends :
  forall (pr : profile) (P : problem) (w : world) (deadline : bool) (S : scheduling) (h : climber),
    wf_input (p_input P) -> fits (p_input P) -> fair (w_hill w) -> visits (w_hill w) (length (i_choices (p_input P))) ->
    used pr P w h -> startable (p_input P) S ->
    exists n r, forall tn, n <= tn_swap tn -> n <= tn_climb tn -> hill_solve pr P w deadline tn S h = Some r.
Proof.
  intros pr P w dl S h HW HF HFair HV Hu HS. apply hill_ends; auto; [eapply used_ok; eauto|apply startable_ok; auto].
Qed.
Print Assumptions C05_climb_ends.
Example C05_climb_ends_witness : visits (w_hill w5) (length (i_choices d5)). Proof. exact (o_count_visits 1). Qed.

(** ** C01: whatever a session returns is valid, or "no solution".  Nothing is
    assumed of the LP library. *)
Theorem C01_result_valid :
  forall (pr : profile) (P : problem) (ws : nat -> world) (threads : nat) tr (s : session) (sol : solution),
    wf_input (p_input P) -> fits (p_input P) -> (forall i, fair (w_hill (ws i))) ->
    moves pr P ws (start P threads) tr s -> wait s = Ok sol ->
    sol = SolInvalid \/ exists S A, sol = SolComplete S A /\ valid_solution (p_input P) S A.
Proof.
  intros pr P ws threads tr s sol HW HF HFair M E. pose proof (session_reach pr P ws threads HF HW HFair _ _ M) as HS.
  destruct (result_ok pr P threads s sol HS E) as (Es & Hsc & [Hno|(Hfin & wk & Hwk & _ & Hg & Eb)] & _).
  - left. rewrite Es, Hno. reflexivity.
  - right. destruct (finite_valid _ _ _ _ _ _ HF HW (go_cand _ _ _ Hg) (go_scored _ _ _ Hg)) as (S & A & E1 & HV); [rewrite <- Eb; auto|].
    exists S, A. split; auto. rewrite Es, Eb. auto.
Qed.
Print Assumptions C01_result_valid.
(** For an accepted input. *)
Theorem C01_result_valid_for_input :
  forall (pr pr' : profile) (r : reader) (P : problem) (ws : nat -> world) (threads : nat) tr (s : session) (sol : solution),
    build_input pr' r = Ok (p_input P) -> reader_u32 r -> fits (p_input P) -> (forall i, fair (w_hill (ws i))) ->
    moves pr P ws (start P threads) tr s -> wait s = Ok sol ->
    sol = SolInvalid \/ exists S A, sol = SolComplete S A /\ valid_solution (p_input P) S A.
Proof. intros pr pr' r P ws threads tr s sol Hb Hr. apply C01_result_valid. destruct (build_inv _ _ _ Hb) as (? & ? & ? & B). exact (b_wf _ _ _ _ _ _ B Hr). Qed.
Print Assumptions C01_result_valid_for_input.
(** A session with two workers: the first finds a solution and cancels, the second
    sees that and stops. *)
Definition trace5 : list (option nat * list label) := [(Some 0, [LLoad false; LStart]); (Some 0, [LIterated]); (Some 0, [LCancel]); (Some 1, [LLoad true])].
Definition ws5 : nat -> world := fun _ => w5.
Definition s5 : session := mkSession true [mkWorker WDone (snd (fst it5)) (snd it5); mkWorker WDone new_shotgun []].
Lemma moves5 : moves Debug P5 ws5 (start P5 2) trace5 s5.
Proof.
  unfold trace5. change (start P5 2) with (mkSession false [new_worker; new_worker]).
  pose proof it5_eq as E. assert (EF : score_finite (b_score (sg_best (snd (fst it5)))) = true) by (vm_compute; reflexivity).
  unfold s5. destruct it5 as [[k g] ev]. cbn [fst snd] in *.
  eapply mvs_step; [eapply (mv_worker _ _ _ _ 0); [reflexivity|eapply mv_start]|]. cbn [upd se_workers se_flag existsb orb].
  eapply mvs_step; [eapply (mv_worker _ _ _ _ 0); [reflexivity|eapply mv_iterate; exact E]|]. cbn [upd se_workers se_flag existsb orb app].
  eapply mvs_step; [eapply (mv_worker _ _ _ _ 0); [reflexivity|apply mv_success]|].
  { cbn [p_any P5 andb]. exact EF. }
  cbn [upd se_workers se_flag existsb orb app].
  eapply mvs_step; [eapply (mv_worker _ _ _ _ 1); [reflexivity|apply (mv_stop _ _ _ _ _ _ true false); reflexivity]|]. cbn [upd se_workers se_flag existsb orb app].
  constructor.
Qed.
Example C01_witness : reader_u32 r5 /\ (forall i, fair (w_hill (ws5 i))) /\ moves Debug P5 ws5 (start P5 2) trace5 s5 /\
  wait s5 = Ok (SolComplete [Some 0; Some 1; Some 1] [[0; 2]; [0; 1]]).
Proof.
  split; [|split; [intros i; apply o_count_fair|split; [exact moves5|vm_compute; reflexivity]]].
  constructor; cbn.
  - intros p [<-|[<-|[<-|[]]]]; cbn; unfold u32_max; lia.
  - intros p x [<-|[<-|[]]] Hx; cbn in Hx; unfold u32_max; repeat (destruct Hx as [<-|Hx]; [lia|]); destruct Hx.
Qed.

(** ** C04: the result is the best candidate.  [hc_found] lists every solution the
    worker's assignment solver has produced, [wk_events] what the worker has
    published. *)
Theorem C04_result_is_best :
  forall (pr : profile) (P : problem) (ws : nat -> world) (threads : nat) tr (s : session) (sol : solution),
    wf_input (p_input P) -> fits (p_input P) -> (forall i, fair (w_hill (ws i))) ->
    moves pr P ws (start P threads) tr s -> wait s = Ok sol ->
    exists sc, score_of pr P sol = Ok sc /\
      (sol = SolInvalid \/ score_finite sc = true /\ exists wk, In wk (se_workers s) /\ In sol (hc_found (sg_climber (wk_gun wk)))) /\
      (forall wk c sc', In wk (se_workers s) -> In c (hc_found (sg_climber (wk_gun wk))) -> score_of pr P c = Ok sc' -> score_lt sc' sc = false) /\
      (forall wk b, In wk (se_workers s) -> In b (bests (wk_events wk)) -> score_lt (b_score b) sc = false) /\
      (sol = SolInvalid -> forall wk c sc', In wk (se_workers s) -> In c (hc_found (sg_climber (wk_gun wk))) -> score_of pr P c = Ok sc' -> score_finite sc' = false).
Proof.
  intros pr P ws threads tr s sol HW HF HFair M E. pose proof (session_reach pr P ws threads HF HW HFair _ _ M) as HS.
  destruct (result_ok pr P threads s sol HS E) as (Es & Hsc & Hor & Hmin).
  set (b := shown no_best (map (fun wk => sg_best (wk_gun wk)) (se_workers s))) in *.
  assert (Hmin' : forall wk c sc', In wk (se_workers s) -> In c (hc_found (sg_climber (wk_gun wk))) -> score_of pr P c = Ok sc' -> score_lt sc' (b_score b) = false).
  { intros wk c sc' H1 H2 H3. apply score_le_not_lt. eapply Hmin; eauto. }
  exists (b_score b). rewrite Es. split; [exact Hsc|]. split; [|split; [exact Hmin'|split]].
  - destruct Hor as [->|(Hfin & wk & Hwk & Hin & _)]; [left; reflexivity|]. right. split; auto. exists wk. rewrite <- Es. auto.
  - intros wk x Hwk Hx. apply score_le_not_lt. destruct (proj2 HS wk Hwk) as [Hg Ht _ Hs].
    assert (Ex : score_le (b_score (sg_best (wk_gun wk))) (b_score x)).
    { apply (f_equal tp_best) in Ht. rewrite fold_best in Ht. cbn [tp_best table empty_progress] in Ht. rewrite <- Ht.
      apply (shown_ok (p_greedy P)); auto; [apply infinite_mode|]. intros y Hy. eapply scored_mode, Hs; eauto. }
    apply (le_trans_mode (p_greedy P) _ (b_score (sg_best (wk_gun wk)))); auto.
    + eapply scored_mode; eauto.
    + eapply scored_mode, go_scored; eauto.
    + eapply scored_mode, Hs; eauto.
    + apply (shown_ok (p_greedy P)); [apply infinite_mode|intros y Hy; eapply gun_mode; eauto|]. apply in_map_iff. eauto.
  - intros F wk c sc' H1 H2 H3. destruct (score_finite sc') eqn:EF; auto. exfalso.
    destruct Hor as [Hno|(Hfin & _)].
    + specialize (Hmin' wk c sc' H1 H2 H3). rewrite Hno in Hmin'. apply score_not_lt in Hmin'. apply score_le_finite in Hmin'; auto. discriminate.
    + unfold scored in Hsc. rewrite F in Hsc. cbn in Hsc. apply ok_inj in Hsc. rewrite <- Hsc in Hfin. discriminate.
Qed.
Print Assumptions C04_result_is_best.
Example C04_witness : moves Debug P5 ws5 (start P5 2) trace5 s5 /\ (forall i, fair (w_hill (ws5 i))) /\
  wait s5 = Ok (SolComplete [Some 0; Some 1; Some 1] [[0; 2]; [0; 1]]) /\
  exists wk, In wk (se_workers s5) /\ length (hc_found (sg_climber (wk_gun wk))) = 27.
Proof.
  split; [exact moves5|]. split; [intros i; apply o_count_fair|]. split; [vm_compute; reflexivity|].
  exists (mkWorker WDone (snd (fst it5)) (snd it5)). split; [left; reflexivity|]. vm_compute. reflexivity.
Qed.

(** ** C35, C55: progress reports.  [chunks] are the events that arrived before
    each poll, interleaved in any way; of each worker they are, together, a prefix
    of what it has sent by the last poll. *)
Lemma from_workers_prefix s a b : from_workers s (a ++ b) -> from_workers s a.
Proof. intros H i wk E. destruct (H i wk E) as (c & Hc). rewrite sent_app in Hc. exists (sent i b ++ c). rewrite app_assoc. auto. Qed.
Lemma concat_firstn {A} (l : list (list A)) j k : j <= k -> exists r, concat (firstn k l) = concat (firstn j l) ++ r.
Proof.
  intros H. exists (concat (firstn (k - j) (skipn j l))). rewrite <- concat_app. f_equal.
  revert k l H. induction j as [|j IH]; intros k l H; [rewrite Nat.sub_0_r; reflexivity|]. destruct k as [|k]; [lia|]. destruct l as [|x l]; [destruct (S k - S j); reflexivity|].
  cbn [firstn skipn app]. replace (S k - S j) with (k - j) by lia. rewrite <- IH; auto. lia.
Qed.
Lemma all_from s log : all_from_workers s log -> from_workers s log.
Proof. intros H i wk E. exists []. rewrite (H i wk E), app_nil_r. auto. Qed.
Theorem C35_progress_monotone :
  forall (pr : profile) (P : problem) (ws : nat -> world) (threads : nat) tr (s : session) chunks j k p q,
    wf_input (p_input P) -> fits (p_input P) -> (forall i, fair (w_hill (ws i))) ->
    moves pr P ws (start P threads) tr s -> from_workers s (concat chunks) ->
    j <= k -> nth_error (polls (empties s) chunks) j = Some p -> nth_error (polls (empties s) chunks) k = Some q ->
    score_lt (b_score (tp_best p)) (b_score (tp_best q)) = false.
Proof.
  intros pr P ws threads tr s chunks j k p q HW HF HFair M HL Hjk Hp Hq. pose proof (session_reach pr P ws threads HF HW HFair _ _ M) as HS.
  apply polls_nth in Hp as ->, Hq as ->. destruct (concat_firstn chunks (S j) (S k)) as (r & Er); [lia|].
  assert (HP : from_workers s (concat (firstn (S j) chunks) ++ r)).
  { rewrite <- Er. rewrite <- (firstn_skipn (S k) chunks), concat_app in HL. eapply from_workers_prefix; eauto. }
  rewrite Er. apply score_le_not_lt. apply (report_mono pr P threads s _ r HS HP).
Qed.
Print Assumptions C35_progress_monotone.
(** Once everything the finished workers sent has arrived, the report shows the
    returned solution with its score, and the counters add up. *)
Theorem C35_progress_ends_at_result :
  forall (pr : profile) (P : problem) (ws : nat -> world) (threads : nat) tr (s : session) (sol : solution) chunks p,
    wf_input (p_input P) -> fits (p_input P) -> (forall i, fair (w_hill (ws i))) ->
    moves pr P ws (start P threads) tr s -> wait s = Ok sol -> all_from_workers s (concat chunks) ->
    nth_error (polls (empties s) chunks) (length chunks - 1) = Some p ->
    b_sol (tp_best p) = sol /\ score_of pr P sol = Ok (b_score (tp_best p)) /\
    tp_iterations p = list_sum (map (fun wk => sg_iterations (wk_gun wk)) (se_workers s)) /\
    tp_assignments p = list_sum (map (fun wk => hc_assignments (sg_climber (wk_gun wk))) (se_workers s)).
Proof.
  intros pr P ws threads tr s sol chunks p HW HF HFair M HWt HA Hp. pose proof (session_reach pr P ws threads HF HW HFair _ _ M) as HS.
  destruct (result_ok pr P threads s sol HS HWt) as (Es & Hsc & _). destruct chunks as [|c chunks]; [discriminate|].
  apply polls_nth in Hp. replace (S (length (c :: chunks) - 1)) with (length (c :: chunks)) in Hp by (cbn [length]; lia). rewrite firstn_all in Hp.
  pose proof (report_final pr P threads s _ HS HA) as HR. rewrite HR in Hp. subst p. cbn [tp_best tp_iterations tp_assignments].
  split; auto. split; auto. rewrite Es. exact Hsc.
Qed.
Print Assumptions C35_progress_ends_at_result.
Theorem C55_counters_and_shown_solution :
  forall (pr : profile) (P : problem) (ws : nat -> world) (threads : nat) tr (s : session) chunks j k p q,
    wf_input (p_input P) -> fits (p_input P) -> (forall i, fair (w_hill (ws i))) ->
    moves pr P ws (start P threads) tr s -> from_workers s (concat chunks) ->
    j <= k -> nth_error (polls (empties s) chunks) j = Some p -> nth_error (polls (empties s) chunks) k = Some q ->
    tp_iterations p <= tp_iterations q /\ tp_assignments p <= tp_assignments q /\
    score_of pr P (b_sol (tp_best q)) = Ok (b_score (tp_best q)).
Proof.
  intros pr P ws threads tr s chunks j k p q HW HF HFair M HL Hjk Hp Hq. pose proof (session_reach pr P ws threads HF HW HFair _ _ M) as HS.
  apply polls_nth in Hp as ->, Hq as ->. destruct (concat_firstn chunks (S j) (S k)) as (r & Er); [lia|].
  assert (HP : from_workers s (concat (firstn (S j) chunks) ++ r)).
  { rewrite <- Er. rewrite <- (firstn_skipn (S k) chunks), concat_app in HL. eapply from_workers_prefix; eauto. }
  rewrite Er. apply (report_mono pr P threads s _ r HS HP).
Qed.
Print Assumptions C55_counters_and_shown_solution.
(** The hypotheses of C35 and C55 met: two polls, the first after one event of the
    first worker, the second after all. *)
Definition log5 : list (nat * event) := map (pair 0) (snd it5).
Definition chunks5 : list (list (nat * event)) := [firstn 2 log5; skipn 2 log5].
Example C35_witness : all_from_workers s5 (concat chunks5) /\ from_workers s5 (concat chunks5) /\
  exists p q, nth_error (polls (empties s5) chunks5) 0 = Some p /\ nth_error (polls (empties s5) chunks5) 1 = Some q /\
    tp_assignments p = 1 /\ b_sol (tp_best p) = SolComplete [Some 0; Some 1; Some 0] [[2; 1]; [0; 1]] /\
    tp_assignments q = 27 /\ tp_iterations q = 1 /\ b_sol (tp_best q) = SolComplete [Some 0; Some 1; Some 1] [[0; 2]; [0; 1]] /\
    score_lt (b_score (tp_best q)) (b_score (tp_best p)) = true.
Proof.
  assert (H : all_from_workers s5 (concat chunks5)).
  { intros i wk E. unfold s5 in E. destruct i as [|[|i]]; cbn [nth_error se_workers] in E; [| |destruct i; discriminate E]; apply some_inj in E; subst wk; vm_compute; reflexivity. }
  split; auto. split; [apply all_from; auto|]. eexists. eexists. split; [reflexivity|]. split; [reflexivity|]. vm_compute. repeat split; reflexivity.
Qed.

(** ** C43: cancellation.  A worker that reads the flag as set does nothing any
    more; only a worker that has found a finite-score solution sets it, every
    such worker does with --any, and if one did, the session's result is finite. *)
Theorem C43_observed_cancellation_stops :
  forall (pr : profile) (P : problem) (ws : nat -> world) (threads : nat) before i ls after (s : session),
    moves pr P ws (start P threads) (before ++ (Some i, ls) :: after) s -> In (LLoad true) ls ->
    forall ls', ~ In (Some i, ls') after.
Proof. intros. eapply observed_stops; eauto. Qed.
Print Assumptions C43_observed_cancellation_stops.
Theorem C43_success_cancels :
  forall (pr : profile) (P : problem) (w : world) (flag : bool) k g ev ls wk',
    p_any P = true -> score_finite (b_score (sg_best g)) = true ->
    wmove pr P w flag (mkWorker (WAfter k) g ev) ls wk' -> ls = [LCancel] /\ wk' = mkWorker WDone g ev.
Proof.
  intros pr P w flag k g ev ls wk' H1 H2 M. inversion M; subst; auto; rewrite H1, H2 in *; discriminate.
Qed.
Print Assumptions C43_success_cancels.
Theorem C43_success_is_returned :
  forall (pr : profile) (P : problem) (ws : nat -> world) (threads : nat) tr (s : session) (sol : solution) i ls,
    wf_input (p_input P) -> fits (p_input P) -> (forall i, fair (w_hill (ws i))) ->
    moves pr P ws (start P threads) tr s -> wait s = Ok sol -> In (Some i, ls) tr -> In LCancel ls ->
    p_any P = true /\ exists sc, score_of pr P sol = Ok sc /\ score_finite sc = true.
Proof.
  intros pr P ws threads tr s sol i ls HW HF HFair M HWt Hin HC. pose proof (session_reach pr P ws threads HF HW HFair _ _ M) as HS.
  apply in_split in Hin as (t1 & t2 & ->). apply moves_split in M as (m & M1 & M2). inversion M2 as [|s0 l0 s1 tr0 s2 MM M3]; subst.
  destruct (worker_cancels _ _ _ _ _ _ _ MM HC) as (Hany & wk & E & HD & Hfin). split; auto.
  destruct (done_stays _ _ _ _ _ _ _ _ M3 E HD) as [E' _].
  destruct (result_ok pr P threads s sol HS HWt) as (Es & Hsc & _). exists (b_score (shown no_best (map (fun wk => sg_best (wk_gun wk)) (se_workers s)))).
  rewrite Es. split; [exact Hsc|]. eapply score_le_finite; [|exact Hfin].
  apply (shown_ok (p_greedy P)); [apply infinite_mode|intros x Hx; eapply gun_mode; eauto|]. apply in_map_iff. exists wk. split; auto. eapply nth_error_In; eauto.
Qed.
Print Assumptions C43_success_is_returned.
Example C43_witness : moves Debug P5 ws5 (start P5 2) (([(Some 0, [LLoad false; LStart]); (Some 0, [LIterated]); (Some 0, [LCancel])]) ++ (Some 1, [LLoad true]) :: []) s5 /\
  In (Some 0, [LCancel]) trace5 /\ p_any P5 = true /\ wait s5 = Ok (SolComplete [Some 0; Some 1; Some 1] [[0; 2]; [0; 1]]).
Proof. split; [exact moves5|]. split; [cbn; auto|]. split; [reflexivity|]. vm_compute. reflexivity. Qed.

(** ** C56: if reads of the flag are up to date, after a cancellation (by a worker
    or the caller) no worker starts an iteration, and each makes at most three
    more moves (finishes its iteration, leaves the loop). *)
Theorem C56_stop_after_cancellation :
  forall (pr : profile) (P : problem) (ws : nat -> world) (threads : nat) before i ls after (s : session),
    moves pr P ws (start P threads) ((before ++ [(i, ls)]) ++ after) s -> fresh_reads false ((before ++ [(i, ls)]) ++ after) -> In LCancel ls ->
    (forall j ls', In (j, ls') after -> ~ In LStart ls') /\ forall j, moves_of j after <= 3.
Proof.
  intros pr P ws threads before i ls after s M HR HC. eapply after_cancel; eauto; [reflexivity|].
  rewrite existsb_app. cbn [existsb snd]. rewrite orb_false_r. apply orb_true_iff. right. unfold cancels. apply existsb_exists. exists LCancel. auto.
Qed.
Print Assumptions C56_stop_after_cancellation.
Example C56_witness : moves Debug P5 ws5 (start P5 2) (([(Some 0, [LLoad false; LStart]); (Some 0, [LIterated])] ++ [(Some 0, [LCancel])]) ++ [(Some 1, [LLoad true])]) s5 /\
  fresh_reads false (([(Some 0, [LLoad false; LStart]); (Some 0, [LIterated])] ++ [(Some 0, [LCancel])]) ++ [(Some 1, [LLoad true])]).
Proof.
  split; [exact moves5|]. cbn. repeat split; intros seen H; repeat (destruct H as [H|H]; [congruence|]); destruct H.
Qed.
(** Together: with --any and up-to-date reads of the flag, once a worker's iteration
    has left it with a solution, its next move stops everyone: no worker starts
    another iteration, and each moves at most three more times. *)
Theorem C43_success_stops_everyone :
  forall (pr : profile) (P : problem) (ws : nat -> world) (threads : nat) before (s0 : session) i ls (s1 : session) after (s : session) wk k,
    p_any P = true ->
    moves pr P ws (start P threads) before s0 -> nth_error (se_workers s0) i = Some wk -> wk_pc wk = WAfter k ->
    score_finite (b_score (sg_best (wk_gun wk))) = true ->
    move pr P ws s0 (Some i, ls) s1 -> moves pr P ws s1 after s -> fresh_reads false (before ++ (Some i, ls) :: after) ->
    (forall j ls', In (j, ls') after -> ~ In LStart ls') /\ forall j, moves_of j after <= 3.
Proof.
  intros pr P ws threads before s0 i ls s1 after s wk k HA M0 E EP HF M1 M2 HR.
  assert (EL : ls = [LCancel]).
  { inversion M1 as [s2 i2 wk2 ls2 wk' E2 W|]; subst. rewrite E in E2. injection E2 as <-. destruct wk as [pc g ev]. cbn in EP, HF. subst pc.
    apply (C43_success_cancels _ _ _ _ _ _ _ _ _ HA HF W). }
  replace (before ++ (Some i, ls) :: after) with ((before ++ [(Some i, ls)]) ++ after) in HR by (rewrite <- app_assoc; reflexivity).
  eapply (C56_stop_after_cancellation pr P ws threads before (Some i) ls after s); auto.
  - rewrite <- app_assoc. clear - M0 M1 M2. induction M0; cbn [app]; econstructor; eauto. 
  - rewrite EL. left. reflexivity.
Qed.
Print Assumptions C43_success_stops_everyone.
Example C43_stops_witness :
  p_any P5 = true /\ moves Debug P5 ws5 (start P5 2) [(Some 0, [LLoad false; LStart]); (Some 0, [LIterated])]
    (mkSession false [mkWorker (WAfter (fst (fst it5))) (snd (fst it5)) (snd it5); new_worker]) /\
  score_finite (b_score (sg_best (snd (fst it5)))) = true.
Proof.
  split; [reflexivity|]. split; [|vm_compute; reflexivity].
  change (start P5 2) with (mkSession false [new_worker; new_worker]). pose proof it5_eq as E. destruct it5 as [[k g] ev]. cbn [fst snd] in *.
  eapply mvs_step; [eapply (mv_worker _ _ _ _ 0); [reflexivity|eapply mv_start]|]. cbn [upd se_workers se_flag existsb orb].
  eapply mvs_step; [eapply (mv_worker _ _ _ _ 0); [reflexivity|eapply mv_iterate; exact E]|]. cbn [upd se_workers se_flag existsb orb app].
  constructor.
Qed.

(** ** C52: a session never panics and [wait] gives a solution (or "no solution")
    once the workers have finished. *)
Theorem C52_session_never_panics :
  forall (pr : profile) (P : problem) (ws : nat -> world) (threads : nat) tr (s : session),
    roomy pr P -> working ws -> moves pr P ws (start P threads) tr s ->
    (forall wk, In wk (se_workers s) -> wk_pc wk <> WCrashed) /\
    ((forall wk, In wk (se_workers s) -> wk_pc wk = WDone) -> exists sol, wait s = Ok sol).
Proof.
  intros pr P ws threads tr s HR HWk M. split.
  - intros wk Hin. apply (session_safe pr P HR ws threads tr s HWk M wk Hin).
  - intros HD. unfold wait, join_all. rewrite join_done; auto. eauto.
Qed.
Print Assumptions C52_session_never_panics.
Lemma ws5_working : working ws5.
Proof.
  intros i. split; [apply exact_honest, brute_exact|]. split; apply o_count_fair.
Qed.
Example C52_witness : roomy Debug P5 /\ working ws5 /\ moves Debug P5 ws5 (start P5 2) trace5 s5 /\ (forall wk, In wk (se_workers s5) -> wk_pc wk = WDone).
Proof.
  split; [exact P5_roomy|]. split; [exact ws5_working|]. split; [exact moves5|]. intros wk [<-|[<-|[]]]; reflexivity.
Qed.

(** ** C53: no worker gets stuck: until it has left its loop it can make a move
    (an iteration ends), if the random streams keep delivering every index. *)
Theorem C53_workers_never_stuck :
  forall (pr : profile) (P : problem) (ws : nat -> world) (threads : nat) tr (s : session) i wk,
    roomy pr P -> working ws -> (forall i, visits (w_hill (ws i)) (length (i_choices (p_input P)))) ->
    moves pr P ws (start P threads) tr s -> nth_error (se_workers s) i = Some wk -> wk_pc wk <> WDone ->
    exists ls s', move pr P ws s (Some i, ls) s'.
Proof.
  intros pr P ws threads tr s i wk HR HWk HV M E HD.
  assert (HS : session_ok pr P threads s) by (apply (session_reach pr P ws threads (ro_fits _ _ HR) (ro_wf _ _ HR) (fun i => proj1 (proj2 (HWk i))) _ _ M)).
  destruct (session_safe pr P HR ws threads tr s HWk M wk (nth_error_In _ _ E)) as [_ HC].
  assert (G : exists ls wk', wmove pr P (ws i) (se_flag s) wk ls wk').
  { destruct wk as [pc g ev]. destruct pc as [| |k| |]; cbn in HD, HC; try congruence.
    - eexists. eexists. apply mv_start.
    - destruct (HWk i) as (_ & H2 & H3). pose proof (wo_gun _ _ _ (proj2 HS _ (nth_error_In _ _ E))) as Hg.
      destruct (iterate_ends pr P (ws i) true g HR H2 H3 (HV i) Hg) as (n & r & Hr). specialize (Hr (mkTurns n n n n) (le_n _) (le_n _) (le_n _) (le_n _)).
      destruct r as [[[k g'] ev']|m|]; [eexists; eexists; eapply mv_iterate; eauto| |]; (eexists; eexists; eapply mv_crash; [eauto|discriminate]).
    - destruct (p_any P && score_finite (b_score (sg_best g))) eqn:E1; [eexists; eexists; apply mv_success; auto|].
      destruct ((length (i_slots (p_input P)) =? 1)%nat || (k <? 1)%nat) eqn:E2; eexists; eexists; [apply mv_last; auto|apply mv_again; auto]. }
  destruct G as (ls & wk' & G). eexists. eexists. eapply mv_worker; eauto.
Qed.
Print Assumptions C53_workers_never_stuck.
Example C53_witness : roomy Debug P5 /\ working ws5 /\ (forall i, visits (w_hill (ws5 i)) (length (i_choices (p_input P5)))) /\
  exists wk, nth_error (se_workers (start P5 2)) 1 = Some wk /\ wk_pc wk <> WDone.
Proof.
  split; [exact P5_roomy|]. split; [exact ws5_working|]. split; [intros i; exact (o_count_visits 1)|]. exists new_worker. split; [reflexivity|discriminate].
Qed.

(** ** C54: without a deadline and with room for all moves, local search stops at a
    scheduling no single move improves: for every valid one-move neighbour the
    assignment solver was asked, and its answer did not score better. *)
Theorem C54_local_optimum :
  forall (pr : profile) (P : problem) (w : world) (tn : turns) (S : scheduling) (h : climber) (S1 : scheduling) (A : assignment) (h' : climber) (ev : list event),
    wf_input (p_input P) -> fits (p_input P) -> totals_fit (p_input P) -> fair (w_hill w) -> used pr P w h -> startable (p_input P) S ->
    hill_solve pr P w false tn S h = Some (Ok (SolComplete S1 A, h', ev)) ->
    2 * (length (i_choices (p_input P)) * length (i_slots (p_input P))) < p_max_neighbors P ->
    exists sc, score_of pr P (SolComplete S1 A) = Ok sc /\
      forall S2, one_move (p_input P) S1 S2 -> valid_scheduling (p_input P) S2 ->
        exists cand, In cand (hc_found h') /\ (cand = SolScheduling S2 \/ exists B, cand = SolComplete S2 B) /\
          forall sc2, score_of pr P cand = Ok sc2 -> score_lt sc2 sc = false.
Proof.
  intros pr P w tn S h S1 A h' ev HW HF HT HFair Hu HS H Hmax. pose proof (used_ok _ _ _ _ HF HW HFair Hu) as Hh. apply startable_ok in HS.
  destruct (hill_local_optimum _ _ _ _ _ _ _ _ _ _ _ HF HW HFair Hh HS H eq_refl Hmax) as (sc & Esc & Hall). exists sc. split; auto.
  intros S2 Hm HV. destruct (sched_is_feasible_exact pr (p_input P) S2 HF HW (vs_length _ _ HV) (vs_range _ _ HV) (totals_sums _ _ HT (vs_length _ _ HV))) as (b & E & HB).
  rewrite (proj2 HB HV) in E. destruct (Hall S2 Hm E) as (cand & H1 & H2 & H3). exists cand. split; auto. split.
  - destruct cand; cbn in H2; try discriminate; injection H2 as ->; eauto.
  - intros sc2 E2. apply score_le_not_lt. auto.
Qed.
Print Assumptions C54_local_optimum.
Example C54_witness : totals_fit d5 /\ used Debug P5 w5 new_climber /\ startable d5 start5 /\
  (exists h' ev, hill_solve Debug P5 w5 false tn1 start5 new_climber = Some (Ok (SolComplete [Some 0; Some 1; Some 1] [[0; 2]; [0; 1]], h', ev))) /\
  2 * (length (i_choices d5) * length (i_slots d5)) < p_max_neighbors P5 /\
  one_move d5 [Some 0; Some 1; Some 1] [Some 0; Some 1; None] /\ valid_scheduling d5 [Some 0; Some 1; None].
Proof.
  split; [apply (sr_totals _ d5_searchable)|]. split; [constructor|]. split; [exact start5_ok|]. split; [|split; [vm_compute; lia|split; [|exact S5_valid]]].
  - exists (snd (fst climb5)), (snd climb5). rewrite climb5_eq. assert (E : fst (fst climb5) = SolComplete [Some 0; Some 1; Some 1] [[0; 2]; [0; 1]]) by (vm_compute; reflexivity).
    destruct climb5 as [[? ?] ?]. cbn [fst snd] in *. subst. reflexivity.
  - split; [reflexivity|]. exists 2. split; [vm_compute; lia|]. split; [cbn; congruence|]. split; [unfold scheduled_in; cbn; congruence|].
    intros c Hc. destruct c as [|[|[|c]]]; auto; congruence.
Qed.
