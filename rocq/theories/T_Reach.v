(** Property theorems about which schedulings a session can come to: C85.
    Vocabulary: Spec_Reach.v ([reached], [drawn], [tried]), T_Climb.v. *)
From Verif Require Import Base M_Data Spec M_Scoring P_Scoring P_Feasible P_Check M_Build Spec_Input Spec_Score M_Rng P_Rng M_Critical Spec_Search M_Search P_Sums P_Search1 P_Search3 P_Search5 P_Search6 P_Built
  T_Input T_Search M_Flow Spec_Flow Spec_Calls P_Brute T_Flow T_Best M_Climb M_Threads Spec_Climb Spec_Threads P_Climb1 P_Climb2 P_Climb5 P_Threads P_Climb6 T_Climb P_Exact T_Exact Spec_Reach P_Reach.
From Coq Require Import Permutation String.
Notation length := Datatypes.length. Notation get := Base.get.
Import ListNotations.
Open Scope string_scope.
Open Scope list_scope.

(** ** C85.  Whatever a session tries, and the scheduling of its result, arises
    from a scheduling that the scheduling search delivered by moves of single
    choices and swaps. *)
Theorem C85_tried_schedulings_are_reached :
  forall (pr : profile) (P : problem) (ws : nat -> world) (threads : nat) tr (s : session) (sol : solution),
    wf_input (p_input P) -> fits (p_input P) -> pr = Debug \/ totals_fit (p_input P) ->
    (forall i, fair (w_hill (ws i))) -> (forall i, fair (w_sched (ws i))) ->
    moves pr P ws (start P threads) tr s ->
    (forall S, tried s S -> reached (p_input P) (drawn pr P ws) S) /\
    (wait s = Ok sol -> sol = SolInvalid \/ exists S A, sol = SolComplete S A /\ reached (p_input P) (drawn pr P ws) S).
Proof.
  intros pr P ws threads tr s sol HW HF HT HFH HFS M.
  assert (HV : forall S, length S = length (i_choices (p_input P)) -> (forall c x, scheduled_in S c x -> x < length (i_slots (p_input P))) ->
                 sched_is_feasible pr (p_input P) S = Ok true -> valid_scheduling (p_input P) S).
  { intros S HL HR Hfe. destruct HT as [-> |Ht]; [apply (sched_is_feasible_debug _ S HF HW HL Hfe)|].
    destruct (sched_is_feasible_exact pr _ S HF HW HL HR (totals_sums _ _ Ht HL)) as (b & E & HB). apply HB. congruence. }
  set (Q := fun S => reached (p_input P) (drawn pr P ws) S /\ Spec_Calls.shaped (p_input P) S).
  assert (HD : forall S, drawn pr P ws S -> Q S).
  { intros S HS. split; [apply rc_from; exact HS|]. destruct HS as (i & tn & t & n & E & En).
    destruct (next_feasible _ _ _ _ _ _ _ _ _ _ _ E En) as [HL Hfe]. split; auto.
    apply (feasible_ok _ _ _ HF HW HL Hfe). }
  assert (HN : forall i S sw max t res t', Q S -> pick_neighbors pr (p_input P) (w_hill (ws i)) sw max S t = Some (Ok (res, t')) -> forall n, In n res -> Q n).
  { intros i S sw max t res t' [HR HS] E n Hn. destruct (pick_neighbors_ok _ _ _ _ _ _ _ _ _ (HFH i) HS E) as (H1 & _). destruct (H1 n Hn) as (HSn & Hfe & H2).
    split; auto. pose proof (HV n (proj1 HSn) (proj2 HSn) Hfe) as Hv. destruct H2 as [H2|(cy & C1 & C2 & C3)]; [eapply rc_move; eauto|eapply rc_swap; eauto]. }
  split.
  - intros S HS. apply (tried_q pr P ws Q HD HN threads tr s S M HS).
  - intros Hw. destruct (result_q pr P ws Q HD HN threads tr s sol M Hw) as [E|(S & ES & [HR _])]; auto.
    destruct (C01_result_valid pr P ws threads tr s sol HW HF HFH M Hw) as [E|(S' & A & E & _)]; auto. right. exists S', A. split; auto. rewrite E in ES. cbn in ES. congruence.
Qed.
Print Assumptions C85_tried_schedulings_are_reached.
(** Witness: the session of C01 (two choosers, an optional choice). *)
Example C85_reached_witness : wf_input d5 /\ fits d5 /\ totals_fit d5 /\ working ws5 /\ moves Debug P5 ws5 (start P5 2) trace5 s5 /\
  (exists S, tried s5 S) /\ wait s5 = Ok (SolComplete [Some 0; Some 1; Some 1] [[0; 2]; [0; 1]]).
Proof.
  split; [exact (ro_wf _ _ P5_roomy)|]. split; [exact (ro_fits _ _ P5_roomy)|]. split; [exact (sr_totals _ (ro_search _ _ P5_roomy))|].
  split; [exact ws5_working|]. split; [exact moves5|]. split; [|vm_compute; reflexivity].
  unfold tried. assert (E : match hc_found (sg_climber (snd (fst it5))) with sol :: _ => is_some (sol_scheduling sol) | [] => false end = true) by (vm_compute; reflexivity).
  unfold s5. revert E. generalize (snd (fst it5)) (snd it5). intros g ev E. destruct (hc_found (sg_climber g)) as [|sol l] eqn:Ef; [discriminate|].
  destruct (sol_scheduling sol) as [S|] eqn:ES; [|discriminate]. exists S, (mkWorker WDone g ev), sol. split; [left; reflexivity|]. split; auto. cbn [wk_gun]. rewrite Ef. left. reflexivity.
Qed.

(** Full statement: "to find the global optimum we simply repeat the hill
    climbing": some course of the random draws leads to the best solution.  Proved
    part: if there is only one valid scheduling, a worker that completed an
    iteration has tried it. *)
Theorem C85_only_scheduling_is_tried_partial :
  forall (pr : profile) (P : problem) (ws : nat -> world) (threads : nat) tr (s : session) (T : scheduling) (wk : worker),
    wf_input (p_input P) -> fits (p_input P) -> pr = Debug \/ totals_fit (p_input P) ->
    (forall i, fair (w_hill (ws i))) -> (forall i, fair (w_sched (ws i))) ->
    (forall S, valid_scheduling (p_input P) S -> S = T) ->
    moves pr P ws (start P threads) tr s -> In wk (se_workers s) -> 0 < sg_iterations (wk_gun wk) ->
    tried s T /\ forall S, tried s S -> S = T.
Proof.
  intros pr P ws threads tr s T wk HW HF HT HFH HFS HU M Hwk Hit.
  assert (HV : forall S, length S = length (i_choices (p_input P)) -> (forall c x, scheduled_in S c x -> x < length (i_slots (p_input P))) ->
                 sched_is_feasible pr (p_input P) S = Ok true -> valid_scheduling (p_input P) S).
  { intros S HL HR Hfe. destruct HT as [-> |Ht]; [apply (sched_is_feasible_debug _ S HF HW HL Hfe)|].
    destruct (sched_is_feasible_exact pr _ S HF HW HL HR (totals_sums _ _ Ht HL)) as (b & E & HB). apply HB. congruence. }
  set (Q := fun S => S = T /\ Spec_Calls.shaped (p_input P) S).
  assert (HD : forall S, drawn pr P ws S -> Q S).
  { intros S (i & tn & t & n & E & En). destruct (next_feasible _ _ _ _ _ _ _ _ _ _ _ E En) as [HL Hfe].
    pose proof (proj1 (feasible_ok _ _ _ HF HW HL Hfe)) as HS. split; auto. apply HU, HV; auto; apply HS. }
  assert (HN : forall i S sw max t res t', Q S -> pick_neighbors pr (p_input P) (w_hill (ws i)) sw max S t = Some (Ok (res, t')) -> forall n, In n res -> Q n).
  { intros i S sw max t res t' [_ HS] E n Hn. destruct (pick_neighbors_ok _ _ _ _ _ _ _ _ _ (HFH i) HS E) as (H1 & _). destruct (H1 n Hn) as (HSn & Hfe & _).
    split; auto. apply HU, HV; auto; apply HSn. }
  destruct (session_q pr P ws Q HD HN threads tr s M wk Hwk) as (_ & G2 & G3). specialize (G3 Hit).
  split; [|intros S HS; apply (tried_q pr P ws Q HD HN threads tr s S M HS)].
  destruct (hc_found (sg_climber (wk_gun wk))) as [|sol l] eqn:E; [congruence|]. destruct (G2 sol) as (S & ES & -> & _); [rewrite E; left; reflexivity|].
  exists wk, sol. split; auto. split; auto. rewrite E. left. reflexivity.
Qed.
Print Assumptions C85_only_scheduling_is_tried_partial.
(** Witness: the session of C64. *)
Example C85_only_scheduling_witness : wf_input d64 /\ fits d64 /\ totals_fit d64 /\ working ws5 /\
  (forall S, valid_scheduling d64 S -> S = [Some 0; Some 0]) /\
  moves Debug P64 ws5 (start P64 4) trace64 s64 /\ (forall wk, In wk (se_workers s64) -> 0 < sg_iterations (wk_gun wk)) /\ se_workers s64 <> [].
Proof.
  split; [exact (ro_wf _ _ P64_roomy)|]. split; [exact (ro_fits _ _ P64_roomy)|]. split; [exact (sr_totals _ (ro_search _ _ P64_roomy))|]. split; [exact ws5_working|].
  split. { intros S HV. apply (single_unique d64); auto; [intros ch H; vm_compute in H; destruct H as [<-|[<-|[]]]; reflexivity|].
    assert (W : valid_solution d64 [Some 0; Some 0] [[0]; [1]; [1]]) by (apply check_solution_ok; [exact (ro_fits _ _ P64_roomy)|exact (ro_wf _ _ P64_roomy)|vm_compute; reflexivity]). apply W. }
  split; [exact moves64|]. split; [|discriminate].
  assert (E : sg_iterations (snd (fst it64)) = 1) by (vm_compute; reflexivity). unfold s64. revert E. generalize (snd (fst it64)) (snd it64). intros g ev E wk [<-|[]]. cbn [wk_gun]. lia.
Qed.

(** False in general.  Two slots; a, b, e must be in one slot, c in s, d in t.
    There are two valid schedulings: a, b, e with c, or with d.  b has most
    constraints, so it is placed first, and always into the first slot; from there
    a, b, e cannot be moved one by one, nor by exchanging slots.  So every session,
    whatever the draws, the number of workers and the time, tries only the first
    scheduling, although the other one admits a solution that scores better than
    all solutions of the first. *)
Definition same_slot (x y : string) : expr := mkE (acc_choice x ASlot 0) REq (acc_choice y ASlot 0).
Definition in_slot (x s : string) : expr := mkE (acc_choice x ASlot 0) REq (acc_slot s ANotSet).
Definition r85 : reader := mkReader [mkSlot "s"; mkSlot "t"]
  [mkProto "a" 1 4 1 false; mkProto "b" 1 4 1 false; mkProto "e" 1 4 1 false; mkProto "c" 1 4 1 false; mkProto "d" 1 4 1 false]
  [mkChooser "p" [9;9;9;9;0]%N; mkChooser "q" [9;9;9;9;0]%N; mkChooser "r" [9;9;9;9;0]%N; mkChooser "x" [0;0;0;9;0]%N]
  [same_slot "a" "b"; same_slot "b" "e"; in_slot "c" "s"; in_slot "d" "t"].
Definition d85 : input_data := Eval vm_compute in match build_input Debug r85 with Ok d => d | _ => d1 end.
Lemma r85_builds pr : build_input pr r85 = Ok d85. Proof. destruct pr; vm_compute; reflexivity. Qed.
Lemma d85_wf : wf_input d85. Proof. apply wf_input_b_ok. vm_compute; reflexivity. Qed.
Lemma d85_fits : fits d85. Proof. apply fits_b_ok. vm_compute; reflexivity. Qed.
Definition X85 : scheduling := [Some 0; Some 0; Some 0; Some 0; Some 1].
Definition T85 : scheduling := [Some 1; Some 1; Some 1; Some 0; Some 1].
Definition A85 : assignment := [[3; 0]; [3; 1]; [3; 2]; [3; 4]].
Lemma d85_valid : valid_solution d85 T85 A85.
Proof. apply check_solution_ok; [exact d85_fits|exact d85_wf|vm_compute; reflexivity]. Qed.
Lemma d85_mandatory : forall ch, In ch (i_choices d85) -> ch_optional ch = false.
Proof. intros ch H. vm_compute in H. repeat (destruct H as [<-|H]; [reflexivity|]). destruct H. Qed.

(** The search: every order leads to X85. *)
Fixpoint distinct_b (l : list nat) : bool := match l with [] => true | x :: l => negb (existsb (Nat.eqb x) l) && distinct_b l end.
Lemma distinct_ok l : NoDup l -> distinct_b l = true.
Proof.
  induction 1 as [|x l H1 H2 IH]; cbn [distinct_b]; auto. rewrite IH, andb_true_r. destruct (existsb (Nat.eqb x) l) eqn:E; auto.
  apply existsb_exists in E as (y & Hy & E). apply Nat.eqb_eq in E. subst. contradiction.
Qed.
Definition finds85 (pr : profile) (order : list nat) : bool :=
  let so := sort_desc (fun c => length (constraints_for d85 c)) order in
  match max_suffix pr d85 so with
  | Ok suffix => match M_Search.run pr d85 (o_const 0 (fun _ => false)) (fun _ => false) [] so suffix 20 (mkMach (new_state 5 2) [] 0 0) with
                 | Some (Ok (SFound [[0; 1; 2; 3]; [4]], _)) => true
                 | _ => false
                 end
  | _ => false
  end.
Lemma finds85_all pr : forallb (fun l => negb (distinct_b l) || finds85 pr l) (lists_of (seq 0 5) 5) = true.
Proof. destruct pr; vm_compute; reflexivity. Qed.
Lemma search85 pr o late t fuel r t' : fair o -> solve_scheduling pr d85 o late [] t fuel = Some (Ok (r, t')) -> r = STimeout \/ r = SFound [[0; 1; 2; 3]; [4]].
Proof.
  intros HF. apply (search_orders pr d85 o (o_const 0 (fun _ => false))); auto; [apply o_const_fair; unfold i32_min, i32_max; lia|exact d85_mandatory|].
  intros order HP. change (length (i_choices d85)) with 5 in *. change (length (i_slots d85)) with 2.
  assert (Hin : In order (lists_of (seq 0 5) 5)).
  { apply lists_of_in; [rewrite <- (Permutation_length HP); reflexivity|]. intros y Hy. apply (Permutation_in _ (Permutation_sym HP)). exact Hy. }
  pose proof (proj1 (forallb_forall _ _) (finds85_all pr) order Hin) as H. cbn beta in H.
  rewrite distinct_ok in H by (apply (Permutation_NoDup HP), seq_NoDup). cbn [negb orb] in H. unfold finds85 in H.
  cbn zeta. set (so := sort_desc _ order) in *. destruct (max_suffix pr d85 so) as [suffix| |]; try discriminate.
  destruct (M_Search.run pr d85 _ _ [] so suffix 20 _) as [[[r1 t1]| |]|] eqn:E; try discriminate. exists suffix, t1, 20. split; auto. rewrite E. f_equal. f_equal. f_equal.
  destruct r1 as [l| | |]; try discriminate. clear -H.
  repeat match type of H with (match ?x with _ => _ end) = true => destruct x; try discriminate end. reflexivity.
Qed.
Definition a85 : analysis := Eval vm_compute in match prepare_analysis Debug d85 false false false with Ok a => a | _ => a1 end.
Lemma a85_eq pr : prepare_analysis pr d85 false false false = Ok a85. Proof. destruct pr; vm_compute; reflexivity. Qed.
Lemma next85 pr o dl cs sfuel fuel t n S : fair o -> next_scheduling pr d85 o a85 dl cs sfuel fuel t = Some (Ok n) -> nx_sched n = Some S -> S = X85.
Proof.
  intros HF H ES. destruct (next_unfold pr d85 o a85 dl cs sfuel fuel t HF) as (limit & Hlim & E). rewrite E in H. clear E.
  assert (limit = 9%N) by (destruct Hlim as [-> | ->]; reflexivity). subst limit. destruct fuel as [|f]; [discriminate|]. cbn [relax] in H.
  change (negb (9 =? i_max_pref d85)%N) with false in H. cbn [andb] in H. change (for_preference a85 9) with (@nil cset) in H.
  destruct (solve_scheduling pr d85 o _ [] _ sfuel) as [[[r t']| |]|] eqn:E; try discriminate.
  apply search85 in E; auto. destruct E as [-> | ->]; cbn [result_slots] in H.
  - change (9 =? i_max_pref d85)%N with true in H. cbn iota in H. injection H as <-. discriminate ES.
  - assert (ER : slots_to_scheduling d85 [[0; 1; 2; 3]; [4]] = Ok X85) by (vm_compute; reflexivity). rewrite ER in H. cbn [bind] in H. injection H as <-. cbn in ES. congruence.
Qed.

(** The neighbours of X85. *)
Definition opt_eqb (a b : option nat) : bool := match a, b with None, None => true | Some x, Some y => (x =? y)%nat | _, _ => false end.
Fixpoint sched_eqb (a b : scheduling) : bool := match a, b with [], [] => true | x :: a, y :: b => opt_eqb x y && sched_eqb a b | _, _ => false end.
Lemma sched_eqb_ok : forall a b, sched_eqb a b = true -> a = b.
Proof.
  induction a as [|x a IH]; intros [|y b] H; cbn in H; try discriminate; auto. apply andb_true_iff in H as [H1 H2]. rewrite (IH _ H2). f_equal.
  destruct x, y; cbn in H1; try discriminate; auto. apply Nat.eqb_eq in H1. congruence.
Qed.
Lemma feasible85 pr : forallb (fun S => match sched_is_feasible pr d85 S with Ok true => sched_eqb S X85 || sched_eqb S T85 | _ => true end) (lists_of [None; Some 0; Some 1] 5) = true.
Proof. destruct pr; vm_compute; reflexivity. Qed.
Lemma X85_T85 cycle : NoDup cycle -> ~ rotated cycle X85 T85.
Proof.
  intros ND HR. assert (0 = 1); [|discriminate]. apply (rotated_inj cycle X85 T85 0 1 (Some (Some 1)) 4 HR ND); try reflexivity; try discriminate.
  intros x Hx. do 5 (destruct x as [|x]; [try discriminate; reflexivity|]). destruct x; discriminate.
Qed.
Lemma neighbours85 pr o sw max t res t' : fair o -> pick_neighbors pr d85 o sw max X85 t = Some (Ok (res, t')) -> forall n, In n res -> n = X85.
Proof.
  intros HF H n Hn. assert (HS : Spec_Calls.shaped d85 X85).
  { split; [reflexivity|]. intros c x Hx. unfold scheduled_in in Hx. do 5 (destruct c as [|c]; [cbn in Hx; injection Hx as <-; cbn; lia|]). destruct c; discriminate. }
  destruct (pick_neighbors_ok _ _ _ _ _ _ _ _ _ HF HS H) as (H1 & _). destruct (H1 n Hn) as ([HL HR] & Hfe & H2).
  assert (Hin : In n (lists_of [None; Some 0; Some 1] 5)).
  { apply lists_of_in; [exact HL|]. intros y Hy. apply In_nth_error in Hy as [c Hc]. destruct y as [x|]; [|left; reflexivity]. specialize (HR c x Hc). cbn in HR.
    destruct x as [|[|x]]; [right; left; reflexivity|right; right; left; reflexivity|lia]. }
  pose proof (proj1 (forallb_forall _ _) (feasible85 pr) n Hin) as K. cbn beta in K. rewrite Hfe in K. apply orb_true_iff in K as [K|K]; apply sched_eqb_ok in K; auto.
  exfalso. subst n. destruct H2 as [(_ & c & _ & _ & _ & H2)|(cy & C1 & _ & C3)]; [|exact (X85_T85 cy C1 C3)].
  assert (c = 0 \/ c <> 0) as [-> |Hc] by lia; [specialize (H2 1 ltac:(lia)); discriminate|specialize (H2 0 ltac:(lia)); discriminate].
Qed.

(** Scores: every assignment of X85 scores worse. *)
Definition best85 (pr : profile) : outcome score := evaluate pr square false d85 (SolComplete T85 A85).
Definition rows85 : list (list nat) := flat_map (fun x => [[x; 4]; [4; x]]) [0; 1; 2; 3].
Lemma scores85 pr : forallb (fun A => match best85 pr, evaluate pr square false d85 (SolComplete X85 A) with Ok a, Ok b => score_lt a b | _, _ => false end)
  (lists_of rows85 4) = true.
Proof. destruct pr; vm_compute; reflexivity. Qed.
Lemma rows85_ok A : valid_solution d85 X85 A -> In A (lists_of rows85 4).
Proof.
  intros HV. destruct (ra_one _ _ _ (vsol_rest _ _ _ HV)) as [HL HR]. apply lists_of_in; [exact HL|]. intros row Hrow. apply In_nth_error in Hrow as [p Hp].
  destruct (HR p row Hp) as (HLr & _ & HS). change (length (i_slots d85)) with 2 in HLr, HS.
  destruct row as [|x [|y [|]]]; try discriminate. clear HLr HR Hp p HL HV A.
  destruct (HS 0 ltac:(lia)) as (c0 & [I0 S0] & _). destruct (HS 1 ltac:(lia)) as (c1 & [I1 S1] & _). clear HS.
  assert (c1 = 4) by (do 5 (destruct c1 as [|c1]; [try discriminate; reflexivity|]); destruct c1; discriminate). subst c1.
  assert (H0 : In c0 [0; 1; 2; 3]) by (do 5 (destruct c0 as [|c0]; [first [discriminate|cbn; tauto]|]); destruct c0; discriminate).
  assert (c0 <> 4) by (intros ->; discriminate).
  apply in_flat_map. exists c0. split; auto. cbn [In] in I0, I1 |- *.
  destruct I0 as [<-|[<-|[]]], I1 as [E|[E|[]]]; subst; try congruence; auto.
Qed.

Lemma lt_inv a (x : outcome score) : match x with Ok b => score_lt a b | _ => false end = true -> exists b, x = Ok b /\ score_lt a b = true.
Proof. destruct x; try discriminate. eauto. Qed.
Theorem C85_best_out_of_reach_refuted :
  exists (r : reader) (d : input_data) (T : scheduling) (A : assignment),
    (forall pr, build_input pr r = Ok d) /\ valid_solution d T A /\
    forall (pr : profile) (P : problem) (ws : nat -> world) (threads : nat) tr (s : session),
      p_input P = d -> p_greedy P = false -> prepare_analysis pr d false false false = Ok (p_analysis P) -> p_pow P = square ->
      (forall i, fair (w_hill (ws i))) -> (forall i, fair (w_sched (ws i))) ->
      moves pr P ws (start P threads) tr s ->
      ~ tried s T /\
      forall sol, wait s = Ok sol -> exists sc best, score_of pr P (SolComplete T A) = Ok best /\ score_of pr P sol = Ok sc /\ score_lt best sc = true.
Proof.
  exists r85, d85, T85, A85. split; [exact r85_builds|]. split; [exact d85_valid|].
  intros pr P ws threads tr s EI EG EA EP HFH HFS M. rewrite a85_eq in EA. injection EA as EA.
  set (Q := fun S => S = X85).
  assert (HD : forall S, drawn pr P ws S -> Q S).
  { intros S (i & tn & t & n & E & En). rewrite EI, <- EA in E. exact (next85 _ _ _ _ _ _ _ _ _ (HFS i) E En). }
  assert (HN : forall i S sw max t res t', Q S -> pick_neighbors pr (p_input P) (w_hill (ws i)) sw max S t = Some (Ok (res, t')) -> forall n, In n res -> Q n).
  { intros i S sw max t res t' -> E. rewrite EI in E. exact (neighbours85 _ _ _ _ _ _ _ (HFH i) E). }
  split.
  - intros HT. pose proof (tried_q pr P ws Q HD HN threads tr s T85 M HT) as F. discriminate F.
  - intros sol Hw.
    assert (HB : exists best, score_of pr P (SolComplete T85 A85) = Ok best /\ best85 pr = Ok best /\ score_lt best score_infinite = true).
    { unfold score_of. rewrite EI, EG, EP. fold (best85 pr). destruct pr; (eexists; split; [vm_compute; reflexivity|split; [vm_compute; reflexivity|vm_compute; reflexivity]]). }
    destruct HB as (best & B1 & B2 & B3).
    assert (HW : wf_input (p_input P)) by (rewrite EI; exact d85_wf). assert (HF : fits (p_input P)) by (rewrite EI; exact d85_fits).
    destruct (C01_result_valid pr P ws threads tr s sol HW HF HFH M Hw) as [-> |(S & A & -> & HV)].
    + exists score_infinite, best. split; auto.
    + destruct (result_q pr P ws Q HD HN threads tr s _ M Hw) as [F|(S' & E & ->)]; [discriminate|]. cbn in E. injection E as ->. rewrite EI in HV.
      pose proof (proj1 (forallb_forall _ _) (scores85 pr) A (rows85_ok A HV)) as K. cbn beta in K. rewrite B2 in K. apply lt_inv in K as (sc & Es & K).
      exists sc, best. split; [exact B1|]. split; [|exact K]. unfold score_of. rewrite EI, EG, EP. exact Es.
Qed.
Print Assumptions C85_best_out_of_reach_refuted.
(** Witness: a session for this input, with a library that gives right answers
    (a known point where it applies, otherwise it tries all), which returns a
    valid solution. *)
Definition v85 : list Z := [1;0;0;0;1; 0;1;0;0;1; 0;0;1;0;1; 0;0;0;1;1; 0;0;0;0;3]%Z.
Definition within_b (es : list edge) (x : list Z) : bool :=
  (length x =? length es)%nat && forallb (fun ev => (0 <=? snd ev)%Z && (snd ev <=? e_max (fst ev))%Z) (combine es x).
Lemma within_ok es x : within_b es x = true -> In x (vectors es).
Proof.
  unfold within_b. rewrite andb_true_iff, forallb_forall. intros [H1 H2]. apply Nat.eqb_eq in H1. apply vectors_in. split; auto. intros i e v He Hv.
  specialize (H2 (e, v)). cbn [fst snd] in H2. assert (I : In (e, v) (combine es x)).
  { clear -H1 He Hv. revert x i H1 He Hv. induction es as [|a es IH]; intros [|b x] [|i] H1 He Hv; try discriminate; cbn in *.
    - left. congruence.
    - right. eapply IH; eauto. }
  specialize (H2 I). apply andb_true_iff in H2 as [A B]. apply Z.leb_le in A, B. lia.
Qed.
Definition env85 : env := mkEnv no_clock (fun _ f => if within_b (fl_edges f) v85 && feasible_b f v85 then Some (fun i => nth i v85 0%Z) else brute_lp f).
Lemma env85_honest : honest_lp env85 true.
Proof.
  intros t f. cbn [env85 ev_lp ev_expired]. destruct (within_b (fl_edges f) v85 && feasible_b f v85) eqn:E.
  - apply andb_true_iff in E as [E1 E2]. apply within_ok in E1. pose proof (proj1 (feasible_b_ok f v85 E1) E2) as HP.
    replace (map (fun i => nth i v85 0%Z) (seq 0 (length (fl_edges f)))) with v85; auto. symmetry. apply map_nth_seq. apply (fp_length _ _ HP).
  - pose proof (exact_honest _ true (brute_exact no_clock) t f) as H. cbn [brute_env ev_lp ev_expired] in H. exact H.
Qed.
Definition w85 : world := mkWorld (o_count 0) (o_count 1) env85 no_clock.
Definition sd85 : static := match new_static d85 with Ok a => a | _ => sd1 end.
Definition P85 : problem := mkProblem d85 a85 sd85 square next_square false true 13 3.
Definition it85 : nat * shotgun * list event := value (0, new_shotgun, []) (iterate Debug P85 w85 true tn1 1 new_shotgun).
Lemma it85_eq : iterate Debug P85 w85 true tn1 1 new_shotgun = Some (Ok it85). Proof. vm_compute. reflexivity. Qed.
Definition s85 : session := mkSession true [mkWorker WDone (snd (fst it85)) (snd it85); mkWorker WDone new_shotgun []].
Lemma moves85 : moves Debug P85 (fun _ => w85) (start P85 2) trace5 s85.
Proof.
  unfold trace5. change (start P85 2) with (mkSession false [new_worker; new_worker]).
  pose proof it85_eq as E. assert (EF : p_any P85 && score_finite (b_score (sg_best (snd (fst it85)))) = true) by (vm_compute; reflexivity).
  unfold s85. revert E EF. destruct it85 as [[k g] ev]. cbn [fst snd]. intros E EF.
  eapply mvs_step; [eapply (mv_worker _ _ _ _ 0); [reflexivity|apply mv_start]|]. cbn [upd se_workers se_flag existsb orb app].
  eapply mvs_step; [eapply (mv_worker _ _ _ _ 0); [reflexivity|eapply mv_iterate; exact E]|]. cbn [upd se_workers se_flag existsb orb app].
  eapply mvs_step; [eapply (mv_worker _ _ _ _ 0); [reflexivity|apply mv_success; exact EF]|]. cbn [upd se_workers se_flag existsb orb app].
  eapply mvs_step; [eapply (mv_worker _ _ _ _ 1); [reflexivity|apply (mv_stop _ _ _ _ _ _ true false); auto]|]. apply mvs_refl.
Qed.
Example C85_out_of_reach_witness :
  p_input P85 = d85 /\ prepare_analysis Debug d85 false false false = Ok (p_analysis P85) /\ new_static d85 = Ok (p_static P85) /\ working (fun _ => w85) /\
  moves Debug P85 (fun _ => w85) (start P85 2) trace5 s85 /\ wait s85 = Ok (SolComplete X85 [[0; 4]; [1; 4]; [2; 4]; [3; 4]]).
Proof.
  split; [reflexivity|]. split; [apply a85_eq|]. split; [vm_compute; reflexivity|].
  split. { intros i. split; [exact env85_honest|]. split; apply o_count_fair. }
  split; [exact moves85|]. vm_compute. reflexivity.
Qed.
