(** Property theorems about sessions that run to their end undisturbed: C64, C65.
    See T_Climb.v for the vocabulary; [calm]: the clock never reports that the
    time is up; [undisturbed]: nobody cancels from outside and no worker stops
    because the time is up. *)
From Verif Require Import Base M_Data Spec M_Scoring P_Check M_Build Spec_Input Spec_Score M_Rng P_Rng M_Critical Spec_Search M_Search P_Search6 P_Built T_Input T_Search
  M_Flow Spec_Flow Spec_Calls P_Flow7 P_Brute T_Flow M_Climb M_Threads Spec_Climb Spec_Threads P_Threads T_Climb P_Exact.
From Coq Require Import String.
Notation length := Datatypes.length.
Open Scope string_scope.
Import ListNotations.
Open Scope list_scope.

(** ** C64: with one slot and no optional choice the session decides the problem:
    it returns a valid solution if there is one, and "no solution" only if there
    is none; and (normal scoring, if every preference is a level) no valid
    solution has a smaller worst preference. *)
Theorem C64_one_slot_exact_partial :
  forall (pr : profile) (P : problem) (no_cs no_simplify : bool) (ws : nat -> world) (threads : nat) tr (s : session),
    let d := p_input P in
    roomy pr P -> prepare_analysis pr d no_cs (p_greedy P) no_simplify = Ok (p_analysis P) -> working ws -> (forall i, calm (ws i)) ->
    length (i_slots d) = 1 -> (forall ch, In ch (i_choices d) -> ch_optional ch = false) -> i_choosers d <> [] ->
    tame (p_pow P) d -> (N.of_nat (length (i_choosers d)) < 2 ^ 23)%N ->
    moves pr P ws (start P threads) tr s -> undisturbed tr -> (forall wk, In wk (se_workers s) -> is_finished wk = true) ->
    exists sol, wait s = Ok sol /\
      match sol with
      | SolComplete T A => valid_solution d T A /\
          (p_greedy P = false -> (i_max_pref d <= 2 ^ 24)%N -> (forall p c y, pref_of d p c y -> In y (i_levels d)) ->
           forall T' A' x y, valid_solution d T' A' -> worst_pref d A x -> worst_pref d A' y -> (x <= y)%N)
      | _ => forall T A, ~ valid_solution d T A
      end.
Proof.
  intros pr P no_cs no_simplify ws threads tr s d HR HP HWk HC H1 HO Hne HT HN M HU HFin.
  destruct (finished_result pr P ws threads HR HWk tr s M HFin) as (_ & sol & HWt). exists sol. split; auto.
  assert (HN' : (N.of_nat (length (i_choosers d)) * N.of_nat (length (i_slots d)) < 8388608)%N).
  { rewrite H1. change (2 ^ 23)%N with 8388608%N in HN. lia. }
  assert (HB : an_bound (p_analysis P) = 0%N).
  { unfold prepare_analysis in HP. rewrite H1, andb_false_r in HP. cbn in HP. injection HP as <-. reflexivity. }
  destruct (single_result pr P ws threads HR HWk HC tr s sol H1 HO Hne HT HN' M HU HWt) as [(T & A & -> & HV & HM)|[-> HM]]; auto.
  split; auto. intros Hg Hmax Hlev. apply HM; auto. intros p _ Hlt. rewrite HB in Hlt. lia.
Qed.
Print Assumptions C64_one_slot_exact_partial.

(** Three choosers like b better, it has room for two.  (The input says how much a
    choice is liked; the processed preferences are 9 minus that.) *)
Definition r64 : reader := mkReader [mkSlot "s"] [mkProto "a" 1 2 1 false; mkProto "b" 1 2 1 false]
  [mkChooser "p" [6;9]%N; mkChooser "q" [3;9]%N; mkChooser "r" [0;9]%N] [].
Definition d64 : input_data := match build_input Debug r64 with Ok d => d | _ => d1 end.
Definition a64 : analysis := match prepare_analysis Debug d64 false false false with Ok a => a | _ => a1 end.
Definition sd64 : static := match new_static d64 with Ok a => a | _ => sd1 end.
Definition P64 : problem := mkProblem d64 a64 sd64 (fun x => x) cube false false 13 3.
Lemma r64_builds : build_input Debug r64 = Ok d64. Proof. vm_compute. reflexivity. Qed.
Lemma P64_roomy : roomy Debug P64.
Proof.
  constructor; cbn [p_input p_static p_analysis p_cs_timeout P64].
  - apply fits_b_ok. vm_compute. reflexivity.
  - apply wf_input_b_ok. vm_compute. reflexivity.
  - apply (built_searchable _ _ _ r64_builds); [split; vm_compute; discriminate|vm_compute; discriminate|intros k n Hk; vm_compute in Hk; destruct Hk].
  - constructor; vm_compute; discriminate.
  - exact (built_levels _ _ _ r64_builds).
  - exact (built_grouped _ _ _ r64_builds).
  - apply size_b_ok. vm_compute. reflexivity.
  - vm_compute. reflexivity.
  - vm_compute. reflexivity.
  - exists false, false. vm_compute. reflexivity.
  - lia.
Qed.
Definition it64 : nat * shotgun * list event := value (0, new_shotgun, []) (iterate Debug P64 w5 true tn1 1 new_shotgun).
Lemma it64_eq : iterate Debug P64 w5 true tn1 1 new_shotgun = Some (Ok it64). Proof. vm_compute. reflexivity. Qed.
Definition s64 : session := mkSession false [mkWorker WDone (snd (fst it64)) (snd it64)].
Definition trace64 : list (option nat * list label) := [(Some 0, [LLoad false; LStart]); (Some 0, [LIterated]); (Some 0, [LOther])].
Lemma moves64 : moves Debug P64 ws5 (start P64 4) trace64 s64.
Proof.
  unfold trace64. change (start P64 4) with (mkSession false [new_worker]). pose proof it64_eq as E. unfold s64. destruct it64 as [[k g] ev]. cbn [fst snd].
  eapply mvs_step; [eapply (mv_worker _ _ _ _ 0); [reflexivity|apply mv_start]|].
  eapply mvs_step; [eapply (mv_worker _ _ _ _ 0); [reflexivity|eapply mv_iterate; exact E]|].
  eapply mvs_step; [eapply (mv_worker _ _ _ _ 0); [reflexivity|apply mv_last; reflexivity]|].
  apply mvs_refl.
Qed.
Lemma w5_calm i : calm (ws5 i). Proof. intros t. repeat split. Qed.
Lemma d64_tame : tame (fun x => x) d64.
Proof.
  unfold tame. assert (E : i_max_pref d64 = 9%N) by (vm_compute; reflexivity). rewrite E.
  change (9 =? 0)%N with false. cbn iota zeta. split; [vm_compute; reflexivity|]. split; [vm_compute; reflexivity|]. split; [vm_compute; reflexivity|].
  intros x Hle. assert (Hx : In x [0;1;2;3;4;5;6;7;8;9]%N) by (cbn [In]; lia).
  cbn [In] in Hx. repeat (destruct Hx as [<-|Hx]; [vm_compute; auto|]). destruct Hx.
Qed.
Example C64_witness : roomy Debug P64 /\ prepare_analysis Debug d64 false false false = Ok (p_analysis P64) /\ working ws5 /\ (forall i, calm (ws5 i)) /\
  length (i_slots d64) = 1 /\ (forall ch, In ch (i_choices d64) -> ch_optional ch = false) /\ tame (p_pow P64) d64 /\
  moves Debug P64 ws5 (start P64 4) trace64 s64 /\ undisturbed trace64 /\
  (forall wk, In wk (se_workers s64) -> is_finished wk = true) /\ wait s64 = Ok (SolComplete [Some 0; Some 0] [[0]; [1]; [1]]) /\
  (forall p c y, pref_of d64 p c y -> In y (i_levels d64)).
Proof.
  split; [exact P64_roomy|]. split; [vm_compute; reflexivity|]. split; [exact ws5_working|]. split; [exact w5_calm|]. split; [reflexivity|].
  split. { intros ch H. vm_compute in H. destruct H as [<-|[<-|[]]]; reflexivity. }
  split.
  { exact d64_tame. }
  split; [exact moves64|]. split; [intros l [<-|[<-|[<-|[]]]]; cbn; split; discriminate|]. split; [intros wk [<-|[]]; reflexivity|]. split; [vm_compute; reflexivity|].
  intros p c y (ch & H1 & H2). destruct p as [|[|[|p]]]; cbn in H1; try (destruct p; discriminate); injection H1 as <-;
    destruct c as [|[|c]]; cbn in H2; try (destruct c; discriminate); injection H2 as <-; vm_compute; repeat (first [left; reflexivity|right]).
Qed.

(** ** C65: with two or more slots, a session that ends undisturbed without
    solution proves that there is no scheduling at all, under the conditions of
    C12; and it ends undisturbed on a problem that has one only with --any. *)
Theorem C65_no_solution_means_no_scheduling_partial :
  forall (pr : profile) (r : reader) (P : problem) (ws : nat -> world) (threads : nat) tr (s : session),
    let d := p_input P in
    build_input pr r = Ok d -> roomy pr P -> working ws -> (forall i, calm (ws i)) ->
    length (i_slots d) <> 1 -> i_choosers d <> [] -> no_self_relation d ->
    never_overfull d \/ (forall ch, In ch (i_choices d) -> ch_min ch <= 1 /\ ch_min ch <= ch_max ch)%N \/
      (total ch_min d <= N.of_nat (length (i_choosers d)))%N ->
    moves pr P ws (start P threads) tr s -> undisturbed tr -> (forall wk, In wk (se_workers s) -> is_finished wk = true) ->
    exists sol, wait s = Ok sol /\
      match sol with
      | SolComplete T A => valid_solution d T A /\ p_any P = true
      | _ => forall T, ~ valid_scheduling d T
      end.
Proof.
  intros pr r P ws threads tr s d HB HR HWk HC H1 Hne HNS HNO M HU HFin.
  assert (HNO' : never_overfull d).
  { destruct HNO as [HNO|[HNO|HNO]]; auto; [apply never_overfull_small|apply never_overfull_total]; auto. }
  destruct (finished_result pr P ws threads HR HWk tr s M HFin) as (_ & sol & HWt). exists sol. split; auto.
  destruct (invalid_none pr P ws threads HR HWk HC tr s sol M HU HWt H1 Hne) as [(Hany & T & A & -> & HV)|HN]; auto.
  - intros i T late sets t fuel t' HV. eapply solve_not_rejected; eauto; try apply HR; [apply (HWk i)|]. apply (built_map_complete _ _ _ HB). apply (ro_wf _ _ HR).
  - destruct sol as [| |T A]; auto. exfalso. 
    assert (HF : forall i, fair (w_hill (ws i))) by (intros i; apply (HWk i)).
    destruct (C01_result_valid pr P ws threads tr s _ (ro_wf _ _ HR) (ro_fits _ _ HR) HF M HWt) as [E|(S1 & A1 & E & HV)]; [discriminate|]. apply (HN S1), HV.
Qed.
Print Assumptions C65_no_solution_means_no_scheduling_partial.
(** An unsolvable problem (the slot of b is too small for two choosers), two
    workers, not --any: both find out. *)
Definition a65 : analysis := match prepare_analysis Debug d12n false false false with Ok a => a | _ => a1 end.
Definition sd65 : static := match new_static d12n with Ok a => a | _ => sd1 end.
Definition P65 : problem := mkProblem d12n a65 sd65 (fun x => x) cube false false 13 3.
Lemma r12n_builds : build_input Debug r12n = Ok d12n. Proof. vm_compute. reflexivity. Qed.
Lemma P65_roomy : roomy Debug P65.
Proof.
  constructor; cbn [p_input p_static p_analysis p_cs_timeout P65].
  - apply fits_b_ok. vm_compute. reflexivity.
  - apply wf_input_b_ok. vm_compute. reflexivity.
  - apply (built_searchable _ _ _ r12n_builds); [split; vm_compute; discriminate|vm_compute; discriminate|intros k n Hk; vm_compute in Hk; destruct Hk].
  - constructor; vm_compute; discriminate.
  - exact (built_levels _ _ _ r12n_builds).
  - exact (built_grouped _ _ _ r12n_builds).
  - apply size_b_ok. vm_compute. reflexivity.
  - vm_compute. reflexivity.
  - vm_compute. reflexivity.
  - exists true, true. vm_compute. reflexivity.
  - lia.
Qed.
Definition it65 : nat * shotgun * list event := value (0, new_shotgun, []) (iterate Debug P65 w5 true tn1 1 new_shotgun).
Lemma it65_eq : iterate Debug P65 w5 true tn1 1 new_shotgun = Some (Ok (0, snd (fst it65), [])). Proof. vm_compute. reflexivity. Qed.
Definition s65 : session := let wk := mkWorker WDone (snd (fst it65)) [] in mkSession false [wk; wk].
Definition trace65 : list (option nat * list label) :=
  [(Some 0, [LLoad false; LStart]); (Some 1, [LLoad false; LStart]); (Some 1, [LIterated]); (Some 0, [LIterated]); (Some 0, [LOther]); (Some 1, [LOther])].
Lemma moves65 : moves Debug P65 ws5 (start P65 2) trace65 s65.
Proof.
  unfold trace65. change (start P65 2) with (mkSession false [new_worker; new_worker]). pose proof it65_eq as E.
  assert (EF : p_any P65 && score_finite (b_score (sg_best (snd (fst it65)))) = false) by reflexivity.
  unfold s65. revert E EF. generalize (snd (fst it65)). intros g E EF.
  eapply mvs_step; [eapply (mv_worker _ _ _ _ 0); [reflexivity|apply mv_start]|]. cbn [upd se_workers se_flag existsb orb app].
  eapply mvs_step; [eapply (mv_worker _ _ _ _ 1); [reflexivity|apply mv_start]|]. cbn [upd se_workers se_flag existsb orb app].
  eapply mvs_step; [eapply (mv_worker _ _ _ _ 1); [reflexivity|eapply mv_iterate; exact E]|]. cbn [upd se_workers se_flag existsb orb app].
  eapply mvs_step; [eapply (mv_worker _ _ _ _ 0); [reflexivity|eapply mv_iterate; exact E]|]. cbn [upd se_workers se_flag existsb orb app].
  eapply mvs_step; [eapply (mv_worker _ _ _ _ 0); [reflexivity|apply mv_last; [exact EF|reflexivity]]|]. cbn [upd se_workers se_flag existsb orb app].
  eapply mvs_step; [eapply (mv_worker _ _ _ _ 1); [reflexivity|apply mv_last; [exact EF|reflexivity]]|]. cbn [upd se_workers se_flag existsb orb app].
  apply mvs_refl.
Qed.
Example C65_witness : build_input Debug r12n = Ok d12n /\ roomy Debug P65 /\ working ws5 /\ (forall i, calm (ws5 i)) /\ no_self_relation d12n /\
  (forall ch, In ch (i_choices d12n) -> ch_min ch <= 1 /\ ch_min ch <= ch_max ch)%N /\
  moves Debug P65 ws5 (start P65 2) trace65 s65 /\ undisturbed trace65 /\ (forall wk, In wk (se_workers s65) -> is_finished wk = true) /\ wait s65 = Ok SolInvalid.
Proof.
  split; [exact r12n_builds|]. split; [exact P65_roomy|]. split; [exact ws5_working|]. split; [exact w5_calm|]. split; [intros k c []|].
  split; [intros ch Hch; vm_compute in Hch; destruct Hch as [<-|[<-|[]]]; cbn; lia|]. split; [exact moves65|].
  split; [intros l Hl; repeat (destruct Hl as [<-|Hl]; [cbn; split; discriminate|]); destruct Hl|]. split; [intros wk [<-|[<-|[]]]; reflexivity|]. vm_compute. reflexivity.
Qed.
(** The other outcome: --any, one worker finds a solution, the other stops. *)
Example C65_found_witness : roomy Debug P5 /\ moves Debug P5 ws5 (start P5 2) trace5 s5 /\ undisturbed trace5 /\
  (forall wk, In wk (se_workers s5) -> is_finished wk = true) /\ wait s5 = Ok (SolComplete [Some 0; Some 1; Some 1] [[0; 2]; [0; 1]]).
Proof.
  split; [exact P5_roomy|]. split; [exact moves5|]. split; [intros l Hl; repeat (destruct Hl as [<-|Hl]; [cbn; split; discriminate|]); destruct Hl|].
  split; [intros wk [<-|[<-|[]]]; reflexivity|]. vm_compute. reflexivity.
Qed.

(** The condition of C64 on the levels is needed: an undisturbed session on the
    input of C06_coarse_levels_refuted (one slot) returns worst preference 9,
    although a valid solution has 6. *)
Definition a64c : analysis := match prepare_analysis Debug d06b false false false with Ok a => a | _ => a1 end.
Definition sd64c : static := match new_static d06b with Ok a => a | _ => sd1 end.
Definition P64c : problem := mkProblem d06b a64c sd64c (fun x => x) cube false false 13 3.
Lemma P64c_roomy : roomy Debug P64c.
Proof.
  constructor; cbn [p_input p_static p_analysis p_cs_timeout P64c].
  - apply fits_b_ok. vm_compute. reflexivity.
  - apply wf_input_b_ok. vm_compute. reflexivity.
  - apply (built_searchable _ _ _ (r06b_builds Debug)); [split; vm_compute; discriminate|vm_compute; discriminate|intros k n Hk; vm_compute in Hk; destruct Hk].
  - constructor; vm_compute; discriminate.
  - exact (built_levels _ _ _ (r06b_builds Debug)).
  - exact (built_grouped _ _ _ (r06b_builds Debug)).
  - apply size_b_ok. vm_compute. reflexivity.
  - vm_compute. reflexivity.
  - vm_compute. reflexivity.
  - exists false, false. vm_compute. reflexivity.
  - lia.
Qed.
Definition it64c : nat * shotgun * list event := value (0, new_shotgun, []) (iterate Debug P64c w5 true tn1 1 new_shotgun).
Lemma it64c_eq : iterate Debug P64c w5 true tn1 1 new_shotgun = Some (Ok it64c). Proof. vm_compute. reflexivity. Qed.
Definition s64c : session := mkSession false [mkWorker WDone (snd (fst it64c)) (snd it64c)].
Lemma moves64c : moves Debug P64c ws5 (start P64c 4) trace64 s64c.
Proof.
  unfold trace64. change (start P64c 4) with (mkSession false [new_worker]). pose proof it64c_eq as E. unfold s64c. destruct it64c as [[k g] ev]. cbn [fst snd].
  eapply mvs_step; [eapply (mv_worker _ _ _ _ 0); [reflexivity|apply mv_start]|].
  eapply mvs_step; [eapply (mv_worker _ _ _ _ 0); [reflexivity|eapply mv_iterate; exact E]|].
  eapply mvs_step; [eapply (mv_worker _ _ _ _ 0); [reflexivity|apply mv_last; reflexivity]|].
  apply mvs_refl.
Qed.
Theorem C64_coarse_levels_refuted :
  exists (r : reader) (P : problem) (ws : nat -> world) (threads : nat) tr (s : session) T A B,
    let d := p_input P in
    build_input Debug r = Ok d /\ roomy Debug P /\ prepare_analysis Debug d false false false = Ok (p_analysis P) /\
    working ws /\ (forall i, calm (ws i) /\ optimal_lp (w_env (ws i))) /\
    length (i_slots d) = 1 /\ (forall ch, In ch (i_choices d) -> ch_optional ch = false) /\ p_greedy P = false /\
    moves Debug P ws (start P threads) tr s /\ undisturbed tr /\ (forall wk, In wk (se_workers s) -> is_finished wk = true) /\
    wait s = Ok (SolComplete T A) /\ valid_solution d T B /\ worst_pref d A 9 /\ worst_pref d B 6.
Proof.
  exists r06b, P64c, ws5, 4, trace64, s64c, [Some 0; Some 0; Some 0], [[0]; [1]; [2]], [[1]; [2]; [0]]. cbn zeta.
  split; [apply r06b_builds|]. split; [exact P64c_roomy|]. split; [vm_compute; reflexivity|]. split; [exact ws5_working|].
  split; [intros i; split; [exact (w5_calm i)|apply exact_optimal, brute_exact]|]. split; [reflexivity|].
  split. { intros ch H. vm_compute in H. destruct H as [<-|[<-|[<-|[]]]]; reflexivity. }
  split; [reflexivity|]. split; [exact moves64c|]. split; [intros l [<-|[<-|[<-|[]]]]; cbn; split; discriminate|].
  split; [intros wk [<-|[]]; reflexivity|]. split; [vm_compute; reflexivity|].
  split. { apply check_solution_ok; [apply fits_b_ok|apply wf_input_b_ok|]; vm_compute; reflexivity. }
  assert (W : forall A x p0 c0, A = [[0]; [1]; [2]] /\ x = 9%N /\ p0 = 0 /\ c0 = 0 \/ A = [[1]; [2]; [0]] /\ x = 6%N /\ p0 = 0 /\ c0 = 1 -> worst_pref d06b A x).
  { intros A x p0 c0 HA. split.
    - intros p c y Hp (row & Hr & Hc) (ch & Hch & Hy). destruct HA as [(-> & -> & _)|(-> & -> & _)];
      (destruct p as [|[|[|p]]]; cbn in Hr, Hch; [| | |destruct p; discriminate]);
      injection Hr as <-; injection Hch as <-; destruct Hc as [<-|[]]; cbn in Hy; injection Hy as <-; lia.
    - right. exists 0. destruct HA as [(-> & -> & _)|(-> & -> & _)]; [exists 0|exists 1]; (split; [cbn; lia|]);
      (split; [eexists; split; [reflexivity|left; reflexivity]|eexists; split; reflexivity]). }
  split; [apply (W _ _ 0 0)|apply (W _ _ 0 1)]; auto.
Qed.
Print Assumptions C64_coarse_levels_refuted.

(** The conditions of C65 are needed: an undisturbed session that ends without
    solution although there is a valid solution (input of C12_search_gives_up_refuted). *)
Lemma r12_builds pr : build_input pr r12 = Ok d12. Proof. destruct pr; vm_compute; reflexivity. Qed.
Definition a65g : analysis := match prepare_analysis Debug d12 false false false with Ok a => a | _ => a1 end.
Definition sd65g : static := match new_static d12 with Ok a => a | _ => sd1 end.
Definition P65g : problem := mkProblem d12 a65g sd65g (fun x => x) cube false false 13 3.
Lemma P65g_roomy : roomy Debug P65g.
Proof.
  constructor; cbn [p_input p_static p_analysis p_cs_timeout P65g].
  - apply fits_b_ok. vm_compute. reflexivity.
  - apply wf_input_b_ok. vm_compute. reflexivity.
  - apply (built_searchable _ _ _ (r12_builds Debug)); [split; vm_compute; discriminate|vm_compute; discriminate|intros k n Hk; vm_compute in Hk; destruct Hk].
  - constructor; vm_compute; discriminate.
  - exact (built_levels _ _ _ (r12_builds Debug)).
  - exact (built_grouped _ _ _ (r12_builds Debug)).
  - apply size_b_ok. vm_compute. reflexivity.
  - vm_compute. reflexivity.
  - vm_compute. reflexivity.
  - exists true, true. vm_compute. reflexivity.
  - lia.
Qed.
Definition wg : world := mkWorld (o_const 0 (fun _ => false)) (o_count 1) (brute_env no_clock) no_clock.
Definition itg : nat * shotgun * list event := value (0, new_shotgun, []) (iterate Debug P65g wg true tn1 1 new_shotgun).
Lemma itg_eq : iterate Debug P65g wg true tn1 1 new_shotgun = Some (Ok (0, snd (fst itg), [])). Proof. vm_compute. reflexivity. Qed.
Definition sg65 : session := mkSession false [mkWorker WDone (snd (fst itg)) []].
Lemma moves65g : moves Debug P65g (fun _ => wg) (start P65g 1) trace64 sg65.
Proof.
  unfold trace64. change (start P65g 1) with (mkSession false [new_worker]). pose proof itg_eq as E. unfold sg65. revert E. generalize (snd (fst itg)). intros g E.
  eapply mvs_step; [eapply (mv_worker _ _ _ _ 0); [reflexivity|apply mv_start]|].
  eapply mvs_step; [eapply (mv_worker _ _ _ _ 0); [reflexivity|eapply mv_iterate; exact E]|].
  eapply mvs_step; [eapply (mv_worker _ _ _ _ 0); [reflexivity|apply mv_last; reflexivity]|].
  apply mvs_refl.
Qed.
Theorem C65_gives_up_refuted :
  exists (r : reader) (P : problem) (ws : nat -> world) (threads : nat) tr (s : session) T A,
    let d := p_input P in
    build_input Debug r = Ok d /\ roomy Debug P /\ working ws /\ (forall i, calm (ws i)) /\
    length (i_slots d) <> 1 /\ i_choosers d <> [] /\
    moves Debug P ws (start P threads) tr s /\ undisturbed tr /\ (forall wk, In wk (se_workers s) -> is_finished wk = true) /\
    wait s = Ok SolInvalid /\ valid_solution d T A.
Proof.
  exists r12, P65g, (fun _ => wg), 1, trace64, sg65, [Some 0; Some 0; Some 1], [[0; 2]; [1; 2]; [1; 2]]. cbn zeta.
  split; [apply r12_builds|]. split; [exact P65g_roomy|].
  split. { intros i. split; [apply exact_honest, brute_exact|]. split; [apply (ws5_working i)|apply o_const_fair; unfold i32_min, i32_max; lia]. }
  split; [intros i t; repeat split|]. split; [vm_compute; discriminate|]. split; [vm_compute; discriminate|]. split; [exact moves65g|].
  split; [intros l [<-|[<-|[<-|[]]]]; cbn; split; discriminate|]. split; [intros wk [<-|[]]; reflexivity|]. split; [vm_compute; reflexivity|].
  apply check_solution_ok; [apply fits_b_ok|apply wf_input_b_ok|]; vm_compute; reflexivity.
Qed.
Print Assumptions C65_gives_up_refuted.
