(** C64 and C86 at the level of solve sessions: with an optional choice, a
    session can end without a solution although there is one. *)
From Verif Require Import Base M_Data Spec M_Scoring P_Scoring P_Feasible P_Check M_Build Spec_Input Spec_Score M_Rng P_Rng M_Critical Spec_Search M_Search P_Built
  Spec_Extra T_Input T_Search M_Flow Spec_Flow Spec_Calls P_Flow4 P_Brute T_Flow T_Best M_Climb M_Threads Spec_Climb Spec_Threads P_Climb1 P_Climb2 P_Climb5 P_Threads T_Climb P_Exact T_Exact.
From Coq Require Import String.
Notation length := Datatypes.length. Notation get := Base.get.
Import ListNotations.
Open Scope string_scope.
Open Scope list_scope.

(** One slot, one choice a that p and q must attend; then the same with an
    optional choice b in addition. *)
Definition must_attend (p c : string) : expr := mkE (acc_chooser p AChoice) RContains (acc_choice c ANotSet 0).
Definition r64o : reader := mkReader [mkSlot "s"] [mkProto "a" 1 2 1 false] [mkChooser "p" [0]%N; mkChooser "q" [0]%N]
  [must_attend "p" "a"; must_attend "q" "a"].
Definition b64 : proto := mkProto "b" 1 2 1 true.
Definition r64p : reader := mkReader [mkSlot "s"] [mkProto "a" 1 2 1 false; b64] [mkChooser "p" [0; 0]%N; mkChooser "q" [0; 0]%N]
  [must_attend "p" "a"; must_attend "q" "a"].
Definition d64o : input_data := Eval vm_compute in match build_input Debug r64o with Ok d => d | _ => d1 end.
Definition d64p : input_data := Eval vm_compute in match build_input Debug r64p with Ok d => d | _ => d1 end.
Lemma r64o_builds pr : build_input pr r64o = Ok d64o. Proof. destruct pr; vm_compute; reflexivity. Qed.
Lemma r64p_builds pr : build_input pr r64p = Ok d64p. Proof. destruct pr; vm_compute; reflexivity. Qed.
Definition a64p : analysis := match prepare_analysis Debug d64p false false false with Ok a => a | _ => a1 end.
Definition sd64p : static := match new_static d64p with Ok a => a | _ => sd1 end.
Definition P64p : problem := mkProblem d64p a64p sd64p (fun x => x) cube false false 13 3.
Lemma P64p_roomy : roomy Debug P64p.
Proof.
  constructor; cbn [p_input p_static p_analysis p_cs_timeout P64p].
  - apply fits_b_ok. vm_compute. reflexivity.
  - apply wf_input_b_ok. vm_compute. reflexivity.
  - apply (built_searchable _ _ _ (r64p_builds Debug)); [split; vm_compute; discriminate|vm_compute; discriminate|intros k n Hk; vm_compute in Hk; destruct Hk].
  - constructor; vm_compute; discriminate.
  - exact (built_levels _ _ _ (r64p_builds Debug)).
  - exact (built_grouped _ _ _ (r64p_builds Debug)).
  - apply size_b_ok. vm_compute. reflexivity.
  - vm_compute. reflexivity.
  - vm_compute. reflexivity.
  - exists false, false. vm_compute. reflexivity.
  - lia.
Qed.
Definition it64p : nat * shotgun * list event := value (0, new_shotgun, []) (iterate Debug P64p wg true tn1 1 new_shotgun).
Lemma it64p_eq : iterate Debug P64p wg true tn1 1 new_shotgun = Some (Ok it64p). Proof. vm_compute. reflexivity. Qed.
Definition s64p : session := mkSession false [mkWorker WDone (snd (fst it64p)) (snd it64p)].
Lemma moves64p : moves Debug P64p (fun _ => wg) (start P64p 4) trace64 s64p.
Proof.
  unfold trace64. change (start P64p 4) with (mkSession false [new_worker]). pose proof it64p_eq as E. unfold s64p. destruct it64p as [[k g] ev]. cbn [fst snd].
  eapply mvs_step; [eapply (mv_worker _ _ _ _ 0); [reflexivity|apply mv_start]|].
  eapply mvs_step; [eapply (mv_worker _ _ _ _ 0); [reflexivity|eapply mv_iterate; exact E]|].
  eapply mvs_step; [eapply (mv_worker _ _ _ _ 0); [reflexivity|apply mv_last; reflexivity]|].
  apply mvs_refl.
Qed.
Lemma wg_working : working (fun _ => wg).
Proof. intros i. split; [apply exact_honest, brute_exact|]. split; [apply (ws5_working i)|apply o_const_fair; unfold i32_min, i32_max; lia]. Qed.
Lemma d64o_valid : valid_solution d64o [Some 0] [[0]; [0]].
Proof. apply check_solution_ok; [apply fits_b_ok|apply wf_input_b_ok|]; vm_compute; reflexivity. Qed.
Lemma d64p_valid : valid_solution d64p [Some 0; None] [[0]; [0]].
Proof. apply check_solution_ok; [apply fits_b_ok|apply wf_input_b_ok|]; vm_compute; reflexivity. Qed.

(** C64 needs the condition that no choice is optional, and C86 does not extend to
    what a session finds.  On the first input every undisturbed session finds a
    solution.  On the second, which only has the optional choice in addition, the
    search may let b take place; then nobody can attend it, hill climbing gives up
    at once, and as there is one slot there is no second iteration: the session
    ends without a solution although not holding b gives one. *)
Theorem C64_optional_choice_refuted :
  exists (q : proto) (r r' : reader) (d d' : input_data),
    with_extra q r r' /\ not_meant q r /\ (forall pr, build_input pr r = Ok d) /\ (forall pr, build_input pr r' = Ok d') /\ length (i_slots d') = 1 /\
    (forall pr P no_cs no_simplify ws threads tr s,
       p_input P = d -> roomy pr P -> prepare_analysis pr d no_cs (p_greedy P) no_simplify = Ok (p_analysis P) -> working ws -> (forall i, calm (ws i)) ->
       tame (p_pow P) d -> moves pr P ws (start P threads) tr s -> undisturbed tr -> (forall wk, In wk (se_workers s) -> is_finished wk = true) ->
       exists S A, wait s = Ok (SolComplete S A) /\ valid_solution d S A) /\
    (exists P ws threads tr s S A,
       p_input P = d' /\ roomy Debug P /\ prepare_analysis Debug d' false false false = Ok (p_analysis P) /\ working ws /\ (forall i, calm (ws i) /\ optimal_lp (w_env (ws i))) /\
       tame (p_pow P) d' /\ moves Debug P ws (start P threads) tr s /\ undisturbed tr /\ (forall wk, In wk (se_workers s) -> is_finished wk = true) /\
       wait s = Ok SolInvalid /\ valid_solution d' (without q S) A /\ valid_solution d S A).
Proof.
  exists b64, r64o, r64p, d64o, d64p. split.
  { constructor; try reflexivity. repeat (constructor; [split; [reflexivity|eexists; reflexivity]|]). constructor. }
  split.
  { intros e a He Ha HK. assert (a_name a = "a") as ->.
    { destruct He as [<- |[<- |[]]]; destruct Ha as [-> | ->]; cbn in HK |- *; try discriminate HK; auto. }
    split; [exists 0; eexists; split; reflexivity|]. intros k Hk. change (copies b64) with 1 in Hk. assert (k = 0) as -> by lia. vm_compute. discriminate. }
  split; [exact r64o_builds|]. split; [exact r64p_builds|]. split; [reflexivity|]. split.
  - intros pr P no_cs no_simplify ws threads tr s EP HR HA HWk HC HT M HU HF.
    destruct (C64_one_slot_exact_partial pr P no_cs no_simplify ws threads tr s) as (sol & Hw & Hs); rewrite ?EP; auto;
      try (intros ch H; vm_compute in H; destruct H as [<- |[]]; reflexivity); try discriminate; try reflexivity.
    rewrite EP in Hs. destruct sol as [|T|T A]; [exfalso; exact (Hs _ _ d64o_valid)|exfalso; exact (Hs _ _ d64o_valid)|]. exists T, A. split; auto. apply Hs.
  - exists P64p, (fun _ => wg), 4, trace64, s64p, [Some 0], [[0]; [0]]. split; [reflexivity|]. split; [exact P64p_roomy|]. split; [vm_compute; reflexivity|].
    split; [exact wg_working|]. split. { intros i. split; [intros t; repeat split|apply exact_optimal, brute_exact]. }
    split. { unfold tame. change (i_max_pref d64p) with 0%N. cbn iota zeta. change (0 =? 0)%N with true. cbn iota.
      split; [vm_compute; reflexivity|]. split; [vm_compute; reflexivity|]. split; [vm_compute; reflexivity|].
      intros x Hle. assert (x = 0%N) as -> by lia. vm_compute. auto. }
    split; [exact moves64p|]. split; [intros l [<-|[<-|[<-|[]]]]; cbn; split; discriminate|]. split; [intros wk [<-|[]]; reflexivity|].
    split; [vm_compute; reflexivity|]. split; [exact d64p_valid|exact d64o_valid].
Qed.
Print Assumptions C64_optional_choice_refuted.
(** Witness for the first half: a session on the input without b. *)
Definition a64o : analysis := match prepare_analysis Debug d64o false false false with Ok a => a | _ => a1 end.
Definition sd64o : static := match new_static d64o with Ok a => a | _ => sd1 end.
Definition P64o : problem := mkProblem d64o a64o sd64o (fun x => x) cube false false 13 3.
Lemma P64o_roomy : roomy Debug P64o.
Proof.
  constructor; cbn [p_input p_static p_analysis p_cs_timeout P64o].
  - apply fits_b_ok. vm_compute. reflexivity.
  - apply wf_input_b_ok. vm_compute. reflexivity.
  - apply (built_searchable _ _ _ (r64o_builds Debug)); [split; vm_compute; discriminate|vm_compute; discriminate|intros k n Hk; vm_compute in Hk; destruct Hk].
  - constructor; vm_compute; discriminate.
  - exact (built_levels _ _ _ (r64o_builds Debug)).
  - exact (built_grouped _ _ _ (r64o_builds Debug)).
  - apply size_b_ok. vm_compute. reflexivity.
  - vm_compute. reflexivity.
  - vm_compute. reflexivity.
  - exists false, false. vm_compute. reflexivity.
  - lia.
Qed.
Definition it64o : nat * shotgun * list event := value (0, new_shotgun, []) (iterate Debug P64o wg true tn1 1 new_shotgun).
Lemma it64o_eq : iterate Debug P64o wg true tn1 1 new_shotgun = Some (Ok it64o). Proof. vm_compute. reflexivity. Qed.
Definition s64o : session := mkSession false [mkWorker WDone (snd (fst it64o)) (snd it64o)].
Lemma moves64o : moves Debug P64o (fun _ => wg) (start P64o 4) trace64 s64o.
Proof.
  unfold trace64. change (start P64o 4) with (mkSession false [new_worker]). pose proof it64o_eq as E. unfold s64o. destruct it64o as [[k g] ev]. cbn [fst snd].
  eapply mvs_step; [eapply (mv_worker _ _ _ _ 0); [reflexivity|apply mv_start]|].
  eapply mvs_step; [eapply (mv_worker _ _ _ _ 0); [reflexivity|eapply mv_iterate; exact E]|].
  eapply mvs_step; [eapply (mv_worker _ _ _ _ 0); [reflexivity|apply mv_last; reflexivity]|].
  apply mvs_refl.
Qed.
Example C64_optional_witness : roomy Debug P64o /\ prepare_analysis Debug d64o false false false = Ok (p_analysis P64o) /\
  moves Debug P64o (fun _ => wg) (start P64o 4) trace64 s64o /\ (forall wk, In wk (se_workers s64o) -> is_finished wk = true) /\
  wait s64o = Ok (SolComplete [Some 0] [[0]; [0]]).
Proof.
  split; [exact P64o_roomy|]. split; [vm_compute; reflexivity|]. split; [exact moves64o|]. split; [intros wk [<-|[]]; reflexivity|]. vm_compute. reflexivity.
Qed.
