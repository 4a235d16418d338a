(** Property theorems about worker threads that panic: C84. *)
From Verif Require Import Base M_Data M_Scoring M_Rng M_Critical M_Search M_Flow M_Climb M_Threads M_Output M_Main P_Climb1 P_Threads P_Brute T_Flow T_Search T_Climb.
From Verif Require M_Script.
From Coq Require Import String.
Notation length := Datatypes.length.
Notation get := Base.get.
Open Scope list_scope.
Import M_Script(settings, s_threads, s_inputs, s_output, op).

(** ** A session is over exactly when no worker can do anything any more *)
(** [is_finished]: the handle the caller polls reports the end once every worker
    has returned or panicked.  The hypothesis: no iteration runs forever. *)
Theorem C84_over_when_nobody_can_move :
  forall (pr : profile) (P : problem) (ws : nat -> world) (s : session),
    (forall i wk, nth_error (se_workers s) i = Some wk -> wk_pc wk = WIterate ->
       exists tn r, iterate pr P (ws i) true tn 1 (wk_gun wk) = Some r) ->
    (forallb is_finished (se_workers s) = true <-> forall i ls s', ~ move pr P ws s (Some i, ls) s').
Proof.
  intros pr P ws s HE. split.
  - intros HF i ls s' M. inversion M as [s0 j wk l wk' Hj Hm|]; subst. rewrite forallb_forall in HF.
    specialize (HF wk (nth_error_In _ _ Hj)). destruct Hm; discriminate.
  - intros HN. apply forallb_forall. intros wk Hin. apply In_nth_error in Hin as (i & Hi).
    assert (K : forall ls wk', ~ wmove pr P (ws i) (se_flag s) wk ls wk').
    { intros ls wk' Hm. eapply (HN i ls). eapply mv_worker; eauto. }
    unfold is_finished. specialize (HE i wk Hi). destruct wk as [pc g ev]. destruct pc as [| |k| |]; cbn [wk_pc wk_gun] in *; auto; exfalso.
    + eapply K. apply mv_start.
    + destruct (HE eq_refl) as (tn & r & Hr). destruct r as [[[k g'] ev']|m|].
      * eapply K. eapply mv_iterate. eauto.
      * eapply K. eapply mv_crash; [eauto|discriminate].
      * eapply K. eapply mv_crash; [eauto|discriminate].
    + destruct (p_any P && score_finite (b_score (sg_best g))) eqn:E1; [eapply K; apply mv_success; auto|].
      destruct ((length (i_slots (p_input P)) =? 1) || (k <? 1))%nat eqn:E2; eapply K; [apply mv_last|apply mv_again]; auto.
Qed.
Print Assumptions C84_over_when_nobody_can_move.

(** ** The result of a session with a crash is an error, and only then *)
Theorem C84_a_crash_is_reported :
  forall (s : session), forallb is_finished (se_workers s) = true ->
    ((exists wk, In wk (se_workers s) /\ wk_pc wk = WCrashed) <-> wait s = Err "worker panic"%string) /\
    ((forall wk, In wk (se_workers s) -> wk_pc wk <> WCrashed) <-> exists sol, wait s = Ok sol).
Proof.
  intros s HF. rewrite forallb_forall in HF.
  assert (A : (exists wk, In wk (se_workers s) /\ wk_pc wk = WCrashed) -> wait s = Err "worker panic"%string).
  { intros (wk & Hin & Hc). unfold wait, join_all.
    assert (G : forall b, mfold join_one (se_workers s) b = Panic).
    { clear HF. induction (se_workers s) as [|x l IH]; intros b; [destruct Hin|]. cbn [mfold]. destruct Hin as [->|Hin].
      - unfold join_one. rewrite Hc. reflexivity.
      - unfold join_one at 1. destruct (wk_pc x); cbn [bind]; auto. }
    rewrite G. reflexivity. }
  assert (B : (forall wk, In wk (se_workers s) -> wk_pc wk <> WCrashed) -> exists sol, wait s = Ok sol).
  { intros HN. unfold wait, join_all. rewrite join_done; [eauto|]. intros wk Hin. specialize (HF wk Hin). specialize (HN wk Hin).
    unfold is_finished in HF. destruct (wk_pc wk); congruence. }
  assert (D : (exists wk, In wk (se_workers s) /\ wk_pc wk = WCrashed) \/ forall wk, In wk (se_workers s) -> wk_pc wk <> WCrashed).
  { clear. induction (se_workers s) as [|x l [(w & H1 & H2)|IH]]; [right; intros ? []|left; exists w; split; [right|]; auto|].
    destruct (wk_pc x) eqn:E; try (right; intros wk [<-|H]; [congruence|auto]). left. exists x. split; [left|]; auto. }
  split; (split; [auto|]).
  - intros W. destruct D as [D|D]; auto. destruct (B D). congruence.
  - intros (sol & W). destruct D as [D|D]; auto. apply A in D. congruence.
Qed.
Print Assumptions C84_a_crash_is_reported.

(** ** A crash disturbs no other worker *)
Theorem C84_a_crash_disturbs_nobody :
  forall (pr : profile) (P : problem) (ws : nat -> world) (s s' : session) (i : nat) ls,
    move pr P ws s (Some i, ls) s' -> (forall wk, nth_error (se_workers s') i = Some wk -> wk_pc wk = WCrashed) ->
    se_flag s' = se_flag s /\ length (se_workers s') = length (se_workers s) /\
    forall j, j <> i -> nth_error (se_workers s') j = nth_error (se_workers s) j.
Proof.
  intros pr P ws s s' i ls M HC. inversion M as [s0 j wk l wk' Hj Hm|]; subst. cbn [se_workers se_flag] in *.
  assert (Hc : wk_pc wk' = WCrashed) by (apply HC, nth_error_upd_same, nth_error_Some; congruence).
  split; [|split; [apply upd_length|intros k Hk; apply nth_error_upd_other; auto]].
  destruct Hm; cbn [wk_pc] in Hc; try discriminate. cbn. apply orb_false_r.
Qed.
Print Assumptions C84_a_crash_disturbs_nobody.

(** ** The program then fails and writes nothing *)
Theorem C84_program_fails_without_output :
  forall (O : Type) (inputs : O -> list string) (output : O -> option string) (e : surroundings O) (o : O) text d o' (s : session) wk,
    read_input_string inputs e o = Ok text -> env_read e o text = (Ok d, o') ->
    env_solve e o' d = wait s -> forallb is_finished (se_workers s) = true -> In wk (se_workers s) -> wk_pc wk = WCrashed ->
    run inputs output e o = (Some 1, []).
Proof.
  intros O inputs output e o text d o' s wk HR HD HS HF Hin Hc.
  assert (E : wait s = Err "worker panic"%string) by (apply (C84_a_crash_is_reported s HF); eauto).
  unfold run, try_run. rewrite HR, HD, HS, E. reflexivity.
Qed.
Print Assumptions C84_program_fails_without_output.

(** ** Example: a worker finds the best possible solution, the other one crashes
    (a negative limit for the preprocessing is an arithmetic panic in the search) *)
Definition P84 : problem := mkProblem (p_input P5) (p_analysis P5) (p_static P5) (fun x => x) (p_cost P5) false true 13 (-1).
Definition w84 : world := mkWorld (o_count 1) (o_count 1) (brute_env no_clock) no_clock.
Definition ws84 : nat -> world := fun i => if Nat.eqb i 0 then w5 else w84.
Definition it84 : nat * shotgun * list event := value (0, new_shotgun, []) (iterate Debug P84 w5 true tn1 1 new_shotgun).
Lemma it84_eq : iterate Debug P84 w5 true tn1 1 new_shotgun = Some (Ok it84). Proof. vm_compute. reflexivity. Qed.
Definition s84 : session := mkSession true [mkWorker WDone (snd (fst it84)) (snd it84); mkWorker WCrashed new_shotgun []].
Definition trace84 : list (option nat * list label) :=
  [(Some 0, [LLoad false; LStart]); (Some 1, [LLoad false; LStart]); (Some 0, [LIterated]); (Some 0, [LCancel]); (Some 1, [LOther])].
Lemma moves84 : moves Debug P84 ws84 (start P84 2) trace84 s84.
Proof.
  pose proof it84_eq as E. assert (EF : score_finite (b_score (sg_best (snd (fst it84)))) = true) by (vm_compute; reflexivity).
  unfold s84. destruct it84 as [[k g] ev]. cbn [fst snd] in *. change (start P84 2) with (mkSession false [new_worker; new_worker]).
  eapply mvs_step. { apply (mv_worker Debug P84 ws84 (mkSession false [new_worker; new_worker]) 0 new_worker); [reflexivity|apply mv_start]. }
  cbn [se_flag se_workers upd existsb orb].
  eapply mvs_step. { eapply (mv_worker Debug P84 ws84 _ 1 new_worker); [reflexivity|apply mv_start]. }
  cbn [se_flag se_workers upd existsb orb].
  eapply mvs_step. { eapply (mv_worker Debug P84 ws84 _ 0); [reflexivity|]. change (ws84 0) with w5. apply (mv_iterate Debug P84 w5 _ _ _ tn1 k g ev E). }
  cbn [se_flag se_workers upd existsb orb].
  eapply mvs_step. { eapply (mv_worker Debug P84 ws84 _ 0); [reflexivity|]. apply mv_success. rewrite EF. reflexivity. }
  cbn [se_flag se_workers upd existsb orb].
  eapply mvs_step. { eapply (mv_worker Debug P84 ws84 _ 1); [reflexivity|]. change (ws84 1) with w84. apply (mv_crash Debug P84 w84 _ _ _ tn1 Panic); [vm_compute; reflexivity|discriminate]. }
  cbn [se_flag se_workers upd existsb orb]. apply mvs_refl.
Qed.
Example C84_witness : moves Debug P84 ws84 (start P84 2) trace84 s84 /\ forallb is_finished (se_workers s84) = true /\
  score_finite (b_score (sg_best (snd (fst it84)))) = true /\ wait s84 = Err "worker panic"%string /\
  map wk_pc (se_workers s84) = [WDone; WCrashed].
Proof.
  split; [exact moves84|]. split; [reflexivity|]. split; [vm_compute; reflexivity|]. split; [vm_compute; reflexivity|reflexivity].
Qed.
