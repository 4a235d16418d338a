(** More property theorems about the whole program: C75, C76. *)
From Verif Require Import Base M_Data Spec M_Scoring P_Scoring Spec_Score M_Rng M_Critical Spec_Search M_Search P_Sums M_Flow Spec_Flow Spec_Calls P_Flow1 M_Climb M_Threads Spec_Climb Spec_Threads
  M_Build Spec_Input P_Input P_Minor P_Critical P_Built M_Output Spec_Output P_Output1 M_Main Spec_Program P_Session.
From Verif Require P_Check P_Brute T_Search M_Script Spec_Script P_Script4 P_Script8 T_Script T_Climb T_Flow T_Exact T_Output T_Main.
From Coq Require Import String.
Notation length := Datatypes.length.
Notation get := Base.get.
Import ListNotations.
Open Scope string_scope.
Open Scope list_scope.
Import M_Script(settings, s_inputs, s_output, s_any, s_greedy, s_pref_exp, s_cs_timeout, s_no_cs, s_no_cs_simp, s_threads, s_max_neighbors, op, read_script, exec_all, rs_empty).
Import T_Output(delivered).
Import T_Main(sized, healthy, prepared_roomy).

Lemma prepare_fields {F} pr pow cost (o : settings F) d P : prepare pr pow cost o d = Ok P ->
  p_input P = d /\ p_pow P = pow (s_pref_exp o) /\ p_greedy P = s_greedy o /\ p_any P = s_any o.
Proof. unfold prepare. intros H. apply bind_ok in H as (an & _ & H). apply bind_ok in H as (st & _ & H). injection H as <-. auto. Qed.
(** What the program reads is an input built by [build_input]. *)
Lemma program_builds {F} good pr pf engine pow cost (e : surroundings (settings F)) o text d o' :
  program good pr pf engine pow cost e o -> env_read e o text = (Ok d, o') -> exists r, build_input pr r = Ok d /\ reader_u32 r.
Proof.
  intros HP H. rewrite (pg_read _ _ _ _ _ _ _ _ HP) in H. unfold script_reader in H. destruct (engine o text) as [xs fail] eqn:EE.
  apply P_Script4.read_script_ok in H as (tr & w & r & HX & _ & _ & _ & Hr & _ & Hb & _). exists r. split; auto.
  exact (P_Script8.run_reader_u32 _ _ _ _ _ _ _ HX Hr).
Qed.

(** ** C75: the options in effect decide the result.  The solution a run works with is,
    by the scoring mode and exponent in effect, at least as good as every solution
    any worker found; as many workers run as asked for (one if there is one slot);
    without --any no worker makes the others stop; the number of neighbours, the
    cost exponent and the time limits are the ones in effect; critical sets are
    used unless switched off (or greedy, or one slot), and simplified unless
    that is switched off. *)
Theorem C75_options_take_effect :
  forall (F : Type) (good : world -> Prop) (pr : profile) (pf : string -> option F) (engine : settings F -> string -> list op * option string)
         (pow : F -> f32 -> f32) (cost : F -> N -> Z) (e : surroundings (settings F)) (o o' : settings F) (text : string) (d : input_data) (sol : solution),
    (forall w, good w -> fair (w_hill w)) -> program good pr pf engine pow cost e o ->
    env_read e o text = (Ok d, o') -> fits d -> env_solve e o' d = Ok sol ->
    exists P ws tr s, moves pr P ws (start P (N.to_nat (s_threads o'))) tr s /\ wait s = Ok sol /\
      (p_input P = d /\ p_greedy P = s_greedy o' /\ p_any P = s_any o' /\ p_max_neighbors P = N.to_nat (s_max_neighbors o') /\
       p_cs_timeout P = s_cs_timeout o' /\ p_cost P = cost (s_pref_exp o')) /\
      (s_no_cs o' = true \/ s_greedy o' = true \/ length (i_slots d) <= 1 -> an_sets (p_analysis P) = [] /\ forall p, for_preference (p_analysis P) p = []) /\
      (s_no_cs o' = false -> s_greedy o' = false -> 1 < length (i_slots d) ->
         exists sets, analyze_sets pr d = Ok sets /\ an_sets (p_analysis P) = (if s_no_cs_simp o' then sets else simplify_sets sets)) /\
      length (se_workers s) = (if length (i_slots d) =? 1 then 1 else Nat.max (N.to_nat (s_threads o')) 1)%nat /\
      (s_any o' = false -> forall i ls, In (Some i, ls) tr -> ~ In LCancel ls) /\
      (forall wk c sc sc', In wk (se_workers s) -> In c (hc_found (sg_climber (wk_gun wk))) ->
         evaluate pr (pow (s_pref_exp o')) (s_greedy o') d sol = Ok sc -> evaluate pr (pow (s_pref_exp o')) (s_greedy o') d c = Ok sc' ->
         score_lt sc' sc = false).
Proof.
  intros F good pr pf engine pow cost e o o' text d sol HG HP HR HF HS.
  destruct (program_builds _ _ _ _ _ _ _ _ _ _ _ HP HR) as (r & Hb & HU).
  assert (HSv := pg_solve _ _ _ _ _ _ _ _ HP _ _ _ HR). rewrite HS in HSv. inversion HSv as [|P ws tr s HPr Hg HM Hfin E]; subst.
  destruct (prepare_fields _ _ _ _ _ _ HPr) as (EI & EPw & EG & EA).
  assert (HW : wf_input (p_input P)). { rewrite EI. destruct (build_inv _ _ _ Hb) as (raw & cs & css & B). eapply b_wf; eauto. }
  exists P, ws, tr, s. split; [exact HM|]. split; [congruence|]. split; [|split; [|split; [|split; [|split]]]].
  - unfold prepare in HPr. apply bind_ok in HPr as (an & _ & HPr). apply bind_ok in HPr as (st & _ & HPr). injection HPr as <-. cbn. auto 10.
  - intros Hno. unfold prepare in HPr. apply bind_ok in HPr as (an & Han & HPr). apply bind_ok in HPr as (st & _ & HPr). injection HPr as <-.
    cbn [p_analysis]. unfold prepare_analysis in Han.
    replace (negb (s_no_cs o') && negb (s_greedy o') && (1 <? length (i_slots d))%nat)%bool with false in Han.
    { cbn in Han. injection Han as <-. split; auto. }
    symmetry. destruct Hno as [-> | [-> | Hl]]; [reflexivity|apply andb_false_iff; left; apply andb_false_r|]. apply andb_false_iff. right. apply Nat.ltb_ge. exact Hl.
  - intros H1 H2 Hl. unfold prepare in HPr. apply bind_ok in HPr as (an & Han & HPr). apply bind_ok in HPr as (st & _ & HPr). injection HPr as <-.
    cbn [p_analysis]. unfold prepare_analysis in Han. apply Nat.ltb_lt in Hl. rewrite H1, H2, Hl in Han. cbn [negb andb] in Han. unfold new_analysis in Han.
    apply bind_ok in Han as (sets & Hs & Han). injection Han as <-. exists sets. split; auto. cbn. destruct (s_no_cs_simp o'); auto.
  - assert (L : forall a t b, moves pr P ws a t b -> length (se_workers b) = length (se_workers a)).
    { clear. intros a t b H. induction H as [|a l a' t b HM HMs IH]; auto. rewrite IH. inversion HM; subst; cbn; auto. apply upd_length. }
    rewrite (L _ _ _ HM). cbn. rewrite repeat_length. unfold num_threads. rewrite EI. reflexivity.
  - intros Ha i ls Hl Hc.
    assert (L : forall a t b, moves pr P ws a t b -> forall i ls, In (Some i, ls) t -> In LCancel ls -> p_any P = true).
    { clear. intros a t b H. induction H as [|a l a' t b HM HMs IH]; intros i ls Hi Hc; [destruct Hi|]. destruct Hi as [->|Hi]; [|eauto].
      inversion HM as [? ? ? ? ? Hn W|]; subst. destruct W; cbn in Hc; repeat (destruct Hc as [Hc|Hc]; [try discriminate|]); try destruct Hc.
      apply andb_true_iff in H as [H _]. exact H. }
    pose proof (L _ _ _ HM _ _ Hl Hc). congruence.
  - intros wk c sc sc' Hwk Hc Hsc Hsc'. rewrite <- EI in HF.
    destruct (T_Climb.C04_result_is_best pr P ws _ tr s sol HW HF (fun i => HG _ (Hg i)) HM) as (sc0 & E0 & _ & H0 & _); [congruence|].
    assert (sc0 = sc). { unfold score_of in E0. rewrite EI, EPw, EG in E0. congruence. } subst sc0.
    apply (H0 wk c sc'); auto. unfold score_of. rewrite EI, EPw, EG. exact Hsc'.
Qed.
Print Assumptions C75_options_take_effect.
Example C75_witness :
  program healthy Debug T_Script.pf0 (fun _ _ => (T_Main.xs5, None)) (fun (_ : nat) x => x) (fun _ => T_Flow.cube) T_Main.e5 T_Main.o5 /\
  (forall w, healthy w -> fair (w_hill w)) /\ env_read T_Main.e5 T_Main.o5 "" = (Ok T_Climb.d5, T_Main.o5) /\ fits T_Climb.d5 /\
  env_solve T_Main.e5 T_Main.o5 T_Climb.d5 = Ok (SolComplete [Some 0; Some 1; Some 1] [[0; 2]; [0; 1]]).
Proof.
  split; [exact T_Main.program5|]. split; [intros w Hw; apply Hw|]. split; [exact (T_Main.e5_reads "")|]. split; [exact T_Climb.d5_fits|]. vm_compute. reflexivity.
Qed.

(** ** C76: the whole program on one slot.  If the script's input has one slot and no
    optional choice, and the session is not disturbed, the program ends with exit
    code 0 (or 1 if a file cannot be written): if it outputs nothing, there is no
    valid solution; otherwise it outputs the tables of a valid solution whose worst
    preference no valid solution undercuts. *)
Theorem C76_one_slot_end_to_end_partial :
  forall (F : Type) (pr : profile) (pf : string -> option F) (engine : settings F -> string -> list op * option string)
         (pow : F -> f32 -> f32) (cost : F -> N -> Z) (e : surroundings (settings F)) (o o' : settings F) (es : list effect) (text : string) (d : input_data),
    program healthy pr pf engine pow cost e o ->
    read_input_string s_inputs e o = Ok text -> env_read e o text = (Ok d, o') ->
    solved_undisturbed healthy pr pow cost o' d (env_solve e o' d) ->
    sized d -> (0 <= s_cs_timeout o')%Z -> s_greedy o' = false ->
    length (i_slots d) = 1 -> (forall ch, In ch (i_choices d) -> ch_optional ch = false) -> i_choosers d <> [] ->
    tame (pow (s_pref_exp o')) d -> (N.of_nat (length (i_choosers d)) < 2 ^ 23)%N ->
    (i_max_pref d <= 2 ^ 24)%N -> (forall p c y, pref_of d p c y -> In y (i_levels d)) ->
    run s_inputs s_output e o = (Some 0, es) ->
    (es = [] /\ forall T A, ~ valid_solution d T A) \/
    exists T A arows, valid_solution d T A /\ assignment_table d T A arows /\
      es = [delivered (s_output o') ".assignment.csv" (table_text (("Chooser" :: map sl_name (i_slots d)) :: arows))] /\
      forall T' A' x y, valid_solution d T' A' -> worst_pref d A x -> worst_pref d A' y -> (x <= y)%N.
Proof.
  intros F pr pf engine pow cost e o o' es text d HP HT HR HSU HZ Hcs Hg H1 HO Hne Htame HN Hmax Hlev H.
  destruct (program_builds _ _ _ _ _ _ _ _ _ _ _ HP HR) as (r & Hb & HU).
  destruct (prepared_roomy F pr pr pow cost o' r d Hb HU HZ Hcs) as (P & EP & RP).
  assert (EA : exists nc ns, prepare_analysis pr d nc (s_greedy o') ns = Ok (p_analysis P)).
  { unfold prepare in EP. apply bind_ok in EP as (an & E1 & EP). apply bind_ok in EP as (st & _ & EP). injection EP as <-. eauto. }
  destruct EA as (nc & ns & EA). destruct (prepare_fields _ _ _ _ _ _ EP) as (EI & EPw & EG & EAny).
  inversion HSU as [E1 E2|P' ws tr s HPr Hg' HM HUn Hfin E]; [congruence|]. assert (P' = P) by congruence. subst P'.
  destruct (T_Exact.C64_one_slot_exact_partial pr P nc ns ws (N.to_nat (s_threads o')) tr s) as (sol & EW & HSol); auto; rewrite ?EI, ?EG, ?EPw; auto.
  { intros i. apply (Hg' i). } { intros i. apply (Hg' i). }
  { intros wk Hw. rewrite forallb_forall in Hfin. auto. }
  assert (ES : env_solve e o' d = Ok sol) by congruence. rewrite EI in HSol.
  assert (HV : forall text0 d0 o0 sol0, read_input_string s_inputs e o = Ok text0 -> env_read e o text0 = (Ok d0, o0) -> env_solve e o0 d0 = Ok sol0 ->
       sol0 = SolInvalid \/ exists sch A, sol0 = SolComplete sch A /\ valid_solution d0 sch A).
  { intros text0 d0 o0 sol0 K1 K2 K3. rewrite HT in K1. injection K1 as <-. rewrite HR in K2. injection K2 as <- <-. rewrite ES in K3. injection K3 as <-.
    destruct (T_Climb.C01_result_valid pr P ws _ _ _ sol (ro_wf _ _ RP) (ro_fits _ _ RP) (fun i => proj1 (proj2 (proj1 (Hg' i)))) HM EW) as [->|(sch & A & -> & V)]; auto.
    right. rewrite EI in V. eauto. }
  destruct (T_Output.C60_success _ _ _ _ _ _ HV H) as (text0 & d0 & o0 & sol0 & K1 & K2 & K3 & K4).
  rewrite HT in K1. injection K1 as <-. rewrite HR in K2. injection K2 as <- <-. rewrite ES in K3. injection K3 as <-.
  destruct K4 as [[-> ->]|(sch & A & srows & arows & -> & V & T1 & T2 & ->)].
  - left. split; auto.
  - right. exists sch, A, arows. split; auto. split; auto. rewrite H1. split; [reflexivity|]. destruct HSol as [_ HSol]. apply HSol; auto. congruence.
Qed.
Print Assumptions C76_one_slot_end_to_end_partial.

(** With several slots: an undisturbed run without --any that ends with exit code 0
    has output nothing, and there is no valid scheduling (conditions of C65). *)
Theorem C76_several_slots_end_to_end_partial :
  forall (F : Type) (pr : profile) (pf : string -> option F) (engine : settings F -> string -> list op * option string)
         (pow : F -> f32 -> f32) (cost : F -> N -> Z) (e : surroundings (settings F)) (o o' : settings F) (es : list effect) (text : string) (d : input_data),
    program healthy pr pf engine pow cost e o ->
    read_input_string s_inputs e o = Ok text -> env_read e o text = (Ok d, o') ->
    solved_undisturbed healthy pr pow cost o' d (env_solve e o' d) ->
    sized d -> (0 <= s_cs_timeout o')%Z ->
    length (i_slots d) <> 1 -> i_choosers d <> [] -> no_self_relation d ->
    never_overfull d \/ (forall ch, In ch (i_choices d) -> ch_min ch <= 1 /\ ch_min ch <= ch_max ch)%N \/
      (total ch_min d <= N.of_nat (length (i_choosers d)))%N ->
    run s_inputs s_output e o = (Some 0, es) ->
    (es = [] /\ forall T, ~ valid_scheduling d T) \/ (s_any o' = true /\ exists T A, valid_solution d T A).
Proof.
  intros F pr pf engine pow cost e o o' es text d HP HT HR HSU HZ Hcs H1 Hne HNS HNO H.
  destruct (program_builds _ _ _ _ _ _ _ _ _ _ _ HP HR) as (r & Hb & HU).
  destruct (prepared_roomy F pr pr pow cost o' r d Hb HU HZ Hcs) as (P & EP & RP). destruct (prepare_fields _ _ _ _ _ _ EP) as (EI & EPw & EG & EAny).
  inversion HSU as [E1 E2|P' ws tr s HPr Hg' HM HUn Hfin E]; [congruence|]. assert (P' = P) by congruence. subst P'.
  destruct (T_Exact.C65_no_solution_means_no_scheduling_partial pr r P ws (N.to_nat (s_threads o')) tr s) as (sol & EW & HSol); auto; rewrite ?EI; auto.
  { intros i. apply (Hg' i). } { intros i. apply (Hg' i). }
  { intros wk Hw. rewrite forallb_forall in Hfin. auto. }
  assert (ES : env_solve e o' d = Ok sol) by congruence. rewrite EI, EAny in HSol.
  assert (D : sol = SolInvalid \/ exists sch A, sol = SolComplete sch A /\ valid_solution d sch A).
  { destruct (T_Climb.C01_result_valid pr P ws _ _ _ sol (ro_wf _ _ RP) (ro_fits _ _ RP) (fun i => proj1 (proj2 (proj1 (Hg' i)))) HM EW) as [->|(sch & A & -> & V)]; auto.
    right. rewrite EI in V. eauto. }
  destruct D as [->|(sch & A & -> & V)]; [|right; split; [apply HSol|eauto]]. left. split; [|exact HSol].
  unfold run in H. rewrite HT in H. unfold try_run in H. rewrite HR, ES in H. cbn [is_invalid] in H. congruence.
Qed.
Print Assumptions C76_several_slots_end_to_end_partial.

(** ** A run on one slot: the problem of C64 as a script. *)
Definition xs76 : list op :=
  [M_Script.OpNewSlot "s"; M_Script.OpAdd (M_Script.HSlot 0);
   M_Script.OpNewChoice "a" [M_Script.TgBounds 1 2]; M_Script.OpAdd (M_Script.HChoice 0);
   M_Script.OpNewChoice "b" [M_Script.TgBounds 1 2]; M_Script.OpAdd (M_Script.HChoice 1);
   M_Script.OpNewChooser "p" [M_Script.DInt 6; M_Script.DInt 9]; M_Script.OpAdd (M_Script.HChooser 0);
   M_Script.OpNewChooser "q" [M_Script.DInt 3; M_Script.DInt 9]; M_Script.OpAdd (M_Script.HChooser 1);
   M_Script.OpNewChooser "r" [M_Script.DInt 0; M_Script.DInt 9]; M_Script.OpAdd (M_Script.HChooser 2)].
Definition o76 : settings nat := M_Script.mkSettings [] None false 3 10%Z 3%Z false false 4%N 13%N false.
Definition e76 : surroundings (settings nat) := mkSurroundings (fun _ => None) (Some "the script") (fun _ => true)
  (script_reader Debug T_Script.pf0 (fun _ _ => (xs76, None))) (fun _ _ => wait T_Exact.s64)
  (fun o d sol => evaluate Debug (fun x => x) (s_greedy o) d sol).
Lemma xs76_reads : read_script Debug T_Script.pf0 o76 xs76 None = (Ok T_Exact.d64, o76).
Proof. vm_compute. reflexivity. Qed.
Lemma e76_reads text : env_read e76 o76 text = (Ok T_Exact.d64, o76).
Proof. rewrite <- xs76_reads. reflexivity. Qed.
Lemma prepare76 : prepare Debug (fun (_ : nat) x => x) (fun _ => T_Flow.cube) o76 T_Exact.d64 = Ok T_Exact.P64.
Proof. unfold T_Exact.P64, T_Exact.a64, T_Exact.sd64. vm_compute. reflexivity. Qed.
Lemma program76 : program healthy Debug T_Script.pf0 (fun _ _ => (xs76, None)) (fun (_ : nat) x => x) (fun _ => T_Flow.cube) e76 o76.
Proof.
  constructor.
  - reflexivity.
  - intros text d o' H. rewrite e76_reads in H. apply T_Main.pair_ok in H as [<- <-].
    cbn [env_solve e76]. apply (sv_session _ _ _ _ _ _ T_Exact.P64 T_Climb.ws5 T_Exact.trace64).
    + exact prepare76.
    + exact T_Climb.ws5_working.
    + exact T_Exact.moves64.
    + reflexivity.
  - reflexivity.
Qed.
Lemma d64_sized : sized T_Exact.d64.
Proof.
  constructor.
  - vm_compute. discriminate.
  - vm_compute. discriminate.
  - vm_compute. discriminate.
  - split; vm_compute; discriminate.
  - intros c Hc. cut (ch_min c = 1%N /\ ch_max c = 2%N); [intros [-> ->]; unfold i32_max; split; lia|].
    revert c Hc. apply Forall_forall. vm_compute. repeat constructor.
  - intros k n Hk. vm_compute in Hk. destruct Hk.
  - vm_compute. reflexivity.
Qed.
Definition text76 : string := table_text [["Chooser"; "s"]; ["p"; "a"]; ["q"; "b"]; ["r"; "b"]].
Example C76_witness :
  program healthy Debug T_Script.pf0 (fun _ _ => (xs76, None)) (fun (_ : nat) x => x) (fun _ => T_Flow.cube) e76 o76 /\
  env_read e76 o76 "the script" = (Ok T_Exact.d64, o76) /\
  solved_undisturbed healthy Debug (fun (_ : nat) x => x) (fun _ => T_Flow.cube) o76 T_Exact.d64 (env_solve e76 o76 T_Exact.d64) /\
  sized T_Exact.d64 /\ tame (fun x => x) T_Exact.d64 /\
  run s_inputs s_output e76 o76 = (Some 0, [delivered None ".assignment.csv" text76]).
Proof.
  split; [exact program76|]. split; [exact (e76_reads _)|]. split.
  { cbn [env_solve e76]. apply (su_session _ _ _ _ _ _ T_Exact.P64 T_Climb.ws5 T_Exact.trace64).
    - exact prepare76.
    - intros i. split; [apply T_Climb.ws5_working|apply T_Exact.w5_calm].
    - exact T_Exact.moves64.
    - intros l [<-|[<-|[<-|[]]]]; cbn; split; discriminate.
    - reflexivity. }
  split; [exact d64_sized|]. split; [exact T_Exact.d64_tame|]. vm_compute. reflexivity.
Qed.

(** The unsolvable problem of C65 as a script, two workers. *)
Definition xs76n : list op :=
  [M_Script.OpNewSlot "s"; M_Script.OpAdd (M_Script.HSlot 0); M_Script.OpNewSlot "t"; M_Script.OpAdd (M_Script.HSlot 1);
   M_Script.OpNewChoice "a" [M_Script.TgBounds 1 2]; M_Script.OpAdd (M_Script.HChoice 0);
   M_Script.OpNewChoice "b" [M_Script.TgBounds 1 1]; M_Script.OpAdd (M_Script.HChoice 1);
   M_Script.OpNewChooser "p" [M_Script.DInt 0; M_Script.DInt 1]; M_Script.OpAdd (M_Script.HChooser 0);
   M_Script.OpNewChooser "q" [M_Script.DInt 1; M_Script.DInt 0]; M_Script.OpAdd (M_Script.HChooser 1)].
Definition o76n : settings nat := M_Script.mkSettings [] None false 3 10%Z 3%Z false false 2%N 13%N false.
Definition e76n : surroundings (settings nat) := mkSurroundings (fun _ => None) (Some "the script") (fun _ => true)
  (script_reader Debug T_Script.pf0 (fun _ _ => (xs76n, None))) (fun _ _ => wait T_Exact.s65)
  (fun o d sol => evaluate Debug (fun x => x) (s_greedy o) d sol).
Lemma e76n_reads text : env_read e76n o76n text = (Ok T_Search.d12n, o76n).
Proof. vm_compute. reflexivity. Qed.
Lemma prepare76n : prepare Debug (fun (_ : nat) x => x) (fun _ => T_Flow.cube) o76n T_Search.d12n = Ok T_Exact.P65.
Proof. unfold T_Exact.P65, T_Exact.a65, T_Exact.sd65. vm_compute. reflexivity. Qed.
Lemma d12n_sized : sized T_Search.d12n.
Proof.
  constructor.
  - vm_compute. discriminate.
  - vm_compute. discriminate.
  - vm_compute. discriminate.
  - split; vm_compute; discriminate.
  - intros c Hc. cut (ch_min c = 1%N /\ (ch_max c = 1%N \/ ch_max c = 2%N)); [intros [-> [->| ->]]; unfold i32_max; split; lia|].
    revert c Hc. apply Forall_forall. vm_compute. constructor; [auto|constructor; auto].
  - intros k n Hk. vm_compute in Hk. destruct Hk.
  - vm_compute. reflexivity.
Qed.
Example C76_several_slots_witness :
  program healthy Debug T_Script.pf0 (fun _ _ => (xs76n, None)) (fun (_ : nat) x => x) (fun _ => T_Flow.cube) e76n o76n /\
  env_read e76n o76n "the script" = (Ok T_Search.d12n, o76n) /\
  solved_undisturbed healthy Debug (fun (_ : nat) x => x) (fun _ => T_Flow.cube) o76n T_Search.d12n (env_solve e76n o76n T_Search.d12n) /\
  sized T_Search.d12n /\ no_self_relation T_Search.d12n /\ (forall ch, In ch (i_choices T_Search.d12n) -> ch_min ch <= 1 /\ ch_min ch <= ch_max ch)%N /\
  run s_inputs s_output e76n o76n = (Some 0, []).
Proof.
  split. { constructor.
    - reflexivity.
    - intros text d o' H. rewrite e76n_reads in H. apply T_Main.pair_ok in H as [<- <-].
      cbn [env_solve e76n]. apply (sv_session _ _ _ _ _ _ T_Exact.P65 T_Climb.ws5 T_Exact.trace65).
      + exact prepare76n.
      + exact T_Climb.ws5_working.
      + exact T_Exact.moves65.
      + reflexivity.
    - reflexivity. }
  split; [exact (e76n_reads _)|]. split.
  { cbn [env_solve e76n]. apply (su_session _ _ _ _ _ _ T_Exact.P65 T_Climb.ws5 T_Exact.trace65).
    - exact prepare76n.
    - intros i. split; [apply T_Climb.ws5_working|apply T_Exact.w5_calm].
    - exact T_Exact.moves65.
    - intros l Hl. repeat (destruct Hl as [<-|Hl]; [cbn; split; discriminate|]). destruct Hl.
    - reflexivity. }
  split; [exact d12n_sized|]. split; [intros k c []|]. split; [|vm_compute; reflexivity].
  intros ch Hch. vm_compute in Hch. destruct Hch as [<-|[<-|[]]]; cbn; lia.
Qed.

(** The conditions are needed: the inputs of C64_coarse_levels_refuted and
    C65_gives_up_refuted as scripts. *)
Definition script_of (slots : list string) (choices : list (string * Z * Z)) (choosers : list (string * list Z)) : list op :=
  flat_map (fun '(i, s) => [M_Script.OpNewSlot s; M_Script.OpAdd (M_Script.HSlot i)]) (combine (seq 0 (length slots)) slots) ++
  flat_map (fun '(i, (s, lo, hi)) => [M_Script.OpNewChoice s [M_Script.TgBounds lo hi]; M_Script.OpAdd (M_Script.HChoice i)]) (combine (seq 0 (length choices)) choices) ++
  flat_map (fun '(i, (s, ps)) => [M_Script.OpNewChooser s (map M_Script.DInt ps); M_Script.OpAdd (M_Script.HChooser i)]) (combine (seq 0 (length choosers)) choosers).
Definition xs76c : list op := Eval vm_compute in
  script_of ["s"] [("x", 1%Z, 1%Z); ("y", 1%Z, 1%Z); ("z", 1%Z, 1%Z)] [("p", [1; 4; 0]%Z); ("q", [0; 10; 4]%Z); ("r", [4; 0; 10]%Z)].
Definition e76c : surroundings (settings nat) := mkSurroundings (fun _ => None) (Some "the script") (fun _ => true)
  (script_reader Debug T_Script.pf0 (fun _ _ => (xs76c, None))) (fun _ _ => wait T_Exact.s64c)
  (fun o d sol => evaluate Debug (fun x => x) (s_greedy o) d sol).
Lemma xs76c_reads : read_script Debug T_Script.pf0 o76 xs76c None = (Ok T_Flow.d06b, o76).
Proof. vm_compute. reflexivity. Qed.
Lemma e76c_reads text : env_read e76c o76 text = (Ok T_Flow.d06b, o76).
Proof. rewrite <- xs76c_reads. reflexivity. Qed.
Lemma prepare76c : prepare Debug (fun (_ : nat) x => x) (fun _ => T_Flow.cube) o76 T_Flow.d06b = Ok T_Exact.P64c.
Proof. unfold T_Exact.P64c, T_Exact.a64c, T_Exact.sd64c. vm_compute. reflexivity. Qed.
(** One slot: an undisturbed run outputs a solution with worst preference 9 although a
    valid solution has 6. *)
Theorem C76_not_the_best_refuted :
  exists (e : surroundings (settings nat)) (o : settings nat) (engine : settings nat -> string -> list op * option string) (text : string) (d : input_data) T A B,
    program healthy Debug T_Script.pf0 engine (fun (_ : nat) x => x) (fun _ => T_Flow.cube) e o /\
    read_input_string s_inputs e o = Ok text /\ env_read e o text = (Ok d, o) /\
    solved_undisturbed healthy Debug (fun (_ : nat) x => x) (fun _ => T_Flow.cube) o d (env_solve e o d) /\
    s_greedy o = false /\ length (i_slots d) = 1 /\ (forall ch, In ch (i_choices d) -> ch_optional ch = false) /\
    run s_inputs s_output e o = (Some 0, [delivered None ".assignment.csv" (table_text [["Chooser"; "s"]; ["p"; "x"]; ["q"; "y"]; ["r"; "z"]])]) /\
    assignment_table d T A [["p"; "x"]; ["q"; "y"]; ["r"; "z"]] /\ worst_pref d A 9 /\ valid_solution d T B /\ worst_pref d B 6.
Proof.
  exists e76c, o76, (fun _ _ => (xs76c, None)), "the script", T_Flow.d06b, [Some 0; Some 0; Some 0], [[0]; [1]; [2]], [[1]; [2]; [0]].
  split. { constructor.
    - reflexivity.
    - intros text d o' H. rewrite e76c_reads in H. apply T_Main.pair_ok in H as [<- <-].
      cbn [env_solve e76c]. apply (sv_session _ _ _ _ _ _ T_Exact.P64c T_Climb.ws5 T_Exact.trace64).
      + exact prepare76c.
      + exact T_Climb.ws5_working.
      + exact T_Exact.moves64c.
      + reflexivity.
    - reflexivity. }
  split; [reflexivity|]. split; [exact (e76c_reads _)|]. split.
  { cbn [env_solve e76c]. apply (su_session _ _ _ _ _ _ T_Exact.P64c T_Climb.ws5 T_Exact.trace64).
    - exact prepare76c.
    - intros i. split; [apply T_Climb.ws5_working|apply T_Exact.w5_calm].
    - exact T_Exact.moves64c.
    - intros l [<-|[<-|[<-|[]]]]; cbn; split; discriminate.
    - reflexivity. }
  split; [reflexivity|]. split; [reflexivity|]. split. { intros ch H. vm_compute in H. destruct H as [<-|[<-|[<-|[]]]]; reflexivity. }
  split; [vm_compute; reflexivity|].
  assert (W : forall A x p0 c0, A = [[0]; [1]; [2]] /\ x = 9%N /\ p0 = 0 /\ c0 = 0 \/ A = [[1]; [2]; [0]] /\ x = 6%N /\ p0 = 0 /\ c0 = 1 -> worst_pref T_Flow.d06b A x).
  { intros A x p0 c0 HA. split.
    - intros p c y Hp (row & Hr & Hc) (ch & Hch & Hy). destruct HA as [(-> & -> & _)|(-> & -> & _)];
      (destruct p as [|[|[|p]]]; cbn in Hr, Hch; [| | |destruct p; discriminate]);
      injection Hr as <-; injection Hch as <-; destruct Hc as [<-|[]]; cbn in Hy; injection Hy as <-; lia.
    - right. exists 0. destruct HA as [(-> & -> & _)|(-> & -> & _)]; [exists 0|exists 1]; (split; [cbn; lia|]);
      (split; [eexists; split; [reflexivity|left; reflexivity]|eexists; split; reflexivity]). }
  split.
  { split; [reflexivity|]. intros p pc Hp. destruct p as [|[|[|p]]]; [| | |destruct p; discriminate]; injection Hp as <-;
      (eexists; split; [reflexivity|]; split; [reflexivity|]; intros s Hs; assert (s = 0) as -> by (cbn in Hs; lia)).
    - exists 0. eexists. eexists. split; [eexists; split; [reflexivity|left; reflexivity]|]. split; [reflexivity|]. split; [reflexivity|]. split; [reflexivity|]. right. split; [reflexivity|intros t; vm_compute; discriminate].
    - exists 1. eexists. eexists. split; [eexists; split; [reflexivity|left; reflexivity]|]. split; [reflexivity|]. split; [reflexivity|]. split; [reflexivity|]. right. split; [reflexivity|intros t; vm_compute; discriminate].
    - exists 2. eexists. eexists. split; [eexists; split; [reflexivity|left; reflexivity]|]. split; [reflexivity|]. split; [reflexivity|]. split; [reflexivity|]. right. split; [reflexivity|intros t; vm_compute; discriminate]. }
  split; [apply (W _ _ 0 0); auto|]. split; [|apply (W _ _ 0 1); auto].
  apply P_Check.check_solution_ok; [apply P_Check.fits_b_ok|apply P_Check.wf_input_b_ok|]; vm_compute; reflexivity.
Qed.
Print Assumptions C76_not_the_best_refuted.

Definition xs76g : list op := Eval vm_compute in
  script_of ["s"; "t"] [("y", 1%Z, 1%Z); ("z", 2%Z, 3%Z); ("x", 3%Z, 3%Z)] [("p", [0; 0; 0]%Z); ("q", [0; 0; 0]%Z); ("r", [0; 0; 0]%Z)].
Definition o76g : settings nat := M_Script.mkSettings [] None false 3 10%Z 3%Z false false 1%N 13%N false.
Definition e76g : surroundings (settings nat) := mkSurroundings (fun _ => None) (Some "the script") (fun _ => true)
  (script_reader Debug T_Script.pf0 (fun _ _ => (xs76g, None))) (fun _ _ => wait T_Exact.sg65)
  (fun o d sol => evaluate Debug (fun x => x) (s_greedy o) d sol).
Lemma xs76g_reads : read_script Debug T_Script.pf0 o76g xs76g None = (Ok T_Search.d12, o76g).
Proof. vm_compute. reflexivity. Qed.
Lemma e76g_reads text : env_read e76g o76g text = (Ok T_Search.d12, o76g).
Proof. rewrite <- xs76g_reads. reflexivity. Qed.
Lemma prepare76g : prepare Debug (fun (_ : nat) x => x) (fun _ => T_Flow.cube) o76g T_Search.d12 = Ok T_Exact.P65g.
Proof. unfold T_Exact.P65g, T_Exact.a65g, T_Exact.sd65g. vm_compute. reflexivity. Qed.
Lemma wg_healthy i : (fun _ : nat => healthy T_Exact.wg) i.
Proof. cbn beta. split; [apply P_Brute.exact_honest, P_Brute.brute_exact|]. split; [apply (T_Climb.ws5_working 0)|apply T_Search.o_const_fair; unfold i32_min, i32_max; lia]. Qed.
(** Two slots: an undisturbed run ends with exit code 0 and outputs nothing although
    there is a valid solution. *)
Theorem C76_gives_up_refuted :
  exists (e : surroundings (settings nat)) (o : settings nat) (engine : settings nat -> string -> list op * option string) (text : string) (d : input_data) T A,
    program healthy Debug T_Script.pf0 engine (fun (_ : nat) x => x) (fun _ => T_Flow.cube) e o /\
    read_input_string s_inputs e o = Ok text /\ env_read e o text = (Ok d, o) /\
    solved_undisturbed healthy Debug (fun (_ : nat) x => x) (fun _ => T_Flow.cube) o d (env_solve e o d) /\
    s_any o = false /\ length (i_slots d) = 2 /\
    run s_inputs s_output e o = (Some 0, []) /\ valid_solution d T A.
Proof.
  exists e76g, o76g, (fun _ _ => (xs76g, None)), "the script", T_Search.d12, [Some 0; Some 0; Some 1], [[0; 2]; [1; 2]; [1; 2]].
  split. { constructor.
    - reflexivity.
    - intros text d o' H. rewrite e76g_reads in H. apply T_Main.pair_ok in H as [<- <-].
      cbn [env_solve e76g]. apply (sv_session _ _ _ _ _ _ T_Exact.P65g (fun _ => T_Exact.wg) T_Exact.trace64).
      + exact prepare76g.
      + exact wg_healthy.
      + exact T_Exact.moves65g.
      + reflexivity.
    - reflexivity. }
  split; [reflexivity|]. split; [exact (e76g_reads _)|]. split.
  { cbn [env_solve e76g]. apply (su_session _ _ _ _ _ _ T_Exact.P65g (fun _ => T_Exact.wg) T_Exact.trace64).
    - exact prepare76g.
    - intros i. split; [exact (wg_healthy i)|intros t; repeat split].
    - exact T_Exact.moves65g.
    - intros l [<-|[<-|[<-|[]]]]; cbn; split; discriminate.
    - reflexivity. }
  split; [reflexivity|]. split; [vm_compute; reflexivity|]. split; [vm_compute; reflexivity|].
  apply P_Check.check_solution_ok; [apply P_Check.fits_b_ok|apply P_Check.wf_input_b_ok|]; vm_compute; reflexivity.
Qed.
Print Assumptions C76_gives_up_refuted.
