(** Property theorems about the whole program: C62, C63. *)
From Verif Require Import Base M_Data Spec M_Scoring P_Scoring M_Rng M_Critical Spec_Search M_Search M_Flow Spec_Flow Spec_Calls P_Flow1 M_Climb M_Threads Spec_Climb Spec_Threads
  M_Build Spec_Input P_Input P_Minor P_Critical P_Built M_Output Spec_Output P_Output1 M_Main.
From Verif Require M_Script Spec_Script P_Script4 P_Script8 T_Script T_Climb T_Flow T_Output.
From Coq Require Import String.
Notation length := Datatypes.length.
Notation get := Base.get.
Import ListNotations.
Open Scope string_scope.
Open Scope list_scope.
Import M_Script(settings, s_inputs, s_output, s_cs_timeout, s_threads, op, read_script, exec_all, rs_empty, operand).
Import Spec_Script(no_renames, constraints_of, means, declared_choice, is_choice, additions, proper_trace).
Import T_Output(delivered).

(** ** C62: whatever the program outputs with exit code 0 is the tables of a valid
    solution of the script's input, and every constraint written in the script
    holds of the objects it was written with (see C57 for order relations). *)
Theorem C62_output_describes_valid_solution :
  forall (F : Type) (good : world -> Prop) (pr : profile) (pf : string -> option F) (engine : settings F -> string -> list op * option string)
         (pow : F -> f32 -> f32) (cost : F -> N -> Z) (e : surroundings (settings F)) (o : settings F) (es : list effect),
    (forall w, good w -> fair (w_hill w)) -> program good pr pf engine pow cost e o ->
    (forall d o', (exists text, env_read e o text = (Ok d, o')) -> fits d) ->
    run s_inputs s_output e o = (Some 0, es) ->
    exists text xs tr w d o',
      read_input_string s_inputs e o = Ok text /\ engine o text = (xs, None) /\
      exec_all pr pf (M_Script.mkWorld rs_empty o) xs = (tr, w) /\ read_script pr pf o xs None = (Ok d, o') /\
      (es = [] \/
       exists sch A srows arows, valid_solution d sch A /\
         scheduling_table d sch srows /\ assignment_table d sch A arows /\
         es = (if (1 <? length (i_slots d))%nat then [delivered (s_output o') ".scheduling.csv" (table_text (["Choice"; "Slot"] :: srows))] else [])
              ++ [delivered (s_output o') ".assignment.csv" (table_text (("Chooser" :: map sl_name (i_slots d)) :: arows))] /\
         (proper_trace tr -> no_renames xs ->
          exists ps, Forall2 (declared_choice tr) (filter is_choice (additions tr)) ps /\
            forall l rel rt, In (l, rel, rt) (constraints_of tr) ->
              (is_order rel = true -> exists j, l = M_Script.OpSlotSize j) ->
              means tr ps false sch A (l, rel, rt))).
Proof.
  intros F good pr pf engine pow cost e o es HG HP HF H.
  assert (HV : forall text d o' sol, read_input_string s_inputs e o = Ok text -> env_read e o text = (Ok d, o') -> env_solve e o' d = Ok sol ->
       sol = SolInvalid \/ exists sch A, sol = SolComplete sch A /\ valid_solution d sch A).
  { intros text d o' sol H1 H2 H3. assert (Hf : fits d) by (eapply HF; eauto).
    assert (H2' := H2). rewrite (pg_read _ _ _ _ _ _ _ _ HP) in H2'. unfold script_reader in H2'. destruct (engine o text) as [xs fail] eqn:EE.
    apply P_Script4.read_script_ok in H2' as (tr & w & r & HX & _ & _ & _ & Hr & _ & Hb & _).
    assert (HU := P_Script8.run_reader_u32 _ _ _ _ _ _ _ HX Hr).
    assert (HS := pg_solve _ _ _ _ _ _ _ _ HP _ _ _ H2). rewrite H3 in HS. inversion HS as [|P ws tr' s HPr Hg HM Hfin E]; subst.
    assert (EI : p_input P = d).
    { unfold prepare in HPr. apply bind_ok in HPr as (an & _ & HPr). apply bind_ok in HPr as (st & _ & HPr). injection HPr as <-. reflexivity. }
    rewrite <- EI in *. eapply T_Climb.C01_result_valid_for_input; [exact Hb|exact HU|exact Hf| |exact HM|congruence].
    intros i. apply HG, Hg. }
  destruct (T_Output.C60_success _ _ _ _ _ _ HV H) as (text & d & o' & sol & H1 & H2 & H3 & H4).
  assert (H2' := H2). rewrite (pg_read _ _ _ _ _ _ _ _ HP) in H2'. unfold script_reader in H2'. destruct (engine o text) as [xs fail] eqn:EE.
  destruct (P_Script4.read_script_ok _ _ _ _ _ _ _ H2') as (tr & w & r & HX & _ & -> & _).
  exists text, xs, tr, w, d, o'. split; auto. split; auto. split; auto. split; auto.
  destruct H4 as [[_ ->]|(sch & A & srows & arows & _ & V & T1 & T2 & ->)]; [auto|]. right.
  exists sch, A, srows, arows. split; auto. split; auto. split; auto. split; auto. intros Hp Hn.
  destruct (T_Script.C57_constraints_mean_their_handles_partial _ _ _ _ _ _ _ _ _ _ HX Hp Hn H2') as (ps & D & _ & M).
  exists ps. split; auto.
Qed.
Print Assumptions C62_output_describes_valid_solution.

(** ** C63: the program does not panic *)
(** Sizes within the machine integers. *)
Record sized (d : input_data) : Prop := {
  si_nodes : (N.of_nat (length (i_choosers d) * length (i_slots d) + length (i_choices d) + length (i_slots d)) <= u32_max)%N;
  si_choosers : (Z.of_nat (length (i_choosers d)) <= i32_max)%Z;
  si_slots : (2 * Z.of_nat (length (i_slots d)) <= i32_max)%Z;
  si_totals : totals_fit d;
  si_bounds : forall c, In c (i_choices d) -> (ch_min c <= ch_max c)%N /\ (Z.of_N (ch_max c) <= i32_max)%Z;
  si_limits : forall k n, In k (i_sched d) -> c_right k = TLimit n -> (Z.of_N n <= i32_max)%Z;
  si_prefs : (i_max_pref d < u32_max)%N
}.
Lemma sized_fits d : sized d -> (Z.of_nat (length (i_choices d)) <= i32_max)%Z -> fits d.
Proof. intros [H1 H2 H3 _ _ _ _] HC. unfold i32_max, u32_max in *. constructor; unfold i32_max, u32_max; lia. Qed.
(** Preparing an accepted input of such a size works, and gives a problem the
    session theorems apply to. *)
Lemma prepared_roomy (F : Type) pr pr' pow cost (o : settings F) r d : build_input pr' r = Ok d -> reader_u32 r -> sized d -> (0 <= s_cs_timeout o)%Z ->
  exists P, prepare pr pow cost o d = Ok P /\ roomy pr P.
Proof.
  intros Hb HU HS HT. destruct (build_inv _ _ _ Hb) as (raw & cs & css & B).
  assert (HC : (Z.of_nat (length (i_choices d)) <= i32_max)%Z) by (rewrite (b_choices_length _ _ _ _ _ _ B); apply (bf_size _ _ _ _ _ _ B)).
  assert (HF := sized_fits d HS HC). assert (HW := b_wf _ _ _ _ _ _ B HU).
  assert (HZ : analyzable d).
  { destruct HS as [H1 H2 H3 [H4 _] _ _ _]. constructor; auto. nia. }
  unfold prepare, prepare_analysis.
  match goal with |- context [new_analysis pr d ?a ?b] => destruct (analysis_total pr d a b HW (az_min _ HZ) (az_cap _ HZ)) as (an & EA); rewrite EA end.
  cbn [bind]. destruct (static_total d HF) as (st & ES). rewrite ES. cbn [bind]. eexists. split; [reflexivity|].
  constructor; cbn [p_input p_static p_analysis p_cs_timeout]; auto.
  - apply (built_searchable _ _ _ Hb); [apply si_totals|apply si_slots|apply si_limits]; auto.
  - exact (built_levels _ _ _ Hb).
  - exact (T_Flow.built_grouped _ _ _ Hb).
  - constructor; [apply si_nodes|apply si_choosers|apply si_bounds]; auto.
  - apply si_prefs; auto.
  - eauto.
Qed.
Definition healthy (w : world) : Prop := honest_lp (w_env w) true /\ fair (w_hill w) /\ fair (w_sched w).
(** What the solver returns in a healthy program. *)
Lemma program_solves {F} pr pf engine pow cost (e : surroundings (settings F)) o :
  program healthy pr pf engine pow cost e o ->
  (forall text d o', env_read e o text = (Ok d, o') -> sized d /\ (0 <= s_cs_timeout o')%Z) ->
  forall text d o', env_read e o text = (Ok d, o') -> exists sol, env_solve e o' d = Ok sol /\
      (sol = SolInvalid \/ exists sch A, sol = SolComplete sch A /\ valid_solution d sch A /\ exists sc, env_score e o' d sol = Ok sc).
Proof.
  intros HP HS. intros text d o' H2. destruct (HS _ _ _ H2) as [Hz Ht].
    assert (H2' := H2). rewrite (pg_read _ _ _ _ _ _ _ _ HP) in H2'. unfold script_reader in H2'. destruct (engine o text) as [xs fail] eqn:EE.
    apply P_Script4.read_script_ok in H2' as (tr & w & r & HX & _ & _ & _ & Hr & _ & Hb & _).
    assert (HU := P_Script8.run_reader_u32 _ _ _ _ _ _ _ HX Hr).
    destruct (prepared_roomy F pr pr pow cost o' r d Hb HU Hz Ht) as (P & EP & RP).
    assert (HSv := pg_solve _ _ _ _ _ _ _ _ HP _ _ _ H2).
    inversion HSv as [E1 E2|P' ws tr' s HPr Hg HM Hfin E]; [congruence|]. assert (P' = P) by congruence. subst P'.
    assert (EI : p_input P = d /\ p_pow P = pow (M_Script.s_pref_exp o') /\ p_greedy P = M_Script.s_greedy o').
    { unfold prepare in EP. apply bind_ok in EP as (an & _ & EP). apply bind_ok in EP as (st & _ & EP). injection EP as <-. auto. }
    destruct EI as (EI & EPw & EG).
    destruct (T_Climb.C52_session_never_panics pr P ws _ _ _ RP Hg HM) as [NC W].
    destruct W as (sol & Es).
    { intros wk Hw. rewrite forallb_forall in Hfin. specialize (Hfin _ Hw). specialize (NC _ Hw). unfold is_finished in Hfin.
      destruct (wk_pc wk); try discriminate; congruence. }
    exists sol. split; [congruence|].
    destruct (T_Climb.C01_result_valid pr P ws _ _ _ sol (ro_wf _ _ RP) (ro_fits _ _ RP) (fun i => proj1 (proj2 (Hg i))) HM Es) as [->|(sch & A & -> & V)]; [auto|].
    right. exists sch, A. rewrite EI in V. split; auto. split; auto. rewrite (pg_score _ _ _ _ _ _ _ _ HP).
    pose proof (ro_fits _ _ RP) as HF. pose proof (ro_wf _ _ RP) as HW. rewrite EI in HF, HW.
    destruct V as [VS [[V1 V2] VB VC VD]]. apply evaluate_total; auto.
    - apply si_prefs; auto.
    - apply (vs_length _ _ VS).
    - intros p row Hp. apply (V2 p row Hp).
    - apply (vs_range _ _ VS).
    - intros p c (row & Hp & Hc). destruct (V2 p row Hp) as (_ & X & _). auto.
Qed.
Theorem C63_program_never_panics :
  forall (F : Type) (pr : profile) (pf : string -> option F) (engine : settings F -> string -> list op * option string)
         (pow : F -> f32 -> f32) (cost : F -> N -> Z) (e : surroundings (settings F)) (o : settings F) (code : option nat) (es : list effect),
    program healthy pr pf engine pow cost e o ->
    (forall text, fst (env_read e o text) <> Panic) ->
    (forall text d o', env_read e o text = (Ok d, o') -> sized d /\ (0 <= s_cs_timeout o')%Z) ->
    run s_inputs s_output e o = (code, es) ->
    code = Some 0 \/
    (code = Some 1 /\
     ((forall text, read_input_string s_inputs e o <> Ok text) \/
      (exists text m o', read_input_string s_inputs e o = Ok text /\ env_read e o text = (Err m, o')) \/
      (exists text d o' f, read_input_string s_inputs e o = Ok text /\ env_read e o text = (Ok d, o') /\ s_output o' = Some f /\
         (env_writable e (f ++ ".scheduling.csv") = false \/ env_writable e (f ++ ".assignment.csv") = false)))).
Proof.
  intros F pr pf engine pow cost e o code es HP HR HS H.
  pose proof (program_solves _ _ _ _ _ _ _ HP HS) as K.
  assert (HV : forall text d o' sol, read_input_string s_inputs e o = Ok text -> env_read e o text = (Ok d, o') -> env_solve e o' d = Ok sol ->
       sol = SolInvalid \/ exists sch A, sol = SolComplete sch A /\ valid_solution d sch A).
  { intros text d o' sol _ H2 H3. destruct (K _ _ _ H2) as (sol' & E & D). rewrite H3 in E. injection E as <-.
    destruct D as [->|(sch & A & -> & V & _)]; eauto. }
  destruct code as [[|n]|]; [auto| |].
  - right. assert (n = 0).
    { unfold run in H. destruct (read_input_string s_inputs e o); [|congruence|congruence]. destruct (try_run _ _ _ _) as [[| |] ?]; congruence. }
    subst n. split; auto. destruct (read_input_string s_inputs e o) as [text| |] eqn:ER; [|left; congruence|left; congruence]. right.
    destruct (env_read e o text) as [[d|m|] o'] eqn:ERD; [|left; exists text, m, o'; auto|exfalso; apply (HR text); rewrite ERD; auto].
    right. rewrite <- ER in HV.
    destruct (T_Output.C60_failure _ _ _ _ _ _ _ HV H ltac:(discriminate)) as [_ X].
    destruct (K _ _ _ ERD) as (sol & ES & [->|(sch & A & -> & V & sc & EC)]).
    + exfalso. unfold run in H. rewrite ER in H. unfold try_run in H. rewrite ERD, ES in H. cbn in H. congruence.
    + destruct (X text d o' _ sc ER ERD ES EC) as (f & Hf & Hw). exists text, d, o', f. auto.
  - exfalso. destruct (read_input_string s_inputs e o) as [text| |] eqn:ER.
    + destruct (env_read e o text) as [[d|m|] o'] eqn:ERD.
      * destruct (K _ _ _ ERD) as (sol & ES & [->|(sch & A & -> & V & sc & EC)]); unfold run in H; rewrite ER in H; unfold try_run in H; rewrite ERD, ES in H; [cbn in H; congruence|].
        cbn [is_invalid] in H. rewrite EC in H.
        destruct (T_Output.C26_scheduling_table_written d sch (SolComplete sch A)) as (_ & W2 & _); [right; eauto|].
        destruct (W2 (vsol_sched _ _ _ V)) as (st & Hst). destruct (T_Output.C27_assignment_table_written d sch A V) as (arows & T2 & Hat).
        rewrite Hst, Hat in H. cbn [bind] in H. unfold output_string in H.
        destruct (1 <? length (i_slots d))%nat, (s_output o') as [f|]; try congruence;
          repeat match type of H with context [env_writable e ?x] => destruct (env_writable e x); try congruence end.
      * unfold run in H. rewrite ER in H. unfold try_run in H. rewrite ERD in H. congruence.
      * apply (HR text). rewrite ERD. auto.
    + unfold run in H. rewrite ER in H. congruence.
    + assert (NP : read_input_string s_inputs e o <> Panic).
      { unfold read_input_string. destruct (s_inputs o) as [|f fs]; [destruct (env_stdin e); discriminate|].
        match goal with |- mfold ?g _ _ <> _ => set (step := g) end.
        assert (G : forall l acc, mfold step l acc <> Panic); [|apply G].
        induction l as [|x l IH]; intros acc; [discriminate|]. cbn [mfold]. unfold step at 1.
        destruct (env_file e x); cbn [bind]; [apply IH|discriminate]. }
      contradiction.
Qed.
Print Assumptions C63_program_never_panics.

(** A run: the script of T_Climb's sample problem on standard input, two workers,
    output on standard output. *)
Definition xs5 : list op :=
  [M_Script.OpNewSlot "s"; M_Script.OpAdd (M_Script.HSlot 0); M_Script.OpNewSlot "t"; M_Script.OpAdd (M_Script.HSlot 1);
   M_Script.OpNewChoice "a" [M_Script.TgBounds 1 2]; M_Script.OpAdd (M_Script.HChoice 0);
   M_Script.OpNewChoice "b" [M_Script.TgBounds 1 2]; M_Script.OpAdd (M_Script.HChoice 1);
   M_Script.OpNewChoice "c" [M_Script.TgBounds 1 2; M_Script.TgOptional true]; M_Script.OpAdd (M_Script.HChoice 2);
   M_Script.OpNewChooser "p" [M_Script.DInt 5; M_Script.DInt 0; M_Script.DInt 5]; M_Script.OpAdd (M_Script.HChooser 0);
   M_Script.OpNewChooser "q" [M_Script.DInt 5; M_Script.DInt 5; M_Script.DInt 0]; M_Script.OpAdd (M_Script.HChooser 1)].
Definition o5 : settings nat := M_Script.mkSettings [] None true 3 10%Z 3%Z false false 2%N 13%N false.
Definition e5 : surroundings (settings nat) := mkSurroundings (fun _ => None) (Some "the script") (fun _ => true)
  (script_reader Debug T_Script.pf0 (fun _ _ => (xs5, None))) (fun _ _ => wait T_Climb.s5)
  (fun o d sol => evaluate Debug (fun x => x) (M_Script.s_greedy o) d sol).
Lemma pair_ok {A B} (a b : A) (x y : B) : (Ok a, x) = (Ok b, y) -> a = b /\ x = y.
Proof. intros H. injection H as <- <-. auto. Qed.
Lemma xs5_reads : read_script Debug T_Script.pf0 o5 xs5 None = (Ok T_Climb.d5, o5).
Proof. vm_compute. reflexivity. Qed.
Lemma e5_reads text : env_read e5 o5 text = (Ok T_Climb.d5, o5).
Proof. rewrite <- xs5_reads. reflexivity. Qed.
Lemma prepare5 : prepare Debug (fun (_ : nat) x => x) (fun _ => T_Flow.cube) o5 T_Climb.d5 = Ok T_Climb.P5.
Proof. unfold T_Climb.P5, T_Climb.a5, T_Climb.sd5. vm_compute. reflexivity. Qed.
Lemma program5 : program healthy Debug T_Script.pf0 (fun _ _ => (xs5, None)) (fun (_ : nat) x => x) (fun _ => T_Flow.cube) e5 o5.
Proof.
  constructor.
  - reflexivity.
  - intros text d o' H. rewrite e5_reads in H. apply pair_ok in H as [<- <-].
    cbn [env_solve e5]. apply (sv_session _ _ _ _ _ _ T_Climb.P5 T_Climb.ws5 T_Climb.trace5).
    + exact prepare5.
    + exact T_Climb.ws5_working.
    + exact T_Climb.moves5.
    + reflexivity.
  - reflexivity.
Qed.
Definition text5s : string := table_text [["Choice"; "Slot"]; ["a"; "s"]; ["b"; "t"]; ["c"; "t"]].
Definition text5a : string := table_text [["Chooser"; "s"; "t"]; ["p"; "a"; "c"]; ["q"; "a"; "b"]].
Lemma run5 : run s_inputs s_output e5 o5 = (Some 0, [delivered None ".scheduling.csv" text5s; delivered None ".assignment.csv" text5a]).
Proof. vm_compute. reflexivity. Qed.
Lemma fits5 d o' : (exists text, env_read e5 o5 text = (Ok d, o')) -> fits d.
Proof.
  intros (text & H). rewrite e5_reads in H. apply pair_ok in H as [<- _]. exact T_Climb.d5_fits.
Qed.
Example C62_witness :
  program healthy Debug T_Script.pf0 (fun _ _ => (xs5, None)) (fun (_ : nat) x => x) (fun _ => T_Flow.cube) e5 o5 /\
  (forall w, healthy w -> fair (w_hill w)) /\
  (forall d o', (exists text, env_read e5 o5 text = (Ok d, o')) -> fits d) /\
  run s_inputs s_output e5 o5 = (Some 0, [delivered None ".scheduling.csv" text5s; delivered None ".assignment.csv" text5a]).
Proof. split; [exact program5|]. split; [intros w Hw; apply Hw|]. split; [exact fits5|exact run5]. Qed.
Lemma d5_sized : sized T_Climb.d5.
Proof.
  constructor.
  - vm_compute. discriminate.
  - vm_compute. discriminate.
  - vm_compute. discriminate.
  - split; vm_compute; discriminate.
  - intros c Hc. cut (ch_min c = 1%N /\ ch_max c = 2%N); [intros [-> ->]; unfold i32_max; split; lia|].
    revert c Hc. apply Forall_forall. vm_compute. repeat constructor.
  - intros k n Hk. vm_compute in Hk. destruct Hk.
  - vm_compute. reflexivity.
Qed.
Example C63_witness :
  program healthy Debug T_Script.pf0 (fun _ _ => (xs5, None)) (fun (_ : nat) x => x) (fun _ => T_Flow.cube) e5 o5 /\
  (forall text, fst (env_read e5 o5 text) <> Panic) /\
  (forall text d o', env_read e5 o5 text = (Ok d, o') -> sized d /\ (0 <= s_cs_timeout o')%Z).
Proof.
  split; [exact program5|]. split.
  - intros text. rewrite e5_reads. discriminate.
  - intros text d o' H. rewrite e5_reads in H. apply pair_ok in H as [<- <-]. split; [exact d5_sized|cbn; lia].
Qed.
