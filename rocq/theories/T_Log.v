(** Property theorem: C90, the messages of a run.  [run_log] (M_Log.v) is the program with
    the lines it logs; [effects], [counted], [announced], [delivery], [prepared_as] are in
    Spec_Log.v. *)
From Verif Require Import Base M_Data Spec M_Scoring M_Names M_Rng M_Critical M_Search M_Flow Spec_Calls M_Climb M_Threads Spec_Climb Spec_Threads M_Build Spec_Input P_Input P_Input2
  Spec_Status P_Status M_Status M_Output Spec_Output M_Main M_Warn Spec_Warn P_Warn M_Log Spec_Log P_Log.
From Verif Require M_Script T_Script T_Climb T_Flow T_Main T_Program T_Output T_Labels P_Script4 T_Warn P_Compile P_Limits.
From Coq Require Import String.
Notation length := Datatypes.length.
Notation get := Base.get.
Import ListNotations.
Open Scope string_scope.
Open Scope list_scope.
Import M_Script(settings, s_inputs, s_output, s_no_cs, s_no_cs_simp, s_greedy, s_pref_exp, s_cs_timeout, op).
Import T_Main(sized, healthy).

Lemma plain_effects l : Forall plain l -> effects l = [].
Proof. induction 1 as [|x l (s & t & -> & _) _ IH]; auto. Qed.
Lemma effects_app a b : effects (a ++ b) = effects a ++ effects b.
Proof. apply flat_map_app. Qed.
Lemma plain_no_error l : Forall plain l -> no_error l.
Proof. intros H t Ht. rewrite Forall_forall in H. destruct (H _ Ht) as (s & t' & E & N). injection E as <- <-. congruence. Qed.
Lemma said_plain s t : s <> Error -> plain (Said s t). Proof. intros H. exists s, t. auto. Qed.
Lemma plain_announced a b : Forall plain a -> announced b -> announced (a ++ b).
Proof.
  intros HA HB. induction HA as [|x a (s & t & -> & _) _ IH]; auto. cbn [app]. intros [|i] path text Hi; cbn [nth_error] in Hi; [discriminate|].
  destruct (IH i path text Hi) as (j & -> & Hj). exists (S j). auto.
Qed.
Lemma delivery_announced out suffix text b : announced b -> announced (delivery out suffix text ++ b).
Proof.
  intros HB. unfold delivery. destruct out as [f|]; cbn [app].
  - intros [|[|i]] path t Hi; cbn [nth_error] in Hi; [discriminate| |].
    + injection Hi as <- <-. exists 0. split; reflexivity.
    + destruct (HB i path t Hi) as (j & -> & Hj). exists (S (S j)). auto.
  - intros [|i] path t Hi; cbn [nth_error] in Hi; [discriminate|]. destruct (HB i path t Hi) as (j & -> & Hj). exists (S j). auto.
Qed.
Lemma nil_announced : announced []. Proof. intros [|i] path t Hi; discriminate. Qed.
Lemma delivery_no_error out suffix text : no_error (delivery out suffix text).
Proof. intros t Ht. unfold delivery in Ht. destruct out; cbn [In] in Ht; repeat (destruct Ht as [Ht|Ht]; [discriminate|]); destruct Ht. Qed.
Lemma app_no_error a b : no_error a -> no_error b -> no_error (a ++ b).
Proof. intros HA HB t Ht. apply in_app_iff in Ht as [Ht|Ht]; [exact (HA t Ht)|exact (HB t Ht)]. Qed.
Lemma copies_sum ps : first_index ps (length ps) = list_sum (map copies ps).
Proof. induction ps as [|p t IH]; auto. cbn [length first_index map]. rewrite IH. reflexivity. Qed.

Section Course.
Context {F : Type} (pr : profile) (pow : F -> f32 -> f32) (pow64 : F -> f64 -> f64) (cost : F -> N -> Z) (e : surroundings (settings F)) (numbers : settings F -> input_data -> string).
Local Notation middle := (fun o d sol sc => [begin; verdict numbers o d sol; Said Info "Solution found."; Said Info ("Solution score: " ++ score_text sc)%string]).
Lemma middle_plain o d sol sc : Forall plain (middle o d sol sc).
Proof. repeat constructor; apply said_plain; discriminate. Qed.
Lemma table_part o d sol l1 : (if (1 <? length (i_slots d))%nat then exists t, write_scheduling d sol = Ok t /\ l1 = delivery (s_output o) ".scheduling.csv" t /\
       output_string s_output e t ".scheduling.csv" o = Ok (effects l1) else l1 = []) -> no_error l1 /\ forall b, announced b -> announced (l1 ++ b).
Proof.
  destruct (1 <? length (i_slots d))%nat.
  - intros (t & _ & -> & _). split; [apply delivery_no_error|]. intros b Hb. apply delivery_announced. auto.
  - intros ->. split; [intros t []|auto].
Qed.
Lemma course_shape o d r l : course pr pow cost e numbers o d r l -> no_error l /\ announced l.
Proof.
  intros C. destruct C as [r l HF HPl|r l HPl HA HF|sol l HPl HA HS HI|r sol l HPl HA HS HI HF|r sol sc l l' HPl HA HS HI HC H1 HF HPl' HW|
                        r sol sc l l1 l2 HPl HA HS HI HC HD HF HPl' HW|sol sc l l1 t2 HPl HA HS HI HC HD HW HO].
  1-5: match goal with |- no_error ?l /\ announced ?l => assert (K : Forall plain l); [|split; [apply plain_no_error; auto|rewrite <- (app_nil_r l); apply plain_announced; [auto|apply nil_announced]]] end.
  - auto.
  - apply Forall_app. split; auto. repeat constructor; apply said_plain; discriminate.
  - apply Forall_app. split; auto. repeat constructor; apply said_plain; discriminate.
  - apply Forall_app. split; auto. repeat constructor; apply said_plain; discriminate.
  - apply Forall_app. split; auto. apply Forall_app. split; auto. repeat constructor; apply said_plain; discriminate.
  - destruct (table_part _ _ _ _ HD) as [T1 T2]. split.
    + apply app_no_error; [apply plain_no_error; auto|]. apply app_no_error; [apply plain_no_error, middle_plain|]. apply app_no_error; auto. apply plain_no_error; auto.
    + apply plain_announced; auto. apply plain_announced; [apply middle_plain|]. apply T2. rewrite <- (app_nil_r l2). apply plain_announced; auto. apply nil_announced.
  - destruct (table_part _ _ _ _ HD) as [T1 T2]. split.
    + apply app_no_error; [apply plain_no_error; auto|]. apply app_no_error; [apply plain_no_error, middle_plain|]. apply app_no_error; auto. apply delivery_no_error.
    + apply plain_announced; auto. apply plain_announced; [apply middle_plain|]. apply T2. rewrite <- (app_nil_r (delivery _ _ _)). apply delivery_announced, nil_announced.
Qed.
(** Without the messages, this is [try_run]. *)
Lemma course_effects o text d o' r l : env_read e o text = (Ok d, o') -> (prepare pr pow cost o' d = Panic -> env_solve e o' d = Panic) -> (forall m, prepare pr pow cost o' d <> Err m) ->
  course pr pow cost e numbers o' d r l -> try_run s_output e o text = (r, effects l).
Proof.
  intros HR HP1 HP2 C. unfold try_run. rewrite HR.
  destruct C as [r l HF HPl|r l HPl HA HF|sol l HPl HA HS HI|r sol l HPl HA HS HI HF|r sol sc l l' HPl HA HS HI HC H1 HF HPl' HW|
                        r sol sc l l1 l2 HPl HA HS HI HC HD HF HPl' HW|sol sc l l1 t2 HPl HA HS HI HC HD HW HO].
  - rewrite (plain_effects l HPl). destruct HF as [(s & HF & _)|[HF ->]]; [exfalso; exact (HP2 s HF)|]. rewrite (HP1 HF). auto.
  - rewrite effects_app, (plain_effects l HPl). destruct HF as [(s & -> & ->)|[-> ->]]; auto.
  - rewrite HS, HI, effects_app, (plain_effects l HPl). auto.
  - rewrite HS, HI, effects_app, (plain_effects l HPl). destruct HF as [(s & -> & ->)|[-> ->]]; auto.
  - rewrite HS, HI, HC, !effects_app, (plain_effects l HPl), (plain_effects _ HPl'). apply Nat.ltb_lt in H1. rewrite H1. destruct HF as [(s & -> & ->)|[-> ->]]; auto.
  - rewrite HS, HI, HC, !effects_app, (plain_effects l HPl), (plain_effects _ HPl'). destruct (1 <? length (i_slots d))%nat.
    + destruct HD as (t & E1 & _ & E2). rewrite E1. cbn [bind]. rewrite E2. destruct HF as [(s & -> & ->)|[-> ->]]; rewrite app_nil_r; auto.
    + rewrite HD. destruct HF as [(s & -> & ->)|[-> ->]]; auto.
  - rewrite HS, HI, HC, !effects_app, (plain_effects l HPl). rewrite HW. cbn [bind]. rewrite HO. destruct (1 <? length (i_slots d))%nat.
    + destruct HD as (t & E1 & _ & E2). rewrite E1. cbn [bind]. rewrite E2. auto.
    + rewrite HD. auto.
Qed.
End Course.

(** ** C90 *)
(** The messages do not change what the program does. *)
Theorem C90_messages_change_nothing :
  forall (F : Type) (good : world -> Prop) (pr : profile) (pf : string -> option F) (engine : settings F -> string -> list op * option string)
         (pow : F -> f32 -> f32) (pow64 : F -> f64 -> f64) (cost : F -> N -> Z) (e : surroundings (settings F)) (numbers : settings F -> input_data -> string)
         (o : settings F) (code : option nat) (l : list entry),
    program good pr pf engine pow cost e o -> run_log pr pow pow64 cost e numbers o = (code, l) ->
    run s_inputs s_output e o = (code, effects l).
Proof.
  intros F good pr pf engine pow pow64 cost e numbers o code l HP H. unfold run_log in H. unfold run. destruct (read_input_string s_inputs e o) as [text|m|] eqn:ER.
  2,3: injection H as <- <-; reflexivity.
  rewrite try_run_log_eq in H. destruct (env_read e o text) as [[d|m|] o'] eqn:ERD; cbn [fst snd] in H.
  - destruct (after pr pow cost e numbers o' d) as [r l0] eqn:EA. cbn [fst snd] in H. apply after_course in EA.
    assert (HSv := pg_solve _ _ _ _ _ _ _ _ HP _ _ _ ERD).
    assert (K : try_run s_output e o text = (r, effects l0)).
    { apply (course_effects pr pow cost e numbers o text d o' r l0 ERD); auto; inversion HSv as [E1 E2|P' ws tr' s HPr Hg HM Hfin E]; subst; congruence. }
    rewrite K. pose proof (opening_plain pow64 o' d) as HO. revert H HO. generalize (opening pow64 o' d). intros ops H HO.
    destruct r as [u|m|]; injection H as <- <-; rewrite !effects_app, (plain_effects _ HO); cbn [effects flat_map app]; rewrite ?app_nil_r; reflexivity.
  - injection H as <- <-. unfold try_run. rewrite ERD. reflexivity.
  - injection H as <- <-. unfold try_run. rewrite ERD. reflexivity.
Qed.
Print Assumptions C90_messages_change_nothing.

(** The messages of a run with exit code 0, in order: how many slots, choices (every
    part counts), choosers and constraints there are; the overflow warning if there is
    reason for it; how the input is prepared; and either twice that there is no
    solution, or the line of the session (C68, C82), the score of the solution, and the
    tables, each file announced. *)
Theorem C90_successful_run :
  forall (F : Type) (good : world -> Prop) (pr : profile) (pf : string -> option F) (engine : settings F -> string -> list op * option string)
         (pow : F -> f32 -> f32) (pow64 : F -> f64 -> f64) (cost : F -> N -> Z) (e : surroundings (settings F)) (numbers : settings F -> input_data -> string)
         (o : settings F) (l : list entry),
    (forall w, good w -> fair (w_hill w)) -> program good pr pf engine pow cost e o ->
    (forall d o', (exists text, env_read e o text = (Ok d, o')) -> fits d) ->
    run_log pr pow pow64 cost e numbers o = (Some 0, l) ->
    exists (text : string) (r : reader) (d : input_data) (o' : settings F) (ns nc np ms ma : string) (prep rest : list entry),
      read_input_string s_inputs e o = Ok text /\ env_read e o text = (Ok d, o') /\ build_input pr r = Ok d /\
      l = [Said Info "Processing input.";
           Said Info ("Read " ++ ns ++ " slot(s), " ++ nc ++ " choice(s) and " ++ np ++ " chooser(s).")%string;
           Said Info ("Found " ++ ms ++ " scheduling and " ++ ma ++ " assignment constraints.")%string]
          ++ (if warns (pow64 (s_pref_exp o')) d then [Said Warning "The preference exponent is too large; computations may cause an integer overflow"] else [])
          ++ prep ++ [Said Info "Generating static data and starting solver."] ++ rest /\
      counted ns (Nat.max 1 (length (r_slots r))) /\ counted nc (list_sum (map copies (r_choices r))) /\ counted np (length (r_choosers r)) /\
      counted ms (length (i_sched d)) /\ counted ma (length (i_assign d)) /\ prepared_as pr pow cost o' d prep /\
      ((env_solve e o' d = Ok SolInvalid /\ rest = [Said Info "No solution found."; Said Info "No solution found."]) \/
       exists sch A sc srows arows, env_solve e o' d = Ok (SolComplete sch A) /\ valid_solution d sch A /\
         evaluate pr (pow (s_pref_exp o')) (s_greedy o') d (SolComplete sch A) = Ok sc /\
         scheduling_table d sch srows /\ assignment_table d sch A arows /\
         rest = [Said Info ("Solved " ++ numbers o' d)%string; Said Info "Solution found."; Said Info ("Solution score: " ++ score_text sc)%string]
                ++ (if (1 <? length (i_slots d))%nat then delivery (s_output o') ".scheduling.csv" (table_text (["Choice"; "Slot"] :: srows)) else [])
                ++ delivery (s_output o') ".assignment.csv" (table_text (("Chooser" :: map sl_name (i_slots d)) :: arows))).
Proof.
  intros F good pr pf engine pow pow64 cost e numbers o l HG HP HF H. unfold run_log in H. destruct (read_input_string s_inputs e o) as [text|m|] eqn:ER; try discriminate.
  rewrite try_run_log_eq in H. destruct (env_read e o text) as [[d|m|] o'] eqn:ERD; cbn [fst snd] in H; try discriminate.
  destruct (after pr pow cost e numbers o' d) as [r l0] eqn:EA. cbn [fst snd] in H. apply after_course in EA. destruct r as [u|m|]; try discriminate. injection H as <-.
  destruct (T_Program.program_builds _ _ _ _ _ _ _ _ _ _ _ HP ERD) as (r & Hb & HU).
  assert (HV : forall sol, env_solve e o' d = Ok sol -> sol = SolInvalid \/ exists sch A, sol = SolComplete sch A /\ valid_solution d sch A).
  { intros sol H3. assert (HS := pg_solve _ _ _ _ _ _ _ _ HP _ _ _ ERD). rewrite H3 in HS. inversion HS as [|P ws tr' s HPr Hg HM Hfin E]; subst.
    assert (EI : p_input P = d) by (apply (T_Program.prepare_fields _ _ _ _ _ _ HPr)). assert (HFd : fits d) by (eapply HF; eauto).
    rewrite <- EI in *. eapply T_Climb.C01_result_valid_for_input; [exact Hb|exact HU|exact HFd| |exact HM|congruence]. intros i. apply HG, Hg. }
  assert (CN : length (i_slots d) = Nat.max 1 (length (r_slots r)) /\ length (i_choosers d) = length (r_choosers r)).
  { destruct (build_inv _ _ _ Hb) as (raw & cs & css & B). split.
    - rewrite (bf_slots _ _ _ _ _ _ B). unfold build_slots. destruct (r_slots r); cbn [length]; lia.
    - eapply b_prefs; eauto. }
  destruct CN as [C1 C3]. pose proof (T_Labels.built_length _ _ _ Hb) as C2. rewrite copies_sum in C2.
  assert (Z : exists prep rest, l0 = prep ++ [begin] ++ rest /\ prepared_as pr pow cost o' d prep /\
    ((env_solve e o' d = Ok SolInvalid /\ rest = [Said Info "No solution found."; Said Info "No solution found."]) \/
       exists sch A sc srows arows, env_solve e o' d = Ok (SolComplete sch A) /\ valid_solution d sch A /\
         evaluate pr (pow (s_pref_exp o')) (s_greedy o') d (SolComplete sch A) = Ok sc /\
         scheduling_table d sch srows /\ assignment_table d sch A arows /\
         rest = [Said Info ("Solved " ++ numbers o' d)%string; Said Info "Solution found."; Said Info ("Solution score: " ++ score_text sc)%string]
                ++ (if (1 <? length (i_slots d))%nat then delivery (s_output o') ".scheduling.csv" (table_text (["Choice"; "Slot"] :: srows)) else [])
                ++ delivery (s_output o') ".assignment.csv" (table_text (("Chooser" :: map sl_name (i_slots d)) :: arows)))).
  { inversion EA as [r0 l1 [(s & _ & E)|[_ E]]|r0 l1 HPl HA [(s & _ & E)|[_ E]]|sol l1 HPl HA HS HI|r0 sol l1 HPl HA HS HI [(s & _ & E)|[_ E]]|
        r0 sol sc l1 l' HPl HA HS HI HC H1 [(s & _ & E)|[_ E]]|r0 sol sc l1 l2 l3 HPl HA HS HI HC HD [(s & _ & E)|[_ E]]|sol sc l1 l2 t2 HPl HA HS HI HC HD HW HO]; subst; try discriminate.
    - destruct (HV _ HS) as [->|(sch & A & -> & _)]; [|discriminate]. exists l1. eexists. split; [reflexivity|]. split; [auto|]. left. split; auto.
    - destruct (HV _ HS) as [->|(sch & A & -> & V)]; [discriminate|]. exists l1. eexists. split; [reflexivity|]. split; [auto|]. right.
      destruct (T_Output.C26_scheduling_table_written d sch (SolComplete sch A)) as (W1 & W2 & _); [right; eauto|].
      destruct (W2 (vsol_sched _ _ _ V)) as (st & Hst). destruct (W1 _ Hst) as (srows & T1 & ->).
      destruct (T_Output.C27_assignment_table_written d sch A V) as (arows & T2 & Hat).
      exists sch, A, sc, srows, arows. split; auto. split; auto. rewrite (pg_score _ _ _ _ _ _ _ _ HP) in HC. split; auto. split; auto. split; auto.
      assert (t2 = table_text (("Chooser" :: map sl_name (i_slots d)) :: arows)) by congruence. subst t2. destruct (1 <? length (i_slots d))%nat.
      + destruct HD as (t & E1 & -> & _). assert (t = table_text (["Choice"; "Slot"] :: srows)) by congruence. subst t. reflexivity.
      + rewrite HD. reflexivity. }
  destruct Z as (prep & rest & -> & HA & HR). exists text, r, d, o'.
  exists (dec (length (i_slots d))), (dec (length (i_choices d))), (dec (length (i_choosers d))), (dec (length (i_sched d))), (dec (length (i_assign d))), prep, rest.
  split; auto. split; auto. split; auto. split; [destruct (warns (pow64 (s_pref_exp o')) d); reflexivity|].
  split; [rewrite <- C1; apply counted_dec|]. split; [rewrite <- C2; apply counted_dec|]. split; [rewrite <- C3; apply counted_dec|].
  split; [apply counted_dec|]. split; [apply counted_dec|]. split; auto.
Qed.
Print Assumptions C90_successful_run.

(** A run with exit code 1 ends with the only error message; the message says why the
    text could not be read, what is wrong with the script or its input (C87), or that a
    worker failed or a file could not be written. *)
Theorem C90_failed_run :
  forall (F : Type) (pr : profile) (pf : string -> option F) (engine : settings F -> string -> list op * option string)
         (pow : F -> f32 -> f32) (pow64 : F -> f64 -> f64) (cost : F -> N -> Z) (e : surroundings (settings F)) (numbers : settings F -> input_data -> string)
         (o : settings F) (l : list entry),
    program healthy pr pf engine pow cost e o ->
    (forall text d o', env_read e o text = (Ok d, o') -> sized d /\ (0 <= s_cs_timeout o')%Z) ->
    run_log pr pow pow64 cost e numbers o = (Some 1, l) ->
    exists (l' : list entry) (m : string), l = l' ++ [complaint m] /\ no_error l' /\
      ((l' = [] /\ read_input_string s_inputs e o = Err m) \/
       exists text, read_input_string s_inputs e o = Ok text /\
         ((exists o', l' = [Said Info "Processing input."] /\ env_read e o text = (Err m, o')) \/
          exists d o' sch A f, env_read e o text = (Ok d, o') /\ env_solve e o' d = Ok (SolComplete sch A) /\ In (Said Info "Solution found.") l' /\
            s_output o' = Some f /\ m = "write" /\ (env_writable e (f ++ ".scheduling.csv") = false \/ env_writable e (f ++ ".assignment.csv") = false))).
Proof.
  intros F pr pf engine pow pow64 cost e numbers o l HP HZ H. unfold run_log in H. destruct (read_input_string s_inputs e o) as [text|m|] eqn:ER; try discriminate.
  2:{ injection H as <-. exists [], m. split; [reflexivity|]. split; [intros t []|]. auto. }
  rewrite try_run_log_eq in H. destruct (env_read e o text) as [[d|m|] o'] eqn:ERD; cbn [fst snd] in H; try discriminate.
  2:{ injection H as <-. exists [Said Info "Processing input."], m. split; [reflexivity|]. split; [intros t [Ht|[]]; discriminate|]. right. exists text. split; auto. left. eauto. }
  destruct (after pr pow cost e numbers o' d) as [r l0] eqn:EA. cbn [fst snd] in H. apply after_course in EA. destruct r as [u|m|]; try discriminate. injection H as <-.
  destruct (T_Main.program_solves _ _ _ _ _ _ _ HP HZ _ _ _ ERD) as (sol & ES & HSol).
  exists (opening pow64 o' d ++ l0), m. split; [reflexivity|]. split; [apply app_no_error; [apply plain_no_error, opening_plain|apply (course_shape pr pow cost e numbers o' d _ _ EA)]|].
  right. exists text. split; auto. right.
  assert (HSv := pg_solve _ _ _ _ _ _ _ _ HP _ _ _ ERD).
  assert (HPr : exists P, prepare pr pow cost o' d = Ok P) by (inversion HSv as [E1 E2|P' ws tr' s HPr Hg HM Hfin E]; [congruence|eauto]). destruct HPr as (P & HPr).
  inversion EA as [r0 l1 [(s & E & _)|[E _]]|r0 l1 HPl HA [(s & E & _)|[E _]]|?|r0 sol' l1 HPl HA HS HI [(s & E & _)|[E _]]|
        r0 sol' sc l1 l' HPl HA HS HI HC H1 HFl HPl' HW|r0 sol' sc l1 l2 l3 HPl HA HS HI HC HD HFl HPl' HW|?]; subst; try congruence.
  - assert (sol' = sol) by congruence. subst sol'. destruct HSol as [->|(sch & A & -> & V & sc & EC)]; [discriminate|congruence].
  - assert (sol' = sol) by congruence. subst sol'. destruct HSol as [->|(sch & A & -> & V & sc' & EC)]; [discriminate|congruence].
  - assert (sol' = sol) by congruence. subst sol'. destruct HSol as [->|(sch & A & -> & V & sc' & EC)]; [discriminate|].
    destruct (T_Output.C26_scheduling_table_written d sch (SolComplete sch A)) as (_ & W2 & _); [right; eauto|].
    destruct (W2 (vsol_sched _ _ _ V)) as (st & Hst). destruct (HW st Hst) as (f & W3 & W4 & W5). injection W5 as <-.
    exists d, o', sch, A, f. split; auto. split; auto. split; [|auto]. apply in_app_iff. right. apply in_app_iff. right. apply in_app_iff. left. cbn [In]. auto.
  - assert (sol' = sol) by congruence. subst sol'. destruct HSol as [->|(sch & A & -> & V & sc' & EC)]; [discriminate|].
    destruct (T_Output.C27_assignment_table_written d sch A V) as (arows & T2 & Hat). destruct (HW _ Hat) as (f & W3 & W4 & W5). injection W5 as <-.
    exists d, o', sch, A, f. split; auto. split; auto. split; [|auto]. apply in_app_iff. right. apply in_app_iff. right. apply in_app_iff. left. cbn [In]. auto.
Qed.
Print Assumptions C90_failed_run.

(** Whatever happens, a file is only written after it was announced, and an error is
    only reported when the exit code is 1. *)
Theorem C90_files_are_announced :
  forall (F : Type) (pr : profile) (pow : F -> f32 -> f32) (pow64 : F -> f64 -> f64) (cost : F -> N -> Z) (e : surroundings (settings F))
         (numbers : settings F -> input_data -> string) (o : settings F) (code : option nat) (l : list entry),
    run_log pr pow pow64 cost e numbers o = (code, l) -> announced l /\ (code <> Some 1 -> no_error l).
Proof.
  intros F pr pow pow64 cost e numbers o code l H. unfold run_log in H. destruct (read_input_string s_inputs e o) as [text|m|] eqn:ER.
  2:{ injection H as <- <-. split; [|congruence]. intros [|[|i]] path t Hi; discriminate. }
  2:{ injection H as <- <-. split; [apply nil_announced|]. intros _ t []. }
  assert (C1 : forall a m, announced a -> announced (a ++ [complaint m])).
  { intros a m Ha i path t Hi. assert (Hn : i < length a).
    { destruct (Nat.lt_ge_cases i (length a)) as [Hl|Hl]; auto. rewrite nth_error_app2 in Hi by auto. destruct (i - length a) as [|[|?]]; discriminate. }
    rewrite nth_error_app1 in Hi by auto. destruct (Ha i path t Hi) as (j & -> & Hj). exists j. split; auto. rewrite nth_error_app1; auto. lia. }
  assert (S1 : forall x l1, try_run_log pr pow pow64 cost e numbers o text = (x, l1) -> announced l1 /\ no_error l1).
  { intros x l1 HT. rewrite try_run_log_eq in HT. destruct (env_read e o text) as [[d|m|] o'] eqn:ERD; cbn [fst snd] in HT.
    - destruct (after pr pow cost e numbers o' d) as [r l0] eqn:EA. cbn [fst snd] in HT. apply after_course in EA.
      pose proof (opening_plain pow64 o' d) as HO. revert HT HO. generalize (opening pow64 o' d). intros ops HT HO. injection HT as <- <-.
      destruct (course_shape pr pow cost e numbers o' d _ _ EA) as [K1 K2]. split; [apply plain_announced; auto|].
      apply app_no_error; auto. apply plain_no_error, HO.
    - injection HT as <- <-. split; [intros [|[|i]] path t Hi; discriminate|]. intros t [Ht|[]]; discriminate.
    - injection HT as <- <-. split; [intros [|[|i]] path t Hi; discriminate|]. intros t [Ht|[]]; discriminate. }
  destruct (try_run_log pr pow pow64 cost e numbers o text) as [[u|m|] l1] eqn:HT; destruct (S1 _ _ eq_refl) as [K1 K2]; injection H as <- <-.
  - auto.
  - split; [apply C1; auto|congruence].
  - auto.
Qed.
Print Assumptions C90_files_are_announced.

(** Witness: the program of C62, here with an output file; the first table can be written, the
    second (with [false]) cannot. *)
Definition o90 : settings nat := M_Script.mkSettings [] (Some "out") true 3 10%Z 3%Z false false 2%N 13%N false.
Definition e90 (ok : bool) : surroundings (settings nat) := mkSurroundings (fun _ => None) (Some "the script") (fun f => String.eqb f "out.scheduling.csv" || ok)%bool
  (script_reader Debug T_Script.pf0 (fun _ _ => (T_Main.xs5, None))) (fun _ _ => wait T_Climb.s5)
  (fun o d sol => evaluate Debug (fun x => x) (M_Script.s_greedy o) d sol).
Lemma e90_reads ok text : env_read (e90 ok) o90 text = (Ok T_Climb.d5, o90).
Proof. change (M_Script.read_script Debug T_Script.pf0 o90 T_Main.xs5 None = (Ok T_Climb.d5, o90)). vm_compute. reflexivity. Qed.
Lemma program90 ok : program healthy Debug T_Script.pf0 (fun _ _ => (T_Main.xs5, None)) (fun (_ : nat) x => x) (fun _ => T_Flow.cube) (e90 ok) o90.
Proof.
  constructor.
  - reflexivity.
  - intros text d o' H. rewrite e90_reads in H. apply T_Main.pair_ok in H as [<- <-].
    cbn [env_solve e90]. apply (sv_session _ _ _ _ _ _ T_Climb.P5 T_Climb.ws5 T_Climb.trace5).
    + exact T_Main.prepare5.
    + exact T_Climb.ws5_working.
    + exact T_Climb.moves5.
    + reflexivity.
  - reflexivity.
Qed.
Definition log90 (ok : bool) := run_log Debug (fun (_ : nat) x => x) pow_whole (fun _ => T_Flow.cube) (e90 ok) (fun _ _ => "...") o90.
Definition shared90 : list entry :=
  [Said Info "Processing input."; Said Info "Read 2 slot(s), 3 choice(s) and 2 chooser(s)."; Said Info "Found 0 scheduling and 0 assignment constraints.";
   Said Info "Performing critical set analysis with simplification."; Said Info "Critical-set analysis complete: 2 set(s).";
   Said Info "Critical-set simplification complete: 2 set(s)."; Said Info "Critical set analysis gives a preference bound of 0.";
   Said Info "Generating static data and starting solver."; Said Info "Solved ..."; Said Info "Solution found."; Said Info "Solution score: (0, 0.00000)";
   Said Info "Writing output to `out.scheduling.csv`."; Gave (EFile "out.scheduling.csv" T_Main.text5s); Said Info "Writing output to `out.assignment.csv`."].
Example C90_witness :
  (forall w, healthy w -> fair (w_hill w)) /\
  (forall ok, program healthy Debug T_Script.pf0 (fun _ _ => (T_Main.xs5, None)) (fun (_ : nat) x => x) (fun _ => T_Flow.cube) (e90 ok) o90) /\
  (forall ok d o', (exists text, env_read (e90 ok) o90 text = (Ok d, o')) -> fits d) /\
  (forall ok text d o', env_read (e90 ok) o90 text = (Ok d, o') -> sized d /\ (0 <= s_cs_timeout o')%Z) /\
  log90 true = (Some 0, shared90 ++ [Gave (EFile "out.assignment.csv" T_Main.text5a)]) /\
  log90 false = (Some 1, shared90 ++ [Said Error "Error in input: write"]).
Proof.
  split; [intros w Hw; apply Hw|]. split; [exact program90|]. split; [|split; [|split; vm_compute; reflexivity]].
  - intros ok d o' (text & H). rewrite e90_reads in H. apply T_Main.pair_ok in H as [<- <-]. exact T_Climb.d5_fits.
  - intros ok text d o' H. rewrite e90_reads in H. apply T_Main.pair_ok in H as [<- <-]. split; [exact T_Main.d5_sized|cbn; lia].
Qed.
