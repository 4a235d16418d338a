(** Property theorem C93: with one slot the outcome does not depend on the run. *)
From Verif Require Import Base M_Data M_Scoring Spec Spec_Score Spec_Input M_Build P_Check M_Rng M_Search M_Climb M_Threads M_Output Spec_Output
  M_Main Spec_Climb Spec_Flow Spec_Calls Spec_Threads Spec_Program T_Main.
From Verif Require P_Script8 T_Exact T_Output T_Program T_Flow T_Script M_Script T_Climb.
From Coq Require Import String.
Notation length := Datatypes.length.
Notation get := Base.get.
Open Scope list_scope.
Import M_Script(settings, s_inputs, s_output, s_any, s_pref_exp, s_cs_timeout, s_no_cs, s_no_cs_simp, s_threads, s_max_neighbors, s_greedy, op, read_script).
Import T_Output(delivered).

(** ** C93.  Two complete runs on the same input with one slot, with any exponents,
    options, numbers of workers, schedules, random numbers and LP libraries: both output
    nothing (and there is no solution), or both output a solution and the worst
    preferences are equal. *)
Theorem C93_one_slot_same_worst_preference :
  forall (F : Type) (pr : profile) (pf : string -> option F) (pow : F -> f32 -> f32) (cost : F -> N -> Z) (d : input_data)
         (engine1 : settings F -> string -> list op * option string) (e1 : surroundings (settings F)) (o1 o1' : settings F) (es1 : list effect) (text1 : string)
         (engine2 : settings F -> string -> list op * option string) (e2 : surroundings (settings F)) (o2 o2' : settings F) (es2 : list effect) (text2 : string),
    let complete engine e o o' text es :=
      program healthy pr pf engine pow cost e o /\
      read_input_string s_inputs e o = Ok text /\ env_read e o text = (Ok d, o') /\
      solved_undisturbed healthy pr pow cost o' d (env_solve e o' d) /\
      (0 <= s_cs_timeout o')%Z /\ s_greedy o' = false /\ tame (pow (s_pref_exp o')) d /\
      M_Output.run s_inputs s_output e o = (Some 0, es) in
    complete engine1 e1 o1 o1' text1 es1 -> complete engine2 e2 o2 o2' text2 es2 ->
    sized d -> length (i_slots d) = 1 -> (forall ch, In ch (i_choices d) -> ch_optional ch = false) -> i_choosers d <> [] ->
    (N.of_nat (length (i_choosers d)) < 2 ^ 23)%N -> (i_max_pref d <= 2 ^ 24)%N -> (forall p c y, pref_of d p c y -> In y (i_levels d)) ->
    (es1 = [] /\ es2 = [] /\ forall T A, ~ valid_solution d T A) \/
    exists T1 A1 rows1 T2 A2 rows2,
      valid_solution d T1 A1 /\ assignment_table d T1 A1 rows1 /\
      es1 = [delivered (s_output o1') ".assignment.csv" (table_text (("Chooser"%string :: map sl_name (i_slots d)) :: rows1))] /\
      valid_solution d T2 A2 /\ assignment_table d T2 A2 rows2 /\
      es2 = [delivered (s_output o2') ".assignment.csv" (table_text (("Chooser"%string :: map sl_name (i_slots d)) :: rows2))] /\
      forall x y, worst_pref d A1 x -> worst_pref d A2 y -> x = y.
Proof.
  intros F pr pf pow cost d engine1 e1 o1 o1' es1 text1 engine2 e2 o2 o2' es2 text2 complete
    (P1 & R1 & D1 & S1 & C1 & G1 & T1 & U1) (P2 & R2 & D2 & S2 & C2 & G2 & T2 & U2) HZ H1 HO Hne HN Hmax Hlev.
  destruct (T_Program.C76_one_slot_end_to_end_partial F pr pf engine1 pow cost e1 o1 o1' es1 text1 d) as [[E1 X1]|(Ta & Aa & ra & Va & Wa & Ea & Ba)]; auto;
  destruct (T_Program.C76_one_slot_end_to_end_partial F pr pf engine2 pow cost e2 o2 o2' es2 text2 d) as [[E2 X2]|(Tb & Ab & rb & Vb & Wb & Eb & Bb)]; auto.
  - exfalso. exact (X1 _ _ Vb).
  - exfalso. exact (X2 _ _ Va).
  - right. exists Ta, Aa, ra, Tb, Ab, rb. repeat (split; [assumption|]). intros x y Hx Hy.
    apply N.le_antisymm; [exact (Ba _ _ _ _ Vb Hx Hy)|exact (Bb _ _ _ _ Va Hy Hx)].
Qed.
Print Assumptions C93_one_slot_same_worst_preference.

(** The run of C76 again with another exponent, no critical sets and two workers. *)
Definition o93 : settings nat := M_Script.mkSettings [] None false 7 99%Z 3%Z true false 2%N 13%N false.
Definition e93 : surroundings (settings nat) := mkSurroundings (fun _ => None) (Some "the same script"%string) (fun _ => true)
  (script_reader Debug T_Script.pf0 (fun _ _ => (T_Program.xs76, None))) (fun _ _ => wait T_Exact.s64)
  (fun o d sol => evaluate Debug (fun x => x) (s_greedy o) d sol).
Lemma e93_reads text : env_read e93 o93 text = (Ok T_Exact.d64, o93).
Proof. vm_compute. reflexivity. Qed.
Lemma prepare93 : prepare Debug (fun (_ : nat) x => x) (fun _ => T_Flow.cube) o93 T_Exact.d64 = Ok T_Exact.P64.
Proof. unfold T_Exact.P64, T_Exact.a64, T_Exact.sd64. vm_compute. reflexivity. Qed.
Example C93_witness :
  program healthy Debug T_Script.pf0 (fun _ _ => (T_Program.xs76, None)) (fun (_ : nat) x => x) (fun _ => T_Flow.cube) e93 o93 /\
  env_read e93 o93 "the same script" = (Ok T_Exact.d64, o93) /\
  solved_undisturbed healthy Debug (fun (_ : nat) x => x) (fun _ => T_Flow.cube) o93 T_Exact.d64 (env_solve e93 o93 T_Exact.d64) /\
  sized T_Exact.d64 /\ tame (fun x => x) T_Exact.d64 /\
  M_Output.run s_inputs s_output e93 o93 = M_Output.run s_inputs s_output T_Program.e76 T_Program.o76.
Proof.
  split. { constructor.
    - reflexivity.
    - intros text d o' H. rewrite e93_reads in H. apply pair_ok in H as [<- <-].
      cbn [env_solve e93]. apply (sv_session _ _ _ _ _ _ T_Exact.P64 T_Climb.ws5 T_Exact.trace64).
      + exact prepare93.
      + exact T_Climb.ws5_working.
      + exact T_Exact.moves64.
      + reflexivity.
    - reflexivity. }
  split; [apply e93_reads|]. split.
  { cbn [env_solve e93]. apply (su_session _ _ _ _ _ _ T_Exact.P64 T_Climb.ws5 T_Exact.trace64).
    - exact prepare93.
    - intros i. split; [apply T_Climb.ws5_working|apply T_Exact.w5_calm].
    - exact T_Exact.moves64.
    - intros l [<-|[<-|[<-|[]]]]; cbn; split; discriminate.
    - reflexivity. }
  split; [exact T_Program.d64_sized|]. split; [exact T_Exact.d64_tame|]. vm_compute. reflexivity.
Qed.
