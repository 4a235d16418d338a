(** Property theorem about the process, from its command line to its exit code: C96.
    [F] is f64, [pf] its parser, [three] is 3.0, [cores] the number of processors, [help]
    tells whether a command line that is not accepted asks for a help or version text. *)
From Verif Require Import Base M_Data Spec M_Build Spec_Input M_Scoring M_Rng M_Critical M_Search M_Flow M_Climb M_Threads Spec_Search Spec_Flow Spec_Climb Spec_Threads P_Threads P_Brute T_Flow T_Climb
  M_Output Spec_Output P_Output1 M_Main.
From Verif Require Import M_Script Spec_Script M_Args Spec_Args P_Args M_Inline Spec_Inline M_Process Spec_Times P_Times P_Process.
From Verif Require P_Script7 P_Script8 T_Times T_Script T_Output T_Main T_Crash T_Inline.
From Coq Require Import String.
Notation length := Datatypes.length.
Notation get := Base.get.
Open Scope string_scope.
Open Scope list_scope.
Import T_Output(delivered).
Import T_Script(accepted_args).

(** The options when nothing is said. *)
Definition defaults {F} (three : F) (cores : N) : settings F := mkSettings [] None false three 60%Z 3%Z false false cores 12%N false.

(** ** A command line that is not accepted has no effects *)
Theorem C96_refused_without_effects :
  forall (F : Type) (pr : profile) (pf : string -> option F) (three : F) (cores : N) (help : list string -> bool)
         (e : surroundings (settings F)) (words : list string),
    ((forall l v, said words l -> In (KTimeout, v) l \/ In (KCsTimeout, v) l -> ~ too_long v) ->
     (~ exists l, said words l /\ once l /\ readable (fun v x => pf v = Some x) (fun v x => parse_time pr v = Ok x) (numeral u32_max) l) ->
     process pr pf three cores help e words = (Some (if help words then 0 else 2), [])) /\
    (forall code es, process pr pf three cores help e words = (code, es) ->
       (code = Some 2 -> es = [] /\ forall o, options_parse_inline pr pf three cores words <> Ok o) /\
       (es <> [] -> exists l o, said words l /\
          in_effect (fun v x => pf v = Some x) (fun v x => parse_time pr v = Ok x) (numeral u32_max) l (defaults three cores) o /\
          run s_inputs s_output e o = (code, es))).
Proof.
  intros F pr pf three cores help e words. split.
  - intros HS HN. unfold process. destruct (options_parse_inline pr pf three cores words) as [o|m|] eqn:E; auto; exfalso.
    + apply T_Inline.C91_command_line_forms in E as (l & H1 & H2 & H3 & _). apply HN. eauto.
    + apply parse_panics in E as (l & k & v & H1 & H2 & H3 & H4). refine (proj1 (time_in_range pr v _) H4). apply (HS l v H1). destruct H3 as [-> | ->]; auto.
  - intros code es H. unfold process in H. destruct (options_parse_inline pr pf three cores words) as [o|m|] eqn:E.
    + split.
      * intros ->. exfalso. unfold run in H. destruct (read_input_string _ _ _); [destruct (try_run _ _ _ _) as [[| |] ?]| |]; congruence.
      * intros _. apply T_Inline.C91_command_line_forms in E as (l & H1 & _ & _ & H3). exists l, o. auto.
    + injection H as <- <-. split; [intros _; split; [auto|discriminate]|congruence].
    + injection H as <- <-. split; [discriminate|congruence].
Qed.
Print Assumptions C96_refused_without_effects.

(** ** The exit code, and no panic *)
Theorem C96_exit_codes :
  forall (F : Type) (pr : profile) (pf : string -> option F) (three : F) (cores : N) (help : list string -> bool)
         (engine : settings F -> string -> list op * option string) (pow : F -> f32 -> f32) (cost : F -> N -> Z)
         (e : surroundings (settings F)) (words : list string) (code : option nat) (es : list effect),
    (forall o, options_parse_inline pr pf three cores words = Ok o ->
       program T_Main.healthy pr pf engine pow cost e o /\
       forall text, fst (env_read e o text) <> Panic /\
         (forall d o', env_read e o text = (Ok d, o') -> T_Main.sized d) /\
         (forall l v, tells (accepted_args (fst (exec_all pr pf (M_Script.mkWorld rs_empty o) (fst (engine o text))))) l -> In (KCsTimeout, v) l -> ~ too_long v)) ->
    (forall l v, said words l -> In (KTimeout, v) l \/ In (KCsTimeout, v) l -> ~ too_long v) ->
    process pr pf three cores help e words = (code, es) ->
    (* not accepted *)
    ((forall o, options_parse_inline pr pf three cores words <> Ok o) /\ es = [] /\ code = Some (if help words then 0 else 2)) \/
    (* done *)
    (exists o, options_parse_inline pr pf three cores words = Ok o /\ code = Some 0) \/
    (* failed: no input, an input that is not accepted, or an output file that cannot be written *)
    (exists o, options_parse_inline pr pf three cores words = Ok o /\ code = Some 1 /\
       ((forall text, read_input_string s_inputs e o <> Ok text) \/
        (exists text m o', read_input_string s_inputs e o = Ok text /\ env_read e o text = (Err m, o')) \/
        (exists text d o' f, read_input_string s_inputs e o = Ok text /\ env_read e o text = (Ok d, o') /\ s_output o' = Some f /\
           (env_writable e (f ++ ".scheduling.csv") = false \/ env_writable e (f ++ ".assignment.csv") = false)))).
Proof.
  intros F pr pf three cores help engine pow cost e words code es HE HS H. unfold process in H.
  destruct (options_parse_inline pr pf three cores words) as [o|m|] eqn:E.
  - right. destruct (HE o eq_refl) as [HP HT].
    assert (C0 : (0 <= s_cs_timeout o)%Z).
    { apply T_Inline.C91_command_line_forms in E as (l & H1 & _ & _ & H3).
      apply (setting_nonneg pr l KCsTimeout 3%Z); [lia| |exact (ie_cs_timeout _ _ _ _ _ _ H3)]. intros v Hv. apply (HS l v H1). auto. }
    destruct (T_Main.C63_program_never_panics F pr pf engine pow cost e o code es HP) as [->|[-> HR]]; auto.
    + intros text. apply (HT text).
    + intros text d o' Hr. destruct (HT text) as (_ & Hz & Hc). split; [exact (Hz _ _ Hr)|].
      rewrite (pg_read _ _ _ _ _ _ _ _ HP) in Hr. unfold script_reader in Hr. destruct (engine o text) as [xs fail] eqn:EE. unfold read_script in Hr.
      destruct (read_with pr pf (M_Script.mkWorld rs_empty o) xs fail) as [r w] eqn:ER. injection Hr as -> <-.
      apply T_Script.C59_options_accumulate in ER. cbn [w_opts] in ER. apply applies_reads in ER as (l & H1 & _ & H3).
      apply (setting_nonneg pr l KCsTimeout (s_cs_timeout o)); [exact C0| |exact (ie_cs_timeout _ _ _ _ _ _ H3)].
      intros v Hv. apply (Hc l v); [|exact Hv]. exact H1.
    + left. exists o. auto.
    + right. exists o. auto.
  - left. injection H as <- <-. split; [discriminate|auto].
  - exfalso. apply parse_panics in E as (l & k & v & H1 & H2 & H3 & H4). refine (proj1 (time_in_range pr v _) H4). apply (HS l v H1). destruct H3 as [-> | ->]; auto.
Qed.
Print Assumptions C96_exit_codes.

(** The same in terms of the scripts alone: a script uses only the handles it got,
    renames nothing, has 32-bit integers and not too many choices, and no time that is too long. *)
Record modest {F} (pr : profile) (pf : string -> option F) (o : settings F) (xs : list op) : Prop := {
  mo_handles : proper_trace (fst (exec_all pr pf (M_Script.mkWorld rs_empty o) xs));
  mo_names : no_renames xs;
  mo_integers : forall l r z,
    let cs := constraints_of (fst (exec_all pr pf (M_Script.mkWorld rs_empty o) xs)) in
    In (l, r, OpInt z) cs \/ In (OpInt z, r, l) cs -> (z <= 4294967295)%Z;
  mo_choices : forall ps,
    let tr := fst (exec_all pr pf (M_Script.mkWorld rs_empty o) xs) in
    Forall2 (declared_choice tr) (filter is_choice (additions tr)) ps -> (Z.of_nat (first_index ps (length ps)) <= i32_max)%Z;
  mo_times : forall pre flag v rest, In (OpArgs (map DStr (pre ++ flag :: v :: rest))) xs -> time_option flag -> ~ too_long v
}.
Lemma nonneg_applies {F} pr (pf : string -> option F) o ss o' :
  applies (fun v x => pf v = Some x) (fun v x => parse_time pr v = Ok x) (numeral u32_max) o ss o' ->
  (forall pre flag v rest, ss = pre ++ flag :: v :: rest -> time_option flag -> ~ too_long v) ->
  (0 <= s_cs_timeout o)%Z -> (0 <= s_cs_timeout o')%Z.
Proof.
  induction 1; intros HS HZ; subst; cbn [s_cs_timeout] in *; auto; (apply IHapplies; [|try exact HZ]).
  all: try (intros pre flag w rest E; subst; first [exact (HS (a :: v :: pre) flag w rest eq_refl)|exact (HS (a :: pre) flag w rest eq_refl)
         ]).
  refine (proj2 (time_in_range pr v _) _ _); [|eassumption]. apply (HS [] a v t eq_refl). unfold time_option. cbn [In] in *. intuition auto.
Qed.
Lemma nonneg_exec {F} pr (pf : string -> option F) xs : forall w tr w',
  exec_all pr pf w xs = (tr, w') ->
  (forall pre flag v rest, In (OpArgs (map DStr (pre ++ flag :: v :: rest))) xs -> time_option flag -> ~ too_long v) ->
  (0 <= s_cs_timeout (w_opts w))%Z -> (0 <= s_cs_timeout (w_opts w'))%Z.
Proof.
  induction xs as [|x xs IH]; intros w tr w' H HS H0; cbn [exec_all] in H.
  - injection H as _ <-. exact H0.
  - destruct (exec pr pf w x) as [r w1] eqn:E. destruct (exec_all pr pf w1 xs) as [t w2] eqn:E2. injection H as <- <-.
    apply (IH _ _ _ E2); [intros pre flag v rest Hi; apply (HS pre flag v rest); right; exact Hi|].
    apply P_Script7.exec_opts in E.
    destruct x as [n|n ts|n ps|h|h n|l rl rt|args]; try (rewrite E; exact H0).
    destruct r as [v|m|]; [|rewrite E; exact H0..].
    destruct E as (ss & H1 & H2). apply P_Script1.all_strings_spec in H1. subst args.
    eapply P_Script1.arg_loop_sound in H2; [|apply le_n]. refine (nonneg_applies pr pf _ _ _ H2 _ H0).
    intros pre flag y rest E. apply (HS pre flag y rest). left. rewrite E. reflexivity.
Qed.
Theorem C96_exit_codes_of_scripts :
  forall (F : Type) (pr : profile) (pf : string -> option F) (three : F) (cores : N) (help : list string -> bool)
         (engine : settings F -> string -> list op * option string) (pow : F -> f32 -> f32) (cost : F -> N -> Z)
         (e : surroundings (settings F)) (words : list string) (code : option nat) (es : list effect),
    (forall o, options_parse_inline pr pf three cores words = Ok o ->
       program T_Main.healthy pr pf engine pow cost e o /\
       forall text, modest pr pf o (fst (engine o text)) /\ forall d o', env_read e o text = (Ok d, o') -> T_Main.sized d) ->
    (forall l v, said words l -> In (KTimeout, v) l \/ In (KCsTimeout, v) l -> ~ too_long v) ->
    process pr pf three cores help e words = (code, es) ->
    ((forall o, options_parse_inline pr pf three cores words <> Ok o) /\ es = [] /\ code = Some (if help words then 0 else 2)) \/
    (exists o, options_parse_inline pr pf three cores words = Ok o /\ code = Some 0) \/
    (exists o, options_parse_inline pr pf three cores words = Ok o /\ code = Some 1 /\
       ((forall text, read_input_string s_inputs e o <> Ok text) \/
        (exists text m o', read_input_string s_inputs e o = Ok text /\ env_read e o text = (Err m, o')) \/
        (exists text d o' f, read_input_string s_inputs e o = Ok text /\ env_read e o text = (Ok d, o') /\ s_output o' = Some f /\
           (env_writable e (f ++ ".scheduling.csv") = false \/ env_writable e (f ++ ".assignment.csv") = false)))).
Proof.
  intros F pr pf three cores help engine pow cost e words code es HE HS H. unfold process in H.
  destruct (options_parse_inline pr pf three cores words) as [o|m|] eqn:E.
  - right. destruct (HE o eq_refl) as [HP HT].
    assert (C0 : (0 <= s_cs_timeout o)%Z).
    { apply T_Inline.C91_command_line_forms in E as (l & H1 & _ & _ & H3).
      apply (setting_nonneg pr l KCsTimeout 3%Z); [lia| |exact (ie_cs_timeout _ _ _ _ _ _ H3)]. intros v Hv. apply (HS l v H1). auto. }
    destruct (T_Main.C63_program_never_panics F pr pf engine pow cost e o code es HP) as [->|[-> HR]]; auto.
    + intros text. destruct (HT text) as [[M1 M2 M3 M4 M5] _]. rewrite (pg_read _ _ _ _ _ _ _ _ HP). unfold script_reader.
      destruct (engine o text) as [xs fail]. cbn [fst] in *. destruct (exec_all pr pf (M_Script.mkWorld rs_empty o) xs) as [tr w] eqn:EX. cbn [fst] in *.
      exact (T_Times.C58_reading_short_times_never_panics_partial F pr pf o xs fail tr w EX M1 M2 M3 M4 M5).
    + intros text d o' Hr. destruct (HT text) as [HM Hz]. split; [exact (Hz _ _ Hr)|].
      rewrite (pg_read _ _ _ _ _ _ _ _ HP) in Hr. unfold script_reader in Hr. destruct (engine o text) as [xs fail]. cbn [fst] in HM. unfold read_script, read_with in Hr. cbn [w_opts] in Hr.
      destruct (exec_all pr pf (M_Script.mkWorld rs_empty o) xs) as [tr w] eqn:EX.
      assert (o' = w_opts w) as -> by (destruct (existsb panicked tr); injection Hr as _ <-; reflexivity).
      exact (nonneg_exec pr pf xs _ _ _ EX (mo_times _ _ _ _ HM) C0).
    + left. exists o. auto.
    + right. exists o. auto.
  - left. injection H as <- <-. split; [discriminate|auto].
  - exfalso. apply parse_panics in E as (l & k & v & H1 & H2 & H3 & H4). refine (proj1 (time_in_range pr v _) H4). apply (HS l v H1). destruct H3 as [-> | ->]; auto.
Qed.
Print Assumptions C96_exit_codes_of_scripts.

(** ** What is output, in terms of the words of the command line and of the script *)
Theorem C96_end_to_end :
  forall (F : Type) (good : M_Climb.world -> Prop) (pr : profile) (pf : string -> option F) (three : F) (cores : N) (help : list string -> bool)
         (engine : settings F -> string -> list op * option string) (pow : F -> f32 -> f32) (cost : F -> N -> Z)
         (e : surroundings (settings F)) (words : list string) (es : list effect),
    let effect_of := in_effect (fun v x => pf v = Some x) (fun v x => parse_time pr v = Ok x) (numeral u32_max) in
    (forall w, good w -> fair (w_hill w)) ->
    (forall o, options_parse_inline pr pf three cores words = Ok o -> program good pr pf engine pow cost e o /\
       forall d o', (exists text, env_read e o text = (Ok d, o')) -> fits d) ->
    process pr pf three cores help e words = (Some 0, es) -> es <> [] ->
    exists l o text xs tr w l' o' d sch A srows arows,
      (* the options in effect are those of the command line, then those of the script *)
      said words l /\ effect_of l (defaults three cores) o /\ tells (accepted_args tr) l' /\ effect_of (l ++ l') (defaults three cores) o' /\
      (* the script is all input files, or the standard input *)
      ((s_inputs o = [] /\ env_stdin e = Some text) \/
       (exists texts, map (env_file e) (s_inputs o) = map Some texts /\ text = T_Output.joined texts)) /\
      engine o text = (xs, None) /\ exec_all pr pf (M_Script.mkWorld rs_empty o) xs = (tr, w) /\
      (* the output is the tables of a valid solution that keeps the constraints of the script *)
      valid_solution d sch A /\ scheduling_table d sch srows /\ assignment_table d sch A arows /\
      es = (if (1 <? length (i_slots d))%nat then [delivered (s_output o') ".scheduling.csv" (table_text (["Choice"; "Slot"] :: srows))] else [])
           ++ [delivered (s_output o') ".assignment.csv" (table_text (("Chooser" :: map sl_name (i_slots d)) :: arows))] /\
      (proper_trace tr -> no_renames xs ->
        exists ps, Forall2 (declared_choice tr) (filter is_choice (additions tr)) ps /\
          forall c rel rt, In (c, rel, rt) (constraints_of tr) ->
            (is_order rel = true -> exists j, c = M_Script.OpSlotSize j) ->
            means tr ps false sch A (c, rel, rt)).
Proof.
  intros F good pr pf three cores help engine pow cost e words es effect_of HG HE H HN. unfold process in H.
  destruct (options_parse_inline pr pf three cores words) as [o|m|] eqn:E; [|congruence|congruence].
  destruct (HE o eq_refl) as [HP HF].
  destruct (T_Main.C62_output_describes_valid_solution F good pr pf engine pow cost e o es HG HP HF H)
    as (text & xs & tr & w & d & o' & H1 & H2 & H3 & H4 & [->|(sch & A & srows & arows & V & Ts & Ta & He & Hc)]); [congruence|].
  apply T_Inline.C91_command_line_forms in E as (l & Hl & _ & _ & Ho).
  unfold read_script in H4. destruct (read_with pr pf (M_Script.mkWorld rs_empty o) xs None) as [r w2] eqn:ER. injection H4 as -> <-.
  apply T_Script.C59_options_accumulate in ER. cbn [w_opts] in ER. apply applies_reads in ER as (l' & Hl' & _ & Ho').
  rewrite H3 in Hl'. cbn [fst] in Hl'.
  exists l, o, text, xs, tr, w, l', (w_opts w2), d, sch, A, srows, arows.
  split; [exact Hl|]. split; [exact Ho|]. split; [exact Hl'|]. split; [exact (in_effect_app _ _ _ _ _ _ _ _ Ho Ho')|].
  split; [apply T_Output.C60_input_is_all_files; exact H1|]. auto 10.
Qed.
Print Assumptions C96_end_to_end.

(** ** The condition on the times is needed: 4000 weeks *)
(** In debug builds the reading of the time panics. *)
Theorem C96_long_times_panic :
  forall (F : Type) (pf : string -> option F) (three : F) (cores : N) (help : list string -> bool) (e : surroundings (settings F)),
    process Debug pf three cores help e ["-t4000w"] = (None, []) /\ process Debug pf three cores help e ["--cs-timeout"; "4000w"] = (None, []).
Proof. intros. split; reflexivity. Qed.
Print Assumptions C96_long_times_panic.

(** In release builds 4000 weeks are a negative limit for the search of critical sets:
    the worker panics in its first iteration, and the program fails although its input
    is accepted and nothing hinders its output. *)
Definition words96 : list string := ["-aj1"; "--cs-timeout=4000w"; "-n13"].
Definition o96 : settings nat := mkSettings [] None true 3 60%Z (-1875767296)%Z false false 1%N 13%N false.
Definition P96 : problem := mkProblem (p_input P5) (p_analysis P5) (p_static P5) (fun x => x) (p_cost P5) false true 13 (-1875767296).
Definition s96 : session := mkSession false [mkWorker WCrashed new_shotgun []].
Definition e96 : surroundings (settings nat) := mkSurroundings (fun _ => None) (Some "the script") (fun _ => true)
  (script_reader Release T_Script.pf0 (fun _ _ => (T_Main.xs5, None))) (fun _ _ => wait s96)
  (fun o d sol => evaluate Release (fun x => x) (s_greedy o) d sol).
Lemma moves96 : moves Release P96 (fun _ => T_Crash.w84) (start P96 1) [(Some 0, [LLoad false; LStart]); (Some 0, [LOther])] s96.
Proof.
  unfold s96. change (start P96 1) with (mkSession false [new_worker]).
  eapply mvs_step. { apply (mv_worker Release P96 (fun _ => T_Crash.w84) (mkSession false [new_worker]) 0 new_worker); [reflexivity|apply mv_start]. }
  cbn [se_flag se_workers upd existsb orb].
  eapply mvs_step. { eapply (mv_worker Release P96 (fun _ => T_Crash.w84) _ 0); [reflexivity|]. apply (mv_crash Release P96 T_Crash.w84 _ _ _ tn1 Panic); [vm_compute; reflexivity|discriminate]. }
  cbn [se_flag se_workers upd existsb orb]. apply mvs_refl.
Qed.
Lemma e96_reads text : env_read e96 o96 text = (Ok d5, o96).
Proof. transitivity (read_script Release T_Script.pf0 o96 T_Main.xs5 None); [reflexivity|vm_compute; reflexivity]. Qed.
Lemma prepare96 : prepare Release (fun (_ : nat) x => x) (fun _ => cube) o96 d5 = Ok P96.
Proof. unfold P96, P5, a5, sd5. vm_compute. reflexivity. Qed.
Lemma program96 : program T_Main.healthy Release T_Script.pf0 (fun _ _ => (T_Main.xs5, None)) (fun (_ : nat) x => x) (fun _ => cube) e96 o96.
Proof.
  constructor.
  - reflexivity.
  - intros text d o' H. rewrite e96_reads in H. apply T_Main.pair_ok in H as [<- <-].
    cbn [env_solve e96]. eapply (sv_session _ _ _ _ _ _ P96 (fun _ => T_Crash.w84)).
    + exact prepare96.
    + intros _. split; [apply exact_honest, brute_exact|]. split; apply o_count_fair.
    + exact moves96.
    + reflexivity.
  - reflexivity.
Qed.
Theorem C96_long_times_fail :
  exists (e : surroundings (settings nat)) (words : list string) (o : settings nat) (d : input_data),
    options_parse_inline Release T_Script.pf0 3 4 words = Ok o /\
    program T_Main.healthy Release T_Script.pf0 (fun _ _ => (T_Main.xs5, None)) (fun (_ : nat) x => x) (fun _ => cube) e o /\
    (forall text, env_read e o text = (Ok d, o)) /\ T_Main.sized d /\ env_stdin e <> None /\ s_inputs o = [] /\ s_output o = None /\
    process Release T_Script.pf0 3 4 (fun _ => false) e words = (Some 1, []).
Proof.
  exists e96, words96, o96, d5. split; [vm_compute; reflexivity|]. split; [exact program96|]. split; [exact e96_reads|]. split; [exact T_Main.d5_sized|].
  split; [discriminate|]. split; [reflexivity|]. split; [reflexivity|]. vm_compute. reflexivity.
Qed.
Print Assumptions C96_long_times_fail.

(** The words of the example of T_Main.v. *)
Definition words5 : list string := ["-at10s"; "-j2"; "--max-neighbors=13"].
Lemma parse5 : options_parse_inline Debug T_Script.pf0 3 4 words5 = Ok T_Main.o5.
Proof. vm_compute. reflexivity. Qed.
Definition said5 : list (key * string) := [(KAny, ""); (KTimeout, "10s"); (KThreads, "2"); (KNeighbors, "13")].
Lemma words5_said l : said words5 l -> l = said5.
Proof.
  intros H. destruct (P_Inline.items_complete _ _ H) as (m & E & ->). vm_compute in E. injection E as <-. reflexivity.
Qed.
Definition args5 : list string := accepted_args (fst (exec_all Debug T_Script.pf0 (M_Script.mkWorld rs_empty T_Main.o5) T_Main.xs5)).
Lemma args5_eq : args5 = [].
Proof. vm_compute. reflexivity. Qed.
Example C96_witness :
  (forall o, options_parse_inline Debug T_Script.pf0 3 4 words5 = Ok o ->
     program T_Main.healthy Debug T_Script.pf0 (fun _ _ => (T_Main.xs5, None)) (fun (_ : nat) x => x) (fun _ => cube) T_Main.e5 o /\
    (forall d o', (exists text, env_read T_Main.e5 o text = (Ok d, o')) -> fits d) /\
    forall text, fst (env_read T_Main.e5 o text) <> Panic /\
    (forall d o', env_read T_Main.e5 o text = (Ok d, o') -> T_Main.sized d) /\
    (forall l v, tells (accepted_args (fst (exec_all Debug T_Script.pf0 (M_Script.mkWorld rs_empty o) T_Main.xs5))) l -> In (KCsTimeout, v) l -> ~ too_long v)) /\
  (forall l v, said words5 l -> In (KTimeout, v) l \/ In (KCsTimeout, v) l -> ~ too_long v) /\
  process Debug T_Script.pf0 3 4 (fun _ => false) T_Main.e5 words5 =
    (Some 0, [delivered None ".scheduling.csv" T_Main.text5s; delivered None ".assignment.csv" T_Main.text5a]).
Proof.
  split; [|split].
  - intros o H. rewrite parse5 in H. injection H as <-. split; [exact T_Main.program5|]. split; [exact T_Main.fits5|]. intros text. rewrite T_Main.e5_reads. split; [discriminate|]. split.
    + intros d o' H. apply T_Main.pair_ok in H as [<- _]. exact T_Main.d5_sized.
    + intros l v H. fold args5 in H. rewrite args5_eq in H. inversion H; subst. intros [].
  - intros l v H G. rewrite (words5_said l H) in G. unfold said5 in G. cbn [In] in G. rewrite too_long_panics.
    repeat match goal with K : _ \/ _ |- _ => destruct K end; try contradiction;
      match goal with K : (_, _) = (_, _) |- _ => inversion K; subst; vm_compute; discriminate end.
  - unfold process. rewrite parse5. exact T_Main.run5.
Qed.
(** An unknown option, a missing value, a help text. *)
Example C96_refused_witness : forall e : surroundings (settings nat),
  process Debug T_Script.pf0 3 4 (fun _ => false) e ["--fast"] = (Some 2, []) /\
  process Debug T_Script.pf0 3 4 (fun _ => false) e ["-t"] = (Some 2, []) /\
  process Debug T_Script.pf0 3 4 (fun _ => true) e ["--help"] = (Some 0, []).
Proof. intros e. repeat split; reflexivity. Qed.
(** A script whose choices have one part each declares as many choices as it adds. *)
Definition plain_tag (a : tag_arg) : bool :=
  match a with TgBounds lo hi => ((0 <=? lo) && (lo <=? 100) && (0 <=? hi) && (hi <=? 100))%Z | TgOptional _ => true | _ => false end.
Lemma plain_parts tags p q : literally tags p q -> forallb plain_tag tags = true -> p_parts q = p_parts p.
Proof.
  induction 1 as [|a t p q r H1 H2 IH]; intros K; [reflexivity|]. cbn [forallb] in K. apply andb_prop in K as [K1 K2]. rewrite (IH K2).
  destruct a; try discriminate; cbn [literal] in H1; [destruct H1 as (n & m & _ & _ & ->)|subst q]; reflexivity.
Qed.
Lemma plain_small tags : forallb plain_tag tags = true -> Forall small_tag tags.
Proof.
  rewrite forallb_forall, Forall_forall. intros H a Ha. specialize (H a Ha). destruct a; try discriminate; cbn in *; [|exact I].
  unfold i32_min, i32_max. repeat (apply andb_prop in H as [H ?]). lia.
Qed.
Lemma plain_copies tr h p : forallb (fun x : event => match fst x with M_Script.OpNewChoice _ tags => forallb plain_tag tags | _ => true end) tr = true ->
  declared_choice tr h p -> copies p = 1.
Proof.
  intros HA (x & (t1 & t2 & -> & _) & n & tags & -> & _ & HL). rewrite forallb_app in HA. apply andb_prop in HA as [_ HA]. cbn in HA. apply andb_prop in HA as [HA _].
  unfold copies. rewrite (plain_parts _ _ _ (HL (plain_small _ HA)) HA). reflexivity.
Qed.
Lemma forall2_len {A B} (R : A -> B -> Prop) l m : Forall2 R l m -> length l = length m.
Proof. induction 1; cbn; congruence. Qed.
Lemma first_index_ones ps : Forall (fun p => copies p = 1) ps -> first_index ps (length ps) = length ps.
Proof. induction 1 as [|p t H _ IH]; cbn [first_index Datatypes.length]; [reflexivity|]. rewrite H, IH. reflexivity. Qed.
Example C96_of_scripts_witness : forall text, modest Debug T_Script.pf0 T_Main.o5 (fst (T_Main.xs5, @None string)) /\
  forall d o', env_read T_Main.e5 T_Main.o5 text = (Ok d, o') -> T_Main.sized d.
Proof.
  intros text. cbn [fst]. split; [|intros d o' H; rewrite T_Main.e5_reads in H; apply T_Main.pair_ok in H as [<- _]; exact T_Main.d5_sized].
  constructor.
  - apply P_Script8.proper_b_ok. vm_compute. reflexivity.
  - vm_compute. reflexivity.
  - intros l r z cs. vm_compute in cs. subst cs. cbn [In]. intuition (try congruence).
  - intros ps tr H. assert (L : length (filter is_choice (additions tr)) = length ps) by (apply (forall2_len _ _ _ H)). rewrite first_index_ones.
    + rewrite <- L. vm_compute. discriminate.
    + clear L. induction H as [|h p hs ps Hp _ IH]; constructor; auto. apply (plain_copies tr h); [vm_compute; reflexivity|exact Hp].
  - intros pre flag v rest H. exfalso. apply (in_map (fun x => match x with OpArgs _ => true | _ => false end)) in H. vm_compute in H. intuition congruence.
Qed.
