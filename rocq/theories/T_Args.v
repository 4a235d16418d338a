(** Property theorem about the options: C91.  [F] is f64, [pf] its parser, [three] is
    3.0 and [cores] the number of processors. *)
From Verif Require Import Base.
From Verif Require Import M_Script Spec_Script P_Script1 M_Args Spec_Args P_Args M_Output M_Main.
From Verif Require T_Script T_Main.
From Coq Require Import String Ascii.
Notation length := Datatypes.length.
Notation get := Base.get.
Open Scope string_scope.
Open Scope list_scope.

Section Readers.
Context {F : Type} (pr : profile) (pf : string -> option F).
Lemma pf_fun v (a b : F) : pf v = Some a -> pf v = Some b -> a = b.
Proof. congruence. Qed.
Lemma time_fun v (a b : Z) : parse_time pr v = Ok a -> parse_time pr v = Ok b -> a = b.
Proof. congruence. Qed.
Lemma numeral_fun v (a b : N) : numeral u32_max v a -> numeral u32_max v b -> a = b.
Proof. intros H H'. apply parse_unsigned_ok in H, H'. congruence. Qed.

Lemma set_arguments_applies (o o' : settings F) ss :
  set_arguments pr pf o (map DStr ss) = (Ok tt, o') <->
  applies (fun v x => pf v = Some x) (fun v x => parse_time pr v = Ok x) (numeral u32_max) o ss o'.
Proof.
  unfold set_arguments. assert (E : all_strings (map DStr ss) = Some ss) by (apply all_strings_spec; reflexivity). rewrite E.
  split; intros H.
  - destruct (arg_loop pr pf o ss) as [o1|m|] eqn:EA; try discriminate. injection H as <-. eapply arg_loop_sound; eauto.
  - apply arg_loop_complete in H. rewrite H. reflexivity.
Qed.
End Readers.

(** ** C91.  What a set_arguments call does: it succeeds just if the words are options
    with readable values, and then the last value given for an option is the one in
    effect, switches that were on or are given are on, and input files add up. *)
Theorem C91_the_last_word_counts :
  forall (F : Type) (pr : profile) (pf : string -> option F) (o o' : settings F) (ss : list string),
    let fl v x := pf v = Some x in let tm v x := parse_time pr v = Ok x in
    set_arguments pr pf o (map DStr ss) = (Ok tt, o') <->
    exists l, tells ss l /\ readable fl tm (numeral u32_max) l /\ in_effect fl tm (numeral u32_max) l o o'.
Proof.
  intros F pr pf o o' ss fl tm. rewrite set_arguments_applies. apply applies_iff; intros v a b; [apply pf_fun|apply time_fun|apply numeral_fun].
Qed.
Print Assumptions C91_the_last_word_counts.

(** The program's own command line: the same words, with the documented defaults, and
    the command line accepts exactly those that give no option but [--input] twice, do
    not ask for help and have no value that looks like an option. *)
Theorem C91_script_and_command_line_agree :
  forall (F : Type) (pr : profile) (pf : string -> option F) (three : F) (cores : N) (words : list string) (o : settings F),
    options_parse pr pf three cores words = Ok o <->
    set_arguments pr pf (mkSettings [] None false three 60%Z 3%Z false false cores 12%N false) (map DStr words) = (Ok tt, o) /\
    exists l, tells words l /\ orderly l.
Proof.
  intros F pr pf three cores words o. change (mkSettings [] None false three 60%Z 3%Z false false cores 12%N false) with (@default_options F three cores). split.
  - intros H. unfold options_parse in H. destruct (clap_words [] words) as [m|] eqn:Em; [|discriminate].
    destruct (clap_ok _ _ _ _ (le_n _) (@in_nil _ FInput) Em) as (HT & HO & _).
    apply bind_ok in H as (e & He & H). apply bind_ok in H as (t & Ht & H). apply bind_ok in H as (c & Hc & H).
    apply bind_ok in H as (j & Hj & H). apply bind_ok in H as (n & Hn & H). injection H as <-.
    assert (V : forall A (p : string -> option A) v y, value_parser p v = Ok y -> p v = Some y).
    { intros A p v y. unfold value_parser. destruct (p v); congruence. }
    assert (Vu : forall v y, value_parser parse_u32 v = Ok y -> numeral u32_max v y) by (intros v y Hv; apply parse_unsigned_ok, V, Hv).
    split; [|eauto]. apply C91_the_last_word_counts. exists (map item m). split; [exact HT|].
    assert (S1 := valued_setting (fun v x => pf v = Some x) m FExp _ _ three e HO ltac:(discriminate) (V _ pf) eq_refl He).
    assert (S2 := valued_setting (fun v x => parse_time pr v = Ok x) m FTimeout _ _ 60%Z t HO ltac:(discriminate) (fun v y G => G) ltac:(destruct pr; reflexivity) Ht).
    assert (S3 := valued_setting (fun v x => parse_time pr v = Ok x) m FCsTimeout _ _ 3%Z c HO ltac:(discriminate) (fun v y G => G) ltac:(destruct pr; reflexivity) Hc).
    assert (S4 := valued_setting (numeral u32_max) m FThreads _ _ cores j HO ltac:(discriminate) Vu eq_refl Hj).
    assert (S5 := valued_setting (numeral u32_max) m FNeighbors _ _ 12%N n HO ltac:(discriminate) Vu eq_refl Hn).
    assert (R : forall A (rd : string -> A -> Prop) k x0 x v, k <> KInput -> setting rd (map item m) k x0 x -> In (k, v) (map item m) -> exists y, rd v y).
    { intros A rd k x0 x v Hk [(v' & L & G)|[Hu _]] Hi; [|destruct (Hu v Hi)]. exists x.
      rewrite (last_told_fun _ _ _ _ (orderly_last _ _ _ HO Hk Hi) L). exact G. }
    split.
    + intros k v Hi. destruct k; try exact I.
      * exact (R _ _ KExp _ _ v ltac:(discriminate) S1 Hi).
      * exact (R _ _ KTimeout _ _ v ltac:(discriminate) S2 Hi).
      * exact (R _ _ KCsTimeout _ _ v ltac:(discriminate) S3 Hi).
      * exact (R _ _ KThreads _ _ v ltac:(discriminate) S4 Hi).
      * exact (R _ _ KNeighbors _ _ v ltac:(discriminate) S5 Hi).
    + split; cbn [default_options s_inputs s_output s_any s_pref_exp s_timeout s_cs_timeout s_no_cs s_no_cs_simp s_threads s_max_neighbors s_greedy];
        auto; try apply (flagged_switch m FAny); try apply (flagged_switch m FNoCs); try apply (flagged_switch m FNoCsSimp); try apply (flagged_switch m FGreedy).
      * exists (found m FInput). split; [apply found_inputs|reflexivity].
      * destruct (found m FOutput) as [|v r] eqn:E.
        -- right. split; [apply (found_nil m FOutput); exact E|reflexivity].
        -- left. exists v. split; [|reflexivity]. apply (proj2 (found_cons _ _ _ _ E)); [discriminate|exact HO].
  - intros [H (l & HT & HO)]. apply C91_the_last_word_counts in H as (l' & HT' & HR & HE). rewrite <- (tells_fun _ _ HT _ HT') in *. clear l' HT'.
    destruct (clap_complete _ _ HT HO [] (@in_nil _ FInput) ltac:(intros f [])) as (m & Em & ->).
    assert (V : forall A (p : string -> option A) v y, p v = Some y -> value_parser p v = Ok y).
    { intros A p v y G. unfold value_parser. rewrite G. reflexivity. }
    destruct (valued_total (fun v x => pf v = Some x) m FExp (value_parser pf) three) as [e He].
    { intros v Hi. exact (HR _ _ Hi). } { apply V. }
    destruct (valued_total (fun v x => parse_time pr v = Ok x) m FTimeout (parse_time pr) 60%Z) as [t Ht].
    { intros v Hi. exact (HR _ _ Hi). } { auto. }
    destruct (valued_total (fun v x => parse_time pr v = Ok x) m FCsTimeout (parse_time pr) 3%Z) as [c Hc].
    { intros v Hi. exact (HR _ _ Hi). } { auto. }
    destruct (valued_total (numeral u32_max) m FThreads (value_parser parse_u32) cores) as [j Hj].
    { intros v Hi. exact (HR _ _ Hi). } { intros v y G. apply V, parse_unsigned_ok, G. }
    destruct (valued_total (numeral u32_max) m FNeighbors (value_parser parse_u32) 12%N) as [n Hn].
    { intros v Hi. exact (HR _ _ Hi). } { intros v y G. apply V, parse_unsigned_ok, G. }
    unfold options_parse. rewrite Em. rewrite He. cbn [bind].
    replace (parse_time pr "60s") with (@Ok Z 60%Z) by (destruct pr; reflexivity). rewrite Ht. cbn [bind].
    replace (parse_time pr "3s") with (@Ok Z 3%Z) by (destruct pr; reflexivity). rewrite Hc. cbn [bind].
    rewrite Hj. cbn [bind]. rewrite Hn. cbn [bind]. f_equal.
    eapply (in_effect_fun (fun v x => pf v = Some x) (fun v x => parse_time pr v = Ok x) (numeral u32_max));
      [intros v a b; apply pf_fun|intros v a b; apply time_fun|intros v a b; apply numeral_fun| |exact HE].
    assert (V' : forall A (p : string -> option A) v y, value_parser p v = Ok y -> p v = Some y).
    { intros A p v y. unfold value_parser. destruct (p v); congruence. }
    split; cbn [default_options s_inputs s_output s_any s_pref_exp s_timeout s_cs_timeout s_no_cs s_no_cs_simp s_threads s_max_neighbors s_greedy];
        auto; try apply (flagged_switch m FAny); try apply (flagged_switch m FNoCs); try apply (flagged_switch m FNoCsSimp); try apply (flagged_switch m FGreedy).
    + exists (found m FInput). split; [apply found_inputs|reflexivity].
    + destruct (found m FOutput) as [|v r] eqn:E.
      * right. split; [apply (found_nil m FOutput); exact E|reflexivity].
      * left. exists v. split; [|reflexivity]. apply (proj2 (found_cons _ _ _ _ E)); [discriminate|exact HO].
    + exact (valued_setting _ m FExp _ _ three e HO ltac:(discriminate) (V' _ pf) eq_refl He).
    + exact (valued_setting (fun v x => parse_time pr v = Ok x) m FTimeout _ _ 60%Z t HO ltac:(discriminate) (fun v y G => G) eq_refl Ht).
    + exact (valued_setting (fun v x => parse_time pr v = Ok x) m FCsTimeout _ _ 3%Z c HO ltac:(discriminate) (fun v y G => G) eq_refl Hc).
    + refine (valued_setting (numeral u32_max) m FThreads _ _ cores j HO ltac:(discriminate) _ eq_refl Hj). intros v y G. apply parse_unsigned_ok, V', G.
    + refine (valued_setting (numeral u32_max) m FNeighbors _ _ 12%N n HO ltac:(discriminate) _ eq_refl Hn). intros v y G. apply parse_unsigned_ok, V', G.
Qed.
Print Assumptions C91_script_and_command_line_agree.

(** The library's own default options are those of an empty command line, and every
    one of them is the documented default. *)
Theorem C91_defaults_agree :
  forall (F : Type) (pr : profile) (pf : string -> option F) (three : F) (cores : N) (o : settings F),
    options_parse pr pf three cores [] = Ok o <->
    o = default_options three cores /\ s_inputs o = [] /\ s_output o = None /\ s_any o = false /\ s_pref_exp o = three /\
    s_timeout o = 60%Z /\ s_cs_timeout o = 3%Z /\ s_no_cs o = false /\ s_no_cs_simp o = false /\ s_threads o = cores /\
    s_max_neighbors o = 12%N /\ s_greedy o = false.
Proof.
  intros F pr pf three cores o. assert (E : options_parse pr pf three cores [] = Ok (default_options three cores)) by (destruct pr; reflexivity).
  rewrite E. split; [intros H; injection H as <-; cbn; auto 20|]. intros [-> _]. reflexivity.
Qed.
Print Assumptions C91_defaults_agree.

(** A run of the program: the options in effect after reading are the defaults, then
    what the command line says, then what the accepted set_arguments calls of the
    script say, in this order. *)
Theorem C91_options_in_effect :
  forall (F : Type) (good : M_Climb.world -> Prop) (pr : profile) (pf : string -> option F) (engine : settings F -> string -> list op * option string)
         pow cost (e : surroundings (settings F)) (three : F) (cores : N) (words : list string) (o o' : settings F) (text : string) r,
    program good pr pf engine pow cost e o ->
    options_parse pr pf three cores words = Ok o -> env_read e o text = (r, o') ->
    let args := T_Script.accepted_args (fst (exec_all pr pf (mkWorld rs_empty o) (fst (engine o text)))) in
    let fl v x := pf v = Some x in let tm v x := parse_time pr v = Ok x in
    exists l l', tells words l /\ tells args l' /\
      in_effect fl tm (numeral u32_max) (l ++ l') (mkSettings [] None false three 60%Z 3%Z false false cores 12%N false) o'.
Proof.
  intros F good pr pf engine pow cost e three cores words o o' text r HP HO HR args fl tm.
  rewrite (pg_read _ _ _ _ _ _ _ _ HP) in HR. unfold script_reader in HR. unfold args. clear args. destruct (engine o text) as [xs fail]. cbn [fst].
  apply C91_script_and_command_line_agree in HO as [HO _]. apply set_arguments_applies in HO.
  unfold read_script in HR. destruct (read_with pr pf (mkWorld rs_empty o) xs fail) as [r1 w] eqn:E. injection HR as -> <-.
  apply T_Script.C59_options_accumulate in E. cbn [w_opts] in E.
  destruct (applies_reads _ _ _ _ _ _ HO) as (l & Hl & _). destruct (applies_reads _ _ _ _ _ _ E) as (l' & Hl' & _).
  exists l, l'. split; [exact Hl|]. split; [exact Hl'|].
  destruct (applies_reads _ _ _ _ _ _ (T_Script.applies_app _ _ _ _ _ _ HO _ _ E)) as (l2 & H2 & _ & H3).
  rewrite (tells_fun _ _ (tells_app _ _ Hl _ _ Hl') _ H2). exact H3.
Qed.
Print Assumptions C91_options_in_effect.

Example C91_witness :
  let d := mkSettings [] None false 3 60%Z 3%Z false false 8%N 12%N false in
  options_parse Debug T_Script.pf0 3 8%N ["-i"; "a"; "--timeout"; "5s"; "-a"; "-i"; "b"; "-j"; "2"] =
    Ok (mkSettings ["a"; "b"] None true 3 5%Z 3%Z false false 2%N 12%N false) /\
  options_parse Debug T_Script.pf0 3 8%N [] = Ok d /\
  (** twice, or like an option: only a script may say that *)
  (exists m, options_parse Debug T_Script.pf0 3 8%N ["-t"; "5s"; "-t"; "7s"] = Err m) /\
  set_arguments Debug T_Script.pf0 d (map DStr ["-t"; "5s"; "-t"; "7s"]) = (Ok tt, set_timeout 7%Z d) /\
  (exists m, options_parse Debug T_Script.pf0 3 8%N ["-o"; "-x"] = Err m) /\
  set_arguments Debug T_Script.pf0 d (map DStr ["-o"; "-x"]) = (Ok tt, set_output "-x" d) /\
  (exists m, options_parse Debug T_Script.pf0 3 8%N ["--help"] = Err m) /\
  tells ["-t"; "5s"; "-t"; "7s"] [(KTimeout, "5s"); (KTimeout, "7s")].
Proof.
  cbn zeta. repeat split; try (vm_compute; reflexivity); try (eexists; vm_compute; reflexivity).
  apply te_value; cbn; auto. apply te_value; cbn; auto. constructor.
Qed.
Example C91_in_effect_witness :
  program T_Main.healthy Debug T_Script.pf0 (fun _ _ => (T_Main.xs5, None)) (fun (_ : nat) x => x) (fun _ => T_Flow.cube) T_Main.e5 T_Main.o5 /\
  options_parse Debug T_Script.pf0 3 2%N ["-a"; "-t"; "10s"; "-n"; "13"] = Ok T_Main.o5 /\
  env_read T_Main.e5 T_Main.o5 "" = (Ok T_Climb.d5, T_Main.o5).
Proof. split; [exact T_Main.program5|]. split; [vm_compute; reflexivity|apply T_Main.e5_reads]. Qed.
