(** Proofs for C90. *)
From Verif Require Import Base M_Data Spec M_Scoring M_Names M_Rng M_Critical M_Search M_Flow Spec_Calls M_Climb M_Threads Spec_Threads M_Build Spec_Input
  Spec_Status P_Status M_Status M_Output Spec_Output M_Main M_Warn M_Log Spec_Log.
From Verif Require M_Script.
From Coq Require Import String.
Notation length := Datatypes.length.
Notation get := Base.get.
Import ListNotations.
Open Scope string_scope.
Open Scope list_scope.
Import M_Script(settings, s_inputs, s_output, s_no_cs, s_no_cs_simp, s_greedy, s_pref_exp, op).

Lemma counted_dec n : counted (dec n) n. Proof. unfold counted, dec. rewrite number_n, nat_N_Z. auto. Qed.
Lemma andthen_inv {A B} (m : logged A) (f : A -> logged B) r l : andthen m f = (r, l) ->
  (exists x l1 l2, m = (Ok x, l1) /\ f x = (r, l2) /\ l = l1 ++ l2) \/
  (exists s, m = (Err s, l) /\ r = Err s) \/ (m = (Panic, l) /\ r = Panic).
Proof.
  unfold andthen. destruct m as [[x|s|] l1]; cbn [fst snd]; intros H; injection H as <- <-.
  - left. exists x, l1, (snd (f x)). destruct (f x); auto.
  - right. left. eauto.
  - right. right. auto.
Qed.
Lemma say_eq {B} s t (f : unit -> logged B) : andthen (say s t) f = (fst (f tt), Said s t :: snd (f tt)). Proof. reflexivity. Qed.
Lemma quiet_eq {A B} (x : A) (f : A -> logged B) : andthen (quiet (Ok x)) f = f x.
Proof. unfold andthen, quiet. cbn [fst snd]. destruct (f x); reflexivity. Qed.
Section Log.
Context {F : Type} (good : world -> Prop) (pr : profile) (pow : F -> f32 -> f32) (cost : F -> N -> Z) (e : surroundings (settings F)).

Lemma prepare_log_ok o d u l : prepare_log pr pow cost o d = (Ok u, l) -> prepared_as pr pow cost o d l.
Proof.
  unfold prepare_log, analyze_log, andthen, say, quiet. cbn [fst snd].
  destruct (negb (s_no_cs o) && negb (s_greedy o) && (1 <? length (i_slots d))%nat)%bool eqn:Ecs; cbn [andb].
  - apply andb_true_iff in Ecs as [Ecs E3]. apply andb_true_iff in Ecs as [E1 E2]. apply negb_true_iff in E1, E2.
    destruct (analyze_sets pr d) as [sets| |] eqn:ES; cbn [fst snd]; try discriminate.
    destruct (s_no_cs_simp o) eqn:E4; cbn [negb fst snd]; (destruct (prepare pr pow cost o d) as [P| |] eqn:EP; cbn [fst snd app]; [|discriminate|discriminate]);
    (assert (EA : an_sets (p_analysis P) = if s_no_cs_simp o then sets else simplify_sets sets);
    [unfold prepare in EP; apply bind_ok in EP as (an & EA & EP); apply bind_ok in EP as (st & _ & EP); injection EP as <-; cbn [p_analysis];
      unfold prepare_analysis, new_analysis in EA; rewrite E1, E2, E3, E4 in EA; cbn [negb andb] in EA; rewrite ES in EA; cbn [bind] in EA;
      injection EA as <-; cbn; rewrite E4; auto|]); rewrite E4 in EA; apply Nat.ltb_lt in E3; intros H; injection H as <- <-.
    + eapply pa_analyzed; eauto; [rewrite EA; apply counted_dec|apply number_n].
    + eapply pa_simplified; eauto; [apply counted_dec|rewrite EA; apply counted_dec|apply number_n].
  - destruct (prepare pr pow cost o d) as [P| |] eqn:EP; cbn [fst snd app]; try discriminate. intros H. injection H as <- <-.
    eapply pa_skipped; eauto. destruct (s_no_cs o); auto. destruct (s_greedy o); auto. right. right. cbn [negb andb] in Ecs. apply Nat.ltb_ge in Ecs. auto.
Qed.
(** Lists of messages without error. *)
Definition plain (x : entry) : Prop := exists s t, x = Said s t /\ s <> Error.
Lemma prepare_log_plain o d r l : prepare_log pr pow cost o d = (r, l) -> Forall plain l.
Proof.
  intros H. apply Forall_forall. intros x Hx. assert (K : exists t, x = Said Info t); [|destruct K as (t & ->); exists Info, t; split; [auto|discriminate]].
  revert H Hx. unfold prepare_log, analyze_log, andthen, say, quiet. cbn [fst snd].
  destruct (negb (s_no_cs o) && negb (s_greedy o) && (1 <? length (i_slots d))%nat)%bool; cbn [andb].
  - destruct (analyze_sets pr d) as [sets| |]; cbn [fst snd]; intros H; try (injection H as <- <-; intros [<-|[]]; eauto; fail).
    destruct (negb (s_no_cs_simp o)); cbn [fst snd] in H; destruct (prepare pr pow cost o d); cbn [fst snd app] in H; injection H as <- <-; cbn [In app];
      intros Hx; repeat (destruct Hx as [<-|Hx]; [eauto|]); destruct Hx.
  - intros H. destruct (prepare pr pow cost o d); cbn [fst snd app] in H; injection H as <- <-; cbn [In app]; intros Hx; repeat (destruct Hx as [<-|Hx]; [eauto|]); destruct Hx.
Qed.
Lemma prepare_log_result o d r l : prepare_log pr pow cost o d = (r, l) ->
  match prepare pr pow cost o d with Ok _ => r = Ok tt | Err m => r = Err m | Panic => r = Panic end.
Proof.
  unfold prepare_log, analyze_log, andthen, say, quiet. cbn [fst snd].
  destruct (negb (s_no_cs o) && negb (s_greedy o) && (1 <? length (i_slots d))%nat)%bool eqn:Ecs; cbn [andb].
  - destruct (analyze_sets pr d) as [sets|m|] eqn:ES; cbn [fst snd].
    + intros H. destruct (negb (s_no_cs_simp o)); cbn [fst snd] in H; destruct (prepare pr pow cost o d); cbn [fst snd app] in H; injection H as <- <-; auto.
    + intros H. injection H as <- <-. unfold prepare, prepare_analysis, new_analysis. rewrite Ecs, ES. reflexivity.
    + intros H. injection H as <- <-. unfold prepare, prepare_analysis, new_analysis. rewrite Ecs, ES. reflexivity.
  - intros H. destruct (prepare pr pow cost o d); cbn [fst snd app] in H; injection H as <- <-; auto.
Qed.
Lemma output_log_inv text suffix o r l : output_log e text suffix o = (r, l) ->
  (r = Ok tt /\ l = delivery (s_output o) suffix text /\ output_string s_output e text suffix o = Ok (effects l)) \/
  (exists f, s_output o = Some f /\ env_writable e (f ++ suffix) = false /\ r = Err "write" /\ Forall plain l /\ output_string s_output e text suffix o = Err "write").
Proof.
  unfold output_log, output_string, delivery. destruct (s_output o) as [f|].
  - unfold andthen, say, quiet. cbn [fst snd]. destruct (env_writable e (f ++ suffix)) eqn:EW; cbn [fst snd]; intros H; injection H as <- <-.
    + left. auto.
    + right. exists f. repeat split; auto. constructor; [|constructor]. exists Info. eexists. split; [reflexivity|discriminate].
  - intros H. injection H as <- <-. left. auto.
Qed.

Context (pow64 : F -> f64 -> f64) (numbers : settings F -> input_data -> string).
Definition opening (o : settings F) (d : input_data) : list entry :=
  [Said Info "Processing input.";
   Said Info ("Read " ++ dec (length (i_slots d)) ++ " slot(s), " ++ dec (length (i_choices d)) ++ " choice(s) and " ++ dec (length (i_choosers d)) ++ " chooser(s).")%string;
   Said Info ("Found " ++ dec (length (i_sched d)) ++ " scheduling and " ++ dec (length (i_assign d)) ++ " assignment constraints.")%string]
  ++ (if warns (pow64 (s_pref_exp o)) d then [Said Warning "The preference exponent is too large; computations may cause an integer overflow"] else []).
Lemma opening_plain o d : Forall plain (opening o d).
Proof.
  apply Forall_forall. intros x Hx. unfold opening in Hx. apply in_app_iff in Hx as [Hx|Hx].
  - cbn [In] in Hx. destruct Hx as [<-|[<-|[<-|[]]]]; eexists; eexists; (split; [reflexivity|discriminate]).
  - destruct (warns _ d); [|destruct Hx]. destruct Hx as [<-|[]]. eexists; eexists; (split; [reflexivity|discriminate]).
Qed.
(** What the run does after the opening. *)
Definition after (o : settings F) (d : input_data) : logged unit :=
  andthen (prepare_log pr pow cost o d) (fun _ =>
  andthen (say Info "Generating static data and starting solver.") (fun _ =>
  andthen (quiet (env_solve e o d)) (fun sol =>
  andthen (say Info (match sol with SolInvalid => "No solution found." | _ => "Solved " ++ numbers o d end)%string) (fun _ =>
  if is_invalid sol then say Info "No solution found." else
  andthen (say Info "Solution found.") (fun _ =>
  andthen (quiet (env_score e o d sol)) (fun sc =>
  andthen (say Info ("Solution score: " ++ score_text sc)%string) (fun _ =>
  andthen (if (1 <? length (i_slots d))%nat
           then andthen (quiet (write_scheduling d sol)) (fun t => output_log e t ".scheduling.csv" o) else quiet (Ok tt)) (fun _ =>
  andthen (quiet (write_assignment d sol)) (fun t => output_log e t ".assignment.csv" o))))))))).
Lemma try_run_log_eq o input : try_run_log pr pow pow64 cost e numbers o input =
  match fst (env_read e o input) with
  | Ok d => let o' := snd (env_read e o input) in (fst (after o' d), opening o' d ++ snd (after o' d))
  | Err m => (Err m, [Said Info "Processing input."])
  | Panic => (Panic, [Said Info "Processing input."])
  end.
Proof.
  unfold try_run_log. rewrite say_eq. destruct (env_read e o input) as [[d|m|] o']; cbn [fst snd].
  2,3: reflexivity.
  rewrite quiet_eq. cbn [fst snd]. rewrite !say_eq. cbn [fst snd]. unfold opening.
  destruct (warns (pow64 (s_pref_exp o')) d); rewrite ?say_eq, ?quiet_eq; cbn [fst snd]; reflexivity.
Qed.

Definition begin : entry := Said Info "Generating static data and starting solver.".
Definition verdict (o : settings F) (d : input_data) (sol : solution) : entry :=
  Said Info (match sol with SolInvalid => "No solution found." | _ => "Solved " ++ numbers o d end)%string.
Definition fails {A} (m : outcome A) (r : outcome unit) : Prop := (exists s, m = Err s /\ r = Err s) \/ (m = Panic /\ r = Panic).
(** The ways a run can go after the opening. *)
Inductive course (o : settings F) (d : input_data) : outcome unit -> list entry -> Prop :=
| co_unprepared r l : fails (prepare pr pow cost o d) r -> Forall plain l -> course o d r l
| co_unsolved r l : Forall plain l -> prepared_as pr pow cost o d l -> fails (env_solve e o d) r -> course o d r (l ++ [begin])
| co_none sol l : Forall plain l -> prepared_as pr pow cost o d l -> env_solve e o d = Ok sol -> is_invalid sol = true ->
    course o d (Ok tt) (l ++ [begin; verdict o d sol; Said Info "No solution found."])
| co_unscored r sol l : Forall plain l -> prepared_as pr pow cost o d l -> env_solve e o d = Ok sol -> is_invalid sol = false -> fails (env_score e o d sol) r ->
    course o d r (l ++ [begin; verdict o d sol; Said Info "Solution found."])
| co_unwritten1 r sol sc l l' : Forall plain l -> prepared_as pr pow cost o d l -> env_solve e o d = Ok sol -> is_invalid sol = false -> env_score e o d sol = Ok sc ->
    (1 < length (i_slots d)) -> fails (let* t := write_scheduling d sol in output_string s_output e t ".scheduling.csv" o) r -> Forall plain l' ->
    (forall t, write_scheduling d sol = Ok t -> exists f, s_output o = Some f /\ env_writable e (f ++ ".scheduling.csv") = false /\ r = Err "write") ->
    course o d r (l ++ [begin; verdict o d sol; Said Info "Solution found."; Said Info ("Solution score: " ++ score_text sc)%string] ++ l')
| co_unwritten2 r sol sc l l1 l2 : Forall plain l -> prepared_as pr pow cost o d l -> env_solve e o d = Ok sol -> is_invalid sol = false -> env_score e o d sol = Ok sc ->
    (if (1 <? length (i_slots d))%nat then exists t, write_scheduling d sol = Ok t /\ l1 = delivery (s_output o) ".scheduling.csv" t /\
       output_string s_output e t ".scheduling.csv" o = Ok (effects l1) else l1 = []) ->
    fails (let* t := write_assignment d sol in output_string s_output e t ".assignment.csv" o) r -> Forall plain l2 ->
    (forall t, write_assignment d sol = Ok t -> exists f, s_output o = Some f /\ env_writable e (f ++ ".assignment.csv") = false /\ r = Err "write") ->
    course o d r (l ++ [begin; verdict o d sol; Said Info "Solution found."; Said Info ("Solution score: " ++ score_text sc)%string] ++ l1 ++ l2)
| co_some sol sc l l1 t2 : Forall plain l -> prepared_as pr pow cost o d l -> env_solve e o d = Ok sol -> is_invalid sol = false -> env_score e o d sol = Ok sc ->
    (if (1 <? length (i_slots d))%nat then exists t, write_scheduling d sol = Ok t /\ l1 = delivery (s_output o) ".scheduling.csv" t /\
       output_string s_output e t ".scheduling.csv" o = Ok (effects l1) else l1 = []) ->
    write_assignment d sol = Ok t2 -> output_string s_output e t2 ".assignment.csv" o = Ok (effects (delivery (s_output o) ".assignment.csv" t2)) ->
    course o d (Ok tt) (l ++ [begin; verdict o d sol; Said Info "Solution found."; Said Info ("Solution score: " ++ score_text sc)%string] ++ l1 ++ delivery (s_output o) ".assignment.csv" t2).
Lemma say_inv {B} sv t (f : unit -> logged B) r l : andthen (say sv t) f = (r, l) -> exists l', f tt = (r, l') /\ l = Said sv t :: l'.
Proof. unfold andthen, say. cbn [fst snd]. destruct (f tt) as [r' l']. cbn [fst snd]. intros H. injection H as <- <-. exists l'. auto. Qed.
Lemma quiet_inv {A} (x : outcome A) (f : A -> logged unit) r l : andthen (quiet x) f = (r, l) -> (exists y, x = Ok y /\ f y = (r, l)) \/ (fails x r /\ l = []).
Proof.
  unfold andthen, quiet, fails. destruct x as [y|m|]; cbn [fst snd].
  - destruct (f y) as [r' l'] eqn:E. cbn [fst snd app]. intros H. injection H as <- <-. left. exists y. auto.
  - intros H. injection H as <- <-. right. split; [left; eauto|auto].
  - intros H. injection H as <- <-. right. auto.
Qed.
Lemma after_course o d r l : after o d = (r, l) -> course o d r l.
Proof.
  unfold after. intros H. apply andthen_inv in H as [([] & lp & l' & EP & H & ->)|H].
  2:{ assert (K : prepare_log pr pow cost o d = (r, l)) by (destruct H as [(s & H & ->)|(H & ->)]; auto).
      pose proof (prepare_log_result o d r l K) as HR. apply co_unprepared; [|eapply prepare_log_plain; eauto]. unfold fails.
      destruct H as [(s & _ & ->)|(_ & ->)]; (destruct (prepare pr pow cost o d); [discriminate| |]); try discriminate; [left|right]; eauto. }
  pose proof (prepare_log_plain o d _ lp EP) as HPl. pose proof (prepare_log_ok o d tt lp EP) as HA. clear EP.
  apply say_inv in H as (l1 & H & ->). apply quiet_inv in H as [(sol & ES & H)|[H ->]]; [|apply co_unsolved; auto].
  apply say_inv in H as (l2 & H & ->). destruct (is_invalid sol) eqn:EI. { unfold say in H. injection H as <- <-. apply (co_none o d sol); auto. }
  apply say_inv in H as (l3 & H & ->). apply quiet_inv in H as [(sc & EC & H)|[H ->]]; [|apply (co_unscored o d r sol); auto].
  apply say_inv in H as (l4 & H & ->). rename l4 into l.
  change (course o d r (lp ++ [begin; verdict o d sol; Said Info "Solution found."; Said Info ("Solution score: " ++ score_text sc)%string] ++ l)).
  apply andthen_inv in H as [(u & l1 & l2 & E1 & E2 & ->)|H].
  - assert (D1 : if (1 <? length (i_slots d))%nat then exists t, write_scheduling d sol = Ok t /\ l1 = delivery (s_output o) ".scheduling.csv" t /\
       output_string s_output e t ".scheduling.csv" o = Ok (effects l1) else l1 = []).
    { destruct (1 <? length (i_slots d))%nat; [|injection E1 as _ <-; auto]. apply quiet_inv in E1 as [(t & EW & EO)|[[(s & _ & E)|[_ E]] _]]; try discriminate. exists t. split; auto.
      destruct (output_log_inv _ _ _ _ _ EO) as [(_ & A & B)|(f & _ & _ & A & _)]; [auto|discriminate]. }
    apply quiet_inv in E2 as [(t & EW & EO)|[EW ->]].
    2:{ apply (co_unwritten2 o d r sol sc lp l1 []); auto; [|intros t Ht; destruct EW as [(s & EW & _)|[EW _]]; congruence].
        destruct EW as [(s & EW & ->)|[EW ->]]; rewrite EW; unfold fails; cbn [bind]; [left; eauto|right; auto]. }
    destruct (output_log_inv _ _ _ _ _ EO) as [(-> & -> & B)|(f & A1 & A2 & -> & A3 & A4)].
    + eapply co_some; eauto.
    + eapply co_unwritten2; eauto. rewrite EW. unfold fails. cbn [bind]. left. eauto.
  - assert (Hl : (1 <? length (i_slots d))%nat = true) by (destruct (1 <? length (i_slots d))%nat; auto; destruct H as [(s & H & _)|(H & _)]; discriminate).
    rewrite Hl in H. apply Nat.ltb_lt in Hl.
    assert (K : andthen (quiet (write_scheduling d sol)) (fun t => output_log e t ".scheduling.csv" o) = (r, l) /\ forall u, r <> Ok u).
    { destruct H as [(s & H & ->)|(H & ->)]; (split; [exact H|discriminate]). }
    clear H. destruct K as [H HN]. apply quiet_inv in H as [(t & EW & EO)|[EW ->]].
    + destruct (output_log_inv _ _ _ _ _ EO) as [(-> & -> & B)|(f & A1 & A2 & -> & A3 & A4)]; [congruence|].
      eapply co_unwritten1; eauto. rewrite EW. unfold fails. cbn [bind]. left. eauto.
    + apply (co_unwritten1 o d r sol sc lp []); auto; [|intros t Ht; destruct EW as [(s & EW & _)|[EW _]]; congruence].
      destruct EW as [(s & EW & ->)|[EW ->]]; rewrite EW; unfold fails; cbn [bind]; [left; eauto|right; auto].
Qed.
End Log.
