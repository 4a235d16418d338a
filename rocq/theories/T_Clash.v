(** Property theorems about contradictory scripts: C92. *)
From Verif Require Import Base M_Data M_Scoring Spec Spec_Input M_Build P_Check P_Compile P_Input M_Rng M_Search M_Climb M_Threads Spec_Search M_Output Spec_Output
  M_Script Spec_Script P_Script1 Spec_Clash M_Main Spec_Climb Spec_Flow Spec_Calls Spec_Threads.
From Verif Require P_Script8 T_Exact T_Flow T_Script T_Main T_Program T_Climb.
From Coq Require Import String.
Notation length := Datatypes.length.
Notation get := Base.get.
Open Scope list_scope.

Lemma scheduled_cardinal (S : scheduling) s : exists m, cardinal (fun c => scheduled_in S c s) m.
Proof.
  exists (length (filter (fun c => match nth_error S c with Some (Some x) => Nat.eqb x s | _ => false end) (seq 0 (length S)))).
  eexists. split; [apply NoDup_filter, seq_NoDup|]. split; [|reflexivity].
  intros x. rewrite filter_In, in_seq. unfold scheduled_in. split.
  - intros [_ H]. destruct (nth_error S x) as [[y|]|]; try discriminate. apply Nat.eqb_eq in H. congruence.
  - intros H. split; [|rewrite H; apply Nat.eqb_refl]. assert (x < length S) by (apply nth_error_Some; congruence). lia.
Qed.

Section Opposites.
Variables (tr : list event) (ps : list proto) (sch : scheduling) (A : assignment).
Hypothesis holds : forall l rel rt, In (l, rel, rt) (constraints_of tr) -> (is_order rel = true -> exists j, l = OpSlotSize j) ->
  means tr ps false sch A (l, rel, rt).

Lemma stated_means l rel rt : stated tr l rel rt -> (is_order rel = true -> exists j, l = OpSlotSize j) -> means_direct tr ps false sch A l rel rt.
Proof using holds.
  intros [H|[Hr H]] HO.
  - apply holds in H; auto. exact (proj1 H).
  - apply holds in H; [|destruct Hr as [-> | ->]; discriminate]. destruct H as [_ H]. destruct Hr as [-> | ->]; exact H.
Qed.

Lemma opposites_cases l rel rt cs : stated tr l rel rt -> stated tr l (opposite rel) rt -> comparable tr ps l rel rt cs ->
  exists c, In c cs /\ forall s, ~ scheduled_in sch c s.
Proof using holds.
  intros Ha Hb HC.
  assert (HO : is_order rel = true \/ is_order (opposite rel) = true -> exists j, l = OpSlotSize j).
  { intros Hor. destruct HC as [l i k j c s rel H1 H2 H3 [-> | ->]|l rt i k j m c c' rel H1 H2 H3 H4 [-> | ->]|i j s c rel H1 H2 [-> | ->]
      |i j p c rel H1 H2 [-> | ->]|l i k j p c rel H1 H2 H3 [-> | ->]|i z s rel H1 H2 H3]; eauto; destruct Hor; discriminate. }
  assert (Ma := stated_means _ _ _ Ha (fun E => HO (or_introl E))).
  assert (Mb := stated_means _ _ _ Hb (fun E => HO (or_intror E))).
  destruct Ma as (A1 & A2 & A3 & _ & _ & A6 & _ & A8 & A9), Mb as (B1 & B2 & B3 & _ & _ & B6 & _ & B8 & B9).
  destruct HC as [l i k j c s rel H1 H2 H3 Hr|l rt i k j m c c' rel H1 H2 H3 H4 Hr|i j s c rel H1 H2 Hr
      |i j p c rel H1 H2 Hr|l i k j p c rel H1 H2 H3 Hr|i z s rel H1 H2 H3].
  - exfalso. destruct (A1 i k j c s H1 eq_refl H2 H3) as [P1 P2], (B1 i k j c s H1 eq_refl H2 H3) as [Q1 Q2].
    destruct Hr as [-> | ->]; [apply Q2|apply P2]; auto.
  - exists c. split; [left; reflexivity|]. intros s Hs.
    destruct (A2 i k j m c c' s H1 H2 H3 H4) as [P1 P2], (B2 i k j m c c' s H1 H2 H3 H4) as [Q1 Q2].
    destruct Hr as [-> | ->].
    + apply Q2; [reflexivity|]. split; [exact Hs|]. apply P1; auto.
    + apply P2; [reflexivity|]. split; [exact Hs|]. apply Q1; auto.
  - exfalso. destruct (A3 i j s c eq_refl eq_refl H1 H2) as [P1 P2], (B3 i j s c eq_refl eq_refl H1 H2) as [Q1 Q2].
    destruct Hr as [-> | ->]; [apply Q2|apply P2]; auto.
  - exists c. split; [left; reflexivity|]. intros s Hs. assert (Hh : held sch c) by (exists s; exact Hs).
    destruct (A6 i j p c eq_refl eq_refl H1 H2) as [P1 P2], (B6 i j p c eq_refl eq_refl H1 H2) as [Q1 Q2].
    destruct Hr as [-> | ->]; [apply Q2|apply P2]; auto.
  - exists c. split; [left; reflexivity|]. intros s Hs. assert (Hh : held sch c) by (exists s; exact Hs).
    destruct (A8 i k j p c H1 eq_refl H2 H3) as [P1 P2], (B8 i k j p c H1 eq_refl H2 H3) as [Q1 Q2].
    destruct Hr as [-> | ->]; [apply Q2|apply P2]; auto.
  - exfalso. destruct (scheduled_cardinal sch s) as [m Hm].
    specialize (A9 i z s m eq_refl eq_refl H1 Hm). specialize (B9 i z s m eq_refl eq_refl H1 Hm).
    destruct rel; cbn in A9, B9; try congruence; lia.
Qed.
End Opposites.

(** ** C92.  A script that states a constraint and its opposite: every valid solution
    leaves out a choice concerned, which must be optional. *)
Theorem C92_opposites_exclude_each_other :
  forall (F : Type) (pr : profile) (pf : string -> option F) (o o' : settings F) (xs : list op) (fail : option string)
         (d : input_data) (tr : list event) (w : M_Script.world F),
    exec_all pr pf (M_Script.mkWorld rs_empty o) xs = (tr, w) -> proper_trace tr -> no_renames xs ->
    read_script pr pf o xs fail = (Ok d, o') ->
    exists ps, Forall2 (declared_choice tr) (filter is_choice (additions tr)) ps /\
      forall l rel rt cs S A,
        stated tr l rel rt -> stated tr l (opposite rel) rt -> comparable tr ps l rel rt cs ->
        valid_solution d S A ->
        exists c ch, In c cs /\ not_held S c /\ nth_error (i_choices d) c = Some ch /\ ch_optional ch = true.
Proof.
  intros F pr pf o o' xs fail d tr w H HP HN HR.
  destruct (T_Script.C57_constraints_mean_their_handles_partial _ _ _ _ _ _ _ _ _ _ H HP HN HR) as (ps & H1 & H2 & H3).
  exists ps. split; [exact H1|]. intros l rel rt cs S A Ha Hb HC HV.
  destruct (opposites_cases tr ps S A (H3 S A HV) _ _ _ _ Ha Hb HC) as (c & Hc & Hn).
  assert (HV' := vsol_sched _ _ _ HV). destruct HV' as [L _ HO _ _].
  assert (Hlt : c < length (i_choices d)).
  { rewrite H2. destruct HC as [? ? ? ? ? ? ? K1 K2|? ? ? ? ? ? ? ? ? K1 K2 (pos & K & K3)|? ? ? ? ? K1 K2|? ? ? ? ? K1 (pos & K & K3)|? ? ? ? ? ? ? K1 (pos & K & K3)|];
      cbn in Hc; try destruct Hc as [<-|[]]; try destruct Hc; eapply part_bound; eauto. }
  destruct (nth_error (i_choices d) c) as [ch|] eqn:Ec; [|apply nth_error_None in Ec; lia].
  assert (Hh : not_held S c).
  { unfold not_held. rewrite <- L in Hlt. apply nth_error_Some in Hlt. destruct (nth_error S c) as [[s|]|] eqn:Es; auto; [|congruence].
    destruct (Hn s Es). }
  exists c, ch. repeat split; auto. eapply HO; eauto.
Qed.
Print Assumptions C92_opposites_exclude_each_other.

(** The program: a script that contradicts itself and leaves nothing optional gets no
    output, whatever the options, the schedule, the clock and the random numbers. *)
Theorem C92_contradiction_no_output :
  forall (F : Type) (good : M_Climb.world -> Prop) (pr : profile) (pf : string -> option F) (engine : settings F -> string -> list op * option string)
         (pow : F -> f32 -> f32) (cost : F -> N -> Z) (e : surroundings (settings F)) (o o' : settings F) (es : list effect)
         (text : string) (d : input_data) xs fail tr w,
    (forall w, good w -> fair (w_hill w)) -> program good pr pf engine pow cost e o ->
    read_input_string s_inputs e o = Ok text -> env_read e o text = (Ok d, o') ->
    (forall d o', (exists text, env_read e o text = (Ok d, o')) -> fits d) ->
    engine o text = (xs, fail) -> exec_all pr pf (M_Script.mkWorld rs_empty o) xs = (tr, w) -> proper_trace tr -> no_renames xs ->
    (exists l rel rt, stated tr l rel rt /\ stated tr l (opposite rel) rt /\
       forall ps, Forall2 (declared_choice tr) (filter is_choice (additions tr)) ps -> exists cs, comparable tr ps l rel rt cs) ->
    (forall ch, In ch (i_choices d) -> ch_optional ch = false) ->
    M_Output.run s_inputs s_output e o = (Some 0, es) -> es = [].

Proof.
  intros F good pr pf engine pow cost e o o' es text d xs fail tr w HG HP HT HR HF HE HX Hp Hn (l & rel & rt & Ha & Hb & HC) HO H.
  destruct (T_Main.C62_output_describes_valid_solution _ _ _ _ _ _ _ _ _ _ HG HP HF H) as (text' & xs' & tr' & w' & d' & o1 & K1 & K2 & K3 & K4 & K5).
  rewrite HT in K1. injection K1 as <-. rewrite HE in K2. injection K2 as <- ->. rewrite HX in K3. injection K3 as <- <-.
  assert (E : d' = d).
  { rewrite (pg_read _ _ _ _ _ _ _ _ HP) in HR. unfold script_reader in HR. rewrite HE in HR. congruence. }
  subst d'. destruct K5 as [K5|(sch & A & srows & arows & V & _)]; [exact K5|exfalso].
  destruct (C92_opposites_exclude_each_other _ _ _ _ _ _ _ _ _ _ HX Hp Hn K4) as (ps & D & X).
  destruct (HC ps D) as (cs & Hcs). destruct (X l rel rt cs sch A Ha Hb Hcs V) as (c & ch & _ & _ & Hi & Hopt).
  apply nth_error_In in Hi. rewrite (HO ch Hi) in Hopt. discriminate.
Qed.
Print Assumptions C92_contradiction_no_output.

(** A contradiction that an optional choice resolves by staying out. *)
Definition xs92 : list op :=
  T_Main.xs5 ++ [OpConstrain (OpChooserChoices 0) RContains (OpChoice 2); OpConstrain (OpChooserChoices 0) RNotContains (OpChoice 2);
                 OpConstrain (OpChoiceSlot 0) REq (OpSlot 0); OpConstrain (OpSlot 0) RNeq (OpChoiceSlot 1)].
Definition tr92 : list event := fst (exec_all Debug T_Script.pf0 (M_Script.mkWorld rs_empty T_Main.o5) xs92).
Definition d92 : input_data := T_Script.value T_Climb.d5 (fst (read_script Debug T_Script.pf0 T_Main.o5 xs92 None)).
Definition protos5 : list proto := [mkProto "a" 1 2 1 false; mkProto "b" 1 2 1 false; mkProto "c" 1 2 1 true].
Example C92_witness :
  exec_all Debug T_Script.pf0 (M_Script.mkWorld rs_empty T_Main.o5) xs92 = (tr92, snd (exec_all Debug T_Script.pf0 (M_Script.mkWorld rs_empty T_Main.o5) xs92)) /\
  proper_trace tr92 /\ no_renames xs92 /\ read_script Debug T_Script.pf0 T_Main.o5 xs92 None = (Ok d92, T_Main.o5) /\
  stated tr92 (OpChooserChoices 0) RContains (OpChoice 2) /\ stated tr92 (OpChooserChoices 0) (opposite RContains) (OpChoice 2) /\
  comparable tr92 protos5 (OpChooserChoices 0) RContains (OpChoice 2) [2] /\
  valid_solution d92 [Some 0; Some 1; None] [[0; 1]; [0; 1]].
Proof.
  split; [unfold tr92; destruct (exec_all _ _ _ _); reflexivity|]. split; [apply P_Script8.proper_b_ok; vm_compute; reflexivity|]. split; [vm_compute; reflexivity|].
  split; [vm_compute; reflexivity|]. split; [left; vm_compute; auto|]. split; [left; vm_compute; auto|].
  split. { apply (cm_choices _ _ 0 2 0 2); [vm_compute; reflexivity| |auto]. exists 2. split; [vm_compute; reflexivity|].
    exists (mkProto "c" 1 2 1 true). split; [reflexivity|]. split; [vm_compute; auto|reflexivity]. }
  apply check_solution_ok; [apply fits_b_ok|apply wf_input_b_ok|]; vm_compute; reflexivity.
Qed.

(** A run on a script that says [a.slot == s] and [s != a.slot], nothing optional: two
    workers, both find out that there is no solution. *)
Definition xs92n : list op :=
  [OpNewSlot "s"; OpAdd (HSlot 0); OpNewSlot "t"; OpAdd (HSlot 1);
   OpNewChoice "a" [TgBounds 1 2]; OpAdd (HChoice 0); OpNewChoice "b" [TgBounds 1 2]; OpAdd (HChoice 1);
   OpNewChooser "p" [DInt 0; DInt 1]; OpAdd (HChooser 0); OpNewChooser "q" [DInt 1; DInt 0]; OpAdd (HChooser 1);
   OpConstrain (OpChoiceSlot 0) REq (OpSlot 0); OpConstrain (OpSlot 0) RNeq (OpChoiceSlot 0)].
Definition o92 : settings nat := mkSettings [] None false 3 10%Z 3%Z false false 2%N 13%N false.
Definition d92n : input_data := T_Script.value T_Climb.d5 (fst (read_script Debug T_Script.pf0 o92 xs92n None)).
Definition P92 : problem := T_Script.value T_Exact.P65 (prepare Debug (fun (_ : nat) x => x) (fun _ => T_Flow.cube) o92 d92n).
Definition it92 : nat * shotgun * list M_Climb.event := match iterate Debug P92 T_Climb.w5 true T_Climb.tn1 1 new_shotgun with Some (Ok x) => x | _ => (0, new_shotgun, []) end.
Lemma it92_eq : iterate Debug P92 T_Climb.w5 true T_Climb.tn1 1 new_shotgun = Some (Ok (0, snd (fst it92), [])). Proof. vm_compute. reflexivity. Qed.
Definition s92 : session := let wk := mkWorker WDone (snd (fst it92)) [] in mkSession false [wk; wk].
Lemma moves92 : moves Debug P92 T_Climb.ws5 (start P92 2) T_Exact.trace65 s92.
Proof.
  unfold T_Exact.trace65. change (start P92 2) with (mkSession false [new_worker; new_worker]). pose proof it92_eq as E.
  assert (EF : p_any P92 && score_finite (b_score (sg_best (snd (fst it92)))) = false) by reflexivity.
  unfold s92. revert E EF. generalize (snd (fst it92)). intros g E EF.
  eapply mvs_step; [eapply (mv_worker _ _ _ _ 0); [reflexivity|apply mv_start]|]. cbn [upd se_workers se_flag existsb orb app].
  eapply mvs_step; [eapply (mv_worker _ _ _ _ 1); [reflexivity|apply mv_start]|]. cbn [upd se_workers se_flag existsb orb app].
  eapply mvs_step; [eapply (mv_worker _ _ _ _ 1); [reflexivity|eapply mv_iterate; exact E]|]. cbn [upd se_workers se_flag existsb orb app].
  eapply mvs_step; [eapply (mv_worker _ _ _ _ 0); [reflexivity|eapply mv_iterate; exact E]|]. cbn [upd se_workers se_flag existsb orb app].
  eapply mvs_step; [eapply (mv_worker _ _ _ _ 0); [reflexivity|apply mv_last; [exact EF|reflexivity]]|]. cbn [upd se_workers se_flag existsb orb app].
  eapply mvs_step; [eapply (mv_worker _ _ _ _ 1); [reflexivity|apply mv_last; [exact EF|reflexivity]]|]. cbn [upd se_workers se_flag existsb orb app].
  apply mvs_refl.
Qed.
Definition e92 : surroundings (settings nat) := mkSurroundings (fun _ => None) (Some "the script"%string) (fun _ => true)
  (script_reader Debug T_Script.pf0 (fun _ _ => (xs92n, None))) (fun _ _ => wait s92)
  (fun o d sol => evaluate Debug (fun x => x) (s_greedy o) d sol).
Definition tr92n : list event := fst (exec_all Debug T_Script.pf0 (M_Script.mkWorld rs_empty o92) xs92n).
Lemma e92_reads text : env_read e92 o92 text = (Ok d92n, o92).
Proof. vm_compute. reflexivity. Qed.
Lemma prepare92 : prepare Debug (fun (_ : nat) x => x) (fun _ => T_Flow.cube) o92 d92n = Ok P92.
Proof. unfold P92. vm_compute. reflexivity. Qed.
Example C92_no_output_witness :
  program T_Main.healthy Debug T_Script.pf0 (fun _ _ => (xs92n, None)) (fun (_ : nat) x => x) (fun _ => T_Flow.cube) e92 o92 /\
  (forall d o', (exists text, env_read e92 o92 text = (Ok d, o')) -> fits d) /\
  proper_trace tr92n /\ no_renames xs92n /\
  stated tr92n (OpChoiceSlot 0) REq (OpSlot 0) /\ stated tr92n (OpChoiceSlot 0) (opposite REq) (OpSlot 0) /\
  (forall ps, Forall2 (declared_choice tr92n) (filter is_choice (additions tr92n)) ps -> exists cs, comparable tr92n ps (OpChoiceSlot 0) REq (OpSlot 0) cs) /\
  (forall ch, In ch (i_choices d92n) -> ch_optional ch = false) /\
  M_Output.run s_inputs s_output e92 o92 = (Some 0, []).
Proof.
  split. { constructor.
    - reflexivity.
    - intros text d o' H. rewrite e92_reads in H. apply T_Main.pair_ok in H as [<- <-].
      cbn [env_solve e92]. apply (sv_session _ _ _ _ _ _ P92 T_Climb.ws5 T_Exact.trace65).
      + exact prepare92.
      + exact T_Climb.ws5_working.
      + exact moves92.
      + reflexivity.
    - reflexivity. }
  split. { intros d o' (text & H). rewrite e92_reads in H. apply T_Main.pair_ok in H as [<- _]. apply fits_b_ok. vm_compute. reflexivity. }
  split; [apply P_Script8.proper_b_ok; vm_compute; reflexivity|]. split; [vm_compute; reflexivity|].
  split; [left; vm_compute; auto|]. split; [right; split; [auto|vm_compute; auto]|].
  split. { intros ps D. exists [].
    assert (EA : filter is_choice (additions tr92n) = [HChoice 0; HChoice 1]) by (vm_compute; reflexivity). rewrite EA in D.
    destruct ps as [|p ps]; [inversion D|].
    apply (cm_slot _ _ _ 0 0 0 (first_index (p :: ps) 0 + 0) 0); [left; auto| |vm_compute; reflexivity|auto].
    exists 0. split; [vm_compute; reflexivity|]. exists p. split; [reflexivity|]. split; [unfold copies; lia|reflexivity]. }
  split. { intros ch H. vm_compute in H. destruct H as [<-|[<-|[]]]; reflexivity. }
  vm_compute. reflexivity.
Qed.
