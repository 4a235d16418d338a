(** Property theorems about whole sessions on renamed inputs: C71. *)
From Verif Require Import Base M_Data M_Scoring M_Names M_Build Spec Spec_Input Spec_Meta P_Meta M_Rng M_Critical M_Search M_Flow M_Climb M_Threads
  T_Meta T_Climb M_Main T_Main P_Anon.
From Verif Require M_Script.
From Coq Require Import String.
Notation length := Datatypes.length.
Import M_Script(settings).
Open Scope string_scope.
Open Scope list_scope.

(** ** C71, the solve session.  Preparing, starting and running the workers on a
    renamed input is the same as on the original one: with the same random numbers,
    LP answers and clock readings of every worker ([ws]) the same interleavings are
    possible, with the same cancellations, published events and final states, so
    that the program can end with the same results. *)
Theorem C71_solving_ignores_names :
  forall (F : Type) (pr : profile) (pow : F -> f32 -> f32) (cost : F -> N -> Z) (o : settings F) (r r' : reader) (d d' : input_data),
    renamed r r' -> clear_names r -> clear_names r' -> build_input pr r = Ok d -> build_input pr r' = Ok d' ->
    (forall P, prepare pr pow cost o d = Ok P ->
       exists P', prepare pr pow cost o d' = Ok P' /\
         forall ws threads tr s, moves pr P ws (start P threads) tr s <-> moves pr P' ws (start P' threads) tr s) /\
    (forall good res, solved good pr pow cost o d res <-> solved good pr pow cost o d' res).
Proof.
  intros F pr pow cost o r r' d d' RN CN CN' Hd Hd'. pose proof (build_renamed pr r r' RN CN CN') as SN. rewrite Hd, Hd' in SN. cbn in SN.
  pose proof (same_but_names_sym _ _ SN) as SN'.
  assert (HP : forall d d', same_but_names d d' -> forall P, prepare pr pow cost o d = Ok P ->
            p_input P = d /\ prepare pr pow cost o d' = Ok (for_input P d')).
  { clear. intros d d' SN P H. unfold prepare in *. rewrite (an_prepare _ _ SN), (an_static _ _ SN).
    destruct (prepare_analysis _ _ _ _ _) as [an| |]; cbn [bind] in *; try discriminate.
    destruct (new_static d) as [sd| |]; cbn [bind] in *; try discriminate. injection H as <-. auto. }
  assert (HM : forall d d', same_but_names d d' -> forall P, p_input P = d -> forall ws n tr s,
            moves pr P ws (start P n) tr s -> moves pr (for_input P d') ws (start (for_input P d') n) tr s).
  { clear. intros d d' SN P E ws n tr s H. subst d. rewrite (an_start _ _ SN). apply an_moves; auto. }
  assert (HR : forall P d d', p_input P = d -> for_input (for_input P d') d = P).
  { clear. intros [] d d' E. cbn in *. subst. reflexivity. }
  assert (HS : forall d d', same_but_names d d' -> forall good res, solved good pr pow cost o d res -> solved good pr pow cost o d' res).
  { clear - HP HM. intros d d' SN good res H. destruct H as [E|P ws tr s E HG M D].
    - apply sv_unprepared. unfold prepare in *. rewrite (an_prepare _ _ SN), (an_static _ _ SN).
      destruct (prepare_analysis _ _ _ _ _) as [an| |]; cbn [bind] in *; auto.
      destruct (new_static d) as [sd| |]; cbn [bind] in *; auto. discriminate.
    - destruct (HP d d' SN P E) as [EI E']. apply (sv_session _ _ _ _ _ _ (for_input P d') ws tr s); auto. apply (HM d d'); auto. }
  split.
  - intros P H. destruct (HP d d' SN P H) as [EI H']. exists (for_input P d'). split; auto. intros ws n tr s. split.
    + apply (HM d d'); auto.
    + intros M. pose proof (HM d' d SN' (for_input P d') eq_refl ws n tr s M) as M2. rewrite (HR P d d' EI) in M2. auto.
  - intros good res. split; apply HS; auto.
Qed.
Print Assumptions C71_solving_ignores_names.

(** The sample problem of T_Climb with other names; its recorded session is a
    session of the renamed input. *)
Definition r5n : reader := mkReader [mkSlot "Monday"; mkSlot "Tuesday"]
  (map (fun np => mkProto (fst np) (p_min (snd np)) (p_max (snd np)) (p_parts (snd np)) (p_optional (snd np)))
       (combine ["Pottery"; "Chess"; "Choir"] (r_choices r5)))
  (map (fun np => mkChooser (fst np) (cs_prefs (snd np))) (combine ["Zoe"; "Al"] (r_choosers r5))) [].
Definition d5n : input_data := match build_input Debug r5n with Ok d => d | _ => d5 end.
Example C71_session_witness :
  renamed r5 r5n /\ clear_names r5 /\ clear_names r5n /\ build_input Debug r5 = Ok d5 /\ build_input Debug r5n = Ok d5n /\ d5n <> d5 /\
  prepare Debug (fun (_ : nat) x => x) (fun _ => T_Flow.cube) o5 d5 = Ok P5 /\
  moves Debug P5 ws5 (start P5 2) trace5 s5 /\
  (exists P', prepare Debug (fun (_ : nat) x => x) (fun _ => T_Flow.cube) o5 d5n = Ok P' /\ moves Debug P' ws5 (start P' 2) trace5 s5) /\
  wait s5 = Ok (SolComplete [Some 0; Some 1; Some 1] [[0; 2]; [0; 1]]).
Proof.
  assert (RN : renamed r5 r5n) by (constructor; cbn; repeat constructor).
  assert (C1 : clear_names r5) by clear_by_cases. assert (C2 : clear_names r5n) by clear_by_cases.
  assert (B2 : build_input Debug r5n = Ok d5n) by (vm_compute; reflexivity).
  repeat (split; [first [assumption | exact r5_builds | exact prepare5 | exact moves5]|]). split.
  { intros E. apply (f_equal (fun d => map sl_name (i_slots d))) in E. vm_compute in E. discriminate. }
  split; [exact prepare5|]. split; [exact moves5|]. split; [|vm_compute; reflexivity].
  destruct (proj1 (C71_solving_ignores_names nat Debug (fun _ x => x) (fun _ => T_Flow.cube) o5 r5 r5n d5 d5n RN C1 C2 r5_builds B2) P5 prepare5)
    as (P' & EP & HM). exists P'. split; auto. apply HM. exact moves5.
Qed.
