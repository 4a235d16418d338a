(** Property theorems: C89, and C88 with the costs of the code. *)
From Verif Require Import Base M_Data Spec M_Scoring M_Rng M_Critical M_Search M_Flow Spec_Flow Spec_Calls M_Climb M_Threads Spec_Threads M_Build Spec_Input P_Check
  M_Output M_Main Spec_Pareto P_Pareto M_Warn Spec_Warn P_Warn.
From Verif Require P_Brute M_Script T_Script T_Climb T_Flow T_Main T_Program T_Pareto P_Input.
From Coq Require Import Floats.SpecFloat Reals Lra String.
Notation length := Datatypes.length.
Notation get := Base.get.
Import ListNotations.
Open Scope string_scope.
Open Scope list_scope.
Import M_Script(settings, s_pref_exp, s_cs_timeout, op).
Import T_Main(sized, healthy).

(** ** C89.  Full statement: unless the program warns that the preference exponent is
    too large, a worse preference costs strictly more, and no cost is cut off at the
    largest 64-bit integer.  Proved: costs grow strictly, for every exponent of at least
    1 if powers are correctly rounded, and for exponent 1 and exponents of at least 1.01
    with any accurate power function.  False: costs can be cut off without a warning;
    with exponents below 1 costs may tie or be reversed. *)
Theorem C89_no_warning_no_ties_partial :
  forall (pow : f64 -> f64) (x : R) (d : input_data),
    growing pow x -> wf_input d -> i_choosers d <> [] -> warns pow d = false ->
    (forall v v', (v < v')%N -> (v' <= i_max_pref d)%N -> (edge_cost pow v < edge_cost pow v')%Z) /\ worse_costs_more d (edge_cost pow).
Proof.
  intros pow x d HG HW HK Hno. assert (HX : forall v v', (v < v')%N -> (v' <= i_max_pref d)%N -> (edge_cost pow v < edge_cost pow v')%Z).
  { apply (strict_costs pow x d HG HW); auto. destruct (i_choosers d); [congruence|cbn; lia]. }
  split; auto. intros p c v p' c' v' _ (ch & Hch & Hv') Hlt. apply HX; auto. eapply (wf_max _ HW ch); eapply nth_error_In; eauto.
Qed.
Print Assumptions C89_no_warning_no_ties_partial.

(** A power function that meets the conditions: the double next to the whole power. *)
Theorem C89_default_costs_exact :
  forall (v : N), (v < 2 ^ 17)%N -> edge_cost (pow_whole 3) v = Z.of_N ((v + 1) ^ 3).
Proof.
  intros v Hv. rewrite (cost_exact 3 v); [|lia|].
  - rewrite N2Z.inj_pow. reflexivity.
  - change (2 ^ 53)%Z with ((2 ^ 17) ^ Z.of_nat 3 * 4)%Z. apply Z.le_trans with ((2 ^ 17) ^ Z.of_nat 3)%Z; [apply Z.pow_le_mono_l; lia|vm_compute; discriminate].
Qed.
Print Assumptions C89_default_costs_exact.
Example C89_witness : growing (pow_whole 3) 3 /\ wf_input T_Climb.d5 /\ i_choosers T_Climb.d5 <> [] /\ warns (pow_whole 3) T_Climb.d5 = false /\
  edge_cost (pow_whole 3) 0 = 1%Z /\ edge_cost (pow_whole 3) 5 = 216%Z.
Proof.
  split. { replace 3%R with (INR 3) by (cbn; ring). apply pow_whole_growing. lia. }
  split; [apply wf_input_b_ok; vm_compute; reflexivity|]. split; [vm_compute; discriminate|]. split; [vm_compute; reflexivity|]. split; vm_compute; reflexivity.
Qed.
(** Correctly rounded powers exist for every exponent of at least one. *)
Example C89_rounded_witness : growing (pow_near (1005 / 1000)) (1005 / 1000) /\ forall x : R, (1 <= x)%R -> exists pow, rounded_power pow x.
Proof.
  split; [left; split; [lra|apply pow_near_rounded; lra]|]. intros x Hx. exists (pow_near x). apply pow_near_rounded; auto.
Qed.

(** *** The gaps: two choices, one chooser, normalized preferences 0 and 1. *)
Definition r89 : reader := mkReader [mkSlot "s"] [mkProto "a" 0 1 1 false; mkProto "b" 0 1 1 false] [mkChooser "p" [1; 0]%N] [].
Definition d89 : input_data := match build_input Debug r89 with Ok d => d | _ => T_Climb.d5 end.
Lemma r89_builds pr : build_input pr r89 = Ok d89. Proof. destruct pr; vm_compute; reflexivity. Qed.
Lemma d89_prefs : pref_of d89 0 0 0%N /\ pref_of d89 0 1 1%N /\ i_max_pref d89 = 1%N.
Proof. split; [eexists; split; vm_compute; reflexivity|]. split; [eexists; split; vm_compute; reflexivity|vm_compute; reflexivity]. Qed.
(** Exponent 1/2: the costs are equal. *)
Theorem C89_small_exponent_refuted :
  exists (r : reader) (d : input_data), build_input Debug r = Ok d /\ warns (SFsqrt prec64 emax64) d = false /\
    pref_of d 0 0 0%N /\ pref_of d 0 1 1%N /\ edge_cost (SFsqrt prec64 emax64) 0 = edge_cost (SFsqrt prec64 emax64) 1.
Proof.
  exists r89, d89. split; [apply r89_builds|]. split; [vm_compute; reflexivity|]. destruct d89_prefs as (H1 & H2 & _). split; [exact H1|]. split; [exact H2|]. vm_compute. reflexivity.
Qed.
Print Assumptions C89_small_exponent_refuted.
(** Exponent -1: the worse preference is the cheaper one. *)
Theorem C89_negative_exponent_refuted :
  exists (r : reader) (d : input_data) (pow : f64 -> f64), pow = SFdiv prec64 emax64 (f64_of_Z 1) /\ build_input Debug r = Ok d /\ warns pow d = false /\
    pref_of d 0 0 0%N /\ pref_of d 0 1 1%N /\ (edge_cost pow 1 < edge_cost pow 0)%Z.
Proof.
  exists r89, d89, (SFdiv prec64 emax64 (f64_of_Z 1)). split; [reflexivity|]. split; [apply r89_builds|]. split; [vm_compute; reflexivity|]. destruct d89_prefs as (H1 & H2 & _). split; [exact H1|]. split; [exact H2|]. vm_compute. reflexivity.
Qed.
Print Assumptions C89_negative_exponent_refuted.
(** Exponent 64: no warning (the test looks at 1 ^ 64), but the cost of preference 1,
    2 ^ 64, is cut off. *)
Theorem C89_cut_off_refuted :
  exists (r : reader) (d : input_data), build_input Debug r = Ok d /\ growing (pow_whole 64) 64 /\ warns (pow_whole 64) d = false /\
    pref_of d 0 1 1%N /\ edge_cost (pow_whole 64) 1 = (2 ^ 63 - 1)%Z /\ (2 ^ 63 - 1 < (1 + 1) ^ 64)%Z.
Proof.
  exists r89, d89. split; [apply r89_builds|]. split. { replace 64%R with (INR 64) by (rewrite INR_IZR_INZ; reflexivity). apply pow_whole_growing. lia. }
  split; [vm_compute; reflexivity|]. destruct d89_prefs as (_ & H2 & _). split; [exact H2|]. split; [vm_compute; reflexivity|]. reflexivity.
Qed.
Print Assumptions C89_cut_off_refuted.

(** ** C88 with the costs of the code: a run of the program without overflow warning
    returns a solution whose assignment cannot be improved. *)
Theorem C88_no_warning_not_improvable :
  forall (F : Type) (pr : profile) (pf : string -> option F) (engine : settings F -> string -> list op * option string)
         (pow : F -> f32 -> f32) (pow64 : F -> f64 -> f64) (e : surroundings (settings F)) (o o' : settings F) (text : string) (d : input_data) (x : R)
         (S : scheduling) (A B : assignment),
    program (fun w => healthy w /\ optimal_lp (w_env w)) pr pf engine pow (fun x => edge_cost (pow64 x)) e o ->
    env_read e o text = (Ok d, o') -> sized d -> (0 <= s_cs_timeout o')%Z ->
    growing (pow64 (s_pref_exp o')) x -> warns (pow64 (s_pref_exp o')) d = false ->
    env_solve e o' d = Ok (SolComplete S A) ->
    valid_solution d S B -> tied_together d S B -> ~ improves d S A B.
Proof.
  intros F pr pf engine pow pow64 e o o' text d x S A B HP HR HZ Hcs HG Hno HS HB HT HI.
  destruct (T_Program.program_builds _ _ _ _ _ _ _ _ _ _ _ HP HR) as (r & Hb & HU).
  assert (HW : wf_input d) by (destruct (P_Input.build_inv _ _ _ Hb) as (raw & cs & css & Bd); eapply P_Input.b_wf; eauto).
  revert HI. eapply T_Pareto.C88_program_not_improvable; eauto. destruct (i_choosers d) as [|c0 cs0] eqn:EC.
  - intros p c v p' c' v' (ch & Hch & _). rewrite EC in Hch. destruct p; discriminate.
  - apply (C89_no_warning_no_ties_partial _ x d HG HW); auto. rewrite EC. discriminate.
Qed.
Print Assumptions C88_no_warning_not_improvable.
(** A run with the default exponent. *)
Definition P88 : problem := mkProblem T_Climb.d5 T_Climb.a5 T_Climb.sd5 (fun x => x) (edge_cost (pow_whole 3)) false true 13 3.
Definition it88 : nat * shotgun * list event := T_Climb.value (0, new_shotgun, []) (iterate Debug P88 T_Climb.w5 true T_Climb.tn1 1 new_shotgun).
Lemma it88_eq : iterate Debug P88 T_Climb.w5 true T_Climb.tn1 1 new_shotgun = Some (Ok it88). Proof. vm_compute. reflexivity. Qed.
Definition s88 : session := mkSession true [mkWorker WDone (snd (fst it88)) (snd it88); mkWorker WDone new_shotgun []].
Lemma moves88 : moves Debug P88 T_Climb.ws5 (start P88 2) T_Climb.trace5 s88.
Proof.
  unfold T_Climb.trace5. change (start P88 2) with (mkSession false [new_worker; new_worker]).
  pose proof it88_eq as E. assert (EF : score_finite (b_score (sg_best (snd (fst it88)))) = true) by (vm_compute; reflexivity).
  unfold s88. destruct it88 as [[k g] ev]. cbn [fst snd] in *.
  eapply mvs_step; [eapply (mv_worker _ _ _ _ 0); [reflexivity|eapply mv_start]|]. cbn [upd se_workers se_flag existsb orb].
  eapply mvs_step; [eapply (mv_worker _ _ _ _ 0); [reflexivity|eapply mv_iterate; exact E]|]. cbn [upd se_workers se_flag existsb orb app].
  eapply mvs_step; [eapply (mv_worker _ _ _ _ 0); [reflexivity|apply mv_success]|].
  { cbn [p_any P88 andb]. exact EF. }
  cbn [upd se_workers se_flag existsb orb app].
  eapply mvs_step; [eapply (mv_worker _ _ _ _ 1); [reflexivity|apply (mv_stop _ _ _ _ _ _ true false); reflexivity]|]. cbn [upd se_workers se_flag existsb orb app].
  constructor.
Qed.
Definition e88 : surroundings (settings nat) := mkSurroundings (fun _ => None) (Some "the script") (fun _ => true)
  (script_reader Debug T_Script.pf0 (fun _ _ => (T_Main.xs5, None))) (fun _ _ => wait s88)
  (fun o d sol => evaluate Debug (fun x => x) (M_Script.s_greedy o) d sol).
Lemma e88_reads text : env_read e88 T_Main.o5 text = (Ok T_Climb.d5, T_Main.o5).
Proof. rewrite <- T_Main.xs5_reads. reflexivity. Qed.
Lemma prepare88_any (cost : nat -> N -> Z) : prepare Debug (fun (_ : nat) x => x) cost T_Main.o5 T_Climb.d5 =
  Ok (mkProblem T_Climb.d5 T_Climb.a5 T_Climb.sd5 (fun x => x) (cost (s_pref_exp T_Main.o5)) false true 13 3).
Proof. unfold T_Climb.a5, T_Climb.sd5. vm_compute. reflexivity. Qed.
Lemma prepare88 : prepare Debug (fun (_ : nat) x => x) (fun k => edge_cost (pow_whole k)) T_Main.o5 T_Climb.d5 = Ok P88.
Proof. exact (prepare88_any (fun k => edge_cost (pow_whole k))). Qed.
Example C88_no_warning_witness :
  program (fun w => healthy w /\ optimal_lp (w_env w)) Debug T_Script.pf0 (fun _ _ => (T_Main.xs5, None)) (fun (_ : nat) x => x) (fun k => edge_cost (pow_whole k)) e88 T_Main.o5 /\
  env_read e88 T_Main.o5 "" = (Ok T_Climb.d5, T_Main.o5) /\ sized T_Climb.d5 /\ (0 <= s_cs_timeout T_Main.o5)%Z /\
  growing (pow_whole (s_pref_exp T_Main.o5)) 3 /\ warns (pow_whole (s_pref_exp T_Main.o5)) T_Climb.d5 = false /\
  env_solve e88 T_Main.o5 T_Climb.d5 = Ok (SolComplete [Some 0; Some 1; Some 1] [[0; 2]; [0; 1]]).
Proof.
  split; [|split; [exact (e88_reads "")|split; [exact T_Main.d5_sized|split; [cbn; lia|split; [apply C89_witness|split; vm_compute; reflexivity]]]]].
  constructor.
  - reflexivity.
  - intros text d o' H. rewrite e88_reads in H. apply T_Main.pair_ok in H as [<- <-].
    cbn [env_solve e88]. apply (sv_session _ _ _ _ _ _ P88 T_Climb.ws5 T_Climb.trace5).
    + exact prepare88.
    + intros i. split; [apply T_Climb.ws5_working|apply P_Brute.exact_optimal, P_Brute.brute_exact].
    + exact moves88.
    + reflexivity.
  - reflexivity.
Qed.
