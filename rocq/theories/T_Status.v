(** C68, C69: the status line and the progress bar of a solve session.
    [moves], [wait] are the session (M_Threads.v); [track] is status::track_solver;
    [shows], [number], [positions], [messages], [seen] are in Spec_Status.v. *)
From Verif Require Import Base M_Data Spec Spec_Score P_Check T_Cost T_Climb M_Scoring M_Names M_Rng M_Critical M_Search M_Flow M_Climb M_Threads Spec_Climb Spec_Threads P_Threads M_Status Spec_Cost Spec_Status P_Climb1 P_Climb2 P_Climb3 P_Climb4 P_Score P_Cost P_Status.
From Coq Require Import String Floats.SpecFloat Reals.
Notation length := Datatypes.length.
Open Scope string_scope.
Open Scope list_scope.

(** When the session has ended and everything the workers sent has arrived, the
    line printed is "No solution found." iff there is none, and otherwise it shows
    the score of the solution returned and the numbers of iterations and
    assignments of all workers. *)
Theorem C68_final_line_reports_result :
  forall (pr : profile) (P : problem) (ws : nat -> world) (threads : nat) tr (s : session)
         timeout starts maxdepth (first : glance) (loop : list glance) (last : glance) calls (sol : solution) (line : string),
    wf_input (p_input P) -> fits (p_input P) -> (forall i, fair (w_hill (ws i))) ->
    moves pr P ws (start P threads) tr s -> all_from_workers s (seen (first :: loop ++ [last])) ->
    track timeout starts maxdepth (empties s) first loop last (wait s) = (calls, Ok (sol, line)) ->
    wait s = Ok sol /\
    ((sol = SolInvalid /\ line = "No solution found.") \/
     exists sc,
       sol <> SolInvalid /\ score_of pr P sol = Ok sc /\ score_finite sc = true /\
       line = ("Solved " ++ score_text sc ++ "; i/a/l " ++
               n_to_string (N.of_nat (list_sum (map (fun wk => sg_iterations (wk_gun wk)) (se_workers s)))) ++ "/" ++
               n_to_string (N.of_nat (list_sum (map (fun wk => hc_assignments (sg_climber (wk_gun wk))) (se_workers s)))) ++ "/" ++
               n_to_string (N.of_nat (gl_lp last)) ++ "; depth " ++ str_float (gl_depth last) 1 ++ "/" ++ str_float maxdepth 1)%string).
Proof.
  intros pr P ws threads tr s timeout starts md first loop last calls sol line HW HF HFair M HA E.
  pose proof (session_reach pr P ws threads HF HW HFair _ _ M) as HS. apply track_ok in E as (_ & _ & H). destruct (H _ _ eq_refl) as [HR HL]. clear H. split; [exact HR|].
  destruct (result_ok pr P threads s sol HS HR) as (Es & Hsc & Hb & _).
  pose proof (report_final pr P threads s _ HS HA) as HP. cbn zeta in HL. rewrite HP in HL.
  destruct Hb as [Hb|(Hf & _)].
  - left. rewrite Hb in Es. subst sol. auto.
  - assert (HN : sol <> SolInvalid). { intros Hi. rewrite Es in Hi. unfold P_Climb3.scored in Hsc. rewrite Hi in Hsc. injection Hsc as Hsc. rewrite <- Hsc in Hf. discriminate. }
    right. exists (b_score (shown no_best (map (fun wk => sg_best (wk_gun wk)) (se_workers s)))). split; auto. split; [rewrite Es; exact Hsc|]. split; auto.
    unfold summary in HL. cbn [tp_best tp_iterations tp_assignments] in HL. rewrite Hf in HL. rewrite HL. destruct sol; [congruence|reflexivity|reflexivity].
Qed.
Print Assumptions C68_final_line_reports_result.

(** While the session runs, each message shows the score of the best solution that
    has been reported so far, or "no solution yet" if none has been. *)
Theorem C68_messages_show_best :
  forall (pr : profile) (P : problem) (ws : nat -> world) (threads : nat) tr (s : session)
         timeout starts maxdepth (first : glance) (loop : list glance) (last : glance) result calls r n (m : string),
    wf_input (p_input P) -> fits (p_input P) -> (forall i, fair (w_hill (ws i))) ->
    moves pr P ws (start P threads) tr s -> from_workers s (seen (firstn (S n) (first :: loop))) ->
    (forall i e, In (i, e) (seen (firstn (S n) (first :: loop))) -> i < length (se_workers s)) ->
    track timeout starts maxdepth (empties s) first loop last result = (calls, r) ->
    nth_error (messages calls) n = Some m ->
    ((exists rest, m = ("no solution yet" ++ rest)%string) /\
     forall i sol sc, In (i, EvBest sol sc) (seen (firstn (S n) (first :: loop))) -> score_finite sc = false) \/
    exists i sol sc rest,
      m = (score_text sc ++ " " ++ rest)%string /\ score_finite sc = true /\ score_of pr P sol = Ok sc /\
      In (i, EvBest sol sc) (seen (firstn (S n) (first :: loop))) /\
      forall i' sol' sc', In (i', EvBest sol' sc') (seen (firstn (S n) (first :: loop))) -> score_lt sc' sc = false.
Proof.
  intros pr P ws threads tr s timeout starts md first loop last res calls r n m HW HF HFair M HL HI E Hm.
  pose proof (session_reach pr P ws threads HF HW HFair _ _ M) as HS. apply track_ok in E as (_ & HM & _). destruct (HM n m Hm) as (g & _ & ->). clear HM Hm.
  set (log := seen (firstn (S n) (first :: loop))) in *. destruct (report_best pr P threads s log HS HL) as (B1 & B2 & B3).
  set (p := aggregate (drain (empties s) log)) in *. unfold message.
  assert (B4 : forall i sol sc, In (i, EvBest sol sc) log -> score_lt sc (b_score (tp_best p)) = false).
  { intros i sol sc H. destruct (nth_error (se_workers s) i) as [wk|] eqn:Ei; [eauto|]. apply nth_error_None in Ei. specialize (HI _ _ H). lia. }
  destruct (score_finite (b_score (tp_best p))) eqn:Hf.
  - right. destruct B1 as [B1|(i & Hi & Hsc)]; [rewrite B1 in Hf; discriminate|]. exists i, (b_sol (tp_best p)), (b_score (tp_best p)). eexists. split; [reflexivity|]. auto.
  - left. split.
    + destruct (Nat.eqb (gl_lp g) 0 && Nat.eqb (tp_iterations p) 0 && Nat.eqb (tp_assignments p) 0); eexists; cbn [String.append]; reflexivity.
    + intros i sol sc H. specialize (B4 _ _ _ H). rewrite (B2 eq_refl) in B4. destruct (score_finite sc) eqn:Hs; auto.
      assert (score_lt sc (b_score no_best) = true) by (unfold score_lt, score_cmp; cbn [no_best b_score]; rewrite Hs; reflexivity). congruence.
Qed.
Print Assumptions C68_messages_show_best.

(** What the text of a score says.  For a valid solution it is
    "(worst preference, relative cost)", or the relative cost alone in greedy mode:
    the worst preference exactly, the second number correct to 5 decimals up to the
    rounding of single-precision arithmetic (C66). *)
Theorem C68_score_text :
  forall (pr : profile) (pow : f32 -> f32) (g : bool) (d : input_data) (S : scheduling) (A : assignment) (sc : score) (x : N),
    fits d -> wf_input d -> (i_max_pref d <= 16777216)%N -> valid_solution d S A ->
    (N.of_nat (length (i_choosers d)) * N.of_nat (length (i_slots d)) <= 2 ^ 22)%N -> tame pow d ->
    evaluate pr pow g d (SolComplete S A) = Ok sc -> worst_pref d A x ->
    exists (worst cost : string) (v : R),
      score_text sc = (if g then cost else "(" ++ worst ++ ", " ++ cost ++ ")")%string /\
      number worst = Some (Z.of_N x) /\ shows cost 5 v /\
      (Rabs (v - relative_cost pow d A) <= rounding d (relative_cost pow d A))%R.
Proof.
  intros pr pow g d S A sc x HF HW HM V HN HT HE HX. assert (HM' : (i_max_pref d < u32_max)%N) by (unfold u32_max; lia).
  pose proof (score_cost pr pow g d S A sc HF HW HM' V HN HT HE) as HC.
  destruct (score_parts pr pow g d S A sc HF HW HM' V HN HT HE) as [Hfin _].
  exists (n_to_string x), (str_float (sc_minor sc) 5), (f32_value (sc_minor sc)).
  pose proof HE as HE2. cbn [evaluate] in HE2. apply bind_ok in HE2 as (maj & Hmaj & HE2). apply bind_ok in HE2 as (mi & Hmi & HE2).
  destruct ((is_fin maj || is_nan maj) && is_fin mi) eqn:Ef; [|injection HE2 as <-; discriminate Hfin]. injection HE2 as <-. cbn [sc_major sc_minor] in *.
  apply andb_prop in Ef as [_ Ef2]. split; [|split; [apply number_n|split; [apply str_float_shows; auto|exact HC]]].
  unfold score_text. cbn [sc_major sc_minor]. destruct g.
  - injection Hmaj as <-. reflexivity.
  - apply bind_ok in Hmaj as (mx & Emx & Hmaj). injection Hmaj as <-.
    destruct (respects_rows d S A (vs_length _ _ (vsol_sched _ _ _ V)) (vsol_rest _ _ _ V)) as [R1 R2].
    destruct (evaluate_major_worst d A HW R1 R2) as (m & Em & Wm). rewrite Emx in Em. injection Em as <-.
    pose proof (worst_pref_unique _ _ _ _ Wm HX) as ->. pose proof (worst_pref_bound _ _ _ HW HX) as Hb.
    rewrite (proj2 (f32_of_N_small_fin x ltac:(lia))), (str_float_int x) by lia. reflexivity.
Qed.
Print Assumptions C68_score_text.

(** Witness: the session of C35, watched in three looks. *)
Definition look68 (arrived : list (nat * event)) (ms lp : nat) : glance := mkGlance arrived (fun i => (N.of_nat ms * 1000000 + N.of_nat i)%N) lp (f32_of_N 3).
Definition track68 := track 60 [0; 0]%N (f32_of_N 3) (empties s5) (look68 [] 0 0) [look68 (firstn 2 log5) 400 1] (look68 (skipn 2 log5) 800 4) (wait s5).
Lemma seen_all a b m l m' l' : seen (look68 [] 0 0 :: [look68 a m l] ++ [look68 b m' l']) = a ++ b.
Proof. unfold seen. cbn [app flat_map look68 gl_arrived]. rewrite app_nil_r. reflexivity. Qed.
Lemma seen_two a m l : seen (firstn 2 [look68 [] 0 0; look68 a m l]) = a.
Proof. unfold seen. cbn [firstn app flat_map look68 gl_arrived]. apply app_nil_r. Qed.
Lemma bounded_ok {A} (l : list (nat * A)) n : forallb (fun p => Nat.ltb (fst p) n) l = true -> forall i e, In (i, e) l -> i < n.
Proof. rewrite forallb_forall. intros H i e Hi. specialize (H _ Hi). apply Nat.ltb_lt in H. exact H. Qed.
Example C68_witness :
  moves Debug P5 ws5 (start P5 2) trace5 s5 /\
  all_from_workers s5 (seen (look68 [] 0 0 :: [look68 (firstn 2 log5) 400 1] ++ [look68 (skipn 2 log5) 800 4])) /\
  from_workers s5 (seen (firstn 2 [look68 [] 0 0; look68 (firstn 2 log5) 400 1])) /\
  (forall i e, In (i, e) (seen (firstn 2 [look68 [] 0 0; look68 (firstn 2 log5) 400 1])) -> i < length (se_workers s5)) /\
  (exists sol, snd track68 = Ok (sol, "Solved (0, 0.00000); i/a/l 1/27/4; depth 3.0/3.0") /\ sol <> SolInvalid) /\
  messages (fst track68) = ["no solution yet d3.0/3.0"; "(5, 1.00000) 0/1/1"] /\ positions (fst track68) = [400; 800]%N.
Proof.
  rewrite (seen_all (firstn 2 log5) (skipn 2 log5) 400 1 800 4), (seen_two (firstn 2 log5) 400 1).
  assert (H : all_from_workers s5 (firstn 2 log5 ++ skipn 2 log5)).
  { replace (firstn 2 log5 ++ skipn 2 log5) with (List.concat chunks5); [exact (proj1 C35_witness)|]. unfold chunks5. generalize (firstn 2 log5), (skipn 2 log5). intros a b. cbn [List.concat]. rewrite app_nil_r. reflexivity. }
  split; [exact moves5|]. split; [exact H|]. split; [exact (from_workers_prefix s5 _ _ (all_from _ _ H))|]. split; [|split; [|split]].
  - exact (bounded_ok (firstn 2 log5) (length (se_workers s5)) ltac:(vm_compute; reflexivity)).
  - eexists. split; [vm_compute; reflexivity|discriminate].
  - vm_compute. reflexivity.
  - vm_compute. reflexivity.
Qed.
(** The text for the two solutions of the C66 witness ("(2, 1.5)" and "(2, 2)"). *)
Example C68_score_text_witness :
  fits d66 /\ wf_input d66 /\ valid_solution d66 S66 A66 /\ tame P_Minor.pow1 d66 /\ worst_pref d66 A66 2 /\
  (exists sc, evaluate Debug P_Minor.pow1 false d66 (SolComplete S66 A66) = Ok sc /\ score_text sc = "(2, 1.50000)") /\
  (exists sc, evaluate Debug P_Minor.pow1 true d66 (SolComplete S66 B66) = Ok sc /\ score_text sc = "2.00000").
Proof.
  destruct C66_witness as (H1 & H2 & _ & H3 & _ & _ & H4 & H5 & _).
  split; [auto|]. split; [auto|]. split; [auto|]. split; [auto|]. split; [auto|]. split; (eexists; split; [vm_compute; reflexivity|vm_compute; reflexivity]).
Qed.

(** C69: the bar never goes backwards as long as the clock does not, and never
    beyond its end. *)
Theorem C69_bar_moves_forward :
  forall timeout starts maxdepth tps (first : glance) (loop : list glance) (last : glance) result calls r,
    track timeout starts maxdepth tps first loop last result = (calls, r) ->
    (forall j k g h, j < k -> nth_error (loop ++ [last]) j = Some g -> nth_error (loop ++ [last]) k = Some h ->
       forall i, (gl_clock g i <= gl_clock h i)%N) ->
    forall j k x y, j <= k -> nth_error (positions calls) j = Some x -> nth_error (positions calls) k = Some y ->
      (x <= y /\ y <= bar_length timeout)%N.
Proof.
  intros timeout starts md tps first loop last res calls r E HC j k x y Hjk Hx Hy. apply track_ok in E as (E & _ & _). rewrite E in Hx, Hy. clear E.
  assert (HN : forall n z, nth_error (map (position_at timeout starts) (loop ++ (match res with Ok _ => [last] | _ => [] end))) n = Some z ->
    exists g, nth_error (loop ++ [last]) n = Some g /\ z = position_at timeout starts g).
  { intros n z H. rewrite nth_error_map in H. destruct (nth_error (loop ++ _) n) as [g|] eqn:En; [|discriminate]. injection H as <-. exists g. split; auto.
    destruct res; auto; rewrite app_nil_r in En; rewrite nth_error_app1; auto; apply nth_error_Some; congruence. }
  destruct (HN _ _ Hx) as (g & Hg & ->). destruct (HN _ _ Hy) as (h & Hh & ->). split; [|apply position_bound].
  destruct (Nat.eq_dec j k) as [->|Hd]; [rewrite Hg in Hh; injection Hh as <-; lia|]. apply position_mono. intros i. apply (HC j k g h); auto. lia.
Qed.
Print Assumptions C69_bar_moves_forward.

(** The position is the time since the start in milliseconds (rounded up), capped
    at the timeout; a timeout below 0 counts as 0.  ([repeat t0 n]: all workers
    start at [t0], threaded_solver.rs:97.) *)
Theorem C69_position_is_elapsed_time :
  forall timeout t0 n t (g : glance),
    (timeout <= i32_max)%Z -> n <> 0 -> (forall i, gl_clock g i = t) ->
    position_at timeout (repeat t0 n) g = N.min ((t - t0 + 999999) / 1000000) (Z.to_N timeout * 1000).
Proof. exact position_exact. Qed.
Print Assumptions C69_position_is_elapsed_time.

Example C69_witness :
  (forall j k g h, j < k -> nth_error ([look68 (firstn 2 log5) 400 1] ++ [look68 (skipn 2 log5) 800 4]) j = Some g ->
     nth_error ([look68 (firstn 2 log5) 400 1] ++ [look68 (skipn 2 log5) 800 4]) k = Some h -> forall i, (gl_clock g i <= gl_clock h i)%N) /\
  position_at 60 (repeat 5%N 3) (mkGlance [] (fun _ => 2500000)%N 0 f32_zero) = 3%N /\
  position_at 60 (repeat 5%N 3) (mkGlance [] (fun _ => 70000000005)%N 0 f32_zero) = 60000%N.
Proof.
  split; [|split; vm_compute; reflexivity].
  generalize (firstn 2 log5) as a, (skipn 2 log5) as b. intros a b.
  intros [|[|j]] [|[|k]] g h Hjk Hg Hh i; cbn in Hg, Hh; try lia; try (destruct k; discriminate); try (destruct j; discriminate).
  injection Hg as <-. injection Hh as <-. cbn [look68 gl_clock]. lia.
Qed.
