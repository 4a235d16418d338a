(** Property theorems about reproducibility: C73. *)
From Verif Require Import Base M_Data Spec M_Scoring P_Scoring P_Feasible P_Check M_Union M_Names M_Build
  Spec_Input P_Input P_Input2 M_Rng M_Critical M_Search M_Flow P_Brute M_Climb M_Threads Spec_Threads Spec_Repro M_Seed P_Threads P_Session P_Repro
  T_Input T_Search T_Flow T_Climb.
From Verif Require Spec_Script P_Script1 P_Output2.
Import P_Output2(mix_seed_inj, mix_seed_lt). Import Spec_Script(numeral). Import P_Script1(parse_unsigned_ok).
From Coq Require Import String Permutation.
Notation length := Datatypes.length.
Notation get := Base.get.
Open Scope string_scope.
Import ListNotations.
Open Scope list_scope.

(** ** C73: what a session computes depends on its random streams (and clocks) and
    on how many iterations each worker completes, not on how the workers are
    interleaved.  First, for each worker: its solver state (best solution, score,
    counters) and everything it has published. *)
Theorem C73_interleaving_irrelevant :
  forall (pr : profile) (P : problem) (ws : nat -> world) (threads threads' : nat) tr tr' (s s' : session) (i : nat) (wk wk' : worker),
    moves pr P ws (start P threads) tr s -> moves pr P ws (start P threads') tr' s' ->
    nth_error (se_workers s) i = Some wk -> nth_error (se_workers s') i = Some wk' ->
    iterations_of i tr = iterations_of i tr' ->
    wk_gun wk = wk_gun wk' /\ wk_events wk = wk_events wk'.
Proof.
  intros pr P ws threads threads' tr tr' s s' i wk wk' M M' Hi Hi' E.
  pose proof (session_stands pr P ws false _ _ _ M ltac:(discriminate) i wk Hi) as H.
  pose proof (session_stands pr P ws false _ _ _ M' ltac:(discriminate) i wk' Hi') as H'. rewrite E in H.
  exact (stands_same _ _ _ _ _ _ _ _ H H').
Qed.
Print Assumptions C73_interleaving_irrelevant.

Lemma join_same wks : forall wks' b, length wks = length wks' ->
  (forall i wk wk', nth_error wks i = Some wk -> nth_error wks' i = Some wk' -> wk_gun wk = wk_gun wk') ->
  forall r r', mfold join_one wks b = Ok r -> mfold join_one wks' b = Ok r' -> r = r'.
Proof.
  induction wks as [|x wks IH]; intros [|y wks'] b HL HS r r' E E'; try discriminate; cbn [mfold] in *; [congruence|].
  apply bind_ok in E as (b1 & E1 & E2). apply bind_ok in E' as (b1' & E1' & E2').
  assert (b1 = b1').
  { unfold join_one in *. destruct (wk_pc x), (wk_pc y); try discriminate. rewrite (HS 0 x y) in E1 by reflexivity. congruence. }
  subst b1'. apply (IH wks' b1) with (r := r) (r' := r') in E2; auto. intros i wk wk' H H'. apply (HS (Datatypes.S i)); auto.
Qed.
Lemma wait_same s s' sol sol' : length (se_workers s) = length (se_workers s') ->
  (forall i wk wk', nth_error (se_workers s) i = Some wk -> nth_error (se_workers s') i = Some wk' -> wk_gun wk = wk_gun wk') ->
  wait s = Ok sol -> wait s' = Ok sol' -> sol = sol'.
Proof.
  intros HL HS. unfold wait, join_all. intros H H'.
  destruct (mfold join_one (se_workers s) no_best) as [b| |] eqn:E; try discriminate.
  destruct (mfold join_one (se_workers s') no_best) as [b'| |] eqn:E'; try discriminate.
  rewrite (join_same _ _ _ HL HS _ _ E E') in H. congruence.
Qed.
Lemma start_length pr P ws threads tr s : moves pr P ws (start P threads) tr s -> length (se_workers s) = num_threads P threads.
Proof. intros M. rewrite (moves_length _ _ _ _ _ _ M). cbn. apply repeat_length. Qed.

(** So two sessions with the same iterations return the same solution. *)
Theorem C73_same_iterations_same_result :
  forall (pr : profile) (P : problem) (ws : nat -> world) (threads : nat) tr tr' (s s' : session) (sol sol' : solution),
    moves pr P ws (start P threads) tr s -> moves pr P ws (start P threads) tr' s' ->
    (forall i, iterations_of i tr = iterations_of i tr') ->
    wait s = Ok sol -> wait s' = Ok sol' -> sol = sol'.
Proof.
  intros pr P ws threads tr tr' s s' sol sol' M M' HE. apply wait_same.
  - rewrite (start_length _ _ _ _ _ _ M), (start_length _ _ _ _ _ _ M'). auto.
  - intros i wk wk' Hi Hi'. apply (C73_interleaving_irrelevant pr P ws threads threads tr tr' s s' i wk wk'); auto.
Qed.
Print Assumptions C73_same_iterations_same_result.

(** A session that nobody cancels and that does not run out of time returns the
    same solution and publishes the same events in every interleaving, unless it
    has several workers and --any lets the first success stop the others. *)
Theorem C73_undisturbed_sessions_agree :
  forall (pr : profile) (P : problem) (ws : nat -> world) (threads : nat) tr tr' (s s' : session) (sol sol' : solution),
    p_any P = false \/ num_threads P threads = 1 ->
    moves pr P ws (start P threads) tr s -> moves pr P ws (start P threads) tr' s' ->
    undisturbed tr -> undisturbed tr' ->
    wait s = Ok sol -> wait s' = Ok sol' ->
    sol = sol' /\
    forall i, iterations_of i tr = iterations_of i tr' /\
      option_map wk_events (nth_error (se_workers s) i) = option_map wk_events (nth_error (se_workers s') i).
Proof.
  intros pr P ws threads tr tr' s s' sol sol' HA M M' U U' W W'.
  assert (HA' : p_any P = false \/ length (se_workers (start P threads)) <= 1).
  { destruct HA as [HA|HA]; auto. right. cbn. rewrite repeat_length. lia. }
  assert (HX : forall t x, moves pr P ws (start P threads) t x -> undisturbed t -> forall i ls, In (Some i, ls) t -> forall b, ls <> [LLoad b]).
  { intros t x Mx Ux i ls Hl b. destruct b.
    - apply (unflagged _ _ _ _ _ _ Mx HA') with (l := (Some i, ls)); auto; [|cbn; discriminate]. intros l Hl'. apply Ux; auto.
    - apply (Ux (Some i, ls)); auto. }
  assert (HL : length (se_workers s) = length (se_workers s')).
  { rewrite (start_length _ _ _ _ _ _ M), (start_length _ _ _ _ _ _ M'). auto. }
  assert (HB : forall i wk wk', nth_error (se_workers s) i = Some wk -> nth_error (se_workers s') i = Some wk' ->
    iterations_of i tr = iterations_of i tr' /\ wk_gun wk = wk_gun wk' /\ wk_events wk = wk_events wk').
  { intros i wk wk' Hi Hi'. pose proof (session_stands pr P ws true _ _ _ M (fun _ => HX _ _ M U) i wk Hi) as H.
    pose proof (session_stands pr P ws true _ _ _ M' (fun _ => HX _ _ M' U') i wk' Hi') as H'.
    destruct (wait_ok _ _ W) as [D _]. destruct (wait_ok _ _ W') as [D' _].
    assert (E : iterations_of i tr = iterations_of i tr').
    { eapply stands_done; [exact H|exact H'|apply D; eapply nth_error_In; eauto|apply D'; eapply nth_error_In; eauto]. }
    split; auto. rewrite E in H. exact (stands_same _ _ _ _ _ _ _ _ H H'). }
  split. { eapply wait_same; eauto. intros i wk wk' Hi Hi'. apply (HB i wk wk'); auto. }
  intros i. destruct (nth_error (se_workers s) i) as [wk|] eqn:Hi.
  - destruct (nth_error (se_workers s') i) as [wk'|] eqn:Hi'.
    + destruct (HB i wk wk' Hi Hi') as (E1 & _ & E2). cbn. rewrite E2. auto.
    + exfalso. apply nth_error_None in Hi'. assert (i < length (se_workers s)) by (apply nth_error_Some; congruence). lia.
  - destruct (nth_error (se_workers s') i) as [wk'|] eqn:Hi'.
    + exfalso. apply nth_error_None in Hi. assert (i < length (se_workers s')) by (apply nth_error_Some; congruence). lia.
    + split; auto. apply nth_error_None in Hi, Hi'.
      assert (HZ : forall t x, moves pr P ws (start P threads) t x -> length (se_workers x) <= i -> iterations_of i t = 0).
      { clear. intros t x Mx. assert (G : forall a t x, moves pr P ws a t x -> length (se_workers x) <= i -> iterations_of i t = 0); [|eauto].
        clear. intros a t x Mx. induction Mx as [|a l a' t x HM HMs IH]; intros Hx; [reflexivity|]. unfold iterations_of. cbn [filter].
        destruct HM as [a j wk ls wk' Hj HM|a]; cbn [fst snd andb]; [|apply IH; auto].
        destruct (Nat.eqb_spec j i) as [->|]; [|apply IH; auto]. exfalso. rewrite (moves_length _ _ _ _ _ _ HMs) in Hx. cbn in Hx.
        rewrite upd_length in Hx. assert (i < length (se_workers a)) by (apply nth_error_Some; congruence). lia. }
      rewrite (HZ _ _ M Hi), (HZ _ _ M' Hi'). auto.
Qed.
Print Assumptions C73_undisturbed_sessions_agree.

(** The seed: the environment variable decides if it holds a number of 64 bits,
    otherwise the clock. *)
Theorem C73_seed_from_environment :
  forall (var : option string) (nanos : N),
    (forall v n, var = Some v -> numeral (2^64 - 1) v n -> initial_seed var nanos = n) /\
    ((forall v n, var = Some v -> ~ numeral (2^64 - 1) v n) -> (nanos < 2^64)%N -> initial_seed var nanos = nanos) /\
    (initial_seed var nanos < 2^64)%N.
Proof.
  intros var nanos. change (2^64)%N with two64. change (2^64 - 1)%N with (two64 - 1)%N.
  assert (HC : (clock_seed nanos < two64)%N) by (unfold clock_seed; destruct (N.ltb_spec nanos two64); [auto|reflexivity]).
  split; [|split].
  - intros v n -> H. apply parse_unsigned_ok in H. unfold initial_seed. rewrite H. auto.
  - intros H Hn. assert (E : clock_seed nanos = nanos) by (unfold clock_seed; apply N.ltb_lt in Hn; rewrite Hn; auto). unfold initial_seed.
    destruct var as [v|]; auto. destruct (parse_unsigned (two64 - 1) v) as [n|] eqn:EP; auto. exfalso. apply parse_unsigned_ok in EP. eapply H; eauto.
  - unfold initial_seed. destruct var as [v|]; auto. destruct (parse_unsigned (two64 - 1) v) as [n|] eqn:EP; auto.
    apply parse_unsigned_ok in EP as (ds & _ & _ & _ & Hle & _). unfold two64 in *. lia.
Qed.
Print Assumptions C73_seed_from_environment.

(** Two runs with the same WASSIGN_SEED on the same problem, started at different
    times ([nanos], [nanos']) and interleaved differently, return the same solution
    if neither is disturbed. *)
Theorem C73_same_seed_same_result :
  forall (pr : profile) (P : problem) (en : engine) (lp : nat -> env) (ck : nat -> clock) (v : string) (n nanos nanos' : N)
         (threads : nat) tr tr' (s s' : session) (sol sol' : solution),
    numeral (2^64 - 1) v n ->
    p_any P = false \/ num_threads P threads = 1 ->
    moves pr P (seeded_world en lp ck (initial_seed (Some v) nanos)) (start P threads) tr s ->
    moves pr P (seeded_world en lp ck (initial_seed (Some v) nanos')) (start P threads) tr' s' ->
    undisturbed tr -> undisturbed tr' ->
    wait s = Ok sol -> wait s' = Ok sol' -> sol = sol'.
Proof.
  intros pr P en lp ck v n nanos nanos' threads tr tr' s s' sol sol' HN HA M M' U U' W W'.
  rewrite (proj1 (C73_seed_from_environment (Some v) nanos) v n eq_refl HN) in M.
  rewrite (proj1 (C73_seed_from_environment (Some v) nanos') v n eq_refl HN) in M'.
  exact (proj1 (C73_undisturbed_sessions_agree pr P _ threads tr tr' s s' sol sol' HA M M' U U' W W')).
Qed.
Print Assumptions C73_same_seed_same_result.

(** ** Concrete sessions *)
(** Two choices that must be held, and one that everybody prefers but that may be
    left out; --any, no neighbours. *)
Definition r73 : reader := mkReader [mkSlot "s"; mkSlot "t"]
  [mkProto "a" 1 2 1 false; mkProto "b" 1 2 1 false; mkProto "c" 1 2 1 true]
  [mkChooser "p" [0;0;5]%N; mkChooser "q" [0;0;5]%N] [].
Definition d73 : input_data := match build_input Debug r73 with Ok d => d | _ => d1 end.
Definition a73 : analysis := match prepare_analysis Debug d73 false false false with Ok a => a | _ => a1 end.
Definition sd73 : static := match new_static d73 with Ok a => a | _ => sd1 end.
Definition P73 : problem := mkProblem d73 a73 sd73 (fun x => x) cube false true 0 3.
Definition o_rev : oracle := mkOracle (fun t => Z.of_nat (t mod 3000)) (fun _ l => rev l) (fun _ => false).
Definition w73 : world := mkWorld o_rev (o_count 1) (brute_env no_clock) no_clock.
Definition ws73 (i : nat) : world := if Nat.eqb i 0 then w5 else w73.
Definition it73 (i : nat) : nat * shotgun * list event := value (0, new_shotgun, []) (iterate Debug P73 (ws73 i) true tn1 1 new_shotgun).
Lemma it73_eq i : i < 2 -> iterate Debug P73 (ws73 i) true tn1 1 new_shotgun = Some (Ok (it73 i)).
Proof. intros H. destruct i as [|[|i]]; [vm_compute; reflexivity|vm_compute; reflexivity|lia]. Qed.
Lemma it73_found i : i < 2 -> score_finite (b_score (sg_best (snd (fst (it73 i))))) = true.
Proof. intros H. destruct i as [|[|i]]; [vm_compute; reflexivity|vm_compute; reflexivity|lia]. Qed.
Definition done73 (i : nat) : worker := mkWorker WDone (snd (fst (it73 i))) (snd (it73 i)).
Definition idle73 : worker := mkWorker WDone new_shotgun [].
(** Both workers iterate; one first or the other first. *)
Definition life (i : nat) : list (option nat * list label) := [(Some i, [LLoad false; LStart]); (Some i, [LIterated])].
Definition both01 := life 0 ++ life 1 ++ [(Some 0, [LCancel]); (Some 1, [LCancel])].
Definition both10 := life 1 ++ life 0 ++ [(Some 1, [LCancel]); (Some 0, [LCancel])].
(** Only the first, only the second. *)
Definition only0 := life 0 ++ [(Some 0, [LCancel]); (Some 1, [LLoad true])].
Definition only1 := life 1 ++ [(Some 1, [LCancel]); (Some 0, [LLoad true])].
Ltac go73 :=
  change (start P73 2) with (mkSession false [new_worker; new_worker]); unfold done73;
  pose proof (it73_eq 0 ltac:(lia)) as E0; pose proof (it73_found 0 ltac:(lia)) as F0;
  pose proof (it73_eq 1 ltac:(lia)) as E1; pose proof (it73_found 1 ltac:(lia)) as F1;
  destruct (it73 0) as [[k0 g0] ev0]; destruct (it73 1) as [[k1 g1] ev1]; cbn [fst snd] in *;
  repeat (eapply mvs_step; [first [eapply (mv_worker _ _ _ _ 0); [reflexivity|first [eapply mv_start | eapply mv_iterate; exact E0 | apply mv_success; exact F0 | apply (mv_stop _ _ _ _ _ _ true false); reflexivity]]
                                 | eapply (mv_worker _ _ _ _ 1); [reflexivity|first [eapply mv_start | eapply mv_iterate; exact E1 | apply mv_success; exact F1 | apply (mv_stop _ _ _ _ _ _ true false); reflexivity]]]
    |cbn [upd se_workers se_flag existsb orb app]]); try constructor.
Lemma both01_moves : moves Debug P73 ws73 (start P73 2) both01 (mkSession true [done73 0; done73 1]).
Proof. unfold both01, life; cbn [app]. go73. Qed.
Lemma both10_moves : moves Debug P73 ws73 (start P73 2) both10 (mkSession true [done73 0; done73 1]).
Proof. unfold both10, life; cbn [app]. go73. Qed.
Lemma only0_moves : moves Debug P73 ws73 (start P73 2) only0 (mkSession true [done73 0; idle73]).
Proof. unfold only0, life; cbn [app]. go73. Qed.
Lemma only1_moves : moves Debug P73 ws73 (start P73 2) only1 (mkSession true [idle73; done73 1]).
Proof. unfold only1, life; cbn [app]. go73. Qed.
Definition alone0 := life 0 ++ [(Some 0, [LCancel])].
Lemma alone_moves : moves Debug P73 ws73 (start P73 1) alone0 (mkSession true [done73 0]).
Proof.
  unfold alone0, life; cbn [app]. change (start P73 1) with (mkSession false [new_worker]); unfold done73.
  pose proof (it73_eq 0 ltac:(lia)) as E0; pose proof (it73_found 0 ltac:(lia)) as F0. destruct (it73 0) as [[k0 g0] ev0]; cbn [fst snd] in *.
  repeat (eapply mvs_step; [eapply (mv_worker _ _ _ _ 0); [reflexivity|first [eapply mv_start | eapply mv_iterate; exact E0 | apply mv_success; exact F0]]
    |cbn [upd se_workers se_flag existsb orb app]]). constructor.
Qed.

Example C73_witness :
  moves Debug P73 ws73 (start P73 2) both01 (mkSession true [done73 0; done73 1]) /\
  moves Debug P73 ws73 (start P73 2) both10 (mkSession true [done73 0; done73 1]) /\ both01 <> both10 /\
  (forall i, iterations_of i both01 = iterations_of i both10) /\
  wait (mkSession true [done73 0; done73 1]) = Ok (SolComplete [Some 0; Some 1; Some 0] [[2; 1]; [0; 1]]) /\
  num_threads P73 1 = 1 /\ moves Debug P73 ws73 (start P73 1) alone0 (mkSession true [done73 0]) /\ undisturbed alone0 /\
  wait (mkSession true [done73 0]) = Ok (SolComplete [Some 0; Some 1; Some 0] [[2; 1]; [0; 1]]).
Proof.
  split; [exact both01_moves|]. split; [exact both10_moves|]. split; [discriminate|]. split.
  { intros [|[|i]]; reflexivity. }
  split; [vm_compute; reflexivity|]. split; [reflexivity|]. split; [exact alone_moves|]. split; [|vm_compute; reflexivity].
  intros l [<-|[<-|[<-|[]]]]; split; discriminate.
Qed.

(** With several workers and --any, the exception above is needed: the order in
    which the workers run decides how many of them iterate, hence which solution is
    returned and how good it is. *)
Theorem C73_any_refuted :
  exists (P : problem) (ws : nat -> world) tr tr' (s s' : session) (sol sol' : solution) (sc sc' : score),
    p_any P = true /\ (forall i, fair (w_sched (ws i)) /\ fair (w_hill (ws i))) /\
    moves Debug P ws (start P 2) tr s /\ moves Debug P ws (start P 2) tr' s' /\ undisturbed tr /\ undisturbed tr' /\
    wait s = Ok sol /\ wait s' = Ok sol' /\ score_of Debug P sol = Ok sc /\ score_of Debug P sol' = Ok sc' /\ score_lt sc sc' = true.
Proof.
  exists P73, ws73, only0, only1, (mkSession true [done73 0; idle73]), (mkSession true [idle73; done73 1]),
    (SolComplete [Some 0; Some 1; Some 0] [[2; 1]; [0; 1]]), (SolComplete [Some 1; Some 0; None] [[1; 0]; [1; 0]]),
    (b_score (sg_best (snd (fst (it73 0))))), (b_score (sg_best (snd (fst (it73 1))))).
  split; [reflexivity|]. split.
  { intros i. unfold ws73. destruct (Nat.eqb i 0); cbn [w_sched w_hill w5 w73]; split; try apply o_count_fair.
    constructor; cbn [o_sample o_shuffle o_rev]; [|intros t l; apply Permutation_rev].
    intros t. pose proof (Nat.mod_upper_bound t 3000 ltac:(lia)). unfold i32_min, i32_max. set (m := t mod 3000) in *. clearbody m. lia. }
  split; [exact only0_moves|]. split; [exact only1_moves|].
  split. { intros l [<-|[<-|[<-|[<-|[]]]]]; split; discriminate. } split. { intros l [<-|[<-|[<-|[<-|[]]]]]; split; discriminate. }
  split; [vm_compute; reflexivity|]. split; [vm_compute; reflexivity|]. split; [vm_compute; reflexivity|]. split; vm_compute; reflexivity.
Qed.
Print Assumptions C73_any_refuted.

(** WASSIGN_SEED=42. *)
Example C73_seed_witness : numeral (2^64 - 1) "42" 42 /\ initial_seed (Some "42") 1731913200000000000 = 42%N /\
  initial_seed (Some "-1") 1731913200000000000 = 1731913200000000000%N /\ initial_seed None 7 = 7%N.
Proof. split; [apply parse_unsigned_ok; vm_compute; reflexivity|]. vm_compute. auto. Qed.

(** ** C32: the engines of a session (two per worker: search and local search) are
    seeded differently for different workers, and the two of a worker differ. *)
Theorem C32_workers_have_their_own_seeds :
  forall (seed : N) (i j : nat), (seed < 2^64)%N -> (N.of_nat i < 2^64)%N -> (N.of_nat j < 2^64)%N ->
    (i <> j -> search_seed seed i <> search_seed seed j /\ climb_seed seed i <> climb_seed seed j) /\
    search_seed seed i <> climb_seed seed i /\ (search_seed seed i < 2^64)%N /\ (climb_seed seed i < 2^64)%N.
Proof.
  intros seed i j HS Hi Hj. change (2^64)%N with two64 in *. unfold climb_seed.
  assert (Hl : forall k, (search_seed seed k < two64)%N) by (intros k; exact (mix_seed_lt seed _ HS)).
  split; [|split; [|split; [apply Hl|apply N.mod_upper_bound; discriminate]]].
  - intros Hne. assert (Hd : search_seed seed i <> search_seed seed j).
    { intros E. apply Hne. apply Nat2N.inj. exact (mix_seed_inj seed _ _ Hi Hj HS E). }
    split; auto. intros E. apply Hd. pose proof (Hl i) as Li. pose proof (Hl j) as Lj. revert E Li Lj.
    generalize (search_seed seed i) (search_seed seed j). clear. intros a b E Ha Hb. assert (T : two64 <> 0%N) by discriminate.
    pose proof (N.div_mod (a + 1) two64 T) as Da. pose proof (N.div_mod (b + 1) two64 T) as Db. rewrite E in Da.
    pose proof (N.mod_upper_bound (b + 1) two64 T) as Mb. revert Da Db Ha Hb Mb. generalize ((b + 1) mod two64)%N ((a + 1) / two64)%N ((b + 1) / two64)%N.
    unfold two64. clear. intros r p q. intros. nia.
  - pose proof (Hl i) as Li. revert Li. generalize (search_seed seed i). clear. intros a Ha E. assert (T : two64 <> 0%N) by discriminate.
    pose proof (N.div_mod (a + 1) two64 T) as Da. rewrite <- E in Da. revert Da Ha. generalize ((a + 1) / two64)%N. unfold two64. clear. intros q. intros. nia.
Qed.
Print Assumptions C32_workers_have_their_own_seeds.
Example C32_own_seeds_witness : (7 < 2^64)%N /\ search_seed 7 0 <> search_seed 7 1 /\ climb_seed 7 0 <> search_seed 7 0.
Proof. split; [reflexivity|]. split; vm_compute; discriminate. Qed.
