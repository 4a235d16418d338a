(** The preference histogram and the minor score; witnesses for C09/C10. *)
From Verif Require Import Base M_Data M_Scoring Spec P_Scoring P_Feasible P_Score.
From Coq Require Import Floats.SpecFloat.

Fixpoint bump (l : list N) (h : list N) : list N :=
  match l with
  | [] => h
  | x :: t => bump t (upd h (N.to_nat x) (at_ h (N.to_nat x) + 1)%N)
  end.

Lemma bump_app l1 l2 h : bump (l1 ++ l2) h = bump l2 (bump l1 h).
Proof. revert h; induction l1; cbn; auto. Qed.
Lemma bump_length l h : length (bump l h) = length h.
Proof. revert h; induction l; intros h; cbn; auto. rewrite IHl, upd_length; auto. Qed.

Lemma bump_at l : forall h i, (forall x, In x l -> N.to_nat x < length h) ->
  at_ (bump l h) i = (at_ h i + N.of_nat (count_occ Nat.eq_dec (map N.to_nat l) i))%N.
Proof.
  induction l as [|x l IH]; intros h i Hl; cbn [bump map count_occ].
  - cbn. lia.
  - rewrite IH. 2:{ intros y Hy. rewrite upd_length. apply Hl; right; auto. }
    rewrite at_upd. pose proof (Hl x (or_introl eq_refl)).
    destruct (Nat.eq_dec (N.to_nat x) i) as [<-|Hne].
    + rewrite Nat.eqb_refl. destruct (Nat.ltb_spec (N.to_nat x) (length h)); [|lia]. cbn [andb]. lia.
    + destruct (Nat.eqb_spec (N.to_nat x) i); [lia|]. cbn [andb]. lia.
Qed.

Section Hist.
Variable d : input_data.
Variable A : assignment.
Hypothesis HW : wf_input d.
Hypothesis HA : length A = n_choosers d.
Hypothesis HR : forall p row, nth_error A p = Some row ->
  length row = n_slots d /\ forall c, In c row -> c < n_choices d.
Hypothesis HM : (i_max_pref d < u32_max)%N.

(** attended preferences, chooser by chooser *)
Definition row_prefs (p : nat) (row : list nat) : list N := map (prefv d p) row.
Fixpoint all_prefs (p : nat) (rows : list (list nat)) : list N :=
  match rows with [] => [] | r :: t => row_prefs p r ++ all_prefs (S p) t end.

Lemma prefv_le p c : (prefv d p c <= i_max_pref d)%N.
Proof.
  unfold prefv. destruct (nth_error (i_choosers d) p) as [ch|] eqn:E; [|lia].
  destruct (nth_in_or_default c (cs_prefs ch) 0%N) as [Hin| ->]; [|lia].
  eapply wf_max; eauto. eapply nth_error_In; eauto.
Qed.

Lemma hist_inner p row h :
  nth_error A p = Some row -> length h = N.to_nat (i_max_pref d + 1) ->
  mfold (fun h' s =>
      let* c := choice_of A p s in
      let* cd := get (i_choosers d) p in
      let* pref := get (cs_prefs cd) c in
      let* n := get h' (N.to_nat pref) in
      set h' (N.to_nat pref) (n + 1)%N) (seq 0 (n_slots d)) h = Ok (bump (row_prefs p row) h).
Proof.
  intros Hrow. destruct (HR _ _ Hrow) as [HL HC]. rewrite <- HL.
  assert (Hp : p < n_choosers d) by (apply nth_error_lt in Hrow; lia).
  assert (G : forall n k h, k + n = length row -> length h = N.to_nat (i_max_pref d + 1) ->
    mfold (fun h' s =>
      let* c := choice_of A p s in
      let* cd := get (i_choosers d) p in
      let* pref := get (cs_prefs cd) c in
      let* n := get h' (N.to_nat pref) in
      set h' (N.to_nat pref) (n + 1)%N) (seq k n) h = Ok (bump (row_prefs p (skipn k row)) h)).
  { induction n as [|n IH]; intros k h' Hk Hh; cbn [seq mfold].
    - rewrite skipn_all2 by lia; auto.
    - destruct (nth_error_in_range row k) as [c Hc]; [lia|].
      rewrite (choice_of_row _ _ _ _ Hrow). unfold get at 1. rewrite Hc; cbn [bind].
      destruct (pref_lookup d HW p c Hp) as (ch & E1 & E2). { apply HC. eapply nth_error_In; eauto. }
      unfold get at 1. rewrite E1; cbn [bind]. unfold get at 1. rewrite E2; cbn [bind].
      pose proof (prefv_le p c) as Hle.
      rewrite at_get by lia. cbn [bind]. unfold set at 1.
      destruct (Nat.ltb_spec (N.to_nat (prefv d p c)) (length h')); [|lia]. cbn [bind].
      rewrite IH; [|lia|rewrite upd_length; auto]. rewrite (skipn_cons _ _ _ Hc). auto. }
  intros Hh. apply (G (length row) 0); auto.
Qed.

Lemma pref_histogram_ok pr :
  pref_histogram pr d A = Ok (bump (all_prefs 0 A) (repeat 0%N (N.to_nat (i_max_pref d + 1)))).
Proof.
  unfold pref_histogram. rewrite add_u32_ok by lia. cbn [bind].
  set (h0 := repeat 0%N (N.to_nat (i_max_pref d + 1))).
  assert (Hh0 : length h0 = N.to_nat (i_max_pref d + 1)) by apply repeat_length.
  assert (G : forall n k h, k + n = n_choosers d -> length h = N.to_nat (i_max_pref d + 1) ->
    mfold (fun h ch => mfold (fun h' s =>
      let* c := choice_of A ch s in
      let* cd := get (i_choosers d) ch in
      let* pref := get (cs_prefs cd) c in
      let* n := get h' (N.to_nat pref) in
      set h' (N.to_nat pref) (n + 1)%N) (seq 0 (n_slots d)) h) (seq k n) h = Ok (bump (all_prefs k (skipn k A)) h)).
  { induction n as [|n IH]; intros k h Hk Hh; cbn [seq mfold].
    - rewrite skipn_all2 by lia; auto.
    - destruct (nth_error_in_range A k) as [row Hrow]; [lia|].
      rewrite (hist_inner _ _ _ Hrow Hh). cbn [bind]. rewrite IH; [|lia|rewrite bump_length; auto].
      rewrite (skipn_cons _ _ _ Hrow). cbn [all_prefs]. rewrite bump_app. auto. }
  apply (G (n_choosers d) 0); auto.
Qed.

End Hist.

(** evaluation never panics on complete solutions with the right shape *)
Lemma evaluate_total pr pow g d S A :
  fits d -> wf_input d -> (i_max_pref d < u32_max)%N ->
  length S = n_choices d -> length A = n_choosers d ->
  (forall p row, nth_error A p = Some row -> length row = n_slots d) ->
  (forall c s, scheduled_in S c s -> s < n_slots d) ->
  (forall p c, attends A p c -> held S c) ->
  exists sc, evaluate pr pow g d (SolComplete S A) = Ok sc.
Proof.
  intros HF HW HM HL HA HR HS HH.
  assert (HR' : forall p row, nth_error A p = Some row ->
    length row = n_slots d /\ forall c, In c row -> c < n_choices d).
  { intros p row Hp. split; [eauto|]. intros c Hc. destruct (HH p c) as [s Hs]; [exists row; auto|].
    apply nth_error_lt in Hs. lia. }
  destruct (sol_is_feasible_total d S A) as [b Hb]; auto.
  cbn [evaluate].
  assert (Hmaj : exists mj, (if g then Ok S754_nan else let* m := evaluate_major d A in Ok (f32_of_N m)) = Ok mj).
  { destruct g; eauto. rewrite evaluate_major_ok by auto. cbn. eauto. }
  destruct Hmaj as [mj ->]. cbn [bind].
  unfold evaluate_minor. rewrite Hb; cbn [bind]. destruct b; cbn [negb].
  - rewrite pref_histogram_ok by auto. cbn [bind].
    destruct (_ && _); eauto.
  - cbn [bind]. destruct (_ && _); eauto.
Qed.

(** ** Sparse sums *)

Lemma minor_sum_app pow sc : forall h1 h2 pref sum,
  minor_sum pow sc pref (h1 ++ h2) sum =
  minor_sum pow sc (pref + N.of_nat (length h1)) h2 (minor_sum pow sc pref h1 sum).
Proof.
  induction h1 as [|n h1 IH]; intros h2 pref sum; cbn [app minor_sum length].
  - f_equal. lia.
  - rewrite IH. f_equal. lia.
Qed.

Lemma minor_sum_zeros pow sc k : forall pref,
  (forall x, (pref <= x < pref + N.of_nat k)%N ->
     f32_div (f32_mul (f32_of_N 0) (pow (f32_of_N x))) sc = S754_zero false) ->
  minor_sum pow sc pref (repeat 0%N k) (S754_zero false) = S754_zero false.
Proof.
  induction k as [|k IH]; intros pref H; cbn [repeat minor_sum]; auto.
  rewrite H by lia. change (f32_add (S754_zero false) (S754_zero false)) with (S754_zero false).
  apply IH. intros x Hx. apply H. lia.
Qed.

(** a histogram that is zero below [k] *)
Lemma sparse_hist (h : list N) k t :
  length h = k + length t ->
  (forall i, i < k -> at_ h i = 0%N) -> (forall i, i < length t -> at_ h (k + i) = at_ t i) ->
  h = repeat 0%N k ++ t.
Proof.
  intros HL H1 H2. apply nth_ext with (d := 0%N) (d' := 0%N).
  - rewrite app_length, repeat_length; auto.
  - intros i Hi. fold (at_ h i). destruct (Nat.lt_ge_cases i k) as [Hlt|Hge].
    + rewrite H1 by auto. rewrite app_nth1 by (rewrite repeat_length; auto).
      symmetry. apply (at_zeros k i).
    + rewrite app_nth2 by (rewrite repeat_length; auto). rewrite repeat_length.
      replace i with (k + (i - k)) at 1 by lia. rewrite H2 by lia. reflexivity.
Qed.

(** ** Witness: preferences above 2^24 are not told apart *)

Definition d9 : input_data := mkInput
  [mkChoice String.EmptyString 0 2 None false; mkChoice String.EmptyString 0 2 None false]
  [mkChooser String.EmptyString [16777216; 16777217]%N; mkChooser String.EmptyString [16777216; 0]%N]
  [mkSlot String.EmptyString] [] [] [] [0; 1; 16777217]%N 16777217 [[]; []] [[]; []].
Definition S9 : scheduling := [Some 0; Some 0].
Definition A9a : assignment := [[0]; [0]].
Definition A9b : assignment := [[1]; [1]].
Definition pow1 : f32 -> f32 := fun x => x.   (* exponent 1 *)

Lemma d9_wf : wf_input d9.
Proof.
  constructor; cbn; try (intros; contradiction); try discriminate.
  - intros ch [<-|[<-|[]]]; reflexivity.
  - intros ch x [<-|[<-|[]]] [<-|[<-|[]]]; lia.
  - intros c [<-|[<-|[]]]; unfold u32_max; cbn; lia.
Qed.

Lemma d9_fits : fits d9.
Proof. constructor; cbn; unfold u32_max, i32_max; lia. Qed.

Lemma d9_rows A : (A = A9a \/ A = A9b) -> forall p row, nth_error A p = Some row ->
  length row = n_slots d9 /\ forall c, In c row -> c < n_choices d9.
Proof.
  intros [->| ->] p row; destruct p as [|[|p]]; cbn; try (destruct p; discriminate);
    intros E; injection E as <-; split; auto; intros c [<-|[]]; lia.
Qed.

Lemma d9_valid A : (A = A9a \/ A = A9b) -> valid_solution d9 S9 A.
Proof.
  intros H.
  assert (HR : respects_all d9 S9 A).
  { apply sol_is_feasible_sound; auto using d9_wf, d9_fits.
    - destruct H as [->| ->]; reflexivity.
    - intros p row Hp. eapply d9_rows; eauto.
    - destruct H as [->| ->]; vm_compute; reflexivity. }
  constructor; auto.
  destruct (sched_is_feasible_exact Debug d9 S9) as (b & Eb & Hb); auto using d9_wf, d9_fits.
  - intros [|[|c]] s Hs; cbn in Hs; try (injection Hs as <-; cbn; lia). destruct c; discriminate.
  - intros [|s]; split; cbn; unfold u32_max; lia.
  - apply Hb. assert (E : sched_is_feasible Debug d9 S9 = Ok true) by (vm_compute; reflexivity). congruence.
Qed.

Lemma f32_of_big : f32_of_N 16777217 = S754_finite false 8388608 1.
Proof. reflexivity. Qed.

Lemma zero_term sc m e x : (x <= 16777216)%N -> sc = S754_finite false m e ->
  f32_div (f32_mul (f32_of_N 0) (pow1 (f32_of_N x))) sc = S754_zero false.
Proof.
  intros Hx ->. change (f32_of_N 0) with (S754_zero false). unfold pow1.
  destruct x as [|p]; [reflexivity|].
  destruct (N.eq_dec (Npos p) 16777216) as [->|Hne]; [reflexivity|].
  destruct (f32_of_pos_small p) as (m' & e' & -> & _); [lia|]. reflexivity.
Qed.

Lemma sparse_a (M : N) :
  bump [M; M] (repeat 0%N (N.to_nat (M + 1 + 1))) = repeat 0%N (N.to_nat M) ++ [2; 0]%N.
Proof.
  assert (HN : N.to_nat (M + 1 + 1) = N.to_nat M + 2) by lia. rewrite HN.
  assert (Hat : forall i, at_ (bump [M; M] (repeat 0%N (N.to_nat M + 2))) i =
      N.of_nat (count_occ Nat.eq_dec (map N.to_nat [M; M]) i)).
  { intros i. rewrite bump_at. - rewrite at_zeros. lia.
    - intros x [<-|[<-|[]]]; rewrite repeat_length; lia. }
  apply sparse_hist.
  - rewrite bump_length, repeat_length. reflexivity.
  - intros i Hi. rewrite Hat. rewrite (proj1 (count_occ_not_In _ _ _)); auto.
    intros [E|[E|[]]]; lia.
  - intros i Hi. rewrite Hat. cbn [map]. destruct i as [|[|i]]; [| |cbn in Hi; lia].
    + rewrite Nat.add_0_r. cbn [count_occ]. destruct (Nat.eq_dec (N.to_nat M) (N.to_nat M)); [reflexivity|congruence].
    + rewrite (proj1 (count_occ_not_In _ _ _)); auto. intros [E|[E|[]]]; lia.
Qed.

Lemma sparse_b (M : N) :
  bump [(M + 1)%N; 0%N] (repeat 0%N (N.to_nat (M + 1 + 1))) = 1%N :: repeat 0%N (N.to_nat M) ++ [1]%N.
Proof.
  assert (HN : N.to_nat (M + 1 + 1) = N.to_nat M + 2) by lia. rewrite HN.
  assert (Hat : forall i, at_ (bump [(M + 1)%N; 0%N] (repeat 0%N (N.to_nat M + 2))) i =
      N.of_nat (count_occ Nat.eq_dec (map N.to_nat [(M + 1)%N; 0%N]) i)).
  { intros i. rewrite bump_at. - rewrite at_zeros. lia.
    - intros x [<-|[<-|[]]]; rewrite repeat_length; lia. }
  assert (Hlen : length (bump [(M + 1)%N; 0%N] (repeat 0%N (N.to_nat M + 2))) = N.to_nat M + 2)
    by (rewrite bump_length, repeat_length; auto).
  assert (Hn17 : N.to_nat (M + 1) = S (N.to_nat M)) by lia.
  destruct (bump [(M + 1)%N; 0%N] (repeat 0%N (N.to_nat M + 2))) as [|h0 h']; [cbn in Hlen; lia|].
  cbn [map] in Hat. rewrite Hn17 in Hat. change (N.to_nat 0) with 0 in Hat.
  assert (h0 = 1%N) as ->.
  { specialize (Hat 0). cbn [map count_occ] in Hat. unfold at_ in Hat; cbn [nth] in Hat. rewrite Hat.
    destruct (Nat.eq_dec (S (N.to_nat M)) 0); [lia|]. reflexivity. }
  f_equal. apply sparse_hist.
  - cbn in *. lia.
  - intros i Hi. specialize (Hat (S i)). unfold at_ in *. cbn [nth] in Hat. rewrite Hat.
    rewrite (proj1 (count_occ_not_In _ _ _)); auto. intros [E|[E|[]]]; lia.
  - intros i Hi. destruct i as [|i]; [|cbn in Hi; lia]. rewrite Nat.add_0_r.
    specialize (Hat (S (N.to_nat M))). unfold at_ in *. cbn [nth] in Hat. rewrite Hat.
    cbn [count_occ].
    destruct (Nat.eq_dec (S (N.to_nat M)) (S (N.to_nat M))); [|congruence].
    destruct (Nat.eq_dec 0 (S (N.to_nat M))); [lia|]. reflexivity.
Qed.

Lemma d9_max : (i_max_pref d9 < u32_max)%N.
Proof. reflexivity. Qed.

Lemma d9_hist_a pr : pref_histogram pr d9 A9a = Ok (repeat 0%N (N.to_nat 16777216) ++ [2; 0]%N).
Proof.
  refine (eq_trans (pref_histogram_ok d9 A9a d9_wf eq_refl (d9_rows _ (or_introl eq_refl)) d9_max pr)
                   (f_equal Ok (eq_trans _ (sparse_a 16777216)))).
  f_equal.
Qed.

Lemma d9_hist_b pr : pref_histogram pr d9 A9b = Ok (1%N :: repeat 0%N (N.to_nat 16777216) ++ [1]%N).
Proof.
  refine (eq_trans (pref_histogram_ok d9 A9b d9_wf eq_refl (d9_rows _ (or_intror eq_refl)) d9_max pr)
                   (f_equal Ok (eq_trans _ (sparse_b 16777216)))).
  f_equal.
Qed.

Definition f32_one : f32 := S754_finite false 8388608 (-23).
Definition f32_two : f32 := S754_finite false 8388608 (-22).

Lemma evaluate_by_parts pr pow d S A m h sum :
  evaluate_major d A = Ok m -> sol_is_feasible d S A = Ok true -> pref_histogram pr d A = Ok h ->
  minor_sum pow (scoring_scaling pow d) 0 h f32_zero = sum ->
  is_fin (f32_of_N m) = true -> is_fin sum = true ->
  evaluate pr pow false d (SolComplete S A) = Ok (mkScore (f32_of_N m) sum).
Proof.
  intros E1 E2 E3 E4 E5 E6. cbn [evaluate]. rewrite E1. cbn [bind]. unfold evaluate_minor.
  rewrite E2. cbn [bind negb]. rewrite E3. cbn [bind]. rewrite E4, E5, E6. reflexivity.
Qed.

Lemma minor_sparse pow sc M t :
  (forall x, (x < M)%N -> f32_div (f32_mul (f32_of_N 0) (pow (f32_of_N x))) sc = S754_zero false) ->
  minor_sum pow sc 0 (repeat 0%N (N.to_nat M) ++ t) f32_zero = minor_sum pow sc M t f32_zero.
Proof.
  intros H. rewrite minor_sum_app, repeat_length, N2Nat.id, N.add_0_l.
  unfold f32_zero. rewrite minor_sum_zeros; auto. intros x Hx. apply H. lia.
Qed.

Lemma minor_sparse' pow sc n M t :
  f32_div (f32_mul (f32_of_N n) (pow (f32_of_N 0))) sc = S754_zero false ->
  (forall x, (x <= M)%N -> f32_div (f32_mul (f32_of_N 0) (pow (f32_of_N x))) sc = S754_zero false) ->
  minor_sum pow sc 0 (n :: repeat 0%N (N.to_nat M) ++ t) f32_zero = minor_sum pow sc (1 + M) t f32_zero.
Proof.
  intros H0 H. cbn [minor_sum]. rewrite H0. change (f32_add f32_zero (S754_zero false)) with f32_zero.
  rewrite minor_sum_app, repeat_length, N2Nat.id.
  change (0 + 1)%N with 1%N. unfold f32_zero. rewrite minor_sum_zeros; auto.
  intros x Hx. apply H. lia.
Qed.

Lemma d9_zero x : (x <= 16777216)%N ->
  f32_div (f32_mul (f32_of_N 0) (pow1 (f32_of_N x))) (scoring_scaling pow1 d9) = S754_zero false.
Proof. intros Hx. eapply zero_term; [exact Hx|]. reflexivity. Qed.

Lemma d9_sum_a : minor_sum pow1 (scoring_scaling pow1 d9) 16777216 [2; 0]%N f32_zero = f32_two.
Proof. vm_compute. reflexivity. Qed.
Lemma d9_sum_b : minor_sum pow1 (scoring_scaling pow1 d9) (1 + 16777216) [1]%N f32_zero = f32_one.
Proof. vm_compute. reflexivity. Qed.

Lemma d9_score_a pr : evaluate pr pow1 false d9 (SolComplete S9 A9a) =
  Ok (mkScore (f32_of_N 16777216) f32_two).
Proof.
  refine (evaluate_by_parts pr pow1 d9 S9 A9a 16777216 _ f32_two _ _ (d9_hist_a pr) _ _ _).
  - vm_compute; reflexivity.
  - vm_compute; reflexivity.
  - refine (eq_trans (minor_sparse _ _ _ _ _) d9_sum_a).
    intros x Hx. apply d9_zero. lia.
  - reflexivity.
  - reflexivity.
Qed.

Lemma d9_score_b pr : evaluate pr pow1 false d9 (SolComplete S9 A9b) =
  Ok (mkScore (f32_of_N 16777217) f32_one).
Proof.
  refine (evaluate_by_parts pr pow1 d9 S9 A9b 16777217 _ f32_one _ _ (d9_hist_b pr) _ _ _).
  - vm_compute; reflexivity.
  - vm_compute; reflexivity.
  - refine (eq_trans (minor_sparse' _ _ _ _ _ _ _) d9_sum_b).
    + vm_compute; reflexivity.
    + intros x Hx. apply d9_zero. exact Hx.
  - reflexivity.
  - reflexivity.
Qed.

(** ** Witness: a huge exponent makes every score infinite *)

Definition d10 : input_data := mkInput
  [mkChoice String.EmptyString 1 2 None false; mkChoice String.EmptyString 0 2 None false]
  [mkChooser String.EmptyString [0; 2]%N; mkChooser String.EmptyString [0; 2]%N]
  [mkSlot String.EmptyString] [] [] [] [0; 2]%N 2 [[]; []] [[]; []].
Definition S10 : scheduling := [Some 0; Some 0].
Definition A10 : assignment := [[0]; [0]].

Lemma d10_wf : wf_input d10.
Proof.
  constructor; cbn; try (intros; contradiction); try discriminate.
  - intros ch [<-|[<-|[]]]; reflexivity.
  - intros ch x [<-|[<-|[]]] [<-|[<-|[]]]; lia.
  - intros c [<-|[<-|[]]]; unfold u32_max; cbn; lia.
Qed.
Lemma d10_fits : fits d10.
Proof. constructor; cbn; unfold u32_max, i32_max; lia. Qed.

Lemma d10_valid : valid_solution d10 S10 A10.
Proof.
  constructor.
  - destruct (sched_is_feasible_exact Debug d10 S10) as (b & Eb & Hb); auto using d10_wf, d10_fits.
    + intros [|[|c]] s Hs; cbn in Hs; try (injection Hs as <-; cbn; lia). destruct c; discriminate.
    + intros [|s]; split; cbn; unfold u32_max; lia.
    + apply Hb. assert (E : sched_is_feasible Debug d10 S10 = Ok true) by (vm_compute; reflexivity). congruence.
  - apply sol_is_feasible_sound; auto using d10_wf, d10_fits.
    intros [|[|p]] row H; cbn in H; try (injection H as <-; reflexivity). destruct p; discriminate.
Qed.

Lemma d10_infinite pr pow g :
  pow (f32_of_N 2) = f32_inf ->
  evaluate pr pow g d10 (SolComplete S10 A10) = Ok score_infinite.
Proof.
  intros Hp. cbn [evaluate].
  assert (Hmaj : exists mj, (if g then Ok S754_nan else let* m := evaluate_major d10 A10 in Ok (f32_of_N m)) = Ok mj).
  { destruct g; eauto. replace (evaluate_major d10 A10) with (Ok 0%N) by (vm_compute; reflexivity). cbn; eauto. }
  destruct Hmaj as [mj ->]. cbn [bind].
  assert (Ef : sol_is_feasible d10 S10 A10 = Ok true) by (vm_compute; reflexivity).
  unfold evaluate_minor. rewrite Ef. cbn [bind negb].
  assert (Eh : pref_histogram pr d10 A10 = Ok [2; 0; 0]%N) by (destruct pr; vm_compute; reflexivity).
  rewrite Eh. cbn [bind minor_sum]. unfold scoring_scaling. change (i_max_pref d10) with 2%N.
  cbn [N.eqb Pos.eqb]. change (0 + 1 + 1)%N with 2%N. rewrite Hp.
  change (f32_div (f32_mul (f32_of_N 0) f32_inf) f32_inf) with S754_nan.
  assert (Hn : forall x, f32_add x S754_nan = S754_nan) by (intros [[]|[]| |[] ? ?]; reflexivity).
  rewrite Hn. cbn [is_fin]. rewrite andb_false_r. reflexivity.
Qed.
