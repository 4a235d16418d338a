(** The minor score against its real-number meaning. *)
From Verif Require Import Base M_Data M_Scoring Spec P_Scoring P_Feasible P_Score P_Minor Spec_Score Spec_Cost P_Finite.
From Coq Require Import Floats.SpecFloat Reals Lra.
From Flocq Require Import Core Round Relative BinarySingleNaN.
Local Open Scope R_scope.

Local Instance Hprec : Prec_gt_0 24 := eq_refl _.
Local Instance Hmax : Prec_lt_emax 24 128 := eq_refl _.

Lemma value_SF2R x : f32_value x = SF2R radix2 x.
Proof.
  destruct x as [| | |s m e]; auto. cbn [f32_value SF2R]. unfold F2R; cbn [Fnum Fexp].
  rewrite bpow_powerRZ. change (IZR radix2) with 2. destruct s; cbn [cond_Zopp]; [|rewrite Rmult_1_l; auto].
  rewrite (opp_IZR (Zpos m)). lra.
Qed.

(** *** SpecFloat operations are Flocq's (cf. Flocq's PrimFloat.v) *)
Lemma nearest_equiv s m l : round_nearest_even m l = choice_mode mode_NE s m l.
Proof. destruct l as [|c]; auto. destruct c; auto. cbn. unfold Round.cond_incr. now destruct (Z.even m). Qed.
Lemma round_aux_equiv sx mx ex lx :
  SpecFloat.binary_round_aux 24 128 sx mx ex lx = BinarySingleNaN.binary_round_aux 24 128 mode_NE sx mx ex lx.
Proof.
  unfold SpecFloat.binary_round_aux, BinarySingleNaN.binary_round_aux.
  destruct (shr_fexp _ _ _) as [mrs' e']; cbn. now rewrite (nearest_equiv sx).
Qed.
Lemma round_equiv s m e :
  SpecFloat.binary_round 24 128 s m e = BinarySingleNaN.binary_round 24 128 mode_NE s m e.
Proof.
  unfold SpecFloat.binary_round, BinarySingleNaN.binary_round, shl_align_fexp.
  destruct (shl_align _ _ _) as [mz ez]. apply round_aux_equiv.
Qed.
Lemma normalize_equiv m e z :
  SpecFloat.binary_normalize 24 128 m e z = B2SF (BinarySingleNaN.binary_normalize 24 128 Hprec Hmax mode_NE m e z).
Proof. destruct m; cbn; auto; rewrite B2SF_SF2B; apply round_equiv. Qed.

Definition B := binary_float 24 128.
Lemma mul_equiv (x y : B) : f32_mul (B2SF x) (B2SF y) = B2SF (Bmult mode_NE x y).
Proof.
  unfold f32_mul, prec32, emax32.
  destruct x, y; auto. cbn. rewrite B2SF_SF2B. apply round_aux_equiv.
Qed.
Lemma div_equiv (x y : B) : f32_div (B2SF x) (B2SF y) = B2SF (Bdiv mode_NE x y).
Proof.
  unfold f32_div, prec32, emax32.
  destruct x, y; auto. cbn. rewrite B2SF_SF2B.
  destruct (SFdiv_core_binary _ _ _ _ _ _) as [[mz ez] lz]. apply round_aux_equiv.
Qed.
Lemma add_equiv (x y : B) : f32_add (B2SF x) (B2SF y) = B2SF (Bplus mode_NE x y).
Proof.
  unfold f32_add, prec32, emax32.
  destruct x as [sx|sx| |sx mx ex Hx], y as [sy|sy| |sy my ey Hy]; auto; try (cbn; destruct (Bool.eqb sx sy); reflexivity).
  cbn. apply normalize_equiv.
Qed.

(** *** Finite, valid, non-negative values *)
Definition val (x : f32) : R := f32_value x.
Definition half : R := / 2 * bpow radix2 (-24 + 1).
Definition tiny : R := / 2 * bpow radix2 (-149).
Notation rnd := (round radix2 (FLT_exp (-149) 24) (Znearest (fun n => negb (Z.even n)))).

Lemma half_val : half = / 16777216. Proof. unfold half. cbn. lra. Qed.

Lemma B_val (x : B) : f32_value (B2SF x) = B2R x.
Proof. rewrite value_SF2R. apply SF2R_B2SF. Qed.

Lemma B_fin (x : B) : is_fin (B2SF x) = is_finite x.
Proof. destruct x; auto. Qed.

(** results that stayed finite are correctly rounded *)
Lemma mul_round (x y : B) : is_fin (f32_mul (B2SF x) (B2SF y)) = true ->
  f32_value (f32_mul (B2SF x) (B2SF y)) = rnd (B2R x * B2R y).
Proof.
  rewrite mul_equiv, B_val, B_fin. intros H. pose proof (Bmult_correct 24 128 Hprec Hmax mode_NE x y) as C.
  destruct (Rlt_bool _ _); [apply C|].
  exfalso. rewrite <- B_fin, C in H. cbn in H. discriminate.
Qed.
Lemma div_round (x y : B) : B2R y <> 0 -> is_fin (f32_div (B2SF x) (B2SF y)) = true ->
  f32_value (f32_div (B2SF x) (B2SF y)) = rnd (B2R x / B2R y).
Proof.
  intros Hy. rewrite div_equiv, B_val, B_fin. intros H. pose proof (Bdiv_correct 24 128 Hprec Hmax mode_NE x y Hy) as C.
  destruct (Rlt_bool _ _); [apply C|].
  exfalso. rewrite <- B_fin, C in H. cbn in H. discriminate.
Qed.
Lemma add_round (x y : B) : is_fin (f32_add (B2SF x) (B2SF y)) = true ->
  f32_value (f32_add (B2SF x) (B2SF y)) = rnd (B2R x + B2R y).
Proof.
  rewrite add_equiv, B_val, B_fin. intros H.
  assert (Fx : is_finite x = true) by (destruct x as [| | |], y as [| | |]; auto; try discriminate; cbn in H; destruct (Bool.eqb _ _); discriminate).
  assert (Fy : is_finite y = true) by (destruct x as [| | |], y as [| | |]; auto; try discriminate).
  pose proof (Bplus_correct 24 128 Hprec Hmax mode_NE x y Fx Fy) as C.
  destruct (Rlt_bool _ _); [apply C|].
  exfalso. rewrite <- B_fin, (proj1 C) in H. cbn in H. discriminate.
Qed.

(** *** multiples of the smallest f32 *)
Definition grid (r : R) : Prop := exists m : Z, r = F2R (Float radix2 m (-149)).
Lemma grid_B (x : B) : grid (B2R x).
Proof.
  destruct x as [s|s| |s m e Hb]; cbn [B2R]; try (exists 0%Z; now rewrite F2R_0).
  assert (He : (-149 <= e)%Z).
  { unfold SpecFloat.bounded, SpecFloat.canonical_mantissa in Hb. apply andb_prop in Hb. destruct Hb as [Hb _].
    apply Zeq_bool_eq in Hb. unfold SpecFloat.fexp, SpecFloat.emin in Hb. lia. }
  exists (SpecFloat.cond_Zopp s (Zpos m) * 2 ^ (e - -149))%Z. apply (F2R_change_exp radix2 (-149)); auto.
Qed.
Lemma grid_mul r n : grid r -> grid (IZR n * r).
Proof. intros [m ->]. exists (n * m)%Z. unfold F2R; cbn [Fnum Fexp]. rewrite mult_IZR. ring. Qed.
Lemma grid_plus a b : grid a -> grid b -> grid (a + b).
Proof. intros [m ->] [n ->]. exists (m + n)%Z. unfold F2R; cbn [Fnum Fexp]. rewrite plus_IZR. ring. Qed.
Lemma grid_round r : grid r -> exists eps, Rabs eps <= half /\ rnd r = r * (1 + eps).
Proof. intros [m ->]. apply (relative_error_N_FLT_F2R_emin_ex radix2 (-149) 24 Hprec). Qed.
Lemma any_round r : exists eps eta, Rabs eps <= half /\ Rabs eta <= tiny /\ rnd r = r * (1 + eps) + eta.
Proof.
  destruct (error_N_FLT radix2 (-149) 24 eq_refl (fun n => negb (Z.even n)) r) as (eps & eta & H1 & H2 & _ & H3).
  exists eps, eta. auto.
Qed.

Lemma to_B x : valid_binary 24 128 x = true -> exists b : B, B2SF b = x.
Proof. intros H. exists (SF2B x H). apply B2SF_SF2B. Qed.

Lemma of_N_exact n : (n < 16777216)%N -> exists b : B, B2SF b = f32_of_N n /\ B2R b = IZR (Z.of_N n).
Proof.
  intros Hn. unfold f32_of_N, f32_of_Z, prec32, emax32. rewrite normalize_equiv.
  eexists. split; [reflexivity|].
  pose proof (binary_normalize_correct 24 128 Hprec Hmax mode_NE (Z.of_N n) 0 false) as C. cbn zeta in C.
  assert (E : F2R (Float radix2 (Z.of_N n) 0) = IZR (Z.of_N n)) by (unfold F2R; cbn; lra). rewrite E in C.
  assert (R : round radix2 (SpecFloat.fexp 24 128) (round_mode mode_NE) (IZR (Z.of_N n)) = IZR (Z.of_N n)).
  { apply round_generic; [apply valid_rnd_round_mode|].
    change (SpecFloat.fexp 24 128) with (FLT_exp (-149) 24). apply generic_format_FLT.
    exists (Float radix2 (Z.of_N n) 0); cbn; auto; try lia. }
  rewrite R in C. rewrite Rlt_bool_true in C; [apply C|].
  rewrite Rabs_pos_eq by (apply IZR_le; lia). apply Rlt_trans with (IZR 16777216); [apply IZR_lt; lia|].
  change 16777216%Z with (Zpower radix2 24). rewrite IZR_Zpower by lia. apply bpow_lt. lia.
Qed.

Lemma half_pos : 0 < half. Proof. rewrite half_val. lra. Qed.
Lemma tiny_pos : 0 < tiny. Proof. unfold tiny. apply Rmult_lt_0_compat; [lra|apply bpow_gt_0]. Qed.

Lemma proper_B x : proper x -> exists b : B, B2SF b = x /\ 0 <= B2R b.
Proof.
  intros H. destruct x as [[]|[]| |[] m e]; cbn in H; try contradiction.
  - exists (B754_zero false). split; auto. cbn. lra.
  - exists (B754_finite false m e H). split; auto. cbn. apply F2R_ge_0. cbn. lia.
Qed.

Lemma rnd_nonneg r : 0 <= r -> 0 <= rnd r.
Proof. intros H. rewrite <- (round_0 radix2 (FLT_exp (-149) 24) (Znearest (fun n => negb (Z.even n)))). apply round_le; auto; apply FLT_exp_valid || apply valid_rnd_N; exact Hprec. Qed.

Lemma add_fin_l x y : is_fin (f32_add x y) = true -> is_fin x = true.
Proof. destruct (is_fin x) eqn:E; auto. intros H. rewrite (nonfin_add _ _ E) in H. auto. Qed.
Lemma add_fin_r x y : is_fin (f32_add x y) = true -> is_fin y = true.
Proof. destruct (is_fin y) eqn:E; auto. intros H. rewrite (nonfin_add_r _ _ E) in H. auto. Qed.
Lemma div_fin_l x y : is_fin (f32_div x y) = true -> is_fin x = true.
Proof. destruct (is_fin x) eqn:E; auto. intros H. rewrite (nonfin_div _ _ E) in H. auto. Qed.

(** one term of the sum *)
Lemma term_error n pw sc : (n < 16777216)%N -> proper pw -> proper sc -> f32_value sc <> 0 ->
  is_fin (f32_div (f32_mul (f32_of_N n) pw) sc) = true ->
  exists b : B, B2SF b = f32_div (f32_mul (f32_of_N n) pw) sc /\ 0 <= B2R b /\
    Rabs (B2R b - IZR (Z.of_N n) * f32_value pw / f32_value sc) <=
      (IZR (Z.of_N n) * f32_value pw / f32_value sc) * ((1 + half) ^ 2 - 1) + tiny.
Proof.
  intros Hn Hp Hs Hz Hf.
  destruct (of_N_exact n Hn) as (bn & En & Vn). destruct (proper_B pw Hp) as (bp & Ep & Pp). destruct (proper_B sc Hs) as (bs & Es & Ps).
  rewrite <- En, <- Ep, <- Es in *. rewrite B_val in Hz. rewrite !B_val.
  pose proof (div_fin_l _ _ Hf) as Hm. rewrite mul_equiv in *.
  assert (Em : B2R (Bmult mode_NE bn bp) = rnd (B2R bn * B2R bp)).
  { rewrite <- B_val, <- mul_equiv. apply mul_round. rewrite mul_equiv. auto. }
  set (bm := Bmult mode_NE bn bp) in *. exists (Bdiv mode_NE bm bs). rewrite div_equiv. split; auto.
  assert (Ed : B2R (Bdiv mode_NE bm bs) = rnd (B2R bm / B2R bs)).
  { rewrite <- B_val, <- div_equiv. apply div_round; auto. }
  rewrite Ed, Em, Vn. set (N := IZR (Z.of_N n)) in *. assert (HN : 0 <= N) by (apply IZR_le; lia).
  set (p := B2R bp) in *. set (s := B2R bs) in *. assert (Hs0 : 0 < s) by lra.
  destruct (grid_round (N * p)) as (e1 & B1 & R1). { apply grid_mul, grid_B. }
  destruct (any_round (rnd (N * p) / s)) as (e2 & eta & B2 & B3 & R2).
  split.
  - apply rnd_nonneg. apply Rmult_le_pos; [apply rnd_nonneg; apply Rmult_le_pos; auto|]. left. apply Rinv_0_lt_compat; auto.
  - rewrite R2, R1. set (t := N * p / s). replace (N * p * (1 + e1) / s) with (t * (1 + e1)) by (unfold t; field; lra).
    assert (Ht : 0 <= t). { unfold t. apply Rmult_le_pos; [apply Rmult_le_pos; auto|]. left. apply Rinv_0_lt_compat; auto. }
    replace (t * (1 + e1) * (1 + e2) + eta - t) with (t * (e1 + e2 + e1 * e2) + eta) by ring.
    eapply Rle_trans; [apply Rabs_triang|]. apply Rplus_le_compat; auto.
    rewrite Rabs_mult, (Rabs_pos_eq t) by auto. apply Rmult_le_compat_l; auto.
    eapply Rle_trans; [apply Rabs_triang|]. eapply Rle_trans; [apply Rplus_le_compat_r, Rabs_triang|].
    rewrite (Rabs_mult e1 e2). pose proof (Rabs_pos e1). pose proof (Rabs_pos e2). pose proof half_pos.
    assert (Rabs e1 * Rabs e2 <= half * half) by (apply Rmult_le_compat; auto). cbn. lra.
Qed.

Lemma add_zero x : is_fin x = true -> f32_value (f32_add x (S754_zero false)) = f32_value x /\ is_fin (f32_add x (S754_zero false)) = true.
Proof. destruct x as [[]| | |]; cbn; auto; discriminate. Qed.

Definition acc (c : nat) : R := (1 + half) ^ (c + 2) - 1.
Lemma acc_nonneg c : 0 <= acc c.
Proof. unfold acc. pose proof (pow_R1_Rle (1 + half) (c + 2)). pose proof half_pos. assert (1 <= 1 + half) by lra. specialize (H H1). lra. Qed.
Lemma acc_step c : (1 + half) * acc c + half = acc (Datatypes.S c).
Proof. unfold acc. change (Datatypes.S c + 2)%nat with (Datatypes.S (c + 2)). cbn [Rpow_def.pow]. ring. Qed.
Lemma acc_mono c c' : (c <= c')%nat -> acc c <= acc c'.
Proof.
  intros H. unfold acc. pose proof half_pos. assert ((1 + half) ^ (c + 2) <= (1 + half) ^ (c' + 2)); [|lra].
  apply Rle_pow; [lra|lia].
Qed.

(** one addition *)
Lemma add_error (s t : B) e tau c : 0 <= e -> 0 <= tau ->
  (2 * INR c + 1) * half <= 1 ->
  is_fin (f32_add (B2SF s) (B2SF t)) = true ->
  Rabs (B2R s - e) <= e * acc c + INR c * (2 * tiny) ->
  Rabs (B2R t - tau) <= tau * ((1 + half) ^ 2 - 1) + tiny ->
  exists b : B, B2SF b = f32_add (B2SF s) (B2SF t) /\
    Rabs (B2R b - (e + tau)) <= (e + tau) * acc (Datatypes.S c) + INR (Datatypes.S c) * (2 * tiny).
Proof.
  intros He Ht Hc Hf Hs Htt. exists (Bplus mode_NE s t). rewrite add_equiv. split; auto.
  assert (Ea : B2R (Bplus mode_NE s t) = rnd (B2R s + B2R t)).
  { rewrite <- B_val, <- add_equiv. apply add_round; auto. }
  rewrite Ea. destruct (grid_round (B2R s + B2R t)) as (e3 & B3 & R3). { apply grid_plus; apply grid_B. }
  rewrite R3. set (x := B2R s) in *. set (y := B2R t) in *.
  replace ((x + y) * (1 + e3) - (e + tau)) with (((x - e) + (y - tau)) * (1 + e3) + (e + tau) * e3) by ring.
  pose proof half_pos as HP. pose proof tiny_pos as TP. rewrite S_INR.
  assert (A0 : (1 + half) ^ 2 - 1 <= acc c) by (change ((1 + half) ^ 2 - 1) with (acc 0); apply acc_mono; lia).
  pose proof (acc_nonneg c) as AN. pose proof (acc_step c) as AS.
  assert (Q : Rabs (x - e + (y - tau)) <= (e + tau) * acc c + INR c * (2 * tiny) + tiny).
  { eapply Rle_trans; [apply Rabs_triang|]. assert (tau * ((1 + half) ^ 2 - 1) <= tau * acc c) by (apply Rmult_le_compat_l; auto). lra. }
  assert (L : Rabs (1 + e3) <= 1 + half). { eapply Rle_trans; [apply Rabs_triang|]. rewrite Rabs_R1. lra. }
  eapply Rle_trans; [apply Rabs_triang|]. rewrite !Rabs_mult, (Rabs_pos_eq (e + tau)) by lra.
  assert (Rabs (x - e + (y - tau)) * Rabs (1 + e3) <= ((e + tau) * acc c + INR c * (2 * tiny) + tiny) * (1 + half)).
  { apply Rmult_le_compat; auto; apply Rabs_pos. }
  assert ((e + tau) * Rabs e3 <= (e + tau) * half) by (apply Rmult_le_compat_l; lra).
  rewrite <- AS.
  assert (tiny * ((2 * INR c + 1) * half) <= tiny * 1) by (apply Rmult_le_compat_l; lra).
  lra.
Qed.

(** the sum of the histogram, in real numbers *)
Fixpoint hist_cost (pow : f32 -> f32) (sc : f32) (pref : N) (h : list N) : R :=
  match h with
  | [] => 0
  | n :: t => IZR (Z.of_N n) * f32_value (pow (f32_of_N pref)) / f32_value sc + hist_cost pow sc (pref + 1)%N t
  end.

Lemma proper_value x : proper x -> 0 <= f32_value x.
Proof. intros H. destruct (proper_B x H) as (b & <- & P). rewrite B_val. auto. Qed.

Lemma sum_nonfin pow sc : forall h pref sum, is_fin (minor_sum pow sc pref h sum) = true -> is_fin sum = true.
Proof. intros h pref sum H. destruct (is_fin sum) eqn:E; auto. rewrite (nonfin_sum pow sc h pref sum E) in H. discriminate. Qed.

Lemma zero_term_value pw sc : proper pw -> proper sc -> f32_value sc <> 0 ->
  f32_div (f32_mul (f32_of_N 0) pw) sc = S754_zero false.
Proof.
  intros Hp Hs Hz. destruct sc as [[]|[]| |[] sm se]; cbn in Hs; try contradiction.
  destruct pw as [[]|[]| |[] m e]; cbn in Hp; try contradiction; reflexivity.
Qed.

Lemma sum_error pow sc : proper sc -> f32_value sc <> 0 ->
  forall h pref (s : B) e c,
  (forall x, (pref <= x < pref + N.of_nat (length h))%N -> proper (pow (f32_of_N x))) ->
  (N.of_nat c + hsum h <= 4194304)%N -> 0 <= e ->
  is_fin (minor_sum pow sc pref h (B2SF s)) = true ->
  Rabs (B2R s - e) <= e * acc c + INR c * (2 * tiny) ->
  let c' := (c + N.to_nat (hsum h))%nat in
  Rabs (f32_value (minor_sum pow sc pref h (B2SF s)) - (e + hist_cost pow sc pref h)) <=
    (e + hist_cost pow sc pref h) * acc c' + INR c' * (2 * tiny).
Proof.
  intros Psc Hz. assert (Vsc : 0 < f32_value sc) by (pose proof (proper_value sc Psc); lra).
  assert (VI : 0 <= / f32_value sc) by (left; apply Rinv_0_lt_compat; auto).
  induction h as [|n h IH]; intros pref s e c Hp Hc He Hf Hs; cbn [minor_sum hist_cost hsum fold_right] in *.
  - cbn zeta. rewrite Nat.add_0_r, Rplus_0_r, B_val. auto.
  - fold (hsum h) in *. cbn [length] in Hp.
    assert (Pp : proper (pow (f32_of_N pref))) by (apply Hp; lia).
    assert (Hp' : forall x, (pref + 1 <= x < pref + 1 + N.of_nat (length h))%N -> proper (pow (f32_of_N x))) by (intros x Hx; apply Hp; lia).
    pose proof (sum_nonfin _ _ _ _ _ Hf) as Hf1.
    destruct (N.eq_dec n 0) as [-> | Hn0].
    + rewrite zero_term_value in * by auto. destruct (add_zero (B2SF s)) as [Hv Hfz]; [eapply add_fin_l; eauto|].
      assert (exists b : B, B2SF b = f32_add (B2SF s) (S754_zero false) /\ B2R b = B2R s) as (b & Eb & Vb).
      { exists (Bplus mode_NE s (B754_zero false)). rewrite <- (add_equiv s (B754_zero false)). split; auto.
        rewrite <- (B_val (Bplus _ _ _)), <- add_equiv, <- (B_val s). exact Hv. }
      rewrite <- Eb in *. rewrite N.add_0_l in *. cbn [Z.of_N].
      replace (e + (0 * f32_value (pow (f32_of_N pref)) / f32_value sc + hist_cost pow sc (pref + 1) h)) with (e + hist_cost pow sc (pref + 1) h) by (unfold Rdiv; ring).
      apply IH; auto. rewrite Vb. auto.
    + assert (Hft : is_fin (f32_div (f32_mul (f32_of_N n) (pow (f32_of_N pref))) sc) = true) by (eapply add_fin_r; eauto).
      destruct (term_error n (pow (f32_of_N pref)) sc) as (t & Et & Pt & Bt); auto; [lia|].
      rewrite <- Et in *.
      set (tau := IZR (Z.of_N n) * f32_value (pow (f32_of_N pref)) / f32_value sc) in *.
      assert (Htau : 0 <= tau). { unfold tau. apply Rmult_le_pos; auto. apply Rmult_le_pos; [apply IZR_le; lia|apply proper_value; auto]. }
      destruct (add_error s t e tau c) as (b & Eb & Bb); auto.
      { assert (INR c <= 4194304). { rewrite INR_IZR_INZ. apply IZR_le. lia. } rewrite half_val. lra. }
      rewrite <- Eb in *. replace (e + (tau + hist_cost pow sc (pref + 1) h)) with (e + tau + hist_cost pow sc (pref + 1) h) by ring.
      cbn zeta. replace (c + N.to_nat (n + hsum h))%nat with ((c + N.to_nat n) + N.to_nat (hsum h))%nat by lia.
      apply IH; auto; try lia; [lra|].
      eapply Rle_trans; [exact Bb|]. assert (Hcc : (Datatypes.S c <= c + N.to_nat n)%nat) by lia.
      apply Rplus_le_compat.
      * apply Rmult_le_compat_l; [lra|]. apply acc_mono; auto.
      * apply Rmult_le_compat_r; [pose proof tiny_pos; lra|]. apply le_INR; auto.
Qed.

Lemma acc_linear c : (INR c + 2) * half <= / 2 -> acc c <= 2 * (INR c + 2) * half.
Proof.
  unfold acc. intros H. assert (G : forall k, INR k * half <= / 2 -> (1 + half) ^ k <= 1 + 2 * INR k * half).
  { pose proof half_pos as P. induction k as [|k IH]; [cbn; lra|]. rewrite S_INR. intros Hk. cbn [Rpow_def.pow].
    assert (I : (1 + half) ^ k <= 1 + 2 * INR k * half) by (apply IH; lra).
    assert ((1 + half) * (1 + half) ^ k <= (1 + half) * (1 + 2 * INR k * half)) by (apply Rmult_le_compat_l; lra).
    assert (half * (INR k * half) <= half * / 2) by (apply Rmult_le_compat_l; lra). lra. }
  specialize (G (c + 2)%nat). rewrite plus_INR in G. cbn [INR] in G. replace (1 + 1) with 2 in G by ring. specialize (G H). lra.
Qed.

(** *** From the histogram to the seats *)
Lemma hist_zeros pow sc k : forall pref, hist_cost pow sc pref (repeat 0%N k) = 0.
Proof. induction k as [|k IH]; intros; cbn [repeat hist_cost]; auto. rewrite IH. cbn [Z.of_N]. unfold Rdiv. ring. Qed.
Lemma hist_upd pow sc : forall h pref i, (i < length h)%nat ->
  hist_cost pow sc pref (upd h i (at_ h i + 1)%N) = hist_cost pow sc pref h + f32_value (pow (f32_of_N (pref + N.of_nat i))) / f32_value sc.
Proof.
  induction h as [|x h IH]; intros pref i Hi; cbn [length] in Hi; [lia|]. destruct i as [|i].
  - cbn [upd hist_cost]. change (at_ (x :: h) 0) with x. rewrite N2Z.inj_add, plus_IZR. rewrite N.add_0_r.
    cbn [Z.of_N]. unfold Rdiv. ring.
  - change (upd (x :: h) (Datatypes.S i) (at_ (x :: h) (Datatypes.S i) + 1)%N) with (x :: upd h i (at_ h i + 1)%N).
    cbn [hist_cost]. rewrite IH by lia. replace (pref + 1 + N.of_nat i)%N with (pref + N.of_nat (Datatypes.S i))%N by lia. ring.
Qed.
Lemma hist_bump pow sc l : forall h, (forall x, In x l -> (N.to_nat x < length h)%nat) ->
  hist_cost pow sc 0 (bump l h) = hist_cost pow sc 0 h + fold_right Rplus 0 (map (fun x => f32_value (pow (f32_of_N x))) l) / f32_value sc.
Proof.
  induction l as [|x l IH]; intros h H; cbn [bump map fold_right]; [unfold Rdiv; ring|].
  rewrite IH. 2:{ intros y Hy. rewrite upd_length. apply H. right; auto. }
  rewrite hist_upd by (apply H; left; auto). rewrite N.add_0_l, N2Nat.id. unfold Rdiv. ring.
Qed.
Lemma fold_app l1 : forall l2, fold_right Rplus 0 (l1 ++ l2) = fold_right Rplus 0 l1 + fold_right Rplus 0 l2.
Proof. induction l1; intros; cbn; [ring|]. rewrite IHl1. ring. Qed.
Lemma prefs_cost pow d : forall rows p,
  fold_right Rplus 0 (map (fun x => f32_value (pow (f32_of_N x))) (all_prefs d p rows)) = rows_cost pow d p rows.
Proof.
  induction rows as [|r rows IH]; intros p; cbn [all_prefs rows_cost map fold_right]; auto.
  rewrite map_app, fold_app, IH. unfold row_prefs. rewrite map_map. reflexivity.
Qed.

Lemma scaling_value pow d : f32_value (scoring_scaling pow d) = if (i_max_pref d =? 0)%N then 1 else f32_value (pow (f32_of_N (i_max_pref d))).
Proof.
  unfold scoring_scaling. destruct (i_max_pref d =? 0)%N; auto.
  destruct (of_N_exact 1 eq_refl) as (b & Eb & Vb). change (f32_of_Z 1) with (f32_of_N 1). rewrite <- Eb, B_val, Vb. auto.
Qed.

Lemma score_cost pr pow g d S A sc :
  fits d -> wf_input d -> (i_max_pref d < u32_max)%N -> valid_solution d S A ->
  (N.of_nat (n_choosers d) * N.of_nat (n_slots d) <= 4194304)%N -> tame pow d ->
  evaluate pr pow g d (SolComplete S A) = Ok sc ->
  Rabs (f32_value (sc_minor sc) - relative_cost pow d A) <= rounding d (relative_cost pow d A).
Proof.
  intros HF HW HM V HN HT HE.
  destruct (valid_finite pr pow g d S A HF HW HM V) as (sc' & HE' & Hfin & _); auto; [lia|].
  rewrite HE in HE'. injection HE' as <-.
  destruct V as [VS VR].
  destruct (tame_parts pow d HT) as (sm & se & Esc & Psc & Hse & HX).
  pose proof (vs_length _ _ VS) as HL. pose proof (vs_range _ _ VS) as HS.
  destruct (respects_rows d S A HL VR) as [HA HR].
  cbn [evaluate] in HE. unfold evaluate_minor in HE.
  rewrite (sol_is_feasible_complete d S A HF HW HL HS VR) in HE. cbn [bind negb] in HE.
  rewrite (pref_histogram_ok d A HW HA HR HM pr) in HE. cbn [bind] in HE.
  set (h0 := repeat 0%N (N.to_nat (i_max_pref d + 1))) in *.
  set (h := bump (all_prefs d 0 A) h0) in *.
  assert (Hl0 : length h0 = N.to_nat (i_max_pref d + 1)) by apply repeat_length.
  assert (Hin : forall x, In x (all_prefs d 0 A) -> (N.to_nat x < length h0)%nat).
  { intros x Hx. apply all_prefs_le in Hx; auto. rewrite Hl0. lia. }
  assert (Hh : hsum h = (N.of_nat (n_choosers d) * N.of_nat (n_slots d))%N).
  { unfold h. rewrite hsum_bump by auto.
    unfold h0 at 1. rewrite hsum_zeros, (all_prefs_length d (n_slots d)), HA; [lia|].
    intros row Hi. apply In_nth_error in Hi. destruct Hi as [p Hp]. apply (HR p row Hp). }
  assert (Em : sc_minor sc = minor_sum pow (scoring_scaling pow d) 0 h f32_zero /\ is_fin (sc_minor sc) = true).
  { unfold score_finite in Hfin. apply andb_prop in Hfin. destruct Hfin as [Hfm _]. split; auto.
    revert HE. destruct (if g then _ else _) as [mj| |]; cbn [bind]; try discriminate.
    destruct (_ && _); intros HE; apply (f_equal (fun o => match o with Ok x => sc_minor x | _ => f32_zero end)) in HE; cbn in HE; auto.
    rewrite <- HE in Hfm. discriminate Hfm. }
  destruct Em as [Em Hfm]. rewrite Em in *.
  assert (Vz : f32_value (scoring_scaling pow d) <> 0).
  { rewrite Esc. cbn [f32_value]. assert (0 < 1 * IZR (Z.pos sm) * powerRZ 2 se); [|lra].
    apply Rmult_lt_0_compat; [rewrite Rmult_1_l; apply IZR_lt; lia|apply powerRZ_lt; lra]. }
  assert (EC : hist_cost pow (scoring_scaling pow d) 0 h = relative_cost pow d A).
  { unfold h. rewrite hist_bump by auto. unfold h0. rewrite hist_zeros, prefs_cost, scaling_value. unfold relative_cost. ring. }
  pose proof (sum_error pow (scoring_scaling pow d) Psc Vz h 0 (B754_zero false) 0 0) as G. cbn zeta in G.
  change (B2SF (B754_zero false : B)) with f32_zero in G. rewrite EC in G. rewrite Nat.add_0_l, !Rplus_0_l in G.
  assert (Hs : INR (N.to_nat (hsum h)) = seats d).
  { rewrite Hh. unfold seats. fold (n_choosers d). fold (n_slots d). rewrite <- mult_INR. f_equal. lia. }
  rewrite Hs in G.
  assert (Hseats : 0 <= seats d <= 4194304).
  { rewrite <- Hs, INR_IZR_INZ. split; apply IZR_le; lia. }
  assert (HC : 0 <= relative_cost pow d A).
  { rewrite <- EC. assert (VI : 0 <= / f32_value (scoring_scaling pow d)) by (left; apply Rinv_0_lt_compat; pose proof (proper_value _ Psc); lra).
    assert (Hl : length h = N.to_nat (i_max_pref d + 1)) by (unfold h; rewrite bump_length; auto).
    assert (P : forall x, (x < 0 + N.of_nat (length h))%N -> proper (pow (f32_of_N x))) by (intros x Hx; apply HX; lia).
    revert P. generalize 0%N as pref. clear - VI. induction h as [|n h IH]; intros pref P; cbn [hist_cost]; [lra|]. cbn [length] in P.
    apply Rplus_le_le_0_compat; [|apply IH; intros x Hx; apply P; lia]. apply Rmult_le_pos; auto. apply Rmult_le_pos; [apply IZR_le; lia|]. apply proper_value, P. lia. }
  eapply Rle_trans; [apply G|].
  - intros x Hx. apply HX. unfold h in Hx. rewrite bump_length, Hl0 in Hx. lia.
  - rewrite Hh. lia.
  - lra.
  - exact Hfm.
  - cbn [B2R]. rewrite Rminus_0_r, Rabs_R0. rewrite Rmult_0_l, Rplus_0_l. cbn. lra.
  - unfold rounding. apply Rplus_le_compat.
    + rewrite Rmult_assoc. apply Rmult_le_compat_l; auto. pose proof (acc_linear (N.to_nat (hsum h))) as L. rewrite Hs, half_val in L.
      eapply Rle_trans; [apply L; lra|]. change (powerRZ 2 (-23)) with (/ (2 ^ 23)). lra.
    + apply Rmult_le_compat_l; [lra|]. unfold tiny. rewrite bpow_powerRZ. change (IZR radix2) with 2. lra.
Qed.

(** *** The order of the scores *)
Lemma sum_B pow sc : proper sc -> forall h pref (s : B),
  (forall x, (pref <= x < pref + N.of_nat (length h))%N -> proper (pow (f32_of_N x))) ->
  (hsum h < 16777216)%N -> exists b : B, B2SF b = minor_sum pow sc pref h (B2SF s).
Proof.
  intros Psc. induction h as [|n h IH]; intros pref s Hp Hh; cbn [minor_sum]; eauto.
  cbn [hsum fold_right length] in *. fold (hsum h) in *.
  destruct (of_N_exact n) as (bn & En & _); [lia|]. destruct (proper_B (pow (f32_of_N pref))) as (bp & Ep & _); [apply Hp; lia|].
  destruct (proper_B sc Psc) as (bs & Es & _).
  assert (E : f32_add (B2SF s) (f32_div (f32_mul (f32_of_N n) (pow (f32_of_N pref))) sc) = B2SF (Bplus mode_NE s (Bdiv mode_NE (Bmult mode_NE bn bp) bs))).
  { rewrite <- add_equiv, <- div_equiv, <- mul_equiv, En, Ep, Es. auto. }
  rewrite E. apply IH; [|lia]. intros x Hx. apply Hp. lia.
Qed.

Lemma less_cmp (x y : B) : is_finite x = true -> is_finite y = true -> B2R x < B2R y -> total_cmp (B2SF x) (B2SF y) = Lt.
Proof.
  intros Fx Fy H. unfold total_cmp. change (SFcompare (B2SF x) (B2SF y)) with (Bcompare x y).
  rewrite Bcompare_correct, Rcompare_Lt by auto. auto.
Qed.

(** what the score of a valid solution is made of *)
Lemma score_parts pr pow g d S A sc :
  fits d -> wf_input d -> (i_max_pref d < u32_max)%N -> valid_solution d S A ->
  (N.of_nat (n_choosers d) * N.of_nat (n_slots d) <= 4194304)%N -> tame pow d ->
  evaluate pr pow g d (SolComplete S A) = Ok sc ->
  score_finite sc = true /\
  (exists b : B, B2SF b = sc_minor sc) /\
  exists x, worst_pref d A x /\ sc_major sc = if g then S754_nan else f32_of_N x.
Proof.
  intros HF HW HM V HN HT HE.
  destruct (valid_finite pr pow g d S A HF HW HM V) as (sc' & HE' & Hfin & _); auto; [lia|].
  rewrite HE in HE'. injection HE' as <-. split; auto.
  destruct V as [VS VR].
  destruct (tame_parts pow d HT) as (sm & se & Esc & Psc & Hse & HX).
  pose proof (vs_length _ _ VS) as HL. pose proof (vs_range _ _ VS) as HS.
  destruct (respects_rows d S A HL VR) as [HA HR].
  cbn [evaluate] in HE. unfold evaluate_minor in HE.
  rewrite (sol_is_feasible_complete d S A HF HW HL HS VR) in HE. cbn [bind negb] in HE.
  rewrite (pref_histogram_ok d A HW HA HR HM pr) in HE. cbn [bind] in HE.
  set (h0 := repeat 0%N (N.to_nat (i_max_pref d + 1))) in *.
  set (h := bump (all_prefs d 0 A) h0) in *.
  assert (Hl0 : length h0 = N.to_nat (i_max_pref d + 1)) by apply repeat_length.
  assert (Hin : forall x, In x (all_prefs d 0 A) -> (N.to_nat x < length h0)%nat).
  { intros x Hx. apply all_prefs_le in Hx; auto. rewrite Hl0. lia. }
  assert (Hh : hsum h = (N.of_nat (n_choosers d) * N.of_nat (n_slots d))%N).
  { unfold h. rewrite hsum_bump by auto.
    unfold h0 at 1. rewrite hsum_zeros, (all_prefs_length d (n_slots d)), HA; [lia|].
    intros row Hi. apply In_nth_error in Hi. destruct Hi as [p Hp]. apply (HR p row Hp). }
  destruct (evaluate_major_worst d A HW HA HR) as (m & Emj & Wm).
  assert (EM : (if g then Ok S754_nan else let* m := evaluate_major d A in Ok (f32_of_N m)) = Ok (if g then S754_nan else f32_of_N m)).
  { destruct g; auto. rewrite Emj. reflexivity. }
  rewrite EM in HE. cbn [bind] in HE.
  destruct (_ && _) in HE.
  - injection HE as <-. cbn [sc_minor sc_major]. split; [|eauto].
    apply (sum_B pow (scoring_scaling pow d) Psc h 0 (B754_zero false)).
    + intros x Hx. apply HX. unfold h in Hx. rewrite bump_length, Hl0 in Hx. lia.
    + rewrite Hh. lia.
  - injection HE as <-. discriminate Hfin.
Qed.

Lemma total_cmp_refl x : total_cmp x x = Eq.
Proof.
  unfold total_cmp. destruct x as [[]|[]| |[] m e]; cbn; auto; rewrite Z.compare_refl, Pcompare_refl; auto.
Qed.

Lemma cheaper_wins pr pow g d S1 A1 S2 A2 sc1 sc2 x1 x2 :
  fits d -> wf_input d -> (i_max_pref d < u32_max)%N ->
  valid_solution d S1 A1 -> valid_solution d S2 A2 ->
  (N.of_nat (n_choosers d) * N.of_nat (n_slots d) <= 4194304)%N -> tame pow d ->
  evaluate pr pow g d (SolComplete S1 A1) = Ok sc1 -> evaluate pr pow g d (SolComplete S2 A2) = Ok sc2 ->
  worst_pref d A1 x1 -> worst_pref d A2 x2 -> g = true \/ x1 = x2 ->
  relative_cost pow d A1 + rounding d (relative_cost pow d A1) + rounding d (relative_cost pow d A2) < relative_cost pow d A2 ->
  score_cmp sc1 sc2 = Lt.
Proof.
  intros HF HW HM V1 V2 HN HT E1 E2 W1 W2 Hg HC.
  pose proof (score_cost _ _ _ _ _ _ _ HF HW HM V1 HN HT E1) as C1.
  pose proof (score_cost _ _ _ _ _ _ _ HF HW HM V2 HN HT E2) as C2.
  destruct (score_parts _ _ _ _ _ _ _ HF HW HM V1 HN HT E1) as (F1 & (b1 & B1) & y1 & Y1 & M1).
  destruct (score_parts _ _ _ _ _ _ _ HF HW HM V2 HN HT E2) as (F2 & (b2 & B2) & y2 & Y2 & M2).
  rewrite (worst_pref_unique _ _ _ _ Y1 W1) in M1. rewrite (worst_pref_unique _ _ _ _ Y2 W2) in M2.
  unfold score_cmp. rewrite F1, F2, M1, M2.
  assert (L : total_cmp (sc_minor sc1) (sc_minor sc2) = Lt).
  { unfold score_finite in F1, F2. apply andb_prop in F1. apply andb_prop in F2. destruct F1 as [F1 _], F2 as [F2 _].
    rewrite <- B1, <- B2 in *. rewrite B_val in *. rewrite B_fin in *. apply less_cmp; auto.
    apply Rabs_le_inv in C1. apply Rabs_le_inv in C2. lra. }
  destruct Hg as [-> | ->]; [cbn; exact L|].
  destruct g; [cbn; exact L|]. rewrite total_cmp_refl, orb_true_r. exact L.
Qed.

(** *** The default exponent *)
Lemma lt_values x y : valid_binary 24 128 x = true -> valid_binary 24 128 y = true -> is_fin x = true -> is_fin y = true ->
  f32_value x < f32_value y -> SFltb x y = true.
Proof.
  intros Vx Vy Fx Fy H. destruct (to_B x Vx) as [bx <-]. destruct (to_B y Vy) as [by_ <-].
  rewrite B_fin in Fx, Fy. rewrite !B_val in H. unfold SFltb. change (SFcompare (B2SF bx) (B2SF by_)) with (Bcompare bx by_).
  rewrite Bcompare_correct, Rcompare_Lt by auto. auto.
Qed.

Lemma le_values x y : valid_binary 24 128 x = true -> valid_binary 24 128 y = true -> is_fin x = true -> is_fin y = true ->
  f32_value x <= f32_value y -> SFleb x y = true.
Proof.
  intros Vx Vy Fx Fy H. destruct (to_B x Vx) as [bx <-]. destruct (to_B y Vy) as [by_ <-].
  rewrite B_fin in Fx, Fy. rewrite !B_val in H. unfold SFleb. change (SFcompare (B2SF bx) (B2SF by_)) with (Bcompare bx by_).
  rewrite Bcompare_correct by auto. destruct (Rcompare_spec (B2R bx) (B2R by_)); auto. lra.
Qed.

Lemma cubes_tame pow d : (i_max_pref d < u32_max)%N -> cubes pow d -> tame pow d.
Proof.
  intros HM HC. unfold tame. set (L := if (i_max_pref d =? 0)%N then _ else _). cbn zeta.
  assert (F : forall x, (x <= i_max_pref d)%N -> is_fin (pow (f32_of_N x)) = true).
  { intros x Hx. destruct (HC x Hx) as ([-> | (m & e & ->)] & _); auto. }
  assert (V0 : f32_value f32_zero = 0) by reflexivity.
  assert (One : f32_value (f32_of_N 1) = 1) by (destruct (of_N_exact 1 eq_refl) as (b & <- & E); rewrite B_val, E; reflexivity).
  assert (Big : f32_value (f32_of_N (2 ^ 100)) = 2 ^ 100).
  { rewrite P_Finite.f32_2p100. cbn [f32_value]. change (powerRZ 2 77) with (2 ^ 77). change (IZR 8388608) with (2 ^ 23) || replace 8388608 with (2 ^ 23) by (cbn; lra).
    rewrite Rmult_1_l, <- pow_add. reflexivity. }
  assert (HL : valid_binary prec32 emax32 L = true /\ is_fin L = true /\ 0 < f32_value L < 2 ^ 100 /\
    forall x, (x <= i_max_pref d)%N -> f32_value (pow (f32_of_N x)) <= f32_value L).
  { unfold L. destruct (N.eqb_spec (i_max_pref d) 0) as [E|E].
    - split; [reflexivity|]. split; [reflexivity|]. rewrite One. split; [split; [lra|apply Rlt_pow_R1; [lra|lia]]|].
      intros x Hx. destruct (HC x Hx) as (_ & _ & [_ H] & _). assert (x = 0%N) by lia. subst x. replace (2 * IZR (Z.of_N 0) ^ 3) with 0 in H by (cbn; ring). lra.
    - destruct (HC (i_max_pref d) (N.le_refl _)) as (_ & V & [H1 H2] & H3). split; auto. split; [apply F; lia|]. split.
      + set (m := IZR (Z.of_N (i_max_pref d))) in *. assert (1 <= m) by (apply IZR_le; lia).
        assert (m <= 2 ^ 32). { unfold m. rewrite (pow_IZR 2 32). apply IZR_le. change (2 ^ Z.of_nat 32)%Z with 4294967296%Z. unfold u32_max in HM. lia. }
        assert (1 <= m ^ 3) by (apply pow_R1_Rle; auto).
        assert (H5 : m ^ 3 <= 2 ^ 96) by (change 96%nat with (32 * 3)%nat; rewrite pow_mult; apply pow_incr; lra).
        assert (2 * 2 ^ 96 < 2 ^ 100). { change (2 * 2 ^ 96) with (2 ^ 97). apply Rlt_pow; [lra|lia]. }
        split; lra.
      + intros x Hx. apply H3. auto. }
  destruct HL as (V & FL & [P Q] & X).
  split; auto. split; [apply lt_values; auto; rewrite V0; auto|].
  split; [apply lt_values; auto; rewrite Big; auto|].
  intros x Hx. destruct (HC x Hx) as (S & Vx & _ & _). split; auto. split; [|apply le_values; auto].
  destruct S as [S | (m & e & S)]; [left; auto|right]. rewrite S. reflexivity.
Qed.
