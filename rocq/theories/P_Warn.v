(** Without an overflow warning, a worse preference costs more. *)
From Verif Require Import Base M_Data Spec Spec_Pareto M_Warn Spec_Warn.
From Coq Require Import Floats.SpecFloat Reals Lra.
From Flocq Require Import Core Round Relative BinarySingleNaN.
Local Open Scope R_scope.

Local Instance Hprec : Prec_gt_0 53 := eq_refl _.
Local Instance Hmax : Prec_lt_emax 53 1024 := eq_refl _.

Lemma value_SF2R x : f64_value x = SF2R radix2 x.
Proof.
  destruct x as [| | |s m e]; auto. cbn [f64_value SF2R]. unfold F2R; cbn [Fnum Fexp].
  rewrite bpow_powerRZ. change (IZR radix2) with 2. destruct s; cbn [cond_Zopp]; [|rewrite Rmult_1_l; auto].
  rewrite (opp_IZR (Zpos m)). lra.
Qed.
(** *** SpecFloat operations are Flocq's (cf. Flocq's PrimFloat.v) *)
Lemma nearest_equiv s m l : round_nearest_even m l = choice_mode mode_NE s m l.
Proof. destruct l as [|c]; auto. destruct c; auto. cbn. unfold Round.cond_incr. now destruct (Z.even m). Qed.
Lemma round_aux_equiv sx mx ex lx :
  SpecFloat.binary_round_aux 53 1024 sx mx ex lx = BinarySingleNaN.binary_round_aux 53 1024 mode_NE sx mx ex lx.
Proof.
  unfold SpecFloat.binary_round_aux, BinarySingleNaN.binary_round_aux.
  destruct (shr_fexp _ _ _) as [mrs' e']; cbn. now rewrite (nearest_equiv sx).
Qed.
Lemma round_equiv s m e :
  SpecFloat.binary_round 53 1024 s m e = BinarySingleNaN.binary_round 53 1024 mode_NE s m e.
Proof.
  unfold SpecFloat.binary_round, BinarySingleNaN.binary_round, shl_align_fexp.
  destruct (shl_align _ _ _) as [mz ez]. apply round_aux_equiv.
Qed.
Lemma normalize_equiv m e z :
  SpecFloat.binary_normalize 53 1024 m e z = B2SF (BinarySingleNaN.binary_normalize 53 1024 Hprec Hmax mode_NE m e z).
Proof. destruct m; cbn; auto; rewrite B2SF_SF2B; apply round_equiv. Qed.
Definition B := binary_float 53 1024.
Lemma mul_equiv (x y : B) : SFmul prec64 emax64 (B2SF x) (B2SF y) = B2SF (Bmult mode_NE x y).
Proof. unfold prec64, emax64. destruct x, y; auto. cbn. rewrite B2SF_SF2B. apply round_aux_equiv. Qed.
Lemma add_equiv (x y : B) : SFadd prec64 emax64 (B2SF x) (B2SF y) = B2SF (Bplus mode_NE x y).
Proof.
  unfold prec64, emax64.
  destruct x as [sx|sx| |sx mx ex Hx], y as [sy|sy| |sy my ey Hy]; auto; try (cbn; destruct (Bool.eqb sx sy); reflexivity).
  cbn. apply normalize_equiv.
Qed.
Lemma B_val (x : B) : f64_value (B2SF x) = B2R x.
Proof. rewrite value_SF2R. apply SF2R_B2SF. Qed.
Notation rnd := (round radix2 (SpecFloat.fexp 53 1024) (round_mode mode_NE)).

(** *** Integers *)
Lemma int_format z : (Z.abs z <= 2 ^ 53)%Z -> generic_format radix2 (SpecFloat.fexp 53 1024) (IZR z).
Proof.
  intros H. change (SpecFloat.fexp 53 1024) with (FLT_exp (-1074) 53).
  destruct (Z.eq_dec (Z.abs z) (2 ^ 53)) as [E|N].
  - assert (G : generic_format radix2 (FLT_exp (-1074) 53) (IZR (2 ^ 53))).
    { change (IZR (2 ^ 53)) with (IZR (Zpower radix2 53)). rewrite IZR_Zpower by lia. apply generic_format_bpow. unfold FLT_exp. lia. }
    destruct (Z.abs_spec z) as [[_ Ez]|[_ Ez]]; [replace z with (2 ^ 53)%Z by lia; exact G|]. replace z with (- 2 ^ 53)%Z by lia. rewrite opp_IZR. apply generic_format_opp. exact G.
  - apply generic_format_FLT. exists (Float radix2 z 0); cbn; try lia. unfold F2R; cbn; lra.
Qed.
Lemma below_max z : (Z.abs z <= 2 ^ 53)%Z -> Rabs (IZR z) < bpow radix2 1024.
Proof.
  intros H. rewrite <- abs_IZR. apply Rle_lt_trans with (IZR (2 ^ 53)); [apply IZR_le; lia|]. change (IZR (2 ^ 53)) with (IZR (Zpower radix2 53)). rewrite IZR_Zpower by lia. apply bpow_lt. lia.
Qed.
Lemma of_Z_exact z : (Z.abs z <= 2 ^ 53)%Z -> exists b : B, B2SF b = f64_of_Z z /\ B2R b = IZR z /\ is_finite b = true.
Proof.
  intros Hz. unfold f64_of_Z, prec64, emax64. rewrite normalize_equiv. eexists. split; [reflexivity|].
  pose proof (binary_normalize_correct 53 1024 Hprec Hmax mode_NE z 0 false) as C. cbn zeta in C.
  assert (E : F2R (Float radix2 z 0) = IZR z) by (unfold F2R; cbn; lra). rewrite E in C.
  rewrite round_generic in C by (try apply valid_rnd_round_mode; apply int_format; auto).
  rewrite Rlt_bool_true in C by (apply below_max; auto). split; apply C.
Qed.
Lemma succ_exact n : (n < 2 ^ 32)%N -> SFadd prec64 emax64 (f64_of_N n) (f64_of_Z 1) = f64_of_N (n + 1).
Proof.
  intros Hn. destruct (of_Z_exact (Z.of_N n)) as (x & Ex & Vx & Fx); [lia|]. destruct (of_Z_exact 1) as (y & Ey & Vy & Fy); [lia|].
  destruct (of_Z_exact (Z.of_N (n + 1))) as (z & Ez & Vz & Fz); [lia|]. unfold f64_of_N. rewrite <- Ex, <- Ey, <- Ez, add_equiv. f_equal.
  pose proof (Bplus_correct 53 1024 Hprec Hmax mode_NE x y Fx Fy) as C. rewrite Vx, Vy, <- plus_IZR in C.
  replace (Z.of_N n + 1)%Z with (Z.of_N (n + 1)) in C by lia. rewrite round_generic in C by (try apply valid_rnd_round_mode; apply int_format; lia).
  rewrite Rlt_bool_true in C by (apply below_max; lia). destruct C as (C1 & C2 & C3). apply B2R_Bsign_inj; auto; [congruence|]. rewrite C3.
  assert (0 < IZR (Z.of_N (n + 1))) by (apply IZR_lt; lia). rewrite Rcompare_Gt by auto.
  destruct z as [s|s| |s m e Hb]; cbn in Vz |- *; auto; [lra|discriminate|]. destruct s; auto. exfalso. cbn in Vz. assert (F2R (Float radix2 (Z.neg m) e) < 0) by (apply F2R_lt_0; cbn; lia). lra.
Qed.

(** *** Truncation *)
Lemma powerRZ_bpow e : powerRZ 2 e = bpow radix2 e.
Proof. rewrite bpow_powerRZ. reflexivity. Qed.
Lemma trunc_le m e : (0 <= f64_to_i64 (S754_finite false m e))%Z /\ IZR (f64_to_i64 (S754_finite false m e)) <= f64_value (S754_finite false m e) /\
  (f64_value (S754_finite false m e) < 2 ^ 63 -> f64_value (S754_finite false m e) < IZR (f64_to_i64 (S754_finite false m e)) + 1) /\
  (2 ^ 63 <= f64_value (S754_finite false m e) -> f64_to_i64 (S754_finite false m e) = (2 ^ 63 - 1)%Z).
Proof.
  cbn [f64_to_i64 f64_value]. rewrite Rmult_1_l, powerRZ_bpow. set (n := if (0 <=? e)%Z then _ else _).
  assert (Hn : (0 <= n)%Z /\ IZR n <= IZR (Zpos m) * bpow radix2 e < IZR n + 1).
  { unfold n. destruct (Z.leb_spec 0 e) as [He|He].
    - assert (E : IZR (Zpos m * 2 ^ e) = IZR (Zpos m) * bpow radix2 e) by (rewrite mult_IZR; f_equal; rewrite <- IZR_Zpower by auto; reflexivity).
      split; [apply Z.mul_nonneg_nonneg; [lia|apply Z.pow_nonneg; lia]|]. rewrite E. lra.
    - assert (Hp : (0 < 2 ^ (- e))%Z) by (apply Z.pow_pos_nonneg; lia). split; [apply Z.div_pos; lia|].
      pose proof (Z.div_mod (Zpos m) (2 ^ (- e)) ltac:(lia)) as DM. pose proof (Z.mod_pos_bound (Zpos m) (2 ^ (- e)) Hp) as MB.
      assert (EB : bpow radix2 (- e) = IZR (2 ^ (- e))) by (rewrite <- IZR_Zpower by lia; reflexivity).
      assert (P1 : 0 < bpow radix2 (- e)) by apply bpow_gt_0.
      assert (P2 : bpow radix2 e * bpow radix2 (- e) = 1) by (rewrite <- bpow_plus; replace (e + - e)%Z with 0%Z by lia; reflexivity).
      assert (G : forall k, IZR k * IZR (2 ^ (- e)) <= IZR (Zpos m) < (IZR k + 1) * IZR (2 ^ (- e)) -> IZR k <= IZR (Zpos m) * bpow radix2 e < IZR k + 1).
      { intros k [K1 K2]. rewrite <- EB in K1, K2. split; [apply Rmult_le_reg_r with (bpow radix2 (- e))|apply Rmult_lt_reg_r with (bpow radix2 (- e))]; auto; rewrite Rmult_assoc, P2, Rmult_1_r; auto. }
      apply G. rewrite <- plus_IZR, <- !mult_IZR. split; [apply IZR_le|apply IZR_lt]; lia. }
  destruct Hn as (H0 & H1 & H2). change ((2 ^ 63)%R) with (2 ^ 63)%R. assert (E63 : (2 ^ 63)%R = IZR (2 ^ 63)) by (rewrite (pow_IZR 2 63); reflexivity).
  rewrite Z.max_r by lia. split; [lia|]. split; [|split].
  - apply Rle_trans with (IZR n); [apply IZR_le; lia|auto].
  - intros Hlt. rewrite Z.min_l; auto. rewrite E63 in Hlt. assert (IZR n < IZR (2 ^ 63)) by lra. apply lt_IZR in H. lia.
  - intros Hge. rewrite Z.min_r; auto. rewrite E63 in Hge. assert (IZR (2 ^ 63) < IZR (n + 1)) by (rewrite plus_IZR; lra). apply lt_IZR in H. lia.
Qed.
(** The largest double below 2^63 is 2^63 - 1024. *)
Lemma trunc_far m e : SpecFloat.bounded prec64 emax64 m e = true -> f64_value (S754_finite false m e) < 2 ^ 63 -> (f64_to_i64 (S754_finite false m e) < 2 ^ 63 - 1)%Z.
Proof.
  intros HB Hlt. assert (Hm : (Zpos m < 2 ^ 53)%Z).
  { unfold SpecFloat.bounded, SpecFloat.canonical_mantissa in HB. apply andb_prop in HB as [HB _]. apply Zeq_bool_eq in HB. unfold SpecFloat.fexp, SpecFloat.emin, prec64, emax64 in HB.
    rewrite Digits.Zpos_digits2_pos in HB. pose proof (Digits.Zdigits_correct radix2 (Zpos m)) as [_ D].
    assert (Digits.Zdigits radix2 (Zpos m) <= 53)%Z by lia. apply Z.lt_le_trans with (1 := D). apply (Zpower_le radix2). auto. }
  pose proof (trunc_le m e) as (_ & H1 & _). 
  assert (E63 : (2 ^ 63)%R = IZR (2 ^ 63)) by (rewrite (pow_IZR 2 63); reflexivity). rewrite E63 in Hlt.
  destruct (Z.leb_spec 0 e) as [He|He].
  - cbn [f64_to_i64 f64_value] in *. rewrite Rmult_1_l, powerRZ_bpow in *. rewrite <- (IZR_Zpower radix2) in Hlt by auto. rewrite <- mult_IZR in Hlt. apply lt_IZR in Hlt.
    change (Zpower radix2 e) with (2 ^ e)%Z in Hlt. destruct (Z.leb_spec 0 e); [|lia]. apply Z.max_lub_lt; [lia|]. apply Z.min_lt_iff. left.
    destruct (Z.leb_spec e 10).
    + assert (2 ^ e <= 2 ^ 10)%Z by (apply Z.pow_le_mono_r; lia). nia.
    + assert (E : (2 ^ e = 2 ^ (e - 11) * 2 ^ 11)%Z) by (rewrite <- Z.pow_add_r by lia; f_equal; lia). rewrite E in Hlt |- *.
      assert (0 < 2 ^ (e - 11))%Z by (apply Z.pow_pos_nonneg; lia). set (k := (Zpos m * (2 ^ (e - 11)))%Z) in *. replace (Zpos m * (2 ^ (e - 11) * 2 ^ 11))%Z with (k * 2 ^ 11)%Z in * by (unfold k; ring).
      clearbody k. lia.
  - cbn [f64_to_i64]. destruct (Z.leb_spec 0 e); [lia|]. apply Z.max_lub_lt; [lia|]. apply Z.min_lt_iff. left.
    assert (Zpos m / 2 ^ (- e) <= Zpos m)%Z by (apply Z.div_le_upper_bound; [apply Z.pow_pos_nonneg; lia|]; assert (0 < 2 ^ (- e))%Z by (apply Z.pow_pos_nonneg; lia); nia). lia.
Qed.

Lemma pos_sign (q : B) : 0 < B2R q -> Bsign q = false.
Proof.
  destruct q as [s|s| |s m e Hq]; cbn [B2R Bsign]; intros H; try lra. destruct s; auto. exfalso.
  assert (F2R (Float radix2 (cond_Zopp true (Zpos m)) e) < 0) by (apply F2R_lt_0; cbn; lia). lra.
Qed.

(** *** The warning *)
Lemma limit_is : SFsub prec64 emax64 (f64_of_Z (2 ^ 63)) (f64_of_Z 1) = S754_finite false (2 ^ 52) 11.
Proof. vm_compute. reflexivity. Qed.
(** A double of at least 2^63 (or infinity) makes the program warn. *)
Lemma big_warns (pow : f64 -> f64) d b : pow (f64_of_N (i_max_pref d)) = B2SF (b : B) -> (0 < length (i_choosers d))%nat ->
  (b = B754_infinity false \/ is_finite b = true /\ 2 ^ 63 <= B2R b) -> warns pow d = true.
Proof.
  intros E Hk Hb. unfold warns. rewrite E, limit_is. set (k := N.min _ _).
  assert (Hk' : (1 <= k <= u32_max)%N) by (unfold k; split; [apply N.min_glb; [lia|unfold u32_max; lia]|apply N.le_min_r]). clearbody k. unfold u32_max in Hk'.
  destruct (of_Z_exact (Z.of_N k)) as (y & Ey & Vy & Fy); [lia|]. unfold f64_of_N. rewrite <- Ey, mul_equiv.
  assert (Hpos : 1 <= B2R y) by (rewrite Vy; apply IZR_le; lia).
  assert (Hinf : forall q : B, q = B754_infinity false \/ is_finite q = true /\ 2 ^ 63 <= B2R q -> SFleb (S754_finite false (2 ^ 52) 11) (B2SF q) = true).
  { clear. intros q [->|[Fq Hq]]; [reflexivity|].
    assert (HB : SpecFloat.bounded 53 1024 (2 ^ 52) 11 = true) by reflexivity.
    change (S754_finite false (2 ^ 52) 11) with (B2SF (B754_finite false (2 ^ 52) 11 HB : B)).
    change (SFleb (B2SF (B754_finite false (2 ^ 52) 11 HB : B)) (B2SF q)) with (Bleb (B754_finite false (2 ^ 52) 11 HB : B) q).
    rewrite Bleb_correct; auto. apply Rle_bool_true. apply Rle_trans with (2 := Hq). cbn [B2R]. unfold F2R. cbn [Fnum Fexp cond_Zopp].
    change (2 ^ 63) with (IZR 2 ^ 63). rewrite (pow_IZR 2 63). rewrite <- (IZR_Zpower radix2) by lia. rewrite <- mult_IZR. apply IZR_le. vm_compute. discriminate. }
  apply Hinf. clear Hinf. destruct Hb as [->|[Fb Hb]].
  - left. pose proof (pos_sign y ltac:(lra)) as Sy. destruct y as [s|s| |s m e Hy]; cbn [B2R is_finite Bsign] in *; try lra; try discriminate. subst s. reflexivity.
  - pose proof (Bmult_correct 53 1024 Hprec Hmax mode_NE b y) as C.
    assert (Hge : 2 ^ 63 <= B2R b * B2R y) by nra.
    assert (Hr : 2 ^ 63 <= rnd (B2R b * B2R y)).
    { assert (G : rnd (2 ^ 63) = 2 ^ 63).
      { apply round_generic; [apply valid_rnd_round_mode|]. change (2 ^ 63) with (IZR 2 ^ 63). rewrite (pow_IZR 2 63). rewrite (IZR_Zpower radix2) by lia. apply generic_format_bpow. vm_compute. discriminate. }
      rewrite <- G. apply round_le; [apply fexp_correct; reflexivity|apply valid_rnd_round_mode|auto]. }
    destruct (Rlt_bool _ _).
    + destruct C as (C1 & C2 & _). right. rewrite C1, C2, Fb, Fy. auto.
    + left. rewrite (B2SF_inj _ _ (Bmult mode_NE b y) (B754_infinity false)); auto. rewrite C.
      rewrite (pos_sign b), (pos_sign y) by lra. reflexivity.
Qed.

(** *** The gap between two powers *)
Lemma power_gap (n m x : R) : 1 <= n -> n + 1 <= m -> 101 / 100 <= x ->
  1 + 1 / 200 <= Rpower m x - Rpower n x /\ Rpower m x <= (Rpower m x - Rpower n x) * m.
Proof.
  intros Hn Hm Hx.
  assert (Em : Rpower m x = m * Rpower m (x - 1)) by (replace x with (1 + (x - 1)) at 1 by lra; rewrite Rpower_plus, Rpower_1 by lra; reflexivity).
  assert (En : Rpower n x = n * Rpower n (x - 1)) by (replace x with (1 + (x - 1)) at 1 by lra; rewrite Rpower_plus, Rpower_1 by lra; reflexivity).
  assert (Hmono : Rpower n (x - 1) <= Rpower m (x - 1)) by (apply Rle_Rpower_l; lra).
  assert (Hp : 0 < Rpower m (x - 1)) by (unfold Rpower; apply exp_pos).
  assert (Hp' : 0 < Rpower n (x - 1)) by (unfold Rpower; apply exp_pos).
  assert (H2 : 1 + 1 / 200 <= Rpower m (x - 1)).
  { apply Rle_trans with (Rpower 2 (x - 1)); [|apply Rle_Rpower_l; lra]. unfold Rpower. pose proof (exp_ineq1_le ((x - 1) * ln 2)) as HI. pose proof ln_lt_2 as HL. nra. }
  rewrite Em, En. assert (Q1 : n * Rpower n (x - 1) <= n * Rpower m (x - 1)) by (apply Rmult_le_compat_l; lra).
  assert (Q2 : (n + 1) * Rpower m (x - 1) <= m * Rpower m (x - 1)) by (apply Rmult_le_compat_r; lra).
  assert (Q3 : Rpower m (x - 1) <= m * Rpower m (x - 1) - n * Rpower n (x - 1)) by lra. split; [lra|].
  rewrite (Rmult_comm m (Rpower m (x - 1))) at 1. apply Rmult_le_compat_r; lra.
Qed.

(** *** Correctly rounded powers *)
Lemma double_of r : generic_format radix2 (SpecFloat.fexp 53 1024) r -> 0 < r < bpow radix2 1024 ->
  exists m e, SpecFloat.bounded prec64 emax64 m e = true /\ f64_value (S754_finite false m e) = r.
Proof.
  intros HF [H0 H1]. set (m := Ztrunc (scaled_mantissa radix2 (SpecFloat.fexp 53 1024) r)). set (e := cexp radix2 (SpecFloat.fexp 53 1024) r).
  assert (E : F2R (Float radix2 m e) = r) by (symmetry; exact HF).
  pose proof (binary_normalize_correct 53 1024 Hprec Hmax mode_NE m e false) as C. cbn zeta in C. set (b := BinarySingleNaN.binary_normalize 53 1024 Hprec Hmax mode_NE m e false) in *.
  rewrite E in C. rewrite round_generic in C by (try apply valid_rnd_round_mode; auto). rewrite Rlt_bool_true in C by (rewrite Rabs_pos_eq by lra; auto).
  destruct C as (C1 & C2 & _). pose proof (pos_sign b ltac:(rewrite C1; lra)) as Sb. pose proof (B_val b) as Ev. rewrite C1 in Ev.
  destruct b as [s|s| |s m' e' Hb]; cbn [B2R is_finite Bsign B2SF] in *; try discriminate; [lra|]. subst s. exists m', e'. split; auto.
Qed.
Lemma bounded_format m e : SpecFloat.bounded prec64 emax64 m e = true -> generic_format radix2 (SpecFloat.fexp 53 1024) (f64_value (S754_finite false m e)).
Proof.
  intros HB. change (S754_finite false m e) with (B2SF (B754_finite false m e HB : B)). rewrite B_val. apply generic_format_B2R.
Qed.
Lemma rounded_accurate pow x : 1 <= x -> rounded_power pow x -> accurate_power pow x.
Proof.
  intros Hx HR n Hn. destruct (HR n Hn) as [(Hr & m & e & A1 & A2 & A3)|A]; [|right; auto]. left. exists m, e. split; auto. split; auto.
  set (r := Rpower (IZR (Z.of_N n)) x) in *. assert (H1 : 1 <= IZR (Z.of_N n)) by (apply IZR_le; lia).
  assert (Hr1 : 1 <= r).
  { unfold r. replace 1 with (Rpower (IZR (Z.of_N n)) 0) at 1 by (apply Rpower_O; lra). apply Rle_Rpower; lra. }
  set (d := round radix2 (FLT_exp (-1074) 53) Zfloor r).
  assert (RE : Rabs (d - r) < bpow radix2 (-53 + 1) * Rabs r).
  { apply relative_error_FLT; [exact Hprec|apply valid_rnd_DN|]. rewrite Rabs_pos_eq by lra. apply Rle_trans with 1; auto. change 1 with (bpow radix2 0). apply bpow_le. lia. }
  rewrite (Rabs_pos_eq r) in RE by lra. change (-53 + 1)%Z with (-52)%Z in RE.
  assert (HF : generic_format radix2 (FLT_exp (-1074) 53) d) by (apply generic_format_round; [apply FLT_exp_valid; exact Hprec|apply valid_rnd_DN]).
  assert (Hd : d <= r) by (apply round_DN_pt; apply FLT_exp_valid; exact Hprec).
  assert (Hd0 : 0 < d). { pose proof (Rabs_le_inv (d - r) (bpow radix2 (-52) * r) ltac:(lra)) as [Q _]. change (bpow radix2 (-52)) with (/ 4503599627370496) in Q. lra. }
  rewrite powerRZ_bpow in Hr |- *. destruct (double_of d HF) as (m' & e' & D1 & D2); [lra|]. specialize (A3 m' e' D1). rewrite D2 in A3. lra.
Qed.
(** A double of at least 2 below 2^53, less one, is a double. *)
Lemma pred_double m e : SpecFloat.bounded prec64 emax64 m e = true -> 2 <= f64_value (S754_finite false m e) < bpow radix2 53 ->
  exists m' e', SpecFloat.bounded prec64 emax64 m' e' = true /\ f64_value (S754_finite false m' e') = f64_value (S754_finite false m e) - 1.
Proof.
  intros HB HV. pose proof (bounded_format m e HB) as HF. set (v := f64_value (S754_finite false m e)) in *. clearbody v.
  apply double_of; [|split; [lra|]; apply Rlt_trans with (bpow radix2 53); [lra|apply bpow_lt; lia]].
  change (SpecFloat.fexp 53 1024) with (FLT_exp (-1074) 53) in *.
  assert (Hm : (mag radix2 v <= 53)%Z) by (apply mag_le_bpow; [lra|rewrite Rabs_pos_eq; lra]).
  set (c := cexp radix2 (FLT_exp (-1074) 53) v) in *. assert (Hc : (-1074 <= c <= 0)%Z) by (unfold c, cexp, FLT_exp; lia).
  set (M := Ztrunc (scaled_mantissa radix2 (FLT_exp (-1074) 53) v)) in *.
  assert (Ev : v = IZR M * bpow radix2 c) by exact HF.
  assert (Hcm : (c = mag radix2 v - 53 \/ mag radix2 v - 53 < -1074)%Z) by (unfold c, cexp, FLT_exp; lia).
  assert (P2 : bpow radix2 (- c) * bpow radix2 c = 1) by (rewrite <- bpow_plus; replace (- c + c)%Z with 0%Z by lia; reflexivity).
  assert (E1 : v - 1 = F2R (Float radix2 (M - 2 ^ (- c)) c)).
  { unfold F2R; cbn [Fnum Fexp]. rewrite minus_IZR. rewrite <- (IZR_Zpower radix2 (- c)) in P2 by lia. change (Zpower radix2 (- c)) with (2 ^ (- c))%Z in P2. lra. }
  apply generic_format_FLT. exists (Float radix2 (M - 2 ^ (- c)) c); cbn [Fnum Fexp]; auto; [|lia].
  assert (HMv : (Z.abs M < 2 ^ 53)%Z).
  { assert (Hmv : v < bpow radix2 (mag radix2 v)) by (pose proof (bpow_mag_gt radix2 v) as G; rewrite Rabs_pos_eq in G by lra; exact G).
    destruct Hcm as [Hcm|Hcm].
    - assert (Pc : 0 < bpow radix2 c) by apply bpow_gt_0. assert (H0M : 0 <= IZR M) by (apply Rmult_le_reg_r with (bpow radix2 c); lra).
      apply le_IZR in H0M. rewrite Z.abs_eq by auto. apply lt_IZR. change (2 ^ 53)%Z with (Zpower radix2 53). rewrite IZR_Zpower by lia.
      apply Rmult_lt_reg_r with (bpow radix2 c); auto. rewrite <- bpow_plus. replace (53 + c)%Z with (mag radix2 v : Z) by lia. lra.
    - exfalso. assert (Hs : bpow radix2 (mag radix2 v) <= bpow radix2 0) by (apply bpow_le; lia). change (bpow radix2 0) with 1 in Hs. lra. }
  assert (H0M : (2 ^ (- c) <= M)%Z).
  { apply le_IZR. change (2 ^ (- c))%Z with (Zpower radix2 (- c)). rewrite IZR_Zpower by lia. apply Rmult_le_reg_r with (bpow radix2 c); [apply bpow_gt_0|]. rewrite P2, <- Ev. lra. }
  assert (0 < 2 ^ (- c))%Z by (apply Z.pow_pos_nonneg; lia). change (Zpower radix2 53) with (2 ^ 53)%Z. lia.
Qed.
Lemma small_int_double k : (1 <= k <= 2 ^ 53)%Z -> exists m e, SpecFloat.bounded prec64 emax64 m e = true /\ f64_value (S754_finite false m e) = IZR k.
Proof.
  intros Hk. apply double_of; [apply int_format; lia|]. split; [apply IZR_lt; lia|]. pose proof (below_max k ltac:(lia)) as G. rewrite Rabs_pos_eq in G by (apply IZR_le; lia). exact G.
Qed.
(** Nearest doubles [A], [C] of [a] and [c], more than one apart: whole numbers stay apart. *)
Lemma near_step (a c : R) ma ea mc ec :
  SpecFloat.bounded prec64 emax64 ma ea = true -> SpecFloat.bounded prec64 emax64 mc ec = true -> 1 <= a -> a + 1 < c -> c < bpow radix2 50 ->
  (forall m' e', SpecFloat.bounded prec64 emax64 m' e' = true -> Rabs (f64_value (S754_finite false ma ea) - a) <= Rabs (f64_value (S754_finite false m' e') - a)) ->
  (forall m' e', SpecFloat.bounded prec64 emax64 m' e' = true -> Rabs (f64_value (S754_finite false mc ec) - c) <= Rabs (f64_value (S754_finite false m' e') - c)) ->
  forall k : Z, IZR k <= f64_value (S754_finite false ma ea) -> IZR (k + 1) <= f64_value (S754_finite false mc ec).
Proof.
  intros BA BC Ha Hac Hc NA NC k Hk. set (A := f64_value (S754_finite false ma ea)) in *. set (C := f64_value (S754_finite false mc ec)) in *.
  assert (Hb50 : bpow radix2 50 = 1125899906842624) by reflexivity. assert (Hb53 : bpow radix2 53 = 9007199254740992) by reflexivity.
  assert (HC2 : 2 <= C).
  { destruct (small_int_double 2) as (m2 & e2 & D1 & D2); [lia|]. specialize (NC _ _ D1). rewrite D2 in NC. destruct (Rle_lt_dec 2 C) as [|Hlt]; auto. exfalso.
    rewrite (Rabs_left1 (C - c)), (Rabs_left1 (2 - c)) in NC by lra. lra. }
  destruct (Rle_lt_dec (IZR (k + 1)) C) as [|Hlt]; auto. exfalso. rewrite plus_IZR in Hlt.
  assert (Hk1 : (1 <= k)%Z). { assert (1 < IZR k) by lra. apply lt_IZR in H. lia. }
  assert (HA : A <= bpow radix2 51).
  { destruct (small_int_double (2 ^ 50)) as (m2 & e2 & D1 & D2); [lia|]. specialize (NA _ _ D1). rewrite D2 in NA. change (bpow radix2 51) with 2251799813685248. destruct (Rle_lt_dec A 2251799813685248) as [|Hbig]; auto. exfalso.
    change (IZR (2 ^ 50)) with 1125899906842624 in NA. rewrite (Rabs_pos_eq (A - a)), (Rabs_pos_eq (1125899906842624 - a)) in NA by lra. lra. }
  change (bpow radix2 51) with 2251799813685248 in HA.
  assert (Hk2 : (k + 1 <= 2 ^ 53)%Z). { assert (IZR k <= 2251799813685248) by lra. apply le_IZR in H. lia. }
  (* C is the nearest to c although k + 1 is above C: c lies below the midpoint *)
  destruct (small_int_double (k + 1)) as (m1 & e1 & D1 & D2); [lia|]. pose proof (NC _ _ D1) as N1. rewrite D2, plus_IZR in N1.
  assert (Hmid : c <= (C + (IZR k + 1)) / 2).
  { destruct (Rle_lt_dec c ((C + (IZR k + 1)) / 2)) as [|G]; auto. exfalso. unfold Rabs in N1. destruct (Rcase_abs (C - c)), (Rcase_abs (IZR k + 1 - c)); lra. }
  destruct (pred_double mc ec BC) as (mp & ep & P1 & P2). { split; [exact HC2|]. fold C. rewrite Hb53. assert (IZR k + 1 <= 9007199254740992) by (rewrite <- plus_IZR; apply IZR_le; lia). lra. }
  pose proof (NA _ _ P1) as N2. rewrite P2 in N2. fold C in N2.
  unfold Rabs in N2. destruct (Rcase_abs (A - a)), (Rcase_abs (C - 1 - a)); lra.
Qed.

(** Values of powers: [Some v], or [None] for infinity. *)
Definition power_value (pow : f64 -> f64) (n : N) : option R :=
  match pow (f64_of_N n) with S754_finite false _ _ => Some (f64_value (pow (f64_of_N n))) | _ => None end.
Lemma grows pow x : growing pow x -> forall n m, (1 <= n)%N -> (n < m)%N -> (m <= 2 ^ 32)%N ->
  (exists mn en, pow (f64_of_N n) = S754_finite false mn en /\ SpecFloat.bounded prec64 emax64 mn en = true) /\
  ((exists mm em, pow (f64_of_N m) = S754_finite false mm em /\ SpecFloat.bounded prec64 emax64 mm em = true /\ f64_value (pow (f64_of_N n)) < f64_value (pow (f64_of_N m)) /\ forall k : Z, IZR k <= f64_value (pow (f64_of_N n)) -> IZR (k + 1) <= f64_value (pow (f64_of_N m))) \/
   pow (f64_of_N m) = S754_infinity false) \/
  pow (f64_of_N n) = S754_infinity false.
Proof.
  assert (HX1 : forall u w, u + 1 <= w -> u < w /\ forall k : Z, IZR k <= u -> IZR (k + 1) <= w).
  { intros u w Huw. split; [lra|]. intros k Hk. rewrite plus_IZR. lra. }
  intros HG n m H1 H2 H3. assert (HG' : ((1 <= x < 101 / 100) /\ rounded_power pow x) \/
    (x = 1%R /\ forall n : N, (1 <= n <= 2 ^ 32)%N -> pow (f64_of_N n) = f64_of_N n) \/ ((101 / 100 <= x)%R /\ accurate_power pow x)).
  { destruct HG as [[Hx HR]|HG]; auto. destruct (Rlt_le_dec x (101 / 100)); [left; split; auto; lra|]. right. right. split; auto. apply rounded_accurate; auto. }
  clear HG. destruct HG' as [[Hx HR]|[[_ HE]|[Hx HA]]].
  - left. set (nr := IZR (Z.of_N n)) in *. set (mr := IZR (Z.of_N m)) in *.
    assert (Hn : 1 <= nr) by (apply IZR_le; lia). assert (Hnm : nr + 1 <= mr) by (unfold nr, mr; rewrite <- plus_IZR; apply IZR_le; lia).
    assert (Hm : mr <= 4294967296) by (apply IZR_le; lia).
    assert (Hbig : forall r, 1 <= r <= 4294967296 -> 1 <= Rpower r x < bpow radix2 50).
    { intros r Hr. split.
      - replace 1 with (Rpower r 0) at 1 by (apply Rpower_O; lra). apply Rle_Rpower; lra.
      - apply Rle_lt_trans with (Rpower 4294967296 x); [apply Rle_Rpower_l; lra|]. apply Rle_lt_trans with (Rpower 4294967296 (3 / 2)); [apply Rle_Rpower; lra|].
        replace 4294967296 with (Rpower 2 32) at 1. 2:{ replace 32 with (INR 32) by (rewrite INR_IZR_INZ; reflexivity). rewrite Rpower_pow by lra. rewrite (pow_IZR 2 32). reflexivity. }
        rewrite Rpower_mult. replace (32 * (3 / 2)) with (INR 48) by (rewrite INR_IZR_INZ; change (Z.of_nat 48) with 48%Z; lra). rewrite Rpower_pow by lra. rewrite (pow_IZR 2 48).
        change (bpow radix2 50) with 1125899906842624. apply IZR_lt. reflexivity. }
    assert (T : bpow radix2 50 <= powerRZ 2 1000) by (rewrite powerRZ_bpow; apply bpow_le; lia).
    destruct (HR n) as [(_ & mn & en & A1 & A2 & A3)|[_ A]]; [lia| |exfalso; pose proof (Hbig nr ltac:(lra)); fold nr in A; lra].
    destruct (HR m) as [(_ & mm & em & B1 & B2 & B3)|[_ A]]; [lia| |exfalso; pose proof (Hbig mr ltac:(lra)); fold mr in A; lra].
    split; [eauto|]. left. exists mm, em. split; auto. split; auto. fold nr in A3. fold mr in B3.
    assert (Hs : forall k : Z, IZR k <= f64_value (pow (f64_of_N n)) -> IZR (k + 1) <= f64_value (pow (f64_of_N m))).
    { destruct (Req_dec x 1) as [->|Hne].
      - rewrite Rpower_1 in A3, B3 by lra.
        destruct (small_int_double (Z.of_N n)) as (q1 & f1 & D1 & D2); [lia|]. specialize (A3 _ _ D1). rewrite D2 in A3. fold nr in A3. rewrite (Rminus_diag_eq nr nr), Rabs_R0 in A3 by auto.
        destruct (small_int_double (Z.of_N m)) as (q2 & f2 & G1 & G2); [lia|]. specialize (B3 _ _ G1). rewrite G2 in B3. fold mr in B3. rewrite (Rminus_diag_eq mr mr), Rabs_R0 in B3 by auto.
        apply Rabs_le_inv in A3, B3. intros k Hk. rewrite plus_IZR. lra.
      - rewrite A1, B1 in *. apply near_step with (a := Rpower nr x) (c := Rpower mr x); auto; try apply Hbig; try lra.
        assert (Hmono : Rpower nr (x - 1) <= Rpower mr (x - 1)) by (apply Rle_Rpower_l; lra).
        assert (Em : Rpower mr x = mr * Rpower mr (x - 1)) by (replace x with (1 + (x - 1)) at 1 by lra; rewrite Rpower_plus, Rpower_1 by lra; reflexivity).
        assert (En : Rpower nr x = nr * Rpower nr (x - 1)) by (replace x with (1 + (x - 1)) at 1 by lra; rewrite Rpower_plus, Rpower_1 by lra; reflexivity).
        assert (Hgt : 1 < Rpower mr (x - 1)). { replace 1 with (Rpower mr 0) at 1 by (apply Rpower_O; lra). apply Rpower_lt; lra. }
        rewrite Em, En. assert (0 < Rpower nr (x - 1)) by (unfold Rpower; apply exp_pos). nra. }
    split; auto. destruct (archimed (f64_value (pow (f64_of_N n)))) as [U1 U2]. set (K := up (f64_value (pow (f64_of_N n)))) in *.
    pose proof (Hs (K - 1)%Z ltac:(rewrite minus_IZR; lra)) as HK. replace (K - 1 + 1)%Z with K in HK by lia. lra.
  - assert (G : forall k, (1 <= k <= 2 ^ 32)%N -> exists mk ek, pow (f64_of_N k) = S754_finite false mk ek /\ SpecFloat.bounded prec64 emax64 mk ek = true /\ f64_value (pow (f64_of_N k)) = IZR (Z.of_N k)).
    { intros k Hk. rewrite (HE k Hk). destruct (of_Z_exact (Z.of_N k)) as (b & Eb & Vb & Fb); [lia|]. unfold f64_of_N. rewrite <- Eb, B_val, Vb.
      assert (1 <= IZR (Z.of_N k)) by (apply IZR_le; lia). pose proof (pos_sign b ltac:(rewrite Vb; lra)) as Sb.
      destruct b as [s|s| |s mk ek Hb]; cbn [B2R is_finite Bsign] in *; try discriminate; [lra|]. subst s. exists mk, ek. auto. }
    left. destruct (G n) as (mn & en & A1 & A2 & A3); [lia|]. destruct (G m) as (mm & em & B1 & B2 & B3); [lia|]. split; [eauto|]. left. exists mm, em. split; auto. split; auto. apply HX1.
    rewrite A3, B3, <- plus_IZR. apply IZR_le. lia.
  - destruct (HA n) as [(mn & en & A1 & A2 & A3)|[A1 A2]]; [lia| |right; auto]. left. split; [eauto|].
    destruct (HA m) as [(mm & em & B1 & B2 & B3)|[B1 B2]]; [lia| |right; auto]. left. exists mm, em. split; auto. split; auto. apply HX1.
    set (nr := IZR (Z.of_N n)) in *. set (mr := IZR (Z.of_N m)) in *.
    assert (Hn : 1 <= nr) by (apply IZR_le; lia). assert (Hnm : nr + 1 <= mr) by (unfold nr, mr; rewrite <- plus_IZR; apply IZR_le; lia).
    assert (Hm : mr <= 4294967296) by (apply IZR_le; lia).
    destruct (power_gap nr mr x Hn Hnm Hx) as [G1 G2]. set (a := Rpower nr x) in *. set (b := Rpower mr x) in *.
    assert (Pa : 0 < a) by (unfold a, Rpower; apply exp_pos). assert (Pb : 0 < b) by (unfold b, Rpower; apply exp_pos).
    assert (U : powerRZ 2 (-52) = / 4503599627370496) by (rewrite powerRZ_bpow; reflexivity). rewrite U in A3, B3.
    apply Rabs_le_inv in A3, B3. assert (G3 : b <= (b - a) * 4294967296) by nra. lra.
Qed.

Lemma strict_costs pow x d : growing pow x -> wf_input d -> (0 < length (i_choosers d))%nat -> warns pow d = false ->
  forall v v', (v < v')%N -> (v' <= i_max_pref d)%N -> (edge_cost pow v < edge_cost pow v')%Z.
Proof.
  intros HG HW HK Hno v v' Hlt Hle. pose proof (wf_u32 _ HW) as Hmx. unfold u32_max in Hmx.
  unfold edge_cost. rewrite !succ_exact by lia.
  assert (Hsmall : forall n, (1 <= n <= i_max_pref d)%N -> exists mn en, pow (f64_of_N n) = S754_finite false mn en /\ SpecFloat.bounded prec64 emax64 mn en = true /\ f64_value (pow (f64_of_N n)) < 2 ^ 63).
  { assert (Htop : exists mn en, pow (f64_of_N (i_max_pref d)) = S754_finite false mn en /\ SpecFloat.bounded prec64 emax64 mn en = true /\ f64_value (pow (f64_of_N (i_max_pref d))) < 2 ^ 63).
    { destruct (grows pow x HG (i_max_pref d) (i_max_pref d + 1)) as [[(mn & en & A1 & A2) _]|A1]; try lia.
      - exists mn, en. split; auto. split; auto. destruct (Rlt_le_dec (f64_value (pow (f64_of_N (i_max_pref d)))) (2 ^ 63)) as [|Hge]; auto. exfalso.
        rewrite (big_warns pow d (B754_finite false mn en A2)) in Hno; auto; [discriminate|]. right. split; auto. rewrite <- B_val. cbn [B2SF]. rewrite <- A1. auto.
      - exfalso. rewrite (big_warns pow d (B754_infinity false)) in Hno; auto. discriminate. }
    intros n Hn. destruct (N.eq_dec n (i_max_pref d)) as [->|Hne]; auto. destruct Htop as (mm & em & B1 & B2 & B3).
    destruct (grows pow x HG n (i_max_pref d)) as [[(mn & en & A1 & A2) [(m2 & e2 & C1 & C2 & C3 & _)|C]]|A1]; try lia.
    - exists mn, en. split; auto. split; auto. lra.
    - congruence.
    - exfalso. assert (HG' : (x = 1%R /\ forall n : N, (1 <= n <= 2 ^ 32)%N -> pow (f64_of_N n) = f64_of_N n) \/ ((1 <= x)%R /\ accurate_power pow x)).
      { destruct HG as [[Hx HR]|[HG|[Hx HA]]]; auto; right; split; auto; [apply rounded_accurate; auto|lra]. }
      destruct HG' as [[_ HE]|[Hx HA]].
      + rewrite (HE n) in A1 by lia. destruct (of_Z_exact (Z.of_N n)) as (b & Eb & _ & Fb); [lia|]. unfold f64_of_N in A1. rewrite <- Eb in A1. destruct b; discriminate.
      + destruct (HA n) as [(m3 & e3 & D1 & _)|[_ D2]]; [lia|congruence|].
        destruct (HA (i_max_pref d)) as [(m3 & e3 & D3 & D4 & D5)|[D3 _]]; [lia| |congruence].
        set (nr := IZR (Z.of_N n)) in *. set (mr := IZR (Z.of_N (i_max_pref d))) in *.
        assert (Hr : Rpower nr x <= Rpower mr x) by (apply Rle_Rpower_l; [lra|]; split; [apply IZR_lt; lia|apply IZR_le; lia]).
        assert (U : powerRZ 2 (-52) = / 4503599627370496) by (rewrite powerRZ_bpow; reflexivity). rewrite U in D5. apply Rabs_le_inv in D5.
        assert (T : 2 ^ 65 <= powerRZ 2 1000).
        { change (powerRZ 2 1000) with (2 ^ Pos.to_nat 1000)%R. apply Rle_pow; [lra|]. apply Nat.leb_le. vm_compute. reflexivity. }
        assert (2 ^ 65 = 4 * 2 ^ 63) by (cbn; lra). assert (0 < 2 ^ 63) by (apply pow_lt; lra). lra. }
  destruct (Hsmall (v + 1)%N) as (mn & en & A1 & A2 & A3); [lia|].
  destruct (grows pow x HG (v + 1) (v' + 1)) as [[_ [(mm & em & C1 & C2 & _ & C3)|C]]|A]; try lia; [| |congruence].
  - rewrite A1, C1 in *. destruct (trunc_le mn en) as (T0 & T1 & _). destruct (trunc_le mm em) as (U0 & U1 & U2 & U3).
    destruct (Rlt_le_dec (f64_value (S754_finite false mm em)) (2 ^ 63)) as [Hs|Hs].
    + apply lt_IZR. specialize (U2 Hs). specialize (C3 _ T1). rewrite plus_IZR in C3. lra.
    + rewrite (U3 Hs). apply trunc_far; auto.
  - rewrite A1, C in *. change (f64_to_i64 (S754_infinity false)) with (2 ^ 63 - 1)%Z. apply trunc_far; auto.
Qed.

(** ** A power function for whole exponents *)
(** The double next to the power of an integer. *)
Definition pow_whole (k : nat) (x : f64) : f64 := f64_of_Z (f64_to_i64 x ^ Z.of_nat k).
Lemma to_of n : (1 <= n <= 2 ^ 32)%N -> f64_to_i64 (f64_of_N n) = Z.of_N n.
Proof.
  intros Hn. destruct (of_Z_exact (Z.of_N n)) as (b & Eb & Vb & Fb); [lia|]. assert (H1 : 1 <= IZR (Z.of_N n)) by (apply IZR_le; lia).
  pose proof (pos_sign b ltac:(rewrite Vb; lra)) as Sb. pose proof (B_val b) as Eval. rewrite Vb in Eval. unfold f64_of_N. rewrite <- Eb.
  destruct b as [s|s| |s m e Hb]; cbn [B2R is_finite Bsign B2SF] in *; try discriminate; [lra|]. subst s.
  destruct (trunc_le m e) as (_ & T1 & T2 & _). assert (E63 : (2 ^ 63)%R = IZR (2 ^ 63)) by (rewrite (pow_IZR 2 63); reflexivity).
  assert (IZR (Z.of_N n) < IZR (2 ^ 63)) by (apply IZR_lt; lia). rewrite Eval in T1, T2. specialize (T2 ltac:(lra)). rewrite <- plus_IZR in T2. apply le_IZR in T1. apply lt_IZR in T2. lia.
Qed.
Lemma of_Z_close z : (1 <= z)%Z -> (exists m e, f64_of_Z z = S754_finite false m e /\ SpecFloat.bounded prec64 emax64 m e = true /\
     Rabs (f64_value (f64_of_Z z) - IZR z) <= IZR z * powerRZ 2 (-52)) \/ (f64_of_Z z = S754_infinity false /\ powerRZ 2 1000 <= IZR z).
Proof.
  intros Hz. assert (H1 : 1 <= IZR z) by (apply IZR_le; lia). unfold f64_of_Z, prec64, emax64. rewrite normalize_equiv.
  pose proof (binary_normalize_correct 53 1024 Hprec Hmax mode_NE z 0 false) as C. cbn zeta in C. set (b := BinarySingleNaN.binary_normalize 53 1024 Hprec Hmax mode_NE z 0 false) in *.
  assert (E : F2R (Float radix2 z 0) = IZR z) by (unfold F2R; cbn; lra). rewrite E in C.
  assert (RE : Rabs (rnd (IZR z) - IZR z) <= / 2 * bpow radix2 (-53 + 1) * Rabs (IZR z)).
  { change (SpecFloat.fexp 53 1024) with (FLT_exp (-1074) 53). apply relative_error_N_FLT; [exact Hprec|].
    rewrite Rabs_pos_eq by lra. apply Rle_trans with 1; auto. change 1 with (bpow radix2 0). apply bpow_le. lia. }
  rewrite (Rabs_pos_eq (IZR z)) in RE by lra.
  destruct (Rlt_bool_spec (Rabs (rnd (IZR z))) (bpow radix2 1024)) as [Hlt|Hge].
  - destruct C as (C1 & C2 & C3). left. assert (Sb : Bsign b = false).
    { rewrite C3. rewrite Rcompare_Gt by lra. reflexivity. }
    clear C3. assert (Hpos : B2R b <> 0).
    { rewrite C1. intros E0. rewrite E0 in RE. rewrite Rminus_0_l, Rabs_Ropp, Rabs_pos_eq in RE by lra. change (bpow radix2 (-53 + 1)) with (/ 4503599627370496) in RE. lra. }
    pose proof (B_val b) as Ev. rewrite Ev, C1. rewrite powerRZ_bpow. destruct b as [s|s| |s m e Hb]; cbn [B2R is_finite Bsign B2SF] in *; try discriminate; [lra|]. subst s.
    exists m, e. split; auto. split; auto. change (-53 + 1)%Z with (-52)%Z in RE. pose proof (bpow_gt_0 radix2 (-52)). nra.
  - right. split.
    + rewrite C. rewrite Rlt_bool_false by lra. reflexivity.
    + rewrite powerRZ_bpow. assert (bpow radix2 1024 = bpow radix2 1000 * 16777216) by (change 16777216 with (bpow radix2 24); rewrite <- bpow_plus; reflexivity).
      pose proof (bpow_gt_0 radix2 1000). change (bpow radix2 (-53 + 1)) with (/ 4503599627370496) in RE.
      assert (Rabs (rnd (IZR z)) <= 2 * IZR z).
      { apply Rabs_le. apply Rabs_le_inv in RE. lra. }
      lra.
Qed.
Lemma pow_whole_accurate k : accurate_power (pow_whole k) (INR k).
Proof.
  intros n Hn. unfold pow_whole. rewrite (to_of n Hn). assert (H1 : 1 <= IZR (Z.of_N n)) by (apply IZR_le; lia). rewrite Rpower_pow by lra. rewrite (pow_IZR (Z.of_N n) k).
  destruct (of_Z_close (Z.of_N n ^ Z.of_nat k)) as [(m & e & A1 & A2 & A3)|[A1 A2]].
  - assert (0 < Z.of_N n ^ Z.of_nat k)%Z by (apply Z.pow_pos_nonneg; lia). lia.
  - left. exists m, e. auto.
  - right. auto.
Qed.
Lemma pow_whole_growing k : (1 <= k)%nat -> growing (pow_whole k) (INR k).
Proof.
  intros Hk. destruct (Nat.eq_dec k 1) as [->|Hne].
  - right. left. split; [reflexivity|]. intros n Hn. unfold pow_whole. rewrite (to_of n Hn). rewrite Z.pow_1_r. reflexivity.
  - right. right. split; [|apply pow_whole_accurate]. assert (INR 2 <= INR k) by (apply le_INR; lia). cbn in H. lra.
Qed.
(** Within 53 bits the costs are the powers. *)
Lemma cost_exact k v : (v < 2 ^ 32)%N -> (Z.of_N (v + 1) ^ Z.of_nat k <= 2 ^ 53)%Z -> edge_cost (pow_whole k) v = (Z.of_N (v + 1) ^ Z.of_nat k)%Z.
Proof.
  intros Hv Hp. unfold edge_cost, pow_whole. rewrite succ_exact by auto. rewrite to_of by lia. set (z := (Z.of_N (v + 1) ^ Z.of_nat k)%Z) in *.
  assert (Hz : (1 <= z)%Z) by (assert (0 < z)%Z by (apply Z.pow_pos_nonneg; lia); lia). clearbody z.
  destruct (of_Z_exact z) as (b & Eb & Vb & Fb); [lia|]. assert (H1 : 1 <= IZR z) by (apply IZR_le; lia).
  pose proof (pos_sign b ltac:(rewrite Vb; lra)) as Sb. pose proof (B_val b) as Eval. rewrite Vb in Eval. rewrite <- Eb.
  destruct b as [s|s| |s m e Hb]; cbn [B2R is_finite Bsign B2SF] in *; try discriminate; [lra|]. subst s.
  destruct (trunc_le m e) as (_ & T1 & T2 & _). assert (E63 : (2 ^ 63)%R = IZR (2 ^ 63)) by (rewrite (pow_IZR 2 63); reflexivity).
  assert (IZR z < IZR (2 ^ 63)) by (apply IZR_lt; lia). rewrite Eval in T1, T2. specialize (T2 ltac:(lra)). rewrite <- plus_IZR in T2. apply le_IZR in T1. apply lt_IZR in T2. lia.
Qed.

(** ** A correctly rounded power function *)
Definition pow_near (x : R) (y : f64) : f64 :=
  let r := Rpower (f64_value y) x in
  SpecFloat.binary_normalize 53 1024 (ZnearestE (scaled_mantissa radix2 (FLT_exp (-1074) 53) r)) (cexp radix2 (FLT_exp (-1074) 53) r) false.
Lemma pow_near_rounded x : 1 <= x -> rounded_power (pow_near x) x.
Proof.
  intros Hx n Hn. assert (H1 : 1 <= IZR (Z.of_N n)) by (apply IZR_le; lia).
  assert (Ev : f64_value (f64_of_N n) = IZR (Z.of_N n)).
  { destruct (of_Z_exact (Z.of_N n)) as (b & Eb & Vb & _); [lia|]. unfold f64_of_N. rewrite <- Eb, B_val. auto. }
  unfold pow_near. rewrite Ev. set (r := Rpower (IZR (Z.of_N n)) x). cbv zeta.
  assert (Hr1 : 1 <= r). { unfold r. replace 1 with (Rpower (IZR (Z.of_N n)) 0) at 1 by (apply Rpower_O; lra). apply Rle_Rpower; lra. }
  set (m := ZnearestE _). set (e := cexp _ _ _). rewrite normalize_equiv.
  pose proof (binary_normalize_correct 53 1024 Hprec Hmax mode_NE m e false) as C. cbn zeta in C. set (b := BinarySingleNaN.binary_normalize 53 1024 Hprec Hmax mode_NE m e false) in *.
  set (v := round radix2 (FLT_exp (-1074) 53) ZnearestE r). assert (E : F2R (Float radix2 m e) = v) by reflexivity. rewrite E in C.
  assert (HV : Valid_exp (FLT_exp (-1074) 53)) by (apply FLT_exp_valid; exact Hprec).
  assert (HF : generic_format radix2 (SpecFloat.fexp 53 1024) v) by (change (SpecFloat.fexp 53 1024) with (FLT_exp (-1074) 53); apply generic_format_round; [auto|apply valid_rnd_N]).
  rewrite round_generic in C by (try apply valid_rnd_round_mode; exact HF).
  assert (Hv1 : 1 <= v).
  { replace 1 with (round radix2 (FLT_exp (-1074) 53) ZnearestE 1). - apply round_le; auto; apply valid_rnd_N. - apply round_generic; [apply valid_rnd_N|]. apply (int_format 1). lia. }
  rewrite (Rabs_pos_eq v) in C by lra. rewrite !powerRZ_bpow. destruct (Rlt_bool_spec v (bpow radix2 1024)) as [Hlt|Hge].
  - left. destruct C as (C1 & C2 & _). split.
    + destruct (Rlt_le_dec r (bpow radix2 1024)) as [|G]; auto. exfalso.
      assert (G' : round radix2 (FLT_exp (-1074) 53) ZnearestE (bpow radix2 1024) <= v) by (apply round_le; auto; apply valid_rnd_N).
      rewrite round_generic in G'; [lra|apply valid_rnd_N|]. apply generic_format_bpow. unfold FLT_exp. lia.
    + pose proof (pos_sign b ltac:(rewrite C1; lra)) as Sb. pose proof (B_val b) as Eb. rewrite C1 in Eb.
      destruct b as [s|s| |s m' e' Hb]; cbn [B2R is_finite Bsign B2SF] in *; try discriminate; [lra|]. subst s. exists m', e'. split; auto. split; auto.
      intros m2 e2 H2. rewrite Eb. apply (round_N_pt radix2 (FLT_exp (-1074) 53) (fun z => negb (Z.even z)) r). exact (bounded_format m2 e2 H2).
  - right. split.
    + rewrite C. rewrite Rlt_bool_false by lra. reflexivity.
    + assert (RE : Rabs (v - r) <= / 2 * bpow radix2 (-53 + 1) * Rabs r).
      { apply relative_error_N_FLT; [exact Hprec|]. rewrite Rabs_pos_eq by lra. apply Rle_trans with 1; auto. change 1 with (bpow radix2 0). apply bpow_le. lia. }
      rewrite (Rabs_pos_eq r) in RE by lra. change (bpow radix2 (-53 + 1)) with (/ 4503599627370496) in RE. apply Rabs_le_inv in RE.
      assert (bpow radix2 1024 = bpow radix2 1000 * 16777216) by (change 16777216 with (bpow radix2 24); rewrite <- bpow_plus; reflexivity).
      pose proof (bpow_gt_0 radix2 1000). lra.
Qed.
