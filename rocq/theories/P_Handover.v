(** Conversions between integers and f64 at the LP library's border are exact. *)
From Verif Require Import Base M_Data M_Flow M_Warn Spec_Warn P_Warn M_Handover Spec_Handover.
From Coq Require Import Floats.SpecFloat Reals Lra.
From Flocq Require Import Core Round Relative BinarySingleNaN.
Local Open Scope R_scope.
Local Existing Instance P_Warn.Hprec.
Local Existing Instance P_Warn.Hmax.

(** An integer that is a double arrives exactly. *)
Lemma of_Z_format z : generic_format radix2 (SpecFloat.fexp 53 1024) (IZR z) -> Rabs (IZR z) < bpow radix2 1024 -> arrives (f64_of_Z z) z.
Proof.
  intros HF HM. unfold arrives, f64_of_Z, prec64, emax64. rewrite normalize_equiv.
  pose proof (binary_normalize_correct 53 1024 P_Warn.Hprec P_Warn.Hmax mode_NE z 0 false) as C. cbn zeta in C.
  assert (E : F2R (Float radix2 z 0) = IZR z) by (unfold F2R; cbn; lra). rewrite E in C.
  rewrite round_generic in C by (try apply valid_rnd_round_mode; exact HF). rewrite Rlt_bool_true in C by exact HM.
  destruct C as (C1 & C2 & _). revert C1 C2. generalize (BinarySingleNaN.binary_normalize 53 1024 P_Warn.Hprec P_Warn.Hmax mode_NE z 0 false). intros b C1 C2.
  pose proof (B_val b) as V. rewrite C1 in V. destruct b as [s|s| |s m e Hb]; cbn in C2; try discriminate.
  - left. exists s. split; [reflexivity|]. cbn in C1. symmetry in C1. apply eq_IZR in C1. exact C1.
  - right. split; [|exact V]. exists s, m, e. reflexivity.
Qed.
Lemma number_arrives z : (Z.abs z <= 2 ^ 53)%Z -> arrives (f64_of_Z z) z.
Proof. intros H. apply of_Z_format; [apply int_format; exact H|apply below_max; exact H]. Qed.
Lemma arrives_value y z : arrives y z -> f64_value y = IZR z.
Proof. intros [(s & -> & ->)|[_ H]]; auto. Qed.

Lemma mantissa m e : SpecFloat.bounded prec64 emax64 m e = true -> (Zpos m < 2 ^ 53)%Z.
Proof.
  intros HB. unfold SpecFloat.bounded, SpecFloat.canonical_mantissa in HB. apply andb_prop in HB as [HB _]. apply Zeq_bool_eq in HB. unfold SpecFloat.fexp, SpecFloat.emin, prec64, emax64 in HB.
  rewrite Digits.Zpos_digits2_pos in HB. pose proof (Digits.Zdigits_correct radix2 (Zpos m)) as [_ D].
  assert (Digits.Zdigits radix2 (Zpos m) <= 53)%Z by lia. apply Z.lt_le_trans with (1 := D). apply (Zpower_le radix2). auto.
Qed.
Lemma whole_format m e : (0 <= e)%Z -> (Zpos m < 2 ^ 53)%Z -> generic_format radix2 (SpecFloat.fexp 53 1024) (IZR (Zpos m * 2 ^ e)).
Proof.
  intros He Hm. change (SpecFloat.fexp 53 1024) with (FLT_exp (-1074) 53). apply generic_format_FLT. exists (Float radix2 (Zpos m) e); [|cbn; lia|cbn; lia].
  unfold F2R; cbn [Fnum Fexp]. rewrite mult_IZR. f_equal. rewrite <- IZR_Zpower by auto. reflexivity.
Qed.
Lemma opp_format z : generic_format radix2 (SpecFloat.fexp 53 1024) (IZR z) -> generic_format radix2 (SpecFloat.fexp 53 1024) (IZR (- z)).
Proof. intros H. rewrite opp_IZR. apply generic_format_opp. exact H. Qed.
Lemma big_below z : (Z.abs z <= 2 ^ 63)%Z -> Rabs (IZR z) < bpow radix2 1024.
Proof.
  intros H. rewrite <- abs_IZR. apply Rle_lt_trans with (IZR (2 ^ 63)); [apply IZR_le; lia|]. change (IZR (2 ^ 63)) with (IZR (Zpower radix2 63)). rewrite IZR_Zpower by lia. apply bpow_lt. lia.
Qed.
(** What a double is truncated to is a double, unless it is cut off above. *)
Lemma truncated x : genuine x -> (- 2 ^ 63 <= f64_to_i64 x <= 2 ^ 63 - 1)%Z /\ (f64_to_i64 x <> (2 ^ 63 - 1)%Z -> arrives (f64_of_Z (f64_to_i64 x)) (f64_to_i64 x)).
Proof.
  intros HG. assert (R0 : (- 2 ^ 63 <= f64_to_i64 x <= 2 ^ 63 - 1)%Z).
  { destruct x as [s|s| |s m e]; cbn [f64_to_i64]; try (destruct s; lia); lia. }
  split; [exact R0|]. intros Hcut.
  assert (P63 : generic_format radix2 (SpecFloat.fexp 53 1024) (IZR (- 2 ^ 63))).
  { change (- 2 ^ 63)%Z with (- (Zpos 1 * 2 ^ 63))%Z. apply opp_format. apply whole_format; lia. }
  apply of_Z_format; [|apply big_below; change (- 2 ^ 63)%Z with (-9223372036854775808)%Z in R0; change (2 ^ 63)%Z with 9223372036854775808%Z in *; lia].
  destruct x as [s|s| |s m e]; cbn [f64_to_i64] in *; try (apply int_format; lia).
  - destruct s; [exact P63|congruence].
  - set (n := if (0 <=? e)%Z then _ else _) in *.
    assert (Hn : (0 <= n)%Z /\ generic_format radix2 (SpecFloat.fexp 53 1024) (IZR n)).
    { apply mantissa in HG. unfold n. destruct (Z.leb_spec 0 e).
      - split; [apply Z.mul_nonneg_nonneg; [lia|apply Z.pow_nonneg; lia]|apply whole_format; auto].
      - assert (0 < 2 ^ (- e))%Z by (apply Z.pow_pos_nonneg; lia). assert (0 <= Zpos m / 2 ^ (- e))%Z by (apply Z.div_pos; lia).
        split; auto. apply int_format. assert (Zpos m / 2 ^ (- e) <= Zpos m)%Z by (apply Z.div_le_upper_bound; nia). lia. }
    clearbody n. destruct Hn as [H0 HF]. destruct s.
    + destruct (Z_le_gt_dec (- 2 ^ 63) (- n)).
      * replace (Z.max _ _) with (- n)%Z by lia. apply opp_format. exact HF.
      * replace (Z.max _ _) with (- 2 ^ 63)%Z by lia. exact P63.
    + destruct (Z_le_gt_dec n (2 ^ 63 - 1)); [|lia]. replace (Z.max _ _) with n by lia. exact HF.
Qed.

(** Answers are read back. *)
Lemma answer_read y z : genuine y -> (forall s, y <> S754_infinity s) -> y <> S754_nan -> Rabs (f64_value y - IZR z) < / 2 ->
  (i32_min <= z <= i32_max)%Z -> lp_answer y = z.
Proof.
  intros HG Hi Hn HR Hz. destruct y as [s|s| |s m e]; cbn [lp_answer]; [|destruct (Hi s eq_refl)|congruence|].
  - cbn [f64_value] in HR. apply Rabs_def2 in HR as [H1 H2]. assert (-1 < IZR z < 1) by lra. destruct H as [A B]. apply lt_IZR in A, B. lia.
  - set (n := if (0 <=? e)%Z then _ else _).
    assert (Hn' : (0 <= n)%Z /\ IZR n - / 2 <= IZR (Zpos m) * powerRZ 2 e < IZR n + / 2).
    { unfold n. rewrite powerRZ_bpow. destruct (Z.leb_spec 0 e) as [He|He].
      - assert (E : IZR (Zpos m * 2 ^ e) = IZR (Zpos m) * bpow radix2 e) by (rewrite mult_IZR; f_equal; rewrite <- IZR_Zpower by auto; reflexivity).
        split; [apply Z.mul_nonneg_nonneg; [lia|apply Z.pow_nonneg; lia]|]. rewrite E. lra.
      - assert (Hp : (0 < 2 ^ (- e))%Z) by (apply Z.pow_pos_nonneg; lia). set (d := (2 ^ (- e))%Z) in *.
        assert (EB : bpow radix2 (- e) = IZR d) by (unfold d; rewrite <- IZR_Zpower by lia; reflexivity).
        assert (P1 : 0 < bpow radix2 (- e)) by apply bpow_gt_0.
        assert (P2 : bpow radix2 e * bpow radix2 (- e) = 1) by (rewrite <- bpow_plus; replace (e + - e)%Z with 0%Z by lia; reflexivity).
        pose proof (Z.div_mod (2 * Zpos m + d) (2 * d) ltac:(lia)) as DM. pose proof (Z.mod_pos_bound (2 * Zpos m + d) (2 * d) ltac:(lia)) as MB.
        set (k := ((2 * Zpos m + d) / (2 * d))%Z) in *. split; [apply Z.div_pos; lia|].
        assert (K1 : (2 * k * d - d <= 2 * Zpos m)%Z) by nia. assert (K2 : (2 * Zpos m < 2 * k * d + d)%Z) by nia.
        apply IZR_le in K1. apply IZR_lt in K2. rewrite minus_IZR, !mult_IZR in K1. rewrite plus_IZR, !mult_IZR in K2. rewrite <- EB in K1, K2.
        set (b := bpow radix2 (- e)) in *. set (a := bpow radix2 e) in *. clearbody a b.
        assert (EM : IZR (Zpos m) = (IZR (Zpos m) * a) * b) by (rewrite Rmult_assoc, P2; ring). set (t := IZR (Zpos m) * a) in *.
        rewrite EM in K1, K2. split; [apply Rmult_le_reg_r with b; auto; lra|apply Rmult_lt_reg_r with b; auto; lra]. }
    destruct Hn' as [H0 [H1 H2]]. clearbody n. cbn [f64_value] in HR. set (t := IZR (Zpos m) * powerRZ 2 e) in *.
    assert (HT : (if s then -1 else 1) * IZR (Zpos m) * powerRZ 2 e = if s then - t else t) by (unfold t; destruct s; ring). rewrite HT in HR. clear HT. clearbody t.
    apply Rabs_def2 in HR as [R1 R2]. destruct s.
    + assert (E : (- n = z)%Z). { assert (A : IZR z < IZR (- n + 1)) by (rewrite plus_IZR, opp_IZR; lra). assert (A' : IZR (- n - 1) < IZR z) by (rewrite minus_IZR, opp_IZR; lra). apply lt_IZR in A, A'. lia. }
      rewrite E. lia.
    + assert (E : (n = z)%Z). { assert (A : IZR z < IZR (n + 1)) by (rewrite plus_IZR; lra). assert (A' : IZR (n - 1) < IZR z) by (rewrite minus_IZR; lra). apply lt_IZR in A, A'. lia. }
      rewrite E. lia.
Qed.

(** *** The numbers of an instance *)
Definition numbers (cost : N -> Z) (f : flow) : Prop :=
  (forall e, In e (fl_edges f) -> (i32_min <= e_max e <= i32_max)%Z /\ (e_cost e = 0%Z \/ exists v, e_cost e = cost v)) /\
  (forall s, In s (fl_supply f) -> (- i32_max <= s <= i32_max)%Z).
Lemma numbers_supply cost f n v f' : numbers cost f -> (- i32_max <= v <= i32_max)%Z -> set_supply f n v = Ok f' -> numbers cost f'.
Proof.
  intros [H1 H2] Hv H. unfold set_supply in H. apply bind_ok in H as (s & Hs & H). injection H as <-. split; cbn [fl_edges fl_supply]; [exact H1|].
  intros x Hx. apply set_ok in Hs as (_ & ->). apply In_nth_error in Hx as [i Hi].
  destruct (Nat.eq_dec i n) as [->|Hne].
  - assert (n < length (fl_supply f))%nat. { assert (G : nth_error (upd (fl_supply f) n v) n <> None) by congruence. apply nth_error_Some in G. rewrite upd_length in G. exact G. }
    rewrite nth_error_upd_same in Hi by auto. congruence.
  - rewrite nth_error_upd_other in Hi by auto. apply nth_error_In in Hi. auto.
Qed.
Lemma numbers_edge cost f k a b mx c f' : numbers cost f -> (i32_min <= mx <= i32_max)%Z -> (c = 0%Z \/ exists v, c = cost v) ->
  add_keyed_edge f k a b mx c = Ok f' -> numbers cost f'.
Proof.
  intros [H1 H2] Hm Hc H. unfold add_keyed_edge in H. destruct (_ && _)%bool; [|discriminate]. injection H as <-. split; cbn [fl_edges fl_supply]; [|exact H2].
  intros e He. apply in_app_or in He as [He|[<-|[]]]; auto.
Qed.
Lemma numbers_group cost f keys : numbers cost f -> numbers cost (create_edge_group f keys).
Proof. intros [H1 H2]. unfold create_edge_group. destruct forallb; split; auto. Qed.
Lemma as_i32_range n z : as_i32 n = Ok z -> (0 <= z <= i32_max)%Z.
Proof. unfold as_i32. destruct (Z.leb_spec (Z.of_N n) i32_max); [|discriminate]. intros E. injection E as <-. lia. Qed.
Lemma to_i32_range n z : to_i32 n = Ok z -> (0 <= z <= i32_max)%Z.
Proof. unfold to_i32. destruct (Z.leb_spec (Z.of_nat n) i32_max); [|discriminate]. intros E. injection E as <-. lia. Qed.

Lemma numbers_static cost d sd : new_static d = Ok sd -> numbers cost (sd_flow sd).
Proof.
  intros H. unfold new_static in H. apply bind_ok in H as (u & _ & H).
  assert (A : forall f k, numbers cost f -> numbers cost (snd (add_nodes f k))).
  { intros f k [H1 H2]. split; cbn; auto. intros s Hs. apply in_app_or in Hs as [Hs|Hs]; auto. apply repeat_spec in Hs as ->. unfold i32_max. lia. }
  assert (R : forall k w f, numbers cost f -> numbers cost (snd (chooser_rows f k w))).
  { induction k as [|k IH]; intros w f Hf; cbn [chooser_rows]; auto.
    specialize (A f w Hf). destruct (add_nodes f w) as [row f'] eqn:E. specialize (IH w f' A). destruct (chooser_rows f' k w) as [rs f'']. exact IH. }
  assert (N0 : numbers cost (mkFlow [] [] [] [] [])) by (split; intros x []).
  specialize (R (length (i_choosers d)) (length (i_slots d)) _ N0). destruct (chooser_rows _ _ _) as [rows f1]. cbn [snd] in R.
  pose proof (A f1 (length (i_choices d)) R) as R2. destruct (add_nodes f1 _) as [ch f2]. cbn [snd] in R2.
  pose proof (A f2 (length (i_slots d)) R2) as R3. destruct (add_nodes f2 _) as [sl f3]. injection H as <-. exact R3.
Qed.
Lemma numbers_built pr d sd cost st limit f : new_static d = Ok sd -> build_flow pr d sd cost st limit = Ok f -> numbers cost f.
Proof.
  intros HS H. unfold build_flow in H. apply bind_ok in H as (f1 & H1 & H). apply bind_ok in H as (f2 & H2 & H). apply bind_ok in H as (f3 & H3 & H).
  assert (M31 : (0 < i32_max)%Z /\ (i32_min < 0)%Z) by (unfold i32_max, i32_min; lia). destruct M31 as [M1 M2].
  assert (M3 : (i32_max < 2 ^ 53)%Z) by (unfold i32_max; lia).
  assert (N1 : numbers cost f1).
  { unfold flow_supplies in H1. apply bind_ok in H1 as (g1 & G1 & H1). apply bind_ok in H1 as (g2 & G2 & H1).
    assert (Q1 : numbers cost g1).
    { revert G1. apply mfold_inv; [apply (numbers_static _ _ _ HS)|]. intros b p b' _ Hb. apply mfold_inv; auto. intros c s c' _ Hc E.
      apply bind_ok in E as (n & _ & E). eapply numbers_supply; eauto. lia. }
    assert (Q2 : numbers cost g2).
    { revert G2. apply mfold_inv; auto. intros b cs b' _ Hb E. destruct (snd cs) as [sl|]; [|congruence]. apply bind_ok in E as (n & _ & E). apply bind_ok in E as (c & _ & E).
      apply bind_ok in E as (m & Hm & E). apply as_i32_range in Hm. eapply numbers_supply; eauto. lia. }
    revert H1. apply mfold_inv; auto. intros b s b' _ Hb E. apply bind_ok in E as (n & _ & E). apply bind_ok in E as (a & Ha & E). apply bind_ok in E as (v & _ & E).
    apply bind_ok in E as (w & Hw & E). apply to_i32_range in Ha. apply as_i32_range in Hw. eapply numbers_supply; eauto. lia. }
  assert (N2 : numbers cost f2).
  { revert H2. apply mfold_inv; auto. intros b p b' _ Hb. apply mfold_inv; auto. intros c sc c' _ Hc. apply mfold_inv; auto. intros g x g' _ Hg E.
    unfold chooser_edge in E. apply bind_ok in E as (nd & _ & E). apply bind_ok in E as (a & _ & E). apply bind_ok in E as (y & _ & E).
    destruct (limit <? y)%N; [congruence|]. apply bind_ok in E as (to & _ & E). destruct is_blocked; [congruence|]. apply bind_ok in E as (k & _ & E).
    eapply numbers_edge; [exact Hg| |right; exists y; reflexivity|exact E]. unfold i32_max, i32_min; lia. }
  assert (N3 : numbers cost f3).
  { revert H3. apply mfold_inv; auto. intros b cs b' _ Hb E. destruct (snd cs) as [sl|]; [|congruence]. apply bind_ok in E as (from & _ & E). apply bind_ok in E as (to & _ & E).
    apply bind_ok in E as (k & _ & E). apply bind_ok in E as (c & _ & E). apply bind_ok in E as (w & _ & E). apply bind_ok in E as (z & Hz & E). apply as_i32_range in Hz.
    eapply numbers_edge; [exact Hb| |left; reflexivity|exact E]. lia. }
  unfold create_edge_groups in H. apply bind_ok in H as (f4 & H4 & H).
  assert (N4 : numbers cost f4).
  { revert H4. apply mfold_inv; auto. intros b k b' _ Hb E. unfold pair_groups in E. destruct negb; [congruence|]. apply bind_ok in E as (o & _ & E).
    revert E. apply mfold_inv; auto. intros g s g' _ Hg E. apply bind_ok in E as (cs & _ & E). revert E. apply mfold_inv; auto. intros h c h' _ Hh E.
    apply bind_ok in E as (x1 & _ & E). apply bind_ok in E as (x2 & _ & E). apply bind_ok in E as (x3 & _ & E). apply bind_ok in E as (x4 & _ & E). apply bind_ok in E as (x5 & _ & E).
    injection E as <-. apply numbers_group. exact Hh. }
  revert H. apply mfold_inv; auto. intros b g b' _ Hb E. destruct (length g =? 1)%nat; [congruence|]. revert E. apply mfold_inv; auto.
  intros h p h' _ Hh E. unfold audience_group in E. apply bind_ok in E as (keys & _ & E). injection E as <-. apply numbers_group. exact Hh.
Qed.
