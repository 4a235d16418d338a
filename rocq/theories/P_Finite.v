(** A valid solution's score is finite as long as the powers of the
    preferences do not overflow (C10).  All of it is integer arithmetic on the
    mantissas of [SpecFloat]: rounding never passes a representable bound. *)
From Verif Require Import Base M_Data M_Scoring Spec P_Scoring P_Feasible P_Score P_Minor Spec_Score.
From Coq Require Import Floats.SpecFloat.
Local Open Scope Z_scope.

Definition up (r : shr_record) : Z := shr_m r + (if shr_r r || shr_s r then 1 else 0).

Lemma shr_1_up r J : 0 <= shr_m r -> up r <= J * 2 -> 0 <= shr_m (shr_1 r) /\ up (shr_1 r) <= J.
Proof.
  destruct r as [m r s]. unfold up. cbn [shr_m shr_r shr_s shr_1]. intros H0 H.
  destruct m as [|[p|p|]|p]; [| | | |lia]; destruct r, s; cbn in *; lia.
Qed.

Lemma iter_up p : forall r J, 0 <= shr_m r -> up r <= J * 2 ^ Zpos p ->
  0 <= shr_m (iter_pos shr_1 p r) /\ up (iter_pos shr_1 p r) <= J.
Proof.
  induction p as [p IH|p IH|]; intros r J H0 H; cbn [iter_pos].
  - replace (Zpos p~1) with (Zpos p + Zpos p + 1) in H by lia. rewrite !Z.pow_add_r, Z.pow_1_r in H by lia.
    destruct (shr_1_up r (J * 2 ^ Zpos p * 2 ^ Zpos p) H0) as [A B]; [lia|].
    destruct (IH _ (J * 2 ^ Zpos p) A B) as [C D]. exact (IH _ _ C D).
  - replace (Zpos p~0) with (Zpos p + Zpos p) in H by lia. rewrite !Z.pow_add_r in H by lia.
    destruct (IH r (J * 2 ^ Zpos p) H0) as [C D]; [lia|]. exact (IH _ _ C D).
  - apply shr_1_up; auto.
Qed.

Lemma round_up r : 0 <= shr_m r ->
  0 <= round_nearest_even (shr_m r) (loc_of_shr_record r) <= up r.
Proof.
  destruct r as [m r s]. unfold up. cbn [shr_m shr_r shr_s loc_of_shr_record]. intros H.
  destruct r, s; cbn; try lia. destruct (Z.even m); lia.
Qed.

Definition loc_up (m : Z) (l : location) : Z := match l with loc_Exact => m | loc_Inexact _ => m + 1 end.
Lemma up_of_loc m l : up (shr_record_of_loc m l) = loc_up m l /\ shr_m (shr_record_of_loc m l) = m.
Proof. destruct l as [|[]]; unfold up; cbn; split; lia. Qed.

Lemma digits_bound m e j k : 0 <= m -> e <= k -> 0 <= j < 2 ^ 24 -> m <= j * 2 ^ (k - e) -> Zdigits2 m + e <= 24 + k.
Proof.
  intros H0 He Hj H. destruct m as [|p|p]; cbn [Zdigits2]; [lia| |lia].
  pose proof (digits2_pos_bounds p) as [B _].
  destruct (Z.leb_spec (Zpos (digits2_pos p) + e) (24 + k)); auto.
  assert (2 ^ (24 + (k - e)) <= 2 ^ (Zpos (digits2_pos p) - 1)) by (apply Z.pow_le_mono_r; lia).
  rewrite Z.pow_add_r in H2 by lia.
  assert (0 < 2 ^ (k - e)) by (apply Z.pow_pos_nonneg; lia).
  assert (j * 2 ^ (k - e) < 2 ^ 24 * 2 ^ (k - e)) by (apply Z.mul_lt_mono_pos_r; lia). lia.
Qed.

Lemma loc_up_ge m l : m <= loc_up m l.
Proof. destruct l; cbn; lia. Qed.

Lemma shr_fexp_up m e l j k : 0 <= m -> e <= k -> -149 <= k -> 0 <= j < 2 ^ 24 -> loc_up m l <= j * 2 ^ (k - e) ->
  let '(r, e') := shr_fexp prec32 emax32 m e l in
  0 <= shr_m r /\ e <= e' <= k /\ up r <= j * 2 ^ (k - e').
Proof.
  intros H0 He Hk Hj H. pose proof (loc_up_ge m l).
  pose proof (digits_bound m e j k H0 He Hj ltac:(lia)) as HD.
  destruct (up_of_loc m l) as [U1 U2]. unfold shr_fexp, shr.
  set (n := fexp prec32 emax32 (Zdigits2 m + e) - e).
  assert (Hn : n <= k - e) by (unfold n, fexp, emin, prec32, emax32; lia).
  destruct n as [|p|p]; [rewrite U1, U2; lia| |rewrite U1, U2; lia].
  assert (E : j * 2 ^ (k - e) = j * 2 ^ (k - (e + Zpos p)) * 2 ^ Zpos p).
  { rewrite <- Z.mul_assoc, <- Z.pow_add_r by lia. f_equal. f_equal. lia. }
  destruct (iter_up p (shr_record_of_loc m l) (j * 2 ^ (k - (e + Zpos p)))) as [A B]; [lia|lia|].
  repeat split; auto; lia.
Qed.

(** [x] is a non-negative finite number, at most [j * 2^k]. *)
Definition below (j k : Z) (x : f32) : Prop :=
  match x with
  | S754_zero false => True
  | S754_finite false m e => -149 <= e <= k /\ Zpos m <= j * 2 ^ (k - e)
  | _ => False
  end.

Lemma below_fin j k x : below j k x -> is_fin x = true.
Proof. destruct x as [[]| | |[]]; cbn; tauto. Qed.

Lemma fexp_min t : -149 <= fexp prec32 emax32 t.
Proof. unfold fexp, emin, prec32, emax32. lia. Qed.

Lemma shr_fexp_min m e l : -149 <= snd (shr_fexp prec32 emax32 m e l).
Proof.
  unfold shr_fexp, shr. pose proof (fexp_min (Zdigits2 m + e)).
  destruct (fexp prec32 emax32 (Zdigits2 m + e) - e) eqn:E; cbn [snd]; lia.
Qed.

(** Rounding does not pass a representable number. *)
Lemma round_below m e l j k : 0 <= m -> e <= k -> -149 <= k <= 104 -> 0 <= j < 2 ^ 24 -> loc_up m l <= j * 2 ^ (k - e) ->
  below j k (binary_round_aux prec32 emax32 false m e l).
Proof.
  intros H0 He Hk Hj H. unfold binary_round_aux.
  pose proof (shr_fexp_up m e l j k H0 He (proj1 Hk) Hj H) as A.
  destruct (shr_fexp prec32 emax32 m e l) as [r e']. destruct A as (A1 & A2 & A3).
  pose proof (round_up r A1) as R. set (m2 := round_nearest_even _ _) in *.
  pose proof (shr_fexp_up m2 e' loc_Exact j k (proj1 R) (proj2 A2) (proj1 Hk) Hj) as B.
  pose proof (shr_fexp_min m2 e' loc_Exact) as M.
  destruct (shr_fexp prec32 emax32 m2 e' loc_Exact) as [r2 e2]. cbn [snd] in M. destruct B as (B1 & B2 & B3); [cbn; lia|].
  unfold up in B3. destruct (shr_m r2) as [|p|p]; cbn [below]; [auto| |lia].
  change (emax32 - prec32) with 104. destruct (Z.leb_spec e2 104); [|lia]. cbn [below].
  split; [lia|]. destruct (shr_r r2 || shr_s r2); lia.
Qed.

Lemma normalize_below p e j k : e <= k -> -149 <= k <= 104 -> 0 <= j < 2 ^ 24 -> Zpos p <= j * 2 ^ (k - e) ->
  below j k (binary_round prec32 emax32 false p e).
Proof.
  intros He Hk Hj H. unfold binary_round, shl_align.
  destruct (fexp prec32 emax32 (Zpos (digits2_pos p) + e) - e) as [|q|q] eqn:E; try (apply round_below; cbn; lia).
  set (e' := fexp prec32 emax32 (Zpos (digits2_pos p) + e)) in *.
  apply round_below; try lia. cbn [loc_up]. rewrite shift_pos_spec.
  replace (k - e') with (k - e + Zpos q) by lia. rewrite Z.pow_add_r, Z.mul_assoc by lia.
  apply Z.mul_le_mono_nonneg_r; [apply Z.pow_nonneg; lia|auto].
Qed.

Lemma of_N_below n : (n <= u32_max)%N -> is_fin (f32_of_N n) = true.
Proof.
  intros H. destruct n as [|p]; [reflexivity|]. unfold f32_of_N, f32_of_Z. cbn [Z.of_N binary_normalize].
  apply (below_fin 1 32). apply normalize_below; try lia.
  unfold u32_max in H. change (1 * 2 ^ (32 - 0)) with 4294967296. lia.
Qed.

Lemma shl_align_spec m e e' : e' <= e ->
  Zpos (fst (shl_align m e e')) = Zpos m * 2 ^ (e - e').
Proof.
  intros H. unfold shl_align. destruct (e' - e) as [|q|q] eqn:E; cbn [fst].
  - replace (e - e') with 0 by lia. lia.
  - lia.
  - rewrite shift_pos_spec. f_equal. f_equal. lia.
Qed.

Lemma add_below a b x y : below a 0 x -> below b 0 y -> 0 <= a -> 0 <= b -> a + b < 2 ^ 24 -> below (a + b) 0 (f32_add x y).
Proof.
  intros Hx Hy Ha Hb Hab. unfold f32_add.
  assert (G : forall j m e, 0 <= j -> j <= a + b -> -149 <= e <= 0 -> Zpos m <= j * 2 ^ (0 - e) -> Zpos m <= (a + b) * 2 ^ (0 - e)).
  { intros j m e Hj Hj' He Hm. assert (0 <= 2 ^ (0 - e)) by (apply Z.pow_nonneg; lia).
    assert (j * 2 ^ (0 - e) <= (a + b) * 2 ^ (0 - e)) by (apply Z.mul_le_mono_nonneg_r; lia). lia. }
  destruct x as [[]| | |[] mx ex], y as [[]| | |[] my ey]; cbn [below] in Hx, Hy; try contradiction; cbn [SFadd Bool.eqb below].
  - auto.
  - split; [lia|]. eapply (G b); eauto; lia.
  - split; [lia|]. eapply (G a); eauto; lia.
  - unfold cond_Zopp. destruct Hx as [Hx1 Hx2], Hy as [Hy1 Hy2].
    set (ez := Z.min ex ey). pose proof (shl_align_spec mx ex ez ltac:(lia)) as Sx.
    pose proof (shl_align_spec my ey ez ltac:(lia)) as Sy.
    set (px := fst (shl_align mx ex ez)) in *. set (py := fst (shl_align my ey ez)) in *.
    change (Zpos px + Zpos py) with (Zpos (px + py)). cbn [binary_normalize].
    apply normalize_below; try lia. rewrite Pos2Z.inj_add, Sx, Sy.
    assert (F : forall m e j, Zpos m <= j * 2 ^ (0 - e) -> ez <= e -> e <= 0 -> Zpos m * 2 ^ (e - ez) <= j * 2 ^ (0 - ez)).
    { intros m e j Hm H1 H2. replace (0 - ez) with (0 - e + (e - ez)) by lia. rewrite Z.pow_add_r, Z.mul_assoc by lia.
      apply Z.mul_le_mono_nonneg_r; [apply Z.pow_nonneg; lia|auto]. }
    pose proof (F mx ex a Hx2 ltac:(lia) ltac:(lia)). pose proof (F my ey b Hy2 ltac:(lia) ltac:(lia)).
    rewrite Z.mul_add_distr_r. lia.
Qed.

(** ** What the powers have to satisfy *)

(** a proper non-negative finite float below 2^80 *)
Lemma valid_parts m e : bounded prec32 emax32 m e = true ->
  -149 <= e <= 104 /\ Zpos m < 2 ^ 24 /\ (-149 < e -> 2 ^ 23 <= Zpos m).
Proof.
  unfold bounded, canonical_mantissa. intros H. apply andb_true_iff in H. destruct H as [H1 H2].
  apply Zeq_bool_eq in H1. apply Z.leb_le in H2.
  unfold fexp, emin, prec32, emax32 in *. pose proof (digits2_pos_bounds m) as [B1 B2].
  split; [lia|]. split.
  - assert (2 ^ Zpos (digits2_pos m) <= 2 ^ 24) by (apply Z.pow_le_mono_r; lia). lia.
  - intros He. replace (Zpos (digits2_pos m) - 1) with 23 in B1 by lia. auto.
Qed.

(** the order on proper positive floats is the order of their values *)
Lemma leb_value m1 e1 m2 e2 : bounded prec32 emax32 m1 e1 = true -> bounded prec32 emax32 m2 e2 = true ->
  SFleb (S754_finite false m1 e1) (S754_finite false m2 e2) = true ->
  e1 <= e2 /\ Zpos m1 <= Zpos m2 * 2 ^ (e2 - e1).
Proof.
  intros V1 V2 H. apply valid_parts in V1. apply valid_parts in V2.
  destruct V1 as (A1 & A2 & A3), V2 as (B1 & B2 & B3).
  unfold SFleb, SFcompare in H. destruct (Z.compare_spec e1 e2) as [E|E|E]; [| |discriminate].
  - subst. split; [lia|]. rewrite Z.sub_diag, Z.pow_0_r. 
    change (Pcompare m1 m2 Eq) with (Pos.compare m1 m2) in H. destruct (Pos.compare_spec m1 m2); try discriminate; lia.
  - split; [lia|]. replace (e2 - e1) with (1 + (e2 - e1 - 1)) by lia. rewrite Z.pow_add_r by lia.
    assert (1 <= 2 ^ (e2 - e1 - 1)) by (assert (0 < 2 ^ (e2 - e1 - 1)) by (apply Z.pow_pos_nonneg; lia); lia).
    assert (2 ^ 23 <= Zpos m2) by (apply B3; lia).
    assert (Zpos m2 * (2 ^ 1 * 1) <= Zpos m2 * (2 ^ 1 * 2 ^ (e2 - e1 - 1))).
    { apply Z.mul_le_mono_nonneg_l; [lia|]. apply Z.mul_le_mono_nonneg_l; lia. }
    change (2 ^ 24) with 16777216 in *. change (2 ^ 23) with 8388608 in *. change (2 ^ 1) with 2 in *. lia.
Qed.

(** One summand. *)
Lemma mul_below n pm pe : (0 < n)%N -> (n < 16777216)%N -> bounded prec32 emax32 pm pe = true -> pe <= 80 ->
  exists D, 0 < D <= 24 /\ 2 ^ (D - 1) <= Z.of_N n /\ below (Zpos pm) (pe + D) (f32_mul (f32_of_N n) (S754_finite false pm pe)).
Proof.
  intros H0 Hn V Hpe. destruct n as [|p]; [lia|].
  destruct (f32_of_pos_small p) as (m & e & E & He & Hm); [lia|]. rewrite E. unfold f32_mul. cbn [SFmul xorb].
  apply valid_parts in V. destruct V as (V1 & V2 & V3).
  pose proof (digits2_pos_bounds p) as [B1 B2]. set (D := Zpos (digits2_pos p)) in *.
  assert (HD : D <= 24).
  { destruct (Z.leb_spec D 24); auto. assert (2 ^ 24 <= 2 ^ (D - 1)) by (apply Z.pow_le_mono_r; lia). lia. }
  exists D. split; [lia|]. split; [cbn [Z.of_N]; lia|]. apply round_below; try lia.
  cbn [loc_up]. replace (pe + D - (e + pe)) with 24 by lia. rewrite Pos2Z.inj_mul, Z.mul_comm.
  apply Z.mul_le_mono_nonneg_l; [lia|]. rewrite Hm.
  assert (Zpos p * 2 ^ (24 - D) <= 2 ^ D * 2 ^ (24 - D)) by (apply Z.mul_le_mono_nonneg_r; [apply Z.pow_nonneg; lia|lia]).
  rewrite <- Z.pow_add_r in H by lia. replace (D + (24 - D)) with 24 in H by lia. auto.
Qed.

Lemma div_below D ym ye sm se : 0 < D <= 23 -> -149 <= ye -> -149 <= se <= 104 ->
  (forall c, c <= ye -> c <= se -> Zpos ym * 2 ^ (ye - c) <= 2 ^ D * Zpos sm * 2 ^ (se - c)) ->
  below (2 ^ D) 0 (f32_div (S754_finite false ym ye) (S754_finite false sm se)).
Proof.
  intros HD Hy Hs H. unfold f32_div. cbn [SFdiv xorb]. unfold SFdiv_core_binary. cbn [Zdigits2].
  pose proof (digits2_pos_bounds ym) as [Y1 Y2]. pose proof (digits2_pos_bounds sm) as [S1 S2].
  set (dy := Zpos (digits2_pos ym)) in *. set (ds := Zpos (digits2_pos sm)) in *.
  assert (Hpy : 0 < dy) by (unfold dy; lia). assert (Hps : 0 < ds) by (unfold ds; lia).
  clearbody dy ds.
  set (e' := Z.min (fexp prec32 emax32 (dy + ye - (ds + se))) (ye - se)).
  assert (Ht : dy + ye - (ds + se) <= D).
  { destruct (Z.leb_spec (dy + ye - (ds + se)) D); auto. exfalso.
    assert (HC : exists c, c <= ye /\ c <= se) by (exists (Z.min ye se); lia). destruct HC as (c & C1 & C2). pose proof (H c C1 C2) as H'.
    assert (A : 2 ^ (dy - 1) * 2 ^ (ye - c) <= Zpos ym * 2 ^ (ye - c)) by (apply Z.mul_le_mono_nonneg_r; [apply Z.pow_nonneg; lia|lia]).
    assert (B : 2 ^ D * Zpos sm * 2 ^ (se - c) < 2 ^ D * 2 ^ ds * 2 ^ (se - c)).
    { apply Z.mul_lt_mono_pos_r; [apply Z.pow_pos_nonneg; lia|]. apply Z.mul_lt_mono_pos_l; [apply Z.pow_pos_nonneg; lia|lia]. }
    rewrite <- Z.pow_add_r in A by lia. rewrite <- (Z.pow_add_r 2 D ds) in B by lia. rewrite <- (Z.pow_add_r 2 (D + ds)) in B by lia.
    assert (2 ^ (D + ds + (se - c)) <= 2 ^ (dy - 1 + (ye - c))) by (apply Z.pow_le_mono_r; lia). lia. }
  assert (He : e' <= -1) by (unfold e', fexp, emin, prec32, emax32; lia).
  set (s := ye - se - e'). assert (Hs0 : 0 <= s) by (unfold s, e'; lia).
  assert (Hm : match s with Z0 => Zpos ym | Zpos _ => Z.shiftl (Zpos ym) s | Zneg _ => 0 end = Zpos ym * 2 ^ s).
  { destruct s as [|q|q] eqn:Es; [rewrite Z.pow_0_r; lia| |lia]. rewrite Z.shiftl_mul_pow2 by lia. auto. }
  rewrite Hm. pose proof (Z.div_eucl_eq (Zpos ym * 2 ^ s) (Zpos sm) ltac:(lia)) as Q1.
  pose proof (Z.mod_pos_bound (Zpos ym * 2 ^ s) (Zpos sm) ltac:(lia)) as Q2. unfold Z.modulo in Q2.
  pose proof (Z.div_pos (Zpos ym * 2 ^ s) (Zpos sm)) as Q3. unfold Z.div in Q3.
  destruct (Z.div_eucl (Zpos ym * 2 ^ s) (Zpos sm)) as [q r].
  assert (Hq : 0 <= q) by (apply Q3; [apply Z.mul_nonneg_nonneg; [lia|apply Z.pow_nonneg; lia]|lia]). clear Q3.
  assert (HB : Zpos ym * 2 ^ s <= 2 ^ D * 2 ^ (0 - e') * Zpos sm).
  { pose proof (H (se + e') ltac:(unfold e'; lia) ltac:(lia)) as H'.
    replace (ye - (se + e')) with s in H' by (unfold s; lia).
    replace (se - (se + e')) with (0 - e') in H' by lia. lia. }
  assert (P2 : 2 ^ D < 2 ^ 24) by (apply Z.pow_lt_mono_r; lia).
  apply round_below; [lia|lia|lia| |].
  - split; [apply Z.pow_nonneg; lia|auto].
  - set (F := 2 ^ D * 2 ^ (0 - e')) in *.
    assert (L : loc_up q (new_location (Zpos sm) r) <= if r =? 0 then q else q + 1).
    { destruct (Z.eqb_spec r 0) as [->|E]; unfold new_location, new_location_even, new_location_odd; destruct (Z.even _); [cbn; lia|cbn; lia| |];
      (assert (Zeq_bool r 0 = false) as -> by (unfold Zeq_bool; destruct (Z.compare_spec r 0); auto; lia)); cbn [loc_up]; lia. }
    destruct (Z.eqb_spec r 0); [nia|].
    destruct (Z.leb_spec (q + 1) F); [lia|]. exfalso. assert (F <= q) by lia. nia.
Qed.

(** A proper non-negative finite float. *)
Definition proper (x : f32) : Prop := match x with S754_zero false => True | S754_finite false m e => bounded prec32 emax32 m e = true | _ => False end.

Lemma term_below n x sc sm se : (n < 8388608)%N -> proper x -> sc = S754_finite false sm se -> proper sc -> se <= 80 ->
  SFleb x sc = true ->
  below (2 * Z.of_N n) 0 (f32_div (f32_mul (f32_of_N n) x) sc).
Proof.
  intros Hn Px -> Psc Hse Hle. cbn [proper] in Psc.
  pose proof (valid_parts _ _ Psc) as (S1 & S2 & S3).
  destruct (N.eq_dec n 0) as [->|Hn0].
  { change (f32_of_N 0) with (S754_zero false). destruct x as [[]| | |[]]; cbn in Px |- *; tauto. }
  destruct x as [[]| | |[] pm pe]; cbn [proper] in Px; try contradiction.
  { assert (Z0 : f32_mul (f32_of_N n) (S754_zero false) = S754_zero false).
    { destruct n as [|p]; [reflexivity|]. destruct (f32_of_pos_small p) as (m & e & -> & _); [lia|]. reflexivity. }
    rewrite Z0. cbn. auto. }
  destruct (leb_value _ _ _ _ Px Psc Hle) as [L1 L2].
  destruct (mul_below n pm pe) as (D & HD & HDn & B); [lia|lia|auto|lia|].
  destruct (f32_mul (f32_of_N n) (S754_finite false pm pe)) as [[]| | |[] ym ye]; cbn [below] in B; try contradiction.
  { cbn. auto. }
  assert (HD23 : D <= 23).
  { destruct (Z.leb_spec D 23); auto. assert (2 ^ 23 <= 2 ^ (D - 1)) by (apply Z.pow_le_mono_r; lia). lia. }
  assert (G : below (2 ^ D) 0 (f32_div (S754_finite false ym ye) (S754_finite false sm se))).
  { apply div_below; try lia. destruct B as [B1 B2]. intros c C1 C2.
    pose proof (valid_parts _ _ Px) as (X1 & X2 & X3).
    (* ym*2^(ye-c) <= pm * 2^(pe+D-c) <= sm * 2^(se-pe) * 2^(pe+D-c) *)
    destruct (Z.le_gt_cases c (pe + D)) as [C3|C3]; [|lia].
    assert (Y : Zpos ym * 2 ^ (ye - c) <= Zpos pm * 2 ^ (pe + D - c)).
    { replace (pe + D - c) with (pe + D - ye + (ye - c)) by lia. rewrite Z.pow_add_r, Z.mul_assoc by lia.
      apply Z.mul_le_mono_nonneg_r; [apply Z.pow_nonneg; lia|auto]. }
    assert (T : Zpos pm * 2 ^ (pe + D - c) <= Zpos sm * 2 ^ (se - pe) * 2 ^ (pe + D - c)).
    { apply Z.mul_le_mono_nonneg_r; [apply Z.pow_nonneg; lia|auto]. }
    rewrite <- Z.mul_assoc, <- Z.pow_add_r in T by lia.
    replace (se - pe + (pe + D - c)) with (D + (se - c)) in T by lia. rewrite Z.pow_add_r in T by lia. lia. }
  assert (E2 : 2 ^ D <= 2 * Z.of_N n).
  { replace D with (1 + (D - 1)) by lia. rewrite Z.pow_add_r by lia. change (2 ^ 1) with 2. lia. }
  destruct (f32_div _ _) as [[]| | |[] m e]; cbn [below] in *; auto.
  destruct G as [G1 G2]. split; [lia|].
  assert (2 ^ D * 2 ^ (0 - e) <= 2 * Z.of_N n * 2 ^ (0 - e)) by (apply Z.mul_le_mono_nonneg_r; [apply Z.pow_nonneg; lia|lia]). lia.
Qed.

Definition hsum (h : list N) : N := fold_right N.add 0%N h.

Lemma minor_below pow sc sm se : sc = S754_finite false sm se -> proper sc -> se <= 80 ->
  forall h pref a sum, below a 0 sum -> 0 <= a -> a + 2 * Z.of_N (hsum h) < 2 ^ 24 ->
  (forall x, (x < pref + N.of_nat (length h))%N -> proper (pow (f32_of_N x)) /\ SFleb (pow (f32_of_N x)) sc = true) ->
  below (a + 2 * Z.of_N (hsum h)) 0 (minor_sum pow sc pref h sum).
Proof.
  intros Esc Psc Hse. induction h as [|n h IH]; intros pref a sum Hs Ha Hb Hp; cbn [minor_sum hsum fold_right] in *.
  - rewrite Z.mul_0_r, Z.add_0_r. auto.
  - fold (hsum h) in *. cbn [length] in Hp. replace (a + 2 * Z.of_N (n + hsum h)) with (a + 2 * Z.of_N n + 2 * Z.of_N (hsum h)) by lia.
    apply IH.
    + apply add_below; try lia; auto. destruct (Hp pref) as [P1 P2]; [lia|]. eapply term_below; eauto. change (2 ^ 24) with 16777216 in Hb. lia.
    + lia.
    + lia.
    + intros x Hx. apply Hp. lia.
Qed.

Lemma hsum_upd h : forall i, (i < length h)%nat -> hsum (upd h i (at_ h i + 1)%N) = (hsum h + 1)%N.
Proof.
  induction h as [|x h IH]; intros i Hi; cbn [length] in Hi; [lia|]. destruct i as [|i].
  - cbn. lia.
  - change (upd (x :: h) (Datatypes.S i) (at_ (x :: h) (Datatypes.S i) + 1)%N) with (x :: upd h i (at_ h i + 1)%N).
    change (hsum (x :: upd h i (at_ h i + 1)%N)) with (x + hsum (upd h i (at_ h i + 1)%N))%N.
    rewrite IH by lia. change (hsum (x :: h)) with (x + hsum h)%N. lia.
Qed.

Lemma hsum_bump l : forall h, (forall x, In x l -> (N.to_nat x < length h)%nat) -> hsum (bump l h) = (hsum h + N.of_nat (length l))%N.
Proof.
  induction l as [|x l IH]; intros h H; cbn [bump length]; [lia|].
  rewrite IH. 2:{ intros y Hy. rewrite upd_length. apply H. right; auto. }
  rewrite hsum_upd by (apply H; left; auto). lia.
Qed.

Lemma hsum_zeros k : hsum (repeat 0%N k) = 0%N.
Proof. induction k; cbn; auto. Qed.

Lemma all_prefs_length d n : forall rows p, (forall row, In row rows -> length row = n) -> length (all_prefs d p rows) = (length rows * n)%nat.
Proof.
  induction rows as [|r rows IH]; intros p H; cbn [all_prefs length]; [lia|].
  rewrite app_length, IH by (intros; apply H; right; auto). unfold row_prefs. rewrite map_length, (H r (or_introl eq_refl)). lia.
Qed.
Lemma all_prefs_le d : wf_input d -> forall rows p x, In x (all_prefs d p rows) -> (x <= i_max_pref d)%N.
Proof.
  intros HW. induction rows as [|r rows IH]; intros p x H; cbn [all_prefs] in H; [contradiction|].
  apply in_app_or in H. destruct H as [H|H]; [|eauto]. unfold row_prefs in H. apply in_map_iff in H. destruct H as (c & <- & _). unfold prefv.
  destruct (nth_error (i_choosers d) p) as [ch|] eqn:E; [|lia].
  destruct (nth_in_or_default c (cs_prefs ch) 0%N) as [Hin| ->]; [|lia]. eapply wf_max; eauto. eapply nth_error_In; eauto.
Qed.

Lemma f32_2p100 : f32_of_N (2 ^ 100) = S754_finite false 8388608 77.
Proof. vm_compute. reflexivity. Qed.

Lemma tame_parts pow d : tame pow d -> exists sm se, scoring_scaling pow d = S754_finite false sm se /\ proper (scoring_scaling pow d) /\ se <= 80 /\ forall x, (x <= i_max_pref d)%N -> proper (pow (f32_of_N x)) /\ SFleb (pow (f32_of_N x)) (scoring_scaling pow d) = true.
Proof.
  unfold tame, scoring_scaling. change (f32_of_Z 1) with (f32_of_N 1).
  set (L := if (i_max_pref d =? 0)%N then _ else _). cbn zeta. intros (V & P & B & X).
  rewrite f32_2p100 in B. destruct L as [[]| [] | |[] sm se]; try discriminate.
  exists sm, se. split; auto. split; [exact V|]. split.
  { unfold SFltb, SFcompare in B. destruct (Z.compare_spec se 77); try discriminate; lia. }
  intros x Hx. destruct (X x Hx) as (V' & P' & L'). split; auto.
  destruct (pow (f32_of_N x)) as [[]| [] | |[] m e]; cbn [proper]; auto; try (destruct P' as [P'|P']; discriminate P'); first [exact V' | discriminate L'].
Qed.

Lemma valid_finite pr pow g d S A :
  fits d -> wf_input d -> (i_max_pref d < u32_max)%N -> valid_solution d S A ->
  (N.of_nat (n_choosers d) * N.of_nat (n_slots d) < 8388608)%N -> tame pow d ->
  exists sc, evaluate pr pow g d (SolComplete S A) = Ok sc /\ score_finite sc = true /\ (is_nan (sc_major sc) = g).
Proof.
  intros HF HW HM [VS VR] HN HT.
  destruct (tame_parts pow d HT) as (sm & se & Esc & Psc & Hse & HX).
  pose proof (vs_length _ _ VS) as HL. pose proof (vs_range _ _ VS) as HS.
  destruct (respects_rows d S A HL VR) as [HA HR].
  cbn [evaluate]. unfold evaluate_minor.
  rewrite (sol_is_feasible_complete d S A HF HW HL HS VR). cbn [bind negb].
  rewrite (pref_histogram_ok d A HW HA HR HM pr). cbn [bind].
  set (h0 := repeat 0%N (N.to_nat (i_max_pref d + 1))).
  set (h := bump (all_prefs d 0 A) h0).
  assert (Hl0 : length h0 = N.to_nat (i_max_pref d + 1)) by apply repeat_length.
  assert (Hh : hsum h = (N.of_nat (n_choosers d) * N.of_nat (n_slots d))%N).
  { unfold h. rewrite hsum_bump.
    - unfold h0 at 1. rewrite hsum_zeros, (all_prefs_length d (n_slots d)), HA; [lia|].
      intros row Hin. apply In_nth_error in Hin. destruct Hin as [p Hp]. apply (HR p row Hp).
    - intros x Hx. apply all_prefs_le in Hx; auto. rewrite Hl0. lia. }
  assert (B : below (0 + 2 * Z.of_N (hsum h)) 0 (minor_sum pow (scoring_scaling pow d) 0 h f32_zero)).
  { eapply minor_below; eauto.
    - exact I.
    - lia.
    - rewrite Hh. change (2 ^ 24) with 16777216. lia.
    - intros x Hx. unfold h in Hx. rewrite bump_length, Hl0 in Hx. apply HX. lia. }
  apply below_fin in B.
  destruct g; cbn [bind].
  - rewrite B. cbn [is_fin is_nan orb andb]. eexists. split; [reflexivity|]. unfold score_finite. cbn [sc_minor sc_major]. rewrite B. auto.
  - destruct (evaluate_major_worst d A HW HA HR) as (m & Em & Wm). rewrite Em. cbn [bind].
    pose proof (worst_pref_bound d A m HW Wm) as Hm.
    assert (Fm : is_fin (f32_of_N m) = true) by (apply of_N_below; lia).
    assert (Nm : is_nan (f32_of_N m) = false) by (destruct (f32_of_N m); auto; discriminate).
    rewrite Fm, B. cbn [orb andb]. eexists. split; [reflexivity|]. unfold score_finite. cbn [sc_minor sc_major]. rewrite B, Fm. auto.
Qed.

(** ** An infinite power of 0 (negative exponents) *)
Lemma nonfin_add x y : is_fin x = false -> is_fin (f32_add x y) = false.
Proof. destruct x as [|[]| |], y as [|[]| |]; cbn; auto; discriminate. Qed.
Lemma nonfin_add_r x y : is_fin y = false -> is_fin (f32_add x y) = false.
Proof. destruct x as [|[]| |], y as [|[]| |]; cbn; auto; discriminate. Qed.
Lemma nonfin_sum pow sc : forall h pref sum, is_fin sum = false -> is_fin (minor_sum pow sc pref h sum) = false.
Proof. induction h as [|n h IH]; intros pref sum H; cbn [minor_sum]; auto. apply IH, nonfin_add; auto. Qed.
Lemma nonfin_mul x : is_fin (f32_mul x f32_inf) = false.
Proof. destruct x; reflexivity. Qed.
Lemma nonfin_div x y : is_fin x = false -> is_fin (f32_div x y) = false.
Proof. destruct x, y; cbn; auto; discriminate. Qed.

Lemma inf_power_of_zero pr pow g d S A :
  fits d -> wf_input d -> (i_max_pref d < u32_max)%N -> valid_solution d S A ->
  pow (f32_of_N 0) = f32_inf -> evaluate pr pow g d (SolComplete S A) = Ok score_infinite.
Proof.
  intros HF HW HM [VS VR] HP.
  pose proof (vs_length _ _ VS) as HL. pose proof (vs_range _ _ VS) as HS.
  destruct (respects_rows d S A HL VR) as [HA HR].
  cbn [evaluate]. unfold evaluate_minor.
  rewrite (sol_is_feasible_complete d S A HF HW HL HS VR). cbn [bind negb].
  rewrite (pref_histogram_ok d A HW HA HR HM pr). cbn [bind].
  set (h := bump _ _).
  assert (Hh : length h = N.to_nat (i_max_pref d + 1)) by (unfold h; rewrite bump_length; apply repeat_length).
  destruct h as [|n t]; [cbn in Hh; lia|]. cbn [minor_sum].
  set (m := minor_sum _ _ _ _ _).
  assert (Hm : is_fin m = false).
  { unfold m. apply nonfin_sum, nonfin_add_r, nonfin_div. rewrite HP. apply nonfin_mul. }
  destruct g; cbn [bind].
  - rewrite Hm, andb_false_r. auto.
  - rewrite (evaluate_major_ok d A HW HA HR). cbn [bind]. rewrite Hm, andb_false_r. auto.
Qed.
