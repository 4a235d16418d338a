(** Proofs about scores: the order, conversion to f32, evaluation. *)
From Verif Require Import Base M_Data M_Scoring Spec P_Scoring P_Feasible.
From Coq Require Import Floats.SpecFloat.

(** ** total_cmp is the lexicographic order of an integer key *)

Definition fkey (x : f32) : Z * Z * Z :=
  match x with
  | S754_infinity true => (0, 0, 0)
  | S754_finite true m e => (1, - e, - Zpos m)
  | S754_zero true => (2, 0, 0)
  | S754_zero false => (3, 0, 0)
  | S754_finite false m e => (4, e, Zpos m)
  | S754_infinity false => (5, 0, 0)
  | S754_nan => (6, 0, 0)
  end%Z.

Definition lexZ (a b : Z * Z * Z) : comparison :=
  let '(a1, a2, a3) := a in let '(b1, b2, b3) := b in
  match (a1 ?= b1)%Z with
  | Eq => match (a2 ?= b2)%Z with Eq => (a3 ?= b3)%Z | c => c end
  | c => c
  end.

Lemma total_cmp_key x y : total_cmp x y = lexZ (fkey x) (fkey y).
Proof.
  assert (Hpos : forall m n : positive, (Zpos m ?= Zpos n)%Z = (m ?= n)%positive) by reflexivity.
  assert (Hneg : forall m n : positive, (- Zpos m ?= - Zpos n)%Z = CompOpp (m ?= n)%positive).
  { intros m n. rewrite Z.compare_opp, Hpos. apply Pos.compare_antisym. }
  destruct x as [[]|[]| |[] m e], y as [[]|[]| |[] m' e']; try reflexivity; unfold total_cmp, SFcompare, fkey, lexZ.
  - rewrite Z.compare_refl, (Z.compare_opp e e').
    rewrite (Z.compare_antisym e e'). rewrite Hneg.
    destruct (e ?= e')%Z; cbn [CompOpp]; auto.
    change (Pos.compare_cont Eq m m') with (m ?= m')%positive.
    destruct (m ?= m')%positive; reflexivity.
  - rewrite Z.compare_refl, Hpos.
    destruct (e ?= e')%Z; auto.
    change (Pos.compare_cont Eq m m') with (m ?= m')%positive.
    destruct (m ?= m')%positive; reflexivity.
Qed.

Lemma lexZ_refl a : lexZ a a = Eq.
Proof. destruct a as [[a1 a2] a3]; cbn. rewrite !Z.compare_refl. auto. Qed.

Lemma lexZ_antisym a b : lexZ a b = CompOpp (lexZ b a).
Proof.
  destruct a as [[a1 a2] a3], b as [[b1 b2] b3]; cbn.
  rewrite (Z.compare_antisym b1 a1). destruct (b1 ?= a1)%Z; cbn; auto.
  rewrite (Z.compare_antisym b2 a2). destruct (b2 ?= a2)%Z; cbn; auto.
  apply Z.compare_antisym.
Qed.

Ltac zcmp :=
  repeat match goal with
  | |- context [(?a ?= ?b)%Z] => destruct (Z.compare_spec a b); subst; try lia; cbn
  | H : context [(?a ?= ?b)%Z] |- _ => destruct (Z.compare_spec a b); subst; try lia; cbn in H
  end; try congruence; try lia; auto.

Lemma lexZ_lt_trans a b c : lexZ a b = Lt -> lexZ b c = Lt -> lexZ a c = Lt.
Proof.
  destruct a as [[a1 a2] a3], b as [[b1 b2] b3], c as [[c1 c2] c3]; unfold lexZ; intros; zcmp.
Qed.

Lemma lexZ_eq a b : lexZ a b = Eq -> a = b.
Proof.
  destruct a as [[a1 a2] a3], b as [[b1 b2] b3]; unfold lexZ; intros H; zcmp.
Qed.

Lemma total_refl x : total_cmp x x = Eq.
Proof. rewrite total_cmp_key. apply lexZ_refl. Qed.
Lemma total_antisym x y : total_cmp x y = CompOpp (total_cmp y x).
Proof. rewrite !total_cmp_key. apply lexZ_antisym. Qed.
Lemma total_lt_trans x y z : total_cmp x y = Lt -> total_cmp y z = Lt -> total_cmp x z = Lt.
Proof. rewrite !total_cmp_key. apply lexZ_lt_trans. Qed.
Lemma total_eq_subst_l x y z : total_cmp x y = Eq -> total_cmp x z = total_cmp y z.
Proof. rewrite !total_cmp_key. intros H. apply lexZ_eq in H. rewrite H. auto. Qed.
Lemma total_eq_subst_r x y z : total_cmp x y = Eq -> total_cmp z x = total_cmp z y.
Proof. rewrite !total_cmp_key. intros H. apply lexZ_eq in H. rewrite H. auto. Qed.

(** ** The order on scores *)

Lemma score_cmp_refl a : score_cmp a a = Eq.
Proof.
  unfold score_cmp. destruct (score_finite a); auto.
  rewrite total_refl. cbn. rewrite orb_true_r. apply total_refl.
Qed.

Lemma score_cmp_antisym a b : score_cmp a b = CompOpp (score_cmp b a).
Proof.
  unfold score_cmp. destruct (score_finite a), (score_finite b); auto.
  rewrite (total_antisym (sc_major a) (sc_major b)), (total_antisym (sc_minor a) (sc_minor b)).
  destruct (is_nan (sc_major a)), (is_nan (sc_major b)); cbn [orb]; auto.
  destruct (total_cmp (sc_major b) (sc_major a)); auto.
Qed.

(** same scoring mode: greedy scores have a NaN major part, others do not *)
Definition same_mode (a b : score) : Prop := is_nan (sc_major a) = is_nan (sc_major b).

Lemma score_le_trans a b c :
  same_mode a b -> same_mode b c ->
  score_cmp a b <> Gt -> score_cmp b c <> Gt -> score_cmp a c <> Gt.
Proof.
  unfold same_mode, score_cmp. intros M1 M2.
  destruct (score_finite a) eqn:Fa, (score_finite b) eqn:Fb, (score_finite c) eqn:Fc; try congruence.
  rewrite M1, M2. destruct (is_nan (sc_major c)) eqn:N; cbn [orb].
  - intros H1 H2.
    destruct (total_cmp (sc_minor a) (sc_minor b)) eqn:E1; try congruence.
    + rewrite (total_eq_subst_l _ _ _ E1); auto.
    + destruct (total_cmp (sc_minor b) (sc_minor c)) eqn:E2; try congruence.
      * rewrite <- (total_eq_subst_r _ _ _ E2), E1; auto.
      * rewrite (total_lt_trans _ _ _ E1 E2); congruence.
  - intros H1 H2.
    destruct (total_cmp (sc_major a) (sc_major b)) eqn:E1; try congruence.
    + rewrite (total_eq_subst_l _ _ (sc_major c) E1).
      destruct (total_cmp (sc_major b) (sc_major c)) eqn:E2; try congruence.
      destruct (total_cmp (sc_minor a) (sc_minor b)) eqn:E3; try congruence.
      * rewrite (total_eq_subst_l _ _ _ E3); auto.
      * destruct (total_cmp (sc_minor b) (sc_minor c)) eqn:E4; try congruence.
        -- rewrite <- (total_eq_subst_r _ _ _ E4), E3; auto.
        -- rewrite (total_lt_trans _ _ _ E3 E4); congruence.
    + destruct (total_cmp (sc_major b) (sc_major c)) eqn:E2; try congruence.
      * rewrite <- (total_eq_subst_r _ _ _ E2), E1; auto.
      * rewrite (total_lt_trans _ _ _ E1 E2); congruence.
Qed.

Lemma score_nonfinite_worst a b :
  score_finite a = false -> score_cmp a b <> Lt /\ (score_finite b = true -> score_cmp a b = Gt).
Proof. unfold score_cmp. intros ->. destruct (score_finite b); split; congruence. Qed.

Lemma score_lt_iff a b : score_lt a b = true <-> score_cmp a b = Lt.
Proof. unfold score_lt. destruct (score_cmp a b); split; congruence. Qed.

(** ** Integers up to 2^24 are converted exactly *)

Lemma digits2_pos_bounds p :
  (2 ^ (Zpos (digits2_pos p) - 1) <= Zpos p < 2 ^ Zpos (digits2_pos p))%Z.
Proof.
  induction p as [p IH|p IH|]; cbn [digits2_pos].
  - rewrite Pos2Z.inj_succ. replace (Z.succ (Zpos (digits2_pos p)) - 1)%Z with (Z.succ (Zpos (digits2_pos p) - 1)) by lia.
    rewrite !Z.pow_succ_r by lia. lia.
  - rewrite Pos2Z.inj_succ. replace (Z.succ (Zpos (digits2_pos p)) - 1)%Z with (Z.succ (Zpos (digits2_pos p) - 1)) by lia.
    rewrite !Z.pow_succ_r by lia. lia.
  - cbn. lia.
Qed.

Lemma digits2_pos_mono p q : (p <= q)%positive -> (digits2_pos p <= digits2_pos q)%positive.
Proof.
  intros H. destruct (Pos.leb_spec (digits2_pos p) (digits2_pos q)) as [|Hlt]; auto.
  pose proof (digits2_pos_bounds p). pose proof (digits2_pos_bounds q).
  assert (2 ^ Zpos (digits2_pos q) <= 2 ^ (Zpos (digits2_pos p) - 1))%Z by (apply Z.pow_le_mono_r; lia).
  lia.
Qed.

Lemma digits2_pos_unique p n : (0 < n)%Z -> (2 ^ (n - 1) <= Zpos p < 2 ^ n)%Z -> Zpos (digits2_pos p) = n.
Proof.
  intros Hn H. pose proof (digits2_pos_bounds p) as B.
  destruct (Z.lt_trichotomy (Zpos (digits2_pos p)) n) as [L|[E|G]]; auto; exfalso.
  - assert (2 ^ Zpos (digits2_pos p) <= 2 ^ (n - 1))%Z by (apply Z.pow_le_mono_r; lia). lia.
  - assert (2 ^ n <= 2 ^ (Zpos (digits2_pos p) - 1))%Z by (apply Z.pow_le_mono_r; lia). lia.
Qed.

Lemma shift_pos_spec k p : Zpos (shift_pos k p) = (Zpos p * 2 ^ Zpos k)%Z.
Proof.
  rewrite shift_pos_correct. rewrite Z.mul_comm. f_equal.
Qed.

Lemma aux_exact m e :
  Zpos (digits2_pos m) = 24%Z -> (-149 <= e)%Z -> (e <= 104)%Z ->
  binary_round_aux prec32 emax32 false (Zpos m) e loc_Exact = S754_finite false m e.
Proof.
  intros Hd H1 H2. unfold binary_round_aux, shr_fexp, fexp, emin.
  cbn [Zdigits2]. rewrite Hd.
  assert ((Z.max (24 + e - prec32) (3 - emax32 - prec32) - e)%Z = 0%Z) as E0 by (unfold prec32, emax32; lia).
  rewrite E0. cbn [shr shr_record_of_loc shr_m loc_of_shr_record round_nearest_even].
  cbn [Zdigits2]. rewrite Hd, E0. cbn [shr shr_record_of_loc shr_m].
  destruct (Z.leb_spec e (emax32 - prec32)); auto. unfold emax32, prec32 in *; lia.
Qed.

Lemma f32_of_pos_small p :
  (Zpos p < 2 ^ 24)%Z ->
  exists m e, f32_of_N (Npos p) = S754_finite false m e /\
    (e = Zpos (digits2_pos p) - 24 /\ Zpos m = Zpos p * 2 ^ (24 - Zpos (digits2_pos p)))%Z.
Proof.
  intros Hp. pose proof (digits2_pos_bounds p) as B.
  assert (Hd : (Zpos (digits2_pos p) <= 24)%Z).
  { destruct (Z.leb_spec (Zpos (digits2_pos p)) 24); auto.
    assert (2 ^ 24 <= 2 ^ (Zpos (digits2_pos p) - 1))%Z by (apply Z.pow_le_mono_r; lia). lia. }
  unfold f32_of_N, f32_of_Z. cbn [Z.of_N binary_normalize]. unfold binary_round, shl_align, fexp, emin.
  rewrite Z.add_0_r, Z.sub_0_r.
  assert (Z.max (Zpos (digits2_pos p) - prec32) (3 - emax32 - prec32) = Zpos (digits2_pos p) - 24)%Z as -> by (unfold prec32, emax32; lia).
  destruct (Zpos (digits2_pos p) - 24)%Z as [|q|q] eqn:Eq; [|lia|].
  - exists p, 0%Z. split.
    + apply aux_exact; lia.
    + split; [lia|]. replace (24 - Zpos (digits2_pos p))%Z with 0%Z by lia. rewrite Z.pow_0_r; lia.
  - exists (shift_pos q p), (Zneg q). split.
    + apply aux_exact; try lia. apply digits2_pos_unique; [lia|].
      rewrite shift_pos_spec.
      assert (24 - 1 = (Zpos (digits2_pos p) - 1) + Zpos q)%Z as E1 by lia.
      assert (24 = Zpos (digits2_pos p) + Zpos q)%Z as E2 by lia.
      rewrite E1, E2 at 1. rewrite !Z.pow_add_r by lia.
      assert (0 < 2 ^ Zpos q)%Z by (apply Z.pow_pos_nonneg; lia).
      split; [apply Z.mul_le_mono_nonneg_r | apply Z.mul_lt_mono_pos_r]; lia.
    + split; [lia|]. rewrite shift_pos_spec. f_equal. f_equal. lia.
Qed.

Lemma f32_of_2p24 : f32_of_N 16777216 = S754_finite false 8388608 1.
Proof. reflexivity. Qed.

Lemma f32_of_N_mono a b :
  (b <= 16777216)%N -> (a < b)%N -> total_cmp (f32_of_N a) (f32_of_N b) = Lt.
Proof.
  intros Hb Hab. rewrite total_cmp_key.
  destruct b as [|q]; [lia|].
  destruct a as [|p].
  - change (fkey (f32_of_N 0)) with (3, 0, 0)%Z.
    destruct (N.eq_dec (Npos q) 16777216) as [->|Hne].
    + reflexivity.
    + destruct (f32_of_pos_small q) as (m & e & -> & _); [lia|]. reflexivity.
  - destruct (f32_of_pos_small p) as (m & e & Ep & He & Hm); [lia|]. rewrite Ep.
    destruct (N.eq_dec (Npos q) 16777216) as [->|Hne].
    + rewrite f32_of_2p24. unfold fkey, lexZ. rewrite Z.compare_refl.
      assert (Zpos (digits2_pos p) <= 24)%Z.
      { pose proof (digits2_pos_bounds p). destruct (Z.leb_spec (Zpos (digits2_pos p)) 24); auto.
        assert (2 ^ 24 <= 2 ^ (Zpos (digits2_pos p) - 1))%Z by (apply Z.pow_le_mono_r; lia). lia. }
      destruct (Z.compare_spec e 1); auto; lia.
    + destruct (f32_of_pos_small q) as (m' & e' & Eq & He' & Hm'); [lia|]. rewrite Eq.
      unfold fkey, lexZ. rewrite Z.compare_refl.
      pose proof (digits2_pos_mono p q ltac:(lia)).
      destruct (Z.compare_spec e e') as [Hee|Hee|Hee]; auto; [|lia].
      assert (digits2_pos p = digits2_pos q) as Ed by lia.
      rewrite Hm, Hm', Ed. apply Z.compare_lt_iff.
      apply Z.mul_lt_mono_pos_r; [|lia]. apply Z.pow_pos_nonneg; [lia|].
      pose proof (digits2_pos_bounds q). destruct (Z.leb_spec (Zpos (digits2_pos q)) 24); [lia|].
      assert (2 ^ 24 <= 2 ^ (Zpos (digits2_pos q) - 1))%Z by (apply Z.pow_le_mono_r; lia). lia.
Qed.

Lemma f32_of_N_small_fin a : (a <= 16777216)%N -> is_fin (f32_of_N a) = true /\ is_nan (f32_of_N a) = false.
Proof.
  intros H. destruct a as [|p]; [split; reflexivity|].
  destruct (N.eq_dec (Npos p) 16777216) as [->|Hne]; [split; reflexivity|].
  destruct (f32_of_pos_small p) as (m & e & -> & _); [lia|]. split; reflexivity.
Qed.

(** ** The worst preference *)

Lemma worst_pref_unique d A x y : worst_pref d A x -> worst_pref d A y -> x = y.
Proof.
  intros [H1 H2] [H3 H4].
  destruct H2 as [->|(p & c & Hp & Ha & Hc)].
  - destruct H4 as [->|(p & c & Hp & Ha & Hc)]; auto.
    pose proof (H1 _ _ _ Hp Ha Hc). lia.
  - pose proof (H3 _ _ _ Hp Ha Hc).
    destruct H4 as [->|(p' & c' & Hp' & Ha' & Hc')]; [lia|].
    pose proof (H1 _ _ _ Hp' Ha' Hc'). lia.
Qed.

Lemma worst_pref_bound d A x : wf_input d -> worst_pref d A x -> (x <= i_max_pref d)%N.
Proof.
  intros HW [_ [->|(p & c & Hp & Ha & (ch & H1 & H2))]]; [lia|].
  eapply wf_max; eauto; eapply nth_error_In; eauto.
Qed.

Section Major.
Variable d : input_data.
Variable A : assignment.
Hypothesis HW : wf_input d.
Hypothesis HA : length A = n_choosers d.
Hypothesis HR : forall p row, nth_error A p = Some row ->
  length row = n_slots d /\ forall c, In c row -> c < n_choices d.

Definition prefv (p c : nat) : N :=
  match nth_error (i_choosers d) p with
  | Some ch => nth c (cs_prefs ch) 0%N
  | None => 0%N
  end.

Lemma pref_lookup p c :
  p < n_choosers d -> c < n_choices d ->
  exists ch, nth_error (i_choosers d) p = Some ch /\ nth_error (cs_prefs ch) c = Some (prefv p c).
Proof.
  intros Hp Hc. destruct (nth_error_in_range (i_choosers d) p Hp) as [ch Hch].
  exists ch; split; auto. unfold prefv. rewrite Hch. apply nth_error_nth'.
  rewrite (wf_prefs d HW ch); auto. eapply nth_error_In; eauto.
Qed.

Lemma pref_of_prefv p c x :
  p < n_choosers d -> c < n_choices d -> (pref_of d p c x <-> x = prefv p c).
Proof.
  intros Hp Hc. destruct (pref_lookup p c Hp Hc) as (ch & H1 & H2).
  unfold pref_of. split.
  - intros (ch' & E1 & E2). congruence.
  - intros ->. eauto.
Qed.

Fixpoint row_max (p : nat) (row : list nat) (m : N) : N :=
  match row with [] => m | c :: t => row_max p t (N.max m (prefv p c)) end.

Lemma major_inner p row m :
  nth_error A p = Some row ->
  mfold (fun m' s =>
      let* c := choice_of A p s in
      let* ch := get (i_choosers d) p in
      let* pref := get (cs_prefs ch) c in
      Ok (N.max m' pref)) (seq 0 (n_slots d)) m = Ok (row_max p row m).
Proof.
  intros Hrow. destruct (HR _ _ Hrow) as [HL HC]. rewrite <- HL.
  assert (Hp : p < n_choosers d) by (apply nth_error_lt in Hrow; lia).
  assert (G : forall n k m, k + n = length row ->
    mfold (fun m' s =>
      let* c := choice_of A p s in
      let* ch := get (i_choosers d) p in
      let* pref := get (cs_prefs ch) c in
      Ok (N.max m' pref)) (seq k n) m = Ok (row_max p (skipn k row) m)).
  { induction n as [|n IH]; intros k m' Hk; cbn [seq mfold].
    - rewrite skipn_all2 by lia; auto.
    - destruct (nth_error_in_range row k) as [c Hc]; [lia|].
      rewrite (choice_of_row _ _ _ _ Hrow). unfold get at 1. rewrite Hc; cbn [bind].
      destruct (pref_lookup p c Hp) as (ch & E1 & E2). { apply HC. eapply nth_error_In; eauto. }
      unfold get at 1. rewrite E1; cbn [bind]. unfold get at 1. rewrite E2; cbn [bind].
      rewrite IH by lia. rewrite (skipn_cons _ _ _ Hc). auto. }
  apply G; auto.
Qed.

Fixpoint rows_max (p : nat) (rows : list (list nat)) (m : N) : N :=
  match rows with [] => m | r :: t => rows_max (S p) t (row_max p r m) end.

Lemma evaluate_major_ok : evaluate_major d A = Ok (rows_max 0 A 0%N).
Proof.
  unfold evaluate_major.
  assert (G : forall n k m, k + n = n_choosers d ->
    mfold (fun m p =>
    mfold (fun m' s =>
      let* c := choice_of A p s in
      let* ch := get (i_choosers d) p in
      let* pref := get (cs_prefs ch) c in
      Ok (N.max m' pref)) (seq 0 (n_slots d)) m) (seq k n) m = Ok (rows_max k (skipn k A) m)).
  { induction n as [|n IH]; intros k m Hk; cbn [seq mfold].
    - rewrite skipn_all2 by lia; auto.
    - destruct (nth_error_in_range A k) as [row Hrow]; [lia|].
      rewrite (major_inner _ _ _ Hrow). cbn [bind]. rewrite IH by lia.
      rewrite (skipn_cons _ _ _ Hrow). auto. }
  rewrite (G (n_choosers d) 0) by lia. auto.
Qed.

Lemma row_max_spec p row m :
  (m <= row_max p row m)%N /\
  (forall c, In c row -> prefv p c <= row_max p row m)%N /\
  (row_max p row m = m \/ exists c, In c row /\ row_max p row m = prefv p c).
Proof.
  revert m; induction row as [|c row IH]; intros m; cbn [row_max].
  - repeat split; auto; [lia|]. intros c [].
  - destruct (IH (N.max m (prefv p c))) as (I1 & I2 & I3). repeat split.
    + lia.
    + intros c' [<-|Hc']; [lia|auto].
    + destruct I3 as [I3|(c' & Hc' & E)].
      * destruct (N.max_spec m (prefv p c)) as [[_ E]|[_ E]]; rewrite E in I3 at 2.
        -- right; exists c; split; [left; auto|]. exact I3.
        -- left. exact I3.
      * right. exists c'; split; [right; auto|auto].
Qed.

Lemma rows_max_spec : forall rows p m,
  (m <= rows_max p rows m)%N /\
  (forall k row c, nth_error rows k = Some row -> In c row -> prefv (p + k) c <= rows_max p rows m)%N /\
  (rows_max p rows m = m \/
   exists k row c, nth_error rows k = Some row /\ In c row /\ rows_max p rows m = prefv (p + k) c).
Proof.
  induction rows as [|r rows IH]; intros p m; cbn [rows_max].
  - repeat split; auto; [lia|]. intros [|k]; discriminate.
  - destruct (IH (S p) (row_max p r m)) as (I1 & I2 & I3).
    destruct (row_max_spec p r m) as (R1 & R2 & R3). repeat split.
    + lia.
    + intros [|k] row c Hk Hc; cbn in Hk.
      * injection Hk as <-. rewrite Nat.add_0_r. specialize (R2 c Hc). lia.
      * replace (p + S k) with (S p + k) by lia. eauto.
    + destruct I3 as [I3|(k & row & c & Hk & Hc & E)].
      * rewrite I3. destruct R3 as [R3|(c & Hc & R3)].
        -- left; auto.
        -- right. exists 0, r, c. rewrite Nat.add_0_r. auto.
      * right. exists (S k), row, c. replace (p + S k) with (S p + k) by lia. auto.
Qed.

Lemma evaluate_major_worst : exists m, evaluate_major d A = Ok m /\ worst_pref d A m.
Proof.
  exists (rows_max 0 A 0%N). split; [apply evaluate_major_ok|].
  destruct (rows_max_spec A 0 0%N) as (_ & I2 & I3).
  split.
  - intros p c y Hp (row & Hrow & Hc) Hy.
    destruct (HR _ _ Hrow) as [_ HC].
    apply pref_of_prefv in Hy; auto. subst y. apply (I2 p row c); auto.
  - destruct I3 as [I3|(k & row & c & Hk & Hc & E)]; auto.
    right. exists k, c. destruct (HR _ _ Hk) as [_ HC].
    assert (k < n_choosers d) by (apply nth_error_lt in Hk; lia).
    split; auto. split; [exists row; auto|]. apply pref_of_prefv; auto.
Qed.

End Major.

(** ** Evaluation *)

Lemma evaluate_finite_feasible p pow g d S A sc :
  evaluate p pow g d (SolComplete S A) = Ok sc -> score_finite sc = true ->
  sol_is_feasible d S A = Ok true.
Proof.
  cbn [evaluate]. intros H HF.
  apply bind_ok in H as (mj & H1 & H). apply bind_ok in H as (mn & H2 & H).
  unfold evaluate_minor in H2. apply bind_ok in H2 as (ok & H2 & H3).
  destruct ok; auto. cbn in H3. injection H3 as <-.
  exfalso. cbn in H. rewrite andb_false_r in H. injection H as <-. discriminate.
Qed.

Lemma evaluate_infeasible p pow g d S A sc :
  sol_is_feasible d S A = Ok false -> evaluate p pow g d (SolComplete S A) = Ok sc ->
  sc = score_infinite.
Proof.
  intros HS H. cbn [evaluate] in H.
  apply bind_ok in H as (mj & H1 & H). apply bind_ok in H as (mn & H2 & H).
  unfold evaluate_minor in H2. rewrite HS in H2. cbn in H2. injection H2 as <-.
  cbn in H. rewrite andb_false_r in H. congruence.
Qed.

Lemma evaluate_finite_major p pow d S A sc :
  evaluate p pow false d (SolComplete S A) = Ok sc -> score_finite sc = true ->
  exists m, evaluate_major d A = Ok m /\ sc_major sc = f32_of_N m.
Proof.
  cbn [evaluate]. intros H HF.
  apply bind_ok in H as (mj & H1 & H). apply bind_ok in H1 as (m & Hm & H1). injection H1 as <-.
  apply bind_ok in H as (mn & H2 & H).
  destruct ((is_fin (f32_of_N m) || is_nan (f32_of_N m)) && is_fin mn); injection H as <-.
  - exists m; auto.
  - discriminate.
Qed.

Lemma respects_rows d S A :
  length S = n_choices d -> respects_all d S A ->
  length A = n_choosers d /\
  forall p row, nth_error A p = Some row -> length row = n_slots d /\ forall c, In c row -> c < n_choices d.
Proof.
  intros HL [[HA HO] _ _ _]. split; auto. intros p row Hp.
  destruct (HO p row Hp) as (R1 & R2 & _). split; auto.
  intros c Hc. destruct (R2 c Hc) as [s Hs]. apply nth_error_lt in Hs. lia.
Qed.

Lemma worst_smaller_wins p pow d S1 A1 S2 A2 sc1 sc2 x1 x2 :
  wf_input d -> (i_max_pref d <= 16777216)%N ->
  length S1 = n_choices d -> length S2 = n_choices d ->
  respects_all d S1 A1 -> respects_all d S2 A2 ->
  evaluate p pow false d (SolComplete S1 A1) = Ok sc1 -> score_finite sc1 = true ->
  evaluate p pow false d (SolComplete S2 A2) = Ok sc2 -> score_finite sc2 = true ->
  worst_pref d A1 x1 -> worst_pref d A2 x2 -> (x1 < x2)%N ->
  score_cmp sc1 sc2 = Lt.
Proof.
  intros HW HM HL1 HL2 HR1 HR2 E1 F1 E2 F2 W1 W2 Hlt.
  destruct (respects_rows _ _ _ HL1 HR1) as [HA1 HC1].
  destruct (respects_rows _ _ _ HL2 HR2) as [HA2 HC2].
  destruct (evaluate_finite_major _ _ _ _ _ _ E1 F1) as (m1 & Em1 & Es1).
  destruct (evaluate_finite_major _ _ _ _ _ _ E2 F2) as (m2 & Em2 & Es2).
  destruct (evaluate_major_worst d A1 HW HA1 HC1) as (m1' & Em1' & Wm1).
  destruct (evaluate_major_worst d A2 HW HA2 HC2) as (m2' & Em2' & Wm2).
  assert (m1 = x1) as -> by (rewrite Em1 in Em1'; injection Em1' as ->; eapply worst_pref_unique; eauto).
  assert (m2 = x2) as -> by (rewrite Em2 in Em2'; injection Em2' as ->; eapply worst_pref_unique; eauto).
  pose proof (worst_pref_bound d A1 _ HW W1). pose proof (worst_pref_bound d A2 _ HW W2).
  unfold score_cmp. rewrite F1, F2, Es1, Es2.
  rewrite (f32_of_N_mono x1 x2) by lia.
  destruct (f32_of_N_small_fin x1) as [_ ->]; [lia|].
  destruct (f32_of_N_small_fin x2) as [_ ->]; [lia|]. reflexivity.
Qed.
