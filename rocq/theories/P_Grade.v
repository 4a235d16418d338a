(** Proofs behind C80: preferences on another scale. *)
From Verif Require Import Base M_Data Spec M_Scoring P_Scoring P_Feasible P_Score M_Union M_Names M_Build P_Union Spec_Input P_Con P_Compile P_Resolve P_Limits P_Input P_Input2 P_Input3 Spec_Meta P_Meta.
From Coq Require Import String.
Notation length := Datatypes.length.
Notation get := Base.get.

Lemma spread_map_nth {X Y} (h : X -> Y) ps : forall row c, nth_error (spread ps (map h row)) c = option_map h (nth_error (spread ps row) c).
Proof.
  assert (E : forall row, spread ps (map h row) = map h (spread ps row)).
  { induction ps as [|p t IH]; intros [|x row]; cbn [spread map]; auto. rewrite IH, map_app. f_equal.
    generalize (copies p) as n. induction n as [|n IHn]; cbn; congruence. }
  intros row c. rewrite E, nth_error_map. auto.
Qed.
Lemma spread_in' {X} ps : forall (row : list X) w, In w (spread ps row) -> In w row.
Proof.
  induction ps as [|q t IH]; intros [|z row] w E; cbn [spread] in E; auto; try contradiction.
  apply in_app_or in E as [E|E]; [left; symmetry; eapply repeat_spec; eauto|right; auto].
Qed.
Lemma raw_ctx' sl (css css' : list chooser_data) chs es : map cs_name css' = map cs_name css ->
  raw_constraints (mkCtx sl css' chs) es = raw_constraints (mkCtx sl css chs) es.
Proof.
  intros EN. unfold raw_constraints.
  assert (R : forall a, resolve_accessor (mkCtx sl css' chs) a = resolve_accessor (mkCtx sl css chs) a).
  { intros a. unfold resolve_accessor. cbn [x_slots x_choosers x_choices]. rewrite EN. auto. }
  assert (AD : forall e k ex, add_constraint (mkCtx sl css' chs) e k ex = add_constraint (mkCtx sl css chs) e k ex).
  { intros e0 k ex. unfold add_constraint. rewrite !R. auto. }
  rewrite (mmap_same (build_expr (mkCtx sl css' chs)) (build_expr (mkCtx sl css chs)) es); auto.
  intros e. unfold build_expr. destruct (table e) as [[k ex]|]; auto. destruct (table (swap_sides e)) as [[k ex]|]; auto.
Qed.

(** What a normalized preference becomes. *)
Definition grade (f : N -> N) (m x : N) : N := (f m - f (m - x))%N.

Record data_regraded (f : N -> N) (d d' : input_data) : Prop := {
  dg_slots : i_slots d' = i_slots d;
  dg_choices : i_choices d' = i_choices d;
  dg_nchoosers : length (i_choosers d') = length (i_choosers d);
  dg_sched : i_sched d' = i_sched d;
  dg_assign : i_assign d' = i_assign d;
  dg_groups : i_groups d' = i_groups d;
  dg_prefs : forall p c x', pref_of d' p c x' <-> exists x, pref_of d p c x /\ x' = grade f (i_max_pref d) x
}.

Section Grade.
Variable f : N -> N.
Hypothesis INC : forall x y, (x < y)%N -> (f x < f y)%N.
Lemma inc_le x y : (x <= y)%N -> (f x <= f y)%N.
Proof. intros H. destruct (N.eq_dec x y) as [->|K]; [lia|]. assert (x < y)%N by lia. specialize (INC _ _ H0). lia. Qed.
Lemma grade_0 m : grade f m 0 = 0%N.
Proof. unfold grade. rewrite N.sub_0_r. lia. Qed.
Lemma grade_mono m x y : (x <= m)%N -> (y <= m)%N -> (x <= y)%N <-> (grade f m x <= grade f m y)%N.
Proof.
  intros Hx Hy. unfold grade. pose proof (inc_le (m - x) m). pose proof (inc_le (m - y) m). split; intros H1.
  - pose proof (inc_le (m - y) (m - x)). lia.
  - destruct (N.le_gt_cases x y); auto. assert (m - x < m - y)%N by lia. specialize (INC _ _ H3). lia.
Qed.
Lemma grade_lt m x y : (x <= m)%N -> (y <= m)%N -> (x < y)%N <-> (grade f m x < grade f m y)%N.
Proof. intros Hx Hy. pose proof (grade_mono m y x Hy Hx). lia. Qed.

Lemma max_regraded r r' : regraded f r r' -> (exists c x, In c (r_choosers r) /\ In x (cs_prefs c)) ->
  max_pref_of (r_choosers r') = f (max_pref_of (r_choosers r)).
Proof.
  intros RG (c0 & x0 & Hc0 & Hx0). destruct (max_pref_is r) as [U D]. destruct (max_pref_is r') as [U' D'].
  set (m := max_pref_of (r_choosers r)) in *. set (m' := max_pref_of (r_choosers r')) in *.
  pose proof (rg_choosers _ _ _ RG) as F2.
  assert (TO : forall c x, In c (r_choosers r) -> In x (cs_prefs c) -> (f x <= m')%N).
  { intros c x Hc Hx. apply In_nth_error in Hc as (i & Hi). destruct (Forall2_nth _ _ _ F2 _ _ Hi) as (c' & Hc' & (_ & E)).
    apply (U' c'); [eapply nth_error_In; eauto|]. rewrite E. apply in_map; auto. }
  apply N.le_antisymm.
  - destruct D' as [-> |(c' & Hc' & Hx)]; [lia|].
    assert (exists c, In c (r_choosers r) /\ cs_prefs c' = map f (cs_prefs c)) as (c & Hc & E).
    { clear - F2 Hc'. induction F2 as [|a b t t' (_ & E) _ IH]; [destruct Hc'|]. destruct Hc' as [<-|Hc']; [exists a; split; [left|]; auto|].
      destruct IH as (c & ? & ?); auto. exists c. split; auto. right; auto. }
    rewrite E in Hx. apply in_map_iff in Hx as (x & <- & Hx). apply inc_le. apply (U c); auto.
  - destruct D as [Em|(c & Hc & Hx)]; [|apply (TO c); auto].
    specialize (U c0 x0 Hc0 Hx0). rewrite Em in U. assert (x0 = 0%N) by lia. subst x0. rewrite Em. apply (TO c0); auto.
Qed.

Lemma build_regraded pr r r' d : regraded f r r' -> reader_u32 r -> reader_u32 r' -> build_input pr r = Ok d ->
  exists d', build_input pr r' = Ok d' /\ data_regraded f d d'.
Proof.
  intros RG HU HU' H. destruct (build_inv _ _ _ H) as (raw & cs & css & B).
  pose proof (rg_choices _ _ _ RG) as EC. pose proof (rg_choosers _ _ _ RG) as F2.
  pose proof (Forall2_length' _ _ _ F2) as LC.
  assert (ES : build_slots r' = build_slots r) by (unfold build_slots; rewrite (rg_slots _ _ _ RG); auto).
  assert (FN : map cs_name (r_choosers r') = map cs_name (r_choosers r)).
  { clear - F2. induction F2 as [|a b t t' (E & _) _ IH]; cbn; congruence. }
  assert (Ecss' : forall m, map cs_name (map (fun c => mkChooser (cs_name c) (spread (r_choices r') (cs_prefs c))) (map (mirror m) (r_choosers r'))) = map cs_name css).
  { intros m. rewrite (bf_css _ _ _ _ _ _ B), !map_map. cbn [cs_name mirror]. auto. }
  assert (Hraw : forall m, raw_constraints (mkCtx (build_slots r') (map (fun c => mkChooser (cs_name c) (spread (r_choices r') (cs_prefs c))) (map (mirror m) (r_choosers r'))) (blocks 0 (r_choices r'))) (r_exprs r') = Ok raw).
  { intros m. rewrite (raw_ctx' _ _ _ _ _ (Ecss' m)), ES, (rg_exprs _ _ _ RG), EC. apply (bf_raw _ _ _ _ _ _ B). }
  pose proof (bf_cs _ _ _ _ _ _ B) as Hred. pose proof (bf_size _ _ _ _ _ _ B) as Hn. rewrite <- EC in Hred, Hn.
  destruct (build_succeeds pr r' raw cs HU') as (d' & Hd'); auto.
  { intros c' Hc'. rewrite EC.
    assert (exists c, In c (r_choosers r) /\ cs_prefs c' = map f (cs_prefs c)) as (c & Hc & E).
    { clear - F2 Hc'. induction F2 as [|a b t t' (_ & E) _ IH]; [destruct Hc'|]. destruct Hc' as [<-|Hc']; [exists a; split; [left|]; auto|].
      destruct IH as (c & ? & ?); auto. exists c. split; auto. right; auto. }
    rewrite E, map_length. apply (bf_complete _ _ _ _ _ _ B); auto. }
  exists d'. split; auto. destruct (build_inv _ _ _ Hd') as (raw' & cs' & css' & B').
  pose proof (bf_css _ _ _ _ _ _ B') as E1.
  assert (raw' = raw). { pose proof (bf_raw _ _ _ _ _ _ B') as E. rewrite E1 in E. rewrite Hraw in E. congruence. } subst raw'.
  assert (cs' = cs). { pose proof (bf_cs _ _ _ _ _ _ B') as E. congruence. } subst cs'.
  assert (HA : forall a b, one_audience d a b <-> one_audience d' a b).
  { intros a b. rewrite <- (b_linked _ _ _ _ _ _ B), <- (b_linked _ _ _ _ _ _ B'). tauto. }
  assert (ECH : i_choices d' = i_choices d).
  { destruct (bf_choices _ _ _ _ _ _ B) as (l & Hl & ->). destruct (bf_choices _ _ _ _ _ _ B') as (l' & Hl' & ->). rewrite EC in *. congruence. }
  destruct (b_prefs _ _ _ _ _ _ B HU) as [L1 V]. destruct (b_prefs _ _ _ _ _ _ B' HU') as [L1' V'].
  constructor; auto.
  - rewrite (bf_slots _ _ _ _ _ _ B), (bf_slots _ _ _ _ _ _ B'). auto.
  - congruence.
  - rewrite (bf_sched _ _ _ _ _ _ B), (bf_sched _ _ _ _ _ _ B'). auto.
  - rewrite (bf_assign _ _ _ _ _ _ B), (bf_assign _ _ _ _ _ _ B'). auto.
  - pose proof (bf_groups _ _ _ _ _ _ B) as G. pose proof (bf_groups _ _ _ _ _ _ B') as G'. rewrite ECH in G'. congruence.
  - assert (KEY : forall p ch ch' c x x', nth_error (i_choosers d) p = Some ch -> nth_error (i_choosers d') p = Some ch' ->
       nth_error (cs_prefs ch) c = Some x -> nth_error (cs_prefs ch') c = Some x' -> x' = grade f (i_max_pref d) x).
    { intros p ch ch' c x x' Hch Hch' Hx Hx'.
      destruct (nth_error_ex (r_choosers r) p) as [cd Hcd]; [rewrite <- L1; eapply nth_error_lt; eauto|].
      destruct (Forall2_nth _ _ _ F2 _ _ Hcd) as (cd' & Hcd' & (_ & EP)).
      destruct (V p cd Hcd) as (ch0 & K & _ & _ & VV). assert (ch0 = ch) by congruence. subst ch0.
      destruct (V' p cd' Hcd') as (ch0 & K' & _ & _ & VV'). assert (ch0 = ch') by congruence. subst ch0. clear K K'.
      destruct (VV c x Hx) as [A1 A2]. destruct (VV' c x' Hx') as [A1' A2'].
      destruct (in_dec (fun a b : nat * nat => ltac:(decide equality; apply Nat.eq_dec) : {a = b} + {a <> b}) (p, c) (in_pairs cs)) as [D|D].
      { rewrite (A1 D), (A1' D). symmetry. apply grade_0. }
      destruct (A2 D) as [K1 (c1 & O1 & W1)]. destruct (A2' D) as [K1' (c1' & O1' & W1')].
      rewrite EC in *. rewrite EP in *.
      assert (EM : i_max_pref d' = f (i_max_pref d)).
      { rewrite (bf_max _ _ _ _ _ _ B), (bf_max _ _ _ _ _ _ B'). apply max_regraded; auto. exists cd.
        rewrite spread_map_nth in W1. destruct (nth_error (spread (r_choices r) (cs_prefs cd)) c1) as [w|] eqn:E; [|discriminate].
        exists w. split; [eapply nth_error_In; eauto|]. apply nth_error_In in E.
        eapply spread_in'; eauto. }
      set (m := i_max_pref d) in *. rewrite EM in *.
      assert (LE : forall c2 w, nth_error (spread (r_choices r) (cs_prefs cd)) c2 = Some w -> (w <= m)%N).
      { intros c2 w E. unfold m. rewrite (bf_max _ _ _ _ _ _ B). apply (proj1 (max_pref_is r) cd); [eapply nth_error_In; eauto|]. apply nth_error_In in E.
        eapply spread_in'; eauto. }
      rewrite !map_map in *. rewrite spread_map_nth in W1, W1'.
      destruct (nth_error (spread (r_choices r) (cs_prefs cd)) c1) as [w|] eqn:Ew; [|discriminate]. cbn in W1. injection W1 as <-.
      destruct (nth_error (spread (r_choices r) (cs_prefs cd)) c1') as [w'|] eqn:Ew'; [|discriminate]. cbn in W1'. injection W1' as <-.
      pose proof (LE _ _ Ew) as Lw. pose proof (LE _ _ Ew') as Lw'.
      assert (Q1 : (m - w <= m - w')%N). { apply (K1 c1'); [apply HA; auto|]. rewrite spread_map_nth, Ew'. auto. }
      assert (Q2 : (f m - f w' <= f m - f w)%N). { apply (K1' c1); [apply HA; auto|]. rewrite spread_map_nth, Ew. auto. }
      assert (w' <= w)%N by lia. pose proof (inc_le _ _ H0). pose proof (inc_le _ _ Lw). pose proof (inc_le _ _ Lw').
      assert (f w' = f w) by lia. unfold grade. replace (m - (m - w))%N with w by lia. lia. }
    assert (LP : forall p ch ch', nth_error (i_choosers d) p = Some ch -> nth_error (i_choosers d') p = Some ch' -> length (cs_prefs ch') = length (cs_prefs ch)).
    { intros p ch ch' Hch Hch'.
      destruct (nth_error_ex (r_choosers r) p) as [cd Hcd]; [rewrite <- L1; eapply nth_error_lt; eauto|].
      destruct (Forall2_nth _ _ _ F2 _ _ Hcd) as (cd' & Hcd' & _).
      destruct (V p cd Hcd) as (ch0 & K & _ & E & _). destruct (V' p cd' Hcd') as (ch0' & K' & _ & E' & _). congruence. }
    intros p c x'. split.
    + intros (ch' & Hch' & Hx'). destruct (nth_error_ex (i_choosers d) p) as [ch Hch]; [rewrite L1, <- LC, <- L1'; eapply nth_error_lt; eauto|].
      destruct (nth_error_ex (cs_prefs ch) c) as [x Hx]; [rewrite <- (LP _ _ _ Hch Hch'); eapply nth_error_lt; eauto|].
      exists x. split; [exists ch; auto|]. eapply KEY; eauto.
    + intros (x & (ch & Hch & Hx) & ->). destruct (nth_error_ex (i_choosers d') p) as [ch' Hch']; [rewrite L1', LC, <- L1; eapply nth_error_lt; eauto|].
      destruct (nth_error_ex (cs_prefs ch') c) as [x' Hx']; [rewrite (LP _ _ _ Hch Hch'); eapply nth_error_lt; eauto|].
      exists ch'. split; auto. rewrite <- (KEY _ _ _ _ _ _ Hch Hch' Hx Hx'). auto.
Qed.
End Grade.

(** Preferences play no part in what is valid. *)
Lemma same_valid_scheduling d d' S : i_choices d' = i_choices d -> length (i_slots d') = length (i_slots d) ->
  length (i_choosers d') = length (i_choosers d) -> i_sched d' = i_sched d -> valid_scheduling d S -> valid_scheduling d' S.
Proof.
  intros E1 E2 E3 E4 [V1 V2 V3 V4 V5]. constructor; rewrite ?E1, ?E2, ?E3, ?E4; auto.
Qed.
Lemma same_valid_solution d d' S A : i_choices d' = i_choices d -> length (i_slots d') = length (i_slots d) ->
  length (i_choosers d') = length (i_choosers d) -> i_sched d' = i_sched d -> i_assign d' = i_assign d -> valid_solution d S A -> valid_solution d' S A.
Proof.
  intros E1 E2 E3 E4 E5 [V R]. split; [apply (same_valid_scheduling d); auto|].
  destruct R as [R1 R2 R3 R4]. constructor.
  - unfold one_choice_per_slot in *. rewrite E2, E3. auto.
  - unfold bounds_respected in *. rewrite E1. auto.
  - rewrite E4. auto.
  - rewrite E5. auto.
Qed.
Lemma worst_regraded f d d' A x : (forall x y, (x < y)%N -> (f x < f y)%N) -> wf_input d -> data_regraded f d d' ->
  worst_pref d A x -> worst_pref d' A (grade f (i_max_pref d) x).
Proof.
  intros INC WF DG [W1 W2].
  assert (LE : forall p c y, pref_of d p c y -> (y <= i_max_pref d)%N).
  { intros p c y (ch & Hch & Hy). apply (wf_max _ WF ch); eapply nth_error_In; eauto. }
  assert (Lx : (x <= i_max_pref d)%N). { destruct W2 as [-> |(p & c & _ & _ & H)]; [lia|eauto]. }
  split.
  - intros p c y' Hp Ha Hy'. apply (dg_prefs _ _ _ DG) in Hy' as (y & Hy & ->). apply (grade_mono f INC); auto; [eapply LE; eauto|].
    rewrite (dg_nchoosers _ _ _ DG) in Hp. eauto.
  - destruct W2 as [-> |(p & c & Hp & Ha & Hx)]; [left; apply grade_0|]. right. exists p, c.
    rewrite (dg_nchoosers _ _ _ DG). split; auto. split; auto. apply (dg_prefs _ _ _ DG). eauto.
Qed.
