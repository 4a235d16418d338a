(** The processed input as a whole. *)
From Verif Require Import Base M_Data Spec M_Union M_Names M_Build Spec_Input P_Union P_Scoring P_Con P_Compile P_Resolve P_Limits.
From Coq Require Import Relations Sorted.
Notation length := Datatypes.length.
Notation get := Base.get.
Notation concat := List.concat.

(** ** Preferences of the reader *)
Definition is_max_pref (r : reader) (m : N) : Prop :=
  (forall c x, In c (r_choosers r) -> In x (cs_prefs c) -> (x <= m)%N) /\
  (m = 0%N \/ exists c, In c (r_choosers r) /\ In m (cs_prefs c)).

Lemma fold_max_spec l : forall a, (a <= fold_left N.max l a)%N /\ (forall x, In x l -> (x <= fold_left N.max l a)%N) /\
  (fold_left N.max l a = a \/ In (fold_left N.max l a) l).
Proof.
  induction l as [|y l IH]; intros a; cbn [fold_left].
  - split; [lia|]. split; [intros x []|auto].
  - destruct (IH (N.max a y)) as (H1 & H2 & H3). split; [lia|]. split.
    + intros x [<-|Hx]; [lia|auto].
    + destruct H3 as [H3|H3]; [|right; right; auto]. rewrite H3.
      destruct (N.max_spec a y) as [[_ E]|[_ E]]; rewrite E; [right; left; auto|auto].
Qed.

Lemma max_pref_spec cs : forall a, let m := fold_left (fun m c => fold_left N.max (cs_prefs c) m) cs a in
  (a <= m)%N /\ (forall c x, In c cs -> In x (cs_prefs c) -> (x <= m)%N) /\
  (m = a \/ exists c, In c cs /\ In m (cs_prefs c)).
Proof.
  induction cs as [|c cs IH]; intros a; cbn [fold_left].
  - split; [lia|]. split; [intros c x []|auto].
  - destruct (fold_max_spec (cs_prefs c) a) as (F1 & F2 & F3).
    destruct (IH (fold_left N.max (cs_prefs c) a)) as (H1 & H2 & H3). split; [lia|]. split.
    + intros c' x [<-|Hc] Hx; [specialize (F2 x Hx); lia|eauto].
    + destruct H3 as [H3|(c' & Hc' & Hm)]; [|right; exists c'; split; [right|]; auto].
      rewrite H3. destruct F3 as [F3|F3]; [left; auto|right; exists c; split; [left|]; auto].
Qed.

Lemma max_pref_is r : is_max_pref r (max_pref_of (r_choosers r)).
Proof. destruct (max_pref_spec (r_choosers r) 0) as (_ & H2 & H3). split; auto. Qed.

Definition mirror (m : N) (c : chooser_data) : chooser_data :=
  mkChooser (cs_name c) (map (fun x => m - x)%N (cs_prefs c)).

Definition prefs_complete (r : reader) : Prop :=
  forall c, In c (r_choosers r) -> length (cs_prefs c) = length (r_choices r).

Lemma build_prefs_ok pr r m mc : build_preferences pr r = Ok (m, mc) ->
  prefs_complete r /\ m = max_pref_of (r_choosers r) /\ mc = map (mirror m) (r_choosers r).
Proof.
  unfold build_preferences. destruct (forallb _ _) eqn:E; [|discriminate].
  rewrite forallb_forall in E. intros H. apply bind_ok in H as (cs & Hc & H). injection H as <- <-.
  split; [intros c Hc'; apply Nat.eqb_eq; auto|]. split; auto.
  rewrite (mmap_pure _ (mirror (max_pref_of (r_choosers r)))) in Hc; [congruence|].
  intros c Hin. rewrite (mmap_pure _ (fun x => max_pref_of (r_choosers r) - x)%N); [reflexivity|].
  intros x Hx. unfold sub_u32. destruct (max_pref_is r) as [HM _]. specialize (HM c x Hin Hx).
  destruct (N.leb_spec x (max_pref_of (r_choosers r))); [auto|lia].
Qed.
Lemma build_prefs_total pr r : build_preferences pr r <> Panic.
Proof.
  unfold build_preferences. destruct (forallb _ _) eqn:E; [|discriminate].
  rewrite (mmap_pure _ (mirror (max_pref_of (r_choosers r)))); [discriminate|].
  intros c Hin. rewrite (mmap_pure _ (fun x => max_pref_of (r_choosers r) - x)%N); [reflexivity|].
  intros x Hx. unfold sub_u32. destruct (max_pref_is r) as [HM _]. specialize (HM c x Hin Hx).
  destruct (N.leb_spec x (max_pref_of (r_choosers r))); [auto|lia].
Qed.

(** ** Levels *)
Lemma n_insert_in x l y : In y (n_insert x l) <-> y = x \/ In y l.
Proof. induction l as [|h t IH]; cbn; [intuition|]. destruct (x <=? h)%N; cbn; [intuition|]. rewrite IH. intuition. Qed.
Lemma n_sort_in l y : In y (n_sort l) <-> In y l.
Proof. induction l as [|h t IH]; cbn; [tauto|]. rewrite n_insert_in, IH. intuition. Qed.
Lemma n_insert_sorted x l : Sorted N.le l -> Sorted N.le (n_insert x l).
Proof.
  induction 1 as [|h t HS IH HR]; cbn; [repeat constructor|].
  destruct (N.leb_spec x h).
  - constructor; [constructor; auto|constructor; auto].
  - constructor; auto. destruct t as [|h' t']; cbn in *.
    + constructor; lia.
    + inversion HR; subst. destruct (x <=? h')%N; constructor; lia.
Qed.
Lemma n_sort_sorted l : Sorted N.le (n_sort l).
Proof. induction l; cbn; [constructor|]. apply n_insert_sorted; auto. Qed.
Lemma n_dedup_in l y : In y (n_dedup l) <-> In y l.
Proof.
  induction l as [|a t IH]; [tauto|]. cbn [n_dedup]. destruct t as [|b t']; [tauto|].
  destruct (N.eqb_spec a b) as [->|]; [rewrite IH; cbn; tauto|]. cbn [In] in *. rewrite IH. tauto.
Qed.
Lemma n_dedup_sorted l : Sorted N.le l -> StronglySorted N.lt (n_dedup l).
Proof.
  intros H. apply Sorted_StronglySorted in H; [|intros a b c; lia].
  induction l as [|a t IH]; cbn [n_dedup]; [constructor|]. inversion H as [|? ? Ht Hf]; subst.
  destruct t as [|b t']; [repeat constructor|]. destruct (N.eqb_spec a b) as [->|Hne]; [auto|].
  constructor; auto. rewrite Forall_forall in *. intros x Hx. apply (n_dedup_in (b :: t') x) in Hx.
  inversion Ht as [|? ? Ht' Hf']; subst. rewrite Forall_forall in Hf'.
  specialize (Hf b (or_introl eq_refl)). destruct Hx as [<-|Hx]; [lia|]. specialize (Hf' x Hx). lia.
Qed.

Lemma levels_in r m x : In x (build_levels r m) <->
  (exists c, In c (r_choosers r) /\ In x (cs_prefs c)) \/ x = m \/ x = 0%N.
Proof.
  unfold build_levels. rewrite n_dedup_in, n_sort_in, in_app_iff, in_flat_map. cbn. intuition.
Qed.
Lemma levels_sorted r m : StronglySorted N.lt (build_levels r m).
Proof. apply n_dedup_sorted, n_sort_sorted. Qed.

(** ** Constraint lists *)
Lemma raw_ok x es raw : raw_constraints x es = Ok raw ->
  exists built parts, mmap (build_expr x) es = Ok built /\ compute_part_constraints (x_choices x) = Ok parts /\
    raw = concat built ++ parts.
Proof.
  unfold raw_constraints. intros H. apply bind_ok in H as (b & Hb & H). apply bind_ok in H as (p & Hp & H).
  injection H as <-. eauto.
Qed.

Lemma raw_indexed x ps es raw : x_choices x = blocks 0 ps -> raw_constraints x es = Ok raw ->
  forall k, In k raw -> indexed (length (x_choices x)) (length (x_slots x)) (length (x_choosers x)) k.
Proof.
  intros EC H k Hk. destruct (raw_ok _ _ _ H) as (built & parts & Hb & Hp & ->). apply in_app_or in Hk as [Hk|Hk].
  - apply in_concat in Hk as (l & Hl & Hk). destruct (mmap_in _ _ _ _ Hb Hl) as (e & He & Ee).
    eapply build_expr_indexed; eauto. rewrite EC. apply blocks_cont_ok.
  - rewrite EC in Hp |- *. apply (compute_part_ok ps parts Hp) in Hk as (i & a & b & ca & cb & Hab & Ha & Hb' & E).
    apply part_bound in Ha, Hb'. rewrite blocks_length.
    destruct E as [-> | ->]; unfold indexed; cbn; auto.
Qed.

Lemma uf_new_bound n u : uf_new n = Ok u -> (Z.of_nat n <= i32_max)%Z.
Proof.
  unfold uf_new, to_i32. destruct (Z.leb_spec (Z.of_nat n) i32_max); [auto|discriminate].
Qed.

(** Group relation of a processed input. *)
Definition one_audience (d : input_data) (a b : nat) : Prop := linked (same_pairs (i_assign d)) a b.

Definition sched_kind (k : constraint) : bool := (kind_code (c_kind k) <? 65536)%N.

Lemma is_scheduling_spec k : is_scheduling_constraint k = true -> sched_kind k = true.
Proof. unfold is_scheduling_constraint, sched_kind. destruct k as [kk ? ? ?]; destruct kk; cbn; auto; discriminate. Qed.
Lemma is_assignment_spec k : is_assignment_constraint k = true -> sched_kind k = false.
Proof. unfold is_assignment_constraint, sched_kind. destruct k as [kk ? ? ?]; destruct kk; cbn; auto; discriminate. Qed.
Lemma kind_split k : match c_kind k with Invalid => False | _ => True end ->
  is_scheduling_constraint k = negb (is_assignment_constraint k).
Proof. destruct k as [kk ? ? ?]; destruct kk; cbn; auto; contradiction. Qed.

Lemma same_pairs_filter cs a b : In (a, b) (same_pairs (filter is_assignment_constraint cs)) <-> In (a, b) (same_pairs cs).
Proof.
  rewrite !same_pairs_in. split; intros (x & H).
  - apply filter_In in H as [H _]. eauto.
  - exists x. apply filter_In. split; auto.
Qed.
Lemma linked_ext js js' a b : (forall x y, In (x, y) js <-> In (x, y) js') -> linked js a b <-> linked js' a b.
Proof.
  intros H. split; apply linked_mono; intros [x y] Hxy; apply H; auto.
Qed.

(** ** Everything a successful build establishes *)
Record built_from (pr : profile) (r : reader) (d : input_data)
       (raw cs : list constraint) (css : list chooser_data) : Prop := {
  bf_complete : prefs_complete r;
  bf_max : i_max_pref d = max_pref_of (r_choosers r);
  bf_css : css = map (fun c => mkChooser (cs_name c) (spread (r_choices r) (cs_prefs c)))
                     (map (mirror (i_max_pref d)) (r_choosers r));
  bf_raw : raw_constraints (mkCtx (build_slots r) css (blocks 0 (r_choices r))) (r_exprs r) = Ok raw;
  bf_cs : reduce_and_optimize raw (length (blocks 0 (r_choices r))) = Ok (cs, false);
  bf_size : (Z.of_nat (length (blocks 0 (r_choices r))) <= i32_max)%Z;
  bf_slots : i_slots d = build_slots r;
  bf_sched : i_sched d = filter is_scheduling_constraint cs;
  bf_assign : i_assign d = filter is_assignment_constraint cs;
  bf_levels : i_levels d = build_levels r (i_max_pref d);
  bf_choices : exists limits, get_dependent_limits (blocks 0 (r_choices r)) cs = Ok limits /\
     i_choices d = map (fun cl => mkChoice (ch_name (fst cl)) (fst (snd cl)) (snd (snd cl))
                                      (ch_cont (fst cl)) (ch_optional (fst cl))) (combine (blocks 0 (r_choices r)) limits);
  bf_choosers : exists prefs, get_dependent_prefs (blocks 0 (r_choices r)) css cs = Ok prefs /\
     i_choosers d = map (fun cp => mkChooser (cs_name (fst cp)) (snd cp)) (combine css prefs);
  bf_groups : get_dependent_choices cs (length (i_choices d)) = Ok (i_groups d);
  bf_maps : build_maps (length (i_choices d)) (length (i_choosers d)) (i_sched d) = Ok (i_choice_map d, i_chooser_map d)
}.

Lemma build_inv pr r d : build_input pr r = Ok d -> exists raw cs css, built_from pr r d raw cs css.
Proof.
  unfold build_input. intros H. apply bind_ok in H as ([m mc] & Hmc & H).
  destruct (build_prefs_ok _ _ _ _ Hmc) as (HC & Em & Emc).
  destruct (compile_choices (r_choices r) mc) as [chs css] eqn:Ecc.
  destruct (compile_spec (r_choices r) mc chs css) as [-> Ecss]; auto.
  { intros c Hc. rewrite Emc in Hc. apply in_map_iff in Hc as (c0 & <- & Hc0). cbn. rewrite map_length. auto. }
  apply bind_ok in H as (raw & Hraw & H). apply bind_ok in H as ([cs inf] & Hred & H).
  destruct inf; [discriminate|].
  apply bind_ok in H as (limits & Hlim & H). apply bind_ok in H as (prefs & Hprefs & H).
  apply bind_ok in H as (groups & Hg & H). apply bind_ok in H as ([cm pm] & Hm & H). injection H as <-.
  exists raw, cs, css. constructor; cbn [i_max_pref i_slots i_sched i_assign i_levels i_choices i_choosers i_groups i_choice_map i_chooser_map fst snd]; eauto; try congruence.
  unfold get_dependent_choices in Hg. apply bind_ok in Hg as (u & Hu & _). apply uf_new_bound in Hu.
  unfold get_dependent_limits in Hlim. apply bind_ok in Hlim as (u2 & Hu2 & _). apply uf_new_bound in Hu2. auto.
Qed.

Section Built.
Variables (pr : profile) (r : reader) (d : input_data) (raw cs : list constraint) (css : list chooser_data).
Hypothesis B : built_from pr r d raw cs css.
Let ps := r_choices r.
Let x0 := mkCtx (build_slots r) css (blocks 0 ps).

Lemma b_ctx : ctx_of r x0.
Proof.
  constructor; cbn; auto. rewrite (bf_css _ _ _ _ _ _ B), !map_map. apply map_ext. auto.
Qed.
Lemma b_css_length : length css = length (r_choosers r).
Proof. rewrite (bf_css _ _ _ _ _ _ B), !map_length. auto. Qed.

Lemma b_raw_indexed k : In k raw -> indexed (length (blocks 0 ps)) (length (build_slots r)) (length css) k.
Proof. intros Hk. pose proof (raw_indexed x0 ps _ raw eq_refl (bf_raw _ _ _ _ _ _ B) k Hk). auto. Qed.

Lemma b_cs_indexed k : In k cs -> indexed (length (blocks 0 ps)) (length (build_slots r)) (length css) k /\
    match c_kind k with SlotContainsChoice | SlotNotContainsChoice | SlotsHaveSameChoices
                       | ChoiceContainsChooser | ChoiceNotContainsChooser | Invalid => False | _ => True end.
Proof.
  eapply reduce_indexed; [|exact (bf_cs _ _ _ _ _ _ B)]. exact b_raw_indexed.
Qed.
Lemma b_cs_shaped k : In k cs -> shaped k.
Proof. intros Hk. destruct (b_cs_indexed k Hk) as [H _]. eapply indexed_shaped; eauto. Qed.
Lemma b_same_bound a b : In (a, b) (same_pairs cs) -> a < length (blocks 0 ps) /\ b < length (blocks 0 ps).
Proof.
  intros H. apply same_pairs_in in H as (x & H). apply b_cs_indexed in H as [H _]. unfold indexed in H; cbn in H. tauto.
Qed.
Lemma b_in_bound p o : In (p, o) (in_pairs cs) -> p < length css /\ o < length (blocks 0 ps).
Proof.
  intros H. apply in_pairs_in in H as (x & H). apply b_cs_indexed in H as [H _]. unfold indexed in H; cbn in H. tauto.
Qed.

Lemma b_limits : exists limits, shared_bounds (blocks 0 ps) (linked (same_pairs cs)) limits /\
   i_choices d = map (fun cl => mkChoice (ch_name (fst cl)) (fst (snd cl)) (snd (snd cl))
                                      (ch_cont (fst cl)) (ch_optional (fst cl))) (combine (blocks 0 ps) limits).
Proof.
  destruct (bf_choices _ _ _ _ _ _ B) as (limits & Hl & E). exists limits. split; auto.
  destruct (limits_spec (blocks 0 ps) cs) as (l2 & Hl2 & HS).
  - apply (bf_size _ _ _ _ _ _ B). - exact b_same_bound. - exact b_cs_shaped.
  - pose proof (eq_trans (eq_sym Hl) Hl2) as E2. injection E2 as <-. auto.
Qed.
Lemma b_choices_length : length (i_choices d) = length (blocks 0 ps).
Proof.
  destruct b_limits as (limits & [HL _] & ->). rewrite map_length, combine_length. lia.
Qed.

Lemma b_choice_nth c ch : nth_error (i_choices d) c = Some ch ->
  exists cd, nth_error (blocks 0 ps) c = Some cd /\ ch_name ch = ch_name cd /\ ch_cont ch = ch_cont cd /\ ch_optional ch = ch_optional cd.
Proof.
  destruct b_limits as (limits & [HL _] & ->). rewrite nth_error_map. intros H.
  destruct (nth_error (combine _ _) c) as [[cd l]|] eqn:E; [|discriminate]. injection H as <-. cbn.
  exists cd. split; auto. clear -E. revert limits c E. induction (blocks 0 ps) as [|a t IH]; intros [|b l'] [|c] E; cbn in *; try discriminate.
  - injection E as <- <-; auto. - eauto.
Qed.

Lemma combine_nth_error {X Y} (a : list X) (b : list Y) : forall c x y, nth_error (combine a b) c = Some (x, y) <->
  nth_error a c = Some x /\ nth_error b c = Some y.
Proof.
  revert b; induction a as [|h t IH]; intros [|h' t'] [|c] x y; cbn; split; intros H; try discriminate;
    try (destruct H; discriminate).
  - injection H as <- <-; auto. - destruct H as [H1 H2]; congruence. - apply IH; auto. - apply IH; auto.
Qed.

Lemma b_linked a b : linked (same_pairs cs) a b <-> one_audience d a b.
Proof.
  unfold one_audience. apply linked_ext. intros x y. rewrite (bf_assign _ _ _ _ _ _ B), same_pairs_filter. tauto.
Qed.

Lemma b_bounds c ch : nth_error (i_choices d) c = Some ch ->
  (forall c' cd, one_audience d c c' -> nth_error (blocks 0 ps) c' = Some cd -> (ch_min cd <= ch_min ch /\ ch_max ch <= ch_max cd)%N) /\
  (exists c' cd, one_audience d c c' /\ nth_error (blocks 0 ps) c' = Some cd /\ ch_min cd = ch_min ch) /\
  (ch_max ch = u32_max \/ exists c' cd, one_audience d c c' /\ nth_error (blocks 0 ps) c' = Some cd /\ ch_max cd = ch_max ch).
Proof.
  destruct b_limits as (limits & [HL HS] & ->). rewrite nth_error_map. intros H.
  destruct (nth_error (combine _ _) c) as [[cd l]|] eqn:E; [|discriminate]. injection H as <-.
  apply combine_nth_error in E as [E1 E2]. destruct l as [a b]. cbn [ch_min ch_max fst snd].
  destruct (HS c a b E2) as (K1 & (c1 & cd1 & R1 & N1 & M1) & K3). split; [|split].
  - intros c' cd' HR. apply K1. apply b_linked; auto.
  - exists c1, cd1. split; auto. apply b_linked; auto.
  - destruct K3 as [|(c2 & cd2 & R2 & N2 & M2)]; auto. right. exists c2, cd2. split; auto. apply b_linked; auto.
Qed.

(** preferences *)
Lemma b_prefs (HU : reader_u32 r) :
  length (i_choosers d) = length (r_choosers r) /\
  forall p cd, nth_error (r_choosers r) p = Some cd ->
    exists ch, nth_error (i_choosers d) p = Some ch /\ cs_name ch = cs_name cd /\
      length (cs_prefs ch) = length (blocks 0 ps) /\
      forall c x, nth_error (cs_prefs ch) c = Some x ->
        (In (p, c) (in_pairs cs) -> x = 0%N) /\
        (~ In (p, c) (in_pairs cs) ->
          (forall c' y, one_audience d c c' -> nth_error (spread ps (map (fun z => i_max_pref d - z)%N (cs_prefs cd))) c' = Some y -> (x <= y)%N) /\
          (exists c', one_audience d c c' /\ nth_error (spread ps (map (fun z => i_max_pref d - z)%N (cs_prefs cd))) c' = Some x)).
Proof.
  destruct (bf_choosers _ _ _ _ _ _ B) as (prefs & Hp & E).
  unfold get_dependent_prefs in Hp. apply bind_ok in Hp as (gs & Hgs & Hp). apply bind_ok in Hp as (prefs1 & Hp1 & Hp).
  destruct (get_dependent_ok _ _ _ Hgs) as [HG _].
  assert (Hrow : forall c, In c css -> exists row', mfold group_min gs (cs_prefs c) = Ok row' /\
            row_min (linked (same_pairs cs)) (cs_prefs c) row' /\ length (cs_prefs c) = length (blocks 0 ps)).
  { intros c Hc. rewrite (bf_css _ _ _ _ _ _ B), map_map in Hc. apply in_map_iff in Hc as (c0 & <- & Hc0).
    assert (HL : length (spread (r_choices r) (map (fun z => i_max_pref d - z)%N (cs_prefs c0))) = length (blocks 0 ps)).
    { rewrite blocks_length. apply spread_length. rewrite map_length. apply (bf_complete _ _ _ _ _ _ B); auto. }
    destruct (row_min_spec _ _ _ (cs_prefs (mkChooser (cs_name (mirror (i_max_pref d) c0)) (spread (r_choices r) (cs_prefs (mirror (i_max_pref d) c0))))) HG) as (row' & E1 & E2); cbn [cs_prefs mirror]; auto.
    - intros z; apply rst_refl.
    - intros z Hz. assert (Hin : forall (ps : list proto) (row : list N) z, In z (spread ps row) -> In z row).
      { clear. induction ps as [|q t IH]; intros [|y row] z Hz; cbn in Hz; auto. apply in_app_or in Hz as [Hz|Hz].
        - apply repeat_spec in Hz. left; auto. - right; auto. }
      apply Hin in Hz. apply in_map_iff in Hz as (w & <- & Hw). rewrite (bf_max _ _ _ _ _ _ B).
      destruct (max_pref_is r) as [_ [->|(c1 & Hc1 & Hm)]]; [unfold u32_max; lia|].
      pose proof (ru_prefs _ HU _ _ Hc1 Hm). lia.
    - exists row'. auto. }
  assert (L1 : length prefs1 = length css) by (eapply mmap_length; eauto).
  destruct (zero_spec cs (length (blocks 0 ps)) (length css) b_cs_shaped b_in_bound prefs1 L1) as (prefs2 & Hz & L2 & R2 & V2).
  { intros row Hr. destruct (mmap_in _ _ _ _ Hp1 Hr) as (c & Hc & Ec). destruct (Hrow c Hc) as (row' & E1 & [E2 _] & E3). congruence. }
  rewrite Hz in Hp. injection Hp as <-.
  split. { rewrite E, map_length, combine_length, L2, b_css_length. lia. }
  intros p cd Hcd.
  assert (Hcss : nth_error css p = Some (mkChooser (cs_name cd) (spread ps (map (fun z => i_max_pref d - z)%N (cs_prefs cd))))).
  { rewrite (bf_css _ _ _ _ _ _ B), map_map, nth_error_map, Hcd. reflexivity. }
  pose proof (nth_error_lt _ _ _ Hcss) as Hlt.
  destruct (nth_error_ex prefs2 p) as [row2 Hrow2]; [lia|].
  exists (mkChooser (cs_name cd) row2). split.
  { rewrite E, nth_error_map. rewrite (proj2 (combine_nth_error css prefs2 p _ row2) (conj Hcss Hrow2)). reflexivity. }
  split; auto. cbn [cs_prefs]. split. { apply R2. eapply nth_error_In; eauto. }
  destruct (V2 p row2 Hrow2) as (row1 & Hrow1 & HV).
  destruct (mmap_nth _ _ _ _ _ Hp1 Hcss) as (row1' & Hrow1' & E1). rewrite Hrow1 in Hrow1'. injection Hrow1' as <-.
  destruct (Hrow _ (nth_error_In _ _ Hcss)) as (row1'' & E1' & HM & _). rewrite E1 in E1'. injection E1' as <-.
  cbn [cs_prefs] in HM. destruct HM as [_ HM].
  intros c x Hx. destruct (HV c) as [V3 V4]. split.
  - intros Hin. rewrite (V3 Hin) in Hx. congruence.
  - intros Hn. rewrite (V4 Hn) in Hx. destruct (HM c x Hx) as [K1 (c1 & R1 & K2)]. split.
    + intros c' y HR. apply K1. apply b_linked; auto.
    + exists c1. split; auto. apply b_linked; auto.
Qed.

(** membership in the processed lists *)
Lemma b_processed k : In k cs <-> In k (i_sched d) \/ In k (i_assign d).
Proof.
  rewrite (bf_sched _ _ _ _ _ _ B), (bf_assign _ _ _ _ _ _ B), !filter_In. split.
  - intros H. destruct (b_cs_indexed k H) as [_ HK].
    assert (match c_kind k with Invalid => False | _ => True end) as HI by (destruct (c_kind k); tauto).
    apply kind_split in HI. rewrite HI. destruct (is_assignment_constraint k); cbn; auto.
  - tauto.
Qed.

Lemma b_means S A : respects_all d S A -> forall k, In k cs -> means S A k.
Proof.
  intros HR k Hk. apply b_processed in Hk as [Hk|Hk]; unfold means.
  - pose proof Hk as Hk'. rewrite (bf_sched _ _ _ _ _ _ B) in Hk'. apply filter_In in Hk' as [_ E]. apply is_scheduling_spec in E.
    unfold sched_kind in E. rewrite E. apply (ra_sched _ _ _ HR); auto.
  - pose proof Hk as Hk'. rewrite (bf_assign _ _ _ _ _ _ B) in Hk'. apply filter_In in Hk' as [_ E]. apply is_assignment_spec in E.
    unfold sched_kind in E. rewrite E. apply (ra_asg _ _ _ HR); auto.
Qed.

Lemma b_raw_means S A : respects_all d S A -> forall k, In k raw -> means S A k.
Proof.
  intros HR. eapply reduce_loses_nothing; [|exact (bf_cs _ _ _ _ _ _ B)|apply b_means; auto].
  intros k Hk. eapply indexed_shaped. apply b_raw_indexed; auto.
Qed.

Lemma b_wf (HU : reader_u32 r) : wf_input d.
Proof.
  destruct (b_prefs HU) as [HPL HP].
  constructor.
  - rewrite (bf_slots _ _ _ _ _ _ B). unfold build_slots. destruct (r_slots r); discriminate.
  - intros k Hk. assert (Hc : In k cs) by (apply b_processed; auto).
    destruct (b_cs_indexed k Hc) as [HI HK].
    rewrite (bf_sched _ _ _ _ _ _ B) in Hk. apply filter_In in Hk as [_ E]. apply is_scheduling_spec in E.
    unfold sched_shape. rewrite b_choices_length, (bf_slots _ _ _ _ _ _ B). unfold indexed, sched_kind in *.
    destruct k as [kk a t x]; cbn [c_kind c_left c_right c_extra] in *.
    destruct kk; try contradiction; try discriminate E; destruct t; try contradiction; auto; destruct x; auto.
  - intros k Hk. assert (Hc : In k cs) by (apply b_processed; auto).
    destruct (b_cs_indexed k Hc) as [HI HK].
    rewrite (bf_assign _ _ _ _ _ _ B) in Hk. apply filter_In in Hk as [_ E]. apply is_assignment_spec in E.
    unfold asg_shape. rewrite b_choices_length, HPL, <- b_css_length. unfold indexed, sched_kind in *.
    destruct k as [kk a t x]; cbn [c_kind c_left c_right c_extra] in *.
    destruct kk; try contradiction; try discriminate E; destruct t; try contradiction; auto.
  - intros ch Hin. apply In_nth_error in Hin as [p Hp]. pose proof (nth_error_lt _ _ _ Hp) as Hlt. rewrite HPL in Hlt.
    destruct (nth_error_ex _ _ Hlt) as [cd Hcd]. destruct (HP p cd Hcd) as (ch' & Hch & _ & HL & _).
    rewrite b_choices_length. congruence.
  - intros ch z Hin Hz. apply In_nth_error in Hin as [p Hp]. pose proof (nth_error_lt _ _ _ Hp) as Hlt. rewrite HPL in Hlt.
    destruct (nth_error_ex _ _ Hlt) as [cd Hcd]. destruct (HP p cd Hcd) as (ch' & Hch & _ & HL & HV).
    assert (ch' = ch) by congruence. subst ch'. apply In_nth_error in Hz as [c Hc].
    destruct (HV c z Hc) as [V1 V2].
    assert (DEC : In (p, c) (in_pairs cs) \/ ~ In (p, c) (in_pairs cs)).
    { destruct (in_dec (fun a b : nat * nat => ltac:(decide equality; apply Nat.eq_dec) : {a = b} + {a <> b}) (p, c) (in_pairs cs)); auto. }
    destruct DEC as [D|D]; [rewrite (V1 D); lia|]. destruct (V2 D) as [_ (c' & _ & Hn)].
    apply nth_error_In in Hn. assert (Hin : forall (ps : list proto) (row : list N) z, In z (spread ps row) -> In z row).
    { clear. induction ps as [|q t IH]; intros [|y row] z Hz; cbn in Hz; auto. apply in_app_or in Hz as [Hz|Hz].
      - apply repeat_spec in Hz. left; auto. - right; auto. }
    apply Hin in Hn. apply in_map_iff in Hn as (w & <- & _). lia.
  - rewrite (bf_max _ _ _ _ _ _ B). destruct (max_pref_is r) as [_ [->|(c1 & Hc1 & Hm)]]; [unfold u32_max; lia|].
    apply (ru_prefs _ HU _ _ Hc1 Hm).
  - intros ch Hin. apply In_nth_error in Hin as [c Hc]. destruct (b_bounds c ch Hc) as (_ & (c1 & cd1 & _ & N1 & <-) & K3).
    assert (BU : forall c cd, nth_error (blocks 0 ps) c = Some cd -> (ch_min cd <= u32_max /\ ch_max cd <= u32_max)%N).
    { intros c' cd' H. pose proof (nth_error_lt _ _ _ H) as HL. rewrite blocks_length in HL.
      destruct (part_exists _ _ HL) as (i & k & p & Hp & Hk & ->). rewrite (blocks_nth ps 0 i k p Hp Hk) in H.
      injection H as <-. cbn. destruct (ru_choices _ HU p (nth_error_In _ _ Hp)) as (? & ? & ?). auto. }
    split; [apply (BU _ _ N1)|]. destruct K3 as [->|(c2 & cd2 & _ & N2 & <-)]; [lia|apply (BU _ _ N2)].
Qed.
End Built.
