(** Proofs behind C70: what adding or reordering constraints does to the
    processed input. *)
From Verif Require Import Base M_Data Spec M_Scoring P_Scoring P_Feasible M_Union M_Names M_Build P_Union Spec_Input P_Con P_Compile P_Resolve P_Limits P_Input P_Input2 P_Input3 Spec_Meta.
From Coq Require Import String Relations Permutation.
Notation length := Datatypes.length.
Notation get := Base.get.
Notation concat := List.concat.

(** ** Lists *)
Lemma mmap_app {X Y} (f : X -> outcome Y) l1 : forall l2 r, mmap f (l1 ++ l2) = Ok r ->
  exists r1 r2, mmap f l1 = Ok r1 /\ mmap f l2 = Ok r2 /\ r = r1 ++ r2.
Proof.
  induction l1 as [|a t IH]; intros l2 r H; cbn [app mmap] in *.
  - exists [], r. auto.
  - apply bind_ok in H as (y & Hy & H). apply bind_ok in H as (ys & Hys & H). injection H as <-.
    destruct (IH _ _ Hys) as (r1 & r2 & E1 & E2 & ->). exists (y :: r1), r2. rewrite Hy, E1. cbn. auto.
Qed.
Lemma mmap_perm {X Y} (f : X -> outcome Y) l l' : Permutation l l' -> forall r, mmap f l = Ok r ->
  exists r', mmap f l' = Ok r' /\ Permutation r r'.
Proof.
  induction 1 as [|a l l' HP IH|a b l|l1 l2 l3 H1 IH1 H2 IH2]; intros r H.
  - exists r. auto.
  - cbn [mmap] in *. apply bind_ok in H as (y & Hy & H). apply bind_ok in H as (ys & Hys & H). injection H as <-.
    destruct (IH _ Hys) as (r' & E & HP'). exists (y :: r'). rewrite Hy, E. cbn. auto.
  - cbn [mmap] in *. apply bind_ok in H as (y & Hy & H). apply bind_ok in H as (ys & Hys & H). injection H as <-.
    apply bind_ok in Hys as (z & Hz & H). apply bind_ok in H as (zs & Hzs & H). injection H as <-.
    exists (z :: y :: zs). rewrite Hy, Hz, Hzs. cbn. split; auto. constructor.
  - destruct (IH1 _ H) as (r1 & E1 & P1). destruct (IH2 _ E1) as (r2 & E2 & P2). exists r2. split; auto.
    eapply Permutation_trans; eauto.
Qed.
Lemma flat_map_perm {X Y} (f : X -> list Y) l l' : Permutation l l' -> Permutation (flat_map f l) (flat_map f l').
Proof. apply Permutation_flat_map. Qed.
Lemma filter_perm {X} (f : X -> bool) l l' : Permutation l l' -> Permutation (filter f l) (filter f l').
Proof.
  induction 1; cbn.
  - constructor.
  - destruct (f x); auto.
  - destruct (f x), (f y); auto. constructor.
  - eapply Permutation_trans; eauto.
Qed.
Lemma perm_two {X} (L l1 : list X) a l2 b l3 : Permutation L (l1 ++ a :: l2 ++ b :: l3) ->
  exists k1 k2 k3, L = k1 ++ a :: k2 ++ b :: k3 \/ L = k1 ++ b :: k2 ++ a :: k3.
Proof.
  intros HP. assert (Ha : In a L).
  { apply (Permutation_in a (Permutation_sym HP)). apply in_or_app. right; left; auto. }
  apply in_split in Ha as (u & v & ->). apply Permutation_app_inv in HP.
  assert (Hb : In b (u ++ v)).
  { apply (Permutation_in b (Permutation_sym HP)). apply in_or_app. right. apply in_or_app. right; left; auto. }
  apply in_app_or in Hb as [Hb|Hb]; apply in_split in Hb as (w & z & ->).
  - exists w, z, v. right. rewrite <- app_assoc. reflexivity.
  - exists u, w, z. left. reflexivity.
Qed.

(** ** Mandatory pairs survive *)
Lemma mandatory_all cs gs : get_mandatory_critical_sets cs = Ok gs ->
  forall p, map snd (filter (fun q => fst q =? p) (in_pairs cs)) <> [] ->
    In (map snd (filter (fun q => fst q =? p) (in_pairs cs))) gs.
Proof.
  unfold get_mandatory_critical_sets. intros H. apply bind_ok in H as (m & Hm & H). injection H as <-.
  apply mandatory_fold in Hm. pose proof (fold_push_pairs (in_pairs cs) []) as HP. cbn [map] in HP. rewrite HP in Hm. clear HP.
  pose proof (key_group_fold (@fst nat nat) (in_pairs cs) [] [] (key_group_nil _)) as (_ & HF & HT). cbn [app] in *.
  subst m. intros p Hp. rewrite map_map.
  destruct (filter (fun q => fst q =? p) (in_pairs cs)) as [|q0 t] eqn:E; [exfalso; apply Hp; reflexivity|].
  assert (Hq : In q0 (filter (fun q => fst q =? p) (in_pairs cs))) by (rewrite E; left; auto).
  apply filter_In in Hq as [Hq Hqp]. apply Nat.eqb_eq in Hqp.
  destruct (HT _ Hq) as (vs & Hvs). destruct (HF _ _ Hvs) as [Evs _]. rewrite Hqp in Evs, Hvs.
  apply in_map_iff. exists (p, vs). cbn. split; auto. rewrite Evs. rewrite E. reflexivity.
Qed.
Lemma expand_mandatory cs n out : expand_dependent cs n = Ok out ->
  forall p l1 a l2 b l3, map snd (filter (fun q => fst q =? p) (in_pairs cs)) = l1 ++ a :: l2 ++ b :: l3 ->
    In (mkC ChoicesAreNotInSameSlot a (TChoice b) ENone) out.
Proof.
  unfold expand_dependent. intros H p l1 a l2 b l3 E. apply bind_ok in H as (dep & Hd & H). apply bind_ok in H as (mand & Hm & H).
  apply bind_ok in H as (ex & Hx & H). injection H as <-.
  rewrite con_dedup_in, con_sort_in, !in_app_iff. right; left. apply in_flat_map.
  exists (map snd (filter (fun q => fst q =? p) (in_pairs cs))). split.
  - apply (mandatory_all _ _ Hm). rewrite E. destruct l1; discriminate.
  - rewrite E. apply pairs_not_same_intro.
Qed.

(** ** Preprocessing of a larger list *)
(** Predicates that do not tell apart equivalent forms. *)
Record closed (P : constraint -> Prop) : Prop := {
  cl_sym : forall a b, P (mkC ChoicesAreNotInSameSlot a (TChoice b) ENone) -> P (mkC ChoicesAreNotInSameSlot b (TChoice a) ENone);
  cl_extra : forall kk p o x, (kk = ChooserIsInChoice \/ kk = ChooserIsNotInChoice) ->
     P (mkC kk p (TChoice o) x) -> P (mkC kk p (TChoice o) ENone)
}.
Lemma means_closed S A : closed (means S A).
Proof.
  constructor.
  - unfold means, sched_means; cbn. intros a b H s [K1 K2]. apply (H s). auto.
  - intros kk p o x [-> | ->]; exact (fun H => H).
Qed.
Lemma smeans_closed S : closed (fun k => sched_kind k = true -> sched_means S k).
Proof.
  constructor.
  - unfold sched_means; cbn. intros a b H _ s [K1 K2]. apply (H eq_refl s). auto.
  - intros kk p o x [-> | ->] _ H; discriminate H.
Qed.

Lemma expanded_same cs n out a b : expanded cs n out -> In (a, b) (same_pairs out) <-> In (a, b) (same_pairs cs).
Proof.
  intros HE. rewrite !same_pairs_in. split; intros (x & H).
  - apply (ex_only _ _ _ HE) in H as [H|[(a' & b' & _ & _ & _ & _ & E)|[(p & l1 & a' & l2 & b' & l3 & _ & E)|(kk & p & o & c & x' & Hkk & _ & _ & _ & _ & E)]]];
      eauto; try discriminate.
    injection E as Ek _ _ _. destruct Hkk as [K|K]; rewrite K in Ek; discriminate.
  - exists x. apply (ex_incl _ _ _ HE); auto.
Qed.

Lemma expanded_linked cs n out a b : expanded cs n out -> linked (same_pairs out) a b <-> linked (same_pairs cs) a b.
Proof. intros HE. apply linked_ext. intros x y. eapply expanded_same; eauto. Qed.

Lemma expanded_in cs n out p c : (forall q o, In (q, o) (in_pairs cs) -> o < n) -> expanded cs n out ->
  In (p, c) (in_pairs out) <-> exists o, In (p, o) (in_pairs cs) /\ c < n /\ linked (same_pairs cs) o c.
Proof.
  intros HB HE. rewrite in_pairs_in. split.
  - intros (x & H). apply (ex_only _ _ _ HE) in H as [H|[(a' & b' & _ & _ & _ & _ & E)|[(p' & l1 & a' & l2 & b' & l3 & _ & E)|(kk & p' & o & c' & x' & Hkk & Hin & Ho & Hc & HL & E)]]];
      try discriminate.
    + exists c. assert (Hi : In (p, c) (in_pairs cs)) by (apply in_pairs_in; eauto). split; auto. split; [eapply HB; eauto|apply rst_refl].
    + injection E as K1 K2 K3 _. subst. exists o. split; [apply in_pairs_in; eauto|auto].
  - intros (o & Ho & Hc & HL). pose proof (HB _ _ Ho) as Hon. apply in_pairs_in in Ho as (x & Ho).
    destruct (Nat.eq_dec c o) as [-> |Hne].
    + exists x. apply (ex_incl _ _ _ HE); auto.
    + exists ENone. eapply (ex_chooser _ _ _ HE); eauto.
Qed.

Lemma expand_mono base base' more n out out' P : closed P ->
  Permutation base' (base ++ more) ->
  expand_dependent base n = Ok out -> expand_dependent base' n = Ok out' ->
  (forall k, In k out' -> P k) -> forall k, In k out -> P k.
Proof.
  intros CL HP H H' HM k Hk. pose proof (expand_dependent_ok _ _ _ H) as HE. pose proof (expand_dependent_ok _ _ _ H') as HE'.
  assert (HI : forall k, In k base -> In k base').
  { intros k0 Hk0. apply (Permutation_in k0 (Permutation_sym HP)). apply in_or_app; auto. }
  assert (HL : forall a b, linked (same_pairs base) a b -> linked (same_pairs base') a b).
  { intros a b. apply linked_mono. intros [x y] Hxy. apply same_pairs_in in Hxy as (z & Hz). apply same_pairs_in. eauto. }
  apply (ex_only _ _ _ HE) in Hk as [Hk|[(a & b & Hne & Ha & Hb & Hab & ->)|[(p & l1 & a & l2 & b & l3 & E & ->)|(kk & p & o & c & x & Hkk & Hin & Ho & Hc & Hoc & ->)]]].
  - apply HM. apply (ex_incl _ _ _ HE'). auto.
  - destruct (Nat.lt_ge_cases a b).
    + apply HM. apply (ex_dep _ _ _ HE'); auto.
    + apply (cl_sym _ CL). apply HM. apply (ex_dep _ _ _ HE'); [lia|lia|]. apply rst_sym. apply HL; auto.
  - assert (HP2 : Permutation (map snd (filter (fun q => fst q =? p) (in_pairs base'))) (l1 ++ a :: l2 ++ b :: (l3 ++ map snd (filter (fun q => fst q =? p) (in_pairs more))))).
    { replace (l1 ++ a :: l2 ++ b :: (l3 ++ map snd (filter (fun q => fst q =? p) (in_pairs more))))
        with ((l1 ++ a :: l2 ++ b :: l3) ++ map snd (filter (fun q => fst q =? p) (in_pairs more))).
      2:{ rewrite <- app_assoc. cbn. rewrite <- app_assoc. reflexivity. }
      rewrite <- E, <- map_app, <- filter_app. apply Permutation_map, filter_perm.
      unfold in_pairs. rewrite <- flat_map_app. apply flat_map_perm; auto. }
    destruct (perm_two _ _ _ _ _ _ HP2) as (k1 & k2 & k3 & [E'|E']).
    + apply HM. eapply expand_mandatory; eauto.
    + apply (cl_sym _ CL). apply HM. eapply expand_mandatory; eauto.
  - destruct (Nat.eq_dec c o) as [-> |Hne].
    + eapply (cl_extra _ CL); eauto. apply HM, (ex_incl _ _ _ HE'). eauto.
    + apply HM. eapply (ex_chooser _ _ _ HE'); eauto.
Qed.

Record reduced_below (cs cs' : list constraint) : Prop := {
  rb_means : forall P, closed P -> (forall k, In k cs' -> P k) -> forall k, In k cs -> P k;
  rb_same : forall a b, In (a, b) (same_pairs cs) -> In (a, b) (same_pairs cs');
  rb_in : forall p c, In (p, c) (in_pairs cs) -> In (p, c) (in_pairs cs')
}.

Lemma reduce_mono raw raw' more nc ns np cs' :
  Permutation raw' (raw ++ more) -> (Z.of_nat nc <= i32_max)%Z ->
  (forall k, In k raw' -> indexed nc ns np k) ->
  reduce_and_optimize raw' nc = Ok (cs', false) ->
  exists cs, reduce_and_optimize raw nc = Ok (cs, false) /\ reduced_below cs cs'.
Proof.
  intros HP Hn HI H'.
  assert (HIr : forall k, In k raw -> indexed nc ns np k).
  { intros k Hk. apply HI. apply (Permutation_in k (Permutation_sym HP)). apply in_or_app; auto. }
  destruct (reduce_total raw nc ns np Hn HIr) as ([cs b] & H).
  pose proof H as H0. pose proof H' as H0'. unfold reduce_and_optimize in H, H'.
  apply bind_ok in H as (rs & Hrs & H). apply bind_ok in H as (out & Hout & H). injection H as <- <-.
  apply bind_ok in H' as (rs' & Hrs' & H'). apply bind_ok in H' as (out' & Hout' & H'). injection H' as <- HF'.
  destruct (mmap_perm _ _ _ HP _ Hrs') as (rs2 & Hrs2 & HPr).
  destruct (mmap_app _ _ _ _ Hrs2) as (r1 & r2 & E1 & E2 & ->).
  assert (r1 = rs) by congruence. subst r1.
  assert (Hb : existsb snd rs = false).
  { destruct (existsb snd rs) eqn:E; auto. exfalso. apply existsb_exists in E as (q & Hq & Eq).
    assert (K : existsb snd rs' = true).
    { apply existsb_exists. exists q. split; auto. apply (Permutation_in q (Permutation_sym HPr)). apply in_or_app; auto. }
    congruence. }
  assert (HPb : Permutation (flat_map fst rs') (flat_map fst rs ++ flat_map fst r2)).
  { rewrite <- flat_map_app. apply flat_map_perm; auto. }
  exists out. rewrite <- Hb. split; auto.
  pose proof (expand_dependent_ok _ _ _ Hout) as HE. pose proof (expand_dependent_ok _ _ _ Hout') as HE'.
  assert (HIb : forall k, In k (flat_map fst rs) -> In k (flat_map fst rs')).
  { intros k Hk. apply (Permutation_in k (Permutation_sym HPb)). apply in_or_app; auto. }
  assert (HS : forall a b, In (a, b) (same_pairs (flat_map fst rs)) -> In (a, b) (same_pairs (flat_map fst rs'))).
  { intros a c Hs. apply same_pairs_in in Hs as (x & Hx). apply same_pairs_in. eauto. }
  pose proof (reduce_indexed raw' nc ns np _ _ HI H0') as HCI'.
  pose proof (reduce_indexed raw nc ns np _ _ HIr H0) as HCI.
  assert (HB : forall q o, In (q, o) (in_pairs (flat_map fst rs)) -> o < nc).
  { intros q o Hq. apply in_pairs_in in Hq as (x & Hx). apply (ex_incl _ _ _ HE) in Hx. apply HCI in Hx as [Hx _]. unfold indexed in Hx; cbn in Hx. tauto. }
  assert (HB' : forall q o, In (q, o) (in_pairs (flat_map fst rs')) -> o < nc).
  { intros q o Hq. apply in_pairs_in in Hq as (x & Hx). apply (ex_incl _ _ _ HE') in Hx. apply HCI' in Hx as [Hx _]. unfold indexed in Hx; cbn in Hx. tauto. }
  constructor.
  - intros P CL HM. exact (expand_mono _ _ _ _ _ _ P CL HPb Hout Hout' HM).
  - intros a c Hs. apply (expanded_same _ _ _ _ _ HE'). apply HS. apply (expanded_same _ _ _ _ _ HE). auto.
  - intros p c Hi. apply (expanded_in _ _ _ _ _ HB' HE'). apply (expanded_in _ _ _ _ _ HB HE) in Hi as (o & Ho & Hc & HL).
    exists o. split.
    + apply in_pairs_in in Ho as (x & Hx). apply in_pairs_in. eauto.
    + split; auto. eapply linked_mono; [|exact HL]. intros [x y] Hxy. apply HS; auto.
Qed.

(** ** Building succeeds whenever preprocessing does *)
Lemma build_succeeds pr r raw cs : reader_u32 r -> prefs_complete r ->
  let m := max_pref_of (r_choosers r) in
  let css := map (fun c => mkChooser (cs_name c) (spread (r_choices r) (cs_prefs c))) (map (mirror m) (r_choosers r)) in
  raw_constraints (mkCtx (build_slots r) css (blocks 0 (r_choices r))) (r_exprs r) = Ok raw ->
  (Z.of_nat (length (blocks 0 (r_choices r))) <= i32_max)%Z ->
  reduce_and_optimize raw (length (blocks 0 (r_choices r))) = Ok (cs, false) ->
  exists d, build_input pr r = Ok d.
Proof.
  intros HU HC m css Hraw Hn' Hred. unfold build_input.
  assert (Hmc : build_preferences pr r = Ok (m, map (mirror m) (r_choosers r))).
  { unfold build_preferences. replace (forallb _ _) with true.
    2:{ symmetry. apply forallb_forall. intros c Hc. apply Nat.eqb_eq. apply HC; auto. }
    rewrite (mmap_pure _ (mirror m)); [reflexivity|].
    intros c Hin. rewrite (mmap_pure _ (fun x => m - x)%N); [reflexivity|].
    intros x Hx. unfold sub_u32. destruct (max_pref_is r) as [HM _]. specialize (HM c x Hin Hx).
    unfold m. destruct (N.leb_spec x (max_pref_of (r_choosers r))); [auto|lia]. }
  rewrite Hmc. cbn [bind].
  destruct (compile_choices (r_choices r) (map (mirror m) (r_choosers r))) as [chs css0] eqn:Ecc.
  destruct (compile_spec (r_choices r) (map (mirror m) (r_choosers r)) chs css0) as [-> Ecss]; auto.
  { intros c Hc. apply in_map_iff in Hc as (c0 & <- & Hc0). cbn. rewrite map_length. auto. }
  subst css0. fold css.
  set (ps := r_choices r) in *. set (x := mkCtx (build_slots r) css (blocks 0 ps)) in *.
  rewrite Hraw. cbn [bind]. rewrite Hred. cbn [bind].
  pose proof (raw_indexed x ps _ raw eq_refl Hraw) as HI. cbn [x_choices x_slots x_choosers x] in HI.
  pose proof (reduce_indexed raw _ _ _ cs false HI Hred) as HCI.
  assert (HS : forall k, In k cs -> shaped k) by (intros k Hk; eapply indexed_shaped; apply HCI; auto).
  assert (HB : forall a b, In (a, b) (same_pairs cs) -> a < length (blocks 0 ps) /\ b < length (blocks 0 ps)).
  { intros a b H. apply same_pairs_in in H as (z & H). apply HCI in H as [H _]. unfold indexed in H; cbn in H. tauto. }
  assert (HIB : forall p o, In (p, o) (in_pairs cs) -> p < length css /\ o < length (blocks 0 ps)).
  { intros p o H. apply in_pairs_in in H as (z & H). apply HCI in H as [H _]. unfold indexed in H; cbn in H. tauto. }
  destruct (limits_spec (blocks 0 ps) cs Hn' HB HS) as (limits & Hlim & [LL _]). rewrite Hlim. cbn [bind].
  destruct (prefs_total (blocks 0 ps) css cs _ eq_refl Hn' HS HB HIB) as [prefs Hprefs].
  { intros c Hc. unfold css in Hc. apply in_map_iff in Hc as (c1 & <- & Hc1).
    apply in_map_iff in Hc1 as (c0 & <- & Hc0). cbn [cs_prefs mirror]. split.
    - rewrite blocks_length. apply spread_length. rewrite map_length. auto.
    - intros z Hz. assert (Hin : forall (ps : list proto) (row : list N) z, In z (spread ps row) -> In z row).
      { clear. induction ps as [|q t IH]; intros [|y row] z Hz; cbn in Hz; auto. apply in_app_or in Hz as [Hz|Hz].
        - apply repeat_spec in Hz. left; auto. - right; auto. }
      apply Hin in Hz. apply in_map_iff in Hz as (w & <- & Hw). unfold m.
      destruct (max_pref_is r) as [_ [E0|(c1 & Hc1 & Hm)]]; [rewrite E0; unfold u32_max; lia|].
      pose proof (ru_prefs _ HU _ _ Hc1 Hm). lia. }
  rewrite Hprefs. cbn [bind].
  match goal with |- context [length (map ?f (combine (blocks 0 ps) limits))] =>
    assert (L1 : length (map f (combine (blocks 0 ps) limits)) = length (blocks 0 ps)) by (rewrite map_length, combine_length; lia)
  end.
  rewrite L1. destruct (get_dependent_total cs _ Hn' HB HS) as [gs ->]. cbn [bind].
  destruct (build_maps_spec (length (blocks 0 ps)) (length (build_slots r))
              (length (map (fun cp => mkChooser (cs_name (fst cp)) (snd cp)) (combine css prefs)))
              (filter is_scheduling_constraint cs)) as (cm & -> & _); [|cbn [bind]; eauto].
  intros k Hk. apply filter_In in Hk as [Hk E]. apply is_scheduling_spec in E. destruct (HCI k Hk) as [K1 K2].
  split; [|split; auto].
  unfold indexed, sched_kind in *. destruct k as [kk a t z]; cbn [c_kind c_left c_right c_extra] in *.
  destruct kk; try discriminate E; destruct t; try contradiction; auto; destruct z; auto.
Qed.

(** ** Sums *)
Lemma slot_sum_mono f g cs cs' S s : length cs = length cs' ->
  (forall c a b, nth_error cs c = Some a -> nth_error cs' c = Some b -> (f a <= g b)%N) ->
  (slot_sum f cs S s <= slot_sum g cs' S s)%N.
Proof.
  revert cs' S. induction cs as [|a t IH]; intros [|b t'] S HL HV; cbn in *; try discriminate; try lia.
  destruct S as [|x S]; [lia|]. specialize (IH t' S). pose proof (HV 0 a b eq_refl eq_refl).
  assert (slot_sum f t S s <= slot_sum g t' S s)%N. { apply IH; [lia|]. intros c a' b' Ha Hb. apply (HV (Datatypes.S c)); auto. }
  destruct x as [t0|]; [destruct (t0 =? s)|]; lia.
Qed.

(** ** Two readers that differ in their constraints only *)
Record below (r : reader) (d d' : input_data) : Prop := {
  be_slots : i_slots d' = i_slots d;
  be_levels : i_levels d' = i_levels d;
  be_max : i_max_pref d' = i_max_pref d;
  be_nchoices : length (i_choices d') = length (i_choices d);
  be_nchoosers : length (i_choosers d') = length (i_choosers d);
  be_choice : forall c ch ch', nth_error (i_choices d) c = Some ch -> nth_error (i_choices d') c = Some ch' ->
     ch_name ch' = ch_name ch /\ ch_cont ch' = ch_cont ch /\ ch_optional ch' = ch_optional ch /\
     (ch_min ch <= ch_min ch' /\ ch_max ch' <= ch_max ch)%N;
  be_chooser : forall p ch ch', nth_error (i_choosers d) p = Some ch -> nth_error (i_choosers d') p = Some ch' ->
     cs_name ch' = cs_name ch /\ length (cs_prefs ch') = length (cs_prefs ch) /\
     (forall c x x', nth_error (cs_prefs ch) c = Some x -> nth_error (cs_prefs ch') c = Some x' -> (x' <= x)%N);
  be_means : forall S A, respects_all d' S A -> forall k, In k (i_sched d) \/ In k (i_assign d) -> means S A k;
  be_smeans : forall S, (forall k, In k (i_sched d') -> sched_means S k) -> forall k, In k (i_sched d) -> sched_means S k
}.

Lemma build_below pr r r' more d' :
  same_objects r r' -> Permutation (r_exprs r') (r_exprs r ++ more) -> reader_u32 r ->
  build_input pr r' = Ok d' -> exists d, build_input pr r = Ok d /\ below r d d'.
Proof.
  intros (E1 & E2 & E3) HP HU H'. destruct (build_inv _ _ _ H') as (raw' & cs' & css & B').
  assert (HU' : reader_u32 r').
  { constructor; rewrite ?E2, ?E3; apply HU. }
  assert (ES : build_slots r' = build_slots r) by (unfold build_slots; rewrite E1; auto).
  pose proof (bf_raw _ _ _ _ _ _ B') as Hraw'. pose proof (bf_css _ _ _ _ _ _ B') as Ecss.
  pose proof (bf_max _ _ _ _ _ _ B') as Emax. pose proof (bf_size _ _ _ _ _ _ B') as Hn. pose proof (bf_cs _ _ _ _ _ _ B') as Hred'.
  pose proof (b_raw_indexed _ _ _ _ _ _ B') as HI'. pose proof (bf_complete _ _ _ _ _ _ B') as HC.
  rewrite ES, E2 in *. rewrite E3 in Ecss, Emax. 
  destruct (raw_ok _ _ _ Hraw') as (built' & parts & Hb' & Hp & ->). cbn [x_choices] in Hp.
  destruct (mmap_perm _ _ _ HP _ Hb') as (b2 & Hb2 & HPb).
  destruct (mmap_app _ _ _ _ Hb2) as (built & bm & Hb & Hbm & ->).
  set (raw := concat built ++ parts).
  assert (Hraw : raw_constraints (mkCtx (build_slots r) css (blocks 0 (r_choices r))) (r_exprs r) = Ok raw).
  { unfold raw_constraints. rewrite Hb. cbn [bind x_choices]. rewrite Hp. reflexivity. }
  assert (HPr : Permutation (concat built' ++ parts) (raw ++ concat bm)).
  { unfold raw. apply Permutation_trans with ((concat built ++ concat bm) ++ parts).
    - apply Permutation_app_tail. rewrite <- concat_app. rewrite <- (map_id (built ++ bm)), <- (map_id built'), <- !flat_map_concat_map. apply flat_map_perm; auto.
    - rewrite <- !app_assoc. apply Permutation_app_head. apply Permutation_app_comm. }
  destruct (reduce_mono _ _ _ _ _ _ _ HPr Hn HI' Hred') as (cs & Hred & RB).
  assert (HC0 : prefs_complete r). { intros c Hc. rewrite <- E2. apply HC. rewrite E3; auto. }
  destruct (build_succeeds pr r raw cs HU HC0) as (d & Hd); auto.
  { rewrite <- Emax. rewrite <- Ecss. exact Hraw. }
  exists d. split; auto.
  destruct (build_inv _ _ _ Hd) as (raw0 & cs0 & css0 & B).
  pose proof (bf_max _ _ _ _ _ _ B) as Emax0. pose proof (bf_css _ _ _ _ _ _ B) as Ecss0.
  assert (Em : i_max_pref d' = i_max_pref d) by congruence.
  assert (ECS : css0 = css) by congruence. clear Ecss0. rewrite ECS in B. clear css0 ECS.
  pose proof (bf_raw _ _ _ _ _ _ B) as Hraw0. rewrite Hraw in Hraw0. injection Hraw0 as ERAW. rewrite <- ERAW in B. clear raw0 ERAW.
  pose proof (bf_cs _ _ _ _ _ _ B) as Hred0. rewrite Hred in Hred0. injection Hred0 as ECS. rewrite <- ECS in B. clear cs0 ECS.
  assert (HLK : forall a b, one_audience d a b -> one_audience d' a b).
  { intros a b HA. apply (b_linked _ _ _ _ _ _ B'). apply (b_linked _ _ _ _ _ _ B) in HA. eapply linked_mono; [|exact HA].
    intros [x y] Hxy. apply (rb_same _ _ RB); auto. }
  constructor; auto.
  - rewrite (bf_slots _ _ _ _ _ _ B), (bf_slots _ _ _ _ _ _ B'). auto.
  - rewrite (bf_levels _ _ _ _ _ _ B), (bf_levels _ _ _ _ _ _ B'), Em. unfold build_levels. rewrite E3. auto.
  - rewrite (b_choices_length _ _ _ _ _ _ B), (b_choices_length _ _ _ _ _ _ B'), E2. auto.
  - destruct (b_prefs _ _ _ _ _ _ B HU) as [L _]. destruct (b_prefs _ _ _ _ _ _ B' HU') as [L' _]. rewrite L, L', E3. auto.
  - intros c ch ch' Hc Hc'.
    destruct (b_choice_nth _ _ _ _ _ _ B _ _ Hc) as (cd & Hcd & N1 & N2 & N3).
    destruct (b_choice_nth _ _ _ _ _ _ B' _ _ Hc') as (cd' & Hcd' & N1' & N2' & N3'). rewrite E2 in Hcd'.
    assert (cd' = cd) by congruence. subst cd'. repeat split; try congruence.
    + destruct (b_bounds _ _ _ _ _ _ B _ _ Hc) as (_ & (c1 & cd1 & A1 & N & <-) & _).
      destruct (b_bounds _ _ _ _ _ _ B' _ _ Hc') as (K & _). rewrite E2 in K. apply (K c1 cd1); auto.
    + destruct (b_bounds _ _ _ _ _ _ B _ _ Hc) as (_ & _ & [-> |(c1 & cd1 & A1 & N & <-)]).
      * pose proof (b_wf _ _ _ _ _ _ B' HU') as W. apply (wf_bounds_u32 _ W ch'). eapply nth_error_In; eauto.
      * destruct (b_bounds _ _ _ _ _ _ B' _ _ Hc') as (K & _). rewrite E2 in K. apply (K c1 cd1); auto.
  - intros p ch ch' Hc Hc'.
    destruct (b_prefs _ _ _ _ _ _ B HU) as [L HV]. destruct (b_prefs _ _ _ _ _ _ B' HU') as [L' HV'].
    destruct (nth_error_ex (r_choosers r) p) as [cd Hcd]. { rewrite <- L. eapply nth_error_lt; eauto. }
    destruct (HV p cd Hcd) as (ch0 & Hch0 & N1 & Ln & V). assert (ch0 = ch) by congruence. subst ch0.
    destruct (HV' p cd) as (ch0 & Hch0' & N1' & Ln' & V'); [rewrite E3; auto|]. assert (ch0 = ch') by congruence. subst ch0.
    rewrite E2 in Ln', V'. rewrite Em in V'. split; [congruence|]. split; [congruence|].
    intros c x x' Hx Hx'. destruct (V c x Hx) as [V1 V2]. destruct (V' c x' Hx') as [V1' V2'].
    assert (DEC : forall l, In (p, c) l \/ ~ In (p, c) l).
    { intros l. destruct (in_dec (fun a b : nat * nat => ltac:(decide equality; apply Nat.eq_dec) : {a = b} + {a <> b}) (p, c) l); auto. }
    destruct (DEC (in_pairs cs')) as [D'|D'].
    + rewrite (V1' D'). lia.
    + destruct (V2' D') as [V3' _]. destruct V2 as [_ (c1 & HA & Hn1)].
      { intros D. apply D'. apply (rb_in _ _ RB); auto. }
      apply (V3' c1); auto.
  - intros S A HR k Hk. apply (b_processed _ _ _ _ _ _ B) in Hk. revert k Hk. apply (rb_means _ _ RB _ (means_closed S A)).
    apply (b_means _ _ _ _ _ _ B'). auto.
  - intros S HS k Hk. pose proof Hk as Hk2. rewrite (bf_sched _ _ _ _ _ _ B) in Hk2. apply filter_In in Hk2 as [Hk2 E]. apply is_scheduling_spec in E.
    revert E. revert k Hk2 Hk. assert (G : forall k, In k cs -> sched_kind k = true -> sched_means S k).
    { apply (rb_means _ _ RB _ (smeans_closed S)). intros k Hk E. apply HS.
      apply (b_processed _ _ _ _ _ _ B') in Hk as [Hk|Hk]; auto.
      rewrite (bf_assign _ _ _ _ _ _ B') in Hk. apply filter_In in Hk as [_ Hk]. apply is_assignment_spec in Hk. congruence. }
    intros k Hk _ E. apply G; auto.
Qed.

Lemma below_scheduling r d d' S : below r d d' -> valid_scheduling d' S -> valid_scheduling d S.
Proof.
  intros BE V. constructor.
  - rewrite (vs_length _ _ V). apply (be_nchoices _ _ _ BE).
  - intros c s Hs. rewrite <- (be_slots _ _ _ BE). eapply (vs_range _ _ V); eauto.
  - intros c ch Hc Hn. destruct (nth_error_ex (i_choices d') c) as [ch' Hc'].
    { rewrite (be_nchoices _ _ _ BE). eapply nth_error_lt; eauto. }
    destruct (be_choice _ _ _ BE _ _ _ Hc Hc') as (_ & _ & <- & _). eapply (vs_optional _ _ V); eauto.
  - intros s Hs. rewrite <- (be_slots _ _ _ BE) in Hs. pose proof (vs_sums _ _ V s Hs) as [K1 K2]. rewrite <- (be_nchoosers _ _ _ BE). split.
    + eapply N.le_trans; [|exact K1]. apply slot_sum_mono; [symmetry; apply (be_nchoices _ _ _ BE)|].
      intros c a b Ha Hb. apply (be_choice _ _ _ BE _ _ _ Ha Hb).
    + eapply N.le_trans; [exact K2|]. apply slot_sum_mono; [apply (be_nchoices _ _ _ BE)|].
      intros c a b Ha Hb. apply (be_choice _ _ _ BE _ _ _ Hb Ha).
  - apply (be_smeans _ _ _ BE). apply (vs_cons _ _ V).
Qed.

Lemma below_solution pr r d d' S A : build_input pr r = Ok d -> below r d d' -> valid_solution d' S A -> valid_solution d S A.
Proof.
  intros Hd BE [V R]. split; [eapply below_scheduling; eauto|]. constructor.
  - destruct (ra_one _ _ _ R) as [L H]. unfold one_choice_per_slot. rewrite <- (be_nchoosers _ _ _ BE), <- (be_slots _ _ _ BE). auto.
  - intros c ch Hc Hh. destruct (nth_error_ex (i_choices d') c) as [ch' Hc'].
    { rewrite (be_nchoices _ _ _ BE). eapply nth_error_lt; eauto. }
    destruct (ra_bounds _ _ _ R c ch' Hc' Hh) as (m & Hm & K). exists m. split; auto.
    destruct (be_choice _ _ _ BE _ _ _ Hc Hc') as (_ & _ & _ & K2). lia.
  - apply (be_smeans _ _ _ BE). apply (vs_cons _ _ V).
  - intros k Hk. pose proof (be_means _ _ _ BE S A R k (or_intror Hk)) as HM. unfold means in HM.
    destruct (build_inv _ _ _ Hd) as (raw & cs & css & B). rewrite (bf_assign _ _ _ _ _ _ B) in Hk. apply filter_In in Hk as [_ E].
    apply is_assignment_spec in E. unfold sched_kind in E. rewrite E in HM. auto.
Qed.

(** ** Reordering *)
Lemma choice_eta c : mkChoice (ch_name c) (ch_min c) (ch_max c) (ch_cont c) (ch_optional c) = c.
Proof. destruct c; auto. Qed.
Lemma nth_ext_error {X} (l l' : list X) : length l = length l' ->
  (forall i a b, nth_error l i = Some a -> nth_error l' i = Some b -> a = b) -> l = l'.
Proof.
  revert l'. induction l as [|a t IH]; intros [|b t'] HL H; cbn in *; try discriminate; auto. f_equal.
  - apply (H 0); auto. - apply IH; [lia|]. intros i x y Hx Hy. apply (H (Datatypes.S i)); auto.
Qed.

Lemma below_both r r' d d' : below r d d' -> below r' d' d ->
  i_slots d' = i_slots d /\ i_choices d' = i_choices d /\ i_choosers d' = i_choosers d /\
  i_levels d' = i_levels d /\ i_max_pref d' = i_max_pref d.
Proof.
  intros B1 B2. split; [apply (be_slots _ _ _ B1)|]. split; [|split; [|split; [apply (be_levels _ _ _ B1)|apply (be_max _ _ _ B1)]]].
  - apply nth_ext_error; [apply (be_nchoices _ _ _ B1)|]. intros i a b Ha Hb.
    destruct (be_choice _ _ _ B1 _ _ _ Hb Ha) as (N1 & N2 & N3 & N4).
    destruct (be_choice _ _ _ B2 _ _ _ Ha Hb) as (_ & _ & _ & N5).
    destruct a, b; cbn in *; f_equal; try congruence; lia.
  - apply nth_ext_error; [apply (be_nchoosers _ _ _ B1)|]. intros i a b Ha Hb.
    destruct (be_chooser _ _ _ B1 _ _ _ Hb Ha) as (N1 & N2 & N3).
    destruct (be_chooser _ _ _ B2 _ _ _ Ha Hb) as (_ & _ & N4).
    destruct a as [na pa], b as [nb pb]; cbn in *; f_equal; [congruence|].
    apply nth_ext_error; [congruence|]. intros j x y Hx Hy. specialize (N3 j y x Hy Hx). specialize (N4 j x y Hx Hy). lia.
Qed.

(** * Renaming *)
Lemma Forall2_nth {X Y} (P : X -> Y -> Prop) l l' : Forall2 P l l' -> forall i a, nth_error l i = Some a ->
  exists b, nth_error l' i = Some b /\ P a b.
Proof.
  induction 1 as [|x y l l' Hxy H IH]; intros i a Hi; [destruct i; discriminate|].
  destruct i as [|i]; cbn in *; [injection Hi as <-; eauto|eauto].
Qed.
Lemma Forall2_map_eq {X Y Z} (f : X -> Z) (g : Y -> Z) l l' : Forall2 (fun a b => g b = f a) l l' -> map g l' = map f l.
Proof. induction 1; cbn; congruence. Qed.
Lemma Forall2_length' {X Y} (P : X -> Y -> Prop) l l' : Forall2 P l l' -> length l' = length l.
Proof. induction 1; cbn; congruence. Qed.

(** lookup by full name *)
Lemma idx_filter_nodup {X} (f : X -> bool) l : forall off, NoDup (idx_filter f off l).
Proof.
  induction l as [|w u IHt]; intros off'; cbn [idx_filter]; [constructor|].
  destruct (f w); auto. constructor; auto. intros K. apply idx_filter_in in K as [K _]. lia.
Qed.
Lemma find_exact_one n vs i : nth_error vs i = Some n -> (forall j, nth_error vs j = Some n -> j = i) -> find_name n vs = Ok (Some i).
Proof.
  intros Hi HU. unfold find_name. rewrite (fuzzy_find_exact _ _ _ Hi).
  assert (HI : forall j, In j (find_exact n vs) -> j = i) by (intros j Hj; apply HU; apply find_exact_in; auto).
  assert (HIn : In i (find_exact n vs)) by (apply find_exact_in; auto).
  assert (ND : NoDup (find_exact n vs)) by apply idx_filter_nodup.
  destruct (find_exact n vs) as [|x [|y t]]; [destruct HIn| |].
  - rewrite (HI x (or_introl eq_refl)). reflexivity.
  - exfalso. rewrite (HI x (or_introl eq_refl)) in ND. rewrite (HI y (or_intror (or_introl eq_refl))) in ND.
    inversion ND as [|? ? K _]; subst. apply K. left; auto.
Qed.

Lemma copies_eq p p' : p_parts p' = p_parts p -> copies p' = copies p.
Proof. unfold copies. intros ->. auto. Qed.
Definition like_proto (p p' : proto) : Prop :=
  p_min p' = p_min p /\ p_max p' = p_max p /\ p_parts p' = p_parts p /\ p_optional p' = p_optional p.
Lemma first_index_like ps ps' : Forall2 like_proto ps ps' -> forall i, first_index ps' i = first_index ps i.
Proof.
  induction 1 as [|p p' t t' (_ & _ & HP & _) H IH]; intros [|i]; cbn; auto. rewrite IH. f_equal. apply copies_eq; auto.
Qed.

Lemma slot_resolves r x i a : ctx_of r x -> clear_names r -> a_kind a = ASlot -> slot_called r i (a_name a) ->
  resolve_accessor x a = Ok (Some (N.of_nat i)).
Proof.
  intros HC HN HK (s & Hs & En). unfold resolve_accessor. rewrite HK, (co_slots _ _ HC).
  assert (EB : build_slots r = r_slots r). { unfold build_slots. destruct (r_slots r); auto. destruct i; discriminate. }
  rewrite EB. rewrite (find_exact_one _ _ i); [reflexivity| |].
  - rewrite nth_error_map, Hs. cbn. congruence.
  - intros j Hj. rewrite nth_error_map in Hj. destruct (nth_error (r_slots r) j) as [s'|] eqn:E; [|discriminate]. injection Hj as Hj.
    apply (cn_slots _ HN j i (a_name a)); [exists s'|exists s]; auto.
Qed.
Lemma chooser_resolves r x i a : ctx_of r x -> clear_names r -> a_kind a = AChooser -> chooser_called r i (a_name a) ->
  resolve_accessor x a = Ok (Some (N.of_nat i)).
Proof.
  intros HC HN HK (s & Hs & En). unfold resolve_accessor. rewrite HK, (co_choosers _ _ HC).
  rewrite (find_exact_one _ _ i); [reflexivity| |].
  - rewrite nth_error_map, Hs. cbn. congruence.
  - intros j Hj. rewrite nth_error_map in Hj. destruct (nth_error (r_choosers r) j) as [s'|] eqn:E; [|discriminate]. injection Hj as Hj.
    apply (cn_choosers _ HN j i (a_name a)); [exists s'|exists s]; auto.
Qed.
Lemma choice_resolves r x i a : ctx_of r x -> clear_names r -> a_kind a = AChoice -> choice_called r i (a_name a) ->
  resolve_accessor x a = (let* c := follow_parts (a_part a) (blocks 0 (r_choices r)) (first_index (r_choices r) i) (a_part a) in Ok (Some (N.of_nat c))).
Proof.
  intros HC HN HK (p & Hp & En). unfold resolve_accessor. rewrite HK, (co_choices _ _ HC).
  rewrite (find_exact_one _ _ (first_index (r_choices r) i)); [reflexivity| |].
  - rewrite nth_error_map. pose proof (blocks_nth (r_choices r) 0 i 0 p Hp (copies_pos p)) as HB. rewrite Nat.add_0_r in HB. rewrite HB. cbn. congruence.
  - intros j Hj. rewrite nth_error_map in Hj. destruct (nth_error (blocks 0 (r_choices r)) j) as [s'|] eqn:E; [|discriminate]. injection Hj as Hj.
    pose proof (nth_error_lt _ _ _ E) as HL. rewrite blocks_length in HL. destruct (part_exists _ _ HL) as (i' & k & p' & Hp' & Hk & ->).
    rewrite (blocks_nth _ 0 i' k p' Hp' Hk) in E. injection E as <-. cbn [mk_part ch_name] in Hj.
    destruct (cn_choices _ HN i i' (a_name a) (p_name p') k) as [-> ->]; [exists p; auto|exists p'; auto| | |].
    + intros q Hq. congruence.
    + exact Hj.
    + apply Nat.add_0_r.
Qed.

Lemma follow_like (cs cs' : list choice_data) : map ch_cont cs' = map ch_cont cs -> forall q k c, follow_parts q cs' c k = follow_parts q cs c k.
Proof.
  intros E q. induction k as [|k IH]; intros c; cbn [follow_parts]; auto. unfold Base.get.
  pose proof (f_equal (fun l => nth_error l c) E) as En. cbn beta in En. rewrite !nth_error_map in En.
  destruct (nth_error cs' c), (nth_error cs c); cbn in En; try discriminate; cbn [bind]; auto. injection En as ->.
  destruct (ch_cont c1); auto.
Qed.

Definition like_choice (c c' : choice_data) : Prop :=
  ch_min c' = ch_min c /\ ch_max c' = ch_max c /\ ch_cont c' = ch_cont c /\ ch_optional c' = ch_optional c.
Lemma blocks_like ps ps' : Forall2 like_proto ps ps' -> forall off, Forall2 like_choice (blocks off ps) (blocks off ps').
Proof.
  induction 1 as [|p p' t t' HP H IH]; intros off; cbn [blocks]; [constructor|].
  destruct HP as (P1 & P2 & P3 & P4). apply Forall2_app.
  - unfold block. rewrite (copies_eq _ _ P3). generalize (seq 0 (copies p)) as l. induction l as [|k l IHl]; cbn; constructor; auto.
    unfold like_choice, mk_part; cbn [ch_min ch_max ch_cont ch_optional]. rewrite (copies_eq _ _ P3). auto.
  - rewrite (copies_eq _ _ P3). apply IH.
Qed.
Lemma like_cont cs cs' : Forall2 like_choice cs cs' -> map ch_cont cs' = map ch_cont cs.
Proof. induction 1 as [|c c' t t' (_ & _ & H & _) _ IH]; cbn; congruence. Qed.
Lemma like_bounds cs cs' : Forall2 like_choice cs cs' -> map (fun c => (ch_min c, ch_max c)) cs' = map (fun c => (ch_min c, ch_max c)) cs.
Proof. induction 1 as [|c c' t t' (H1 & H2 & _) _ IH]; cbn; congruence. Qed.

Section Renamed.
Variables (r r' : reader) (x x' : ctx).
Hypotheses (RN : renamed r r') (CN : clear_names r) (CN' : clear_names r') (CX : ctx_of r x) (CX' : ctx_of r' x').

Lemma resolve_renamed a a' : same_target r r' a a' -> resolve_accessor x' a' = resolve_accessor x a.
Proof.
  intros (EK & ES & EP & HT). destruct (a_kind a) eqn:K.
  - unfold resolve_accessor. rewrite EK, K. auto.
  - destruct HT as (i & H & H'). rewrite (chooser_resolves _ _ i a CX CN K H), (chooser_resolves _ _ i a' CX' CN' EK H'). auto.
  - destruct HT as (i & H & H'). rewrite (choice_resolves _ _ i a CX CN K H), (choice_resolves _ _ i a' CX' CN' EK H').
    rewrite (first_index_like _ _ (rn_choices _ _ RN)), EP.
    rewrite (follow_like _ _ (like_cont _ _ (blocks_like _ _ (rn_choices _ _ RN) 0))). auto.
  - destruct HT as (i & H & H'). rewrite (slot_resolves _ _ i a CX CN K H), (slot_resolves _ _ i a' CX' CN' EK H'). auto.
  - unfold resolve_accessor. rewrite EK, K. auto.
  - unfold resolve_accessor. rewrite EK, K, HT. auto.
Qed.

Lemma add_renamed e e' k ex : e_rel e' = e_rel e -> same_target r r' (e_left e) (e_left e') -> same_target r r' (e_right e) (e_right e') ->
  add_constraint x' e' k ex = add_constraint x e k ex.
Proof.
  intros ER HL HR. unfold add_constraint. rewrite (resolve_renamed _ _ HL), (resolve_renamed _ _ HR).
  destruct HR as (EK & _). rewrite EK. auto.
Qed.
Lemma table_renamed e e' : e_rel e' = e_rel e -> same_target r r' (e_left e) (e_left e') -> same_target r r' (e_right e) (e_right e') ->
  table e' = table e.
Proof.
  intros ER (K1 & S1 & _) (K2 & S2 & _). unfold table. rewrite ER, K1, S1, K2, S2. auto.
Qed.
Lemma build_expr_renamed e e' : e_rel e' = e_rel e -> same_target r r' (e_left e) (e_left e') -> same_target r r' (e_right e) (e_right e') ->
  build_expr x' e' = build_expr x e.
Proof.
  intros ER HL HR. unfold build_expr. rewrite (table_renamed e e' ER HL HR), (table_renamed (swap_sides e) (swap_sides e')); auto.
  destruct (table e) as [[k ex]|]; [apply add_renamed; auto|]. destruct (table (swap_sides e)) as [[k ex]|]; auto.
  apply add_renamed; auto.
Qed.
Lemma raw_renamed : raw_constraints x' (r_exprs r') = raw_constraints x (r_exprs r).
Proof.
  unfold raw_constraints.
  assert (EM : mmap (build_expr x') (r_exprs r') = mmap (build_expr x) (r_exprs r)).
  { pose proof (rn_exprs _ _ RN) as HF. induction HF as [|e e' t t' (H1 & H2 & H3) _ IH]; cbn [mmap]; auto.
    rewrite (build_expr_renamed _ _ H1 H2 H3), IH. auto. }
  rewrite EM. destruct (mmap (build_expr x) (r_exprs r)); cbn [bind]; auto.
  assert (EP : compute_part_constraints (x_choices x') = compute_part_constraints (x_choices x)).
  { rewrite (co_choices _ _ CX), (co_choices _ _ CX').
    pose proof (blocks_like _ _ (rn_choices _ _ RN) 0) as HL. pose proof (like_cont _ _ HL) as EC. unfold compute_part_constraints.
    assert (EL : length (blocks 0 (r_choices r')) = length (blocks 0 (r_choices r))) by (eapply Forall2_length'; eauto).
    rewrite EL. destruct (uf_new _) as [u| |]; cbn [bind]; auto.
    assert (EF : forall l u, mfold (fun u i => let* c := get (blocks 0 (r_choices r')) i in
                   match ch_cont c with Some next => uf_join u i next | None => Ok u end) l u =
                 mfold (fun u i => let* c := get (blocks 0 (r_choices r)) i in
                   match ch_cont c with Some next => uf_join u i next | None => Ok u end) l u).
    { induction l as [|i l IH]; intros u0; cbn [mfold]; auto.
      assert (E1 : (let* c := get (blocks 0 (r_choices r')) i in match ch_cont c with Some next => uf_join u0 i next | None => Ok u0 end) =
                   (let* c := get (blocks 0 (r_choices r)) i in match ch_cont c with Some next => uf_join u0 i next | None => Ok u0 end)).
      { unfold Base.get. pose proof (f_equal (fun l => nth_error l i) EC) as En. cbn beta in En. rewrite !nth_error_map in En.
        destruct (nth_error (blocks 0 (r_choices r')) i), (nth_error (blocks 0 (r_choices r)) i); cbn in En; try discriminate; cbn [bind]; auto.
        injection En as ->. auto. }
      rewrite E1. match goal with |- bind ?o _ = _ => destruct o; cbn [bind]; auto end. }
    rewrite EF. auto. }
  rewrite EP. auto.
Qed.
End Renamed.

Lemma limits_like chs chs' cs : Forall2 like_choice chs chs' -> get_dependent_limits chs' cs = get_dependent_limits chs cs.
Proof.
  intros HF. pose proof (like_bounds _ _ HF) as EB. pose proof (Forall2_length' _ _ _ HF) as EL.
  unfold get_dependent_limits. rewrite EL. destruct (uf_new _) as [u| |]; cbn [bind]; auto. destruct (join_same cs u) as [u1| |]; cbn [bind]; auto.
  assert (EF : forall l lim, mfold (fun lim c => let* g := uf_find u1 c in let* l := get lim g in let* cd := get chs' c in
                  set lim g (N.max (fst l) (ch_min cd), N.min (snd l) (ch_max cd))) l lim =
               mfold (fun lim c => let* g := uf_find u1 c in let* l := get lim g in let* cd := get chs c in
                  set lim g (N.max (fst l) (ch_min cd), N.min (snd l) (ch_max cd))) l lim).
  { induction l as [|c l IH]; intros lim; cbn [mfold]; auto.
    assert (E1 : (let* g := uf_find u1 c in let* l := get lim g in let* cd := get chs' c in
                  set lim g (N.max (fst l) (ch_min cd), N.min (snd l) (ch_max cd))) =
                 (let* g := uf_find u1 c in let* l := get lim g in let* cd := get chs c in
                  set lim g (N.max (fst l) (ch_min cd), N.min (snd l) (ch_max cd)))).
    { destruct (uf_find u1 c); cbn [bind]; auto. destruct (get lim a); cbn [bind]; auto.
      unfold Base.get. pose proof (f_equal (fun l => nth_error l c) EB) as En. cbn beta in En. rewrite !nth_error_map in En.
      destruct (nth_error chs' c), (nth_error chs c); cbn in En; try discriminate; cbn [bind]; auto. injection En as -> ->. auto. }
    rewrite E1. match goal with |- bind ?o _ = _ => destruct o; cbn [bind]; auto end. }
  rewrite EF. auto.
Qed.
Lemma prefs_like (chs chs' : list choice_data) css css' cs : length chs' = length chs -> map cs_prefs css' = map cs_prefs css ->
  get_dependent_prefs chs' css' cs = get_dependent_prefs chs css cs.
Proof.
  intros EL EP. unfold get_dependent_prefs. rewrite EL. destruct (get_dependent_choices cs (length chs)) as [gs| |]; cbn [bind]; auto.
  assert (EM : mmap (fun c => mfold group_min gs (cs_prefs c)) css' = mmap (fun c => mfold group_min gs (cs_prefs c)) css).
  { revert css' EP. induction css as [|c t IH]; intros [|c' t'] EP; cbn in EP; try discriminate; auto. injection EP as E1 E2.
    cbn [mmap]. rewrite E1, (IH _ E2). auto. }
  rewrite EM. auto.
Qed.

Definition like_outcome (r r' : reader) (o o' : outcome input_data) : Prop :=
  match o, o' with
  | Ok d, Ok d' => same_but_names d d'
  | Err m, Err m' => same_complaint r r' m m'
  | Panic, Panic => True
  | _, _ => False
  end.

Lemma build_prefs_err pr r m : build_preferences pr r = Err m ->
  m = first_wrong r /\ ~ prefs_complete r.
Proof.
  unfold build_preferences. destruct (forallb _ _) eqn:EF.
  - intros H. exfalso. revert H. apply bind_no_err; [|discriminate]. apply mmap_no_err.
    intros c _. apply bind_no_err; [|discriminate]. apply mmap_no_err. intros y _. unfold sub_u32.
    destruct (_ <=? _)%N; [discriminate|]. destruct pr; discriminate.
  - intros H; injection H as <-. split; auto. intros HC.
    assert (forallb (fun c => length (cs_prefs c) =? length (r_choices r)) (r_choosers r) = true); [|congruence].
    apply forallb_forall. intros c Hc. apply Nat.eqb_eq. apply HC; auto.
Qed.

Lemma first_wrong_like r r' : length (r_choices r') = length (r_choices r) ->
  Forall2 (fun c c' => cs_prefs c' = cs_prefs c) (r_choosers r) (r_choosers r') -> same_complaint r r' (first_wrong r) (first_wrong r').
Proof.
  intros EL HF. unfold first_wrong, same_complaint, chooser_called. rewrite EL.
  assert (K : forall n, match find (fun c => negb (length (cs_prefs c) =? n)) (r_choosers r), find (fun c => negb (length (cs_prefs c) =? n)) (r_choosers r') with
              | Some c, Some c' => exists i, nth_error (r_choosers r) i = Some c /\ nth_error (r_choosers r') i = Some c'
              | None, None => True | _, _ => False end).
  { intros n. induction HF as [|c c' t t' Hc _ IH]; cbn [find]; auto. rewrite Hc.
    destruct (negb _); [exists 0; auto|]. destruct (find _ t), (find _ t'); auto. destruct IH as (i & Hi); exists (Datatypes.S i); auto. }
  specialize (K (length (r_choices r))). destruct (find _ (r_choosers r)) as [c|], (find _ (r_choosers r')) as [c'|]; try contradiction; auto.
  destruct K as (i & H & H'). right. exists i, (cs_name c), (cs_name c'). repeat split; eauto.
Qed.

Lemma build_renamed pr r r' : renamed r r' -> clear_names r -> clear_names r' -> like_outcome r r' (build_input pr r) (build_input pr r').
Proof.
  intros RN CN CN'. pose proof (Forall2_length' _ _ _ (rn_choices _ _ RN)) as LC.
  assert (EPR : map cs_prefs (r_choosers r') = map cs_prefs (r_choosers r)) by (apply Forall2_map_eq, (rn_choosers _ _ RN)).
  assert (EMP : max_pref_of (r_choosers r') = max_pref_of (r_choosers r)).
  { unfold max_pref_of. generalize 0%N. pose proof (rn_choosers _ _ RN) as HF. clear -HF. induction HF as [|c c' t t' Hc _ IH]; intros m; cbn [fold_left]; auto.
    rewrite Hc. apply IH. }
  unfold build_input.
  assert (BP : match build_preferences pr r, build_preferences pr r' with
               | Ok (m, mc), Ok (m', mc') => m' = m /\ mc = map (mirror m) (r_choosers r) /\ mc' = map (mirror m) (r_choosers r') /\ prefs_complete r /\ prefs_complete r'
               | Err e, Err e' => same_complaint r r' e e' | Panic, Panic => True | _, _ => False end).
  { destruct (build_preferences pr r) as [[m mc]|e1|] eqn:E1, (build_preferences pr r') as [[m' mc']|e2|] eqn:E2.
    all: try (exfalso; eapply build_prefs_total; eassumption); auto.
    - destruct (build_prefs_ok _ _ _ _ E1) as (C1 & -> & ->). destruct (build_prefs_ok _ _ _ _ E2) as (C2 & -> & ->). rewrite EMP. auto.
    - destruct (build_prefs_ok _ _ _ _ E1) as (C1 & -> & ->). destruct (build_prefs_err _ _ _ E2) as (_ & HN). apply HN.
      intros c Hc. rewrite LC. apply (in_map cs_prefs) in Hc. rewrite EPR in Hc.
      apply in_map_iff in Hc as (c0 & E & Hc0). rewrite <- E. apply C1; auto.
    - destruct (build_prefs_ok _ _ _ _ E2) as (C1 & -> & ->). destruct (build_prefs_err _ _ _ E1) as (_ & HN). apply HN.
      intros c Hc. rewrite <- LC. apply (in_map cs_prefs) in Hc. rewrite <- EPR in Hc.
      apply in_map_iff in Hc as (c0 & E & Hc0). rewrite <- E. apply C1; auto.
    - destruct (build_prefs_err _ _ _ E1) as (-> & _). destruct (build_prefs_err _ _ _ E2) as (-> & _).
      apply first_wrong_like; auto. apply RN. }
  destruct (build_preferences pr r) as [[m mc]|e|], (build_preferences pr r') as [[m' mc']|e'|]; try contradiction; cbn [bind]; auto.
  destruct BP as (-> & Emc & Emc' & PC & PC').
  destruct (compile_choices (r_choices r) mc) as [chs css] eqn:Ecc. destruct (compile_choices (r_choices r') mc') as [chs' css'] eqn:Ecc'.
  destruct (compile_spec (r_choices r) mc chs css) as [-> Ecss]; auto.
  { intros c Hc. rewrite Emc in Hc. apply in_map_iff in Hc as (c0 & <- & Hc0). cbn. rewrite map_length. auto. }
  destruct (compile_spec (r_choices r') mc' chs' css') as [-> Ecss']; auto.
  { intros c Hc. rewrite Emc' in Hc. apply in_map_iff in Hc as (c0 & <- & Hc0). cbn. rewrite map_length. auto. }
  assert (CX : ctx_of r (mkCtx (build_slots r) css (blocks 0 (r_choices r)))).
  { constructor; cbn; auto. rewrite Ecss, Emc, !map_map. apply map_ext. auto. }
  assert (CX' : ctx_of r' (mkCtx (build_slots r') css' (blocks 0 (r_choices r')))).
  { constructor; cbn; auto. rewrite Ecss', Emc', !map_map. apply map_ext. auto. }
  rewrite (raw_renamed _ _ _ _ RN CN CN' CX CX').
  pose proof (blocks_like _ _ (rn_choices _ _ RN) 0) as HBL. pose proof (Forall2_length' _ _ _ HBL) as LB.
  assert (SPR : forall ps ps' (row : list N), Forall2 like_proto ps ps' -> spread ps' row = spread ps row).
  { intros ps ps' row HF. revert row. induction HF as [|p p' t t' (_ & _ & HP & _) _ IH]; intros [|y row]; cbn [spread]; auto.
    rewrite IH, (copies_eq _ _ HP). auto. }
  assert (ECP : map cs_prefs css' = map cs_prefs css).
  { rewrite Ecss, Ecss', Emc, Emc', !map_map. cbn [cs_prefs mirror].
    rewrite <- (map_map cs_prefs (fun l => spread (r_choices r') (map (fun x => m - x)%N l))), EPR, map_map.
    apply map_ext. intros c. apply SPR. apply (rn_choices _ _ RN). }
  destruct (raw_constraints _ (r_exprs r)) as [raw| |]; cbn [bind like_outcome]; auto; try (left; reflexivity).
  rewrite LB. destruct (reduce_and_optimize raw _) as [[cs inf]| |]; cbn [bind like_outcome]; auto; try (left; reflexivity).
  destruct inf; [left; reflexivity|].
  rewrite (limits_like _ _ _ HBL). destruct (get_dependent_limits _ cs) as [limits| |] eqn:EL; cbn [bind like_outcome]; auto; try (left; reflexivity).
  rewrite (prefs_like _ _ _ _ _ LB ECP). destruct (get_dependent_prefs _ css cs) as [prefs| |] eqn:EP; cbn [bind like_outcome]; auto; try (left; reflexivity).
  set (chs1 := map _ (combine (blocks 0 (r_choices r)) limits)). set (chs1' := map _ (combine (blocks 0 (r_choices r')) limits)).
  set (css1 := map _ (combine css prefs)). set (css1' := map _ (combine css' prefs)).
  assert (LCS : length css' = length css) by (apply (f_equal (@Datatypes.length _)) in ECP; rewrite !map_length in ECP; auto).
  assert (L1 : length chs1' = length chs1) by (unfold chs1, chs1'; rewrite !map_length, !combine_length; lia).
  assert (L2 : length css1' = length css1) by (unfold css1, css1'; rewrite !map_length, !combine_length; lia).
  rewrite L1, L2. destruct (get_dependent_choices cs (length chs1)) as [gs| |]; cbn [bind like_outcome]; auto; try (left; reflexivity).
  destruct (build_maps (length chs1) (length css1) _) as [mm| |]; cbn [bind like_outcome]; auto; try (left; reflexivity).
  constructor; cbn [i_slots i_choices i_choosers i_sched i_assign i_groups i_levels i_max_pref i_choice_map i_chooser_map]; auto.
  - unfold build_slots. pose proof (rn_slots _ _ RN) as LS. destruct (r_slots r), (r_slots r'); cbn in *; auto; discriminate.
  - unfold chs1, chs1'. clear -HBL. revert limits. induction HBL as [|c c' t t' (H1 & H2 & H3 & H4) _ IH]; intros [|l limits]; cbn; constructor; auto.

  - unfold css1, css1'. clear -LCS. revert css LCS prefs. induction css' as [|c' t' IH]; intros [|c t] LCS [|l prefs]; cbn in *; try discriminate; constructor; auto.
  - unfold build_levels. rewrite flat_map_concat_map, EPR, <- flat_map_concat_map. auto.
Qed.

(** ** Validity and scores do not depend on names *)
Lemma mfold_same {X Y} (f g : Y -> X -> outcome Y) l : (forall b x, f b x = g b x) -> forall b, mfold f l b = mfold g l b.
Proof. intros H. induction l as [|x t IH]; intros b; cbn [mfold]; auto. rewrite H. destruct (g b x); cbn [bind]; auto. Qed.
Lemma mmap_same {X Y} (f g : X -> outcome Y) l : (forall x, f x = g x) -> mmap f l = mmap g l.
Proof. intros H. induction l as [|x t IH]; cbn [mmap]; auto. rewrite H, IH. auto. Qed.
Lemma mforall_same {X} (f g : X -> outcome bool) l : (forall x, f x = g x) -> mforall f l = mforall g l.
Proof. intros H. induction l as [|x t IH]; cbn [mforall]; auto. rewrite H, IH. auto. Qed.
Lemma mexists_same {X} (f g : X -> outcome bool) l : (forall x, f x = g x) -> mexists f l = mexists g l.
Proof. intros H. induction l as [|x t IH]; cbn [mexists]; auto. rewrite H, IH. auto. Qed.
Lemma get_bind_like {X Y} (P : X -> X -> Prop) (l l' : list X) i (g : X -> outcome Y) :
  Forall2 P l l' -> (forall c c', P c c' -> g c' = g c) -> bind (get l' i) g = bind (get l i) g.
Proof.
  intros HF HG. revert i. induction HF as [|a b t t' Hab _ IH]; intros [|i]; cbn; auto.
  unfold Base.get in *. cbn. apply IH.
Qed.

Section Names.
Variables d d' : input_data.
Hypothesis SN : same_but_names d d'.

Lemma nm_slots : n_slots d' = n_slots d. Proof. apply (sn_slots _ _ SN). Qed.
Lemma nm_choices : n_choices d' = n_choices d. Proof. exact (Forall2_length' _ _ _ (sn_choices _ _ SN)). Qed.
Lemma nm_choosers : n_choosers d' = n_choosers d. Proof. exact (Forall2_length' _ _ _ (sn_choosers _ _ SN)). Qed.

Lemma nm_sum f S s : (forall c c', like_choice c c' -> f c' = f c) -> slot_sum f (i_choices d') S s = slot_sum f (i_choices d) S s.
Proof.
  intros Hf. pose proof (sn_choices _ _ SN) as HF. revert S. induction HF as [|c c' t t' Hc _ IH]; intros [|x S]; cbn [slot_sum]; auto.
  rewrite (Hf _ _ Hc), IH. auto.
Qed.
Lemma nm_choice c ch' : nth_error (i_choices d') c = Some ch' -> exists ch, nth_error (i_choices d) c = Some ch /\ like_choice ch ch'.
Proof.
  pose proof (sn_choices _ _ SN) as HF. revert c. induction HF as [|a b t t' Hab _ IH]; intros [|c] H; cbn in *; try discriminate; eauto.
  injection H as <-. eauto.
Qed.
Lemma nm_valid_scheduling S : valid_scheduling d S -> valid_scheduling d' S.
Proof.
  intros V. constructor.
  - rewrite (vs_length _ _ V). symmetry. exact nm_choices.
  - intros c s Hs. rewrite (sn_slots _ _ SN). eapply (vs_range _ _ V); eauto.
  - intros c ch' Hc Hn. destruct (nm_choice c ch' Hc) as (ch & Hch & (_ & _ & _ & ->)). eapply (vs_optional _ _ V); eauto.
  - intros s Hs. rewrite (sn_slots _ _ SN) in Hs. rewrite (nm_sum ch_min), (nm_sum ch_max) by (intros c c' (K1 & K2 & _); auto).
    replace (length (i_choosers d')) with (length (i_choosers d)) by (symmetry; exact nm_choosers). apply (vs_sums _ _ V s Hs).
  - rewrite (sn_sched _ _ SN). apply (vs_cons _ _ V).
Qed.
Lemma nm_valid S A : valid_solution d S A -> valid_solution d' S A.
Proof.
  intros [V R]. split; [apply nm_valid_scheduling; auto|]. constructor.
  - destruct (ra_one _ _ _ R) as [L H]. split; [rewrite L; symmetry; exact nm_choosers|]. rewrite (sn_slots _ _ SN). auto.
  - intros c ch' Hc Hh. destruct (nm_choice c ch' Hc) as (ch & Hch & (-> & -> & _)). apply (ra_bounds _ _ _ R c ch); auto.
  - rewrite (sn_sched _ _ SN). apply (ra_sched _ _ _ R).
  - rewrite (sn_assign _ _ SN). apply (ra_asg _ _ _ R).
Qed.

Lemma nm_sat_sched S : sat_sched d' S = sat_sched d S.
Proof.
  unfold sat_sched. rewrite (sn_sched _ _ SN). apply mforall_same. intros k. unfold sat_sched1.
  destruct (c_kind k); auto; unfold count_in_slot; rewrite nm_choices; auto.
Qed.
Lemma nm_sat_asg S A : sat_asg d' S A = sat_asg d S A.
Proof.
  unfold sat_asg. rewrite (sn_assign _ _ SN). apply mforall_same. intros k. unfold sat_asg1, choosers_ordered, choices_ordered, is_in_choice.
  rewrite nm_slots, nm_choosers. auto.
Qed.
Lemma nm_cover S A l : forall c, cover_all d' S A l c = cover_all d S A l c.
Proof.
  induction l as [|p t IH]; intros c; cbn [cover_all]; auto. rewrite nm_slots. destruct (cover_row _ _ _ _ _ _) as [[[a b]|]| |]; cbn [bind]; auto.
Qed.
Lemma nm_feasible S A : sol_is_feasible d' S A = sol_is_feasible d S A.
Proof.
  unfold sol_is_feasible. rewrite nm_choices, nm_choosers, nm_sat_sched, nm_sat_asg.
  destruct (mmap _ _) as [sl| |]; cbn [bind]; auto. destruct (sat_sched d S) as [b1| |]; cbn [bind]; auto. destruct (negb b1); auto.
  destruct (sat_asg d S A) as [b2| |]; cbn [bind]; auto. destruct (negb b2); auto. rewrite nm_cover.
  destruct (cover_all _ _ _ _ _) as [[counts|]| |]; cbn [bind]; auto. apply mforall_same. intros i.
  destruct (slot_of S i) as [[s|]| |]; cbn [bind]; auto. destruct (get counts i); cbn [bind]; auto.
  apply (get_bind_like _ _ _ _ _ (sn_choices _ _ SN)). intros c c' (-> & -> & _). auto.
Qed.
Lemma nm_evaluate pr pow g sol : evaluate pr pow g d' sol = evaluate pr pow g d sol.
Proof.
  unfold evaluate. destruct sol as [| |S A]; auto.
  assert (E1 : evaluate_major d' A = evaluate_major d A).
  { unfold evaluate_major. rewrite nm_slots, nm_choosers. apply mfold_same. intros m p. apply mfold_same. intros m' s.
    destruct (choice_of A p s); cbn [bind]; auto. apply (get_bind_like _ _ _ _ _ (sn_choosers _ _ SN)). intros c c' ->. auto. }
  assert (E2 : evaluate_minor pr pow d' S A = evaluate_minor pr pow d S A).
  { unfold evaluate_minor. rewrite nm_feasible. destruct (sol_is_feasible d S A) as [b| |]; cbn [bind]; auto. destruct (negb b); auto.
    assert (E3 : pref_histogram pr d' A = pref_histogram pr d A).
    { unfold pref_histogram. rewrite (sn_max _ _ SN), nm_slots, nm_choosers. destruct (add_u32 _ _ _); cbn [bind]; auto.
      apply mfold_same. intros h p. apply mfold_same. intros h' s. destruct (choice_of A p s); cbn [bind]; auto.
      apply (get_bind_like _ _ _ _ _ (sn_choosers _ _ SN)). intros c c' ->. auto. }
    rewrite E3. unfold scoring_scaling. rewrite (sn_max _ _ SN). auto. }
  rewrite E1, E2. auto.
Qed.
End Names.

Lemma same_but_names_sym d d' : same_but_names d d' -> same_but_names d' d.
Proof.
  intros SN. constructor; try (symmetry; apply SN).
  - pose proof (sn_choices _ _ SN) as HF. induction HF as [|c c' t t' (H1 & H2 & H3 & H4) _ IH]; constructor; auto.
  - pose proof (sn_choosers _ _ SN) as HF. induction HF as [|c c' t t' H1 _ IH]; constructor; auto.
Qed.

(** ** Scores of the same solution under the same objects *)
Lemma evaluate_same_objects pr pow g d d' S A : i_choosers d' = i_choosers d -> length (i_slots d') = length (i_slots d) ->
  i_max_pref d' = i_max_pref d -> sol_is_feasible d S A = Ok true -> sol_is_feasible d' S A = Ok true ->
  evaluate pr pow g d' (SolComplete S A) = evaluate pr pow g d (SolComplete S A).
Proof.
  intros E1 E2 E3 F F'. unfold evaluate, evaluate_major, evaluate_minor, pref_histogram, scoring_scaling, n_slots, n_choosers.
  rewrite F, F', E1, E2, E3. auto.
Qed.

(** * Relaxing bounds *)
Definition looser_proto (p p' : proto) : Prop :=
  p_name p' = p_name p /\ p_parts p' = p_parts p /\
  (p_min p' <= p_min p)%N /\ (p_max p <= p_max p')%N /\ (p_optional p = true -> p_optional p' = true).
Definition looser_choice (c c' : choice_data) : Prop :=
  ch_name c' = ch_name c /\ ch_cont c' = ch_cont c /\
  (ch_min c' <= ch_min c)%N /\ (ch_max c <= ch_max c')%N /\ (ch_optional c = true -> ch_optional c' = true).
Lemma blocks_looser ps ps' : Forall2 looser_proto ps ps' -> forall off, Forall2 looser_choice (blocks off ps) (blocks off ps').
Proof.
  induction 1 as [|p p' t t' HP H IH]; intros off; cbn [blocks]; [constructor|].
  destruct HP as (P1 & P2 & P3 & P4 & P5). apply Forall2_app.
  - unfold block. rewrite (copies_eq _ _ P2). generalize (seq 0 (copies p)) as l. induction l as [|k l IHl]; cbn; constructor; auto.
    unfold looser_choice, mk_part; cbn [ch_name ch_min ch_max ch_cont ch_optional]. rewrite P1, (copies_eq _ _ P2). auto.
  - rewrite (copies_eq _ _ P2). apply IH.
Qed.
Lemma looser_names cs cs' : Forall2 looser_choice cs cs' -> map ch_name cs' = map ch_name cs.
Proof. induction 1 as [|c c' t t' (H & _) _ IH]; cbn; congruence. Qed.
Lemma looser_cont cs cs' : Forall2 looser_choice cs cs' -> map ch_cont cs' = map ch_cont cs.
Proof. induction 1 as [|c c' t t' (_ & H & _) _ IH]; cbn; congruence. Qed.

Lemma build_expr_ctx sl css (chs chs' : list choice_data) e : map ch_name chs' = map ch_name chs -> map ch_cont chs' = map ch_cont chs ->
  build_expr (mkCtx sl css chs') e = build_expr (mkCtx sl css chs) e.
Proof.
  intros EN EC.
  assert (R : forall a, resolve_accessor (mkCtx sl css chs') a = resolve_accessor (mkCtx sl css chs) a).
  { intros a. unfold resolve_accessor. cbn [x_slots x_choosers x_choices]. rewrite EN. destruct (a_kind a); auto.
    destruct (find_name _ _) as [[c|]| |]; cbn [bind]; auto. rewrite (follow_like _ _ EC). auto. }
  assert (AD : forall e k ex, add_constraint (mkCtx sl css chs') e k ex = add_constraint (mkCtx sl css chs) e k ex).
  { intros e0 k ex. unfold add_constraint. rewrite !R. auto. }
  unfold build_expr. destruct (table e) as [[k ex]|]; auto. destruct (table (swap_sides e)) as [[k ex]|]; auto.
Qed.
Lemma compute_part_ctx (chs chs' : list choice_data) : map ch_cont chs' = map ch_cont chs ->
  compute_part_constraints chs' = compute_part_constraints chs.
Proof.
  intros EC. unfold compute_part_constraints.
  assert (EL : length chs' = length chs) by (apply (f_equal (@Datatypes.length _)) in EC; rewrite !map_length in EC; auto).
  rewrite EL. destruct (uf_new _) as [u| |]; cbn [bind]; auto.
  match goal with |- bind (mfold ?f ?l u) ?k = bind (mfold ?g ?l u) ?k => assert (EF : mfold f l u = mfold g l u) end; [|rewrite EF; auto].
  apply mfold_same. intros b i. unfold Base.get. pose proof (f_equal (fun l => nth_error l i) EC) as En. cbn beta in En. rewrite !nth_error_map in En.
  destruct (nth_error chs' i), (nth_error chs i); cbn in En; try discriminate; cbn [bind]; auto. injection En as ->. auto.
Qed.
Lemma raw_ctx sl css (chs chs' : list choice_data) es : map ch_name chs' = map ch_name chs -> map ch_cont chs' = map ch_cont chs ->
  raw_constraints (mkCtx sl css chs') es = raw_constraints (mkCtx sl css chs) es.
Proof.
  intros EN EC. unfold raw_constraints. rewrite (mmap_same _ _ es (fun e => build_expr_ctx sl css chs chs' e EN EC)).
  cbn [x_choices]. rewrite (compute_part_ctx _ _ EC). auto.
Qed.

Record looser (d d' : input_data) : Prop := {
  lo_slots : i_slots d' = i_slots d;
  lo_choosers : i_choosers d' = i_choosers d;
  lo_sched : i_sched d' = i_sched d;
  lo_assign : i_assign d' = i_assign d;
  lo_max : i_max_pref d' = i_max_pref d;
  lo_nchoices : length (i_choices d') = length (i_choices d);
  lo_choice : forall c ch ch', nth_error (i_choices d) c = Some ch -> nth_error (i_choices d') c = Some ch' ->
     (ch_min ch' <= ch_min ch /\ ch_max ch <= ch_max ch')%N /\ (ch_optional ch = true -> ch_optional ch' = true)
}.

Lemma build_looser pr r r' d : relaxed r r' -> reader_u32 r -> reader_u32 r' -> build_input pr r = Ok d ->
  exists d', build_input pr r' = Ok d' /\ looser d d'.
Proof.
  intros RX HU HU' H. destruct (build_inv _ _ _ H) as (raw & cs & css & B).
  pose proof (blocks_looser _ _ (rx_choices _ _ RX) 0) as HBL. pose proof (Forall2_length' _ _ _ HBL) as LB.
  pose proof (Forall2_length' _ _ _ (rx_choices _ _ RX)) as LC.
  assert (ES : build_slots r' = build_slots r) by (unfold build_slots; rewrite (rx_slots _ _ RX); auto).
  assert (SPR : forall ps ps' (row : list N), Forall2 looser_proto ps ps' -> spread ps' row = spread ps row).
  { intros ps ps' row HF. revert row. induction HF as [|p p' t t' (_ & HP & _) _ IH]; intros [|y row]; cbn [spread]; auto.
    rewrite IH, (copies_eq _ _ HP). auto. }
  pose proof (bf_css _ _ _ _ _ _ B) as Ecss. pose proof (bf_max _ _ _ _ _ _ B) as Emax.
  assert (Ecss' : map (fun c => mkChooser (cs_name c) (spread (r_choices r') (cs_prefs c))) (map (mirror (max_pref_of (r_choosers r'))) (r_choosers r')) = css).
  { rewrite Ecss, Emax, (rx_choosers _ _ RX). apply map_ext. intros c. f_equal. apply SPR. apply (rx_choices _ _ RX). }
  assert (Hraw : raw_constraints (mkCtx (build_slots r') css (blocks 0 (r_choices r'))) (r_exprs r') = Ok raw).
  { rewrite ES, (rx_exprs _ _ RX), (raw_ctx _ _ _ _ _ (looser_names _ _ HBL) (looser_cont _ _ HBL)). apply (bf_raw _ _ _ _ _ _ B). }
  pose proof (bf_cs _ _ _ _ _ _ B) as Hred. pose proof (bf_size _ _ _ _ _ _ B) as Hn. rewrite <- LB in Hred, Hn.
  destruct (build_succeeds pr r' raw cs HU') as (d' & Hd'); auto.
  { intros c Hc. rewrite LC. apply (bf_complete _ _ _ _ _ _ B). rewrite <- (rx_choosers _ _ RX). auto. }
  { rewrite Ecss'. exact Hraw. }
  exists d'. split; auto. destruct (build_inv _ _ _ Hd') as (raw' & cs' & css' & B').
  pose proof (bf_css _ _ _ _ _ _ B') as E1. rewrite (bf_max _ _ _ _ _ _ B') in E1. rewrite Ecss' in E1. subst css'.
  assert (raw' = raw). { pose proof (bf_raw _ _ _ _ _ _ B') as E. congruence. } subst raw'.
  assert (cs' = cs). { pose proof (bf_cs _ _ _ _ _ _ B') as E. congruence. } subst cs'.
  constructor.
  - rewrite (bf_slots _ _ _ _ _ _ B), (bf_slots _ _ _ _ _ _ B'). auto.
  - destruct (bf_choosers _ _ _ _ _ _ B) as (p & Hp & ->). destruct (bf_choosers _ _ _ _ _ _ B') as (p' & Hp' & ->).
    rewrite (prefs_like _ _ css css cs LB eq_refl) in Hp'. congruence.
  - rewrite (bf_sched _ _ _ _ _ _ B), (bf_sched _ _ _ _ _ _ B'). auto.
  - rewrite (bf_assign _ _ _ _ _ _ B), (bf_assign _ _ _ _ _ _ B'). auto.
  - rewrite (bf_max _ _ _ _ _ _ B), (bf_max _ _ _ _ _ _ B'), (rx_choosers _ _ RX). auto.
  - rewrite (b_choices_length _ _ _ _ _ _ B), (b_choices_length _ _ _ _ _ _ B'). auto.
  - intros c ch ch' Hc Hc'.
    assert (HA : forall a b, one_audience d a b <-> one_audience d' a b).
    { intros a b. rewrite <- (b_linked _ _ _ _ _ _ B), <- (b_linked _ _ _ _ _ _ B'). tauto. }
    destruct (b_bounds _ _ _ _ _ _ B _ _ Hc) as (K & (c1 & cd1 & A1 & N1 & M1) & _).
    destruct (b_bounds _ _ _ _ _ _ B' _ _ Hc') as (K' & _ & M3).
    destruct (b_choice_nth _ _ _ _ _ _ B _ _ Hc) as (cd & Hcd & _ & _ & Eo).
    destruct (b_choice_nth _ _ _ _ _ _ B' _ _ Hc') as (cd' & Hcd' & _ & _ & Eo').
    destruct (Forall2_nth _ _ _ HBL _ _ Hcd) as (cd2 & Hcd2 & (_ & _ & _ & _ & HO)). assert (cd2 = cd') by congruence. subst cd2.
    repeat split.
    + destruct (b_bounds _ _ _ _ _ _ B' _ _ Hc') as (_ & (c2 & cd2' & A2 & N2 & <-) & _).
      destruct (nth_error_ex (blocks 0 (r_choices r)) c2) as [cd3 Hcd3]. { rewrite <- LB. eapply nth_error_lt; eauto. }
      destruct (Forall2_nth _ _ _ HBL _ _ Hcd3) as (cd4 & Hcd4 & (_ & _ & L1 & _)). assert (cd4 = cd2') by congruence. subst cd4.
      assert (one_audience d c c2) by (apply HA; auto). destruct (K c2 cd3) as [K1 _]; auto. lia.
    + destruct M3 as [-> |(c2 & cd2 & A2 & N2 & <-)].
      * apply (wf_bounds_u32 _ (b_wf _ _ _ _ _ _ B HU) ch). eapply nth_error_In; eauto.
      * destruct (nth_error_ex (blocks 0 (r_choices r)) c2) as [cd3 Hcd3]. { rewrite <- LB. eapply nth_error_lt; eauto. }
        destruct (Forall2_nth _ _ _ HBL _ _ Hcd3) as (cd4 & Hcd4 & (_ & _ & _ & L1 & _)). assert (cd4 = cd2) by congruence. subst cd4.
        assert (one_audience d c c2) by (apply HA; auto). destruct (K c2 cd3) as [_ K1]; auto. lia.
    + rewrite Eo, Eo'. auto.
Qed.

Lemma looser_solution d d' S A : looser d d' -> valid_solution d S A -> valid_solution d' S A.
Proof.
  intros LO [V R].
  assert (NC : forall c ch', nth_error (i_choices d') c = Some ch' -> exists ch, nth_error (i_choices d) c = Some ch /\
     (ch_min ch' <= ch_min ch /\ ch_max ch <= ch_max ch')%N /\ (ch_optional ch = true -> ch_optional ch' = true)).
  { intros c ch' Hc'. destruct (nth_error_ex (i_choices d) c) as [ch Hc]. { rewrite <- (lo_nchoices _ _ LO). eapply nth_error_lt; eauto. }
    exists ch. split; auto. eapply (lo_choice _ _ LO); eauto. }
  split; constructor.
  - rewrite (vs_length _ _ V). symmetry. apply (lo_nchoices _ _ LO).
  - rewrite (lo_slots _ _ LO). apply (vs_range _ _ V).
  - intros c ch' Hc' Hn. destruct (NC _ _ Hc') as (ch & Hc & _ & HO). apply HO. eapply (vs_optional _ _ V); eauto.
  - intros s Hs. rewrite (lo_slots _ _ LO) in Hs. rewrite (lo_choosers _ _ LO). destruct (vs_sums _ _ V s Hs) as [K1 K2]. split.
    + eapply N.le_trans; [|exact K1]. apply slot_sum_mono; [apply (lo_nchoices _ _ LO)|]. intros c a b Ha Hb. apply (lo_choice _ _ LO _ _ _ Hb Ha).
    + eapply N.le_trans; [exact K2|]. apply slot_sum_mono; [symmetry; apply (lo_nchoices _ _ LO)|]. intros c a b Ha Hb. apply (lo_choice _ _ LO _ _ _ Ha Hb).
  - rewrite (lo_sched _ _ LO). apply (vs_cons _ _ V).
  - destruct (ra_one _ _ _ R) as [L1 L2]. unfold one_choice_per_slot. rewrite (lo_slots _ _ LO), (lo_choosers _ _ LO). auto.
  - intros c ch' Hc' Hh. destruct (NC _ _ Hc') as (ch & Hc & K & _). destruct (ra_bounds _ _ _ R c ch Hc Hh) as (m & Hm & K2). exists m. split; auto. lia.
  - rewrite (lo_sched _ _ LO). apply (ra_sched _ _ _ R).
  - rewrite (lo_assign _ _ LO). apply (ra_asg _ _ _ R).
Qed.
