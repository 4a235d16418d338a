(** User-level consequences for accepted inputs. *)
From Verif Require Import Base M_Data Spec M_Union M_Names M_Build Spec_Input P_Union P_Scoring P_Con P_Compile P_Resolve P_Limits P_Input.
From Coq Require Import Relations Sorted String.
Notation length := Datatypes.length.
Notation get := Base.get.
Notation concat := List.concat.

(** ** C02 *)
Lemma built_says pr r d S A e (strict : bool) :
  build_input pr r = Ok d -> respects_all d S A -> In e (r_exprs r) ->
  (is_order (e_rel e) = true -> a_kind (e_left e) = ASlot) ->
  (strict = true -> forall c, c < length (i_choices d) -> held S c) ->
  says strict r S A e.
Proof.
  intros H HR He HO HH. destruct (build_inv _ _ _ H) as (raw & cs & css & B).
  destruct (raw_ok _ _ _ (bf_raw _ _ _ _ _ _ B)) as (built & parts & Hb & Hp & Er).
  destruct (mmap_in_fwd _ _ _ _ Hb He) as (l & Hl & El).
  eapply (says_ok strict r _ e l S A (b_ctx _ _ _ _ _ _ B) El HO).
  - cbn [x_choices]. rewrite <- (b_choices_length _ _ _ _ _ _ B). exact HH.
  - intros k Hk. apply (b_raw_means _ _ _ _ _ _ B S A HR). rewrite Er. apply in_or_app. left.
    apply in_concat. eauto.
Qed.

(** ** C03 *)
Lemma built_part_means pr r d S A i x y cx cy :
  build_input pr r = Ok d -> respects_all d S A -> x < y ->
  is_part (r_choices r) i x cx -> is_part (r_choices r) i y cy ->
  means S A (mkC ChoicesHaveSameChoosers cx (TChoice cy) ENone) /\
  means S A (mkC ChoicesHaveOffset cx (TChoice cy) (EOffset (Z.of_nat (y - x)))).
Proof.
  intros H HR Hxy Hx Hy. destruct (build_inv _ _ _ H) as (raw & cs & css & B).
  destruct (raw_ok _ _ _ (bf_raw _ _ _ _ _ _ B)) as (built & parts & Hb & Hp & Er).
  assert (HM : forall k, part_constraint (r_choices r) k -> means S A k).
  { intros k Hk. apply (b_raw_means _ _ _ _ _ _ B S A HR). rewrite Er. apply in_or_app. right.
    apply (compute_part_ok _ _ Hp). auto. }
  split; apply HM; exists i, x, y, cx, cy; auto.
Qed.

Lemma built_parts pr r d S A i p :
  build_input pr r = Ok d -> valid_solution d S A -> nth_error (r_choices r) i = Some p ->
  let c k := first_index (r_choices r) i + k in
  ((forall k, k < copies p -> not_held S (c k)) \/
   (exists s, forall k, k < copies p -> scheduled_in S (c k) (s + k))) /\
  (forall k q, k < copies p -> (attends A q (c 0) <-> attends A q (c k))).
Proof.
  intros H [HV HR] Hp c. pose proof (copies_pos p) as Hcp.
  assert (PT : forall k, k < copies p -> is_part (r_choices r) i k (c k)) by (intros k Hk; exists p; auto).
  destruct (build_inv _ _ _ H) as (raw & cs & css & B).
  assert (LS : length S = first_index (r_choices r) (length (r_choices r))).
  { rewrite (vs_length _ _ HV), (b_choices_length _ _ _ _ _ _ B). apply blocks_length. }
  assert (HO : forall k, k < copies p -> (not_held S (c 0) /\ not_held S (c k)) \/
             (exists s, scheduled_in S (c 0) s /\ scheduled_in S (c k) (s + k))).
  { intros [|k] Hk.
    - pose proof (part_bound _ _ _ _ (PT 0 ltac:(lia))) as Hb. rewrite <- LS in Hb.
      destruct (nth_error_ex S _ Hb) as [[s|] Hs]; [right|left; split; exact Hs].
      exists s. rewrite Nat.add_0_r. split; exact Hs.
    - destruct (built_part_means pr r d S A i 0 (Datatypes.S k) _ _ H HR ltac:(lia) (PT 0 ltac:(lia)) (PT _ Hk)) as [_ HM].
      unfold means, sched_means in HM; cbn in HM. destruct HM as [HM|(s & s' & H1 & H2 & E)]; [left; auto|right].
      exists s. split; auto. replace (s + Datatypes.S k) with s' by lia. auto. }
  split.
  - destruct (HO 0 ltac:(lia)) as [[H0 _]|(s & H0 & _)].
    + left. intros k Hk. destruct (HO k Hk) as [[_ Hn]|(s & Hs & _)]; auto.
      unfold not_held, scheduled_in in *. congruence.
    + right. exists s. intros k Hk. destruct (HO k Hk) as [[Hn _]|(s' & Hs & Hk')].
      * unfold not_held, scheduled_in in *. congruence.
      * unfold scheduled_in in *. replace s with s' by congruence. auto.
  - intros [|k] q Hk; [tauto|].
    destruct (built_part_means pr r d S A i 0 (Datatypes.S k) _ _ H HR ltac:(lia) (PT 0 ltac:(lia)) (PT _ Hk)) as [HM _].
    unfold means, asg_means in HM; cbn in HM.
    destruct (HO _ Hk) as [[Hn1 Hn2]|(s & Hs & Hk')].
    + assert (NA : forall x, not_held S x -> ~ attends A q x).
      { intros x Hx (row & Hrow & Hin). destruct (ra_one _ _ _ HR) as [_ H1].
        destruct (H1 q row Hrow) as (_ & Hh & _). destruct (Hh x Hin) as [s Hs].
        unfold not_held, scheduled_in in *. congruence. }
      split; intros Ha; exfalso; eapply NA; try exact Ha; auto.
    + apply HM; eexists; eauto.
Qed.

(** ** C39: reading does not panic *)
Lemma bind_no_panic {X Y} (a : outcome X) (f : X -> outcome Y) :
  a <> Panic -> (forall x, a = Ok x -> f x <> Panic) -> bind a f <> Panic.
Proof. destruct a; cbn; auto; try congruence. Qed.
Lemma mmap_no_panic {X Y} (f : X -> outcome Y) l : (forall x, In x l -> f x <> Panic) -> mmap f l <> Panic.
Proof.
  induction l as [|a t IH]; cbn; intros H; [discriminate|].
  apply bind_no_panic; [apply H; auto|]. intros y _. apply bind_no_panic; [apply IH; intros; apply H; auto|]. discriminate.
Qed.

Lemma prefs_total chs css cs n : n = length chs -> (Z.of_nat n <= i32_max)%Z ->
  (forall k, In k cs -> shaped k) ->
  (forall a b, In (a, b) (same_pairs cs) -> a < n /\ b < n) ->
  (forall p o, In (p, o) (in_pairs cs) -> p < length css /\ o < n) ->
  (forall c, In c css -> length (cs_prefs c) = n /\ forall x, In x (cs_prefs c) -> (x <= u32_max)%N) ->
  exists prefs, get_dependent_prefs chs css cs = Ok prefs.
Proof.
  intros -> Hn HS HB HI HR. unfold get_dependent_prefs.
  destruct (get_dependent_total cs (length chs) Hn HB HS) as [gs Hgs]. rewrite Hgs; cbn [bind].
  destruct (get_dependent_ok _ _ _ Hgs) as [HG _].
  assert (Hrow : forall c, In c css -> exists row', mfold group_min gs (cs_prefs c) = Ok row' /\ length row' = length chs).
  { intros c Hc. destruct (HR c Hc) as [HL HU].
    destruct (row_min_spec _ _ _ (cs_prefs c) HG) as (row' & E1 & [E2 _]); auto.
    - intros z; apply rst_refl.
    - exists row'. split; auto. congruence. }
  destruct (mmap_ok (fun c => mfold group_min gs (cs_prefs c)) css) as [prefs1 Hp1].
  { intros c Hc. destruct (Hrow c Hc) as (row' & E & _). eauto. }
  rewrite Hp1; cbn [bind].
  destruct (zero_spec cs (length chs) (length css) HS HI prefs1) as (prefs2 & -> & _); eauto.
  - eapply mmap_length; eauto.
  - intros row Hr. destruct (mmap_in _ _ _ _ Hp1 Hr) as (c & Hc & Ec). destruct (Hrow c Hc) as (row' & E & L). congruence.
Qed.

Lemma build_no_panic pr r :
  reader_u32 r -> (forall e, In e (r_exprs r) -> ints_u32 e) ->
  (Z.of_nat (first_index (r_choices r) (length (r_choices r))) <= i32_max)%Z ->
  build_input pr r <> Panic.
Proof.
  intros HU HE Hn. unfold build_input. apply bind_no_panic; [apply build_prefs_total|].
  intros [m mc] Hmc. destruct (build_prefs_ok _ _ _ _ Hmc) as (HC & Em & Emc).
  destruct (compile_choices (r_choices r) mc) as [chs css] eqn:Ecc.
  destruct (compile_spec (r_choices r) mc chs css) as [-> Ecss]; auto.
  { intros c Hc. rewrite Emc in Hc. apply in_map_iff in Hc as (c0 & <- & Hc0). cbn. rewrite map_length. auto. }
  set (ps := r_choices r) in *. set (x := mkCtx (build_slots r) css (blocks 0 ps)).
  assert (Hn' : (Z.of_nat (length (blocks 0 ps)) <= i32_max)%Z) by (rewrite blocks_length; auto).
  apply bind_no_panic.
  { unfold raw_constraints. apply bind_no_panic.
    - apply mmap_no_panic. intros e He. apply build_expr_no_panic; auto. apply blocks_cont_ok.
    - intros built _. destruct (compute_part_total ps Hn') as [l Hl]. cbn [x_choices x]. rewrite Hl. discriminate. }
  intros raw Hraw. pose proof (raw_indexed x ps _ raw eq_refl Hraw) as HI. cbn [x_choices x_slots x_choosers x] in HI.
  destruct (reduce_total raw _ _ _ Hn' HI) as ([cs inf] & Hred). rewrite Hred. cbn [bind].
  destruct inf; [discriminate|].
  pose proof (reduce_indexed raw _ _ _ cs false HI Hred) as HCI.
  assert (HS : forall k, In k cs -> shaped k) by (intros k Hk; eapply indexed_shaped; apply HCI; auto).
  assert (HB : forall a b, In (a, b) (same_pairs cs) -> a < length (blocks 0 ps) /\ b < length (blocks 0 ps)).
  { intros a b H. apply same_pairs_in in H as (z & H). apply HCI in H as [H _]. unfold indexed in H; cbn in H. tauto. }
  assert (HIB : forall p o, In (p, o) (in_pairs cs) -> p < length css /\ o < length (blocks 0 ps)).
  { intros p o H. apply in_pairs_in in H as (z & H). apply HCI in H as [H _]. unfold indexed in H; cbn in H. tauto. }
  destruct (limits_spec (blocks 0 ps) cs Hn' HB HS) as (limits & Hlim & [LL _]). rewrite Hlim. cbn [bind].
  destruct (prefs_total (blocks 0 ps) css cs _ eq_refl Hn' HS HB HIB) as [prefs Hprefs].
  { intros c Hc. rewrite Ecss in Hc. apply in_map_iff in Hc as (c1 & <- & Hc1). rewrite Emc in Hc1.
    apply in_map_iff in Hc1 as (c0 & <- & Hc0). cbn [cs_prefs mirror]. split.
    - rewrite blocks_length. apply spread_length. rewrite map_length. auto.
    - intros z Hz. assert (Hin : forall (ps : list proto) (row : list N) z, In z (spread ps row) -> In z row).
      { clear. induction ps as [|q t IH]; intros [|y row] z Hz; cbn in Hz; auto. apply in_app_or in Hz as [Hz|Hz].
        - apply repeat_spec in Hz. left; auto. - right; auto. }
      apply Hin in Hz. apply in_map_iff in Hz as (w & <- & Hw).
      destruct (max_pref_is r) as [_ [E0|(c1 & Hc1 & Hm)]]; [rewrite Em, E0; unfold u32_max; lia|].
      pose proof (ru_prefs _ HU _ _ Hc1 Hm). rewrite Em. lia. }
  rewrite Hprefs. cbn [bind].
  match goal with |- context [length (map ?f (combine (blocks 0 ps) limits))] =>
    assert (L1 : length (map f (combine (blocks 0 ps) limits)) = length (blocks 0 ps)) by (rewrite map_length, combine_length; lia)
  end.
  rewrite L1. destruct (get_dependent_total cs _ Hn' HB HS) as [gs ->]. cbn [bind].
  destruct (build_maps_spec (length (blocks 0 ps)) (length (build_slots r))
              (length (map (fun cp => mkChooser (cs_name (fst cp)) (snd cp)) (combine css prefs)))
              (filter is_scheduling_constraint cs)) as (cm & -> & _); [|discriminate].
  intros k Hk. apply filter_In in Hk as [Hk E]. apply is_scheduling_spec in E. destruct (HCI k Hk) as [K1 K2].
  split; [|split; auto].
  unfold indexed, sched_kind in *. destruct k as [kk a t z]; cbn [c_kind c_left c_right c_extra] in *.
  destruct kk; try discriminate E; destruct t; try contradiction; auto; destruct z; auto.
Qed.

(** ** C40 *)
Lemma built_maps pr r d : build_input pr r = Ok d ->
  length (i_choice_map d) = length (i_choices d) /\
  (forall c l, nth_error (i_choice_map d) c = Some l -> forall k, In k l <-> In k (i_sched d) /\ mentions c k = true) /\
  i_chooser_map d = repeat [] (length (i_choosers d)).
Proof.
  intros H. destruct (build_inv _ _ _ H) as (raw & cs & css & B).
  destruct (build_maps_spec (length (i_choices d)) (length (i_slots d)) (length (i_choosers d)) (i_sched d)) as (cm & E & L & V).
  - intros k Hk. assert (Hc : In k cs) by (apply (b_processed _ _ _ _ _ _ B); auto).
    destruct (b_cs_indexed _ _ _ _ _ _ B k Hc) as [K1 K2].
    rewrite (bf_sched _ _ _ _ _ _ B) in Hk. apply filter_In in Hk as [_ E]. apply is_scheduling_spec in E.
    split; [|split; auto]. rewrite (b_choices_length _ _ _ _ _ _ B), (bf_slots _ _ _ _ _ _ B).
    unfold indexed, sched_kind in *. destruct k as [kk a t z]; cbn [c_kind c_left c_right c_extra] in *.
    destruct kk; try discriminate E; destruct t; try contradiction; auto; destruct z; auto.
  - rewrite (bf_maps _ _ _ _ _ _ B) in E. injection E as -> ->. auto.
Qed.

(** ** C46 *)
Lemma mmap_err {X Y} (f : X -> outcome Y) l m : mmap f l = Err m -> exists x, In x l /\ f x = Err m.
Proof.
  induction l as [|a t IH]; cbn; intros H; [discriminate|].
  destruct (f a) eqn:E; cbn [bind] in H.
  - destruct (mmap f t) eqn:E2; cbn in H; try discriminate. destruct (IH H) as (x & Hx & Ex). eauto.
  - injection H as ->. eauto.
  - discriminate.
Qed.
Lemma mfold_no_err {X Y} (f : Y -> X -> outcome Y) l : (forall b x m, f b x <> Err m) -> forall b m, mfold f l b <> Err m.
Proof.
  intros H. induction l as [|a t IH]; cbn; intros b m; [discriminate|].
  destruct (f b a) eqn:E; cbn; [apply IH| |discriminate]. exfalso. eapply H; eauto.
Qed.
Lemma get_no_err {X} (l : list X) i m : get l i <> Err m.
Proof. unfold Base.get. destruct (nth_error l i); discriminate. Qed.
Lemma set_no_err {X} (l : list X) i (x : X) m : set l i x <> Err m.
Proof. unfold set. destruct (_ <? _); discriminate. Qed.
Lemma bind_no_err {X Y} (a : outcome X) (f : X -> outcome Y) m :
  a <> Err m -> (forall x, f x <> Err m) -> bind a f <> Err m.
Proof. destruct a; cbn; intros H1 H2; [apply H2|intros E; apply H1; congruence|discriminate]. Qed.
Lemma uf_new_no_err n m : uf_new n <> Err m.
Proof. unfold uf_new, to_i32. destruct (_ <=? _)%Z; cbn; discriminate. Qed.
Lemma uf_walk_no_err f ps : forall i m, uf_walk f ps i <> Err m.
Proof. induction f as [|f IH]; intros i m; cbn; [discriminate|]. apply bind_no_err; [apply get_no_err|]. intros [j|]; [apply IH|discriminate]. Qed.
Lemma uf_find_no_err u e m : uf_find u e <> Err m.
Proof. unfold uf_find. destruct (_ <? _); [apply uf_walk_no_err|discriminate]. Qed.
Lemma uf_join_no_err u a b m : uf_join u a b <> Err m.
Proof.
  unfold uf_join. apply bind_no_err; [apply uf_find_no_err|]. intros li. apply bind_no_err; [apply uf_find_no_err|]. intros ri.
  destruct (li =? ri); [discriminate|]. apply bind_no_err; [apply get_no_err|]. intros hl. apply bind_no_err; [apply get_no_err|]. intros hr.
  destruct (hr <? hl); (apply bind_no_err; [apply set_no_err|]; intros p; apply bind_no_err; [apply set_no_err|]; discriminate).
Qed.
Lemma uf_groups_no_err u m : uf_groups u <> Err m.
Proof.
  unfold uf_groups. apply bind_no_err; [|discriminate]. apply mfold_no_err. intros b x m0.
  apply bind_no_err; [apply uf_find_no_err|discriminate].
Qed.
Lemma con_other_no_err k m : con_other_choice k <> Err m.
Proof. unfold con_other_choice. destruct (c_right k); discriminate. Qed.
Lemma join_same_no_err cs u m : join_same cs u <> Err m.
Proof.
  apply mfold_no_err. intros b x m0. destruct (kind_eqb _ _); [|discriminate].
  apply bind_no_err; [apply con_other_no_err|]. intros; apply uf_join_no_err.
Qed.
Lemma get_dependent_no_err cs n m : get_dependent_choices cs n <> Err m.
Proof.
  unfold get_dependent_choices. apply bind_no_err; [apply uf_new_no_err|]. intros u. apply bind_no_err; [apply join_same_no_err|].
  intros; apply uf_groups_no_err.
Qed.
Lemma mmap_no_err {X Y} (f : X -> outcome Y) l m : (forall x, In x l -> f x <> Err m) -> mmap f l <> Err m.
Proof. intros H E. apply mmap_err in E as (x & Hx & Ex). eapply H; eauto. Qed.
Lemma expand_no_err cs n m : expand_dependent cs n <> Err m.
Proof.
  unfold expand_dependent. apply bind_no_err; [apply get_dependent_no_err|]. intros dep. apply bind_no_err.
  - unfold get_mandatory_critical_sets. apply bind_no_err; [|discriminate]. apply mfold_no_err. intros b x m0.
    destruct (kind_eqb _ _); [|discriminate]. apply bind_no_err; [apply con_other_no_err|discriminate].
  - intros mand. apply bind_no_err; [|discriminate]. apply mmap_no_err. intros k _. unfold expand_one.
    destruct (_ || _); [|discriminate]. apply bind_no_err; [apply con_other_no_err|discriminate].
Qed.
Lemma reduce_one_no_err k m : reduce_one k <> Err m.
Proof.
  unfold reduce_one. destruct (c_kind k); try discriminate; try (destruct (c_right k); discriminate).
  apply bind_no_err; [|discriminate]. unfold con_slot. destruct (c_right k); discriminate.
Qed.
Lemma reduce_no_err cs n m : reduce_and_optimize cs n <> Err m.
Proof.
  unfold reduce_and_optimize. apply bind_no_err; [apply mmap_no_err; intros; apply reduce_one_no_err|]. intros rs.
  apply bind_no_err; [apply expand_no_err|discriminate].
Qed.
Lemma part_pairs_no_err : forall l off a m, part_pairs off a l <> Err m.
Proof.
  induction l as [|b l IH]; intros off a m; cbn; [discriminate|].
  apply bind_no_err; [unfold to_i32; destruct (_ <=? _)%Z; discriminate|]. intros z. apply bind_no_err; [apply IH|discriminate].
Qed.
Lemma group_part_no_err : forall l m, group_part_constraints l <> Err m.
Proof.
  induction l as [|b l IH]; intros m; cbn; [discriminate|]. apply bind_no_err; [apply part_pairs_no_err|]. intros.
  apply bind_no_err; [apply IH|discriminate].
Qed.
Lemma compute_part_no_err chs m : compute_part_constraints chs <> Err m.
Proof.
  unfold compute_part_constraints. apply bind_no_err; [apply uf_new_no_err|]. intros u. apply bind_no_err.
  { apply mfold_no_err. intros b x m0. apply bind_no_err; [apply get_no_err|]. intros c. destruct (ch_cont c); [apply uf_join_no_err|discriminate]. }
  intros u'. apply bind_no_err; [apply uf_groups_no_err|]. intros gs. apply bind_no_err; [|discriminate].
  apply mmap_no_err. intros; apply group_part_no_err.
Qed.

(** error texts of name resolution *)
Lemma find_name_err n vs m : find_name n vs = Err m -> m = msg_ambiguous n.
Proof. unfold find_name. destruct (fuzzy_find n vs) as [|? [|? ?]]; intros H; try discriminate. injection H as <-; auto. Qed.
Lemma follow_err q cs : forall k c m, follow_parts q cs c k = Err m -> m = msg_no_part q.
Proof.
  induction k as [|k IH]; intros c m H; cbn in H; [discriminate|].
  destruct (get cs c) as [cd| |] eqn:E; cbn in H; [|exfalso; eapply get_no_err; eauto|discriminate].
  destruct (ch_cont cd); [eauto|]. injection H as <-; auto.
Qed.
Definition resolve_msg (m : string) : Prop :=
  (exists n, m = msg_ambiguous n) \/ (exists k, m = msg_no_part k) \/ m = "invalid digit found in string"%string \/
  m = "number too large to fit in target type"%string \/ m = "cannot parse integer from empty string"%string \/ m = "Unexpected accessor type."%string.
Lemma digits_error_texts lim s : forall acc, parse_digits lim acc s = None ->
  digits_error lim acc s = "invalid digit found in string"%string \/ digits_error lim acc s = "number too large to fit in target type"%string.
Proof.
  induction s as [|c t IH]; intros acc H; cbn [parse_digits digits_error] in *; [discriminate|].
  destruct (digit_val c) as [v|]; auto. destruct (_ <=? _)%N; auto.
Qed.
Lemma parse_error_texts s : parse_usize s = None ->
  parse_error s = "invalid digit found in string"%string \/ parse_error s = "number too large to fit in target type"%string \/
  parse_error s = "cannot parse integer from empty string"%string.
Proof.
  unfold parse_usize, parse_unsigned, parse_error. destruct s as [|c t]; auto.
  assert (D : forall s, parse_digits usize_max 0 s = None -> digits_error usize_max 0 s = "invalid digit found in string"%string \/
     digits_error usize_max 0 s = "number too large to fit in target type"%string \/ digits_error usize_max 0 s = "cannot parse integer from empty string"%string).
  { intros s0 H. destruct (digits_error_texts _ _ _ H); auto. }
  destruct c as [[] [] [] [] [] [] [] []]; auto.
  destruct t; auto.
Qed.
Lemma resolve_err x a m : resolve_accessor x a = Err m -> resolve_msg m.
Proof.
  unfold resolve_accessor, resolve_msg. destruct (a_kind a); intros H; try (injection H as <-; tauto).
  - destruct (find_name _ _) eqn:E; cbn in H; try discriminate. injection H as ->. apply find_name_err in E. eauto.
  - destruct (find_name _ _) as [[c|]| |] eqn:E; cbn in H; try discriminate.
    + destruct (follow_parts _ _ _ _) eqn:E2; cbn in H; try discriminate. injection H as ->. apply follow_err in E2. eauto.
    + injection H as ->. apply find_name_err in E. eauto.
  - destruct (find_name _ _) eqn:E; cbn in H; try discriminate. injection H as ->. apply find_name_err in E. eauto.
  - destruct (parse_usize _) eqn:EP; [discriminate|]. injection H as <-. pose proof (parse_error_texts _ EP). tauto.
Qed.
Lemma add_err x e k ex m : add_constraint x e k ex = Err m -> resolve_msg m.
Proof.
  unfold add_constraint. intros H.
  assert (T : forall t : option target, (match t with
      | None => Ok []
      | Some t => let* l := resolve_accessor x (e_left e) in
           match l with None => Ok [] | Some n => Ok [mkC k (N.to_nat n) t ex] end
      end) = Err m -> resolve_msg m).
  { intros [t|] H'; [|discriminate]. destruct (resolve_accessor x (e_left e)) as [[n|]| |] eqn:E; cbn in H'; try discriminate.
    injection H' as ->. eapply resolve_err; eauto. }
  destruct (a_kind (e_right e)) eqn:EK; try (exact (T (Some TNone) H));
    destruct (resolve_accessor x (e_right e)) as [rr| |] eqn:ER; cbn [bind] in H; try discriminate;
    try (injection H as ->; eapply resolve_err; eauto; fail); try (eapply T; exact H).
  destruct rr as [n|]; cbn [expect bind] in H; [|discriminate]. destruct (n <=? u32_max)%N; [|discriminate].
  exact (T (Some (TLimit n)) H).
Qed.
Lemma build_expr_err x e m : build_expr x e = Err m -> m = "Unsupported constraint."%string \/ resolve_msg m.
Proof.
  unfold build_expr. destruct (table e) as [[k ex]|]; [intros H; right; eapply add_err; eauto|].
  destruct (table (swap_sides e)) as [[k ex]|]; [intros H; right; eapply add_err; eauto|].
  intros H; injection H as <-. left; auto.
Qed.

Lemma unsat_origin pr r : build_input pr r = Err msg_unsat ->
  exists css raw cs, map cs_name css = map cs_name (r_choosers r) /\
    raw_constraints (mkCtx (build_slots r) css (blocks 0 (r_choices r))) (r_exprs r) = Ok raw /\
    reduce_and_optimize raw (length (blocks 0 (r_choices r))) = Ok (cs, true).
Proof.
  unfold build_input. intros H.
  destruct (build_preferences pr r) as [[m mc]| |] eqn:Hmc; cbn [bind] in H; [| |discriminate].
  2:{ unfold build_preferences in Hmc. destruct (forallb _ _); [|injection H as ->; injection Hmc as Hmc; unfold first_wrong in Hmc; destruct (find _ _); discriminate Hmc]. exfalso.
      revert Hmc. apply bind_no_err; [|discriminate]. apply mmap_no_err. intros c _. apply bind_no_err; [|discriminate].
      apply mmap_no_err. intros z _. unfold sub_u32. destruct (_ <=? _)%N; [discriminate|destruct pr; discriminate]. }
  destruct (build_prefs_ok _ _ _ _ Hmc) as (HC & Em & Emc).
  destruct (compile_choices (r_choices r) mc) as [chs css] eqn:Ecc.
  destruct (compile_spec (r_choices r) mc chs css) as [-> Ecss]; auto.
  { intros c Hc. rewrite Emc in Hc. apply in_map_iff in Hc as (c0 & <- & Hc0). cbn. rewrite map_length. auto. }
  destruct (raw_constraints _ _) as [raw| |] eqn:Hraw; cbn [bind] in H; [| |discriminate].
  2:{ injection H as ->. exfalso. unfold raw_constraints in Hraw.
      destruct (mmap _ _) as [bb| |] eqn:Eb; cbn [bind] in Hraw; [| |discriminate].
      - revert Hraw. apply bind_no_err; [apply compute_part_no_err|discriminate].
      - injection Hraw as ->. apply mmap_err in Eb as (e & _ & Ee). apply build_expr_err in Ee.
        destruct Ee as [E|[[n E]|[[n E]|[E|[E|[E|E]]]]]]; discriminate E. }
  destruct (reduce_and_optimize raw _) as [[cs inf]| |] eqn:Hred; cbn [bind] in H; [|exfalso; eapply reduce_no_err; eauto|discriminate].
  exists css, raw, cs. split. { rewrite Ecss, Emc, !map_map. apply map_ext. auto. }
  split; auto. destruct inf; auto. exfalso. revert H.
  apply bind_no_err.
  { unfold get_dependent_limits. apply bind_no_err; [apply uf_new_no_err|]. intros u. apply bind_no_err; [apply join_same_no_err|].
    intros u'. apply bind_no_err.
    - apply mfold_no_err. intros b z m0. apply bind_no_err; [apply uf_find_no_err|]. intros g. apply bind_no_err; [apply get_no_err|].
      intros l. apply bind_no_err; [apply get_no_err|]. intros; apply set_no_err.
    - intros lim. apply mfold_no_err. intros b z m0. apply bind_no_err; [apply uf_find_no_err|]. intros g. apply bind_no_err; [apply get_no_err|].
      intros; apply set_no_err. }
  intros limits. apply bind_no_err.
  { unfold get_dependent_prefs. apply bind_no_err; [apply get_dependent_no_err|]. intros gs. apply bind_no_err.
    - apply mmap_no_err. intros c _. apply mfold_no_err. intros b z m0. unfold group_min. apply bind_no_err.
      + apply mmap_no_err. intros; apply get_no_err.
      + intros vs. apply mfold_no_err. intros; apply set_no_err.
    - intros prefs. apply mfold_no_err. intros b z m0. destruct (kind_eqb _ _); [|discriminate].
      apply bind_no_err; [apply con_other_no_err|]. intros o. apply bind_no_err; [apply get_no_err|]. intros row.
      apply bind_no_err; [apply set_no_err|]. intros; apply set_no_err. }
  intros prefs. apply bind_no_err; [apply get_dependent_no_err|]. intros gs. apply bind_no_err; [|discriminate].
  unfold build_maps. apply mfold_no_err. intros [cm pm] k m0.
  assert (PA : forall q i kk mm, push_at q i kk <> Err mm).
  { intros. unfold push_at. apply bind_no_err; [apply get_no_err|]. intros; apply set_no_err. }
  unfold map_one. destruct (c_kind k); try discriminate;
    try (apply bind_no_err; [apply PA|]; intros; try discriminate; apply bind_no_err; [apply con_other_no_err|]; intros;
         apply bind_no_err; [apply PA|discriminate]);
    try (apply bind_no_err; [apply PA|discriminate]);
    try (apply bind_no_err; [apply mfold_no_err; intros; apply PA|discriminate]).
  apply bind_no_err; [apply PA|]. intros. apply bind_no_err; [unfold con_other_chooser; destruct (c_right k); discriminate|]. intros.
  apply bind_no_err; [apply PA|discriminate].
Qed.

(** Every slot accessor names a declared slot. *)
Definition slots_named (r : reader) (e : expr) : Prop :=
  forall a, a = e_left e \/ a = e_right e -> a_kind a = ASlot -> exists s, the_slot r a s.

Lemma unsat_true pr r S A : build_input pr r = Err msg_unsat ->
  (forall e, In e (r_exprs r) -> slots_named r e) ->
  (forall s, s < length (r_slots r) -> exists c, scheduled_in S c s) ->
  ~ (forall e, In e (r_exprs r) -> says false r S A e).
Proof.
  intros H HN HF HS. destruct (unsat_origin _ _ H) as (css & raw & cs & Ecss & Hraw & Hred).
  unfold reduce_and_optimize in Hred. apply bind_ok in Hred as (rs & Hrs & Hred). apply bind_ok in Hred as (out & _ & Hred).
  injection Hred as _ Hinf. apply existsb_exists in Hinf as ([l b] & Hin & Eb). cbn in Eb. subst b.
  destruct (mmap_in _ _ _ _ Hrs Hin) as (k & Hk & Ek).
  assert (exists a s, c_kind k = SlotsHaveSameChoices /\ c_left k = a /\ c_right k = TSlot s /\ a <> s) as (a & s & E1 & E2 & E3 & Hne).
  { unfold reduce_one in Ek. destruct (c_kind k) eqn:EK; try discriminate Ek; try (destruct (c_right k); discriminate Ek).
    apply bind_ok in Ek as (s & Hs & Ek). injection Ek as _ Ek. apply negb_true_iff, Nat.eqb_neq in Ek.
    unfold con_slot in Hs. destruct (c_right k); try discriminate. injection Hs as ->. eauto 7. }
  set (x := mkCtx (build_slots r) css (blocks 0 (r_choices r))) in *.
  assert (HX : ctx_of r x) by (constructor; auto).
  destruct (raw_ok _ _ _ Hraw) as (built & parts & Hb & Hp & ->). apply in_app_or in Hk as [Hk|Hk].
  2:{ apply (compute_part_ok _ _ Hp) in Hk as (? & ? & ? & ? & ? & _ & _ & _ & [-> | ->]); discriminate E1. }
  apply in_concat in Hk as (le & Hle & Hk). destruct (mmap_in _ _ _ _ Hb Hle) as (e & He & Ee).
  pose proof (HS e He) as Hsays. pose proof (HN e He) as Hnamed.
  assert (K : forall e', table e' = Some (SlotsHaveSameChoices, ENone) -> a_kind (e_left e') = ASlot /\ a_kind (e_right e') = ASlot /\ a_sub (e_left e') = AChoice /\ a_sub (e_right e') = AChoice /\ e_rel e' = REq).
  { intros [la rel ra] HT. unfold table in HT. cbn [e_left e_right e_rel] in *.
    destruct (a_kind la), (a_sub la), rel; try discriminate HT; destruct (a_kind ra), (a_sub ra); try discriminate HT; auto. }
  assert (HE : exists ex, table e = Some (SlotsHaveSameChoices, ex) \/ (table e = None /\ table (swap_sides e) = Some (SlotsHaveSameChoices, ex))).
  { unfold build_expr in Ee. destruct (table e) as [[kk ex]|] eqn:ET.
    - exists ex. left. f_equal. f_equal.
      assert (HP : proper (a_kind (e_right e))).
      { unfold table in ET. destruct (a_kind (e_left e)), (a_sub (e_left e)), (e_rel e), (a_kind (e_right e)); try discriminate ET; exact I || (destruct (a_sub (e_right e)); discriminate ET). }
      destruct (add_constraint_ok _ _ _ _ _ HP Ee k Hk) as (? & ? & _ & _ & _ & ->). auto.
    - destruct (table (swap_sides e)) as [[kk ex]|] eqn:ET'; [|discriminate]. exists ex. right. split; auto. f_equal. f_equal.
      assert (HP : proper (a_kind (e_right (swap_sides e)))).
      { unfold table in ET'. destruct (a_kind (e_left (swap_sides e))), (a_sub (e_left (swap_sides e))), (e_rel (swap_sides e)), (a_kind (e_right (swap_sides e))); try discriminate ET'; exact I || (destruct (a_sub (e_right (swap_sides e))); discriminate ET'). }
      destruct (add_constraint_ok _ _ _ _ _ HP Ee k Hk) as (? & ? & _ & _ & _ & ->). auto. }
  destruct HE as (ex & [ET|[ET ET']]).
  - assert (ex = ENone) as ->.
    { clear -ET. unfold table in ET. destruct (a_kind (e_left e)), (a_sub (e_left e)), (e_rel e); try discriminate ET; destruct (a_kind (e_right e)), (a_sub (e_right e)); try discriminate ET; congruence. }
    destruct (K e ET) as (KL & KR & SL & SR & ER).
    unfold build_expr in Ee. rewrite ET in Ee.
    assert (HP : proper (a_kind (e_right e))) by (rewrite KR; exact I).
    destruct (add_constraint_ok _ _ _ _ _ HP Ee k Hk) as (n & m & RL & RR & _ & Ek'). rewrite KR in Ek'.
    destruct (Hnamed (e_left e) (or_introl eq_refl) KL) as [s1 Hs1]. destruct (Hnamed (e_right e) (or_intror eq_refl) KR) as [s2 Hs2].
    pose proof (resolve_slot r x _ s1 _ HX KL Hs1 RL) as En. pose proof (resolve_slot r x _ s2 _ HX KR Hs2 RR) as Emm.
    injection En as ->. injection Emm as ->. subst k. cbn in E2, E3. injection E3 as E3. rewrite Nat2N.id in *. subst a s.
    destruct Hsays as [HD _]. unfold says_direct in HD. rewrite KL, KR, SL, SR, ER in HD.
    destruct (HF s1) as [c Hc]. { destruct Hs1 as (sl & Hsl & Esl). apply nth_error_lt in Hsl; auto. }
    pose proof (proj1 (HD s1 s2 Hs1 Hs2 c) Hc) as Hc2. unfold scheduled_in in *. congruence.
  - exfalso. assert (ET2 := ET'). unfold table in ET'. unfold table in ET. unfold swap_sides in *. cbn [e_left e_right e_rel] in *.
    destruct (a_kind (e_right e)), (a_sub (e_right e)), (e_rel e); try discriminate ET'; destruct (a_kind (e_left e)), (a_sub (e_left e)); discriminate.
Qed.

(** ** C37 *)
Lemma swap_same x a rel b l l' S A : (rel = REq \/ rel = RNeq) ->
  build_expr x (mkE a rel b) = Ok l -> build_expr x (mkE b rel a) = Ok l' ->
  (forall k, In k l -> means S A k) -> forall k, In k l' -> means S A k.
Proof.
  intros HR H H' HM k Hk. unfold build_expr in H, H'.
  unfold swap_sides in *; cbn [e_left e_right e_rel] in *.
  destruct (table (mkE a rel b)) as [[k1 x1]|] eqn:T1.
  - destruct (table (mkE b rel a)) as [[k2 x2]|] eqn:T2.
    + assert (HP : proper (a_kind a) /\ proper (a_kind b)).
      { unfold table in T1, T2; cbn [e_left e_right e_rel] in T1, T2.
        destruct (a_kind a), (a_sub a), rel; try discriminate T1; destruct (a_kind b), (a_sub b); try discriminate T1; try discriminate T2; split; exact I. }
      destruct (add_constraint_ok _ (mkE b rel a) _ _ _ (proj1 HP) H' k Hk) as (n & m & RL & RR & HI & ->). cbn [e_left e_right] in *.
      pose proof (add_constraint_there x (mkE a rel b) k1 x1 l m n (proj2 HP) H RR RL) as G. apply HM in G. cbn [e_right] in G.
      unfold table in T1, T2; cbn [e_left e_right e_rel] in T1, T2.
      destruct (a_kind a), (a_sub a), rel; try discriminate T1; destruct (a_kind b), (a_sub b); try discriminate T1; try discriminate T2;
        injection T1 as <- <-; injection T2 as <- <-; cbn [target_of] in *;
        unfold means, sched_means, asg_means in *; cbn in *; try (intros; symmetry; auto; fail).
      all: first [ intros Hn1 Hn2 p; symmetry; apply (G Hn2 Hn1 p)
                 | intros s [Hs1 Hs2]; apply (G s); split; assumption
                 | intros s; symmetry; apply (G s) ].
    + rewrite H in H'. injection H' as <-. auto.
  - destruct (table (mkE b rel a)) as [[k2 x2]|] eqn:T2; [|discriminate].
    rewrite H in H'. injection H' as <-. auto.
Qed.
