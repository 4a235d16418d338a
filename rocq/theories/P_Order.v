(** Proofs behind C79: listing slots and choosers in another order. *)
From Verif Require Import Base M_Data Spec M_Scoring P_Scoring P_Feasible P_Score P_Minor M_Union M_Names M_Build P_Union Spec_Input P_Con P_Compile P_Resolve P_Limits P_Input P_Input2 P_Input3 Spec_Meta P_Meta Spec_Order.
From Coq Require Import String Relations Permutation FinFun Sorted.
Notation length := Datatypes.length.
Notation get := Base.get.
Notation concat := List.concat.

(** ** Reordered lists *)
Lemma placed_lt {X} f (l l' : list X) i : placed f l l' -> i < length l -> f i < length l'.
Proof. intros (_ & _ & H) Hi. apply nth_error_Some. rewrite H. apply nth_error_Some. auto. Qed.
Lemma placed_lt' {X} f (l l' : list X) i : placed f l l' -> f i < length l' -> i < length l.
Proof. intros (_ & _ & H) Hi. apply nth_error_Some. rewrite <- H. apply nth_error_Some. auto. Qed.
Lemma placed_onto {X} f (l l' : list X) j : placed f l l' -> j < length l' -> exists i, i < length l /\ f i = j.
Proof.
  intros P Hj. pose proof P as (HL & HI & _).
  assert (BI : bInjective (length l) f) by (intros x y _ _; auto).
  apply bInjective_bSurjective in BI.
  - destruct (BI j) as (i & Hi & E); [rewrite <- HL; auto|]. eauto.
  - intros i Hi. rewrite <- HL. eapply placed_lt; eauto.
Qed.
Lemma placed_map {X Y} (g : X -> Y) f l l' : placed f l l' -> placed f (map g l) (map g l').
Proof. intros (HL & HI & H). split; [rewrite !map_length; auto|]. split; auto. intros i. rewrite !nth_error_map, H. auto. Qed.
Lemma placed_perm {X} f (l l' : list X) : placed f l l' -> Permutation l l'.
Proof.
  intros (HL & HI & H). apply Permutation_sym, Permutation_nth_error. split; auto. exists f. split; auto.
Qed.
Lemma perm_placed {X} (l l' : list X) : Permutation l l' -> exists f, placed f l l'.
Proof.
  intros HP. apply Permutation_sym, Permutation_nth_error in HP as (HL & f & HI & H). exists f. split; auto.
Qed.

(** ** Name lookup *)
Lemma idx_filter_placed {X} (P : X -> bool) f (vs vs' : list X) : placed f vs vs' ->
  Permutation (idx_filter P 0 vs') (map f (idx_filter P 0 vs)).
Proof.
  intros HP. pose proof HP as (HL & HI & H). apply NoDup_Permutation.
  - apply idx_filter_nodup.
  - apply Injective_map_NoDup; [exact HI|apply idx_filter_nodup].
  - intros j. rewrite in_map_iff. split.
    + intros Hj. assert (Hl : j < length vs') by (eapply idx_filter_lt; eauto).
      destruct (placed_onto _ _ _ _ HP Hl) as (i & Hi & <-). exists i. split; auto.
      apply idx_filter_in in Hj as (_ & v & Hv & Ev). apply idx_filter_in. split; [lia|]. exists v.
      rewrite Nat.sub_0_r in *. rewrite H in Hv. auto.
    + intros (i & <- & Hi). apply idx_filter_in in Hi as (_ & v & Hv & Ev). apply idx_filter_in. split; [lia|]. exists v.
      rewrite Nat.sub_0_r in *. rewrite H. auto.
Qed.
Lemma fuzzy_placed f n vs vs' : placed f vs vs' -> Permutation (fuzzy_find n vs') (map f (fuzzy_find n vs)).
Proof.
  intros HP. unfold fuzzy_find, find_exact, find_by_token, find_by_substring.
  assert (G : forall (P : string -> bool) (k k' : list nat), Permutation k' (map f k) ->
     Permutation (match idx_filter P 0 vs' with [] => k' | x :: t => x :: t end) (map f (match idx_filter P 0 vs with [] => k | x :: t => x :: t end))).
  { intros P k k' HK. pose proof (idx_filter_placed P f vs vs' HP) as HQ.
    destruct (idx_filter P 0 vs) as [|a t]; cbn [map] in HQ.
    - apply Permutation_sym, Permutation_nil in HQ. rewrite HQ. auto.
    - destruct (idx_filter P 0 vs') as [|b t']; [apply Permutation_nil in HQ; discriminate|]. exact HQ. }
  apply G. apply G. apply G. apply idx_filter_placed; auto.
Qed.

Definition omap {X Y} (g : X -> Y) (o : outcome X) : outcome Y :=
  match o with Ok a => Ok (g a) | Err m => Err m | Panic => Panic end.

Lemma find_name_placed f n vs vs' : placed f vs vs' -> find_name n vs' = omap (option_map f) (find_name n vs).
Proof.
  intros HP. pose proof (fuzzy_placed f n _ _ HP) as HQ. unfold find_name.
  pose proof (Permutation_length HQ) as HLn. rewrite map_length in HLn.
  destruct (fuzzy_find n vs) as [|a [|b t]]; destruct (fuzzy_find n vs') as [|a' [|b' t']]; cbn in *; try discriminate; auto.
  apply Permutation_length_1 in HQ. subst; auto.
Qed.

(** ** Constraints *)
Section Shift.
Variables fs fc : nat -> nat.
Hypothesis IS : forall i j, fs i = fs j -> i = j.
Hypothesis IC : forall i j, fc i = fc j -> i = j.

Definition rec_left (k : kind) (n : nat) : nat :=
  match k with
  | SlotHasLimitedSize | SlotContainsChoice | SlotNotContainsChoice | SlotsHaveSameChoices => fs n
  | ChooserIsInChoice | ChooserIsNotInChoice | ChoosersHaveSameChoices => fc n
  | _ => n
  end.
Definition rec_right (t : target) : target :=
  match t with TSlot s => TSlot (fs s) | TChooser p => TChooser (fc p) | t => t end.
Definition recc (k : constraint) : constraint :=
  mkC (c_kind k) (rec_left (c_kind k) (c_left k)) (rec_right (c_right k)) (c_extra k).

Lemma recc_inj k k' : recc k = recc k' -> k = k'.
Proof.
  destruct k as [kk l t x], k' as [kk' l' t' x']. unfold recc; cbn [c_kind c_left c_right c_extra]. intros E. injection E as E1 E2 E3 E4.
  subst kk' x'. f_equal.
  - destruct kk; cbn in E2; auto.
  - destruct t, t'; cbn in E3; try discriminate; auto; injection E3 as E3; f_equal; auto.
Qed.

Definition shift (k : acc_kind) (n : N) : N :=
  match k with ASlot => N.of_nat (fs (N.to_nat n)) | AChooser => N.of_nat (fc (N.to_nat n)) | _ => n end.

Section Ctx.
Variables x x' : ctx.
Hypothesis XS : placed fs (map sl_name (x_slots x)) (map sl_name (x_slots x')).
Hypothesis XC : placed fc (map cs_name (x_choosers x)) (map cs_name (x_choosers x')).
Hypothesis XH : x_choices x' = x_choices x.

Lemma resolve_placed a : resolve_accessor x' a = omap (option_map (shift (a_kind a))) (resolve_accessor x a).
Proof.
  unfold resolve_accessor. destruct (a_kind a) eqn:K; auto.
  - rewrite (find_name_placed _ _ _ _ XC). destruct (find_name _ _) as [[i|]| |]; cbn; rewrite ?Nat2N.id; auto.
  - rewrite XH. destruct (find_name _ _) as [[i|]| |]; cbn; auto. destruct (follow_parts _ _ _ _); cbn; auto.
  - rewrite (find_name_placed _ _ _ _ XS). destruct (find_name _ _) as [[i|]| |]; cbn; rewrite ?Nat2N.id; auto.
  - destruct (parse_usize _); cbn; auto.
Qed.

Definition left_kind (k : kind) : acc_kind :=
  match k with
  | SlotHasLimitedSize | SlotContainsChoice | SlotNotContainsChoice | SlotsHaveSameChoices => ASlot
  | ChooserIsInChoice | ChooserIsNotInChoice | ChoosersHaveSameChoices => AChooser
  | _ => AChoice
  end.
Lemma table_left e k ex : table e = Some (k, ex) -> a_kind (e_left e) = left_kind k.
Proof.
  destruct e as [[lk ls ln lp] rel [rk rs rn rp]]. unfold table; cbn [e_left e_right e_rel a_kind a_sub].
  destruct lk; try discriminate; destruct ls; try discriminate; destruct rel; try discriminate;
    destruct rk; try discriminate; destruct rs; try discriminate; intros H; injection H as <- <-; auto.
Qed.
Lemma add_placed e k ex : table e = Some (k, ex) -> add_constraint x' e k ex = omap (map recc) (add_constraint x e k ex).
Proof.
  intros HT. pose proof (table_left _ _ _ HT) as HK. unfold add_constraint. rewrite !resolve_placed.
  assert (HL : forall t : target, 
     (let* l := omap (option_map (shift (a_kind (e_left e)))) (resolve_accessor x (e_left e)) in
      match l with None => Ok [] | Some n => Ok [mkC k (N.to_nat n) (rec_right t) ex] end) =
     omap (map recc) (let* l := resolve_accessor x (e_left e) in match l with None => Ok [] | Some n => Ok [mkC k (N.to_nat n) t ex] end)).
  { intros t. destruct (resolve_accessor x (e_left e)) as [[n|]| |]; cbn [omap option_map bind map]; auto.
    unfold recc; cbn [c_kind c_left c_right c_extra]. rewrite HK. f_equal. f_equal. f_equal.
    destruct k; cbn [left_kind shift rec_left]; rewrite ?Nat2N.id; auto. }
  destruct (a_kind (e_right e)) eqn:KR; cbn [bind].
  - apply (HL TNone).
  - destruct (resolve_accessor x (e_right e)) as [[n|]| |]; cbn [omap option_map bind shift]; auto. rewrite Nat2N.id. apply (HL (TChooser (N.to_nat n))).
  - destruct (resolve_accessor x (e_right e)) as [[n|]| |]; cbn [omap option_map bind shift]; auto. apply (HL (TChoice (N.to_nat n))).
  - destruct (resolve_accessor x (e_right e)) as [[n|]| |]; cbn [omap option_map bind shift]; auto. rewrite Nat2N.id. apply (HL (TSlot (N.to_nat n))).
  - apply (HL TNone).
  - destruct (resolve_accessor x (e_right e)) as [[n|]| |]; cbn [omap option_map bind shift expect]; auto.
    destruct (n <=? u32_max)%N; cbn [bind omap]; auto. apply (HL (TLimit n)).
Qed.
Lemma build_expr_placed e : build_expr x' e = omap (map recc) (build_expr x e).
Proof.
  unfold build_expr. destruct (table e) as [[k ex]|] eqn:E; [apply add_placed; auto|].
  destruct (table (swap_sides e)) as [[k ex]|] eqn:E'; [apply add_placed; auto|]. auto.
Qed.

Lemma group_part_fixed ps l k : compute_part_constraints (blocks 0 ps) = Ok l -> In k l -> recc k = k.
Proof.
  intros H Hk. apply (compute_part_ok ps l H) in Hk as (i & a & b & ca & cb & _ & _ & _ & [-> | ->]); auto.
Qed.
Lemma raw_placed ps es raw : x_choices x = blocks 0 ps -> raw_constraints x es = Ok raw -> raw_constraints x' es = Ok (map recc raw).
Proof.
  intros EX H. apply raw_ok in H as (built & parts & Hb & Hp & ->). unfold raw_constraints. rewrite XH, Hp.
  assert (EM : mmap (build_expr x') es = Ok (map (map recc) built)).
  { clear Hp. revert built Hb. induction es as [|e t IH]; intros built Hb; cbn [mmap] in *.
    - injection Hb as <-. auto.
    - apply bind_ok in Hb as (y & Hy & Hb). apply bind_ok in Hb as (ys & Hys & Hb). injection Hb as <-.
      rewrite build_expr_placed, Hy. cbn [omap bind]. rewrite (IH _ Hys). auto. }
  rewrite EM. cbn [bind]. rewrite map_app. f_equal. f_equal.
  - rewrite concat_map. auto.
  - rewrite <- (map_id parts) at 1. apply map_ext_in. intros k Hk. rewrite EX in Hp. symmetry. eapply group_part_fixed; eauto.
Qed.
End Ctx.

(** ** Preprocessing *)
Lemma reduce_one_placed k l b : shaped k -> reduce_one k = Ok (l, b) -> reduce_one (recc k) = Ok (map recc l, b).
Proof.
  intros HS. destruct k as [kk l0 t x]. unfold reduce_one, recc, shaped in *; cbn [c_kind c_left c_right c_extra] in *.
  destruct kk; cbn [rec_left]; try contradiction; destruct t; try contradiction; cbn [rec_right]; intros H;
    try (injection H as <- <-; reflexivity).
  unfold con_slot in *; cbn [c_right bind] in *. injection H as <- <-. cbn. f_equal. f_equal.
  destruct (Nat.eqb_spec l0 s) as [-> |]; [rewrite Nat.eqb_refl; auto|]. destruct (Nat.eqb_spec (fs l0) (fs s)) as [E|]; auto; exfalso; auto.
Qed.

Lemma same_pairs_placed cs : same_pairs (map recc cs) = same_pairs cs.
Proof.
  unfold same_pairs. induction cs as [|k t IH]; cbn [map flat_map]; auto. rewrite IH. f_equal.
  destruct k as [kk l t0 x]; cbn. destruct kk; try reflexivity; destruct t0; reflexivity.
Qed.
Lemma in_pairs_placed cs : in_pairs (map recc cs) = map (fun q => (fc (fst q), snd q)) (in_pairs cs).
Proof.
  unfold in_pairs. induction cs as [|k t IH]; cbn [map flat_map]; auto. rewrite map_app, IH. f_equal.
  destruct k as [kk l t0 x]; cbn. destruct kk; try reflexivity; destruct t0; reflexivity.
Qed.
Lemma groups_placed cs n : get_dependent_choices (map recc cs) n = get_dependent_choices cs n.
Proof.
  unfold get_dependent_choices. destruct (uf_new n) as [u| |]; cbn [bind]; auto.
  assert (E : join_same (map recc cs) u = join_same cs u); [|rewrite E; auto].
  unfold join_same. revert u. induction cs as [|k t IH]; intros u; cbn [map mfold]; auto.
  assert (E : (if kind_eqb (c_kind (recc k)) ChoicesHaveSameChoosers then let* o := con_other_choice (recc k) in uf_join u (c_left (recc k)) o else Ok u) =
              (if kind_eqb (c_kind k) ChoicesHaveSameChoosers then let* o := con_other_choice k in uf_join u (c_left k) o else Ok u)).
  { destruct k as [kk l t0 x]. destruct kk; try reflexivity; destruct t0; reflexivity. }
  rewrite E. match goal with |- bind ?o _ = _ => destruct o; cbn [bind]; [apply IH|reflexivity|reflexivity] end.
Qed.
Lemma mand_groups cs gs : get_mandatory_critical_sets cs = Ok gs -> forall g, In g gs -> exists p, g = map snd (filter (fun q => fst q =? p) (in_pairs cs)).
Proof. apply mandatory_ok. Qed.
Lemma group_shift p (l : list (nat * nat)) :
  map snd (filter (fun q => fst q =? fc p) (map (fun q => (fc (fst q), snd q)) l)) = map snd (filter (fun q => fst q =? p) l).
Proof.
  induction l as [|[a b] t IH]; cbn; auto. destruct (Nat.eqb_spec a p) as [-> |Hn].
  - rewrite Nat.eqb_refl. cbn. rewrite IH. auto.
  - destruct (Nat.eqb_spec (fc a) (fc p)) as [E|_]; [exfalso; auto|]. auto.
Qed.
Lemma group_shift_off q0 (l : list (nat * nat)) : (forall p, fc p <> q0) ->
  filter (fun q => fst q =? q0) (map (fun q => (fc (fst q), snd q)) l) = [].
Proof.
  intros H. induction l as [|[a b] t IH]; cbn; auto. destruct (Nat.eqb_spec (fc a) q0) as [E|_]; [exfalso; eapply H; eauto|auto].
Qed.
Lemma mand_placed cs gs gs' k : get_mandatory_critical_sets cs = Ok gs -> get_mandatory_critical_sets (map recc cs) = Ok gs' ->
  In k (flat_map pairs_not_same gs') <-> In k (flat_map pairs_not_same gs).
Proof.
  intros H H'. rewrite !in_flat_map. split; intros (g & Hg & Hk).
  - destruct (mandatory_ok _ _ H' g Hg) as (q & ->). rewrite in_pairs_placed in Hk.
    destruct (filter (fun q0 => fst q0 =? q) (map (fun q => (fc (fst q), snd q)) (in_pairs cs))) as [|z l] eqn:E; [destruct Hk|].
    assert (Hz : In z (filter (fun q0 => fst q0 =? q) (map (fun q => (fc (fst q), snd q)) (in_pairs cs)))) by (rewrite E; left; auto).
    apply filter_In in Hz as [Hz Ez]. apply Nat.eqb_eq in Ez. apply in_map_iff in Hz as (y & <- & Hy). cbn in Ez.
    rewrite <- E, <- Ez, group_shift in Hk. exists (map snd (filter (fun q => fst q =? fst y) (in_pairs cs))). split; auto.
    apply (mandatory_all _ _ H). intros K. rewrite K in Hk. destruct Hk.
  - destruct (mandatory_ok _ _ H g Hg) as (q & ->). exists (map snd (filter (fun q0 => fst q0 =? fc q) (in_pairs (map recc cs)))).
    rewrite in_pairs_placed, group_shift. split; auto. rewrite <- (group_shift q), <- in_pairs_placed. apply (mandatory_all _ _ H').
    rewrite in_pairs_placed, group_shift. intros K. rewrite K in Hk. destruct Hk.
Qed.
Lemma expand_one_placed gs k r : expand_one gs k = Ok r -> expand_one gs (recc k) = Ok (map recc r).
Proof.
  unfold expand_one. destruct k as [kk l t x]; unfold recc at 1 2 3; cbn [c_kind].
  destruct (kind_eqb kk ChooserIsInChoice || kind_eqb kk ChooserIsNotInChoice) eqn:E; [|intros H; injection H as <-; auto].
  apply orb_true_iff in E. rewrite !kind_eqb_spec in E. intros H. apply bind_ok in H as (o & Ho & H). injection H as <-.
  unfold con_other_choice in *. cbn [c_right recc] in *. destruct t; try discriminate. injection Ho as ->. cbn [rec_right bind].
  f_equal. rewrite map_map. apply map_ext. intros c. unfold recc; cbn [c_kind c_left c_right c_extra].
  destruct E as [-> | ->]; auto.
Qed.
Lemma pairs_fixed gs k : In k (flat_map pairs_not_same gs) -> recc k = k.
Proof.
  intros H. apply in_flat_map in H as (g & _ & H). apply pairs_not_same_in in H as (l1 & a & l2 & b & l3 & _ & ->). auto.
Qed.

Lemma expand_placed cs n out : (forall k, In k cs -> shaped k) -> expand_dependent cs n = Ok out ->
  exists out', expand_dependent (map recc cs) n = Ok out' /\ forall k, In k out' <-> exists k0, In k0 out /\ k = recc k0.
Proof.
  unfold expand_dependent. intros HS H. apply bind_ok in H as (dep & Hd & H). apply bind_ok in H as (mand & Hm & H).
  apply bind_ok in H as (ex & Hx & H). injection H as <-.
  rewrite groups_placed, Hd. cbn [bind].
  destruct (mandatory_total (map recc cs)) as (mand' & Hm').
  { intros k Hk. apply in_map_iff in Hk as (k0 & <- & Hk0). apply HS in Hk0. destruct k0 as [kk l t x]. unfold shaped, recc in *; cbn [c_kind c_left c_right c_extra] in *.
    destruct kk; auto; destruct t; auto. }
  rewrite Hm'. cbn [bind].
  assert (EX : mmap (expand_one dep) (map recc cs) = Ok (map (map recc) ex)).
  { clear -Hx. revert ex Hx. induction cs as [|k t IH]; intros ex Hx; cbn [map mmap] in *; [injection Hx as <-; auto|].
    apply bind_ok in Hx as (y & Hy & Hx). apply bind_ok in Hx as (ys & Hys & Hx). injection Hx as <-.
    rewrite (expand_one_placed _ _ _ Hy). cbn [bind]. rewrite (IH _ Hys). auto. }
  rewrite EX. cbn [bind]. eexists. split; [reflexivity|]. intros k.
  rewrite con_dedup_in, con_sort_in. setoid_rewrite con_dedup_in. setoid_rewrite con_sort_in. setoid_rewrite in_app_iff. setoid_rewrite in_app_iff. setoid_rewrite in_app_iff.
  rewrite (mand_placed _ _ _ _ Hm Hm'). rewrite <- concat_map, !in_map_iff. split.
  - intros [K|[K|[(k0 & <- & K)|(k0 & <- & K)]]].
    + exists k. split; auto. symmetry. eapply pairs_fixed; eauto.
    + exists k. split; auto. symmetry. eapply pairs_fixed; eauto.
    + exists k0. auto.
    + exists k0. auto 6.
  - intros (k0 & [K|[K|[K|K]]] & ->).
    + left. rewrite (pairs_fixed _ _ K). auto.
    + right; left. rewrite (pairs_fixed _ _ K). auto.
    + right; right; left. eauto.
    + right; right; right. eauto.
Qed.

Lemma reduce_placed raw nc ns np cs : (forall k, In k raw -> indexed nc ns np k) -> reduce_and_optimize raw nc = Ok (cs, false) ->
  exists cs', reduce_and_optimize (map recc raw) nc = Ok (cs', false) /\ forall k, In k cs' <-> exists k0, In k0 cs /\ k = recc k0.
Proof.
  intros HI H. unfold reduce_and_optimize in *. apply bind_ok in H as (rs & Hrs & H). apply bind_ok in H as (out & Hout & H). injection H as <- Hb.
  assert (ER : mmap reduce_one (map recc raw) = Ok (map (fun q => (map recc (fst q), snd q)) rs)).
  { clear Hout Hb out. revert rs Hrs. induction raw as [|k t IH]; intros rs Hrs; cbn [map mmap] in *; [injection Hrs as <-; auto|].
    apply bind_ok in Hrs as ([l b] & Hy & Hrs). apply bind_ok in Hrs as (ys & Hys & Hrs). injection Hrs as <-.
    rewrite (reduce_one_placed _ _ _ (indexed_shaped _ _ _ _ (HI k (or_introl eq_refl))) Hy). cbn [bind].
    rewrite (IH (fun k0 Hk0 => HI k0 (or_intror Hk0)) _ Hys). auto. }
  rewrite ER. cbn [bind].
  assert (EF : flat_map fst (map (fun q : list constraint * bool => (map recc (fst q), snd q)) rs) = map recc (flat_map fst rs)).
  { clear. induction rs as [|[l b] t IH]; cbn; auto. rewrite map_app, IH. auto. }
  assert (EB : existsb snd (map (fun q : list constraint * bool => (map recc (fst q), snd q)) rs) = existsb snd rs).
  { clear. induction rs as [|[l b] t IH]; cbn; auto. rewrite IH. auto. }
  rewrite EF, EB.
  destruct (expand_placed (flat_map fst rs) nc out) as (out' & -> & HO); auto.
  - intros k Hk. apply flat_map_fst_in in Hk as (l & b & Hl & Hk). destruct (mmap_in _ _ _ _ Hrs Hl) as (k0 & Hk0 & E0).
    pose proof (reduce_one_shaped _ _ _ _ _ _ (HI _ Hk0) E0) as HR. eapply indexed_shaped. apply HR; auto.
  - cbn [bind]. rewrite Hb. eauto.
Qed.
End Shift.

(** ** The whole build *)
Record data_relisted (fs fc : nat -> nat) (d d' : input_data) : Prop := {
  dr_slots : placed fs (i_slots d) (i_slots d');
  dr_choosers : placed fc (i_choosers d) (i_choosers d');
  dr_choices : i_choices d' = i_choices d;
  dr_levels : i_levels d' = i_levels d;
  dr_max : i_max_pref d' = i_max_pref d;
  dr_sched : forall k, In k (i_sched d') <-> exists k0, In k0 (i_sched d) /\ k = recc fs fc k0;
  dr_assign : forall k, In k (i_assign d') <-> exists k0, In k0 (i_assign d) /\ k = recc fs fc k0
}.

Lemma sorted_ext_N (l1 : list N) : forall l2, StronglySorted N.lt l1 -> StronglySorted N.lt l2 ->
  (forall x, In x l1 <-> In x l2) -> l1 = l2.
Proof.
  induction l1 as [|a l1 IH]; intros [|b l2] H1 H2 HE; auto.
  - exfalso. apply (HE b). left; auto.
  - exfalso. apply (HE a). left; auto.
  - inversion H1; subst. inversion H2; subst. rewrite Forall_forall in *.
    assert (a = b).
    { destruct (proj1 (HE a) (or_introl eq_refl)) as [->|Ha]; auto.
      destruct (proj2 (HE b) (or_introl eq_refl)) as [->|Hb]; auto.
      specialize (H4 _ Hb). specialize (H6 _ Ha). lia. }
    subst b. f_equal. apply IH; auto. intros x. split; intros Hx.
    + destruct (proj1 (HE x) (or_intror Hx)) as [->|]; auto. specialize (H4 _ Hx). lia.
    + destruct (proj2 (HE x) (or_intror Hx)) as [->|]; auto. specialize (H6 _ Hx). lia.
Qed.

Lemma build_slots_placed fs fc r r' : relisted fs fc r r' -> placed fs (build_slots r) (build_slots r').
Proof.
  intros RL. pose proof (rl_slots _ _ _ _ RL) as P. pose proof (rl_no_slots _ _ _ _ RL) as Q. unfold build_slots.
  destruct (r_slots r) as [|s t].
  - pose proof P as (HL & HI & _). destruct (r_slots r'); [|discriminate]. split; [reflexivity|]. split; [exact HI|]. intros i. rewrite Q; reflexivity.
  - pose proof P as (HL & _). destruct (r_slots r') as [|s' t']; [discriminate|]. auto.
Qed.

Lemma max_relisted fs fc r r' : relisted fs fc r r' -> max_pref_of (r_choosers r') = max_pref_of (r_choosers r).
Proof.
  intros RL. pose proof (placed_perm _ _ _ (rl_choosers _ _ _ _ RL)) as HP.
  destruct (max_pref_is r) as [U D]. destruct (max_pref_is r') as [U' D']. apply N.le_antisymm.
  - destruct D' as [-> |(c & Hc & Hx)]; [lia|]. apply (U c); auto. apply (Permutation_in c (Permutation_sym HP)); auto.
  - destruct D as [-> |(c & Hc & Hx)]; [lia|]. apply (U' c); auto. apply (Permutation_in c HP); auto.
Qed.

Lemma build_relisted pr fs fc r r' d : relisted fs fc r r' -> reader_u32 r -> build_input pr r = Ok d ->
  exists d', build_input pr r' = Ok d' /\ reader_u32 r' /\ data_relisted fs fc d d'.
Proof.
  intros RL HU H. destruct (build_inv _ _ _ H) as (raw & cs & css & B).
  pose proof (placed_perm _ _ _ (rl_choosers _ _ _ _ RL)) as HP.
  pose proof (rl_choices _ _ _ _ RL) as EC. pose proof (max_relisted _ _ _ _ RL) as EM.
  pose proof (rl_choosers _ _ _ _ RL) as (LC & IC & NC). pose proof (rl_slots _ _ _ _ RL) as (LS & IS & NS).
  assert (HU' : reader_u32 r').
  { constructor; [rewrite EC; apply HU|]. intros c x Hc. apply (ru_prefs _ HU). apply (Permutation_in c (Permutation_sym HP)); auto. }
  pose proof (bf_complete _ _ _ _ _ _ B) as HC.
  assert (HC' : prefs_complete r').
  { intros c Hc. rewrite EC. apply HC. apply (Permutation_in c (Permutation_sym HP)); auto. }
  pose proof (bf_css _ _ _ _ _ _ B) as Ecss. rewrite (bf_max _ _ _ _ _ _ B) in Ecss.
  set (m := max_pref_of (r_choosers r)) in *.
  set (css' := map (fun c => mkChooser (cs_name c) (spread (r_choices r') (cs_prefs c))) (map (mirror (max_pref_of (r_choosers r'))) (r_choosers r'))).
  assert (PCss : placed fc css css').
  { unfold css'. rewrite EM, EC, Ecss. fold m. apply placed_map, placed_map. split; auto. }
  set (x := mkCtx (build_slots r) css (blocks 0 (r_choices r))). set (x' := mkCtx (build_slots r') css' (blocks 0 (r_choices r'))).
  assert (Hraw' : raw_constraints x' (r_exprs r') = Ok (map (recc fs fc) raw)).
  { rewrite (rl_exprs _ _ _ _ RL). apply (raw_placed fs fc IS x x') with (ps := r_choices r); auto.
    - apply placed_map, (build_slots_placed _ _ _ _ RL).
    - apply placed_map; auto.
    - unfold x, x'; cbn [x_choices]. rewrite EC. auto.
    - exact (bf_raw _ _ _ _ _ _ B). }
  destruct (reduce_placed fs fc IS IC raw _ _ _ cs (b_raw_indexed _ _ _ _ _ _ B) (bf_cs _ _ _ _ _ _ B)) as (cs' & Hred' & HM).
  destruct (build_succeeds pr r' (map (recc fs fc) raw) cs' HU' HC') as (d' & Hd'); auto.
  { rewrite EC. apply (bf_size _ _ _ _ _ _ B). } { rewrite EC. auto. }
  exists d'. split; auto. split; auto.
  destruct (build_inv _ _ _ Hd') as (raw0 & cs0 & css0 & B').
  pose proof (bf_css _ _ _ _ _ _ B') as E0. rewrite (bf_max _ _ _ _ _ _ B') in E0. fold css' in E0. subst css0.
  assert (raw0 = map (recc fs fc) raw). { pose proof (bf_raw _ _ _ _ _ _ B') as E. fold x' in E. congruence. } subst raw0.
  assert (cs0 = cs'). { pose proof (bf_cs _ _ _ _ _ _ B') as E. rewrite EC in E. congruence. } subst cs0.
  assert (EMX : i_max_pref d' = i_max_pref d). { rewrite (bf_max _ _ _ _ _ _ B), (bf_max _ _ _ _ _ _ B'). exact EM. }
  assert (SP : forall a b, In (a, b) (same_pairs cs') <-> In (a, b) (same_pairs cs)).
  { intros a b. rewrite !same_pairs_in. split; intros (z & Hz).
    - apply HM in Hz as (k0 & Hk0 & E). change (mkC ChoicesHaveSameChoosers a (TChoice b) z) with (recc fs fc (mkC ChoicesHaveSameChoosers a (TChoice b) z)) in E.
      apply recc_inj in E; auto. subst k0. eauto.
    - exists z. apply HM. eexists; split; [exact Hz|]. reflexivity. }
  assert (IP : forall p c, In (fc p, c) (in_pairs cs') <-> In (p, c) (in_pairs cs)).
  { intros p c. rewrite !in_pairs_in. split; intros (z & Hz).
    - apply HM in Hz as (k0 & Hk0 & E). change (mkC ChooserIsInChoice (fc p) (TChoice c) z) with (recc fs fc (mkC ChooserIsInChoice p (TChoice c) z)) in E.
      apply recc_inj in E; auto. subst k0. eauto.
    - exists z. apply HM. eexists; split; [exact Hz|]. reflexivity. }
  assert (OA : forall a b, one_audience d' a b <-> one_audience d a b).
  { intros a b. rewrite <- (b_linked _ _ _ _ _ _ B), <- (b_linked _ _ _ _ _ _ B'). apply linked_ext. auto. }
  assert (KF : forall f : constraint -> bool, (forall k, f (recc fs fc k) = f k) ->
     forall k, In k (filter f cs') <-> exists k0, In k0 (filter f cs) /\ k = recc fs fc k0).
  { intros f Hf k. rewrite filter_In, HM. split.
    - intros ((k0 & Hk0 & ->) & E). rewrite Hf in E. exists k0. rewrite filter_In. auto.
    - intros (k0 & Hk0 & ->). apply filter_In in Hk0 as [Hk0 E]. rewrite Hf. eauto. }
  constructor; auto.
  - rewrite (bf_slots _ _ _ _ _ _ B), (bf_slots _ _ _ _ _ _ B'). apply (build_slots_placed _ _ _ _ RL).
  - destruct (b_prefs _ _ _ _ _ _ B HU) as [L1 V]. destruct (b_prefs _ _ _ _ _ _ B' HU') as [L1' V'].
    split; [congruence|]. split; auto. intros i.
    destruct (nth_error (r_choosers r) i) as [cd|] eqn:Ei.
    + destruct (V i cd Ei) as (ch & Hch & N1 & Ln & VV). destruct (V' (fc i) cd) as (ch' & Hch' & N1' & Ln' & VV'); [rewrite NC; auto|].
      rewrite Hch, Hch'. f_equal. destruct ch as [nm ps], ch' as [nm' ps']; cbn [cs_name cs_prefs] in *. f_equal; [congruence|].
      apply nth_ext_error; [rewrite Ln, Ln', EC; auto|]. intros c y' y Hy' Hy.
      destruct (VV c y Hy) as [A1 A2]. destruct (VV' c y' Hy') as [A1' A2']. rewrite IP in A1', A2'. rewrite EMX, EC in A2'.
      assert (DEC : In (i, c) (in_pairs cs) \/ ~ In (i, c) (in_pairs cs)).
      { destruct (in_dec (fun a b : nat * nat => ltac:(decide equality; apply Nat.eq_dec) : {a = b} + {a <> b}) (i, c) (in_pairs cs)); auto. }
      destruct DEC as [D|D]; [rewrite (A1 D), (A1' D); auto|].
      destruct (A2 D) as [K1 (c1 & O1 & W1)]. destruct (A2' D) as [K1' (c1' & O1' & W1')]. apply N.le_antisymm.
      * apply (K1' c1); auto. apply OA; auto.
      * apply (K1 c1'); auto. apply OA; auto.
    + assert (nth_error (i_choosers d) i = None) as ->. { apply nth_error_None. rewrite L1. apply nth_error_None; auto. }
      apply nth_error_None. rewrite L1'. apply nth_error_None. rewrite NC. auto.
  - apply nth_ext_error.
    { rewrite (b_choices_length _ _ _ _ _ _ B), (b_choices_length _ _ _ _ _ _ B'), EC. auto. }
    intros c ch' ch Hc' Hc.
    destruct (b_choice_nth _ _ _ _ _ _ B _ _ Hc) as (cd & Hcd & N1 & N2 & N3).
    destruct (b_choice_nth _ _ _ _ _ _ B' _ _ Hc') as (cd' & Hcd' & N1' & N2' & N3'). rewrite EC in Hcd'. assert (cd' = cd) by congruence. subst cd'.
    destruct (b_bounds _ _ _ _ _ _ B _ _ Hc) as (K & (c1 & e1 & A1 & M1 & F1) & G1).
    destruct (b_bounds _ _ _ _ _ _ B' _ _ Hc') as (K' & (c1' & e1' & A1' & M1' & F1') & G1'). rewrite EC in *.
    destruct ch as [a1 a2 a3 a4 a5], ch' as [b1 b2 b3 b4 b5]; cbn in *. f_equal; try congruence.
    + destruct (K c1' e1') as [X1 _]; auto; [apply OA; auto|]. destruct (K' c1 e1) as [X2 _]; auto; [apply OA; auto|]. lia.
    + assert (a3 <= u32_max /\ b3 <= u32_max)%N as [Y1 Y2].
      { split.
        - apply (wf_bounds_u32 _ (b_wf _ _ _ _ _ _ B HU) _ (nth_error_In _ _ Hc)).
        - apply (wf_bounds_u32 _ (b_wf _ _ _ _ _ _ B' HU') _ (nth_error_In _ _ Hc')). }
      destruct G1 as [-> |(c2 & e2 & A2 & M2 & <-)], G1' as [-> |(c2' & e2' & A2' & M2' & <-)]; auto.
      * destruct (K c2' e2') as [_ X1]; auto; [apply OA; auto|]. lia.
      * destruct (K' c2 e2) as [_ X1]; auto; [apply OA; auto|]. lia.
      * destruct (K c2' e2') as [_ X1]; auto; [apply OA; auto|]. destruct (K' c2 e2) as [_ X2]; auto; [apply OA; auto|]. lia.
  - rewrite (bf_levels _ _ _ _ _ _ B), (bf_levels _ _ _ _ _ _ B'), EMX. apply sorted_ext_N; try apply levels_sorted.
    intros y. rewrite !levels_in. 
    assert (QQ : (exists c, In c (r_choosers r') /\ In y (cs_prefs c)) <-> (exists c, In c (r_choosers r) /\ In y (cs_prefs c))).
    { split; intros (c & Hc & Hy); exists c; split; auto; [apply (Permutation_in c (Permutation_sym HP))|apply (Permutation_in c HP)]; auto. }
    tauto.
  - rewrite (bf_sched _ _ _ _ _ _ B), (bf_sched _ _ _ _ _ _ B'). apply KF. auto.
  - rewrite (bf_assign _ _ _ _ _ _ B), (bf_assign _ _ _ _ _ _ B'). apply KF. auto.
Qed.

(** ** Solutions *)
Lemma same_schedule_eq fs S S' : same_schedule fs S S' -> S' = map (option_map fs) S.
Proof.
  intros (HL & H1 & H2). apply nth_ext_error; [rewrite map_length; auto|]. intros c a b Ha Hb.
  rewrite nth_error_map in Hb. destruct (nth_error S c) as [[s|]|] eqn:E; cbn in Hb; try discriminate; injection Hb as <-.
  - specialize (H1 c s E). unfold scheduled_in in H1. congruence.
  - specialize (H2 c E). unfold not_held in H2. congruence.
Qed.
Lemma map_same_schedule fs S : same_schedule fs S (map (option_map fs) S).
Proof.
  split; [apply map_length|]. split.
  - intros c s H. unfold scheduled_in in *. rewrite nth_error_map, H. auto.
  - intros c H. unfold not_held in *. rewrite nth_error_map, H. auto.
Qed.

Section Moved.
Variables (fs fc : nat -> nat) (S : scheduling) (A A' : assignment).
Hypothesis IS : forall i j, fs i = fs j -> i = j.
Hypothesis IC : forall i j, fc i = fc j -> i = j.
Let S' := map (option_map fs) S.

Lemma moved_in c s : scheduled_in S' c (fs s) <-> scheduled_in S c s.
Proof.
  unfold scheduled_in, S'. rewrite nth_error_map. destruct (nth_error S c) as [[t|]|]; cbn; split; intros H; try discriminate.
  - injection H as H. apply IS in H. subst; auto.
  - injection H as ->. auto.
Qed.
Lemma moved_from c s : scheduled_in S' c s -> exists t, s = fs t /\ scheduled_in S c t.
Proof.
  unfold scheduled_in, S'. rewrite nth_error_map. destruct (nth_error S c) as [[t|]|]; cbn; intros H; try discriminate. injection H as <-. eauto.
Qed.
Lemma moved_held c : held S' c <-> held S c.
Proof.
  split.
  - intros (s & H). apply moved_from in H as (t & _ & H). exists t; auto.
  - intros (s & H). exists (fs s). apply moved_in; auto.
Qed.
Lemma moved_not c : not_held S' c <-> not_held S c.
Proof. unfold not_held, S'. rewrite nth_error_map. destruct (nth_error S c) as [[t|]|]; cbn; split; congruence. Qed.
Lemma moved_forall (P : nat -> Prop) c : (forall s, scheduled_in S' c s -> P s) <-> (forall s, scheduled_in S c s -> P (fs s)).
Proof.
  split; intros H s Hs; [apply H, moved_in; auto|]. apply moved_from in Hs as (t & -> & Ht). auto.
Qed.
Lemma cardinal_ext (P Q : nat -> Prop) n : (forall x, P x <-> Q x) -> cardinal P n -> cardinal Q n.
Proof. intros H (l & ND & HI & HL). exists l. split; auto. split; auto. intros x. rewrite HI. auto. Qed.

Lemma moved_sched k : sched_kind k = true -> ((forall s, fs s = s) \/ c_kind k <> ChoicesHaveOffset) ->
  (match c_kind k with ChoiceIsInSlot | ChoiceIsNotInSlot | ChoicesAreInSameSlot | ChoicesAreNotInSameSlot | ChoicesHaveOffset | SlotHasLimitedSize => True | _ => False end) ->
  sched_means S' (recc fs fc k) <-> sched_means S k.
Proof.
  intros HK HO HM. destruct k as [kk l t x]. unfold sched_means, recc; cbn [c_kind c_left c_right c_extra] in *.
  destruct kk; try contradiction; cbn [rec_left]; destruct t; cbn [rec_right]; try tauto.
  - apply moved_in.
  - rewrite moved_in. tauto.
  - split; intros H s0.
    + rewrite <- (moved_in l s0), <- (moved_in _ s0). auto.
    + split; intros K; pose proof (moved_from _ _ K) as (t & -> & _); apply moved_in; apply moved_in in K; apply H; auto.
  - split; intros H s0 [K1 K2].
    + apply (H (fs s0)). rewrite !moved_in. auto.
    + pose proof (moved_from _ _ K1) as (t & -> & _). rewrite moved_in in K1, K2. eapply H; eauto.
  - destruct HO as [HO|HO]; [|contradiction]. destruct x; try tauto.
    assert (E : forall c s, scheduled_in S' c s <-> scheduled_in S c s). { intros c0 s0. rewrite <- (moved_in c0 s0), HO. tauto. }
    rewrite !moved_not. setoid_rewrite E. tauto.
  - destruct x; try tauto. split; intros (m & Hm & K); exists m; split; auto; revert Hm; apply cardinal_ext; intros c; rewrite moved_in; tauto.
Qed.

Hypothesis SA : same_assignment fc A A'.
(** every row of [A'] is the row of some chooser *)
Hypothesis ON : forall j, j < length A' -> exists i, i < length A /\ fc i = j.

Lemma moved_attends p c : p < length A -> attends A' (fc p) c <-> attends A p c.
Proof.
  intros Hp. destruct (nth_error_ex A p Hp) as [row Hrow]. destruct SA as [_ HA]. destruct (HA p row Hrow) as (row' & Hrow' & HP).
  unfold attends. split; intros (w & Hw & Hc).
  - exists row. split; auto. assert (w = row') by congruence. subst w. apply (Permutation_in c (Permutation_sym HP)); auto.
  - exists row'. split; auto. assert (w = row) by congruence. subst w. apply (Permutation_in c HP); auto.
Qed.
Lemma attends_lt B p c : attends B p c -> p < length B.
Proof. intros (row & Hr & _). eapply nth_error_lt; eauto. Qed.
Lemma moved_attends_from q c : attends A' q c -> exists p, p < length A /\ fc p = q /\ attends A p c.
Proof.
  intros H. pose proof (attends_lt _ _ _ H) as Hq. destruct (ON q Hq) as (p & Hp & <-). exists p. split; auto. split; auto. apply moved_attends; auto.
Qed.
Lemma moved_cardinal c m : cardinal (fun q => attends A' q c) m <-> cardinal (fun p => attends A p c) m.
Proof.
  split; intros (l & ND & HI & HL).
  - assert (G : exists l0, map fc l0 = l /\ forall x, In x l0 -> attends A x c).
    { assert (HF : forall q, In q l -> attends A' q c) by (intros q; apply HI). clear HI HL ND. induction l as [|q t IH].
      - exists []. split; auto. intros x [].
      - destruct IH as (l0 & E & H0); [intros q' Hq'; apply HF; right; auto|].
        destruct (moved_attends_from q c (HF q (or_introl eq_refl))) as (p & _ & <- & Hp). exists (p :: l0). cbn. rewrite E. split; auto.
        intros x [<-|Hx]; auto. }
    destruct G as (l0 & E & H0). exists l0. split; [|split].
    + apply (NoDup_map_inv fc). rewrite E. auto.
    + intros p. split; auto. intros Hp. assert (Hin : In (fc p) l). { apply HI. apply moved_attends; auto. eapply attends_lt; eauto. }
      rewrite <- E in Hin. apply in_map_iff in Hin as (p' & E' & Hp'). apply IC in E'. subst; auto.
    + rewrite <- HL, <- E, map_length. auto.
  - exists (map fc l). split; [|split].
    + apply Injective_map_NoDup; auto.
    + intros q. rewrite in_map_iff. split.
      * intros (p & <- & Hp). apply HI in Hp. apply moved_attends; auto. eapply attends_lt; eauto.
      * intros Hq. destruct (moved_attends_from q c Hq) as (p & _ & <- & Hp). exists p. split; auto. apply HI; auto.
    + rewrite map_length; auto.
Qed.

Lemma moved_asg k : (match c_kind k, c_right k with
    | ChoicesHaveSameChoosers, TChoice _ => True
    | ChooserIsInChoice, TChoice _ | ChooserIsNotInChoice, TChoice _ => c_left k < length A
    | ChoosersHaveSameChoices, TChooser p => c_left k < length A /\ p < length A
    | _, _ => False end) ->
  asg_means S' A' (recc fs fc k) <-> asg_means S A k.
Proof.
  intros HM. destruct k as [kk l t x]. unfold asg_means, recc; cbn [c_kind c_left c_right c_extra] in *.
  destruct kk; try contradiction; cbn [rec_left]; destruct t; try contradiction; cbn [rec_right].
  - rewrite !moved_held. split; intros H K1 K2 p; specialize (H K1 K2).
    + destruct (Nat.lt_ge_cases p (length A)) as [Hp|Hp].
      * rewrite <- !(moved_attends p) by auto. auto.
      * split; intros K; apply attends_lt in K; lia.
    + split; intros K; destruct (moved_attends_from _ _ K) as (q & Hq & <- & Ha); rewrite moved_attends by auto; apply H; auto.
  - rewrite moved_held, moved_attends by auto. tauto.
  - rewrite moved_attends by auto. tauto.
  - destruct HM as [HM1 HM2]. split; intros H c; specialize (H c); rewrite !moved_attends in * by auto; auto.
Qed.
End Moved.

Section Relisted.
Variables (fs fc : nat -> nat) (d d' : input_data).
Hypothesis DR : data_relisted fs fc d d'.
Hypothesis WF : wf_input d.
Hypothesis NO : (forall s, fs s = s) \/ (forall k, In k (i_sched d) -> c_kind k <> ChoicesHaveOffset).
Let LS : length (i_slots d') = length (i_slots d) := proj1 (dr_slots _ _ _ _ DR).
Let LP : length (i_choosers d') = length (i_choosers d) := proj1 (dr_choosers _ _ _ _ DR).
Let IS := proj1 (proj2 (dr_slots _ _ _ _ DR)).
Let IC := proj1 (proj2 (dr_choosers _ _ _ _ DR)).

Lemma rl_sched_iff S : (forall k, In k (i_sched d') -> sched_means (map (option_map fs) S) k) <-> (forall k, In k (i_sched d) -> sched_means S k).
Proof.
  assert (G : forall k, In k (i_sched d) -> sched_means (map (option_map fs) S) (recc fs fc k) <-> sched_means S k).
  { intros k Hk. pose proof (wf_sched _ WF k Hk) as HW. apply moved_sched; auto.
    - unfold sched_shape in HW. unfold sched_kind. destruct (c_kind k); try contradiction; reflexivity.
    - destruct NO; auto.
    - unfold sched_shape in HW. destruct (c_kind k); auto. }
  split.
  - intros H k Hk. apply G; auto. apply H. apply (dr_sched _ _ _ _ DR). eauto.
  - intros H k Hk. apply (dr_sched _ _ _ _ DR) in Hk as (k0 & Hk0 & ->). apply G; auto.
Qed.

Lemma moved_sum f cs S s : slot_sum f cs (map (option_map fs) S) (fs s) = slot_sum f cs S s.
Proof.
  revert cs. induction S as [|x S IH]; intros [|c cs]; cbn [map slot_sum]; auto. rewrite IH. f_equal.
  destruct x as [t|]; cbn [option_map]; auto. destruct (Nat.eqb_spec t s) as [-> |Hn]; [rewrite Nat.eqb_refl; auto|].
  destruct (Nat.eqb_spec (fs t) (fs s)) as [E|]; auto. exfalso. apply Hn, IS; auto.
Qed.

Lemma rl_valid_scheduling S : valid_scheduling d' (map (option_map fs) S) <-> valid_scheduling d S.
Proof.
  split; intros V; constructor.
  - rewrite <- (dr_choices _ _ _ _ DR), <- (vs_length _ _ V), map_length. auto.
  - intros c s Hs. apply (placed_lt' _ _ _ _ (dr_slots _ _ _ _ DR)). apply (vs_range _ _ V c). apply moved_in; auto.
  - intros c ch Hc Hn. apply (vs_optional _ _ V c); [rewrite (dr_choices _ _ _ _ DR); auto|]. apply moved_not; auto.
  - intros s Hs. pose proof (placed_lt _ _ _ _ (dr_slots _ _ _ _ DR) Hs) as Hs'. pose proof (vs_sums _ _ V _ Hs') as K.
    rewrite (dr_choices _ _ _ _ DR), !moved_sum, LP in K. auto.
  - apply rl_sched_iff. apply (vs_cons _ _ V).
  - rewrite map_length, (dr_choices _ _ _ _ DR). apply (vs_length _ _ V).
  - intros c s Hs. apply moved_from in Hs as (t & -> & Ht). apply (placed_lt _ _ _ _ (dr_slots _ _ _ _ DR)). eapply (vs_range _ _ V); eauto.
  - intros c ch Hc Hn. rewrite (dr_choices _ _ _ _ DR) in Hc. apply (vs_optional _ _ V c); auto. apply moved_not in Hn; auto.
  - intros s Hs. destruct (placed_onto _ _ _ _ (dr_slots _ _ _ _ DR) Hs) as (t & Ht & <-).
    rewrite (dr_choices _ _ _ _ DR), !moved_sum, LP. apply (vs_sums _ _ V); auto.
  - apply rl_sched_iff. apply (vs_cons _ _ V).
Qed.

Section Sol.
Variables (S : scheduling) (A A' : assignment).
Hypothesis SA : same_assignment fc A A'.
Hypothesis LA : length A = length (i_choosers d).
Let ON : forall j, j < length A' -> exists i, i < length A /\ fc i = j.
Proof.
  intros j Hj. rewrite LA. apply (placed_onto _ _ _ _ (dr_choosers _ _ _ _ DR)). rewrite LP, <- LA, <- (proj1 SA). auto.
Qed.

Lemma rl_row p row row' : nth_error A p = Some row -> nth_error A' (fc p) = Some row' -> Permutation row row'.
Proof. intros H H'. destruct SA as [_ HA]. destruct (HA p row H) as (w & Hw & HP). congruence. Qed.

Lemma rl_one : one_choice_per_slot d' (map (option_map fs) S) A' <-> one_choice_per_slot d S A.
Proof.
  unfold one_choice_per_slot. rewrite (proj1 SA), LP, LS. split; intros [_ H]; (split; [exact LA|]).
  - intros p row Hrow. destruct SA as [_ HA]. destruct (HA p row Hrow) as (row' & Hrow' & HP).
    destruct (H _ _ Hrow') as (K1 & K2 & K3). split; [rewrite (Permutation_length HP); auto|]. split.
    + intros c Hc. apply (moved_held fs S IS), K2. apply (Permutation_in c HP); auto.
    + intros s Hs. pose proof (placed_lt _ _ _ _ (dr_slots _ _ _ _ DR) Hs) as Hs'. rewrite LS in Hs'. destruct (K3 _ Hs') as (c & [Hc1 Hc2] & HUq).
      exists c. split; [split; [apply (Permutation_in c (Permutation_sym HP)); auto|apply (moved_in fs S IS) in Hc2; auto]|].
      intros c' [Hc1' Hc2']. apply HUq. split; [apply (Permutation_in c' HP); auto|apply (moved_in fs S IS); auto].
  - intros q row' Hrow'. destruct (ON q) as (p & Hp & <-); [eapply nth_error_lt; eauto|].
    destruct (nth_error_ex A p Hp) as [row Hrow]. pose proof (rl_row _ _ _ Hrow Hrow') as HP.
    destruct (H _ _ Hrow) as (K1 & K2 & K3). split; [rewrite <- (Permutation_length HP); auto|]. split.
    + intros c Hc. apply (moved_held fs S IS), K2. apply (Permutation_in c (Permutation_sym HP)); auto.
    + intros s' Hs'. rewrite <- LS in Hs'. destruct (placed_onto _ _ _ _ (dr_slots _ _ _ _ DR) Hs') as (s & Hs & <-).
      destruct (K3 _ Hs) as (c & [Hc1 Hc2] & HUq).
      exists c. split; [split; [apply (Permutation_in c HP); auto|apply (moved_in fs S IS); auto]|].
      intros c' [Hc1' Hc2']. apply HUq. split; [apply (Permutation_in c' (Permutation_sym HP)); auto|apply (moved_in fs S IS) in Hc2'; auto].
Qed.

Lemma rl_respects : respects_all d' (map (option_map fs) S) A' <-> respects_all d S A.
Proof.
  assert (G : forall k, In k (i_assign d) -> asg_means (map (option_map fs) S) A' (recc fs fc k) <-> asg_means S A k).
  { intros k Hk. pose proof (wf_asg _ WF k Hk) as HW. apply moved_asg; auto.
    unfold asg_shape in HW. rewrite LA. destruct (c_kind k), (c_right k); try contradiction; auto; tauto. }
  assert (GB : bounds_respected d' (map (option_map fs) S) A' <-> bounds_respected d S A).
  { unfold bounds_respected. rewrite (dr_choices _ _ _ _ DR). split; intros H c ch Hc Hh.
    - destruct (H c ch Hc) as (m & Hm & K); [apply moved_held; auto|]. exists m. split; auto. apply (moved_cardinal fs fc A A' IS IC SA ON); auto.
    - destruct (H c ch Hc) as (m & Hm & K); [apply moved_held in Hh; auto|]. exists m. split; auto. apply (moved_cardinal fs fc A A' IS IC SA ON); auto. }
  split; intros R; constructor.
  - apply rl_one, R.
  - apply GB, R.
  - apply rl_sched_iff, R.
  - intros k Hk. apply G; auto. apply (ra_asg _ _ _ R). apply (dr_assign _ _ _ _ DR). eauto.
  - apply rl_one, R.
  - apply GB, R.
  - apply rl_sched_iff, R.
  - intros k Hk. apply (dr_assign _ _ _ _ DR) in Hk as (k0 & Hk0 & ->). apply G; auto. apply (ra_asg _ _ _ R); auto.
Qed.
End Sol.

Lemma rl_valid S A A' : same_assignment fc A A' -> valid_solution d' (map (option_map fs) S) A' <-> valid_solution d S A.
Proof.
  intros SA. split; intros [V R].
  - assert (LA : length A = length (i_choosers d)). { rewrite <- LP, <- (proj1 SA). apply (proj1 (ra_one _ _ _ R)). }
    split; [apply rl_valid_scheduling; auto|]. apply (rl_respects S A A' SA LA); auto.
  - assert (LA : length A = length (i_choosers d)) by apply (proj1 (ra_one _ _ _ R)).
    split; [apply rl_valid_scheduling; auto|]. apply (rl_respects S A A' SA LA); auto.
Qed.
End Relisted.


(** ** No offsets without parts *)
Lemma table_no_offset e k ex : table e = Some (k, ex) -> k <> ChoicesHaveOffset.
Proof.
  destruct e as [[lk ls ln lp] rel [rk rs rn rp]]. unfold table; cbn [e_left e_right e_rel a_kind a_sub].
  destruct lk; try discriminate; destruct ls; try discriminate; destruct rel; try discriminate;
    destruct rk; try discriminate; destruct rs; try discriminate; intros H; injection H as <- <-; discriminate.
Qed.
Lemma add_kind x e k ex l c : add_constraint x e k ex = Ok l -> In c l -> c_kind c = k.
Proof.
  unfold add_constraint. intros H Hc. apply bind_ok in H as (rt & _ & H). destruct rt as [t|]; [|injection H as <-; destruct Hc].
  apply bind_ok in H as (ln & _ & H). destruct ln; injection H as <-; [destruct Hc as [<-|[]]; auto|destruct Hc].
Qed.
Lemma single_no_offset pr r d : single_parts r -> build_input pr r = Ok d -> forall k, In k (i_sched d) -> c_kind k <> ChoicesHaveOffset.
Proof.
  intros HP H k Hk E. destruct (build_inv _ _ _ H) as (raw & cs & css & B). rewrite (bf_sched _ _ _ _ _ _ B) in Hk. apply filter_In in Hk as [Hk _].
  pose proof (bf_cs _ _ _ _ _ _ B) as HR. unfold reduce_and_optimize in HR. apply bind_ok in HR as (rs & Hrs & HR). apply bind_ok in HR as (out & Hout & HR).
  injection HR as <- _. pose proof (expand_dependent_ok _ _ _ Hout) as HE.
  assert (K1 : In k (flat_map fst rs)).
  { apply (ex_only _ _ _ HE) in Hk as [Hk|[(a & b & _ & _ & _ & _ & ->)|[(p & l1 & a & l2 & b & l3 & _ & ->)|(kk & p & o & c & x & [-> | ->] & _ & _ & _ & _ & ->)]]]; auto; discriminate E. }
  apply flat_map_fst_in in K1 as (l & b & Hl & Hkl). destruct (mmap_in _ _ _ _ Hrs Hl) as (k0 & Hk0 & E0).
  assert (c_kind k0 = ChoicesHaveOffset) as E1.
  { destruct k0 as [kk a t x]. unfold reduce_one in E0; cbn [c_kind c_left c_right c_extra] in E0.
    destruct kk; cbn [c_kind]; auto; exfalso;
      try (injection E0 as <- <-; destruct Hkl as [<-|[]]; discriminate E);
      try (destruct t; try discriminate E0; injection E0 as <- <-; destruct Hkl as [<-|[]]; discriminate E).
    apply bind_ok in E0 as (s & _ & E0). injection E0 as <- <-. destruct Hkl. }
  destruct (raw_ok _ _ _ (bf_raw _ _ _ _ _ _ B)) as (built & parts & Hb & Hp & ->). apply in_app_or in Hk0 as [Hk0|Hk0].
  - apply in_concat in Hk0 as (lb & Hlb & Hk0). destruct (mmap_in _ _ _ _ Hb Hlb) as (e & _ & Ee). unfold build_expr in Ee.
    destruct (table e) as [[kk ex]|] eqn:ET.
    + rewrite (add_kind _ _ _ _ _ _ Ee Hk0) in E1. eapply table_no_offset; eauto.
    + destruct (table (swap_sides e)) as [[kk ex]|] eqn:ET'; [|discriminate]. rewrite (add_kind _ _ _ _ _ _ Ee Hk0) in E1. eapply table_no_offset; eauto.
  - apply (compute_part_ok _ _ Hp) in Hk0 as (i & x & y & cx & cy & Hxy & _ & (q & Hq & Hy & _) & _).
    pose proof (HP q (nth_error_In _ _ Hq)). unfold copies in Hy. lia.
Qed.

(** ** Scores *)
Lemma perm_concat {X} (R R' : list (list X)) : Forall2 (@Permutation X) R R' -> Permutation (concat R) (concat R').
Proof. induction 1; cbn; auto. apply Permutation_app; auto. Qed.
Lemma perm_concat' {X} (R R' : list (list X)) : Permutation R R' -> Permutation (concat R) (concat R').
Proof. intros H. rewrite <- (map_id R), <- (map_id R'), <- !flat_map_concat_map. apply flat_map_perm; auto. Qed.
Lemma perm_rows {X} f (R R' : list (list X)) : length R' = length R -> (forall i j, f i = f j -> i = j) ->
  (forall p r, nth_error R p = Some r -> exists r', nth_error R' (f p) = Some r' /\ Permutation r r') ->
  (forall i, length R <= i -> length R <= f i) ->
  Permutation (concat R) (concat R').
Proof.
  intros HL HI HR HO. set (T := map (fun p => nth (f p) R' []) (seq 0 (length R))).
  assert (NT : forall p, p < length R -> nth_error T p = Some (nth (f p) R' [])).
  { intros p Hp. unfold T. rewrite nth_error_map. rewrite (nth_error_nth' _ 0); [|rewrite seq_length; auto]. rewrite seq_nth by auto. auto. }
  apply Permutation_trans with (concat T).
  - apply perm_concat. assert (LT : length R = length T) by (unfold T; rewrite map_length, seq_length; auto).
    assert (G : forall (U V : list (list X)), length U = length V -> (forall p u v, nth_error U p = Some u -> nth_error V p = Some v -> Permutation u v) -> Forall2 (@Permutation X) U V).
    { clear. induction U as [|u U IH]; intros [|v V] HL H; cbn in *; try discriminate; constructor.
      - apply (H 0); auto. - apply IH; [lia|]. intros p u' v' Hu Hv. apply (H (Datatypes.S p)); auto. }
    apply G; auto. intros p u v Hu Hv. destruct (HR p u Hu) as (r' & Hr' & HP). rewrite NT in Hv by (eapply nth_error_lt; eauto). injection Hv as <-.
    rewrite (nth_error_nth _ _ [] Hr'). auto.
  - apply perm_concat'. apply (placed_perm f). assert (LT : length T = length R) by (unfold T; rewrite map_length, seq_length; auto).
    split; [congruence|]. split; auto. intros i. destruct (Nat.lt_ge_cases i (length R)) as [Hi|Hi].
    + rewrite NT by auto. destruct (nth_error_ex R i Hi) as [r Hr]. destruct (HR i r Hr) as (r' & Hr' & _). rewrite Hr'. f_equal. symmetry. apply nth_error_nth; auto.
    + rewrite (proj2 (nth_error_None T i)) by lia. apply nth_error_None. rewrite HL. auto.
Qed.

Fixpoint pref_rows (d : input_data) (p : nat) (rows : list (list nat)) : list (list N) :=
  match rows with [] => [] | r :: t => row_prefs d p r :: pref_rows d (Datatypes.S p) t end.
Lemma all_prefs_rows d rows : forall p, all_prefs d p rows = concat (pref_rows d p rows).
Proof. induction rows as [|r t IH]; intros p; cbn; auto. rewrite IH. auto. Qed.
Lemma pref_rows_length d rows : forall p, length (pref_rows d p rows) = length rows.
Proof. induction rows as [|r t IH]; intros p; cbn; auto. Qed.
Lemma pref_rows_nth d rows : forall p i, nth_error (pref_rows d p rows) i = option_map (row_prefs d (p + i)) (nth_error rows i).
Proof.
  induction rows as [|r t IH]; intros p [|i]; cbn [pref_rows nth_error option_map]; auto; [rewrite Nat.add_0_r; auto|].
  rewrite IH. rewrite <- Nat.add_succ_comm. auto.
Qed.

Lemma bump_perm l l' h : Permutation l l' -> (forall x, In x l -> N.to_nat x < length h) -> bump l h = bump l' h.
Proof.
  intros HP HB. apply nth_ext with (d := 0%N) (d' := 0%N); [rewrite !bump_length; auto|]. intros i _.
  change (at_ (bump l h) i = at_ (bump l' h) i). rewrite !bump_at; auto.
  - f_equal. f_equal. apply (Permutation_count_occ Nat.eq_dec). apply Permutation_map; auto.
  - intros x Hx. apply HB. apply (Permutation_in x (Permutation_sym HP)); auto.
Qed.

Section Scores.
Variables (fs fc : nat -> nat) (d d' : input_data) (S : scheduling) (A A' : assignment).
Hypothesis DR : data_relisted fs fc d d'.
Hypothesis WF : wf_input d.
Hypothesis WF' : wf_input d'.
Hypothesis FI : fits d.
Hypothesis FI' : fits d'.
Hypothesis MX : (i_max_pref d < u32_max)%N.
Hypothesis SA : same_assignment fc A A'.
Hypothesis V : valid_solution d S A.
Hypothesis V' : valid_solution d' (map (option_map fs) S) A'.

Let LA : length A = n_choosers d := proj1 (ra_one _ _ _ (vsol_rest _ _ _ V)).
Let LA' : length A' = n_choosers d' := proj1 (ra_one _ _ _ (vsol_rest _ _ _ V')).
Lemma valid_rows e U B : valid_solution e U B -> forall p row, nth_error B p = Some row -> length row = n_slots e /\ forall c, In c row -> c < n_choices e.
Proof.
  intros [W R] p row Hrow. destruct (ra_one _ _ _ R) as [_ H]. destruct (H _ _ Hrow) as (K1 & K2 & _). split; auto.
  intros c Hc. destruct (K2 c Hc) as (s & Hs). unfold n_choices. rewrite <- (vs_length _ _ W). eapply nth_error_lt; eauto.
Qed.
Lemma prefv_moved p c : prefv d' (fc p) c = prefv d p c.
Proof. unfold prefv. destruct (dr_choosers _ _ _ _ DR) as (_ & _ & H). rewrite H. auto. Qed.

Lemma prefs_perm : Permutation (all_prefs d 0 A) (all_prefs d' 0 A').
Proof.
  rewrite !all_prefs_rows. apply (perm_rows fc); rewrite ?pref_rows_length.
  - apply SA.
  - apply (dr_choosers _ _ _ _ DR).
  - intros p r Hr. rewrite pref_rows_nth in Hr. destruct (nth_error A p) as [row|] eqn:E; [|discriminate]. injection Hr as <-.
    destruct SA as [_ HA]. destruct (HA p row E) as (row' & Hrow' & HP). exists (row_prefs d' (fc p) row').
    rewrite pref_rows_nth, Hrow'. split; auto. cbn [Nat.add]. unfold row_prefs.
    rewrite (map_ext _ _ (prefv_moved p)). apply Permutation_map; auto.
  - intros i Hi. destruct (Nat.lt_ge_cases (fc i) (length A)) as [K|K]; auto. exfalso. rewrite LA in *.
    pose proof (placed_lt' fc (i_choosers d) (i_choosers d') i (dr_choosers _ _ _ _ DR)) as Q. unfold n_choosers in *. rewrite (proj1 (dr_choosers _ _ _ _ DR)) in Q. lia.
Qed.

Lemma relisted_evaluate pr pow g : evaluate pr pow g d' (SolComplete (map (option_map fs) S) A') = evaluate pr pow g d (SolComplete S A).
Proof.
  assert (MX' : (i_max_pref d' < u32_max)%N) by (rewrite (dr_max _ _ _ _ DR); auto).
  assert (F : sol_is_feasible d S A = Ok true).
  { destruct V as [W R]. apply sol_is_feasible_complete; auto; [exact (vs_length _ _ W)|exact (vs_range _ _ W)]. }
  assert (F' : sol_is_feasible d' (map (option_map fs) S) A' = Ok true).
  { destruct V' as [W R]. apply sol_is_feasible_complete; auto; [exact (vs_length _ _ W)|exact (vs_range _ _ W)]. }
  assert (EJ : evaluate_major d' A' = evaluate_major d A).
  { destruct (evaluate_major_worst d A WF LA (valid_rows _ _ _ V)) as (m & -> & [Hm1 Hm2]).
    destruct (evaluate_major_worst d' A' WF' LA' (valid_rows _ _ _ V')) as (m' & -> & Hm'). f_equal.
    destruct (dr_choosers _ _ _ _ DR) as (LC & IC & NC).
    assert (ON : forall j, j < length A' -> exists i, i < length A /\ fc i = j).
    { intros j Hj. unfold n_choosers in LA, LA'. rewrite LA. apply (placed_onto _ _ _ _ (dr_choosers _ _ _ _ DR)). congruence. }
    assert (AT : forall p c, p < length A -> attends A' (fc p) c <-> attends A p c).
    { intros p c Hp. destruct (nth_error_ex A p Hp) as [row Hrow]. destruct SA as [_ HA]. destruct (HA p row Hrow) as (row' & Hrow' & HP).
      unfold attends. split; intros (w & Hw & Hc).
      - exists row. split; auto. assert (w = row') by congruence. subst w. apply (Permutation_in c (Permutation_sym HP)); auto.
      - exists row'. split; auto. assert (w = row) by congruence. subst w. apply (Permutation_in c HP); auto. }
    apply (worst_pref_unique d' A'); auto. split.
    - intros q c y Hq Ha (ch & Hch & Hy). unfold n_choosers in *. destruct (ON q) as (p & Hp & <-); [lia|]. rewrite NC in Hch.
      apply (Hm1 p c y); [lia|apply AT; auto|exists ch; auto].
    - destruct Hm2 as [-> |(p & c & Hp & Ha & (ch & Hch & Hy))]; auto. right. exists (fc p), c. unfold n_choosers in *. split; [|split].
      + apply (placed_lt fc (i_choosers d)); auto. apply (dr_choosers _ _ _ _ DR).
      + apply AT; auto. lia.
      + exists ch. rewrite NC. auto. }
  assert (EH : pref_histogram pr d' A' = pref_histogram pr d A).
  { rewrite (pref_histogram_ok d A WF LA (valid_rows _ _ _ V) MX), (pref_histogram_ok d' A' WF' LA' (valid_rows _ _ _ V') MX').
    rewrite (dr_max _ _ _ _ DR). f_equal. symmetry. apply bump_perm; [exact prefs_perm|].
    intros x Hx. rewrite repeat_length.
    assert (x <= i_max_pref d)%N; [|lia]. pose proof (prefv_le d A WF LA MX) as PL. clear -Hx PL. revert Hx. generalize 0.
    induction A as [|r t IH]; intros p Hx; cbn in Hx; [destruct Hx|].
    apply in_app_or in Hx as [Hx|Hx]; [|eauto]. unfold row_prefs in Hx. apply in_map_iff in Hx as (c & <- & _). apply PL. }
  unfold evaluate, evaluate_minor. rewrite F, F', EJ, EH. unfold scoring_scaling. rewrite (dr_max _ _ _ _ DR). auto.
Qed.
End Scores.
