(** Preprocessing of constraint lists: sorting, deduplication, side switching,
    dependency expansion. *)
From Verif Require Import Base M_Data Spec M_Union M_Build Spec_Input P_Union.
From Coq Require Import Relations Sorted.

(** ** Equality and order *)
Lemma kind_code_inj a b : kind_code a = kind_code b -> a = b.
Proof. destruct a, b; cbn; intros H; try reflexivity; discriminate. Qed.
Lemma kind_eqb_spec a b : kind_eqb a b = true <-> a = b.
Proof.
  unfold kind_eqb. rewrite N.eqb_eq. split; [apply kind_code_inj|intros ->; auto].
Qed.
Lemma op_code_inj a b : op_code a = op_code b -> a = b.
Proof. destruct a, b; cbn; intros H; try reflexivity; discriminate. Qed.

Lemma target_code_inj a b : target_code a = target_code b -> a = b.
Proof.
  destruct a, b; cbn; intros H; try discriminate H; try reflexivity; injection H; intros; f_equal; lia.
Qed.
Lemma extra_code_inj a b : extra_code a = extra_code b -> a = b.
Proof.
  destruct a, b; cbn; intros H; try discriminate H; try reflexivity; injection H; intros; f_equal; auto.
  apply op_code_inj; auto.
Qed.

Lemma con_key_inj a b : con_key a = con_key b -> a = b.
Proof.
  destruct a as [k l t x], b as [k' l' t' x']. unfold con_key; cbn [c_kind c_left c_right c_extra].
  destruct (target_code t) as [t1 t2] eqn:Et, (target_code t') as [t1' t2'] eqn:Et'.
  destruct (extra_code x) as [x1 x2] eqn:Ex, (extra_code x') as [x1' x2'] eqn:Ex'.
  intros H; injection H; intros. f_equal.
  - apply kind_code_inj. lia.
  - lia.
  - apply target_code_inj. rewrite Et, Et'. f_equal; lia.
  - apply extra_code_inj. rewrite Ex, Ex'. f_equal; lia.
Qed.

Lemma lex_antisym : forall a b, length a = length b -> lex_leb a b = true -> lex_leb b a = true -> a = b.
Proof.
  induction a as [|x a IH]; intros [|y b] HL; cbn; intros H1 H2; try discriminate; auto.
  destruct (Z.ltb_spec x y), (Z.ltb_spec y x); try lia; try discriminate.
  f_equal; [lia|]. apply IH; auto.
Qed.
Lemma con_key_length k : length (con_key k) = 6.
Proof. unfold con_key. destruct (target_code _), (extra_code _). reflexivity. Qed.
Lemma lex_refl a : lex_leb a a = true.
Proof. induction a; cbn; auto. rewrite Z.ltb_irrefl. auto. Qed.
Lemma con_eqb_spec a b : con_eqb a b = true <-> a = b.
Proof.
  unfold con_eqb, con_leb. rewrite andb_true_iff. split.
  - intros [H1 H2]. apply con_key_inj. apply lex_antisym; auto. rewrite !con_key_length; auto.
  - intros ->. split; apply lex_refl.
Qed.

Lemma lex_total a : forall b, length a = length b -> lex_leb a b = false -> lex_leb b a = true.
Proof.
  induction a as [|x a IH]; intros [|y b] HL H; cbn in *; try discriminate; auto.
  destruct (Z.ltb_spec x y), (Z.ltb_spec y x); try discriminate; try lia; auto.
Qed.

Lemma con_insert_in k l x : In x (con_insert k l) <-> x = k \/ In x l.
Proof.
  induction l as [|h t IH]; cbn.
  - intuition.
  - destruct (con_leb k h); cbn; [intuition|]. rewrite IH. intuition.
Qed.
Lemma con_sort_in l x : In x (con_sort l) <-> In x l.
Proof.
  induction l as [|h t IH]; cbn; [tauto|]. rewrite con_insert_in, IH. intuition.
Qed.
Lemma con_dedup_in l x : In x (con_dedup l) <-> In x l.
Proof.
  induction l as [|a t IH]; [tauto|]. cbn [con_dedup]. destruct t as [|b t']; [tauto|].
  destruct (con_eqb a b) eqn:E.
  - apply con_eqb_spec in E. subst. rewrite IH. cbn. tauto.
  - cbn [In] in *. rewrite IH. tauto.
Qed.

(** ** The steps *)
Definition same_pairs (cs : list constraint) : list (nat * nat) :=
  flat_map (fun k => match c_kind k, c_right k with
                     | ChoicesHaveSameChoosers, TChoice o => [(c_left k, o)]
                     | _, _ => [] end) cs.

Lemma same_pairs_in cs a b :
  In (a, b) (same_pairs cs) <-> exists x, In (mkC ChoicesHaveSameChoosers a (TChoice b) x) cs.
Proof.
  unfold same_pairs. rewrite in_flat_map. split.
  - intros ([k l t x] & Hin & H). cbn in H. destruct k; try contradiction. destruct t; try contradiction.
    destruct H as [E|[]]. injection E as <- <-. eauto.
  - intros (x & Hin). eexists; split; [exact Hin|]. left; auto.
Qed.

Lemma join_same_ok cs : forall u u', join_same cs u = Ok u' -> uf_joins (same_pairs cs) u = Ok u'.
Proof.
  unfold join_same, uf_joins. induction cs as [|k cs IH]; intros u u' H; cbn [mfold same_pairs flat_map] in *; auto.
  apply bind_ok in H as (u1 & H1 & H). destruct k as [kk l t x]; cbn [c_kind c_left c_right] in *.
  destruct (kind_eqb kk ChoicesHaveSameChoosers) eqn:E.
  - apply kind_eqb_spec in E. subst kk. apply bind_ok in H1 as (o & Ho & H1).
    unfold con_other_choice in Ho; cbn in Ho. destruct t; try discriminate. injection Ho as <-.
    cbn [app mfold fst snd]. rewrite H1; cbn [bind]. apply IH; auto.
  - injection H1 as <-. specialize (IH _ _ H). destruct kk; try exact IH.
    exfalso. rewrite (proj2 (kind_eqb_spec _ _) eq_refl) in E. discriminate.
Qed.

Lemma join_same_total cs n : (forall a b, In (a, b) (same_pairs cs) -> a < n /\ b < n) ->
  (forall k, In k cs -> shaped k) ->
  forall u, uf_inv n u -> exists u', join_same cs u = Ok u'.
Proof.
  unfold join_same. induction cs as [|k cs IH]; intros HB HS u HI; cbn [mfold]; eauto.
  assert (HS' : forall k, In k cs -> shaped k) by (intros; apply HS; right; auto).
  assert (HB' : forall a b, In (a, b) (same_pairs cs) -> a < n /\ b < n).
  { intros a b Hab. apply HB. unfold same_pairs. cbn. apply in_or_app. right; auto. }
  destruct (kind_eqb (c_kind k) ChoicesHaveSameChoosers) eqn:E.
  - apply kind_eqb_spec in E. pose proof (HS k (or_introl eq_refl)) as Hk.
    destruct k as [kk l t x]; cbn in E; subst kk. unfold shaped in Hk; cbn in Hk. destruct t; try contradiction.
    unfold con_other_choice; cbn [c_right c_left bind].
    destruct (HB l c) as [Hl Hc]; [left; auto|].
    destruct (uf_join_spec n u l c HI Hl Hc) as (u1 & -> & I & _). cbn [bind]. apply IH; auto.
  - cbn [bind]. apply IH; auto.
Qed.

Lemma get_dependent_ok cs n gs : get_dependent_choices cs n = Ok gs ->
  is_groups n (linked (same_pairs cs)) gs /\ forall a b, In (a, b) (same_pairs cs) -> a < n /\ b < n.
Proof.
  unfold get_dependent_choices. intros H. apply bind_ok in H as (u & H1 & H). apply bind_ok in H as (u' & H2 & H).
  apply join_same_ok in H2. pose proof (uf_new_conn _ _ H1) as HC.
  apply (uf_joins_conn _ _ _ _ _ HC) in H2. cbn [app] in H2.
  destruct (uf_groups_spec _ _ _ H2) as (gs' & E & G). rewrite E in H. injection H as <-. split; auto.
  apply H2.
Qed.

Lemma uf_new_total n : (Z.of_nat n <= i32_max)%Z -> exists u, uf_new n = Ok u.
Proof.
  intros H. unfold uf_new, to_i32. destruct (Z.leb_spec (Z.of_nat n) i32_max); [|lia]. cbn. eauto.
Qed.

Lemma get_dependent_total cs n : (Z.of_nat n <= i32_max)%Z ->
  (forall a b, In (a, b) (same_pairs cs) -> a < n /\ b < n) -> (forall k, In k cs -> shaped k) ->
  exists gs, get_dependent_choices cs n = Ok gs.
Proof.
  intros Hn HB HS. unfold get_dependent_choices. destruct (uf_new_total n Hn) as [u Hu].
  rewrite Hu; cbn [bind]. pose proof (uf_new_inv _ _ Hu) as HI.
  destruct (join_same_total cs n HB HS u HI) as [u' Hu']. rewrite Hu'; cbn [bind].
  apply join_same_ok in Hu'.
  apply (uf_joins_conn n _ [] _ _ (uf_new_conn _ _ Hu)) in Hu'.
  destruct (uf_groups_spec _ _ _ Hu') as (gs & -> & _). eauto.
Qed.

(** mandatory critical sets *)
Definition in_pairs (cs : list constraint) : list (nat * nat) :=
  flat_map (fun k => match c_kind k, c_right k with
                     | ChooserIsInChoice, TChoice o => [(c_left k, o)]
                     | _, _ => [] end) cs.
Lemma in_pairs_in cs a b :
  In (a, b) (in_pairs cs) <-> exists x, In (mkC ChooserIsInChoice a (TChoice b) x) cs.
Proof.
  unfold in_pairs. rewrite in_flat_map. split.
  - intros ([k l t x] & Hin & H). cbn in H. destruct k; try contradiction. destruct t; try contradiction.
    destruct H as [E|[]]. injection E as <- <-. eauto.
  - intros (x & Hin). eexists; split; [exact Hin|]. left; auto.
Qed.

(** pushing pairs by first component *)
Lemma bt_push_map {A B} (g : A -> B) m k v :
  map (fun kv => (fst kv, map g (snd kv))) (bt_push m k v) =
  bt_push (map (fun kv => (fst kv, map g (snd kv))) m) k (g v).
Proof.
  induction m as [|[k' vs] t IH]; cbn [bt_push map fst snd]; auto.
  destruct (k <? k'); cbn [map fst snd]; auto. destruct (k =? k'); cbn [map fst snd]; auto.
  - rewrite map_app; auto.
  - rewrite IH; auto.
Qed.

Lemma mandatory_fold cs : forall m r, 
  mfold (fun m k => if kind_eqb (c_kind k) ChooserIsInChoice
                    then let* o := con_other_choice k in Ok (bt_push m (c_left k) o)
                    else Ok m) cs m = Ok r ->
  r = fold_left (fun m p => bt_push m (fst p) (snd p)) (in_pairs cs) m.
Proof.
  induction cs as [|k cs IH]; intros m r H; cbn [mfold in_pairs flat_map] in *.
  - injection H as <-; auto.
  - apply bind_ok in H as (m1 & H1 & H). destruct k as [kk l t x]; cbn [c_kind c_left c_right] in *.
    destruct (kind_eqb kk ChooserIsInChoice) eqn:E.
    + apply kind_eqb_spec in E. subst kk. apply bind_ok in H1 as (o & Ho & H1).
      unfold con_other_choice in Ho; cbn in Ho. destruct t; try discriminate. injection Ho as <-.
      injection H1 as <-. cbn [app fold_left fst snd]. apply IH; auto.
    + injection H1 as <-. specialize (IH _ _ H). destruct kk; try exact IH.
      exfalso. rewrite (proj2 (kind_eqb_spec _ _) eq_refl) in E. discriminate.
Qed.

Lemma fold_push_pairs l : forall m,
  fold_left (fun m p => bt_push m (fst p) (snd p)) l (map (fun kv => (fst kv, map snd (snd kv))) m) =
  map (fun kv => (fst kv, map snd (snd kv))) (fold_left (fun m (p : nat * nat) => bt_push m (fst p) p) l m).
Proof.
  induction l as [|[a b] l IH]; intros m; cbn [fold_left fst snd]; auto.
  rewrite <- IH. f_equal. symmetry. apply (bt_push_map (@snd nat nat)).
Qed.

Lemma mandatory_ok cs gs : get_mandatory_critical_sets cs = Ok gs ->
  forall g, In g gs -> exists p, g = map snd (filter (fun q => fst q =? p) (in_pairs cs)).
Proof.
  unfold get_mandatory_critical_sets. intros H. apply bind_ok in H as (m & Hm & H). injection H as <-.
  apply mandatory_fold in Hm. pose proof (fold_push_pairs (in_pairs cs) []) as HP. cbn [map] in HP. rewrite HP in Hm. clear HP.
  pose proof (key_group_fold (@fst nat nat) (in_pairs cs) [] [] (key_group_nil _)) as (_ & HF & _).
  subst m. intros g Hg. rewrite map_map in Hg. apply in_map_iff in Hg as ((k & vs) & E & Hin). cbn in E. subst g.
  destruct (HF _ _ Hin) as [-> _]. exists k. auto.
Qed.

Lemma mandatory_total cs : (forall k, In k cs -> shaped k) -> exists gs, get_mandatory_critical_sets cs = Ok gs.
Proof.
  intros HS. unfold get_mandatory_critical_sets.
  assert (G : forall m, exists r, mfold (fun m k => if kind_eqb (c_kind k) ChooserIsInChoice
                    then let* o := con_other_choice k in Ok (bt_push m (c_left k) o)
                    else Ok m) cs m = Ok r).
  { induction cs as [|k cs IH]; intros m; cbn [mfold]; eauto.
    destruct (kind_eqb (c_kind k) ChooserIsInChoice) eqn:E.
    - apply kind_eqb_spec in E. pose proof (HS k (or_introl eq_refl)) as Hk.
      destruct k as [kk l t x]; cbn in E; subst kk. unfold shaped in Hk; cbn in Hk. destruct t; try contradiction.
      unfold con_other_choice; cbn [c_right c_left bind]. apply IH. intros; apply HS; right; auto.
    - cbn [bind]. apply IH. intros; apply HS; right; auto. }
  destruct (G []) as [r ->]. cbn. eauto.
Qed.

Lemma pairs_not_same_in g k : In k (pairs_not_same g) ->
  exists l1 a l2 b l3, g = l1 ++ a :: l2 ++ b :: l3 /\ k = mkC ChoicesAreNotInSameSlot a (TChoice b) ENone.
Proof.
  induction g as [|a t IH]; cbn; [intros []|]. intros H. apply in_app_or in H as [H|H].
  - apply in_map_iff in H as (b & <- & Hb). apply in_split in Hb as (l2 & l3 & ->).
    exists [], a, l2, b, l3. auto.
  - destruct (IH H) as (l1 & a' & l2 & b & l3 & -> & ->). exists (a :: l1), a', l2, b, l3. auto.
Qed.
Lemma pairs_not_same_intro l1 a l2 b l3 :
  In (mkC ChoicesAreNotInSameSlot a (TChoice b) ENone) (pairs_not_same (l1 ++ a :: l2 ++ b :: l3)).
Proof.
  induction l1 as [|x l1 IH]; cbn.
  - apply in_or_app. left. apply in_map_iff. exists b. split; auto. apply in_or_app. right; left; auto.
  - apply in_or_app. right; auto.
Qed.

Lemma group_of_spec n R gs c : is_groups n R gs -> c < n ->
  In (group_of gs c) gs /\ In c (group_of gs c).
Proof.
  intros HG Hc. unfold group_of. destruct (find _ gs) as [g|] eqn:E.
  - apply find_some in E as [Hg Hx]. split; auto. apply existsb_exists in Hx as (y & Hy & Hxy).
    apply Nat.eqb_eq in Hxy. subst; auto.
  - exfalso. destruct (ig_cover _ _ _ HG c Hc) as (g & Hg & Hx).
    pose proof (find_none _ _ E g Hg) as HN. cbn in HN.
    assert (existsb (Nat.eqb c) g = true); [|congruence].
    apply existsb_exists. exists c. split; auto. apply Nat.eqb_refl.
Qed.

Lemma group_of_none n R gs c : is_groups n R gs -> n <= c -> group_of gs c = [].
Proof.
  intros HG Hc. unfold group_of. destruct (find _ gs) as [g|] eqn:E; auto.
  apply find_some in E as [Hg Hx]. apply existsb_exists in Hx as (y & Hy & Hxy).
  apply Nat.eqb_eq in Hxy. subst y. pose proof (ig_range _ _ _ HG g c Hg Hy). lia.
Qed.

Record expanded (cs : list constraint) (n : nat) (out : list constraint) : Prop := {
  ex_incl : forall k, In k cs -> In k out;
  ex_same : forall a b, In (a, b) (same_pairs cs) -> a < n /\ b < n;
  ex_only : forall k, In k out ->
      In k cs \/
      (exists a b, a <> b /\ a < n /\ b < n /\ linked (same_pairs cs) a b /\
                   k = mkC ChoicesAreNotInSameSlot a (TChoice b) ENone) \/
      (exists p l1 a l2 b l3, map snd (filter (fun q => fst q =? p) (in_pairs cs)) = l1 ++ a :: l2 ++ b :: l3 /\
                   k = mkC ChoicesAreNotInSameSlot a (TChoice b) ENone) \/
      (exists kk p o c x, (kk = ChooserIsInChoice \/ kk = ChooserIsNotInChoice) /\
                   In (mkC kk p (TChoice o) x) cs /\ o < n /\ c < n /\ linked (same_pairs cs) o c /\
                   k = mkC kk p (TChoice c) ENone);
  ex_dep : forall a b, a < b -> b < n -> linked (same_pairs cs) a b ->
      In (mkC ChoicesAreNotInSameSlot a (TChoice b) ENone) out;
  ex_chooser : forall kk p o c x, (kk = ChooserIsInChoice \/ kk = ChooserIsNotInChoice) ->
      In (mkC kk p (TChoice o) x) cs -> o < n -> c < n -> c <> o -> linked (same_pairs cs) o c ->
      In (mkC kk p (TChoice c) ENone) out
}.

Lemma sorted_split_lt (l1 : list nat) a l2 b l3 : StronglySorted lt (l1 ++ a :: l2 ++ b :: l3) -> a < b.
Proof.
  induction l1 as [|x l1 IH]; cbn; intros H; inversion H; subst.
  - rewrite Forall_forall in H3. apply H3. apply in_or_app. right; left; auto.
  - auto.
Qed.
Lemma sorted_two (g : list nat) a b : StronglySorted lt g -> In a g -> In b g -> a < b ->
  exists l1 l2 l3, g = l1 ++ a :: l2 ++ b :: l3.
Proof.
  intros HS Ha Hb Hlt. apply in_split in Ha as (l1 & t & ->). 
  assert (Hb' : In b t).
  { apply in_app_or in Hb as [Hb|[->|Hb]]; [|lia|auto]. exfalso.
    apply in_split in Hb as (x & y & ->). rewrite <- app_assoc in HS. cbn in HS.
    assert (b < a); [|lia]. eapply (sorted_split_lt x b y a t). exact HS. }
  apply in_split in Hb' as (l2 & l3 & ->). eauto.
Qed.

Lemma expand_one_ok gs k r : expand_one gs k = Ok r ->
  forall c, In c r <-> exists o x, c_right k = TChoice o /\ (c_kind k = ChooserIsInChoice \/ c_kind k = ChooserIsNotInChoice) /\
     In x (group_of gs o) /\ x <> o /\ c = mkC (c_kind k) (c_left k) (TChoice x) ENone.
Proof.
  unfold expand_one. intros H c.
  destruct (kind_eqb (c_kind k) ChooserIsInChoice || kind_eqb (c_kind k) ChooserIsNotInChoice) eqn:E.
  - apply orb_true_iff in E. rewrite !kind_eqb_spec in E. apply bind_ok in H as (o & Ho & H). injection H as <-.
    unfold con_other_choice in Ho. destruct (c_right k) as [| |o'| |] eqn:Er; try discriminate. injection Ho as ->.
    rewrite in_map_iff. split.
    + intros (x & <- & Hx). apply filter_In in Hx as [Hx Hne]. apply negb_true_iff, Nat.eqb_neq in Hne.
      exists o, x. auto.
    + intros (o2 & x & Eo & _ & Hx & Hne & ->). injection Eo as <-. exists x. split; auto.
      apply filter_In. split; auto. apply negb_true_iff, Nat.eqb_neq; auto.
  - injection H as <-. split; [intros []|]. intros (o & x & _ & Hk & _). apply orb_false_iff in E as [E1 E2].
    destruct Hk as [Hk|Hk]; rewrite Hk in *; discriminate.
Qed.

Lemma expand_one_total gs k : shaped k -> exists r, expand_one gs k = Ok r.
Proof.
  intros HS. unfold expand_one.
  destruct (kind_eqb (c_kind k) ChooserIsInChoice || kind_eqb (c_kind k) ChooserIsNotInChoice) eqn:E; eauto.
  apply orb_true_iff in E. rewrite !kind_eqb_spec in E. destruct k as [kk l t x]; cbn in *.
  unfold con_other_choice; cbn. destruct E as [-> | ->]; unfold shaped in HS; cbn in HS; destruct t; try contradiction; cbn; eauto.
Qed.

Lemma mmap_in {A B} (f : A -> outcome B) l r y : mmap f l = Ok r -> In y r -> exists x, In x l /\ f x = Ok y.
Proof.
  revert r; induction l as [|a t IH]; cbn; intros r H Hy.
  - injection H as <-. destruct Hy.
  - apply bind_ok in H as (z & Hz & H). apply bind_ok in H as (zs & Hzs & H). injection H as <-.
    destruct Hy as [<-|Hy]; [eauto|]. destruct (IH _ Hzs Hy) as (x & Hx & E). eauto.
Qed.
Lemma mmap_in_fwd {A B} (f : A -> outcome B) l r x : mmap f l = Ok r -> In x l -> exists y, In y r /\ f x = Ok y.
Proof.
  revert r; induction l as [|a t IH]; cbn; intros r H Hx; [destruct Hx|].
  apply bind_ok in H as (z & Hz & H). apply bind_ok in H as (zs & Hzs & H). injection H as <-.
  destruct Hx as [<-|Hx]; [exists z; split; [left|]; auto|]. destruct (IH _ Hzs Hx) as (y & Hy & E).
  exists y. split; [right|]; auto.
Qed.

Lemma expand_dependent_ok cs n out : expand_dependent cs n = Ok out -> expanded cs n out.
Proof.
  unfold expand_dependent. intros H. apply bind_ok in H as (dep & Hd & H). apply bind_ok in H as (mand & Hm & H).
  apply bind_ok in H as (ex & Hx & H). injection H as <-.
  destruct (get_dependent_ok _ _ _ Hd) as [HG HB]. pose proof (mandatory_ok _ _ Hm) as HM.
  assert (IN : forall k, In k (con_dedup (con_sort (flat_map pairs_not_same dep ++ flat_map pairs_not_same mand ++ concat ex ++ cs)))
     <-> In k (flat_map pairs_not_same dep) \/ In k (flat_map pairs_not_same mand) \/ In k (concat ex) \/ In k cs).
  { intros k. rewrite con_dedup_in, con_sort_in, !in_app_iff. tauto. }
  constructor.
  - intros k Hk. apply IN. tauto.
  - exact HB.
  - intros k Hk. apply IN in Hk as [Hk|[Hk|[Hk|Hk]]]; auto.
    + apply in_flat_map in Hk as (g & Hg & Hk). apply pairs_not_same_in in Hk as (l1 & a & l2 & b & l3 & Eg & ->).
      right; left. exists a, b. pose proof (ig_sorted _ _ _ HG g Hg) as HS. rewrite Eg in HS.
      pose proof (sorted_split_lt _ _ _ _ _ HS).
      assert (Ha : In a g) by (rewrite Eg; apply in_or_app; right; left; auto).
      assert (Hb : In b g) by (rewrite Eg; apply in_or_app; right; right; apply in_or_app; right; left; auto).
      repeat split; try lia; try (eapply (ig_range _ _ _ HG); eauto).
      apply (ig_class _ _ _ HG g a b Hg Ha) in Hb. tauto.
    + apply in_flat_map in Hk as (g & Hg & Hk). apply pairs_not_same_in in Hk as (l1 & a & l2 & b & l3 & Eg & ->).
      destruct (HM g Hg) as (p & Ep). right; right; left. exists p, l1, a, l2, b, l3. split; congruence.
    + apply in_concat in Hk as (l & Hl & Hk). destruct (mmap_in _ _ _ _ Hx Hl) as (k0 & Hk0 & E).
      pose proof (proj1 (expand_one_ok _ _ _ E k) Hk) as (o & x & Er & Hkk & Hin & Hne & Ek). rewrite Ek.
      right; right; right. destruct k0 as [kk p t xx]; cbn in *. subst t. exists kk, p, o, x, xx.
      destruct (Nat.lt_ge_cases o n) as [Ho|Ho].
      * destruct (group_of_spec _ _ _ o HG Ho) as [Hg Hog].
        apply (ig_class _ _ _ HG _ o x Hg Hog) in Hin. repeat split; tauto.
      * rewrite (group_of_none _ _ _ _ HG Ho) in Hin. destruct Hin.
  - intros a b Hab Hb HL. apply IN. left. apply in_flat_map.
    destruct (ig_cover _ _ _ HG a) as (g & Hg & Ha); [lia|]. exists g. split; auto.
    assert (Hbg : In b g) by (apply (ig_class _ _ _ HG g a b Hg Ha); auto).
    destruct (sorted_two g a b (ig_sorted _ _ _ HG g Hg) Ha Hbg Hab) as (l1 & l2 & l3 & ->).
    apply pairs_not_same_intro.
  - intros kk p o c x Hkk Hin Ho Hc Hne HL. apply IN. right; right; left.
    destruct (mmap_in_fwd _ _ _ _ Hx Hin) as (r & Hr & E). apply in_concat. exists r. split; auto.
    apply (expand_one_ok _ _ _ E). exists o, c. cbn. repeat split; auto.
    destruct (group_of_spec _ _ _ o HG Ho) as [Hg Hog]. apply (ig_class _ _ _ HG _ o c Hg Hog). auto.
Qed.

Lemma expand_dependent_total cs n : (Z.of_nat n <= i32_max)%Z ->
  (forall a b, In (a, b) (same_pairs cs) -> a < n /\ b < n) -> (forall k, In k cs -> shaped k) ->
  exists out, expand_dependent cs n = Ok out.
Proof.
  intros Hn HB HS. unfold expand_dependent. destruct (get_dependent_total cs n Hn HB HS) as [dep ->].
  destruct (mandatory_total cs HS) as [mand ->]. cbn [bind].
  destruct (mmap_ok (expand_one dep) cs) as [ex ->]. { intros k Hk. apply expand_one_total; auto. }
  cbn. eauto.
Qed.

(** ** Side switching *)
Lemma reduce_one_means k l : shaped k -> reduce_one k = Ok (l, false) ->
  (l = [] /\ forall S A, means S A k) \/
  (exists k', l = [k'] /\ forall S A, means S A k' <-> means S A k).
Proof.
  destruct k as [kk a t x]. unfold shaped, reduce_one; cbn [c_kind c_left c_right c_extra].
  intros HS H. destruct kk, t; cbn in HS; try contradiction; cbn in H;
    try (injection H as <-; right; eexists; split; [reflexivity|]; intros S A; reflexivity).
  (* SlotsHaveSameChoices *)
  injection H as H1 H2. subst l. apply negb_false_iff, Nat.eqb_eq in H2. subst s. left. split; auto.
  intros S A. unfold means, sched_means; cbn. reflexivity.
Qed.

Lemma reduce_one_total k : shaped k -> exists r, reduce_one k = Ok r.
Proof.
  destruct k as [kk a t x]. unfold shaped, reduce_one; cbn [c_kind c_left c_right c_extra].
  destruct kk, t; cbn; try contradiction; eauto.
Qed.

Lemma reduce_one_shaped nc ns np k l b : indexed nc ns np k -> reduce_one k = Ok (l, b) ->
  forall k', In k' l -> indexed nc ns np k' /\
    match c_kind k' with SlotContainsChoice | SlotNotContainsChoice | SlotsHaveSameChoices
                       | ChoiceContainsChooser | ChoiceNotContainsChooser | Invalid => False | _ => True end.
Proof.
  destruct k as [kk a t x]. unfold indexed, reduce_one; cbn [c_kind c_left c_right c_extra].
  intros HS H k' Hk'. destruct kk, t; cbn in HS; try contradiction; cbn in H;
    injection H as <- <-; cbn in Hk'; try contradiction; destruct Hk' as [<-|[]]; cbn; try tauto;
    destruct x; cbn in HS |- *; try contradiction; try tauto; auto.
Qed.

Lemma indexed_shaped nc ns np k : indexed nc ns np k -> shaped k.
Proof.
  destruct k as [kk a t x]. unfold indexed, shaped; cbn [c_kind c_left c_right c_extra].
  destruct kk, t; cbn; try contradiction; auto; destruct x; auto.
Qed.

Lemma flat_map_fst_in (rs : list (list constraint * bool)) k : In k (flat_map fst rs) <-> exists l b, In (l, b) rs /\ In k l.
Proof.
  rewrite in_flat_map. split.
  - intros ([l b] & H & Hk). eauto.
  - intros (l & b & H & Hk). exists (l, b). auto.
Qed.

(** ** C17 *)
Lemma reduce_loses_nothing cs n out S A :
  (forall k, In k cs -> shaped k) ->
  reduce_and_optimize cs n = Ok (out, false) ->
  (forall k, In k out -> means S A k) -> forall k, In k cs -> means S A k.
Proof.
  unfold reduce_and_optimize. intros HS H HM k Hk. apply bind_ok in H as (rs & Hr & H).
  apply bind_ok in H as (out' & Ho & H). injection H as -> Hinf.
  pose proof (expand_dependent_ok _ _ _ Ho) as HE.
  destruct (mmap_in_fwd _ _ _ _ Hr Hk) as ([l b] & Hl & E).
  assert (b = false) as ->. { eapply existsb_false in Hinf; eauto. exact Hinf. }
  destruct (reduce_one_means k l (HS k Hk) E) as [[_ H]|(k' & -> & H)]; [apply H|].
  apply H. apply HM. apply (ex_incl _ _ _ HE). apply flat_map_fst_in. exists [k'], false. split; auto. left; auto.
Qed.

Lemma reduce_total cs nc ns np : (Z.of_nat nc <= i32_max)%Z ->
  (forall k, In k cs -> indexed nc ns np k) -> exists r, reduce_and_optimize cs nc = Ok r.
Proof.
  intros Hn HI. unfold reduce_and_optimize.
  destruct (mmap_ok reduce_one cs) as [rs Hr]. { intros k Hk. apply reduce_one_total. eapply indexed_shaped; eauto. }
  rewrite Hr; cbn [bind].
  assert (HR : forall k, In k (flat_map fst rs) -> indexed nc ns np k).
  { intros k Hk. apply flat_map_fst_in in Hk as (l & b & Hl & Hk). destruct (mmap_in _ _ _ _ Hr Hl) as (k0 & Hk0 & E).
    eapply reduce_one_shaped; eauto. }
  destruct (expand_dependent_total (flat_map fst rs) nc Hn) as [out ->]; cbn; eauto.
  - intros a b Hab. apply same_pairs_in in Hab as (x & Hin). apply HR in Hin. unfold indexed in Hin; cbn in Hin. tauto.
  - intros k Hk. eapply indexed_shaped; eauto.
Qed.

(** Everything in the processed list is indexed and of a reduced kind. *)
Lemma reduce_indexed cs nc ns np out b :
  (forall k, In k cs -> indexed nc ns np k) -> reduce_and_optimize cs nc = Ok (out, b) ->
  forall k, In k out -> indexed nc ns np k /\
    match c_kind k with SlotContainsChoice | SlotNotContainsChoice | SlotsHaveSameChoices
                       | ChoiceContainsChooser | ChoiceNotContainsChooser | Invalid => False | _ => True end.
Proof.
  unfold reduce_and_optimize. intros HI H. apply bind_ok in H as (rs & Hr & H).
  apply bind_ok in H as (out' & Ho & H). injection H as -> Hinf.
  pose proof (expand_dependent_ok _ _ _ Ho) as HE.
  assert (HR : forall k, In k (flat_map fst rs) -> indexed nc ns np k /\
    match c_kind k with SlotContainsChoice | SlotNotContainsChoice | SlotsHaveSameChoices
                       | ChoiceContainsChooser | ChoiceNotContainsChooser | Invalid => False | _ => True end).
  { intros k Hk. apply flat_map_fst_in in Hk as (l & b' & Hl & Hk). destruct (mmap_in _ _ _ _ Hr Hl) as (k0 & Hk0 & E).
    eapply reduce_one_shaped; eauto. }
  intros k Hk. apply (ex_only _ _ _ HE) in Hk as [Hk|[Hk|[Hk|Hk]]].
  - auto.
  - destruct Hk as (a & b0 & Hne & Ha & Hb & _ & ->). cbn. auto.
  - destruct Hk as (p & l1 & a & l2 & b0 & l3 & Eg & ->).
    assert (Hin : forall c, In c (l1 ++ a :: l2 ++ b0 :: l3) -> c < nc).
    { intros c Hc. rewrite <- Eg in Hc. apply in_map_iff in Hc as ((q1 & q2) & Eq & Hq). cbn in Eq. subst q2.
      apply filter_In in Hq as [Hq _]. apply in_pairs_in in Hq as (x & Hq). apply HR in Hq as [Hq _].
      unfold indexed in Hq; cbn in Hq. tauto. }
    split; [|exact I]. unfold indexed; cbn. split; apply Hin; apply in_or_app; right; [left; auto|right; apply in_or_app; right; left; auto].
  - destruct Hk as (kk & p & o & c & x & Hkk & Hin & Ho' & Hc & _ & ->). apply HR in Hin as [Hin _].
    unfold indexed in *; cbn in *. destruct Hkk as [-> | ->]; tauto.
Qed.

(** ** C18 *)
Section Invent.
Variables (d : input_data) (S : scheduling) (A : assignment).
Hypothesis H1 : one_choice_per_slot d S A.
Hypothesis HH : forall c, c < length (i_choices d) -> held S c.
Hypothesis HAtt : forall c, c < length (i_choices d) -> exists p, attends A p c.

Lemma two_choices_distinct p a b s :
  attends A p a -> attends A p b -> scheduled_in S a s -> scheduled_in S b s -> s < length (i_slots d) -> a = b.
Proof.
  intros (row & Hp & Ha) (row' & Hp' & Hb) Sa Sb Hs. assert (row' = row) by congruence. subst row'.
  destruct (proj2 H1 p row Hp) as (_ & _ & HU). destruct (HU s Hs) as (c & _ & Hu).
  rewrite <- (Hu a) by auto. apply Hu; auto.
Qed.

Lemma linked_same_choosers cs n a b :
  n = length (i_choices d) -> (forall x y, In (x, y) (same_pairs cs) -> x < n /\ y < n) ->
  (forall k, In k cs -> means S A k) -> linked (same_pairs cs) a b ->
  forall p, attends A p a <-> attends A p b.
Proof.
  intros Hn HB HM HL. induction HL as [x y Hxy| | |]; intros p; try tauto.
  - destruct (HB _ _ Hxy) as [Hx Hy]. apply same_pairs_in in Hxy as (e & Hin). apply HM in Hin.
    unfold means, asg_means in Hin; cbn in Hin. apply Hin; apply HH; lia.
  - symmetry; auto.
  - rewrite IHHL1. auto.
Qed.
End Invent.

(** position-wise distinctness of "p attends c" requirements, whichever side they
    were written on *)
Definition attendance_req (k : constraint) : list (nat * nat) :=
  match c_kind k, c_right k with
  | ChooserIsInChoice, TChoice c => [(c_left k, c)]
  | ChoiceContainsChooser, TChooser p => [(p, c_left k)]
  | _, _ => []
  end.

Lemma in_pairs_reduce cs rs : mmap reduce_one cs = Ok rs -> (forall k, In k cs -> shaped k) ->
  in_pairs (flat_map fst rs) = flat_map attendance_req cs.
Proof.
  revert rs; induction cs as [|k cs IH]; intros rs H HS; cbn in H.
  - injection H as <-; auto.
  - apply bind_ok in H as ([l b] & Hk & H). apply bind_ok in H as (rs' & Hr & H). injection H as <-.
    cbn [flat_map fst]. unfold in_pairs. rewrite flat_map_app. f_equal.
    + pose proof (HS k (or_introl eq_refl)) as Hsh. clear -Hk Hsh.
      destruct k as [kk a t x]. unfold shaped, reduce_one, attendance_req in *; cbn [c_kind c_left c_right c_extra] in *.
      destruct kk, t; cbn in Hsh; try contradiction; cbn in Hk; injection Hk as <- <-; reflexivity.
    + apply IH; auto. intros; apply HS; right; auto.
Qed.

Lemma NoDup_filter {A} (f : A -> bool) l : NoDup l -> NoDup (filter f l).
Proof. induction 1; cbn; [constructor|]. destruct (f x); auto. constructor; auto. rewrite filter_In; tauto. Qed.

Lemma two_in_nodup {A} (l1 : list A) a l2 b l3 : NoDup (l1 ++ a :: l2 ++ b :: l3) -> a <> b.
Proof.
  intros H ->. apply NoDup_remove_2 in H. apply H. apply in_or_app. right. apply in_or_app. right; left; auto.
Qed.
Lemma NoDup_map_snd p (l : list (nat * nat)) : NoDup l -> NoDup (map snd (filter (fun q => fst q =? p) l)).
Proof.
  intros H. induction H as [|[x y] l Hn H IH]; cbn; [constructor|].
  destruct (x =? p) eqn:E; auto. cbn. constructor; auto. intros Hin.
  apply in_map_iff in Hin as ((x' & y') & E1 & Hin). cbn in E1; subst y'.
  apply filter_In in Hin as [Hin E2]. cbn in E2. apply Nat.eqb_eq in E, E2. subst. auto.
Qed.

Lemma reduce_invents_nothing d S A cs out b np :
  let n := length (i_choices d) in
  one_choice_per_slot d S A ->
  (forall c, c < n -> held S c) -> (forall c, c < n -> exists p, attends A p c) ->
  (forall c s, scheduled_in S c s -> s < length (i_slots d)) ->
  (forall k, In k cs -> indexed n (length (i_slots d)) np k) ->
  NoDup (flat_map attendance_req cs) ->
  reduce_and_optimize cs n = Ok (out, b) ->
  (forall k, In k cs -> means S A k) -> forall k, In k out -> means S A k.
Proof.
  intros n H1 HH HAtt HRange HI HND H HM.
  assert (HS : forall k, In k cs -> shaped k) by (intros k Hk; eapply indexed_shaped; eauto).
  pose proof H as H0.
  unfold reduce_and_optimize in H. apply bind_ok in H as (rs & Hr & H).
  apply bind_ok in H as (out' & Ho & H). injection H as -> Hinf.
  pose proof (expand_dependent_ok _ _ _ Ho) as HE.
  assert (HM' : forall k, In k (flat_map fst rs) -> means S A k /\ indexed n (length (i_slots d)) np k).
  { intros k Hk. apply flat_map_fst_in in Hk as (l & b' & Hl & Hk). destruct (mmap_in _ _ _ _ Hr Hl) as (k0 & Hk0 & E).
    pose proof (HI k0 Hk0) as Hix. split; [|eapply reduce_one_shaped; eauto].
    pose proof (HS k0 Hk0) as Hsh. pose proof (HM k0 Hk0) as Hm0. clear -E Hk Hsh Hm0.
    destruct k0 as [kk a t x]. unfold shaped, reduce_one in *; cbn [c_kind c_left c_right c_extra] in *.
    destruct kk, t; cbn in Hsh; try contradiction; cbn in E; injection E as <- <-; cbn in Hk; try contradiction;
      destruct Hk as [<-|[]]; exact Hm0. }
  assert (Hno : forall p a c, attends A p a -> attends A p c -> a <> c ->
            means S A (mkC ChoicesAreNotInSameSlot a (TChoice c) ENone)).
  { intros p a c Ha Hc Hne. unfold means, sched_means; cbn. intros s [Sa Sc]. apply Hne.
    eapply (two_choices_distinct d S A H1 p a c s); eauto. }
  intros k Hk. apply (ex_only _ _ _ HE) in Hk as [Hk|[Hk|[Hk|Hk]]].
  - apply HM'; auto.
  - destruct Hk as (a & c & Hne & Ha & Hc & HL & ->).
    destruct (HAtt a Ha) as (p & Hp). eapply Hno; eauto.
    apply (linked_same_choosers d S A HH (flat_map fst rs) n a c); auto; [apply HE|apply HM'].
  - destruct Hk as (p & l1 & a & l2 & c & l3 & Eg & ->).
    assert (Hatt : forall x, In x (l1 ++ a :: l2 ++ c :: l3) -> attends A p x).
    { intros x Hx. rewrite <- Eg in Hx. apply in_map_iff in Hx as ((q1 & q2) & Eq & Hq). cbn in Eq. subst q2.
      apply filter_In in Hq as [Hq Hp]. cbn in Hp. apply Nat.eqb_eq in Hp. subst q1.
      apply in_pairs_in in Hq as (e & Hq). destruct (HM' _ Hq) as [Hm Hx']. unfold means, asg_means in Hm; cbn in Hm.
      apply Hm. apply HH. unfold indexed in Hx'; cbn in Hx'. tauto. }
    apply (Hno p); try apply Hatt.
    + apply in_or_app; right; left; auto.
    + apply in_or_app; right; right. apply in_or_app; right; left; auto.
    + rewrite (in_pairs_reduce cs rs Hr HS) in Eg. apply (NoDup_map_snd p) in HND. rewrite Eg in HND.
      eapply two_in_nodup; eauto.
  - destruct Hk as (kk & p & o & c & x & Hkk & Hin & Ho' & Hc & HL & ->).
    destruct (HM' _ Hin) as [Hm _].
    pose proof (linked_same_choosers d S A HH (flat_map fst rs) n o c eq_refl (ex_same _ _ _ HE)
                  (fun k Hk => proj1 (HM' k Hk)) HL p) as Hiff.
    destruct Hkk as [-> | ->]; unfold means, asg_means in *; cbn in *.
    + intros _. apply Hiff. apply Hm. apply HH; auto.
    + intros Hx. apply Hm. apply Hiff; auto.
Qed.
