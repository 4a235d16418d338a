(** Proofs about critical sets (C13, C14, C15). *)
From Verif Require Import Base M_Data Spec M_Scoring P_Scoring P_Feasible Spec_Search M_Critical.
From Coq Require Import Sorted Permutation.

(** ** Sorted lists *)
Lemma sorted_nodup l : StronglySorted lt l -> NoDup l.
Proof.
  induction 1 as [|a l HS IH HF]; constructor; auto. intros H. rewrite Forall_forall in HF. apply HF in H. lia.
Qed.
Lemma walk_spec a : forall b, StronglySorted lt a -> StronglySorted lt b -> superset_walk a b = true <-> incl b a.
Proof.
  induction a as [|x a IH]; intros b Ha Hb; cbn.
  - destruct b; split; auto; try discriminate. intros _ y []. intros H. destruct (H n). left; auto.
  - inversion Ha as [|? ? Ha' HFa]; subst. rewrite Forall_forall in HFa.
    destruct b as [|y b]; [split; auto; intros _ z []|].
    inversion Hb as [|? ? Hb' HFb]; subst. rewrite Forall_forall in HFb.
    destruct (Nat.compare_spec x y) as [->|H|H].
    + rewrite (IH b Ha' Hb'). split.
      * intros HI z [->|Hz]; [left; auto|right; auto].
      * intros HI z Hz. destruct (HI z (or_intror Hz)) as [->|]; auto. apply HFb in Hz. lia.
    + rewrite (IH (y :: b) Ha' Hb). split.
      * intros HI z Hz. right; auto.
      * intros HI z Hz. destruct (HI z Hz) as [->|]; auto. exfalso. destruct Hz as [->|Hz]; [lia|]. apply HFb in Hz. lia.
    + split; [discriminate|]. intros HI. exfalso. destruct (HI y (or_introl eq_refl)) as [->|Hy]; [lia|]. apply HFa in Hy. lia.
Qed.

Definition sset (s : cset) : Prop := StronglySorted lt (set_data s).
Lemma superset_spec a b : sset a -> sset b -> is_superset_of a b = true <-> incl (set_data b) (set_data a).
Proof.
  intros Ha Hb. unfold is_superset_of. destruct (Nat.ltb_spec (set_size a) (set_size b)) as [H|H].
  - split; [discriminate|]. intros HI. pose proof (NoDup_incl_length (sorted_nodup _ Hb) HI). unfold set_size in H. lia.
  - apply walk_spec; auto.
Qed.
Lemma covered_spec a b : sset a -> sset b ->
  is_covered_by a b = true <-> (set_pref a <= set_pref b)%N /\ incl (set_data b) (set_data a).
Proof. intros Ha Hb. unfold is_covered_by. rewrite andb_true_iff, N.leb_le, superset_spec by auto. tauto. Qed.
Lemma cset_eqb_spec a b : cset_eqb a b = true <-> a = b.
Proof.
  unfold cset_eqb. rewrite andb_true_iff, N.eqb_eq. destruct a as [p l], b as [q m]; cbn [set_pref set_data].
  destruct (list_eq_dec Nat.eq_dec l m) as [->|Hne]; split.
  - intros [-> _]; reflexivity.
  - intros E; inversion E; split; reflexivity.
  - intros [_ E]; discriminate.
  - intros E; inversion E; contradiction.
Qed.

(** ** One chooser's set *)
Definition likes (d : input_data) (q : N) (x c : nat) : bool :=
  match nth_error (i_choosers d) x with
  | Some ch => match nth_error (cs_prefs ch) c with Some y => (y <=? q)%N | None => false end
  | None => false
  end.
Definition liked_list (d : input_data) (q : N) (x : nat) : list nat := filter (likes d q x) (seq 0 (length (i_choices d))).

Lemma seq_strong k n : StronglySorted lt (seq k n).
Proof.
  revert k; induction n as [|n IH]; intros k; cbn; constructor; auto. apply Forall_forall. intros y Hy. apply in_seq in Hy. lia.
Qed.
Lemma filter_strong (f : nat -> bool) l : StronglySorted lt l -> StronglySorted lt (filter f l).
Proof.
  induction 1 as [|a l HS IH HF]; cbn; [constructor|]. destruct (f a); auto. constructor; auto.
  rewrite Forall_forall in *. intros y Hy. apply filter_In in Hy as [Hy _]. auto.
Qed.
Lemma likes_spec d q x c : likes d q x c = true <-> exists y, pref_of d x c y /\ (y <= q)%N.
Proof.
  unfold likes, pref_of. split.
  - destruct (nth_error (i_choosers d) x) as [ch|]; [|discriminate]. destruct (nth_error (cs_prefs ch) c) as [y|] eqn:E; [|discriminate].
    rewrite N.leb_le. intros H. exists y. eauto.
  - intros (y & (ch & -> & ->) & H). apply N.leb_le; auto.
Qed.
Lemma liked_list_ok d q x : liked d q x (liked_list d q x).
Proof.
  split; [apply filter_strong, seq_strong|]. intros c. unfold liked_list. rewrite filter_In, in_seq, likes_spec. intuition lia.
Qed.
Lemma sorted_ext l m : StronglySorted lt l -> StronglySorted lt m -> (forall x, In x l <-> In x m) -> l = m.
Proof.
  intros Hl; revert m; induction Hl as [|a l HS IH HF]; intros m Hm HE.
  - destruct m as [|b m]; auto. destruct (proj2 (HE b)); left; auto.
  - destruct Hm as [|b m Hm HFm]; [destruct (proj1 (HE a)); left; auto|].
    rewrite Forall_forall in *.
    assert (a = b) as ->.
    { destruct (proj1 (HE a) (or_introl eq_refl)) as [->|H1]; auto. destruct (proj2 (HE b) (or_introl eq_refl)) as [->|H2]; auto.
      apply HFm in H1. apply HF in H2. lia. }
    f_equal. apply IH; auto. intros x. split; intros Hx.
    + destruct (proj1 (HE x) (or_intror Hx)) as [->|]; auto. apply HF in Hx. lia.
    + destruct (proj2 (HE x) (or_intror Hx)) as [->|]; auto. apply HFm in Hx. lia.
Qed.
Lemma liked_unique d q x l : liked d q x l -> l = liked_list d q x.
Proof.
  intros [H1 H2]. destruct (liked_list_ok d q x) as [H3 H4]. apply sorted_ext; auto. intros c. rewrite H2, H4. tauto.
Qed.

Lemma sum_over_app f d l m : sum_over f d (l ++ m) = (sum_over f d l + sum_over f d m)%N.
Proof. unfold sum_over. induction l as [|a l IH]; cbn; auto. rewrite IH. lia. Qed.
Lemma sum_over_cons f d a m : sum_over f d (a :: m) = (sum_over f d [a] + sum_over f d m)%N.
Proof. apply (sum_over_app f d [a] m). Qed.
Lemma sum_over_filter f d g l : (sum_over f d (filter g l) <= sum_over f d l)%N.
Proof. induction l as [|a l IH]; cbn [filter]; [lia|]. rewrite sum_over_cons. destruct (g a); [rewrite sum_over_cons|]; lia. Qed.
Lemma sum_over_seq f d : sum_over f d (seq 0 (length (i_choices d))) = total f d.
Proof.
  unfold sum_over, total.
  assert (G : forall cs pre, i_choices d = pre ++ cs ->
    fold_right (fun c t => (match nth_error (i_choices d) c with Some ch => f ch | None => 0 end + t)%N) 0%N (seq (length pre) (length cs))
    = fold_right (fun c t => (f c + t)%N) 0%N cs).
  { induction cs as [|c cs IH]; intros pre E; cbn; auto.
    rewrite E at 1. rewrite nth_error_app2, Nat.sub_diag by lia. cbn. f_equal.
    specialize (IH (pre ++ [c])). rewrite app_length in IH; cbn in IH. rewrite Nat.add_1_r in IH. apply IH.
    rewrite E, <- app_assoc; auto. }
  apply (G _ []); auto.
Qed.

Lemma chooser_set_ok pr d q x : wf_input d -> (total ch_min d <= u32_max)%N -> x < length (i_choosers d) ->
  chooser_set pr d q x = Ok (liked_list d q x, sum_over ch_min d (liked_list d q x)).
Proof.
  intros HW HT Hx. unfold chooser_set, liked_list.
  destruct (nth_error (i_choosers d) x) as [ch|] eqn:Ex; [|apply nth_error_None in Ex; lia].
  pose proof (wf_prefs _ HW ch (nth_error_In _ _ Ex)) as HL.
  assert (G : forall l s m, (forall c, In c l -> c < length (i_choices d)) -> (m + sum_over ch_min d l <= u32_max)%N ->
    mfold (fun sm choice =>
      let '(s, m) := sm in
      let* c := get (i_choosers d) x in
      let* x := get (cs_prefs c) choice in
      if (x <=? q)%N then
        let* ch := get (i_choices d) choice in
        let* m' := add_u32 pr m (ch_min ch) in
        Ok (s ++ [choice], m')
      else Ok (s, m)) l (s, m) = Ok (s ++ filter (likes d q x) l, (m + sum_over ch_min d (filter (likes d q x) l))%N)).
  { induction l as [|c l IH]; intros s m Hl Hm; cbn [mfold filter].
    - cbn. rewrite app_nil_r, N.add_0_r. auto.
    - rewrite sum_over_cons in Hm. unfold get at 1. rewrite Ex; cbn [bind].
      assert (Hc : c < length (i_choices d)) by (apply Hl; left; auto).
      unfold get at 1. destruct (nth_error (cs_prefs ch) c) as [y|] eqn:Ey; [|apply nth_error_None in Ey; lia]. cbn [bind].
      assert (EL : likes d q x c = (y <=? q)%N) by (unfold likes; rewrite Ex, Ey; auto). rewrite EL.
      destruct (y <=? q)%N.
      + unfold get at 1. destruct (nth_error (i_choices d) c) as [cd|] eqn:Ec; [|apply nth_error_None in Ec; lia]. cbn [bind].
        assert (E1 : sum_over ch_min d [c] = ch_min cd) by (cbn; rewrite Ec; lia).
        unfold add_u32. destruct (N.leb_spec (m + ch_min cd) u32_max); [|lia]. cbn [bind].
        rewrite IH.
        * rewrite <- app_assoc. cbn [app]. f_equal. f_equal. rewrite (sum_over_cons _ _ c). lia.
        * intros; apply Hl; right; auto.
        * lia.
      + cbn [bind]. apply IH; [intros; apply Hl; right; auto|lia]. }
  rewrite (G _ [] 0%N); auto.
  - intros c Hc. apply in_seq in Hc. lia.
  - rewrite sum_over_seq. lia.
Qed.

(** ** All sets *)
Definition found (d : input_data) (s : cset) : Prop :=
  exists x, x < length (i_choosers d) /\ In (set_pref s) (i_levels d) /\ set_data s = liked_list d (set_pref s) x /\
    (sum_over ch_min d (set_data s) <= N.of_nat (length (i_choosers d)) * N.of_nat (length (i_slots d) - 1))%N.
Lemma found_sset d s : found d s -> sset s.
Proof. intros (x & _ & _ & E & _). unfold sset. rewrite E. apply filter_strong, seq_strong. Qed.
Lemma found_critical d s : found d s <-> exists x, critical_at d (set_pref s) x (set_data s).
Proof.
  split; intros (x & H).
  - destruct H as (H1 & H2 & H3 & H4). exists x. split; auto. split; auto. split; auto. rewrite H3. apply liked_list_ok.
  - destruct H as (H1 & H2 & H3 & H4). exists x. split; auto. split; auto. split; auto. apply liked_unique; auto.
Qed.

Lemma covered_refl s : sset s -> is_covered_by s s = true.
Proof. intros H. apply covered_spec; auto. split; [lia|apply incl_refl]. Qed.
Lemma covered_trans a b c : sset a -> sset b -> sset c -> is_covered_by a b = true -> is_covered_by b c = true -> is_covered_by a c = true.
Proof. intros Ha Hb Hc. rewrite !covered_spec by auto. intros [] []. split; [lia|eapply incl_tran; eauto]. Qed.

(** [out] keeps some of [all] and covers everything in it. *)
Definition keeps (d : input_data) (all : cset -> Prop) (out : list cset) : Prop :=
  (forall s, In s out -> found d s /\ all s) /\
  forall s, found d s -> all s -> exists s', In s' out /\ is_covered_by s s' = true.

Lemma analyze_ok pr d : wf_input d -> (total ch_min d <= u32_max)%N ->
  (N.of_nat (length (i_choosers d)) * N.of_nat (length (i_slots d) - 1) <= u32_max)%N ->
  exists sets, analyze_sets pr d = Ok sets /\ keeps d (fun _ => True) sets.
Proof.
  intros HW HT HC. unfold analyze_sets.
  assert (G : forall l sets done,
    (forall q x, In (q, x) l -> In q (i_levels d) /\ x < length (i_choosers d)) ->
    (forall s, In s sets -> found d s) ->
    (forall q x, In (q, x) done -> found d (mkSet q (liked_list d q x)) ->
       exists s', In s' sets /\ is_covered_by (mkSet q (liked_list d q x)) s' = true) ->
    exists out, mfold (analyze_one pr d) l sets = Ok out /\ (forall s, In s out -> found d s) /\
      (forall q x, In (q, x) (done ++ l) -> found d (mkSet q (liked_list d q x)) ->
        exists s', In s' out /\ is_covered_by (mkSet q (liked_list d q x)) s' = true)).
  { induction l as [|[q x] l IH]; intros sets done Hl HS HD; cbn [mfold].
    - exists sets. rewrite app_nil_r. auto.
    - destruct (Hl q x) as [Hq Hx]; [left; auto|].
      unfold analyze_one at 1. rewrite chooser_set_ok by auto. cbn [bind]. unfold chooser_slots.
      rewrite (proj2 (N.leb_le _ _) HC). cbn [bind].
      replace (done ++ (q, x) :: l) with ((done ++ [(q, x)]) ++ l) by (rewrite <- app_assoc; auto).
      set (cap := (N.of_nat (length (i_choosers d)) * N.of_nat (length (i_slots d) - 1))%N) in *.
      destruct (N.ltb_spec cap (sum_over ch_min d (liked_list d q x))) as [Hcap|Hcap]; cbn [bind].
      + apply IH; auto. { intros; apply Hl; right; auto. }
        intros q' x' Hi HF. apply in_app_or in Hi as [Hi|[E|[]]]; auto. injection E as <- <-.
        exfalso. destruct HF as (x' & _ & _ & _ & HB). cbn [set_data set_pref] in HB. fold cap in HB. lia.
      + assert (HF : found d (mkSet q (liked_list d q x))) by (exists x; cbn; auto).
        destruct (existsb _ sets) eqn:Ee; cbn [bind].
        * apply IH; auto. { intros; apply Hl; right; auto. }
          intros q' x' Hi HF'. apply in_app_or in Hi as [Hi|[E|[]]]; auto. injection E as <- <-.
          apply existsb_exists in Ee as (s' & ? & ?). eauto.
        * apply IH. { intros; apply Hl; right; auto. }
          { intros s Hs. apply in_app_or in Hs as [Hs|[<-|[]]]; auto. }
          intros q' x' Hi HF'. apply in_app_or in Hi as [Hi|[E|[]]].
          -- destruct (HD _ _ Hi HF') as (s' & ? & ?). exists s'. split; auto. apply in_or_app; auto.
          -- injection E as <- <-. exists (mkSet q (liked_list d q x)). split; [apply in_or_app; right; left; auto|].
             apply covered_refl. eapply found_sset; eauto. }
  destruct (G (list_prod (rev (i_levels d)) (seq 0 (length (i_choosers d)))) [] []) as (out & E & H1 & H2).
  - intros q x H. apply in_prod_iff in H as [Hq Hx]. apply in_rev in Hq. apply in_seq in Hx. split; auto; lia.
  - intros s [].
  - intros q x [].
  - exists out. split; auto. split; auto. intros s HF _. pose proof HF as (x & Hx & Hq & Ed & _).
    destruct s as [q data]; cbn in *. subst data. apply H2; auto. apply in_prod_iff. split; [apply -> in_rev; auto|apply in_seq; lia].
Qed.

Lemma simplify_keeps d : forall fuel index sets, (forall s, In s sets -> found d s) ->
  (forall s, In s (simplify_loop fuel index sets) -> In s sets) /\
  forall s, In s sets -> exists s', In s' (simplify_loop fuel index sets) /\ is_covered_by s s' = true.
Proof.
  induction fuel as [|f IH]; intros index sets HF; cbn [simplify_loop].
  - split; auto. intros s Hs. exists s. split; auto. apply covered_refl. eapply found_sset; eauto.
  - destruct (nth_error sets index) as [cur|] eqn:Ec.
    2:{ split; auto. intros s Hs. exists s. split; auto. apply covered_refl. eapply found_sset; eauto. }
    set (sets' := filter _ sets). assert (HF' : forall s, In s sets' -> found d s).
    { intros s Hs. apply filter_In in Hs as [Hs _]. auto. }
    destruct (IH (S index) sets' HF') as [I1 I2]. split.
    + intros s Hs. apply I1 in Hs. apply filter_In in Hs. tauto.
    + intros s Hs. apply nth_error_In in Ec. pose proof (found_sset _ _ (HF _ Ec)) as Scur. pose proof (found_sset _ _ (HF _ Hs)) as Ss.
      assert (Hcur : In cur sets').
      { apply filter_In. split; auto. rewrite (proj2 (cset_eqb_spec cur cur) eq_refl). auto. }
      destruct (cset_eqb cur s || negb (is_covered_by s cur)) eqn:Ek.
      * apply I2. apply filter_In. auto.
      * apply orb_false_iff in Ek as [_ Ek]. apply negb_false_iff in Ek.
        destruct (I2 _ Hcur) as (s' & Hs' & Hc). exists s'. split; auto.
        eapply covered_trans; [| | |exact Ek|exact Hc]; auto. apply I1, HF' in Hs'. eapply found_sset; eauto.
Qed.

Definition the_sets (simplify : bool) (sets : list cset) : list cset := if simplify then simplify_sets sets else sets.
Lemma sets_keep d simplify sets : keeps d (fun _ => True) sets -> keeps d (fun _ => True) (the_sets simplify sets).
Proof.
  intros [K1 K2]. destruct simplify; [|split; auto]. cbn.
  destruct (simplify_keeps d (length sets) 0 sets) as [I1 I2]. { intros s Hs. apply K1; auto. }
  split.
  - intros s Hs. apply K1, I1, Hs.
  - intros s HF _. destruct (K2 s HF I) as (s1 & Hs1 & C1). destruct (I2 s1 Hs1) as (s2 & Hs2 & C2). exists s2. split; auto.
    eapply covered_trans; [eapply found_sset; eauto| | |exact C1|exact C2].
    + eapply found_sset. apply K1; eauto.
    + eapply found_sset. apply K1, I1; eauto.
Qed.

(** ** The cache *)
Lemma strong_app {X} (R : X -> X -> Prop) a b : StronglySorted R (a ++ b) <->
  StronglySorted R a /\ StronglySorted R b /\ forall x y, In x a -> In y b -> R x y.
Proof.
  induction a as [|h a IH]; cbn.
  - split; [intros H; repeat split; auto; [constructor|intros ? ? []]|tauto].
  - split.
    + intros H. inversion H as [|? ? H1 H2]; subst. apply IH in H1 as (A1 & A2 & A3). rewrite Forall_forall in H2.
      repeat split; auto.
      * constructor; auto. apply Forall_forall. intros z Hz. apply H2, in_or_app; auto.
      * intros x y [<-|Hx] Hy; auto. apply H2, in_or_app; auto.
    + intros (H1 & H2 & H3). inversion H1 as [|? ? H4 H5]; subst. constructor.
      * apply IH. repeat split; auto.
      * rewrite Forall_forall in *. intros z Hz. apply in_app_or in Hz as [Hz|Hz]; auto.
Qed.
Lemma rev_strong l : StronglySorted N.lt l -> StronglySorted (fun a b => (b < a)%N) (rev l).
Proof.
  induction 1 as [|a t HS IH HF]; cbn; [constructor|]. apply strong_app. repeat split; auto.
  - repeat constructor.
  - rewrite Forall_forall in HF. intros x y Hx [<-|[]]. rewrite <- in_rev in Hx. auto.
Qed.
Lemma insert_by_size_in x l y : In y (insert_by_size x l) <-> y = x \/ In y l.
Proof. induction l as [|h t IH]; cbn; [intuition|]. destruct (_ <=? _); cbn; rewrite ?IH; intuition. Qed.
Lemma sort_by_size_in l y : In y (sort_by_size l) <-> In y l.
Proof. induction l as [|h t IH]; cbn; [tauto|]. rewrite insert_by_size_in, IH. intuition. Qed.

(** [m] is a selection of [all] such that every element of [all] contains one. *)
Definition minimal_for (d : input_data) (all : cset -> Prop) (m : list cset) : Prop :=
  (forall s, In s m -> found d s /\ all s) /\
  forall s, found d s -> all s -> exists s', In s' m /\ incl (set_data s') (set_data s).

Lemma insert_minimal_ok d all m c : minimal_for d all m -> found d c -> minimal_for d (fun s => all s \/ s = c) (insert_minimal m c).
Proof.
  intros [M1 M2] HF. pose proof (found_sset _ _ HF) as Sc. unfold insert_minimal.
  destruct (existsb _ m) eqn:E.
  - apply existsb_exists in E as (s0 & Hs0 & Hsup). apply superset_spec in Hsup; auto; [|eapply found_sset; apply M1; eauto].
    split.
    + intros s Hs. destruct (M1 s Hs). auto.
    + intros s HFs [Ha| ->]; eauto.
  - rewrite existsb_false in E. split.
    + intros s Hs. apply in_app_or in Hs as [Hs|[<-|[]]]; auto. apply filter_In in Hs as [Hs _]. destruct (M1 s Hs). auto.
    + intros s HFs [Ha| ->].
      * destruct (M2 s HFs Ha) as (s' & Hs' & Hi). destruct (is_superset_of s' c) eqn:Es.
        -- apply superset_spec in Es; auto; [|eapply found_sset; apply M1; eauto].
           exists c. split; [apply in_or_app; right; left; auto|]. eapply incl_tran; eauto.
        -- exists s'. split; auto. apply in_or_app. left. apply filter_In. rewrite Es. auto.
      * exists c. split; [apply in_or_app; right; left; auto|apply incl_refl].
Qed.
Lemma minimal_ext d all all' m : (forall s, found d s -> all s <-> all' s) -> minimal_for d all m -> minimal_for d all' m.
Proof. intros H [M1 M2]. split; [intros s Hs; destruct (M1 s Hs); rewrite <- H; auto|]. intros s HF Ha. apply M2; auto. apply H; auto. Qed.
Lemma insert_all_ok d : forall l all m, minimal_for d all m -> (forall c, In c l -> found d c) ->
  minimal_for d (fun s => all s \/ In s l) (fold_left insert_minimal l m).
Proof.
  induction l as [|c l IH]; intros all m HM HF; cbn [fold_left].
  - eapply minimal_ext; [|exact HM]. cbn. tauto.
  - eapply minimal_ext; [|apply (IH (fun s => all s \/ s = c))].
    + intros s _. cbn. intuition.
    + apply insert_minimal_ok; auto. apply HF; left; auto.
    + intros; apply HF; right; auto.
Qed.

Lemma cache_ok d sets : StronglySorted N.lt (i_levels d) -> (forall s, In s sets -> found d s) ->
  forall p, In p (i_levels d) ->
    exists m, find (fun kv => fst kv =? p)%N (build_cache d sets) = Some (p, m) /\
      minimal_for d (fun s => In s sets /\ (p <= set_pref s)%N) m.
Proof.
  intros HS HF. unfold build_cache.
  assert (G : forall l hi acc cache,
    rev (i_levels d) = hi ++ l ->
    minimal_for d (fun s => In s sets /\ In (set_pref s) hi) acc ->
    (forall p, In p hi -> exists m, find (fun kv => fst kv =? p)%N cache = Some (p, m) /\ minimal_for d (fun s => In s sets /\ (p <= set_pref s)%N) m) ->
    forall p, In p (hi ++ l) -> exists m, find (fun kv => fst kv =? p)%N (snd (fold_left (cache_step sets) l (acc, cache))) = Some (p, m) /\
      minimal_for d (fun s => In s sets /\ (p <= set_pref s)%N) m).
  { induction l as [|q l IH]; intros hi acc cache E HM HC p Hp; cbn [fold_left].
    - cbn. rewrite app_nil_r in Hp. auto.
    - replace (hi ++ q :: l) with ((hi ++ [q]) ++ l) in * by (rewrite <- app_assoc; auto).
      set (at_level := sort_by_size (filter (fun s => (set_pref s =? q)%N) sets)).
      set (acc' := sort_by_size (fold_left insert_minimal at_level acc)).
      change (cache_step sets (acc, cache) q) with (acc', (q, acc') :: cache).
      assert (HM' : minimal_for d (fun s => In s sets /\ In (set_pref s) (hi ++ [q])) acc').
      { assert (K : minimal_for d (fun s => In s sets /\ In (set_pref s) (hi ++ [q])) (fold_left insert_minimal at_level acc)).
        { eapply minimal_ext; [|apply (insert_all_ok d at_level _ acc HM)].
          - intros s _. cbn. unfold at_level. rewrite sort_by_size_in, filter_In, in_app_iff, N.eqb_eq. cbn. intuition.
          - intros c Hc. unfold at_level in Hc. rewrite sort_by_size_in, filter_In in Hc. apply HF; tauto. }
        destruct K as [K1 K2]. split.
        - intros s Hs. unfold acc' in Hs. rewrite sort_by_size_in in Hs. auto.
        - intros s HFs Ha. destruct (K2 s HFs Ha) as (s' & ? & ?). exists s'. split; auto. unfold acc'. rewrite sort_by_size_in; auto. }
      (* membership in [hi ++ [q]] is "at least q" among levels *)
      assert (HG : forall x, In x (i_levels d) -> (In x (hi ++ [q]) <-> (q <= x)%N)).
      { intros x Hx. apply in_rev in Hx. rewrite E, <- app_assoc in Hx.
        pose proof (rev_strong _ HS) as HR. rewrite E, <- app_assoc in HR. cbn [app] in HR, Hx.
        apply strong_app in HR as (_ & HR & HX). inversion HR as [|? ? _ HFq]; subst. rewrite Forall_forall in HFq.
        rewrite in_app_iff. cbn [In]. apply in_app_or in Hx as [Hx|[<-|Hx]].
        - specialize (HX x q Hx (or_introl eq_refl)). intuition lia.
        - intuition lia.
        - specialize (HFq x Hx). split; [|lia]. intros [Hh|[<-|[]]]; [|lia]. specialize (HX x q Hh (or_introl eq_refl)). lia. }
      apply (IH (hi ++ [q]) acc' ((q, acc') :: cache)); auto.
      intros p' Hp'. cbn [find fst]. destruct (N.eqb_spec q p') as [<-|Hne].
      + exists acc'. split; auto. eapply minimal_ext; [|exact HM']. intros s HFs. cbn.
        pose proof HFs as (x & _ & Hlv & _). rewrite (HG _ Hlv). tauto.
      + apply HC. apply in_app_or in Hp' as [Hp'|[->|[]]]; auto. congruence. }
  intros p Hp. apply (G (rev (i_levels d)) [] [] []); auto.
  - split; [intros s []|]. intros s _ [_ []].
  - intros p' [].
  - cbn. apply -> in_rev. auto.
Qed.

(** ** The bound *)
Lemma min_size_none l : min_size l = None <-> l = [].
Proof. destruct l as [|x t]; cbn; [tauto|]. destruct (min_size t); split; discriminate. Qed.
Lemma min_size_some l m : min_size l = Some m -> In m l.
Proof.
  revert m; induction l as [|x t IH]; cbn; intros m H; [discriminate|].
  destruct (min_size t) as [y|]; injection H as <-; auto. destruct (Nat.min_spec x y) as [[_ ->]|[_ ->]]; auto.
Qed.
Lemma bound_le_qualifying d sets p m : In p (i_levels d) ->
  min_size (map set_size (filter (fun s => p <=? set_pref s)%N sets)) = Some m -> length (i_slots d) <= m ->
  (bound_of d sets <= p)%N.
Proof.
  intros Hp Hm Hle. unfold bound_of.
  set (f := fun (b level : N) => _).
  assert (Hdec : forall l b, (fold_left f l b <= b)%N).
  { induction l as [|a l IH]; intros b; cbn; [lia|]. etransitivity; [apply IH|]. unfold f.
    destruct (min_size (map set_size (filter (fun s => a <=? set_pref s)%N sets))) as [k|]; [|lia].
    destruct (length (i_slots d) <=? k); lia. }
  generalize (i_max_pref d). revert Hp. induction (i_levels d) as [|a l IH]; intros Hp b; [destruct Hp|]. destruct Hp as [->|Hp]; cbn [fold_left]; auto.
  etransitivity; [apply Hdec|]. unfold f. rewrite Hm, (proj2 (Nat.leb_le _ _) Hle). lia.
Qed.

Lemma analysis_inv pr d simplify a : wf_input d -> (total ch_min d <= u32_max)%N ->
  (N.of_nat (length (i_choosers d)) * N.of_nat (length (i_slots d) - 1) <= u32_max)%N ->
  new_analysis pr d true simplify = Ok a ->
  keeps d (fun _ => True) (an_sets a) /\ an_cache a = build_cache d (an_sets a) /\ an_bound a = bound_of d (an_sets a).
Proof.
  intros HW HT HC H. unfold new_analysis in H. destruct (analyze_ok pr d HW HT HC) as (sets & E & K). rewrite E in H. cbn [bind] in H.
  injection H as <-. cbn. split; auto. apply (sets_keep d simplify sets K).
Qed.
Lemma analysis_total pr d analyze simplify : wf_input d -> (total ch_min d <= u32_max)%N ->
  (N.of_nat (length (i_choosers d)) * N.of_nat (length (i_slots d) - 1) <= u32_max)%N ->
  exists a, new_analysis pr d analyze simplify = Ok a.
Proof.
  intros HW HT HC. unfold new_analysis. destruct analyze; eauto. destruct (analyze_ok pr d HW HT HC) as (sets & -> & _). cbn; eauto.
Qed.

(** ** C13 *)
Lemma solution_covers d S A p x q : one_choice_per_slot d S A -> prefs_within d A p -> (p <= q)%N ->
  wf_input d -> length S = length (i_choices d) ->
  x < length (i_choosers d) -> covers_slots d S (liked_list d q x).
Proof.
  intros [HL HO] HP Hpq HW HLS Hx s Hs.
  destruct (nth_error A x) as [row|] eqn:Er; [|apply nth_error_None in Er; lia].
  destruct (HO x row Er) as (_ & _ & Hone). destruct (Hone s Hs) as (c & [Hc Hsc] & _).
  exists c. split; auto. apply liked_list_ok.
  assert (Hcn : c < length (i_choices d)). { rewrite <- HLS. apply nth_error_Some. unfold scheduled_in in Hsc. congruence. }
  split; auto. destruct (nth_error (i_choosers d) x) as [ch|] eqn:Ech; [|apply nth_error_None in Ech; lia].
  destruct (nth_error (cs_prefs ch) c) as [y|] eqn:Ey.
  - exists y. split; [exists ch; auto|]. assert (y <= p)%N; [|lia]. apply (HP x c y); auto. { exists row; auto. } exists ch; auto.
  - apply nth_error_None in Ey. rewrite (wf_prefs _ HW ch (nth_error_In _ _ Ech)) in Ey. lia.
Qed.

Lemma covers_incl d S l m : incl l m -> covers_slots d S l -> covers_slots d S m.
Proof. intros HI HC s Hs. destruct (HC s Hs) as (c & Hc & Hs'). eauto. Qed.

Lemma critical_necessary pr d analyze simplify a S A p : wf_input d -> (total ch_min d <= u32_max)%N ->
  (N.of_nat (length (i_choosers d)) * N.of_nat (length (i_slots d) - 1) <= u32_max)%N -> StronglySorted N.lt (i_levels d) ->
  new_analysis pr d analyze simplify = Ok a -> length S = length (i_choices d) ->
  one_choice_per_slot d S A -> prefs_within d A p ->
  forall s, In s (for_preference a p) -> covers_slots d S (set_data s).
Proof.
  intros HW HT HC HS Ha HLS H1 HP s Hs. destruct analyze; [|injection Ha as <-; destruct Hs].
  destruct (analysis_inv _ _ _ _ HW HT HC Ha) as (K & EC & _). unfold for_preference in Hs. rewrite EC in Hs.
  destruct (find _ _) as [kv|] eqn:Ef; [|destruct Hs].
  assert (Hp : In p (i_levels d)).
  { apply find_some in Ef as [Hi Eq]. apply N.eqb_eq in Eq. subst p.
    assert (G : forall l acc, (forall kv, In kv (snd acc) -> In (fst kv) (i_levels d)) -> (forall x, In x l -> In x (i_levels d)) ->
       forall kv, In kv (snd (fold_left (cache_step (an_sets a)) l acc)) -> In (fst kv) (i_levels d)).
    { induction l as [|q l IH]; intros acc Hacc Hl kv0; cbn [fold_left]; auto. apply IH; [|intros; apply Hl; right; auto].
      unfold cache_step. destruct acc as [m c]; cbn. intros kv1 [<-|H]; auto. cbn. apply Hl; left; auto. }
    unfold build_cache in Hi. eapply (G (rev (i_levels d)) ([], [])); eauto.
    - intros ? [].
    - intros z Hz. apply in_rev; auto. }
  destruct (cache_ok d (an_sets a) HS (fun s Hs => proj1 (proj1 K s Hs)) p Hp) as (m & Em & M1 & _). rewrite Em in Ef. injection Ef as <-.
  cbn in Hs. destruct (M1 s Hs) as [(x & Hx & _ & Ed & _) [_ Hpq]]. rewrite Ed. eapply solution_covers; eauto.
Qed.

(** ** C14 *)
Lemma critical_exact pr d simplify a S p : wf_input d -> (total ch_min d <= u32_max)%N ->
  (N.of_nat (length (i_choosers d)) * N.of_nat (length (i_slots d) - 1) <= u32_max)%N -> StronglySorted N.lt (i_levels d) ->
  new_analysis pr d true simplify = Ok a -> In p (i_levels d) ->
  ((forall s, In s (for_preference a p) -> covers_slots d S (set_data s)) <->
   (forall q x data, (p <= q)%N -> critical_at d q x data -> covers_slots d S data)).
Proof.
  intros HW HT HC HS Ha Hp. destruct (analysis_inv _ _ _ _ HW HT HC Ha) as (K & EC & _).
  destruct (cache_ok d (an_sets a) HS (fun s Hs => proj1 (proj1 K s Hs)) p Hp) as (m & Em & M1 & M2).
  unfold for_preference. rewrite EC, Em. cbn [snd]. split.
  - intros HA q x data Hpq HCr.
    assert (HF : found d (mkSet q data)) by (apply found_critical; exists x; auto).
    destruct (proj2 K _ HF I) as (s1 & Hs1 & C1). pose proof (proj1 (proj1 K s1 Hs1)) as F1.
    apply covered_spec in C1 as [P1 I1]; [|eapply found_sset; eauto|eapply found_sset; eauto]. cbn in P1, I1.
    destruct (M2 s1 F1) as (s2 & Hs2 & I2). { split; auto; lia. }
    apply (covers_incl d S (set_data s2)); auto. eapply incl_tran; eauto.
  - intros HA s Hs. destruct (M1 s Hs) as [HF [_ Hpq]]. apply found_critical in HF as (x & HCr). apply (HA (set_pref s) x); auto.
Qed.

(** ** C15 *)
Lemma covers_size d S data : NoDup data -> covers_slots d S data -> length (i_slots d) <= length data.
Proof.
  intros HN HC.
  assert (G : forall n, (forall s, s < n -> exists c, In c data /\ scheduled_in S c s) -> exists l, NoDup l /\ incl l data /\ length l = n /\ forall c, In c l -> exists s, s < n /\ scheduled_in S c s).
  { induction n as [|n IH]; intros H.
    - exists []. repeat split; [constructor|intros ? []|intros ? []].
    - destruct IH as (l & N1 & I1 & L1 & R1). { intros; apply H; lia. }
      destruct (H n) as (c & Hc & Hs); [lia|]. exists (c :: l). repeat split.
      + constructor; auto. intros Hi. destruct (R1 c Hi) as (s & Hlt & Hs'). unfold scheduled_in in *. assert (s = n) by congruence. lia.
      + intros z [<-|Hz]; auto.
      + cbn; lia.
      + intros z [<-|Hz]; [exists n; split; auto; lia|]. destruct (R1 z Hz) as (s & ? & ?). exists s; split; auto; lia. }
  destruct (G _ HC) as (l & N1 & I1 & L1 & _). rewrite <- L1. apply NoDup_incl_length; auto.
Qed.

Lemma bound_true pr d simplify a S A p : wf_input d -> (total ch_min d <= u32_max)%N ->
  (N.of_nat (length (i_choosers d)) * N.of_nat (length (i_slots d) - 1) <= u32_max)%N ->
  new_analysis pr d true simplify = Ok a -> length S = length (i_choices d) ->
  one_choice_per_slot d S A -> prefs_within d A p ->
  In p (i_levels d) -> (p < an_bound a)%N ->
  (forall q x data, (p <= q)%N -> ~ critical_at d q x data).
Proof.
  intros HW HT HC Ha HLS H1 HP Hp Hlt q x data Hpq HCr. destruct (analysis_inv _ _ _ _ HW HT HC Ha) as (K & _ & EB).
  assert (HF : found d (mkSet q data)) by (apply found_critical; exists x; auto).
  destruct (proj2 K _ HF I) as (s1 & Hs1 & C1). pose proof (proj1 (proj1 K s1 Hs1)) as F1.
  apply covered_spec in C1 as [P1 I1]; [|eapply found_sset; eauto|eapply found_sset; eauto]. cbn in P1, I1.
  destruct (min_size (map set_size (filter (fun s => p <=? set_pref s)%N (an_sets a)))) as [m|] eqn:Em.
  - destruct (Nat.le_gt_cases (length (i_slots d)) m) as [Hle|Hgt].
    + pose proof (bound_le_qualifying d (an_sets a) p m Hp Em Hle). lia.
    + apply min_size_some in Em. apply in_map_iff in Em as (s & <- & Hs). apply filter_In in Hs as [Hs Hps]. apply N.leb_le in Hps.
      destruct (proj1 K s Hs) as [(x' & Hx' & _ & Ed & _) _].
      pose proof (solution_covers d S A p x' (set_pref s) H1 HP Hps HW HLS Hx') as HCov. rewrite <- Ed in HCov.
      apply covers_size in HCov; [unfold set_size in Hgt; lia|]. rewrite Ed. apply sorted_nodup, filter_strong, seq_strong.
  - apply min_size_none, map_eq_nil in Em.
    assert (Hin : In s1 (filter (fun s => (p <=? set_pref s)%N) (an_sets a))) by (apply filter_In; split; auto; apply N.leb_le; lia).
    rewrite Em in Hin. destruct Hin.
Qed.
