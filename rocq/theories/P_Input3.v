(** Proofs behind C19, C20, C48: processed bounds and preferences in terms of
    the declarations. *)
From Verif Require Import Base M_Data Spec M_Scoring P_Scoring P_Feasible M_Union M_Names M_Build P_Union Spec_Input P_Con P_Compile P_Resolve P_Limits P_Input P_Input2.
From Coq Require Import String Relations.
Notation length := Datatypes.length.
Notation get := Base.get.
Notation concat := List.concat.

(** Declared bounds of a processed choice. *)
Definition declared (r : reader) (c : nat) (p : proto) : Prop :=
  exists i k, is_part (r_choices r) i k c /\ nth_error (r_choices r) i = Some p.

Lemma declared_block r c p : declared r c p -> exists cd, nth_error (blocks 0 (r_choices r)) c = Some cd /\ ch_min cd = p_min p /\ ch_max cd = p_max p.
Proof.
  intros (i & k & (p' & Hp' & Hk & ->) & Hp). rewrite Hp in Hp'. injection Hp' as <-.
  exists (mk_part (0 + first_index (r_choices r) i) p k). split; [apply blocks_nth; auto|]. auto.
Qed.
Lemma block_declared r c cd : nth_error (blocks 0 (r_choices r)) c = Some cd -> exists p, declared r c p /\ ch_min cd = p_min p /\ ch_max cd = p_max p.
Proof.
  intros H. pose proof (nth_error_lt _ _ _ H) as HL. rewrite blocks_length in HL. destruct (part_exists _ _ HL) as (i & k & p & Hp & Hk & ->).
  exists p. split. { exists i, k. split; [exists p; auto|auto]. }
  rewrite (blocks_nth _ 0 i k p Hp Hk) in H. injection H as <-. auto.
Qed.

Lemma built_bounds pr r d c ch : build_input pr r = Ok d -> reader_u32 r -> nth_error (i_choices d) c = Some ch ->
  forall n, (n <= u32_max)%N ->
    ((ch_min ch <= n <= ch_max ch)%N <->
     forall c' p, one_audience d c c' -> declared r c' p -> (p_min p <= n <= p_max p)%N).
Proof.
  intros H HU Hc n Hn. destruct (build_inv _ _ _ H) as (raw & cs & css & B).
  destruct (b_bounds _ _ _ _ _ _ B c ch Hc) as (H1 & (c1 & cd1 & A1 & N1 & E1) & H2). split.
  - intros Hb c' p HA HD. destruct (declared_block _ _ _ HD) as (cd & Hcd & <- & <-). specialize (H1 c' cd HA Hcd). lia.
  - intros HA. split.
    + destruct (block_declared _ _ _ N1) as (p & HD & Em & _). specialize (HA c1 p A1 HD). lia.
    + destruct H2 as [-> |(c2 & cd2 & A2 & N2 & E2)]; [auto|].
      destruct (block_declared _ _ _ N2) as (p & HD & _ & Em). specialize (HA c2 p A2 HD). lia.
Qed.

Lemma in_pairs_assign pr r d raw cs css p c : built_from pr r d raw cs css ->
  In (p, c) (in_pairs cs) -> exists x, In (mkC ChooserIsInChoice p (TChoice c) x) (i_assign d).
Proof.
  intros B H. apply in_pairs_in in H as (x & H). exists x. apply (b_processed _ _ _ _ _ _ B) in H as [H|H]; auto.
  rewrite (bf_sched _ _ _ _ _ _ B) in H. apply filter_In in H as [_ H]. discriminate.
Qed.

Lemma mirror_nth (m : N) (l : list N) i w : nth_error l i = Some w -> nth_error (map (fun z => m - z)%N l) i = Some (m - w)%N.
Proof. intros H. rewrite nth_error_map, H. reflexivity. Qed.

(** Chooser [q]'s mirrored wish for the declared choice behind [c]. *)
Definition mirrored_wish (r : reader) (m : N) (q c : nat) (x : N) : Prop :=
  exists i k cd w, is_part (r_choices r) i k c /\ nth_error (r_choosers r) q = Some cd /\
    nth_error (cs_prefs cd) i = Some w /\ x = (m - w)%N.

Lemma built_prefs pr r d q c x : build_input pr r = Ok d -> reader_u32 r -> pref_of d q c x ->
  ((exists e, In (mkC ChooserIsInChoice q (TChoice c) e) (i_assign d)) -> x = 0%N) /\
  (~ (exists e, In (mkC ChooserIsInChoice q (TChoice c) e) (i_assign d)) ->
    (forall c' y, one_audience d c c' -> mirrored_wish r (i_max_pref d) q c' y -> (x <= y)%N) /\
    (exists c', one_audience d c c' /\ mirrored_wish r (i_max_pref d) q c' x)).
Proof.
  intros H HU (ch & Hch & Hx). destruct (build_inv _ _ _ H) as (raw & cs & css & B).
  destruct (b_prefs _ _ _ _ _ _ B HU) as (HL & HP).
  destruct (nth_error_ex (r_choosers r) q) as [cd Hcd]. { rewrite <- HL. eapply nth_error_lt; eauto. }
  destruct (HP q cd Hcd) as (ch' & Hch' & _ & Hlen & HV). rewrite Hch in Hch'. injection Hch' as <-.
  destruct (HV c x Hx) as [V1 V2].
  assert (HC : length (cs_prefs cd) = length (r_choices r)) by (apply (bf_complete _ _ _ _ _ _ B); eapply nth_error_In; eauto).
  assert (HC' : length (map (fun z => (i_max_pref d - z)%N) (cs_prefs cd)) = length (r_choices r)) by (rewrite map_length; auto).
  split.
  - intros (e & He). apply V1. apply in_pairs_in. exists e. apply (b_processed _ _ _ _ _ _ B). auto.
  - intros Hn. destruct V2 as [V2 (c' & HA & Hc')]. { intros Hi. apply Hn. eapply in_pairs_assign; eauto. }
    split.
    + intros c2 y HA2 (i & k & cd2 & w & (p & Hp & Hk & ->) & Hcd2 & Hw & ->). rewrite Hcd in Hcd2. injection Hcd2 as <-.
      apply (V2 _ _ HA2). rewrite (spread_nth _ _ i k p HC' Hp Hk). apply mirror_nth; auto.
    + exists c'. split; auto. pose proof (nth_error_lt _ _ _ Hc') as HL'. rewrite spread_length in HL' by auto.
      destruct (part_exists _ _ HL') as (i & k & p & Hp & Hk & ->).
      rewrite (spread_nth _ _ i k p HC' Hp Hk), nth_error_map in Hc'. destruct (nth_error (cs_prefs cd) i) as [w|] eqn:Ew; [|discriminate].
      injection Hc' as <-. exists i, k, cd, w. split; [exists p; auto|]. auto.
Qed.

Lemma built_prefs_plain pr r d q c x i k : build_input pr r = Ok d -> reader_u32 r ->
  is_part (r_choices r) i k c ->
  (forall a b e, In (mkC ChoicesHaveSameChoosers a (TChoice b) e) (i_assign d) ->
     ((exists k, is_part (r_choices r) i k a) <-> (exists k, is_part (r_choices r) i k b))) ->
  (forall e, ~ In (mkC ChooserIsInChoice q (TChoice c) e) (i_assign d)) ->
  pref_of d q c x ->
  exists cd w, nth_error (r_choosers r) q = Some cd /\ nth_error (cs_prefs cd) i = Some w /\
    x = (i_max_pref d - w)%N /\ (w <= i_max_pref d)%N /\ is_max_pref r (i_max_pref d).
Proof.
  intros H HU Hpart HS HN HP. destruct (built_prefs pr r d q c x H HU HP) as [_ HV].
  destruct HV as [_ (c' & HA & (i' & k' & cd & w & Hpart' & Hcd & Hw & ->))]. { intros (e & He). apply (HN e He). }
  assert (G : (exists k, is_part (r_choices r) i k c) <-> (exists k, is_part (r_choices r) i k c')).
  { clear -HS HA. unfold one_audience, linked in HA. induction HA as [a b Hab| | |]; try tauto.
    apply same_pairs_in in Hab as (e & He). eauto. }
  destruct (proj1 G (ex_intro (fun k => is_part (r_choices r) i k c) k Hpart)) as (k2 & Hk2). destruct (is_part_unique _ _ _ _ _ _ Hpart' Hk2) as [-> ->].
  destruct (build_inv _ _ _ H) as (raw & cs & css & B). pose proof (bf_max _ _ _ _ _ _ B) as EM.
  pose proof (max_pref_is r) as HM. rewrite <- EM in HM.
  exists cd, w. repeat split; auto; try apply HM. apply (proj1 HM cd). - eapply nth_error_In; eauto. - eapply nth_error_In; eauto.
Qed.
