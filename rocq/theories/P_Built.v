(** Accepted inputs meet the side conditions of the search theorems. *)
From Verif Require Import Base M_Data Spec M_Union M_Names M_Build P_Union Spec_Input P_Con P_Compile P_Resolve P_Limits
  P_Input P_Input2 Spec_Search.
From Coq Require Import Sorted.

Definition offset_small (k : constraint) : Prop := forall z, c_extra k = EOffset z -> (1 <= z <= i32_max)%Z.

Lemma expr_no_offset x e l k : build_expr x e = Ok l -> In k l -> forall z, c_extra k <> EOffset z.
Proof.
  assert (T : forall e kk ex, table e = Some (kk, ex) -> forall z, ex <> EOffset z).
  { intros [[lk ls ln lp] rel [rk rs rn rp]] kk ex HT z. unfold table in HT; cbn [e_left e_right e_rel a_kind a_sub] in HT.
    destruct lk; try discriminate HT; destruct ls; try discriminate HT; destruct rel; try discriminate HT;
      destruct rk; try discriminate HT; destruct rs; try discriminate HT; injection HT as <- <-; discriminate. }
  assert (A : forall e kk ex l, add_constraint x e kk ex = Ok l -> In k l -> c_extra k = ex).
  { clear. intros e kk ex l H Hk. unfold add_constraint in H. apply bind_ok in H as (rt & _ & H).
    destruct rt as [t|]; [|injection H as <-; destruct Hk]. apply bind_ok in H as (n & _ & H).
    destruct n as [n|]; injection H as <-; [|destruct Hk]. destruct Hk as [<-|[]]. reflexivity. }
  unfold build_expr. destruct (table e) as [[kk ex]|] eqn:E.
  - intros H Hk z. rewrite (A _ _ _ _ H Hk). eapply T; eauto.
  - destruct (table (swap_sides e)) as [[kk ex]|] eqn:E'; [|discriminate]. intros H Hk z. rewrite (A _ _ _ _ H Hk). eapply T; eauto.
Qed.

Lemma reduce_one_extra k l b k' : reduce_one k = Ok (l, b) -> In k' l -> c_extra k' = c_extra k.
Proof.
  destruct k as [kk a t x]. unfold reduce_one; cbn [c_kind c_left c_right c_extra].
  intros H Hk. destruct kk; try (injection H as <- <-; destruct Hk as [<-|[]]; reflexivity);
    destruct t; try discriminate H; cbn in H; injection H as <- <-; try (destruct Hk; fail); try (destruct Hk as [<-|[]]; reflexivity); destruct Hk.
Qed.

Lemma built_offsets pr r d k : build_input pr r = Ok d -> In k (i_sched d) -> offset_small k.
Proof.
  intros H Hk. destruct (build_inv _ _ _ H) as (raw & cs & css & B).
  rewrite (bf_sched _ _ _ _ _ _ B) in Hk. apply filter_In in Hk as [Hk _].
  pose proof (bf_size _ _ _ _ _ _ B) as HN. rewrite blocks_length in HN.
  destruct (raw_ok _ _ _ (bf_raw _ _ _ _ _ _ B)) as (built & parts & Hb & Hp & Er).
  assert (HR : forall k, In k raw -> offset_small k).
  { intros k0 H0 z E. rewrite Er in H0. apply in_app_or in H0 as [H0|H0].
    - apply in_concat in H0 as (l & Hl & H0). destruct (mmap_in _ _ _ _ Hb Hl) as (e & He & Ee).
      destruct (expr_no_offset _ _ _ _ Ee H0 _ E).
    - cbn [x_choices] in Hp. apply (compute_part_ok _ _ Hp) in H0 as (i & a & b & ca & cb & Hab & Ha & Hb' & E0).
      destruct E0 as [-> | ->]; [discriminate|]. cbn in E. injection E as <-.
      apply part_bound in Hb' as Hcb. destruct Ha as (p1 & A1 & A2 & A3). destruct Hb' as (p2 & B1 & B2 & B3). lia. }
  pose proof (bf_cs _ _ _ _ _ _ B) as HC. unfold reduce_and_optimize in HC. apply bind_ok in HC as (rs & Hr & HC).
  apply bind_ok in HC as (out & Ho & HC). injection HC as -> _.
  pose proof (expand_dependent_ok _ _ _ Ho) as HE.
  intros z Ez. apply (ex_only _ _ _ HE) in Hk as [Hk|[Hk|[Hk|Hk]]].
  - apply flat_map_fst_in in Hk as (l & b & Hl & Hk). destruct (mmap_in _ _ _ _ Hr Hl) as (k0 & Hk0 & E).
    rewrite (reduce_one_extra _ _ _ _ E Hk) in Ez. apply (HR k0 Hk0 z Ez).
  - destruct Hk as (a & b0 & Hne & Ha & Hb0 & _ & ->). discriminate.
  - destruct Hk as (p & l1 & a & l2 & b0 & l3 & Eg & ->). discriminate.
  - destruct Hk as (kk & p & o & c & x & Hkk & Hin & Ho' & Hc & _ & ->). discriminate.
Qed.
Lemma mentions_concerns c k : shaped k -> mentions c k = true -> concerns c k.
Proof.
  intros _. unfold mentions, concerns. destruct (c_kind k), (c_right k); try discriminate; auto; rewrite ?Bool.orb_true_iff, ?Nat.eqb_eq; auto;
    intros [->| ->]; auto.
Qed.
Lemma built_searchable pr r d : build_input pr r = Ok d -> totals_fit d ->
  (2 * Z.of_nat (length (i_slots d)) <= i32_max)%Z ->
  (forall k n, In k (i_sched d) -> c_right k = TLimit n -> (Z.of_N n <= i32_max)%Z) -> searchable d.
Proof.
  intros H HT HS HL. destruct (build_inv _ _ _ H) as (raw & cs & css & B). destruct (built_maps _ _ _ H) as (M1 & M2 & _).
  constructor; auto.
  - rewrite (b_choices_length _ _ _ _ _ _ B). apply (bf_size _ _ _ _ _ _ B).
  - intros k z Hk Ez. pose proof (built_offsets _ _ _ _ H Hk z Ez). unfold i32_max in *. lia.
  - split; auto. intros c l k Hl Hk. apply (M2 c l Hl) in Hk as [Hk Hm]. split; auto.
    apply mentions_concerns; auto. apply (b_cs_shaped _ _ _ _ _ _ B). apply (b_processed _ _ _ _ _ _ B); auto.
Qed.
Lemma built_map_complete pr r d : build_input pr r = Ok d -> wf_input d -> map_complete d.
Proof.
  intros H HW c l k Hl Hk Hcon. destruct (built_maps _ _ _ H) as (_ & M2 & _). apply (M2 c l Hl). split; auto.
  pose proof (wf_sched _ HW k Hk) as HK. unfold sched_shape in HK. unfold concerns in Hcon. unfold mentions.
  destruct (c_kind k), (c_right k); try contradiction; auto; rewrite ?Bool.orb_true_iff, ?Nat.eqb_eq; auto;
    (destruct Hcon as [->|E]; [auto|injection E as ->; auto]).
Qed.
Lemma built_levels pr r d : build_input pr r = Ok d -> levels_ok d.
Proof.
  intros H. destruct (build_inv _ _ _ H) as (raw & cs & css & B).
  pose proof (levels_sorted r (i_max_pref d)) as HS. pose proof (levels_in r (i_max_pref d)) as HI.
  constructor; rewrite (bf_levels _ _ _ _ _ _ B); auto.
  - apply HI; auto.
  - apply HI; auto.
  - intros l Hl. apply HI in Hl as [(c & Hc & Hx)|[-> | ->]]; try lia. rewrite (bf_max _ _ _ _ _ _ B).
    apply (proj1 (max_pref_is r) c); auto.
Qed.
