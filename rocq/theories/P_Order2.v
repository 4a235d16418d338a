(** Proofs behind C79: listing the choices in another order. *)
From Verif Require Import Base M_Data Spec M_Scoring P_Scoring P_Feasible P_Score P_Minor M_Union M_Names M_Build P_Union Spec_Input P_Con P_Compile P_Resolve P_Limits P_Input P_Input2 P_Input3 Spec_Meta P_Meta Spec_Order P_Order Spec_Order2.
From Coq Require Import String Relations Permutation FinFun Sorted.
Notation length := Datatypes.length.
Notation get := Base.get.
Notation concat := List.concat.

(** ** The renumbering *)
Fixpoint locate (ps : list proto) (c : nat) : option (nat * nat) :=
  match ps with
  | [] => None
  | p :: t => if c <? copies p then Some (0, c)
              else match locate t (c - copies p) with Some (i, k) => Some (Datatypes.S i, k) | None => None end
  end.
Lemma locate_part ps : forall c i k, locate ps c = Some (i, k) <-> is_part ps i k c.
Proof.
  induction ps as [|p t IH]; intros c i k; cbn [locate].
  - split; [discriminate|]. intros (q & Hq & _). destruct i; discriminate.
  - destruct (Nat.ltb_spec c (copies p)) as [K|K].
    + split.
      * intros H. injection H as <- <-. exists p. cbn. auto.
      * intros HP. assert (is_part (p :: t) 0 c c) as HP0 by (exists p; cbn; auto).
        destruct (is_part_unique _ _ _ _ _ _ HP HP0) as [-> ->]. auto.
    + destruct (locate t (c - copies p)) as [[i0 k0]|] eqn:E.
      * pose proof (proj1 (IH _ _ _) E) as (q & Hq & Hk & Ec).
        assert (HP0 : is_part (p :: t) (Datatypes.S i0) k0 c). { exists q. cbn [nth_error first_index]. repeat split; auto; lia. }
        split; [intros H; injection H as <- <-; auto|]. intros HP. destruct (is_part_unique _ _ _ _ _ _ HP HP0) as [-> ->]. auto.
      * split; [discriminate|]. intros (q & Hq & Hk & Ec). exfalso. destruct i as [|i]; cbn [nth_error first_index] in *.
        -- injection Hq as ->. lia.
        -- assert (HP : is_part t i k (c - copies p)) by (exists q; repeat split; auto; lia). apply IH in HP. congruence.
Qed.
Definition regroup (f : nat -> nat) (ps ps' : list proto) (c : nat) : nat :=
  match locate ps c with Some (i, k) => first_index ps' (f i) + k | None => c end.

Lemma total_sum ps : first_index ps (length ps) = list_sum (map copies ps).
Proof. induction ps as [|p t IH]; cbn [first_index length map list_sum fold_right]; auto. Qed.
Lemma list_sum_perm l l' : Permutation l l' -> list_sum l = list_sum l'.
Proof. unfold list_sum. induction 1; cbn [fold_right]; lia. Qed.

Section Moved.
Variables (f : nat -> nat) (ps ps' : list proto).
Hypothesis PF : placed f ps ps'.
Let g := regroup f ps ps'.
Let n := length (blocks 0 ps).

Lemma mv_total : length (blocks 0 ps') = n.
Proof.
  unfold n. rewrite !blocks_length, !total_sum. apply list_sum_perm, Permutation_sym, Permutation_map. eapply placed_perm; eauto.
Qed.
Lemma mv_part i k c : is_part ps i k c -> is_part ps' (f i) k (g c).
Proof.
  intros HP. unfold g, regroup. rewrite (proj2 (locate_part _ _ _ _) HP). destruct HP as (p & Hp & Hk & Ec).
  exists p. destruct PF as (_ & _ & HN). rewrite HN. auto.
Qed.
Lemma mv_where c : (exists i k, is_part ps i k c) \/ (n <= c /\ g c = c).
Proof.
  destruct (Nat.lt_ge_cases c n) as [K|K].
  - left. apply part_exists. unfold n in K. rewrite blocks_length in K. auto.
  - right. split; auto. unfold g, regroup. destruct (locate ps c) as [[i k]|] eqn:E; auto.
    apply locate_part, part_bound in E. unfold n in K. rewrite blocks_length in K. lia.
Qed.
Lemma mv_lt c : g c < n <-> c < n.
Proof.
  destruct (mv_where c) as [(i & k & HP)|[K E]].
  - pose proof (part_bound _ _ _ _ HP) as B1. pose proof (part_bound _ _ _ _ (mv_part _ _ _ HP)) as B2.
    rewrite <- mv_total at 1. unfold n. rewrite !blocks_length. lia.
  - rewrite E. tauto.
Qed.
Lemma mv_inj c c' : g c = g c' -> c = c'.
Proof.
  intros E. destruct (mv_where c) as [(i & k & HP)|[K E1]], (mv_where c') as [(i' & k' & HP')|[K' E1']].
  - pose proof (mv_part _ _ _ HP) as Q. pose proof (mv_part _ _ _ HP') as Q'. rewrite E in Q.
    destruct (is_part_unique _ _ _ _ _ _ Q Q') as [Ei ->]. destruct PF as (_ & HI & _). apply HI in Ei. subst i'.
    destruct HP as (p & Hp & _ & ->), HP' as (p' & Hp' & _ & ->). auto.
  - exfalso. pose proof (mv_lt c) as H1. pose proof (mv_lt c') as H2. apply part_bound in HP. unfold n in *. rewrite blocks_length in *. lia.
  - exfalso. pose proof (mv_lt c) as H1. pose proof (mv_lt c') as H2. apply part_bound in HP'. unfold n in *. rewrite blocks_length in *. lia.
  - congruence.
Qed.
Lemma mv_onto c' : c' < n -> exists c, c < n /\ g c = c'.
Proof.
  assert (BI : bInjective n g) by (intros x y _ _; apply mv_inj). apply bInjective_bSurjective in BI; [|intros i Hi; apply mv_lt; auto].
  intros H. destruct (BI c' H) as (c & Hc & E). eauto.
Qed.

(** Any list indexed by processed choices whose entries only depend on the
    declared choice and the part number. *)
Lemma mv_placed {X} (l l' : list X) : length l = n -> length l' = n ->
  (forall i k c, is_part ps i k c -> nth_error l' (g c) = nth_error l c) -> placed g l l'.
Proof.
  intros HL HL' H. split; [congruence|]. split; [exact mv_inj|]. intros c. destruct (mv_where c) as [(i & k & HP)|[K E]]; [eauto|].
  rewrite E, !(proj2 (nth_error_None _ _)); auto; lia.
Qed.
Lemma mv_block i k c : is_part ps i k c -> exists p, nth_error ps i = Some p /\ k < copies p /\ c = first_index ps i + k /\ g c = first_index ps' (f i) + k /\
  nth_error (blocks 0 ps) c = Some (mk_part (first_index ps i) p k) /\ nth_error (blocks 0 ps') (g c) = Some (mk_part (first_index ps' (f i)) p k).
Proof.
  intros HP. pose proof (mv_part _ _ _ HP) as (q & Hq & Hk' & E'). destruct HP as (p & Hp & Hk & E). exists p.
  assert (q = p). { destruct PF as (_ & _ & HN). rewrite HN in Hq. congruence. } subst q.
  repeat split; auto.
  - rewrite E. apply (blocks_nth ps 0 i k p); auto.
  - rewrite E'. apply (blocks_nth ps' 0 (f i) k p); auto.
Qed.
Lemma mv_names : placed g (map ch_name (blocks 0 ps)) (map ch_name (blocks 0 ps')).
Proof.
  apply mv_placed; rewrite ?map_length; auto using mv_total. intros i k c HP.
  destruct (mv_block _ _ _ HP) as (p & _ & _ & _ & _ & E1 & E2). rewrite !nth_error_map, E1, E2. auto.
Qed.
Lemma mv_cont c : nth_error (map ch_cont (blocks 0 ps')) (g c) = option_map (option_map g) (nth_error (map ch_cont (blocks 0 ps)) c).
Proof.
  destruct (mv_where c) as [(i & k & HP)|[K E]].
  - destruct (mv_block _ _ _ HP) as (p & Hp & Hk & Ec & Eg & E1 & E2). rewrite !nth_error_map, E1, E2. cbn [option_map mk_part ch_cont].
    f_equal. destruct (Nat.ltb_spec (k + 1) (copies p)) as [Q|Q]; cbn [option_map]; auto. f_equal.
    assert (HQ : is_part ps i (k + 1) (first_index ps i + k + 1)) by (exists p; repeat split; auto; lia).
    destruct (mv_part _ _ _ HQ) as (q & _ & _ & E). rewrite E. lia.
  - rewrite E, !(proj2 (nth_error_None _ _)); auto; rewrite map_length; [lia|]. rewrite mv_total. auto.
Qed.
Lemma mv_follow q k : forall c, follow_parts q (blocks 0 ps') (g c) k = omap g (follow_parts q (blocks 0 ps) c k).
Proof.
  induction k as [|k IH]; intros c; cbn [follow_parts]; auto.
  pose proof (mv_cont c) as E. rewrite !nth_error_map in E. unfold get.
  destruct (nth_error (blocks 0 ps) c) as [cd|], (nth_error (blocks 0 ps') (g c)) as [cd'|]; cbn [option_map] in E; try discriminate; cbn [bind omap]; auto.
  injection E as E. rewrite E. destruct (ch_cont cd) as [m|]; cbn [option_map]; auto.
Qed.
Lemma mv_spread {X} (row row' : list X) : placed f row row' -> length row = length ps -> placed g (spread ps row) (spread ps' row').
Proof.
  intros (HL & _ & HN) HR. pose proof (proj1 PF) as LP.
  apply mv_placed.
  - rewrite spread_length by auto. unfold n. rewrite blocks_length. auto.
  - rewrite spread_length by congruence. rewrite <- blocks_length with (off := 0). apply mv_total.
  - intros i k c HP. destruct (mv_block _ _ _ HP) as (p & Hp & Hk & -> & -> & _). 
    rewrite (spread_nth ps row i k p); auto. rewrite (spread_nth ps' row' (f i) k p); auto; try congruence.
    destruct PF as (_ & _ & HQ). rewrite HQ. auto.
Qed.

(** ** Constraints *)
Definition gl (k : kind) (m : nat) : nat :=
  match k with
  | SlotHasLimitedSize | SlotContainsChoice | SlotNotContainsChoice | SlotsHaveSameChoices
  | ChooserIsInChoice | ChooserIsNotInChoice | ChoosersHaveSameChoices => m
  | _ => g m
  end.
Definition gr (t : target) : target := match t with TChoice c => TChoice (g c) | t => t end.
Definition recg (k : constraint) : constraint := mkC (c_kind k) (gl (c_kind k) (c_left k)) (gr (c_right k)) (c_extra k).

Lemma recg_inj k k' : recg k = recg k' -> k = k'.
Proof.
  destruct k as [kk l t x], k' as [kk' l' t' x']. unfold recg; cbn [c_kind c_left c_right c_extra]. intros E. injection E as E1 E2 E3 E4.
  subst kk' x'. f_equal.
  - destruct kk; cbn in E2; auto using mv_inj.
  - destruct t, t'; cbn in E3; try discriminate; auto; injection E3 as E3; f_equal; auto using mv_inj.
Qed.

Definition gshift (k : acc_kind) (m : N) : N := match k with AChoice => N.of_nat (g (N.to_nat m)) | _ => m end.

Section Ctx.
Variables x x' : ctx.
Hypothesis XS : x_slots x' = x_slots x.
Hypothesis XC : map cs_name (x_choosers x') = map cs_name (x_choosers x).
Hypothesis XH : x_choices x = blocks 0 ps.
Hypothesis XH' : x_choices x' = blocks 0 ps'.

Lemma resolve_moved a : resolve_accessor x' a = omap (option_map (gshift (a_kind a))) (resolve_accessor x a).
Proof.
  unfold resolve_accessor. destruct (a_kind a) eqn:K; auto.
  - rewrite XC. destruct (find_name _ _) as [[i|]| |]; cbn; auto.
  - rewrite XH, XH', (find_name_placed _ _ _ _ mv_names). destruct (find_name _ _) as [[i|]| |]; cbn [omap option_map bind]; auto.
    rewrite mv_follow. destruct (follow_parts _ _ _ _); cbn; rewrite ?Nat2N.id; auto.
  - rewrite XS. destruct (find_name _ _) as [[i|]| |]; cbn; auto.
  - destruct (parse_usize _); cbn; auto.
Qed.
Lemma add_moved e k ex : table e = Some (k, ex) -> add_constraint x' e k ex = omap (map recg) (add_constraint x e k ex).
Proof.
  intros HT. pose proof (table_left _ _ _ HT) as HK. unfold add_constraint. rewrite !resolve_moved.
  assert (HL : forall t : target, 
     (let* l := omap (option_map (gshift (a_kind (e_left e)))) (resolve_accessor x (e_left e)) in
      match l with None => Ok [] | Some m => Ok [mkC k (N.to_nat m) (gr t) ex] end) =
     omap (map recg) (let* l := resolve_accessor x (e_left e) in match l with None => Ok [] | Some m => Ok [mkC k (N.to_nat m) t ex] end)).
  { intros t. destruct (resolve_accessor x (e_left e)) as [[m|]| |]; cbn [omap option_map bind map]; auto.
    unfold recg; cbn [c_kind c_left c_right c_extra]. rewrite HK. f_equal. f_equal. f_equal.
    destruct k; cbn [left_kind gshift gl]; rewrite ?Nat2N.id; auto. }
  destruct (a_kind (e_right e)) eqn:KR; cbn [bind].
  - apply (HL TNone).
  - destruct (resolve_accessor x (e_right e)) as [[m|]| |]; cbn [omap option_map bind gshift]; auto. apply (HL (TChooser (N.to_nat m))).
  - destruct (resolve_accessor x (e_right e)) as [[m|]| |]; cbn [omap option_map bind gshift]; auto. rewrite Nat2N.id. apply (HL (TChoice (N.to_nat m))).
  - destruct (resolve_accessor x (e_right e)) as [[m|]| |]; cbn [omap option_map bind gshift]; auto. apply (HL (TSlot (N.to_nat m))).
  - apply (HL TNone).
  - destruct (resolve_accessor x (e_right e)) as [[m|]| |]; cbn [omap option_map bind gshift expect]; auto.
    destruct (m <=? u32_max)%N; cbn [bind omap]; auto. apply (HL (TLimit m)).
Qed.
Lemma build_expr_moved e : build_expr x' e = omap (map recg) (build_expr x e).
Proof.
  unfold build_expr. destruct (table e) as [[k ex]|] eqn:E; [apply add_moved; auto|].
  destruct (table (swap_sides e)) as [[k ex]|] eqn:E'; [apply add_moved; auto|]. auto.
Qed.
Lemma exprs_moved es : forall built, mmap (build_expr x) es = Ok built -> mmap (build_expr x') es = Ok (map (map recg) built).
Proof.
  induction es as [|e t IH]; intros built Hb; cbn [mmap] in *.
  - injection Hb as <-. auto.
  - apply bind_ok in Hb as (y & Hy & Hb). apply bind_ok in Hb as (ys & Hys & Hb). injection Hb as <-.
    rewrite build_expr_moved, Hy. cbn [omap bind]. rewrite (IH _ Hys). auto.
Qed.
End Ctx.

Lemma parts_moved l l' k' : compute_part_constraints (blocks 0 ps) = Ok l -> compute_part_constraints (blocks 0 ps') = Ok l' ->
  In k' l' <-> exists k, In k l /\ k' = recg k.
Proof.
  intros H H'. rewrite (compute_part_ok _ _ H' k'). setoid_rewrite (compute_part_ok _ _ H).
  pose proof PF as (LP & HI & HN). split.
  - intros (i' & a & b & ca' & cb' & Hab & Ha & Hb & E).
    destruct (placed_onto f ps ps' i' PF) as (i & Hi & <-). { destruct Ha as (p & Hp & _). eapply nth_error_lt; eauto. }
    assert (G : forall k c', is_part ps' (f i) k c' -> exists c, is_part ps i k c /\ c' = g c).
    { intros k c' (p & Hp & Hk & ->). rewrite HN in Hp. assert (HQ : is_part ps i k (first_index ps i + k)) by (exists p; auto).
      exists (first_index ps i + k). split; auto. destruct (mv_part _ _ _ HQ) as (q & _ & _ & ->). auto. }
    destruct (G _ _ Ha) as (ca & Pa & ->). destruct (G _ _ Hb) as (cb & Pb & ->).
    destruct E as [-> | ->]; eexists; (split; [exists i, a, b, ca, cb; split; [exact Hab|]; split; [exact Pa|]; split; [exact Pb|]|]).
    + left; reflexivity. + reflexivity. + right; reflexivity. + reflexivity.
  - intros (k & (i & a & b & ca & cb & Hab & Ha & Hb & E) & ->). exists (f i), a, b, (g ca), (g cb).
    split; auto. split; [apply mv_part; auto|]. split; [apply mv_part; auto|].
    destruct E as [-> | ->]; [left|right]; reflexivity.
Qed.

(** ** Preprocessing *)
Lemma reduce_one_moved k l b : shaped k -> reduce_one k = Ok (l, b) -> reduce_one (recg k) = Ok (map recg l, b).
Proof.
  intros HS. destruct k as [kk l0 t y]. unfold reduce_one, recg, shaped in *; cbn [c_kind c_left c_right c_extra] in *.
  destruct kk; cbn [gl]; try contradiction; destruct t; try contradiction; cbn [gr]; intros H;
    try (injection H as <- <-; reflexivity).
Qed.
Lemma reduce_moved raw : forall rs, (forall k, In k raw -> shaped k) -> mmap reduce_one raw = Ok rs ->
  mmap reduce_one (map recg raw) = Ok (map (fun q => (map recg (fst q), snd q)) rs).
Proof.
  induction raw as [|k t IH]; intros rs HS Hrs; cbn [map mmap] in *; [injection Hrs as <-; auto|].
  apply bind_ok in Hrs as ([l b] & Hy & Hrs). apply bind_ok in Hrs as (ys & Hys & Hrs). injection Hrs as <-.
  rewrite (reduce_one_moved _ _ _ (HS k (or_introl eq_refl)) Hy). cbn [bind].
  rewrite (IH ys); auto. intros k0 Hk0. apply HS. right; auto.
Qed.
(** Part constraints pass through unchanged. *)
Lemma reduce_parts qs l : compute_part_constraints (blocks 0 qs) = Ok l -> mmap reduce_one l = Ok (map (fun k => ([k], false)) l) /\ in_pairs l = [].
Proof.
  intros H. assert (G : forall k, In k l -> reduce_one k = Ok ([k], false) /\ c_kind k <> ChooserIsInChoice).
  { intros k Hk. apply (compute_part_ok _ _ H) in Hk as (i & a & b & ca & cb & _ & _ & _ & [-> | ->]); split; try reflexivity; discriminate. }
  clear H. induction l as [|k t IH]; cbn [mmap map in_pairs flat_map]; auto.
  destruct IH as [E1 E2]; [intros k0 Hk0; apply G; right; auto|]. destruct (G k (or_introl eq_refl)) as [E3 E4].
  rewrite E3. cbn [bind]. rewrite E1. split; auto. unfold in_pairs in E2. rewrite E2.
  destruct (c_kind k); auto. contradiction.
Qed.
Lemma in_pairs_moved cs : in_pairs (map recg cs) = map (fun q => (fst q, g (snd q))) (in_pairs cs).
Proof.
  unfold in_pairs. induction cs as [|k t IH]; cbn [map flat_map]; auto. rewrite map_app, IH. f_equal.
  destruct k as [kk l t0 y]; cbn. destruct kk; try reflexivity; destruct t0; reflexivity.
Qed.
Lemma in_pairs_app a b : in_pairs (a ++ b) = in_pairs a ++ in_pairs b.
Proof. unfold in_pairs. apply flat_map_app. Qed.

(** ** Expansion *)
Definition apart (a b : nat) : constraint := mkC ChoicesAreNotInSameSlot a (TChoice b) ENone.
Lemma mmap_app_ok {X Y} (h : X -> outcome Y) l1 l2 r1 r2 : mmap h l1 = Ok r1 -> mmap h l2 = Ok r2 -> mmap h (l1 ++ l2) = Ok (r1 ++ r2).
Proof.
  revert r1. induction l1 as [|x t IH]; intros r1 H1 H2; cbn [mmap app] in *; [injection H1 as <-; auto|].
  apply bind_ok in H1 as (y & Hy & H1). apply bind_ok in H1 as (ys & Hys & H1). injection H1 as <-.
  rewrite Hy. cbn [bind]. rewrite (IH _ Hys H2). auto.
Qed.

Lemma expand_iff cs m out : expand_dependent cs m = Ok out -> forall k, In k out <->
  (exists a b, a < b /\ b < m /\ linked (same_pairs cs) a b /\ k = apart a b) \/
  (exists p l1 a l2 b l3, map snd (filter (fun q => fst q =? p) (in_pairs cs)) = l1 ++ a :: l2 ++ b :: l3 /\ k = apart a b) \/
  (exists kk p o c y, (kk = ChooserIsInChoice \/ kk = ChooserIsNotInChoice) /\ In (mkC kk p (TChoice o) y) cs /\ o < m /\ c < m /\ c <> o /\
       linked (same_pairs cs) o c /\ k = mkC kk p (TChoice c) ENone) \/
  In k cs.
Proof.
  intros H k. pose proof (expand_dependent_ok _ _ _ H) as E. revert H. unfold expand_dependent. intros H.
  apply bind_ok in H as (dep & Hd & H). apply bind_ok in H as (mand & Hm & H). apply bind_ok in H as (ex & Hx & H). injection H as <-.
  destruct (get_dependent_ok _ _ _ Hd) as [HG _].
  rewrite con_dedup_in, con_sort_in, !in_app_iff. split.
  - intros [Hk|[Hk|[Hk|Hk]]]; auto.
    + apply in_flat_map in Hk as (s & Hs & Hk). apply pairs_not_same_in in Hk as (l1 & a & l2 & b & l3 & Eg & ->).
      left. exists a, b. pose proof (ig_sorted _ _ _ HG s Hs) as HS. rewrite Eg in HS. pose proof (sorted_split_lt _ _ _ _ _ HS).
      assert (Ha : In a s) by (rewrite Eg; apply in_or_app; right; left; auto).
      assert (Hb : In b s) by (rewrite Eg; apply in_or_app; right; right; apply in_or_app; right; left; auto).
      split; auto. split; [eapply (ig_range _ _ _ HG); eauto|]. split; auto. apply (ig_class _ _ _ HG s a b Hs Ha) in Hb. tauto.
    + apply in_flat_map in Hk as (s & Hs & Hk). apply pairs_not_same_in in Hk as (l1 & a & l2 & b & l3 & Eg & ->).
      destruct (mandatory_ok _ _ Hm s Hs) as (p & Ep). right; left. exists p, l1, a, l2, b, l3. split; [congruence|auto].
    + apply in_concat in Hk as (l & Hl & Hk). destruct (mmap_in _ _ _ _ Hx Hl) as (k0 & Hk0 & E0).
      pose proof (proj1 (expand_one_ok _ _ _ E0 k) Hk) as (o & y & Er & Hkk & Hin & Hne & ->).
      right; right; left. destruct k0 as [kk p t xx]; cbn in *. subst t. exists kk, p, o, y, xx.
      destruct (Nat.lt_ge_cases o m) as [Ho|Ho].
      * destruct (group_of_spec _ _ _ o HG Ho) as [Hg Hog]. apply (ig_class _ _ _ HG _ o y Hg Hog) in Hin. repeat split; tauto.
      * rewrite (group_of_none _ _ _ _ HG Ho) in Hin. destruct Hin.
  - intros [(a & b & Hab & Hb & HL & ->)|[(p & l1 & a & l2 & b & l3 & EP & ->)|[(kk & p & o & c & y & Hkk & Hin & Ho & Hc & Hne & HL & ->)|Hk]]].
    + left. apply in_flat_map. destruct (ig_cover _ _ _ HG a) as (s & Hs & Ha); [lia|]. exists s. split; auto.
      assert (Hbg : In b s) by (apply (ig_class _ _ _ HG s a b Hs Ha); auto).
      destruct (sorted_two s a b (ig_sorted _ _ _ HG s Hs) Ha Hbg Hab) as (l1 & l2 & l3 & ->). apply pairs_not_same_intro.
    + right; left. apply in_flat_map. exists (l1 ++ a :: l2 ++ b :: l3). split; [|apply pairs_not_same_intro].
      rewrite <- EP. apply (mandatory_all _ _ Hm). rewrite EP. destruct l1; discriminate.
    + right; right; left. destruct (mmap_in_fwd _ _ _ _ Hx Hin) as (w & Hw & Ew). apply in_concat. exists w. split; auto.
      apply (expand_one_ok _ _ _ Ew). exists o, c. cbn. repeat split; auto.
      destruct (group_of_spec _ _ _ o HG Ho) as [Hg Hog]. apply (ig_class _ _ _ HG _ o c Hg Hog). auto.
    + auto.
Qed.

Lemma filter_perm {X} (h : X -> bool) l l' : Permutation l l' -> Permutation (filter h l) (filter h l').
Proof.
  induction 1 as [|x l l' H IH|x y l|l l' l'' _ IH1 _ IH2]; cbn [filter]; auto.
  - destruct (h x); auto.
  - destruct (h x), (h y); auto. apply perm_swap.
  - eapply Permutation_trans; eauto.
Qed.
Lemma Permutation_refl' {X} (l l' : list X) : l = l' -> Permutation l l'.
Proof. intros ->. apply Permutation_refl. Qed.
Lemma two_in_perm {X} (l1 : list X) a l2 b l3 l' : Permutation (l1 ++ a :: l2 ++ b :: l3) l' ->
  exists m1 m2 m3, l' = m1 ++ a :: m2 ++ b :: m3 \/ l' = m1 ++ b :: m2 ++ a :: m3.
Proof.
  intros HP. assert (Ha : In a l') by (eapply Permutation_in; [exact HP|]; apply in_or_app; right; left; auto).
  apply in_split in Ha as (u & v & ->). apply Permutation_sym, Permutation_app_inv in HP.
  assert (Hb : In b (u ++ v)). { eapply Permutation_in; [apply Permutation_sym; exact HP|]. apply in_or_app. right. apply in_or_app. right; left; auto. }
  apply in_app_or in Hb as [Hb|Hb]; apply in_split in Hb as (x & y & ->).
  - exists x, y, v. right. rewrite <- app_assoc. auto.
  - exists u, x, y. left. auto.
Qed.
Lemma mmap_perm {X Y} (h : X -> outcome Y) l l' : Permutation l l' -> forall r, mmap h l = Ok r -> exists r', mmap h l' = Ok r' /\ Permutation r r'.
Proof.
  induction 1 as [|x l l' H IH|x y l|l l' l'' _ IH1 _ IH2]; intros r Hr.
  - exists r. cbn in *. injection Hr as <-. auto.
  - cbn [mmap] in *. apply bind_ok in Hr as (z & Hz & Hr). apply bind_ok in Hr as (zs & Hzs & Hr). injection Hr as <-.
    destruct (IH _ Hzs) as (zs' & -> & HP). rewrite Hz. exists (z :: zs'). cbn [bind]. auto.
  - cbn [mmap] in *. apply bind_ok in Hr as (z & Hz & Hr). apply bind_ok in Hr as (zs & Hzs & Hr). injection Hr as <-.
    apply bind_ok in Hzs as (w & Hw & Hzs). apply bind_ok in Hzs as (ws & Hws & Hzs). injection Hzs as <-.
    rewrite Hz, Hw, Hws. exists (w :: z :: ws). cbn [bind]. split; auto. apply perm_swap.
  - destruct (IH1 _ Hr) as (r1 & H1 & P1). destruct (IH2 _ H1) as (r2 & H2 & P2). exists r2. split; auto. eapply Permutation_trans; eauto.
Qed.

Lemma linked_moved js js' : (forall a' b', In (a', b') js' <-> exists a b, In (a, b) js /\ a' = g a /\ b' = g b) ->
  forall a b, linked js' (g a) (g b) <-> linked js a b.
Proof.
  intros HJ. assert (G : forall u v, linked js' u v -> u = v \/ exists a b, u = g a /\ v = g b /\ linked js a b).
  { intros u v H. induction H as [u v H|u|u v _ IH|u v w _ IH1 _ IH2].
    - apply HJ in H as (a & b & H & -> & ->). right. exists a, b. split; auto. split; auto. apply rst_step; auto.
    - auto.
    - destruct IH as [->|(a & b & -> & -> & IH)]; auto. right. exists b, a. split; auto. split; auto. apply rst_sym; auto.
    - destruct IH1 as [->|(a & b & -> & -> & IH1)]; auto. destruct IH2 as [<-|(a' & b' & E & -> & IH2)].
      + right. exists a, b. auto.
      + apply mv_inj in E. subst a'. right. exists a, b'. split; auto. split; auto. eapply rst_trans; eauto. }
  intros a b. split; intros H.
  - apply G in H as [E|(a0 & b0 & E1 & E2 & H)].
    + apply mv_inj in E. subst. apply rst_refl.
    + apply mv_inj in E1, E2. subst. auto.
  - induction H as [u v H|u|u v _ IH|u v w _ IH1 _ IH2].
    + apply rst_step. apply HJ. eauto.
    + apply rst_refl. + apply rst_sym; auto. + eapply rst_trans; eauto.
Qed.

(** The generated pairs are written smaller index first, so a pair may come out
    turned round. *)
Definition turned (k k' : constraint) : Prop := k' = k \/ exists a b, k = apart a b /\ k' = apart b a.
Record image (cs cs' : list constraint) : Prop := {
  im_to : forall k, In k cs -> exists k', In k' cs' /\ turned (recg k) k';
  im_from : forall k', In k' cs' -> exists k, In k cs /\ turned (recg k) k'
}.
Section Expand.
Variables cs cs' : list constraint.
Hypothesis MM : forall k', In k' cs' <-> exists k, In k cs /\ k' = recg k.
Hypothesis MP : Permutation (in_pairs cs') (map (fun q => (fst q, g (snd q))) (in_pairs cs)).
Lemma same_moved a' b' : In (a', b') (same_pairs cs') <-> exists a b, In (a, b) (same_pairs cs) /\ a' = g a /\ b' = g b.
Proof.
  rewrite same_pairs_in. split.
  - intros (y & H). apply MM in H as ([kk l t z] & H & E). unfold recg in E; cbn [c_kind c_left c_right c_extra] in E. injection E as <- E2 E3 E4.
    destruct t; cbn in E3; try discriminate. injection E3 as ->. exists l, c. split; auto. apply same_pairs_in. eauto.
  - intros (a & b & H & -> & ->). apply same_pairs_in in H as (y & H). exists y. apply MM. eexists; split; [exact H|]. reflexivity.
Qed.
Lemma mand_moved p : Permutation (map g (map snd (filter (fun q => fst q =? p) (in_pairs cs)))) (map snd (filter (fun q => fst q =? p) (in_pairs cs'))).
Proof.
  apply Permutation_sym. eapply Permutation_trans; [apply Permutation_map, filter_perm, MP|]. apply Permutation_refl'.
  generalize (in_pairs cs) as l. induction l as [|[a b] t IH]; cbn [map filter fst snd]; auto. destruct (a =? p)%nat; cbn [map snd]; rewrite IH; auto.
Qed.
Lemma expand_moved out out' : expand_dependent cs n = Ok out -> expand_dependent cs' n = Ok out' -> image out out'.
Proof.
  intros H H'. pose proof (linked_moved _ _ same_moved) as HL. pose proof (ex_same _ _ _ (expand_dependent_ok _ _ _ H)) as HB. constructor.
  - intros k Hk. apply (expand_iff _ _ _ H) in Hk as [(a & b & Hab & Hb & HK & ->)|[(p & l1 & a & l2 & b & l3 & EP & ->)|[(kk & p & o & c & y & Hkk & Hin & Ho & Hc & Hne & HK & ->)|Hk]]].
    + assert (Hb' : g b < n) by (apply mv_lt; auto). assert (Ha' : g a < n) by (apply mv_lt; lia).
      destruct (Nat.lt_ge_cases (g a) (g b)) as [Q|Q].
      * exists (apart (g a) (g b)). split; [|left; auto]. apply (expand_iff _ _ _ H'). left. exists (g a), (g b). rewrite HL. auto.
      * exists (apart (g b) (g a)). split; [|right; exists (g a), (g b); auto]. apply (expand_iff _ _ _ H'). left. exists (g b), (g a).
        split. { assert (g a <> g b); [|lia]. intros E. apply mv_inj in E. lia. } split; auto. split; auto. apply HL. apply rst_sym; auto.
    + pose proof (mand_moved p) as HM. rewrite EP, map_app in HM. cbn [map] in HM. rewrite map_app in HM. cbn [map] in HM.
      destruct (two_in_perm _ _ _ _ _ _ HM) as (m1 & m2 & m3 & [E|E]).
      * exists (apart (g a) (g b)). split; [|left; auto]. apply (expand_iff _ _ _ H'). right; left. exists p, m1, (g a), m2, (g b), m3. auto.
      * exists (apart (g b) (g a)). split; [|right; exists (g a), (g b); auto]. apply (expand_iff _ _ _ H'). right; left. exists p, m1, (g b), m2, (g a), m3. auto.
    + exists (mkC kk p (TChoice (g c)) ENone). split; [|left; destruct Hkk as [-> | ->]; auto]. apply (expand_iff _ _ _ H'). right; right; left.
      exists kk, p, (g o), (g c), y. split; auto. split. { apply MM. eexists; split; [exact Hin|]. destruct Hkk as [-> | ->]; auto. }
      rewrite !mv_lt, HL. repeat split; auto. intros E. apply mv_inj in E. auto.
    + exists (recg k). split; [|left; auto]. apply (expand_iff _ _ _ H'). right; right; right. apply MM. eauto.
  - intros k Hk. apply (expand_iff _ _ _ H') in Hk as [(a' & b' & Hab & Hb & HK & ->)|[(p & l1 & a & l2 & b & l3 & EP & ->)|[(kk & p & o' & c' & y & Hkk & Hin & Ho & Hc & Hne & HK & ->)|Hk]]].
    + destruct (mv_onto b' Hb) as (b & Kb & <-). destruct (mv_onto a') as (a & Ka & <-); [lia|]. apply HL in HK.
      destruct (Nat.lt_ge_cases a b) as [Q|Q].
      * exists (apart a b). split; [|left; auto]. apply (expand_iff _ _ _ H). left. exists a, b. auto.
      * exists (apart b a). split; [|right; exists (g b), (g a); auto]. apply (expand_iff _ _ _ H). left. exists b, a.
        split. { assert (a <> b); [|lia]. intros E. subst. lia. } split; auto. split; auto. apply rst_sym; auto.
    + pose proof (Permutation_sym (mand_moved p)) as HM. rewrite EP in HM.
      destruct (two_in_perm _ _ _ _ _ _ HM) as (m1 & m2 & m3 & [E|E]);
      (apply map_eq_app in E as (l1' & r1 & E0 & <- & E1); apply map_eq_cons in E1 as (a0 & r2 & -> & <- & E2);
       apply map_eq_app in E2 as (l2' & r3 & -> & <- & E3); apply map_eq_cons in E3 as (b0 & l3' & -> & <- & <-);
       exists (apart a0 b0); split; [apply (expand_iff _ _ _ H); right; left; exists p, l1', a0, l2', b0, l3'; auto|]).
      * left; auto.
      * right. exists (g a0), (g b0). auto.
    + apply MM in Hin as ([kk0 p0 t0 y0] & Hin & E). unfold recg in E; cbn [c_kind c_left c_right c_extra] in E. injection E as E1 E2 E3 E4.
      destruct t0; cbn in E3; try discriminate. injection E3 as E3. subst kk0 y0 o'. rewrite mv_lt in Ho. destruct (mv_onto c' Hc) as (c0 & Kc & <-).
      apply HL in HK. assert (p0 = p) by (destruct Hkk as [-> | ->]; auto). subst p0.
      exists (mkC kk p (TChoice c0) ENone). split; [|left; destruct Hkk as [-> | ->]; auto]. apply (expand_iff _ _ _ H). right; right; left.
      exists kk, p, c, c0, y. repeat (split; auto).
    + apply MM in Hk as (k0 & Hk0 & ->). exists k0. split; [|left; auto]. apply (expand_iff _ _ _ H). auto.
Qed.
End Expand.
End Moved.

(** ** The whole build *)
Notation image' f r r' := (image f (r_choices r) (r_choices r')).
Record data_moved (f : nat -> nat) (r r' : reader) (d d' : input_data) : Prop := {
  dm_slots : i_slots d' = i_slots d;
  dm_n : length (i_choices d) = length (blocks 0 (r_choices r));
  dm_n' : length (i_choices d') = length (blocks 0 (r_choices r));
  dm_choices : forall c ch, nth_error (i_choices d) c = Some ch -> exists ch', nth_error (i_choices d') (regroup f (r_choices r) (r_choices r') c) = Some ch' /\
     ch_name ch' = ch_name ch /\ ch_min ch' = ch_min ch /\ ch_max ch' = ch_max ch /\ ch_optional ch' = ch_optional ch;
  dm_np : length (i_choosers d') = length (i_choosers d);
  dm_choosers : forall p ch, nth_error (i_choosers d) p = Some ch -> exists ch', nth_error (i_choosers d') p = Some ch' /\
     cs_name ch' = cs_name ch /\ placed (regroup f (r_choices r) (r_choices r')) (cs_prefs ch) (cs_prefs ch');
  dm_levels : i_levels d' = i_levels d;
  dm_max : i_max_pref d' = i_max_pref d;
  dm_sched : image' f r r' (i_sched d) (i_sched d');
  dm_assign : image' f r r' (i_assign d) (i_assign d')
}.

Lemma mv_blockv f ps ps' c : placed f ps ps' -> c < length (blocks 0 ps) -> exists cd cd',
  nth_error (blocks 0 ps) c = Some cd /\ nth_error (blocks 0 ps') (regroup f ps ps' c) = Some cd' /\
  ch_name cd' = ch_name cd /\ ch_min cd' = ch_min cd /\ ch_max cd' = ch_max cd /\ ch_optional cd' = ch_optional cd.
Proof.
  intros PF Hc. rewrite blocks_length in Hc. destruct (part_exists _ _ Hc) as (i & k & HP).
  destruct (mv_block f ps ps' PF _ _ _ HP) as (p & _ & _ & _ & _ & E1 & E2). eexists _, _. split; [exact E1|]. split; [exact E2|]. cbn. auto.
Qed.

Lemma image_same f ps ps' cs cs' : placed f ps ps' -> image f ps ps' cs cs' -> forall a' b',
  In (a', b') (same_pairs cs') <-> exists a b, In (a, b) (same_pairs cs) /\ a' = regroup f ps ps' a /\ b' = regroup f ps ps' b.
Proof.
  intros PF IM a' b'. rewrite same_pairs_in. split.
  - intros (y & H). apply (im_from _ _ _ _ _ IM) in H as ([kk l t z] & H & [E|(u & v & _ & E)]); [|discriminate E].
    unfold recg in E; cbn [c_kind c_left c_right c_extra] in E. injection E as <- E2 E3 E4.
    destruct t; cbn in E3; try discriminate. injection E3 as ->. exists l, c. split; auto. apply same_pairs_in. eauto.
  - intros (a & b & H & -> & ->). apply same_pairs_in in H as (y & H). exists y.
    apply (im_to _ _ _ _ _ IM) in H as (k' & H & [-> |(u & v & E & _)]); [exact H|discriminate E].
Qed.
Lemma image_in f ps ps' cs cs' : placed f ps ps' -> image f ps ps' cs cs' -> forall p c,
  In (p, regroup f ps ps' c) (in_pairs cs') <-> In (p, c) (in_pairs cs).
Proof.
  intros PF IM p c. rewrite !in_pairs_in. split; intros (y & H).
  - apply (im_from _ _ _ _ _ IM) in H as ([kk l t z] & H & [E|(u & v & _ & E)]); [|discriminate E].
    unfold recg in E; cbn [c_kind c_left c_right c_extra] in E. injection E as <- E2 E3 E4.
    destruct t; cbn in E3; try discriminate. injection E3 as E3. apply (mv_inj f ps ps' PF) in E3. cbn in E2. subst. eauto.
  - exists y. apply (im_to _ _ _ _ _ IM) in H as (k' & H & [-> |(u & v & E & _)]); [exact H|discriminate E].
Qed.
Lemma image_filter f ps ps' cs cs' (h : constraint -> bool) : (forall k k', c_kind k = c_kind k' -> h k = h k') ->
  image f ps ps' cs cs' -> image f ps ps' (filter h cs) (filter h cs').
Proof.
  intros Hh IM. assert (K : forall k k', turned (recg f ps ps' k) k' -> h k' = h k).
  { intros k k' [-> |(a & b & E & ->)]; apply Hh; auto. change (c_kind k) with (c_kind (recg f ps ps' k)). rewrite E. auto. }
  constructor.
  - intros k Hk. apply filter_In in Hk as [Hk E]. apply (im_to _ _ _ _ _ IM) in Hk as (k' & Hk' & T). exists k'. split; auto.
    apply filter_In. rewrite (K _ _ T). auto.
  - intros k' Hk. apply filter_In in Hk as [Hk E]. apply (im_from _ _ _ _ _ IM) in Hk as (k & Hk' & T). exists k. split; auto.
    apply filter_In. rewrite <- (K _ _ T). auto.
Qed.

Lemma Forall2_in_r {X Y} (R : X -> Y -> Prop) l l' y : Forall2 R l l' -> In y l' -> exists x, In x l /\ R x y.
Proof. induction 1 as [|x0 y0 l l' H0 H IH]; intros []; [subst; exists x0; cbn; auto|]. destruct IH as (x1 & K1 & K2); auto. exists x1. cbn; auto. Qed.
Lemma Forall2_in_l {X Y} (R : X -> Y -> Prop) l l' x : Forall2 R l l' -> In x l -> exists y, In y l' /\ R x y.
Proof. induction 1 as [|x0 y0 l l' H0 H IH]; intros []; [subst; exists y0; cbn; auto|]. destruct IH as (x1 & K1 & K2); auto. exists x1. cbn; auto. Qed.
Lemma Forall2_nth_l {X Y} (R : X -> Y -> Prop) l l' : Forall2 R l l' -> forall i x, nth_error l i = Some x -> exists y, nth_error l' i = Some y /\ R x y.
Proof. induction 1 as [|x0 y0 l l' H0 H IH]; intros [|i] x E; cbn in *; try discriminate; eauto. injection E as <-. eauto. Qed.

Section Build.
Variables (f : nat -> nat) (r r' : reader).
Hypothesis CL : choices_relisted f r r'.
Let ps := r_choices r.
Let ps' := r_choices r'.
Let g := regroup f ps ps'.
Let PF : placed f ps ps' := cl_choices _ _ _ CL.

Lemma cl_prefs_in y : (exists c, In c (r_choosers r') /\ In y (cs_prefs c)) <-> (exists c, In c (r_choosers r) /\ In y (cs_prefs c)).
Proof.
  split; intros (c & Hc & Hy).
  - destruct (Forall2_in_r _ _ _ _ (cl_choosers _ _ _ CL) Hc) as (c0 & H0 & _ & HP). exists c0. split; auto.
    apply (Permutation_in y (Permutation_sym (placed_perm _ _ _ HP))); auto.
  - destruct (Forall2_in_l _ _ _ _ (cl_choosers _ _ _ CL) Hc) as (c0 & H0 & _ & HP). exists c0. split; auto.
    apply (Permutation_in y (placed_perm _ _ _ HP)); auto.
Qed.
Lemma cl_max : max_pref_of (r_choosers r') = max_pref_of (r_choosers r).
Proof.
  destruct (max_pref_is r) as [U D]. destruct (max_pref_is r') as [U' D']. apply N.le_antisymm.
  - destruct D' as [-> |(c & Hc & Hx)]; [lia|]. destruct (proj1 (cl_prefs_in _) (ex_intro _ c (conj Hc Hx))) as (c0 & H0 & Hx0). apply (U c0); auto.
  - destruct D as [-> |(c & Hc & Hx)]; [lia|]. destruct (proj2 (cl_prefs_in _) (ex_intro _ c (conj Hc Hx))) as (c0 & H0 & Hx0). apply (U' c0); auto.
Qed.
Lemma cl_u32 : reader_u32 r -> reader_u32 r'.
Proof.
  intros [H1 H2]. constructor.
  - intros p Hp. apply H1. apply (Permutation_in p (Permutation_sym (placed_perm _ _ _ PF))); auto.
  - intros c y Hc Hy. destruct (proj1 (cl_prefs_in _) (ex_intro _ c (conj Hc Hy))) as (c0 & H0 & Hx0). eauto.
Qed.

Lemma reduce_raw_moved B B' parts parts' cs : 
  (forall k, In k B -> shaped k) -> Permutation (map (recg f ps ps') B) B' ->
  compute_part_constraints (blocks 0 ps) = Ok parts -> compute_part_constraints (blocks 0 ps') = Ok parts' ->
  reduce_and_optimize (B ++ parts) (length (blocks 0 ps)) = Ok (cs, false) ->
  (exists z, reduce_and_optimize (B' ++ parts') (length (blocks 0 ps')) = Ok z) ->
  exists cs', reduce_and_optimize (B' ++ parts') (length (blocks 0 ps')) = Ok (cs', false) /\ image f ps ps' cs cs'.
Proof.
  intros HS HB HP HP' H ((cs' & b') & H'). rewrite H'. rewrite (mv_total f ps ps' PF) in H'.
  destruct (mmap_ok reduce_one B) as [rb Hrb]. { intros k Hk. apply reduce_one_total; auto. }
  destruct (mmap_perm _ _ _ HB _ (reduce_moved f ps ps' _ _ HS Hrb)) as (rb' & Hrb' & PR).
  destruct (reduce_parts _ _ HP) as [Ep Ip]. destruct (reduce_parts _ _ HP') as [Ep' Ip'].
  unfold reduce_and_optimize in H, H'.
  rewrite (mmap_app_ok _ _ _ _ _ Hrb Ep) in H. rewrite (mmap_app_ok _ _ _ _ _ Hrb' Ep') in H'. cbn [bind] in H, H'.
  apply bind_ok in H as (out & Ho & H). apply bind_ok in H' as (out' & Ho' & H'). injection H as <- Hb. injection H' as <- Hb'.
  assert (EQ : forall l : list constraint, flat_map fst (map (fun k => ([k], false)) l) = l) by (induction l; cbn; congruence).
  assert (ES : forall l : list constraint, existsb snd (map (fun k => ([k], false)) l) = false) by (induction l; cbn; auto).
  assert (EF : flat_map fst (map (fun q : list constraint * bool => (map (recg f ps ps') (fst q), snd q)) rb) = map (recg f ps ps') (flat_map fst rb)).
  { clear. induction rb as [|[l b] t IH]; cbn; auto. rewrite map_app, IH. auto. }
  assert (EB : existsb snd rb' = existsb snd rb).
  { apply eq_true_iff_eq. rewrite !existsb_exists. split.
    - intros (q & Hq & E). apply (Permutation_in q (Permutation_sym PR)) in Hq. apply in_map_iff in Hq as (q0 & <- & Hq0). eauto.
    - intros (q & Hq & E). exists (map (recg f ps ps') (fst q), snd q). split; auto. apply (Permutation_in _ PR). apply in_map_iff. eauto. }
  assert (PL : Permutation (map (recg f ps ps') (flat_map fst rb)) (flat_map fst rb')).
  { rewrite <- EF. apply flat_map_perm; auto. }
  rewrite existsb_app, ES, orb_false_r in Hb, Hb'. rewrite EB, Hb in Hb'. subst b'.
  rewrite flat_map_app, EQ in Ho, Ho'.
  exists out'. split; auto. revert Ho Ho'. apply (expand_moved f ps ps' PF).
  - intros k'. rewrite in_app_iff, (parts_moved f ps ps' PF _ _ k' HP HP'). setoid_rewrite in_app_iff. split.
    + intros [Hk|(k & Hk & ->)]; eauto. apply (Permutation_in _ (Permutation_sym PL)), in_map_iff in Hk as (k & <- & Hk). eauto.
    + intros (k & [Hk|Hk] & ->); eauto. left. apply (Permutation_in _ PL). apply in_map; auto.
  - rewrite !in_pairs_app, Ip, Ip', !app_nil_r. rewrite <- (in_pairs_moved f ps ps'). unfold in_pairs. apply flat_map_perm, Permutation_sym; auto.
Qed.

Lemma build_moved pr d : reader_u32 r -> build_input pr r = Ok d ->
  exists d', build_input pr r' = Ok d' /\ reader_u32 r' /\ data_moved f r r' d d'.
Proof.
  intros HU H. pose proof (cl_u32 HU) as HU'. destruct (build_inv _ _ _ H) as (raw & cs & css & B).
  pose proof (bf_complete _ _ _ _ _ _ B) as HC.
  assert (HC' : prefs_complete r').
  { intros c Hc. destruct (Forall2_in_r _ _ _ _ (cl_choosers _ _ _ CL) Hc) as (c0 & H0 & _ & HP). rewrite (proj1 HP), (HC c0 H0). exact (eq_sym (proj1 PF)). }
  pose proof (bf_css _ _ _ _ _ _ B) as Ecss. rewrite (bf_max _ _ _ _ _ _ B) in Ecss.
  set (m := max_pref_of (r_choosers r)) in *.
  set (css' := map (fun c => mkChooser (cs_name c) (spread (r_choices r') (cs_prefs c))) (map (mirror (max_pref_of (r_choosers r'))) (r_choosers r'))).
  set (x := mkCtx (build_slots r) css (blocks 0 (r_choices r))). set (x' := mkCtx (build_slots r') css' (blocks 0 (r_choices r'))).
  destruct (raw_ok _ _ _ (bf_raw _ _ _ _ _ _ B)) as (built & parts & Hb & Hp & Eraw). cbn [x_choices] in Hp. fold ps in Hp.
  pose proof (bf_size _ _ _ _ _ _ B) as SZ. fold ps in SZ.
  destruct (compute_part_total ps') as (parts' & Hp'). { rewrite (mv_total f ps ps' PF). auto. }
  assert (ENames : map cs_name css' = map cs_name css).
  { unfold css'. rewrite Ecss, !map_map. cbn [cs_name mirror]. clear -CL. pose proof (cl_choosers _ _ _ CL) as F2.
    induction F2 as [|c c' t t' [E _] _ IH]; cbn; congruence. }
  assert (ESl : build_slots r' = build_slots r) by (unfold build_slots; rewrite (cl_slots _ _ _ CL); auto).
  assert (Hb0 : mmap (build_expr x') (r_exprs r) = Ok (map (map (recg f ps ps')) built)).
  { apply (exprs_moved f ps ps' PF x x'); auto. }
  destruct (mmap_perm _ _ _ (cl_exprs _ _ _ CL) _ Hb0) as (built' & Hb' & PB).
  assert (PB' : Permutation (map (recg f ps ps') (concat built)) (concat built')).
  { rewrite concat_map. apply perm_concat'; auto. }
  assert (Hraw' : raw_constraints x' (r_exprs r') = Ok (concat built' ++ parts')).
  { unfold raw_constraints. rewrite Hb'. cbn [bind x' x_choices]. fold ps'. rewrite Hp'. auto. }
  pose proof (b_raw_indexed _ _ _ _ _ _ B) as RI. pose proof (bf_cs _ _ _ _ _ _ B) as HR. rewrite Eraw in RI, HR.
  destruct (reduce_raw_moved (concat built) (concat built') parts parts' cs) as (cs' & Hred' & IM); auto.
  { intros k Hk. eapply indexed_shaped. apply RI. apply in_or_app; auto. }
  { eapply reduce_total; [rewrite (mv_total f ps ps' PF); auto|]. intros k Hk. exact (raw_indexed x' ps' _ _ eq_refl Hraw' k Hk). }
  destruct (build_succeeds pr r' (concat built' ++ parts') cs' HU' HC') as (d' & Hd'); auto.
  { fold ps'. rewrite (mv_total f ps ps' PF). auto. }
  exists d'. split; auto. split; auto.
  destruct (build_inv _ _ _ Hd') as (raw0 & cs0 & css0 & B').
  pose proof (bf_css _ _ _ _ _ _ B') as E0. rewrite (bf_max _ _ _ _ _ _ B') in E0. fold css' in E0. subst css0.
  assert (raw0 = concat built' ++ parts'). { pose proof (bf_raw _ _ _ _ _ _ B') as E. fold x' in E. congruence. } subst raw0.
  assert (cs0 = cs'). { pose proof (bf_cs _ _ _ _ _ _ B') as E. fold ps' in E. congruence. } subst cs0.
  assert (EMX : i_max_pref d' = i_max_pref d). { rewrite (bf_max _ _ _ _ _ _ B), (bf_max _ _ _ _ _ _ B'). apply cl_max. }
  pose proof (image_same f ps ps' cs cs' PF IM) as SP. pose proof (image_in f ps ps' cs cs' PF IM) as IP. fold g in IP.
  assert (OA : forall a b, one_audience d' (g a) (g b) <-> one_audience d a b).
  { intros a b. rewrite <- (b_linked _ _ _ _ _ _ B), <- (b_linked _ _ _ _ _ _ B'). apply (linked_moved f ps ps' PF). exact SP. }
  pose proof (b_choices_length _ _ _ _ _ _ B) as LD. pose proof (b_choices_length _ _ _ _ _ _ B') as LD'. fold ps in LD. fold ps' in LD'.
  pose proof (mv_total f ps ps' PF) as LN.
  constructor.
  - rewrite (bf_slots _ _ _ _ _ _ B), (bf_slots _ _ _ _ _ _ B'). auto.
  - exact LD.
  - rewrite LD'. exact LN.
  - intros c ch Hc. pose proof (nth_error_lt _ _ _ Hc) as Kc. rewrite LD in Kc.
    assert (Kc' : g c < length (i_choices d')). { rewrite LD', LN. apply (mv_lt f ps ps' PF). auto. }
    destruct (nth_error_ex _ _ Kc') as [ch' Hc']. exists ch'. split; auto.
    destruct (mv_blockv f ps ps' c PF Kc) as (e & e' & Ee & Ee' & V1 & V2 & V3 & V4).
    destruct (b_choice_nth _ _ _ _ _ _ B _ _ Hc) as (cd & Hcd & N1 & _ & N3). fold ps in Hcd. assert (cd = e) by congruence. subst cd.
    destruct (b_choice_nth _ _ _ _ _ _ B' _ _ Hc') as (cd' & Hcd' & N1' & _ & N3'). fold ps' in Hcd'. assert (cd' = e') by (unfold g in Hcd'; congruence). subst cd'.
    destruct (b_bounds _ _ _ _ _ _ B _ _ Hc) as (K & (c1 & e1 & A1 & M1 & F1) & G1).
    destruct (b_bounds _ _ _ _ _ _ B' _ _ Hc') as (K' & (c1' & e1' & A1' & M1' & F1') & G1'). fold ps in K, M1, G1. fold ps' in K', M1', G1'.
    assert (FW : forall c2 e2, one_audience d c c2 -> nth_error (blocks 0 ps) c2 = Some e2 -> (ch_min e2 <= ch_min ch' /\ ch_max ch' <= ch_max e2)%N).
    { intros c2 e2 A2 M2. destruct (mv_blockv f ps ps' c2 PF) as (q & q' & Q1 & Q2 & _ & Q3 & Q4 & _); [eapply nth_error_lt; eauto|].
      assert (q = e2) by congruence. subst q. rewrite <- Q3, <- Q4. apply (K' (g c2)); auto. apply OA; auto. }
    assert (BW : forall c2 e2, one_audience d' (g c) c2 -> nth_error (blocks 0 ps') c2 = Some e2 -> (ch_min e2 <= ch_min ch /\ ch_max ch <= ch_max e2)%N).
    { intros c2 e2 A2 M2. destruct (mv_onto f ps ps' PF c2) as (c3 & K3 & <-). { rewrite <- LN. eapply nth_error_lt; eauto. }
      destruct (mv_blockv f ps ps' c3 PF K3) as (q & q' & Q1 & Q2 & _ & Q3 & Q4 & _). assert (q' = e2) by congruence. subst q'. rewrite Q3, Q4.
      apply (K c3); auto. apply OA; auto. }
    split; [congruence|]. split; [|split; [|congruence]].
    + destruct (FW _ _ A1 M1) as [X1 _]. destruct (BW _ _ A1' M1') as [X2 _]. lia.
    + assert (ch_max ch <= u32_max /\ ch_max ch' <= u32_max)%N as [Y1 Y2].
      { split.
        - apply (wf_bounds_u32 _ (b_wf _ _ _ _ _ _ B HU) _ (nth_error_In _ _ Hc)).
        - apply (wf_bounds_u32 _ (b_wf _ _ _ _ _ _ B' HU') _ (nth_error_In _ _ Hc')). }
      destruct G1 as [Z1|(c2 & e2 & A2 & M2 & Z1)], G1' as [Z1'|(c2' & e2' & A2' & M2' & Z1')].
      * congruence.
      * destruct (BW _ _ A2' M2') as [_ X1]. lia.
      * destruct (FW _ _ A2 M2) as [_ X1]. lia.
      * destruct (BW _ _ A2' M2') as [_ X1]. destruct (FW _ _ A2 M2) as [_ X2]. lia.
  - destruct (b_prefs _ _ _ _ _ _ B HU) as [L1 _]. destruct (b_prefs _ _ _ _ _ _ B' HU') as [L1' _]. rewrite L1, L1'.
    clear -CL. pose proof (cl_choosers _ _ _ CL) as F2. induction F2; cbn; auto.
  - destruct (b_prefs _ _ _ _ _ _ B HU) as [L1 V]. destruct (b_prefs _ _ _ _ _ _ B' HU') as [L1' V'].
    intros p ch Hch. assert (Hp0 : p < length (r_choosers r)) by (rewrite <- L1; eapply nth_error_lt; eauto).
    destruct (nth_error_ex _ _ Hp0) as [cd Hcd]. destruct (Forall2_nth_l _ _ _ (cl_choosers _ _ _ CL) _ _ Hcd) as (cd' & Hcd' & EN & PP).
    destruct (V p cd Hcd) as (ch0 & Hch0 & N1 & Ln & VV). assert (ch0 = ch) by congruence. subst ch0.
    destruct (V' p cd' Hcd') as (ch' & Hch' & N1' & Ln' & VV'). exists ch'. split; auto. split; [congruence|].
    fold ps in Ln, VV. fold ps' in Ln', VV'.
    assert (SPR : placed g (spread ps (map (fun z => i_max_pref d - z)%N (cs_prefs cd))) (spread ps' (map (fun z => i_max_pref d' - z)%N (cs_prefs cd')))).
    { rewrite EMX. apply (mv_spread f ps ps' PF); [apply placed_map; auto|]. rewrite map_length. apply HC. eapply nth_error_In; eauto. }
    apply (mv_placed f ps ps' PF); [auto|congruence|]. intros i k c HP.
    assert (Kc : c < length (blocks 0 ps)) by (rewrite blocks_length; eapply part_bound; eauto).
    destruct (nth_error_ex (cs_prefs ch) c) as [y Hy]; [lia|].
    destruct (nth_error_ex (cs_prefs ch') (g c)) as [y' Hy']; [rewrite Ln', LN; apply (mv_lt f ps ps' PF); auto|].
    fold g. rewrite Hy, Hy'. f_equal.
    destruct (VV c y Hy) as [A1 A2]. destruct (VV' (g c) y' Hy') as [A1' A2']. rewrite (IP p c) in A1', A2'.
    assert (DEC : In (p, c) (in_pairs cs) \/ ~ In (p, c) (in_pairs cs)).
    { destruct (in_dec (fun a b : nat * nat => ltac:(decide equality; apply Nat.eq_dec) : {a = b} + {a <> b}) (p, c) (in_pairs cs)); auto. }
    destruct DEC as [D|D]; [rewrite (A1 D), (A1' D); auto|].
    destruct (A2 D) as [K1 (c1 & O1 & W1)]. destruct (A2' D) as [K1' (c1' & O1' & W1')]. destruct SPR as (_ & _ & SN). apply N.le_antisymm.
    + apply (K1' (g c1)); [apply OA; auto|]. rewrite SN. auto.
    + destruct (mv_onto f ps ps' PF c1') as (c2 & K2 & <-).
      { apply nth_error_lt in W1'. rewrite spread_length in W1'. - rewrite <- LN, blocks_length. auto.
        - rewrite map_length. apply HC'. eapply nth_error_In; eauto. }
      apply (K1 c2); [apply OA; auto|]. rewrite <- SN. auto.
  - rewrite (bf_levels _ _ _ _ _ _ B), (bf_levels _ _ _ _ _ _ B'), EMX. apply sorted_ext_N; try apply levels_sorted.
    intros y. rewrite !levels_in. pose proof (cl_prefs_in y). tauto.
  - exact EMX.
  - rewrite (bf_sched _ _ _ _ _ _ B), (bf_sched _ _ _ _ _ _ B'). apply image_filter; auto.
    intros k k' E. unfold is_scheduling_constraint. rewrite E. auto.
  - rewrite (bf_assign _ _ _ _ _ _ B), (bf_assign _ _ _ _ _ _ B'). apply image_filter; auto.
    intros k k' E. unfold is_assignment_constraint. rewrite E. auto.
Qed.
End Build.

(** ** Solutions *)
Lemma slot_sum_pairs h cs S s : slot_sum h cs S s = fold_right N.add 0%N (map (fun q : N * option nat => match snd q with Some t => if Nat.eqb t s then fst q else 0%N | None => 0%N end) (combine (map h cs) S)).
Proof. revert S. induction cs as [|c cs IH]; intros [|x S]; cbn; auto. rewrite IH. auto. Qed.
Lemma sum_perm (l l' : list N) : Permutation l l' -> fold_right N.add 0%N l = fold_right N.add 0%N l'.
Proof. induction 1; cbn [fold_right]; lia. Qed.
Lemma placed_combine {X Y} g (a a' : list X) (b b' : list Y) : placed g a a' -> placed g b b' -> placed g (combine a b) (combine a' b').
Proof.
  intros (L1 & I1 & N1) (L2 & _ & N2). split; [rewrite !combine_length; congruence|]. split; auto. intros i.
  assert (E : forall (l : list X) (m : list Y) j, nth_error (combine l m) j = match nth_error l j, nth_error m j with Some u, Some v => Some (u, v) | _, _ => None end).
  { clear. induction l as [|u l IH]; intros [|v m] [|j]; cbn; auto. destruct (nth_error l j); auto. }
  rewrite !E, N1, N2. auto.
Qed.

Section Sols.
Variables (f : nat -> nat) (r r' : reader) (d d' : input_data).
Hypothesis CL : choices_relisted f r r'.
Hypothesis DM : data_moved f r r' d d'.
Hypothesis WF : wf_input d.
Hypothesis WF' : wf_input d'.
Let g := regroup f (r_choices r) (r_choices r').
Let PF : placed f (r_choices r) (r_choices r') := cl_choices _ _ _ CL.
Let n := length (i_choices d).
Let GI : forall a b, g a = g b -> a = b := mv_inj f _ _ PF.
Let GO : forall c', c' < n -> exists c, c < n /\ g c = c'.
Proof. unfold n. rewrite (dm_n _ _ _ _ _ DM). exact (mv_onto f _ _ PF). Qed.
Let GL : forall c, g c < n <-> c < n.
Proof. unfold n. rewrite (dm_n _ _ _ _ _ DM). exact (mv_lt f _ _ PF). Qed.
Let NN : length (i_choices d') = n.
Proof. unfold n. rewrite (dm_n _ _ _ _ _ DM). exact (dm_n' _ _ _ _ _ DM). Qed.

Section Given.
Variables (S S' : scheduling) (A : assignment).
Hypothesis PS : placed g S S'.
Let A' := map (map g) A.

Lemma cm_in c s : scheduled_in S' (g c) s <-> scheduled_in S c s.
Proof. unfold scheduled_in. destruct PS as (_ & _ & H). rewrite H. tauto. Qed.
Lemma cm_from c' s : scheduled_in S' c' s -> exists c, c' = g c /\ scheduled_in S c s.
Proof.
  intros H. destruct (placed_onto g S S' c' PS) as (c & _ & <-); [eapply nth_error_lt; exact H|]. exists c. split; auto. apply cm_in; auto.
Qed.
Lemma cm_not c : not_held S' (g c) <-> not_held S c.
Proof. unfold not_held. destruct PS as (_ & _ & H). rewrite H. tauto. Qed.
Lemma cm_held c : held S' (g c) <-> held S c.
Proof. unfold held. setoid_rewrite cm_in. tauto. Qed.
Lemma cm_card (P P' : nat -> Prop) m : (forall c, P' (g c) <-> P c) -> (forall c', P' c' -> exists c, c' = g c) -> cardinal P' m <-> cardinal P m.
Proof.
  intros H1 H2. split; intros (l & ND & HI & HL).
  - assert (G : exists l0, map g l0 = l).
    { assert (HF : forall q, In q l -> exists c, q = g c) by (intros q Hq; apply H2, HI; auto). clear HI HL ND. induction l as [|q t IH].
      - exists []. auto.
      - destruct IH as (l0 & E); [intros q' Hq'; apply HF; right; auto|]. destruct (HF q (or_introl eq_refl)) as (c & ->). exists (c :: l0). cbn. congruence. }
    destruct G as (l0 & E). exists l0. split; [|split].
    + apply (NoDup_map_inv g). rewrite E. auto.
    + intros c. rewrite <- (H1 c), <- HI, <- E, in_map_iff. split.
      * intros Hc. exists c. auto. * intros (c0 & E0 & Hc0). apply GI in E0. subst; auto.
    + rewrite <- HL, <- E, map_length. auto.
  - exists (map g l). split; [|split].
    + apply Injective_map_NoDup; auto.
    + intros c'. rewrite in_map_iff. split.
      * intros (c & <- & Hc). apply H1, HI; auto.
      * intros Hc. destruct (H2 _ Hc) as (c & ->). exists c. split; auto. apply HI, H1; auto.
    + rewrite map_length; auto.
Qed.
Lemma cm_att p c : attends A' p (g c) <-> attends A p c.
Proof.
  unfold attends, A'. rewrite nth_error_map. split.
  - intros (row & Hrow & Hc). destruct (nth_error A p) as [w|]; [|discriminate]. injection Hrow as <-. apply in_map_iff in Hc as (c0 & E & Hc0). apply GI in E. subst. eauto.
  - intros (row & -> & Hc). cbn. eexists; split; eauto. apply in_map; auto.
Qed.
Lemma cm_att_from p c' : attends A' p c' -> exists c, c' = g c /\ attends A p c.
Proof.
  unfold attends, A'. rewrite nth_error_map. intros (row & Hrow & Hc). destruct (nth_error A p) as [w|]; [|discriminate]. injection Hrow as <-.
  apply in_map_iff in Hc as (c0 & <- & Hc0). eauto.
Qed.

Lemma turned_sched k k' : turned k k' -> sched_means S' k' <-> sched_means S' k.
Proof.
  intros [-> |(a & b & -> & ->)]; [tauto|]. unfold apart, sched_means; cbn. split; intros H s [K1 K2]; apply (H s); auto.
Qed.
Lemma cm_sched k : sched_shape d k -> sched_means S' (recg f (r_choices r) (r_choices r') k) <-> sched_means S k.
Proof.
  intros HW. destruct k as [kk l t x]. unfold sched_shape, sched_means, recg in *; cbn [c_kind c_left c_right c_extra] in *.
  destruct kk; try contradiction; destruct t; try contradiction; cbn [gl gr]; fold g.
  - apply cm_in.
  - rewrite cm_in. tauto.
  - setoid_rewrite cm_in. tauto.
  - setoid_rewrite cm_in. tauto.
  - destruct x; try tauto. rewrite !cm_not. setoid_rewrite cm_in. tauto.
  - destruct x; try tauto. assert (CD : forall m, cardinal (fun c => scheduled_in S' c l) m <-> cardinal (fun c => scheduled_in S c l) m).
    { intros m. apply cm_card; [intros c; apply cm_in|]. intros c' Hc'. destruct (cm_from _ _ Hc') as (c & -> & _). eauto. }
    split; intros (m & Hm & K); exists m; (split; [apply CD; exact Hm|exact K]).
Qed.
Lemma cm_asg k : asg_shape d k -> asg_means S' A' (recg f (r_choices r) (r_choices r') k) <-> asg_means S A k.
Proof.
  intros HW. destruct k as [kk l t x]. unfold asg_shape, asg_means, recg in *; cbn [c_kind c_left c_right c_extra] in *.
  destruct kk; try contradiction; destruct t; try contradiction; cbn [gl gr]; fold g.
  - rewrite !cm_held. setoid_rewrite cm_att. tauto.
  - rewrite cm_held, cm_att. tauto.
  - rewrite cm_att. tauto.
  - split; intros H c'.
    + rewrite <- !(cm_att _ c'). auto.
    + split; intros K; destruct (cm_att_from _ _ K) as (c & -> & Hc); apply cm_att, H; auto.
Qed.

Lemma cm_sched_iff : (forall k, In k (i_sched d') -> sched_means S' k) <-> (forall k, In k (i_sched d) -> sched_means S k).
Proof.
  split.
  - intros H k Hk. apply (cm_sched k (wf_sched _ WF k Hk)). apply (im_to _ _ _ _ _ (dm_sched _ _ _ _ _ DM)) in Hk as (k' & Hk' & T).
    apply (turned_sched _ _ T). auto.
  - intros H k' Hk'. apply (im_from _ _ _ _ _ (dm_sched _ _ _ _ _ DM)) in Hk' as (k & Hk & T).
    apply (turned_sched _ _ T). apply (cm_sched k (wf_sched _ WF k Hk)). auto.
Qed.
Lemma cm_asg_iff : (forall k, In k (i_assign d') -> asg_means S' A' k) <-> (forall k, In k (i_assign d) -> asg_means S A k).
Proof.
  split.
  - intros H k Hk. pose proof (wf_asg _ WF k Hk) as W. apply (cm_asg k W). apply (im_to _ _ _ _ _ (dm_assign _ _ _ _ _ DM)) in Hk as (k' & Hk' & T).
    destruct T as [-> |(a & b & E & _)]; auto. exfalso. unfold asg_shape in W. change (c_kind k) with (c_kind (recg f (r_choices r) (r_choices r') k)) in W. rewrite E in W. exact W.
  - intros H k' Hk'. apply (im_from _ _ _ _ _ (dm_assign _ _ _ _ _ DM)) in Hk' as (k & Hk & T). pose proof (wf_asg _ WF k Hk) as W.
    destruct T as [-> |(a & b & E & _)]; [apply (cm_asg k W); auto|]. exfalso. unfold asg_shape in W. change (c_kind k) with (c_kind (recg f (r_choices r) (r_choices r') k)) in W. rewrite E in W. exact W.
Qed.
Lemma cm_field {X} (h : choice_data -> X) : (forall ch ch', ch_name ch' = ch_name ch /\ ch_min ch' = ch_min ch /\ ch_max ch' = ch_max ch /\ ch_optional ch' = ch_optional ch -> h ch' = h ch) ->
  placed g (map h (i_choices d)) (map h (i_choices d')).
Proof.
  intros Hh. split; [rewrite !map_length; auto|]. split; auto. intros c. rewrite !nth_error_map.
  destruct (nth_error (i_choices d) c) as [ch|] eqn:E.
  - destruct (dm_choices _ _ _ _ _ DM c ch E) as (ch' & E' & K). fold g in E'. rewrite E'. cbn. f_equal. exact (Hh _ _ K).
  - rewrite (proj2 (nth_error_None (i_choices d') (g c))); auto. rewrite NN. apply nth_error_None in E. pose proof (GL c). fold n in E. lia.
Qed.
Lemma cm_sum h s : (forall ch ch', ch_name ch' = ch_name ch /\ ch_min ch' = ch_min ch /\ ch_max ch' = ch_max ch /\ ch_optional ch' = ch_optional ch -> h ch' = h ch) ->
  slot_sum h (i_choices d') S' s = slot_sum h (i_choices d) S s.
Proof.
  intros Hh. rewrite !slot_sum_pairs. apply sum_perm, Permutation_map, Permutation_sym, (placed_perm g). apply placed_combine; auto. apply cm_field; auto.
Qed.
Lemma cm_valid_scheduling : valid_scheduling d' S' <-> valid_scheduling d S.
Proof.
  pose proof (proj1 PS) as LS. pose proof (dm_slots _ _ _ _ _ DM) as ES. pose proof (dm_np _ _ _ _ _ DM) as EP.
  split; intros V; constructor.
  - rewrite <- LS, (vs_length _ _ V), NN. auto.
  - intros c s Hs. rewrite <- ES. apply (vs_range _ _ V (g c)). apply cm_in; auto.
  - intros c ch Hc Hn. destruct (dm_choices _ _ _ _ _ DM c ch Hc) as (ch' & E' & _ & _ & _ & <-). apply (vs_optional _ _ V (g c)); auto. apply cm_not; auto.
  - intros s Hs. rewrite <- ES in Hs. pose proof (vs_sums _ _ V _ Hs) as K. rewrite !cm_sum, EP in K by (intros ? ? K0; apply K0). auto.
  - apply cm_sched_iff. apply (vs_cons _ _ V).
  - rewrite LS, (vs_length _ _ V), NN. auto.
  - intros c' s Hs. destruct (cm_from _ _ Hs) as (c & -> & Hc). rewrite ES. eapply (vs_range _ _ V); eauto.
  - intros c' ch' Hc' Hn. destruct (GO c') as (c & Hc & <-). { rewrite <- NN. eapply nth_error_lt; eauto. }
    destruct (nth_error_ex (i_choices d) c Hc) as [ch E]. destruct (dm_choices _ _ _ _ _ DM c ch E) as (ch0 & E0 & _ & _ & _ & E1). fold g in E0.
    assert (ch0 = ch') by congruence. subst ch0. rewrite E1. apply (vs_optional _ _ V c); auto. apply cm_not; auto.
  - intros s Hs. rewrite !cm_sum, EP by (intros ? ? K0; apply K0). rewrite ES in Hs. apply (vs_sums _ _ V); auto.
  - apply cm_sched_iff. apply (vs_cons _ _ V).
Qed.
Lemma cm_one : one_choice_per_slot d' S' A' <-> one_choice_per_slot d S A.
Proof.
  pose proof (dm_slots _ _ _ _ _ DM) as ES. pose proof (dm_np _ _ _ _ _ DM) as EP.
  unfold one_choice_per_slot, A'. rewrite map_length, EP, ES. split; intros [L H]; (split; [exact L|]).
  - intros p row Hrow. destruct (H p (map g row)) as (K1 & K2 & K3); [rewrite nth_error_map, Hrow; auto|]. rewrite map_length in K1. split; auto. split.
    + intros c Hc. apply cm_held, K2. apply in_map; auto.
    + intros s Hs. destruct (K3 s Hs) as (c' & [Hc1 Hc2] & HQ). apply in_map_iff in Hc1 as (c & <- & Hc). apply cm_in in Hc2.
      exists c. split; auto. intros c0 [Hc0 Hs0]. apply GI. apply HQ. split; [apply in_map; auto|apply cm_in; auto].
  - intros p row' Hrow'. rewrite nth_error_map in Hrow'. destruct (nth_error A p) as [row|] eqn:E; [|discriminate]. injection Hrow' as <-.
    destruct (H p row E) as (K1 & K2 & K3). rewrite map_length. split; auto. split.
    + intros c' Hc'. apply in_map_iff in Hc' as (c & <- & Hc). apply cm_held; auto.
    + intros s Hs. destruct (K3 s Hs) as (c & [Hc1 Hc2] & HQ). exists (g c). split; [split; [apply in_map; auto|apply cm_in; auto]|].
      intros c0' [Hc0 Hs0]. apply in_map_iff in Hc0 as (c0 & <- & Hc0). apply cm_in in Hs0. f_equal. auto.
Qed.
Lemma cm_bounds : bounds_respected d' S' A' <-> bounds_respected d S A.
Proof.
  assert (CD : forall c m, cardinal (fun p => attends A' p (g c)) m <-> cardinal (fun p => attends A p c) m).
  { intros c m. split; apply cardinal_ext; intros p; rewrite cm_att; tauto. }
  split; intros H.
  - intros c ch Hc Hh. destruct (dm_choices _ _ _ _ _ DM c ch Hc) as (ch' & E' & _ & E2 & E3 & _).
    destruct (H (g c) ch' E') as (m & Hm & K); [apply cm_held; auto|]. exists m. rewrite <- E2, <- E3. split; auto. apply CD; auto.
  - intros c' ch' Hc' Hh. destruct (GO c') as (c & Hc & <-). { rewrite <- NN. eapply nth_error_lt; eauto. }
    destruct (nth_error_ex (i_choices d) c Hc) as [ch E]. destruct (dm_choices _ _ _ _ _ DM c ch E) as (ch0 & E0 & _ & E2 & E3 & _). fold g in E0.
    assert (ch0 = ch') by congruence. subst ch0. rewrite E2, E3.
    destruct (H c ch E) as (m & Hm & K); [apply cm_held; auto|]. exists m. split; auto. apply CD; auto.
Qed.
Lemma cm_respects : respects_all d' S' A' <-> respects_all d S A.
Proof.
  split; intros R; constructor; first [apply cm_one, R | apply cm_bounds, R | apply cm_sched_iff, R | apply cm_asg_iff, R].
Qed.
Lemma cm_valid : valid_solution d' S' A' <-> valid_solution d S A.
Proof. split; intros [V R]; split; first [apply cm_valid_scheduling; exact V | apply cm_respects; exact R]. Qed.
End Given.

(** ** Scores *)
Lemma cm_choice_of A p s : choice_of (map (map g) A) p s = omap g (choice_of A p s).
Proof.
  unfold choice_of, get. rewrite nth_error_map. destruct (nth_error A p) as [row|]; cbn [option_map bind omap]; auto.
  rewrite nth_error_map. destruct (nth_error row s); auto.
Qed.
Lemma cm_pref {X} (h : N -> outcome X) A p s :
  (let* c := choice_of (map (map g) A) p s in let* ch := get (i_choosers d') p in let* pref := get (cs_prefs ch) c in h pref) =
  (let* c := choice_of A p s in let* ch := get (i_choosers d) p in let* pref := get (cs_prefs ch) c in h pref).
Proof.
  rewrite cm_choice_of. destruct (choice_of A p s) as [c| |]; cbn [omap bind]; auto. unfold get.
  destruct (nth_error (i_choosers d) p) as [ch|] eqn:E.
  - destruct (dm_choosers _ _ _ _ _ DM p ch E) as (ch' & -> & _ & _ & _ & HN). cbn [bind]. fold g in HN. rewrite HN. auto.
  - rewrite (proj2 (nth_error_None (i_choosers d') p)); auto. rewrite (dm_np _ _ _ _ _ DM). apply nth_error_None; auto.
Qed.
Lemma cm_evaluate pr pow gr S S' A : placed g S S' -> fits d -> fits d' -> valid_solution d S A ->
  evaluate pr pow gr d' (SolComplete S' (map (map g) A)) = evaluate pr pow gr d (SolComplete S A).
Proof.
  intros PS FI FI' V. pose proof (proj2 (cm_valid S S' A PS) V) as V'.
  assert (F : sol_is_feasible d S A = Ok true).
  { destruct V as [W R]. apply sol_is_feasible_complete; auto; [exact (vs_length _ _ W)|exact (vs_range _ _ W)]. }
  assert (F' : sol_is_feasible d' S' (map (map g) A) = Ok true).
  { destruct V' as [W R]. apply sol_is_feasible_complete; auto; [exact (vs_length _ _ W)|exact (vs_range _ _ W)]. }
  assert (EJ : evaluate_major d' (map (map g) A) = evaluate_major d A).
  { unfold evaluate_major, n_slots, n_choosers. rewrite (dm_slots _ _ _ _ _ DM), (dm_np _ _ _ _ _ DM).
    apply mfold_same. intros b p. apply mfold_same. intros b0 s. apply (cm_pref (fun pref => Ok (N.max b0 pref))). }
  assert (EH : pref_histogram pr d' (map (map g) A) = pref_histogram pr d A).
  { unfold pref_histogram, n_slots, n_choosers. rewrite (dm_slots _ _ _ _ _ DM), (dm_np _ _ _ _ _ DM), (dm_max _ _ _ _ _ DM).
    destruct (add_u32 pr (i_max_pref d) 1); cbn [bind]; auto.
    apply mfold_same. intros b p. apply mfold_same. intros b0 s.
    apply (cm_pref (fun pref => let i := N.to_nat pref in let* m := get b0 i in set b0 i (m + 1)%N)). }
  unfold evaluate, evaluate_minor. rewrite EJ, EH, F, F'.
  replace (scoring_scaling pow d') with (scoring_scaling pow d); auto.
  unfold scoring_scaling. rewrite (dm_max _ _ _ _ _ DM). auto.
Qed.

(** ** Existence *)
Lemma cm_forth (S : scheduling) : length S = n -> exists S', placed g S S'.
Proof.
  intros HL. set (inv := fun j => match find (fun i => g i =? j)%nat (seq 0 n) with Some i => i | None => 0 end).
  assert (IV : forall i, i < n -> inv (g i) = i).
  { intros i Hi. unfold inv. destruct (find _ _) as [k|] eqn:E.
    - apply find_some in E as [_ E]. apply Nat.eqb_eq in E. auto.
    - pose proof (find_none _ _ E i) as K. cbv beta in K. rewrite Nat.eqb_refl in K. discriminate K. apply in_seq. lia. }
  exists (map (fun j => nth (inv j) S None) (seq 0 n)). split; [rewrite map_length, seq_length; lia|]. split; [exact GI|].
  intros i. rewrite nth_error_map. destruct (Nat.lt_ge_cases i n) as [K|K].
  - pose proof (proj2 (GL i) K) as Q. rewrite (nth_error_nth' (seq 0 n) 0) by (rewrite seq_length; auto).
    rewrite seq_nth by auto. cbn [option_map Nat.add]. rewrite IV by auto. symmetry. apply nth_error_nth'. lia.
  - rewrite (proj2 (nth_error_None (seq 0 n) (g i))). 2:{ rewrite seq_length. pose proof (GL i). lia. } cbn. symmetry. apply nth_error_None. lia.
Qed.
Lemma cm_back (S' : scheduling) : length S' = n -> exists S, placed g S S'.
Proof.
  intros HL. exists (map (fun c => nth (g c) S' None) (seq 0 n)). split; [rewrite map_length, seq_length; lia|]. split; [exact GI|].
  intros i. rewrite nth_error_map. destruct (Nat.lt_ge_cases i n) as [K|K].
  - pose proof (proj2 (GL i) K) as Q. rewrite (nth_error_nth' (seq 0 n) 0) by (rewrite seq_length; auto).
    rewrite seq_nth by auto. cbn [option_map Nat.add]. apply nth_error_nth'. lia.
  - rewrite (proj2 (nth_error_None (seq 0 n) i)) by (rewrite seq_length; auto). cbn. apply nth_error_None. pose proof (GL i). lia.
Qed.
Lemma cm_rows A' : (forall row c, In row A' -> In c row -> c < n) -> exists A, A' = map (map g) A.
Proof.
  induction A' as [|row t IH]; intros H; [exists []; auto|]. destruct IH as (A & ->); [intros; eapply H; [right|]; eauto|].
  assert (G : exists row0, row = map g row0).
  { assert (K : forall c, In c row -> c < n) by (intros; eapply H; [left|]; eauto). clear H.
    induction row as [|c l IH]; [exists []; auto|]. destruct IH as (l0 & ->); [intros; apply K; right; auto|].
    destruct (GO c) as (c0 & _ & <-); [apply K; left; auto|]. exists (c0 :: l0). auto. }
  destruct G as (row0 & ->). exists (row0 :: A). auto.
Qed.
End Sols.
