(** Points and assignments. *)
From Verif Require Import Base M_Data M_Scoring M_Flow Spec Spec_Flow P_Scoring P_Sums P_Search1 P_Feasible P_Flow1 P_Flow2 P_Flow3 P_Flow4.
From Coq Require Import Permutation Relation_Operators.

Local Notation np d := (length (i_choosers d)).
Local Notation nc d := (length (i_choices d)).
Local Notation ns d := (length (i_slots d)).

Lemma prefN_at d p c : prefN d p c = pref_at d p c.
Proof. unfold prefN, pref_at. destruct (nth_error (i_choosers d) p) as [x|]; auto. destruct (nth_error (cs_prefs x) c) eqn:E; [symmetry; apply nth_error_nth; auto|]. apply nth_error_None in E. symmetry. apply nth_overflow. auto. Qed.
Lemma sum_zsum {A} (g : A -> Z) l : fold_right Z.add 0%Z (map g l) = zsum g l.
Proof. induction l as [|a l IH]; auto. cbn [map fold_right]. rewrite IH. reflexivity. Qed.

Lemma zsum_ones {A} (l : list A) : zsum (fun _ => 1%Z) l = Z.of_nat (length l).
Proof. induction l as [|a l IH]; auto. rewrite zsum_cons, IH. cbn [length]. lia. Qed.
Section Decode.
Context (pr : profile) (d : input_data) (sd : static) (HW : wf_input d) (HL : layout d sd) (HG : grouped d).
Context (cost : N -> Z) (S : scheduling) (st : sched_state) (limit : N) (HSt : state_for pr d S st).
Context (f : flow) (HB : built d cost S st limit f).
Context (Hsum : forall s, (slot_sum ch_min (i_choices d) S s <= u32_max)%N).
Local Notation lp_point := (lp_point d S st limit).
Local Notation point_of := (point_of d S st limit).

(** [A] is read off [V]. *)
Definition reads (V : nat -> nat -> nat -> Z) (A : assignment) : Prop :=
  length A = np d /\ forall p row, nth_error A p = Some row -> length row = ns d /\
    forall s, s < ns d -> exists c, nth_error row s = Some c /\ scheduled_in S c s /\ V p s c = 1%Z.

Lemma seat_unique V W p s c c' : lp_point V W -> p < np d -> scheduled_in S c s -> scheduled_in S c' s -> V p s c = 1%Z -> V p s c' = 1%Z -> c = c'.
Proof.
  intros HP Hp Hc Hc' E E'. destruct (slot_list pr d S st HSt s) as [l Hl]; [apply (sched_lt pr d S st HSt c s Hc)|].
  destruct (zsum_unit (V p s) l) as (x & _ & _ & Hu).
  - eapply slot_list_nd; eauto.
  - intros a Ha. apply (lp_01 _ _ _ _ _ _ HP); auto. eapply slot_list_in; eauto.
  - eapply lp_seat; eauto.
  - rewrite (Hu c), (Hu c'); auto; eapply slot_list_in; eauto.
Qed.
Lemma value_look x k : x <> [] -> length x = length (fl_edges f) -> value_at f x k = Ok (look f x k).
Proof.
  intros Hne HLx. unfold value_at, look. destruct x as [|z x]; [contradiction|]. destruct (find_edge f k) as [i|] eqn:Ef; auto.
  apply get_ok. apply nth_error_nth'. rewrite HLx. eapply find_range; eauto.
Qed.
Lemma decode_reads V W : lp_point V W -> exists A, decode d sd st f (point_of V W) = Ok A /\ reads V A.
Proof.
  intros HP. pose proof (lp_01 _ _ _ _ _ _ HP) as H01. pose proof (lp_allowed _ _ _ _ _ _ HP) as HA.
  assert (G : forall p s, p < np d -> s < ns d -> exists c, (let* from := chooser_node sd p s in let* cs := get (ss_by_slot st) s in pick f sd (point_of V W) from cs) = Ok c /\ scheduled_in S c s /\ V p s c = 1%Z).
  { intros p s Hp Hs. rewrite (proj2 (chooser_node_ok d sd HL p s _) (conj Hp (conj Hs eq_refl))). cbn [bind].
    destruct (slot_list pr d S st HSt s Hs) as [l Hl]. rewrite (proj2 (get_ok _ _ _) Hl). cbn [bind].
    destruct (zsum_unit (V p s) l) as (x & Hx & Ex & Hu).
    { eapply slot_list_nd; eauto. } { intros a Ha. apply H01; auto. eapply slot_list_in; eauto. } { eapply lp_seat; eauto. }
    assert (Hxs : scheduled_in S x s) by (eapply slot_list_in; eauto). exists x. split; [|auto].
    assert (Hne : point_of V W <> []).
    { intros E. pose proof (point_length d cost S st limit f HB V W) as L. rewrite E in L.
      assert (In (p, s, x) (tris d st limit)) as Ht by (apply (tris_in pr d S st limit HSt); destruct (HA p s x Hp Hxs Ex); auto).
      pose proof (edges_split d cost S st limit f HB) as ES. rewrite ES, app_length, !map_length in L. destruct (tris d st limit); [destruct Ht|discriminate]. }
    assert (Hsub : forall c, In c l -> scheduled_in S c s) by (intros c Hc; eapply slot_list_in; eauto).
    clear - Hx Ex Hu Hsub Hne HP H01 HA Hp HB HSt HL. induction l as [|c l IH]; [destruct Hx|]. cbn [pick].
    assert (Hc : scheduled_in S c s) by (apply Hsub; left; auto). destruct (sched_lt pr d S st HSt c s Hc) as [Hcl _].
    rewrite (proj2 (choice_node_ok d sd HL c _) (conj Hcl eq_refl)). cbn [bind].
    destruct (seat_is_small pr d cost S st limit HSt f HB p s c Hp Hc) as [U1 U2].
    rewrite (proj2 (edge_id_ok _ _ _) (conj (conj U1 U2) eq_refl)). cbn [bind].
    rewrite value_look; auto; [|apply (point_length d cost S st limit f HB)]. cbn [bind].
    rewrite (look_seat pr d cost S st limit HSt f HB V W p s c); auto. destruct (Z.eqb_spec (V p s c) 1) as [E|E].
    - f_equal. apply Hu; auto. left; auto.
    - apply IH; auto.
      + destruct Hx as [->|Hx]; [contradiction|auto].
      + intros y Hy. apply Hu. right; auto.
      + intros c' Hc'. apply Hsub. right; auto. }
  unfold decode.
  destruct (mmap_ok (fun p => mmap (fun s => let* from := chooser_node sd p s in let* cs := get (ss_by_slot st) s in pick f sd (point_of V W) from cs) (seq 0 (ns d))) (seq 0 (np d))) as [A EA].
  { intros p Hp. apply in_seq in Hp. apply mmap_ok. intros s Hs. apply in_seq in Hs. destruct (G p s) as (c & E & _); try lia. eauto. }
  exists A. split; auto. split.
  - rewrite (mmap_length _ _ _ EA). apply seq_length.
  - intros p row Hrow. assert (Hp : p < np d) by (rewrite <- (seq_length (np d) 0), <- (mmap_length _ _ _ EA); apply nth_error_Some; congruence).
    destruct (mmap_nth _ _ _ p p EA) as (row' & Hrow' & ER). { rewrite nth_error_seq. apply Nat.ltb_lt in Hp. rewrite Hp. auto. }
    assert (row' = row) as -> by congruence. split; [rewrite (mmap_length _ _ _ ER); apply seq_length|]. intros s Hs.
    destruct (mmap_nth _ _ _ s s ER) as (c & Hc & EC). { rewrite nth_error_seq. apply Nat.ltb_lt in Hs. rewrite Hs. auto. }
    destruct (G p s Hp Hs) as (c' & EC' & H1 & H2). assert (c' = c) as -> by congruence. eauto.
Qed.

Section Reads.
Context (V : nat -> nat -> nat -> Z) (W : nat -> Z) (A : assignment) (HP : lp_point V W) (HR : reads V A).
Lemma reads_row p : p < np d -> exists row, nth_error A p = Some row.
Proof. intros Hp. destruct HR as [L _]. destruct (nth_error A p) eqn:E; [eauto|apply nth_error_None in E; lia]. Qed.
Lemma reads_lt p row : nth_error A p = Some row -> p < np d.
Proof. intros H. destruct HR as [<- _]. apply nth_error_Some. congruence. Qed.
Lemma reads_in p row c : nth_error A p = Some row -> (In c row <-> exists s, scheduled_in S c s /\ V p s c = 1%Z).
Proof.
  intros Hrow. pose proof (reads_lt p row Hrow) as Hp. destruct HR as [_ H]. destruct (H p row Hrow) as [L HS]. split.
  - intros Hc. apply In_nth_error in Hc as [s Hs]. assert (s < ns d) by (rewrite <- L; apply nth_error_Some; congruence). destruct (HS s) as (c' & H1 & H2 & H3); auto.
    assert (c' = c) as -> by congruence. eauto.
  - intros (s & Hc & E). destruct (HS s) as (c' & H1 & H2 & H3); [apply (sched_lt pr d S st HSt c s Hc)|].
    assert (c' = c) as -> by (eapply seat_unique; eauto). eapply nth_error_In; eauto.
Qed.
Lemma reads_attends p c : attends A p c <-> p < np d /\ exists s, scheduled_in S c s /\ V p s c = 1%Z.
Proof.
  split.
  - intros (row & Hrow & Hc). split; [eapply reads_lt; eauto|]. apply (reads_in p row c Hrow). auto.
  - intros (Hp & H). destruct (reads_row p Hp) as [row Hrow]. exists row. split; auto. apply (reads_in p row c Hrow). auto.
Qed.
Lemma reads_attends_at p c s : scheduled_in S c s -> (attends A p c <-> p < np d /\ V p s c = 1%Z).
Proof.
  intros Hc. rewrite reads_attends. split.
  - intros (Hp & s' & Hc' & E). unfold scheduled_in in *. assert (s' = s) as -> by congruence. auto.
  - intros (Hp & E). eauto.
Qed.
Lemma held_sched c : held S c <-> exists s, scheduled_in S c s. Proof. reflexivity. Qed.

Lemma reads_allowed : allowed d S limit A.
Proof.
  pose proof (lp_01 _ _ _ _ _ _ HP) as H01. pose proof (lp_allowed _ _ _ _ _ _ HP) as HA.
  assert (HT : forall a b, tied d a b -> held S a -> held S b -> forall p, attends A p a <-> attends A p b).
  { intros a b Hab (sa & Ha) (sb & Hb) p. rewrite (reads_attends_at p a sa Ha), (reads_attends_at p b sb Hb).
    destruct (Nat.eq_dec a b) as [->|Hne]. { unfold scheduled_in in *. assert (sa = sb) as -> by congruence. tauto. }
    destruct (sched_lt pr d S st HSt a sa Ha) as [Hal _]. destruct (sched_lt pr d S st HSt b sb Hb) as [Hbl _].
    destruct (gr_cover _ HG a Hal) as (g & Hg & Hag). assert (Hbg : In b g) by (apply (gr_class _ HG g a b Hg Hag Hbl); auto).
    assert (Hlen : length g <> 1). { destruct g as [|x [|y g]]; cbn; try lia; try (destruct Hag; fail). destruct Hag as [<-|[]], Hbg as [<-|[]]. contradiction. }
    split; intros [Hp E]; split; auto; [rewrite <- (lp_groups _ _ _ _ _ _ HP g p a sa b sb)|rewrite (lp_groups _ _ _ _ _ _ HP g p a sa b sb)]; auto. }
  constructor; auto.
  - destruct HR as [L H]. split; auto. intros p row Hrow. destruct (H p row Hrow) as [LR HS]. split; auto. split.
    + intros c Hc. apply (reads_in p row c Hrow) in Hc as (s & Hc & _). exists s. auto.
    + intros s Hs. destruct (HS s Hs) as (c & H1 & H2 & H3). exists c. split; [split; auto; eapply nth_error_In; eauto|].
      intros c' [Hc' Hs']. apply (reads_in p row c' Hrow) in Hc' as (s' & Hc' & E). unfold scheduled_in in *. assert (s' = s) as -> by congruence.
      eapply seat_unique; eauto. eapply reads_lt; eauto.
  - intros c ch Hch (s & Hc). exists (length (filter (fun p => Z.eqb (V p s c) 1) (seq 0 (np d)))). split.
    + exists (filter (fun p => Z.eqb (V p s c) 1) (seq 0 (np d))). split; [apply NoDup_filter, seq_NoDup|]. split; auto.
      intros p. rewrite filter_In, in_seq, Z.eqb_eq, (reads_attends_at p c s Hc). split; intros [? ?]; split; auto; lia.
    + pose proof (lp_room _ _ _ _ _ _ HP c s Hc) as ER. pose proof (lp_width _ _ _ _ _ _ HP c s Hc) as EW.
      rewrite (zsum_ext _ (fun p => if Z.eqb (V p s c) 1 then 1%Z else 0%Z)) in ER.
      * rewrite zsum_count in ER. unfold minN, maxN in *. rewrite Hch in *. lia.
      * intros p Hp. apply in_seq in Hp. destruct (H01 p s c) as [-> | ->]; auto. lia.
  - intros k Hk. pose proof (wf_asg _ HW k Hk) as Wk. unfold asg_shape in Wk. unfold asg_means. destruct (c_kind k) eqn:Ek; try (exfalso; exact Wk); destruct (c_right k) eqn:Er; try (exfalso; exact Wk).
    + intros Ha Hb p. apply HT; auto. apply rst_step. exists (c_extra k). rewrite <- Ek, <- Er. destruct k; auto.
    + intros (s & Hc). apply (reads_attends_at _ c s Hc). destruct Wk as [Hp _]. split; auto.
      destruct (reads_row _ Hp) as [row Hrow]. destruct HR as [_ H]. destruct (H _ _ Hrow) as [_ HS]. destruct (HS s) as (c' & H1 & H2 & H3); [apply (sched_lt pr d S st HSt c s Hc)|].
      destruct (Nat.eq_dec c' c) as [->|Hne]; auto. exfalso. destruct (HA _ _ _ Hp H2 H3) as [_ HBn]. apply HBn. exists k. split; auto. split; auto. left. split; auto. exists c. auto.
    + intros Hat. apply reads_attends in Hat as (Hp & s & Hc & E). destruct (HA _ _ _ Hp Hc E) as [_ HBn]. apply HBn. exists k. split; auto. split; auto. right. repeat split; auto.
      apply (sched_lt pr d S st HSt c s Hc).
    + destruct Wk as [W1 W2]. intros c. rewrite !reads_attends. split; intros (_ & s & Hc & E); split; auto; exists s; split; auto.
      * rewrite <- (lp_pairs _ _ _ _ _ _ HP k _ c s Hk Ek Er Hc). auto.
      * rewrite (lp_pairs _ _ _ _ _ _ HP k _ c s Hk Ek Er Hc). auto.
  - intros p c y _ Hat Hy. apply reads_attends in Hat as (Hp & s & Hc & E). destruct (HA _ _ _ Hp Hc E) as [HL1 _]. apply prefN_pref in Hy. lia.
Qed.

Lemma reads_cost : objective f (point_of V W) = assignment_cost d cost A.
Proof.
  rewrite (objective_eq d cost S st limit f HB).
  rewrite (tris_sum pr d S st limit HSt (fun t => (cost (prefN d (fst (fst t)) (snd t)) * V (fst (fst t)) (snd (fst t)) (snd t))%Z)).
  2: { intros p s c Hp Hc Hni. cbn [fst snd]. destruct (lp_01 _ _ _ _ _ _ HP p s c Hp Hc) as [-> |E]; [lia|]. exfalso. apply Hni. apply (tris_in pr d S st limit HSt).
       destruct (lp_allowed _ _ _ _ _ _ HP p s c Hp Hc E). auto. }
  unfold assignment_cost. rewrite sum_zsum.
  pose (cost_at p := match nth_error A p with Some row => row_cost d cost p row | None => 0%Z end).
  transitivity (zsum cost_at (seq 0 (np d))).
  - apply zsum_ext. intros p Hp. apply in_seq in Hp. unfold cost_at. destruct (reads_row p) as [row Hrow]; [lia|]. rewrite Hrow. destruct HR as [_ H]. destruct (H p row Hrow) as [LR HS].
    unfold row_cost. rewrite sum_zsum.
    pose (at_s s := match nth_error row s with Some c => cost (pref_at d p c) | None => 0%Z end).
    transitivity (zsum at_s (seq 0 (ns d))).
    + pose proof (ho_len _ _ _ _ (sf_holds _ _ _ _ HSt)) as LB. cbn [fst] in LB.
      transitivity (zsum (fun sc : nat * list nat => at_s (fst sc)) (combine (seq 0 (length (ss_by_slot st))) (ss_by_slot st))).
      * apply zsum_ext. intros [s l] Hin. apply in_indexed in Hin. cbn [fst snd]. pose proof (slot_list_lt pr d S st HSt _ _ Hin) as Hs. destruct (HS s Hs) as (c & H1 & H2 & H3).
        unfold at_s. rewrite H1. rewrite (zsum_one _ l c); [cbn [fst snd]; rewrite H3, prefN_at; lia|eapply slot_list_nd; eauto|eapply slot_list_in; eauto|].
        intros c' Hc' Hne. cbn [fst snd]. assert (Hcs : scheduled_in S c' s) by (eapply slot_list_in; eauto). destruct (lp_01 _ _ _ _ _ _ HP p s c' ltac:(lia) Hcs) as [-> |E]; [lia|].
        exfalso. apply Hne. eapply seat_unique; eauto. lia.
      * rewrite <- LB. clear. generalize 0 as k. induction (ss_by_slot st) as [|a l IH]; intros k; auto. cbn [length seq combine]. rewrite !zsum_cons. cbn [fst]. rewrite IH. auto.
    + rewrite <- LR. unfold at_s. clear. transitivity (zsum (fun s => match nth_error row (s - 0) with Some c => cost (pref_at d p c) | None => 0%Z end) (seq 0 (length row))).
      { apply zsum_ext. intros a _. rewrite Nat.sub_0_r. auto. }
      generalize 0 as k. induction row as [|a l IH]; intros k; auto. cbn [length seq]. rewrite !zsum_cons. rewrite Nat.sub_diag. cbn [nth_error]. f_equal. rewrite <- (IH (Datatypes.S k)).
      apply zsum_ext. intros s Hs. apply in_seq in Hs. replace (s - k) with (Datatypes.S (s - Datatypes.S k)) by lia. auto.
  - destruct HR as [<- _]. unfold cost_at. clear. transitivity (zsum (fun p => match nth_error A (p - 0) with Some row => row_cost d cost p row | None => 0%Z end) (seq 0 (length A))).
    { apply zsum_ext. intros a _. rewrite Nat.sub_0_r. auto. }
    generalize 0 as k. induction A as [|a l IH]; intros k; auto. cbn [length seq combine]. rewrite !zsum_cons. rewrite Nat.sub_diag. cbn [nth_error fst snd]. f_equal. rewrite <- (IH (Datatypes.S k)).
    apply zsum_ext. intros s Hs. apply in_seq in Hs. replace (s - k) with (Datatypes.S (s - Datatypes.S k)) by lia. auto.
Qed.
End Reads.

(** ** From an assignment to a point *)
Definition goes (A : assignment) (p c : nat) : bool := match nth_error A p with Some row => existsb (Nat.eqb c) row | None => false end.
Lemma goes_iff A p c : goes A p c = true <-> attends A p c.
Proof.
  unfold goes, attends. destruct (nth_error A p) as [row|].
  - rewrite existsb_exists. split.
    + intros (x & Hx & E). apply Nat.eqb_eq in E as <-. eauto.
    + intros (row' & E & Hc). injection E as <-. exists c. split; auto. apply Nat.eqb_refl.
  - split; [discriminate|]. intros (row & E & _). discriminate.
Qed.
Definition V_asg (A : assignment) (p s c : nat) : Z := if goes A p c then 1%Z else 0%Z.
Definition W_asg (A : assignment) (c : nat) : Z := (zsum (fun p => if goes A p c then 1 else 0)%Z (seq 0 (np d)) - Z.of_N (minN d c))%Z.
Lemma asg_point A : allowed d S limit A -> lp_point (V_asg A) (W_asg A).
Proof.
  intros HA.
  assert (V1 : forall p s c, V_asg A p s c = 1%Z <-> attends A p c) by (intros p s c; unfold V_asg; rewrite <- goes_iff; destruct (goes A p c); split; congruence).
  assert (Vatt : forall p s c p' s' c', (attends A p c <-> attends A p' c') -> V_asg A p s c = V_asg A p' s' c').
  { intros p s c p' s' c' H. unfold V_asg. rewrite <- !goes_iff in H. destruct (goes A p c), (goes A p' c'); auto; [apply proj1 in H|apply proj2 in H]; specialize (H eq_refl); discriminate. }
  destruct (al_one _ _ _ _ HA) as [LA HOne].
  assert (One : forall p s c c', scheduled_in S c s -> scheduled_in S c' s -> attends A p c -> attends A p c' -> c = c').
  { intros p s c c' Hc Hc' (row & Hrow & Hin) (row' & Hrow' & Hin'). assert (row' = row) as -> by congruence. destruct (HOne p row Hrow) as (_ & _ & HU).
    destruct (HU s) as (x & _ & Hu); [apply (sched_lt pr d S st HSt c s Hc)|]. rewrite <- (Hu c), <- (Hu c'); auto. }
  assert (Sum1 : forall p s l, p < np d -> nth_error (ss_by_slot st) s = Some l -> zsum (V_asg A p s) l = 1%Z).
  { intros p s l Hp Hl. destruct (nth_error A p) as [row|] eqn:Hrow; [|apply nth_error_None in Hrow; lia]. destruct (HOne p row Hrow) as (_ & _ & HU).
    destruct (HU s) as (x & (Hx1 & Hx2) & Hu); [eapply slot_list_lt; eauto|]. rewrite (zsum_one _ l x); [|eapply slot_list_nd; eauto|eapply slot_list_in; eauto|].
    - apply V1. exists row. auto.
    - intros c Hc Hne. assert (Hcs : scheduled_in S c s) by (eapply slot_list_in; eauto). unfold V_asg. destruct (goes A p c) eqn:E; auto. apply goes_iff in E. exfalso. apply Hne. eapply One; eauto. exists row; auto. }
  assert (Card : forall c s, scheduled_in S c s -> (Z.of_N (minN d c) <= zsum (fun p => if goes A p c then 1 else 0) (seq 0 (np d)) <= Z.of_N (maxN d c))%Z).
  { intros c s Hc. destruct (sched_lt pr d S st HSt c s Hc) as [Hcl _]. destruct (nth_error (i_choices d) c) as [ch|] eqn:Hch; [|apply nth_error_None in Hch; lia].
    destruct (al_bounds _ _ _ _ HA c ch Hch) as (m & Hm & Hb); [exists s; auto|]. rewrite zsum_count.
    assert (length (filter (fun p => goes A p c) (seq 0 (np d))) = m) as ->.
    { eapply cardinal_unique; [|exact Hm]. exists (filter (fun p => goes A p c) (seq 0 (np d))). split; [apply NoDup_filter, seq_NoDup|]. split; auto. intros p. rewrite filter_In, in_seq, goes_iff.
      split; [tauto|]. intros Hat. split; auto. destruct Hat as (row & Hrow & _). assert (p < length A) by (apply nth_error_Some; congruence). lia. }
    unfold minN, maxN. rewrite Hch. lia. }
  constructor.
  - intros p s c _ _. unfold V_asg. destruct (goes A p c); auto.
  - intros p s c Hp Hc E. apply V1 in E. destruct (sched_lt pr d S st HSt c s Hc) as [Hcl Hsl]. split.
    + apply (al_prefs _ _ _ _ HA p c); auto. apply prefN_of; auto.
    + intros (k & Hk & Ep & [(Ek & c0 & Er & Hne & H0 & _)|(Ek & Er & _)]); pose proof (al_cons _ _ _ _ HA k Hk) as M; unfold asg_means in M; rewrite Ek, Er in M.
      * apply Hne. rewrite Ep in M. eapply One; eauto. apply M. exists s. auto.
      * rewrite Ep in M. auto.
  - intros c s Hc. pose proof (Card c s Hc). unfold W_asg. lia.
  - exact Sum1.
  - intros c s Hc. unfold W_asg, V_asg. lia.
  - intros s l Hl. unfold W_asg. rewrite zsum_sub.
    rewrite (zsum_swap (fun c p => if goes A p c then 1%Z else 0%Z)). rewrite (zsum_ext _ (fun _ => 1%Z)).
    2: { intros p Hp. apply in_seq in Hp. apply (Sum1 p s l); auto. lia. }
    rewrite zsum_ones, seq_length.
    f_equal.
    rewrite (slot_sum_lsum ch_min (i_choices d) S s (sf_len _ _ _ _ HSt)).
    assert (GL : forall l, (forall c, In c l -> scheduled_in S c s) -> zsum (fun c => Z.of_N (minN d c)) l = Z.of_N (lsum (contrib ch_min (i_choices d) S s) l)).
    { clear - HSt. induction l as [|c l IH]; intros H; auto. rewrite zsum_cons, lsum_cons, IH by (intros; apply H; right; auto). pose proof (H c (or_introl eq_refl)) as Hc.
      destruct (sched_lt pr d S st HSt c s Hc) as [Hcl _]. unfold contrib, minN, weigh. unfold scheduled_in in Hc. rewrite Hc. destruct (nth_error (i_choices d) c) eqn:E; [|apply nth_error_None in E; lia].
      rewrite Nat.eqb_refl. lia. }
    rewrite GL by (intros c Hc; eapply slot_list_in; eauto). f_equal.
    assert (GF : forall l', lsum (contrib ch_min (i_choices d) S s) l' = lsum (contrib ch_min (i_choices d) S s) (filter (fun c => opt_nat_eqb (match nth_error S c with Some x => x | None => None end) (Some s)) l')).
    { clear. induction l' as [|c l IH]; auto. cbn [filter]. rewrite lsum_cons, IH. unfold contrib at 1. destruct (nth_error S c) as [[t|]|] eqn:Es.
      - cbn [opt_nat_eqb]. destruct (Nat.eqb_spec t s) as [->|Hne].
        + rewrite lsum_cons. unfold contrib at 2. rewrite Es. auto.
        + destruct (nth_error (i_choices d) c); auto. cbn [weigh]. destruct (Nat.eqb_spec t s); [contradiction|]. lia.
      - cbn [opt_nat_eqb]. destruct (nth_error (i_choices d) c); auto.
      - cbn [opt_nat_eqb]. destruct (nth_error (i_choices d) c); auto. }
    rewrite GF. rewrite (GF (seq 0 (nc d))). apply lsum_perm. apply NoDup_Permutation; [apply NoDup_filter; eapply slot_list_nd; eauto|apply NoDup_filter, seq_NoDup|].
    intros c. rewrite !filter_In, in_seq, opt_nat_eqb_spec. rewrite (slot_list_in pr d S st HSt s l c Hl). unfold scheduled_in. split.
    + intros [H1 H2]. split; auto. split; [lia|]. rewrite <- (sf_len _ _ _ _ HSt). cbn. apply nth_error_Some. congruence.
    + intros [H1 H2]. split; auto. destruct (nth_error S c); [congruence|discriminate].
  - intros k p' c s Hk Ek Er Hc. apply Vatt. pose proof (al_cons _ _ _ _ HA k Hk) as M. unfold asg_means in M. rewrite Ek, Er in M. apply M.
  - intros g p a sa b sb Hg _ Hp Ha Hb Hsa Hsb. apply Vatt. apply (al_tied _ _ _ _ HA).
    + apply (gr_class _ HG g a b Hg Ha); auto. apply (gr_range _ HG g b Hg Hb).
    + exists sa; auto.
    + exists sb; auto.
Qed.

Lemma asg_reads_same A B : allowed d S limit A -> reads (V_asg A) B -> same_attendance A B.
Proof.
  intros HA HR p c. pose proof (asg_point A HA) as HP. rewrite (reads_attends (V_asg A) (W_asg A) B HP HR). unfold V_asg. split.
  - intros Hat. pose proof Hat as (row & Hrow & Hin). destruct (al_one _ _ _ _ HA) as [LA HOne]. split; [rewrite <- LA; apply nth_error_Some; congruence|].
    destruct (HOne p row Hrow) as (_ & Hh & _). destruct (Hh c Hin) as (s & Hc). exists s. split; auto. apply goes_iff in Hat. rewrite Hat. auto.
  - intros (_ & s & Hc & E). apply goes_iff. destruct (goes A p c); [auto|discriminate].
Qed.
End Decode.
Lemma zsum_perm_row d cost p r1 r2 : Permutation r1 r2 -> row_cost d cost p r1 = row_cost d cost p r2.
Proof. intros H. unfold row_cost. rewrite !sum_zsum. apply zsum_perm. auto. Qed.
