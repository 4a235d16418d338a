(** The instance can always be built; exactness of one limit; the level search. *)
From Verif Require Import Base M_Data M_Scoring M_Flow Spec Spec_Search Spec_Flow P_Scoring P_Sums P_Search1 P_Feasible P_Flow1 P_Flow2 P_Flow3 P_Flow4 P_Flow5.
From Coq Require Import Permutation Relation_Operators Sorted.

Local Notation np d := (length (i_choosers d)).
Local Notation nc d := (length (i_choices d)).
Local Notation ns d := (length (i_slots d)).

Lemma mfold_total {A B} (P : B -> Prop) (f : B -> A -> outcome B) l b :
  P b -> (forall b x, In x l -> P b -> exists b', f b x = Ok b' /\ P b') -> exists r, mfold f l b = Ok r /\ P r.
Proof.
  revert b; induction l as [|a l IH]; intros b Hb H; cbn [mfold]; [eauto|].
  destruct (H b a (or_introl eq_refl) Hb) as (b' & -> & Hb'). cbn [bind]. apply IH; auto. intros; apply H; auto. right; auto.
Qed.

(** The library solves every instance exactly: it answers with an optimal point,
    or says no when there is none. *)
Definition exact_lp (ev : env) : Prop := forall t f,
  match ev_lp ev t f with
  | Some g => feasible_point f (map g (seq 0 (length (fl_edges f)))) /\
              forall y, feasible_point f y -> (objective f (map g (seq 0 (length (fl_edges f)))) <= objective f y)%Z
  | None => forall y, ~ feasible_point f y
  end.

Lemma allowed_mono d S l l' A : (l <= l')%N -> allowed d S l A -> allowed d S l' A.
Proof. intros H [H1 H2 H3 H4 H5]. constructor; auto. intros p c y Hp Hat Hy. specialize (H5 p c y Hp Hat Hy). lia. Qed.

Section Solve.
Context (pr : profile) (d : input_data) (sd : static) (HW : wf_input d) (HL : layout d sd) (HG : grouped d) (HZ : solvable_size d).
Context (cost : N -> Z) (S : scheduling) (st : sched_state) (HSt : state_for pr d S st).
Context (Hsum : forall s, (slot_sum ch_min (i_choices d) S s <= N.of_nat (np d))%N).

Lemma sums_u32 s : (slot_sum ch_min (i_choices d) S s <= u32_max)%N.
Proof. pose proof (Hsum s). pose proof (sz_choosers _ HZ). unfold u32_max, i32_max in *. lia. Qed.
Lemma small_node n : n < nodes d -> (N.of_nat n <= u32_max)%N.
Proof. intros H. pose proof (sz_nodes _ HZ). unfold nodes in H. lia. Qed.
Lemma set_supply_total f n v : node_count f = nodes d -> n < nodes d -> exists f', set_supply f n v = Ok f' /\ node_count f' = nodes d.
Proof.
  intros HN Hn. unfold set_supply, set. unfold node_count in HN. destruct (Nat.ltb_spec n (length (fl_supply f))); [|lia]. cbn [bind]. eexists. split; eauto.
  unfold node_count. cbn. rewrite upd_length. auto.
Qed.
Lemma as_i32_total n : (Z.of_N n <= i32_max)%Z -> as_i32 n = Ok (Z.of_N n).
Proof. intros H. unfold as_i32. apply Z.leb_le in H. rewrite H. auto. Qed.
Lemma create_count f ks : node_count (create_edge_group f ks) = node_count f.
Proof. unfold create_edge_group. destruct (forallb _ ks); auto. Qed.
Lemma seat_node p s : p < np d -> s < ns d -> chooser_node sd p s = Ok (seat d p s).
Proof. intros Hp Hs. apply (chooser_node_ok d sd HL). auto. Qed.
Lemma room_node c : c < nc d -> get (sd_choice sd) c = Ok (room d c).
Proof. intros Hc. apply (choice_node_ok d sd HL). auto. Qed.
Lemma exit_node s : s < ns d -> get (sd_slot sd) s = Ok (exit d s).
Proof. intros Hs. apply (slot_node_ok d sd HL). auto. Qed.
Lemma edge_total a b : a < nodes d -> b < nodes d -> edge_id a b = Ok (key a b).
Proof. intros Ha Hb. apply edge_id_ok. auto using small_node. Qed.
Lemma choice_at c : c < nc d -> exists ch, get (i_choices d) c = Ok ch /\ In ch (i_choices d).
Proof. intros Hc. destruct (nth_error (i_choices d) c) as [ch|] eqn:E; [|apply nth_error_None in E; lia]. exists ch. split; [apply get_ok; auto|eapply nth_error_In; eauto]. Qed.

Lemma build_total limit : exists f, build_flow pr d sd cost st limit = Ok f.
Proof.
  pose proof (sz_choosers _ HZ) as HC.
  assert (P0 : node_count (sd_flow sd) = nodes d) by (rewrite (la_flow _ _ HL); unfold node_count; cbn; apply repeat_length).
  unfold build_flow.
  assert (exists f1, flow_supplies d sd st (sd_flow sd) = Ok f1 /\ node_count f1 = nodes d) as (f1 & -> & P1).
  { unfold flow_supplies.
    destruct (mfold_total (fun f => node_count f = nodes d) (fun f p => mfold (fun f s => let* n := chooser_node sd p s in set_supply f n 1) (seq 0 (ns d)) f) (seq 0 (np d)) (sd_flow sd) P0) as (g1 & -> & Q1).
    { intros b p Hp Hb. apply in_seq in Hp. apply mfold_total; auto. intros b' s Hs Hb'. apply in_seq in Hs. rewrite seat_node by lia. cbn [bind]. apply set_supply_total; auto. apply seat_nodes; lia. }
    cbn [bind]. rewrite (sf_slots _ _ _ _ HSt).
    match goal with |- context [mfold ?F (combine (seq 0 (length S)) S) g1] => destruct (mfold_total (fun f => node_count f = nodes d) F (combine (seq 0 (length S)) S) g1 Q1) as (g2 & -> & Q2) end.
    { intros b [c x] Hin Hb. apply in_indexed in Hin. cbn [fst snd]. destruct x as [s|]; eauto. destruct (sched_lt pr d S st HSt c s Hin) as [Hc Hs]. rewrite room_node by auto. cbn [bind].
      destruct (choice_at c Hc) as (ch & -> & Hch). cbn [bind]. destruct (sz_bounds _ HZ ch Hch). rewrite as_i32_total by lia. cbn [bind]. apply set_supply_total; auto. apply room_lt; auto. }
    cbn [bind]. apply mfold_total; auto. intros b s Hs Hb. apply in_seq in Hs. rewrite exit_node by lia. cbn [bind].
    unfold to_i32. destruct (Z.leb_spec (Z.of_nat (np d)) i32_max); [|lia]. cbn [bind].
    pose proof (ho_clen _ _ _ _ (sf_holds _ _ _ _ HSt)) as LC. cbn [snd] in LC. destruct (nth_error (ss_cov st) s) as [v|] eqn:Ev; [|apply nth_error_None in Ev; lia].
    rewrite (proj2 (get_ok _ _ _) Ev). cbn [bind]. assert (v = slot_sum ch_min (i_choices d) S s) as -> by (eapply cov_exact; eauto using sums_u32).
    rewrite as_i32_total by (pose proof (Hsum s); lia). cbn [bind]. apply set_supply_total; auto. apply exit_lt; lia. }
  cbn [bind].
  assert (exists f2, flow_chooser_edges d sd st cost limit f1 = Ok f2 /\ node_count f2 = nodes d) as (f2 & -> & P2).
  { unfold flow_chooser_edges. apply mfold_total; auto. intros b p Hp Hb. apply in_seq in Hp. apply mfold_total; auto. intros b1 [s l] Hin Hb1. apply in_indexed in Hin. cbn [fst snd].
    apply mfold_total; auto. intros b2 c Hc Hb2. assert (Hcs : scheduled_in S c s) by (eapply slot_list_in; eauto). destruct (sched_lt pr d S st HSt c s Hcs) as [Hcl Hsl]. unfold chooser_edge.
    rewrite seat_node by lia. cbn [bind]. destruct (prefN_of d p c HW ltac:(lia) Hcl) as (x & Hx & Hy). rewrite (proj2 (get_ok _ _ _) Hx). cbn [bind]. rewrite (proj2 (get_ok _ _ _) Hy). cbn [bind].
    destruct (limit <? prefN d p c)%N; eauto. rewrite room_node by auto. cbn [bind]. destruct (is_blocked st _ _); eauto. rewrite edge_total by (auto using room_lt; apply seat_nodes; lia). cbn [bind].
    rewrite add_keyed_total; [eauto|rewrite Hb2; apply seat_nodes; lia|rewrite Hb2; apply room_lt; auto]. }
  cbn [bind].
  assert (exists f3, flow_choice_edges pr d sd st f2 = Ok f3 /\ node_count f3 = nodes d) as (f3 & -> & P3).
  { unfold flow_choice_edges. rewrite (sf_slots _ _ _ _ HSt). apply mfold_total; auto. intros b [c x] Hin Hb. apply in_indexed in Hin. cbn [fst snd]. destruct x as [s|]; eauto.
    destruct (sched_lt pr d S st HSt c s Hin) as [Hc Hs]. rewrite room_node by auto. cbn [bind]. rewrite exit_node by auto. cbn [bind]. rewrite edge_total by auto using room_lt, exit_lt. cbn [bind].
    destruct (choice_at c Hc) as (ch & -> & Hch). cbn [bind]. destruct (sz_bounds _ HZ ch Hch) as [Hle Hmx]. unfold sub_u32. destruct (N.leb_spec (ch_min ch) (ch_max ch)); [|lia]. cbn [bind].
    rewrite as_i32_total by lia. cbn [bind]. rewrite add_keyed_total; [eauto|rewrite Hb; apply room_lt; auto|rewrite Hb; apply exit_lt; auto]. }
  cbn [bind]. unfold create_edge_groups.
  match goal with |- context [mfold ?F (i_assign d) f3] => destruct (mfold_total (fun f => node_count f = nodes d) F (i_assign d) f3 P3) as (f4 & -> & P4) end.
  { intros b k Hk Hb. unfold pair_groups. destruct (kind_eqb (c_kind k) ChoosersHaveSameChoices) eqn:Ek; cbn [negb]; eauto.
    pose proof (wf_asg _ HW k Hk) as W. unfold asg_shape in W. assert (Ekk : c_kind k = ChoosersHaveSameChoices) by (unfold kind_eqb in Ek; destruct (c_kind k); try discriminate; auto). rewrite Ekk in W.
    destruct (c_right k) as [| | |p'|] eqn:Er; try (exfalso; exact W). destruct W as [W1 W2]. unfold con_other_chooser. rewrite Er. cbn [bind].
    apply mfold_total; auto. intros b1 s Hs Hb1. apply in_seq in Hs. destruct (slot_list pr d S st HSt s) as [l Hl]; [lia|]. rewrite (proj2 (get_ok _ _ _) Hl). cbn [bind].
    apply mfold_total; auto. intros b2 c Hc Hb2. assert (Hcs : scheduled_in S c s) by (eapply slot_list_in; eauto). destruct (sched_lt pr d S st HSt c s Hcs) as [Hcl Hsl].
    rewrite seat_node by auto. cbn [bind]. rewrite room_node by auto. cbn [bind]. rewrite seat_node by auto. cbn [bind]. rewrite !edge_total by auto using room_lt, seat_nodes. cbn [bind]. eexists; split; eauto.
    rewrite create_count; auto. }
  cbn [bind].
  match goal with |- context [mfold ?F (i_groups d) f4] => destruct (mfold_total (fun f => node_count f = nodes d) F (i_groups d) f4 P4) as (f5 & -> & P5) end; eauto.
  intros b g Hg Hb. destruct (length g =? 1); eauto. apply mfold_total; auto. intros b1 p Hp Hb1. apply in_seq in Hp. unfold audience_group. rewrite (sf_slots _ _ _ _ HSt).
  match goal with |- context [mfold ?F g ?I] => destruct (mfold_total (fun _ : list N => True) F g I Logic.I) as (ks & -> & _) end.
  { intros ks c Hc _. pose proof (gr_range _ HG g c Hg Hc) as Hcl. destruct (nth_error S c) as [x|] eqn:Es; [|apply nth_error_None in Es; rewrite (sf_len _ _ _ _ HSt) in Es; lia].
    rewrite (proj2 (get_ok _ _ _) Es). cbn [bind]. destruct x as [s|]; eauto. destruct (sched_lt pr d S st HSt c s Es) as [_ Hs]. rewrite seat_node by (auto; lia). cbn [bind]. rewrite room_node by auto. cbn [bind].
    rewrite edge_total by (auto using room_lt; apply seat_nodes; auto; lia). cbn; eauto. }
  cbn [bind]. eexists. split; eauto. rewrite create_count. auto.
Qed.

(** The instance for a limit has a point iff there is an allowed assignment, and
    reading a point back gives an allowed assignment of the same cost. *)
Lemma instance_sound limit f x : build_flow pr d sd cost st limit = Ok f -> feasible_point f x ->
  exists A, decode d sd st f x = Ok A /\ allowed d S limit A /\ objective f x = assignment_cost d cost A.
Proof.
  intros HBf HF. apply (build_ok pr d sd HW HL cost S st limit HSt) in HBf as HB.
  destruct (feasible_is_point pr d cost S st limit HSt f HB sums_u32 x HF) as (V & W & HP & ->).
  destruct (decode_reads pr d sd HL cost S st limit HSt f HB V W HP) as (A & EA & HR).
  exists A. split; auto. split.
  - eapply reads_allowed; eauto.
  - eapply reads_cost; eauto.
Qed.
Lemma asg_rows limit f A : build_flow pr d sd cost st limit = Ok f -> allowed d S limit A ->
  exists x B, feasible_point f x /\ decode d sd st f x = Ok B /\ same_attendance A B /\ objective f x = assignment_cost d cost B /\ allowed d S limit B.
Proof.
  intros HBf HA. apply (build_ok pr d sd HW HL cost S st limit HSt) in HBf as HB.
  pose proof (asg_point pr d HW HG S st limit HSt A HA) as HP.
  pose proof (point_feasible pr d HW cost S st limit HSt f HB sums_u32 _ _ HP) as HF.
  destruct (decode_reads pr d sd HL cost S st limit HSt f HB _ _ HP) as (B & EB & HR).
  exists (point_of d S st limit (V_asg A) (W_asg d A)), B. split; auto. split; auto. split; [eapply asg_reads_same; eauto|]. split.
  - eapply reads_cost; eauto.
  - eapply reads_allowed; eauto.
Qed.

(** Permuting rows does not change the cost. *)
Lemma allowed_row_nodup limit A p row : allowed d S limit A -> nth_error A p = Some row -> NoDup row.
Proof.
  intros HA Hrow. destruct (al_one _ _ _ _ HA) as [_ H]. destruct (H p row Hrow) as (HLr & Hh & HU).
  assert (exists l, Forall2 (fun s c => In c row /\ scheduled_in S c s) (seq 0 (ns d)) l) as (l & Hl).
  { assert (G : forall k n, (forall s, s < k + n -> s < ns d) -> exists l, Forall2 (fun s c => In c row /\ scheduled_in S c s) (seq k n) l).
    { intros k n. revert k. induction n as [|n IH]; intros k Hlt; [exists []; constructor|]. cbn [seq]. destruct (IH (Datatypes.S k)) as (l & Hl); [intros; apply Hlt; lia|].
      destruct (HU k) as (c & Hc & _); [apply Hlt; lia|]. exists (c :: l). constructor; auto. }
    apply (G 0 (ns d)). auto. }
  assert (NDl : NoDup l /\ incl l row).
  { clear - Hl. assert (G : forall (ss : list nat) l, NoDup ss -> Forall2 (fun s c => In c row /\ scheduled_in S c s) ss l -> NoDup l /\ incl l row).
    { clear. assert (K : forall s c (ss l : list nat), scheduled_in S c s -> Forall2 (fun s c => In c row /\ scheduled_in S c s) ss l -> In c l -> In s ss).
      { intros s c ss l Hs HF. induction HF as [|t e ss l [_ Ht] HF IH]; intros Hin; [destruct Hin|]. destruct Hin as [->|Hin]; [|right; auto]. left. unfold scheduled_in in *. congruence. }
      intros ss l ND HF. induction HF as [|t e ss l [Hr Ht] HF IH]; [split; [constructor|intros x []]|].
      inversion ND as [|? ? Hni ND']; subst. destruct (IH ND') as [N1 N2]. split.
      - constructor; auto. intros Hin. apply Hni. eapply K; eauto.
      - intros x [<-|Hx]; auto. }
    apply (G (seq 0 (ns d)) l); auto. apply seq_NoDup. }
  destruct NDl as [NDl Hinc]. eapply (NoDup_incl_NoDup NDl); auto. assert (E : length (seq 0 (ns d)) = length l) by (clear - Hl; induction Hl; cbn; lia). rewrite seq_length in E. lia.
Qed.
Lemma same_cost limit A B : allowed d S limit A -> allowed d S limit B -> same_attendance A B -> assignment_cost d cost A = assignment_cost d cost B.
Proof.
  intros HA HB HS. unfold assignment_cost. rewrite !sum_zsum.
  assert (LA : length A = length B) by (destruct (al_one _ _ _ _ HA) as [-> _]; destruct (al_one _ _ _ _ HB) as [-> _]; auto). 
  assert (G : forall k A B, length A = length B -> (forall i ra rb, nth_error A i = Some ra -> nth_error B i = Some rb -> Permutation ra rb) ->
    zsum (fun q => row_cost d cost (fst q) (snd q)) (combine (seq k (length A)) A) = zsum (fun q => row_cost d cost (fst q) (snd q)) (combine (seq k (length B)) B)).
  { clear. intros k A. revert k. induction A as [|a A IH]; intros k [|b B] HL HP; try discriminate; auto. cbn [length seq combine]. rewrite !zsum_cons. cbn [fst snd]. f_equal.
    - apply zsum_perm_row. apply (HP 0); auto.
    - apply IH; [cbn in HL; lia|]. intros i ra rb Ha Hb. apply (HP (Datatypes.S i)); auto. }
  apply G; auto. intros i ra rb Ha Hb. apply NoDup_Permutation.
  - eapply allowed_row_nodup; [exact HA|eauto].
  - eapply allowed_row_nodup; [exact HB|eauto].
  - intros c. specialize (HS i c). unfold attends in HS. split; intros Hc.
    + destruct (proj1 HS) as (row & Hr & Hin); eauto. congruence.
    + destruct (proj2 HS) as (row & Hr & Hin); eauto. congruence.
Qed.

Lemma limit_exact ev limit t : exact_lp ev ->
  (exists A, solve_with_limit pr d sd cost ev false st limit t = Ok (LFeasible A, t + 4) /\ allowed d S limit A /\
     forall B, allowed d S limit B -> (assignment_cost d cost A <= assignment_cost d cost B)%Z) \/
  (solve_with_limit pr d sd cost ev false st limit t = Ok (LInfeasible, t + 4) /\ forall A, ~ allowed d S limit A).
Proof.
  intros HE. unfold solve_with_limit. cbn [andb]. destruct (build_total limit) as (f & EF). rewrite EF. cbn [bind]. specialize (HE (t + 2) f). destruct (ev_lp ev (t + 2) f) as [g|].
  - left. destruct HE as [HF HO]. destruct (instance_sound limit f _ EF HF) as (A & -> & HA & HC). cbn [bind]. exists A. split; auto. split; auto.
    intros B HB. destruct (asg_rows limit f B EF HB) as (x & B' & HF' & _ & HS & HO' & HA'). specialize (HO x HF'). rewrite (same_cost limit B B' HB HA' HS). lia.
  - right. split; auto. intros A HA. destruct (asg_rows limit f A EF HA) as (x & B & HF & _). eapply HE; eauto.
Qed.
End Solve.

(** ** The binary search over the levels *)
Section Levels.
Context {good : N -> assignment -> Prop} (Hmono : forall l l' A, (l <= l')%N -> good l A -> good l' A).
Context (solve : N -> nat -> outcome (limit_result * nat)) (levels : list N) (Hsort : StronglySorted N.lt levels).
Context (Hsolve : forall l t, In l levels -> (exists A t', solve l t = Ok (LFeasible A, t') /\ good l A) \/ (exists t', solve l t = Ok (LInfeasible, t') /\ forall A, ~ good l A)).
Lemma sorted_le i j a b : nth_error levels i = Some a -> nth_error levels j = Some b -> i <= j -> (a <= b)%N.
Proof.
  revert i j a b. induction Hsort as [|x l HS IH HF]; intros i j a b Ha Hb Hle; [destruct i; discriminate|].
  destruct i, j; cbn in Ha, Hb; try lia.
  - assert (a = b) by congruence. lia.
  - injection Ha as <-. rewrite Forall_forall in HF. specialize (HF b (nth_error_In _ _ Hb)). lia.
  - eapply IH; eauto; [|lia]. intros l0 t Hl. apply Hsolve. right; auto.
Qed.
Definition outcome_ok (start : nat) (r : option assignment) : Prop :=
  match r with
  | Some A => exists i l, start <= i /\ nth_error levels i = Some l /\ good l A /\ forall j l', start <= j -> j < i -> nth_error levels j = Some l' -> forall B, ~ good l' B
  | None => forall j l', start <= j -> nth_error levels j = Some l' -> forall B, ~ good l' B
  end.
Lemma level_search_ok start last : last < length levels -> length levels = Datatypes.S last ->
  forall fuel low high best t, start <= low -> high + 1 - low < fuel ->
  (forall j l', start <= j -> j < low -> nth_error levels j = Some l' -> forall B, ~ good l' B) ->
  match best with Some A => low <= high + 1 /\ high < last /\ (exists l, nth_error levels (high + 1) = Some l /\ good l A) | None => high = last end ->
  exists r t', level_search solve levels start fuel low high best true t = Some (Ok (r, true, t')) /\ outcome_ok start r.
Proof.
  intros Hlast HLen. induction fuel as [|fuel IH]; intros low high best t Hsl Hf Hlow Hbest; [lia|]. cbn [level_search].
  destruct (Nat.leb_spec low high) as [Hle|Hgt]; cbn [negb].
  - set (mid := low + (high - low) / 2). assert (Hm : low <= mid <= high).
    { unfold mid. pose proof (Nat.div_le_upper_bound (high - low) 2 (high - low) ltac:(lia) ltac:(lia)). lia. }
    assert (Hhl : high <= last) by (destruct best as [A|]; lia).
    destruct (nth_error levels mid) as [l|] eqn:El; [|apply nth_error_None in El; lia]. unfold get. rewrite El.
    destruct (Hsolve l t (nth_error_In _ _ El)) as [(A & t' & -> & HA)|(t' & -> & HN)].
    + destruct (Nat.eqb_spec mid start) as [Hms|Hms].
      * exists (Some A), t'. split; auto. exists mid, l. repeat split; auto; [lia|]. intros j l' H1 H2. lia.
      * apply IH; auto; [lia|]. split; [lia|]. split; [lia|]. exists l. split; auto. replace (mid - 1 + 1) with mid by lia. auto.
    + apply IH; try lia.
      * intros j l' Hj1 Hj2 Hj B HB. eapply HN. eapply Hmono; [|exact HB]. eapply sorted_le; eauto. lia.
      * destruct best as [A|]; auto. destruct Hbest as (H1 & H2 & H3). split; [lia|]. auto.
  - exists best, t. split; auto. destruct best as [A|].
    + destruct Hbest as (H1 & H2 & l & H3 & H4). exists (high + 1), l. repeat split; auto; [lia|]. intros j l' Hj1 Hj2. apply Hlow; auto. lia.
    + subst high. intros j l' Hj1 Hj2. apply (Hlow j l'); auto. assert (j < length levels) by (apply nth_error_Some; congruence). lia.
Qed.
End Levels.

Lemma position_from_spec b l : forall i, match position_from b i l with
  | Some k => i <= k /\ exists x, nth_error l (k - i) = Some x /\ (b <= x)%N /\ forall j y, j < k - i -> nth_error l j = Some y -> (y < b)%N
  | None => forall y, In y l -> (y < b)%N end.
Proof.
  induction l as [|x l IH]; intros i; cbn [position_from]; [intros y []|]. destruct (N.leb_spec b x) as [H|H].
  - split; auto. exists x. rewrite Nat.sub_diag. repeat split; auto. intros j y Hj. lia.
  - specialize (IH (Datatypes.S i)). destruct (position_from b (Datatypes.S i) l) as [k|].
    + destruct IH as (H1 & y & H2 & H3 & H4). split; [lia|]. exists y. replace (k - i) with (Datatypes.S (k - Datatypes.S i)) by lia. split; auto. split; auto.
      intros [|j] z Hj Hz; cbn in Hz; [injection Hz as <-; auto|]. eapply H4; eauto. lia.
    + intros y [<-|Hy]; auto.
Qed.
Lemma search_start_spec d b : i_levels d <> [] -> (exists l, In l (i_levels d) /\ (b <= l)%N) -> 
  exists l, nth_error (i_levels d) (search_start d b) = Some l /\ (b <= l)%N /\ forall j y, j < search_start d b -> nth_error (i_levels d) j = Some y -> (y < b)%N.
Proof.
  intros Hne (l0 & Hl0 & Hb). unfold search_start. pose proof (position_from_spec b (i_levels d) 0) as H. destruct (position_from b 0 (i_levels d)) as [k|].
  - destruct H as (_ & x & H1 & H2 & H3). rewrite Nat.sub_0_r in *. eauto.
  - specialize (H l0 Hl0). lia.
Qed.
