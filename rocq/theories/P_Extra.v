(** Proofs behind C86. *)
From Verif Require Import Base M_Data Spec M_Scoring P_Scoring P_Feasible M_Union M_Names M_Build P_Union Spec_Input P_Con P_Compile P_Resolve P_Limits P_Input P_Input2 P_Input3 Spec_Meta P_Meta Spec_Extra.
From Coq Require Import String Relations Permutation.
Notation length := Datatypes.length.
Notation get := Base.get.
Notation concat := List.concat.

(** ** Compilation *)
Lemma blocks_app ps qs : forall off, blocks off (ps ++ qs) = blocks off ps ++ blocks (off + first_index ps (length ps)) qs.
Proof.
  induction ps as [|p t IH]; intros off; cbn [app blocks first_index length]; [rewrite Nat.add_0_r; auto|].
  rewrite IH, <- app_assoc, Nat.add_assoc. auto.
Qed.
Lemma blocks_more ps q off : blocks off (ps ++ [q]) = blocks off ps ++ block (off + first_index ps (length ps)) q.
Proof. rewrite blocks_app. cbn [blocks]. rewrite app_nil_r. auto. Qed.
Lemma spread_more {X} ps q : forall (row : list X) y, length row = length ps -> spread (ps ++ [q]) (row ++ [y]) = spread ps row ++ repeat y (copies q).
Proof.
  induction ps as [|p t IH]; intros [|x row] y HL; cbn [app spread length] in *; try discriminate.
  - rewrite app_nil_r. auto.
  - rewrite IH by lia. rewrite app_assoc. auto.
Qed.
Lemma first_index_more ps q : forall i, i <= length ps -> first_index (ps ++ [q]) i = first_index ps i.
Proof.
  induction ps as [|p t IH]; intros [|i] Hi; cbn [app first_index length] in *; auto; [lia|]. rewrite IH by lia. auto.
Qed.
Lemma nth_error_more {X} (l : list X) x i : nth_error (l ++ [x]) i = if i <? length l then nth_error l i else if i =? length l then Some x else None.
Proof.
  destruct (Nat.ltb_spec i (length l)); [apply nth_error_app1; auto|]. rewrite nth_error_app2 by auto.
  destruct (Nat.eqb_spec i (length l)) as [-> | H0]; [rewrite Nat.sub_diag; auto|].
  replace (i - length l) with (Datatypes.S (i - length l - 1)) by lia. cbn. destruct (i - length l - 1); auto.
Qed.
Lemma is_part_more ps q i k c : is_part (ps ++ [q]) i k c <-> is_part ps i k c \/ (i = length ps /\ k < copies q /\ c = first_index ps (length ps) + k).
Proof.
  unfold is_part. setoid_rewrite nth_error_more. split.
  - intros (p & Hp & Hk & ->). destruct (Nat.ltb_spec i (length ps)).
    + left. exists p. rewrite first_index_more by lia. auto.
    + right. destruct (Nat.eqb_spec i (length ps)) as [-> | H0]; [|discriminate]. injection Hp as ->. rewrite first_index_more by lia. auto.
  - intros [(p & Hp & Hk & ->)|(-> & Hk & ->)].
    + pose proof (nth_error_lt _ _ _ Hp) as HL. exists p. destruct (Nat.ltb_spec i (length ps)); [|lia]. rewrite first_index_more by lia. auto.
    + exists q. rewrite Nat.ltb_irrefl, Nat.eqb_refl, first_index_more by lia. auto.
Qed.

(** Constraints between parts of the new choice (numbers from [n] on). *)
Definition fresh (n n' : nat) (k : constraint) : Prop :=
  exists a b, n <= a < n' /\ n <= b < n' /\
    (k = mkC ChoicesHaveSameChoosers a (TChoice b) ENone \/ k = mkC ChoicesAreNotInSameSlot a (TChoice b) ENone \/
     exists z, k = mkC ChoicesHaveOffset a (TChoice b) (EOffset z)).

Lemma part_constraint_more ps q k : let n := first_index ps (length ps) in
  part_constraint (ps ++ [q]) k -> part_constraint ps k \/ fresh n (n + copies q) k.
Proof.
  intros n (i & x & y & cx & cy & Hxy & Hx & Hy & E). apply is_part_more in Hx, Hy.
  destruct Hx as [Hx|(-> & Hx & Ex)], Hy as [Hy|(Hi & Hy & Ey)].
  - left. exists i, x, y, cx, cy. auto.
  - exfalso. subst i. destruct Hx as (p & Hp & _). apply nth_error_lt in Hp. lia.
  - exfalso. destruct Hy as (p & Hp & _). apply nth_error_lt in Hp. lia.
  - right. exists cx, cy. fold n in Ex, Ey. split; [lia|]. split; [lia|]. destruct E as [E|E]; eauto.
Qed.
Lemma part_constraint_old ps q k : part_constraint ps k -> part_constraint (ps ++ [q]) k.
Proof.
  intros (i & x & y & cx & cy & Hxy & Hx & Hy & E). exists i, x, y, cx, cy. rewrite !is_part_more. auto.
Qed.

(** ** Name lookup *)
Lemma idx_filter_app {X} (f : X -> bool) l1 : forall l2 off, idx_filter f off (l1 ++ l2) = idx_filter f off l1 ++ idx_filter f (off + length l1) l2.
Proof.
  induction l1 as [|a t IH]; intros l2 off; cbn [app idx_filter length]; [rewrite Nat.add_0_r; auto|].
  rewrite IH. replace (Datatypes.S off + length t) with (off + Datatypes.S (length t)) by lia. destruct (f a); auto.
Qed.
Lemma idx_filter_none {X} (f : X -> bool) l : (forall x, In x l -> f x = false) -> forall off, idx_filter f off l = [].
Proof.
  induction l as [|a t IH]; intros H off; cbn [idx_filter]; auto. rewrite (H a (or_introl eq_refl)). apply IH. intros x Hx. apply H. right; auto.
Qed.
Lemma find_name_more n vs more i : nth_error vs i = Some n -> ~ In n more -> find_name n (vs ++ more) = find_name n vs.
Proof.
  intros Hi Hn. unfold find_name. rewrite (fuzzy_find_exact _ _ _ Hi).
  rewrite (fuzzy_find_exact n (vs ++ more) i) by (rewrite nth_error_app1; eauto using nth_error_lt).
  unfold find_exact. rewrite idx_filter_app, (idx_filter_none _ more), app_nil_r; auto.
  intros x Hx. apply Bool.not_true_iff_false. intros K. apply String.eqb_eq in K. congruence.
Qed.
Lemma follow_more (cs more : list choice_data) : cont_ok cs -> forall q k c, c < length cs -> follow_parts q (cs ++ more) c k = follow_parts q cs c k.
Proof.
  intros HC q. induction k as [|k IH]; intros c Hc; cbn [follow_parts]; auto. unfold Base.get. rewrite nth_error_app1 by auto.
  destruct (nth_error cs c) as [cd|] eqn:E; cbn [bind]; auto. destruct (ch_cont cd) as [nx|] eqn:E2; auto. apply IH. eapply HC; eauto.
Qed.

Lemma build_expr_res x x' e : (forall a, a = e_left e \/ a = e_right e -> resolve_accessor x' a = resolve_accessor x a) ->
  build_expr x' e = build_expr x e.
Proof.
  intros R. assert (AD : forall e0 k ex, (forall a, a = e_left e0 \/ a = e_right e0 -> resolve_accessor x' a = resolve_accessor x a) ->
     add_constraint x' e0 k ex = add_constraint x e0 k ex).
  { intros e0 k ex R0. unfold add_constraint. rewrite !R0; auto. }
  unfold build_expr. destruct (table e) as [[k ex]|]; auto. destruct (table (swap_sides e)) as [[k ex]|]; auto.
  apply AD. cbn [swap_sides e_left e_right]. intros a [H|H]; apply R; auto.
Qed.
Lemma mmap_same_in {X Y} (f g : X -> outcome Y) l : (forall x, In x l -> f x = g x) -> mmap f l = mmap g l.
Proof. induction l as [|a t IH]; intros H; cbn [mmap]; auto. rewrite (H a (or_introl eq_refl)), IH; auto. intros x Hx. apply H. right; auto. Qed.

Lemma built_more q r r' css css' : with_extra q r r' -> not_meant q r -> map cs_name css' = map cs_name css ->
  mmap (build_expr (mkCtx (build_slots r') css' (blocks 0 (r_choices r')))) (r_exprs r') =
  mmap (build_expr (mkCtx (build_slots r) css (blocks 0 (r_choices r)))) (r_exprs r).
Proof.
  intros WE NM EN. rewrite (we_exprs _ _ _ WE). apply mmap_same_in. intros e He. apply build_expr_res. intros a Ha.
  assert (ES : build_slots r' = build_slots r) by (unfold build_slots; rewrite (we_slots _ _ _ WE); auto).
  unfold resolve_accessor. cbn [x_slots x_choosers x_choices]. rewrite ES, EN. destruct (a_kind a) eqn:EK; auto.
  destruct (NM e a He Ha EK) as ((i & p & Hp & En) & HN). rewrite (we_choices _ _ _ WE), blocks_more, map_app.
  assert (HI : nth_error (map ch_name (blocks 0 (r_choices r))) (first_index (r_choices r) i) = Some (a_name a)).
  { rewrite nth_error_map. pose proof (blocks_nth (r_choices r) 0 i 0 p Hp (copies_pos p)) as HB. rewrite Nat.add_0_r in HB. rewrite HB. cbn. congruence. }
  rewrite (find_name_more _ _ _ _ HI).
  - destruct (find_name _ _) as [[c|]| |] eqn:EF; cbn [bind]; auto. rewrite follow_more; auto; [apply blocks_cont_ok|].
    apply find_name_lt in EF. rewrite map_length in EF. auto.
  - intros K. apply in_map_iff in K as (cd & E & K). unfold block in K. apply in_map_iff in K as (k & <- & K). apply in_seq in K.
    apply (HN k); [lia|]. rewrite <- E. unfold mk_part, listed_as, part_name. cbn [ch_name]. auto.
Qed.

(** ** Preprocessing *)
Section Grow.
Variables (base base' : list constraint) (n n' : nat) (out out' : list constraint).
Hypothesis Hn : n <= n'.
Hypothesis Hin : in_pairs base' = in_pairs base.
Hypothesis Hold : forall k, In k base -> In k base'.
Hypothesis Hnew : forall k, In k base' -> In k base \/ fresh n n' k.
Hypothesis HO : expand_dependent base n = Ok out.
Hypothesis HO' : expand_dependent base' n' = Ok out'.
Hypothesis Hbound : forall p o, In (p, o) (in_pairs base) -> o < n.
Hypothesis Hbound2 : forall kk p o x, (kk = ChooserIsInChoice \/ kk = ChooserIsNotInChoice) -> In (mkC kk p (TChoice o) x) base -> o < n.
Let HE := expand_dependent_ok _ _ _ HO.
Let HE' := expand_dependent_ok _ _ _ HO'.

Lemma grow_same a b : In (a, b) (same_pairs base') -> In (a, b) (same_pairs base) \/ (n <= a < n' /\ n <= b < n').
Proof.
  intros H. apply same_pairs_in in H as (x & H). apply Hnew in H as [H|(a0 & b0 & Ha & Hb & E)].
  - left. apply same_pairs_in. eauto.
  - right. destruct E as [E|[E|(z & E)]]; try discriminate E. injection E as -> -> _. auto.
Qed.
Lemma grow_same_old a b : In (a, b) (same_pairs base) -> In (a, b) (same_pairs base').
Proof. intros H. apply same_pairs_in in H as (x & H). apply same_pairs_in. eauto. Qed.
Lemma grow_linked_old a b : linked (same_pairs base) a b -> linked (same_pairs base') a b.
Proof. apply linked_mono. intros [x y]. apply grow_same_old. Qed.
Lemma grow_linked a b : linked (same_pairs base') a b ->
  a = b \/ (a < n /\ b < n /\ linked (same_pairs base) a b) \/ (n <= a < n' /\ n <= b < n').
Proof.
  intros H. induction H as [a b H|a|a b H IH|a b c H1 IH1 H2 IH2].
  - destruct (grow_same a b H) as [K|K]; auto. right; left. destruct (ex_same _ _ _ HE a b K). split; auto. split; auto. apply rst_step. auto.
  - auto.
  - destruct IH as [->|[(K1 & K2 & K3)|[K1 K2]]]; auto. right; left. split; auto. split; auto. apply rst_sym. auto.
  - destruct IH1 as [->|[(K1 & K2 & K3)|[K1 K2]]]; auto; destruct IH2 as [->|[(Q1 & Q2 & Q3)|[Q1 Q2]]]; auto; try lia.
    right; left. split; auto. split; auto. eapply rst_trans; eauto.
Qed.

Lemma grow_down P : closed P -> (forall k, In k out' -> P k) -> forall k, In k out -> P k.
Proof.
  intros CL HM k Hk.
  apply (ex_only _ _ _ HE) in Hk as [Hk|[(a & b & Hne & Ha & Hb & Hab & ->)|[(p & l1 & a & l2 & b & l3 & E & ->)|(kk & p & o & c & x & Hkk & Hk & Ho & Hc & Hoc & ->)]]].
  - apply HM. apply (ex_incl _ _ _ HE'). auto.
  - apply grow_linked_old in Hab. destruct (Nat.lt_ge_cases a b).
    + apply HM. apply (ex_dep _ _ _ HE'); auto. lia.
    + apply (cl_sym _ CL). apply HM. apply (ex_dep _ _ _ HE'); [lia|lia|]. apply rst_sym. auto.
  - rewrite <- Hin in E. apply HM. eapply expand_mandatory; eauto.
  - apply grow_linked_old in Hoc. destruct (Nat.eq_dec c o) as [-> |Hne].
    + eapply (cl_extra _ CL); eauto. apply HM, (ex_incl _ _ _ HE'). eauto.
    + apply HM. eapply (ex_chooser _ _ _ HE'); eauto; lia.
Qed.
Lemma grow_up P : closed P -> (forall k, fresh n n' k -> P k) -> (forall k, In k out -> P k) -> forall k, In k out' -> P k.
Proof.
  intros CL HF HM k Hk.
  apply (ex_only _ _ _ HE') in Hk as [Hk|[(a & b & Hne & Ha & Hb & Hab & ->)|[(p & l1 & a & l2 & b & l3 & E & ->)|(kk & p & o & c & x & Hkk & Hk & Ho & Hc & Hoc & ->)]]].
  - apply Hnew in Hk as [Hk|Hk]; auto. apply HM. apply (ex_incl _ _ _ HE). auto.
  - destruct (grow_linked a b Hab) as [K|[(K1 & K2 & K3)|[K1 K2]]]; [congruence| |].
    + destruct (Nat.lt_ge_cases a b).
      * apply HM. apply (ex_dep _ _ _ HE); auto.
      * apply (cl_sym _ CL). apply HM. apply (ex_dep _ _ _ HE); [lia|lia|]. apply rst_sym. auto.
    + apply HF. exists a, b. auto.
  - rewrite Hin in E. apply HM. eapply expand_mandatory; eauto.
  - apply Hnew in Hk as [Hk|(a0 & b0 & _ & _ & E)].
    2:{ exfalso. destruct E as [E|[E|(z & E)]]; injection E as E0 _ _ _; destruct Hkk as [K|K]; congruence. }
    pose proof (Hbound2 kk p o x Hkk Hk) as Hon. destruct (Nat.eq_dec c o) as [-> |Hne].
    + eapply (cl_extra _ CL); eauto. apply HM, (ex_incl _ _ _ HE). eauto.
    + apply HM. destruct (grow_linked o c Hoc) as [K|[(K1 & K2 & K3)|[K1 K2]]]; [congruence| |lia].
      eapply (ex_chooser _ _ _ HE); eauto.
Qed.
Lemma grow_in p c : In (p, c) (in_pairs out') <-> In (p, c) (in_pairs out).
Proof.
  rewrite (expanded_in _ _ _ _ _ Hbound HE). rewrite (expanded_in base' n' out'); [|rewrite Hin; intros q o Hq; apply Hbound in Hq; lia|exact HE'].
  rewrite Hin. split; intros (o & Ho & Hc & HL); exists o; (split; [auto|]).
  - pose proof (Hbound _ _ Ho). destruct (grow_linked o c HL) as [<- |[(K1 & K2 & K3)|[K1 K2]]]; [|auto|lia]. split; auto. apply rst_refl.
  - split; [lia|]. apply grow_linked_old; auto.
Qed.
Lemma grow_out_linked a b : linked (same_pairs out') a b -> a = b \/ (a < n /\ b < n /\ linked (same_pairs out) a b) \/ (n <= a < n' /\ n <= b < n').
Proof. rewrite (expanded_linked _ _ _ _ _ HE'), (expanded_linked _ _ _ _ _ HE). apply grow_linked. Qed.
Lemma grow_out_linked_old a b : linked (same_pairs out) a b -> linked (same_pairs out') a b.
Proof. rewrite (expanded_linked _ _ _ _ _ HE'), (expanded_linked _ _ _ _ _ HE). apply grow_linked_old. Qed.
End Grow.

Lemma reduce_parts parts : (forall k, In k parts -> c_kind k = ChoicesHaveSameChoosers \/ c_kind k = ChoicesHaveOffset) ->
  mmap reduce_one parts = Ok (map (fun k => ([k], false)) parts).
Proof.
  intros H. apply mmap_pure. intros k Hk. unfold reduce_one. destruct (H k Hk) as [-> | ->]; reflexivity.
Qed.
Lemma flat_single {X} (l : list X) : flat_map fst (map (fun k => ([k], false)) l) = l.
Proof. induction l; cbn; congruence. Qed.
Lemma none_flagged {X} (l : list X) : existsb snd (map (fun k => ([k], false)) l) = false.
Proof. induction l; cbn; auto. Qed.

(** What preprocessing does when part constraints of a new choice are added. *)
Record grown (n n' : nat) (cs cs' : list constraint) : Prop := {
  gw_down : forall P, closed P -> (forall k, In k cs' -> P k) -> forall k, In k cs -> P k;
  gw_up : forall P, closed P -> (forall k, fresh n n' k -> P k) -> (forall k, In k cs -> P k) -> forall k, In k cs' -> P k;
  gw_in : forall p c, In (p, c) (in_pairs cs') <-> In (p, c) (in_pairs cs);
  gw_linked : forall a b, linked (same_pairs cs') a b -> a = b \/ (a < n /\ b < n /\ linked (same_pairs cs) a b) \/ (n <= a < n' /\ n <= b < n');
  gw_linked_old : forall a b, linked (same_pairs cs) a b -> linked (same_pairs cs') a b
}.

Lemma in_pairs_app a b : in_pairs (a ++ b) = in_pairs a ++ in_pairs b.
Proof. unfold in_pairs. rewrite flat_map_app. auto. Qed.
Lemma in_pairs_parts parts : (forall k, In k parts -> c_kind k = ChoicesHaveSameChoosers \/ c_kind k = ChoicesHaveOffset) -> in_pairs parts = [].
Proof.
  intros H. destruct (in_pairs parts) as [|[p c] t] eqn:E; auto. exfalso.
  assert (K : In (p, c) (in_pairs parts)) by (rewrite E; left; auto). apply in_pairs_in in K as (x & K). apply H in K. cbn in K. destruct K; discriminate.
Qed.

Lemma reduce_grow cb parts parts' n n' ns np cs : n <= n' -> (Z.of_nat n' <= i32_max)%Z ->
  (forall k, In k parts -> c_kind k = ChoicesHaveSameChoosers \/ c_kind k = ChoicesHaveOffset) ->
  (forall k, In k parts' -> c_kind k = ChoicesHaveSameChoosers \/ c_kind k = ChoicesHaveOffset) ->
  (forall k, In k parts -> In k parts') -> (forall k, In k parts' -> In k parts \/ fresh n n' k) ->
  (forall k, In k (cb ++ parts) -> indexed n ns np k) -> (forall k, In k (cb ++ parts') -> indexed n' ns np k) ->
  reduce_and_optimize (cb ++ parts) n = Ok (cs, false) ->
  exists cs', reduce_and_optimize (cb ++ parts') n' = Ok (cs', false) /\ grown n n' cs cs'.
Proof.
  intros Hnn Hsz HP HP' Hold Hnew HI HI' H.
  destruct (reduce_total (cb ++ parts') n' ns np Hsz HI') as ([cs' b] & H').
  pose proof (reduce_indexed _ _ _ _ _ _ HI H) as HCI.
  pose proof H' as H0'. unfold reduce_and_optimize in H, H'.
  apply bind_ok in H as (rs & Hrs & H). apply bind_ok in H as (out & Hout & H). injection H as <- HF.
  apply bind_ok in H' as (rs' & Hrs' & H'). apply bind_ok in H' as (out' & Hout' & H'). injection H' as <- HF'.
  destruct (mmap_app _ _ _ _ Hrs) as (r1 & r2 & E1 & E2 & ->). destruct (mmap_app _ _ _ _ Hrs') as (r1' & r2' & E1' & E2' & ->).
  assert (r1' = r1) by congruence. subst r1'. rewrite (reduce_parts _ HP) in E2. injection E2 as <-. rewrite (reduce_parts _ HP') in E2'. injection E2' as <-.
  rewrite existsb_app, none_flagged in HF, HF'. rewrite flat_map_app, flat_single in Hout, Hout'.
  rewrite HF in HF'. cbn in HF'. subst b. exists out'. split; auto.
  set (fb := flat_map fst r1) in *.
  pose proof (expand_dependent_ok _ _ _ Hout) as HE.
  assert (B1 : forall kk p o x, (kk = ChooserIsInChoice \/ kk = ChooserIsNotInChoice) -> In (mkC kk p (TChoice o) x) (fb ++ parts) -> o < n).
  { intros kk p o x Hkk Hk. apply (ex_incl _ _ _ HE) in Hk. apply HCI in Hk as [Hk _]. unfold indexed in Hk. cbn in Hk. destruct Hkk as [-> | ->]; tauto. }
  assert (B0 : forall p o, In (p, o) (in_pairs (fb ++ parts)) -> o < n).
  { intros p o Hp. apply in_pairs_in in Hp as (x & Hx). eapply (B1 ChooserIsInChoice); eauto. }
  assert (EI : in_pairs (fb ++ parts') = in_pairs (fb ++ parts)) by (rewrite !in_pairs_app, (in_pairs_parts _ HP), (in_pairs_parts _ HP'); auto).
  assert (O1 : forall k, In k (fb ++ parts) -> In k (fb ++ parts')).
  { intros k Hk. apply in_app_or in Hk. apply in_or_app. destruct Hk; auto. }
  assert (O2 : forall k, In k (fb ++ parts') -> In k (fb ++ parts) \/ fresh n n' k).
  { intros k Hk. apply in_app_or in Hk as [Hk|Hk]; [left; apply in_or_app; auto|]. destruct (Hnew k Hk); auto. left. apply in_or_app; auto. }
  constructor.
  - intros P CL HM. eapply grow_down; eauto.
  - intros P CL HF0 HM. eapply grow_up; eauto.
  - intros p c. eapply grow_in; eauto.
  - intros a b. eapply grow_out_linked; eauto.
  - intros a b. eapply grow_out_linked_old; eauto.
Qed.

(** ** The processed inputs *)
Record extra_choice (q : proto) (d d' : input_data) : Prop := {
  xc_slots : i_slots d' = i_slots d;
  xc_n : length (i_choices d') = length (i_choices d) + copies q;
  xc_np : length (i_choosers d') = length (i_choosers d);
  xc_choice : forall c ch, nth_error (i_choices d) c = Some ch -> exists ch', nth_error (i_choices d') c = Some ch' /\
     ch_name ch' = ch_name ch /\ ch_min ch' = ch_min ch /\ ch_max ch' = ch_max ch /\ ch_optional ch' = ch_optional ch;
  xc_new : forall c ch', length (i_choices d) <= c -> nth_error (i_choices d') c = Some ch' -> ch_optional ch' = true;
  xc_pref : i_max_pref d' = i_max_pref d -> forall p ch ch', nth_error (i_choosers d) p = Some ch -> nth_error (i_choosers d') p = Some ch' ->
     forall c, c < length (i_choices d) -> nth_error (cs_prefs ch') c = nth_error (cs_prefs ch) c;
  xc_down : forall P, closed P -> (forall k, In k (i_sched d') \/ In k (i_assign d') -> P k) -> forall k, In k (i_sched d) \/ In k (i_assign d) -> P k;
  xc_up : forall P, closed P -> (forall k, fresh (length (i_choices d)) (length (i_choices d')) k -> P k) ->
     (forall k, In k (i_sched d) \/ In k (i_assign d) -> P k) -> forall k, In k (i_sched d') \/ In k (i_assign d') -> P k
}.

Lemma part_kinds ps k : part_constraint ps k -> c_kind k = ChoicesHaveSameChoosers \/ c_kind k = ChoicesHaveOffset.
Proof. intros (i & x & y & cx & cy & _ & _ & _ & [-> | ->]); auto. Qed.

Lemma build_extra pr q r r' d : with_extra q r r' -> not_meant q r -> reader_u32 r -> reader_u32 r' ->
  (Z.of_nat (length (blocks 0 (r_choices r'))) <= i32_max)%Z ->
  build_input pr r = Ok d -> exists d', build_input pr r' = Ok d' /\ extra_choice q d d'.
Proof.
  intros WE NM HU HU' Hsz H. destruct (build_inv _ _ _ H) as (raw & cs & css & B).
  assert (ES : build_slots r' = build_slots r) by (unfold build_slots; rewrite (we_slots _ _ _ WE); auto).
  pose proof (we_choices _ _ _ WE) as EC.
  set (m' := max_pref_of (r_choosers r')).
  set (css' := map (fun c => mkChooser (cs_name c) (spread (r_choices r') (cs_prefs c))) (map (mirror m') (r_choosers r'))).
  assert (EN : map cs_name css' = map cs_name css).
  { unfold css'. rewrite (bf_css _ _ _ _ _ _ B), !map_map. cbn [cs_name mirror].
    apply (Forall2_map_eq (fun c => cs_name c) (fun c => cs_name c)). pose proof (we_choosers _ _ _ WE) as HF. clear -HF.
    induction HF as [|a b t t' [K _] _ IH]; constructor; auto. }
  assert (EL : length css' = length css) by (apply (f_equal (@Datatypes.length _)) in EN; rewrite !map_length in EN; auto).
  destruct (raw_ok _ _ _ (bf_raw _ _ _ _ _ _ B)) as (built & parts & Hb & Hp & Eraw). cbn [x_choices] in Hp.
  destruct (compute_part_total (r_choices r') Hsz) as (parts' & Hp').
  pose proof (compute_part_ok _ _ Hp) as KP. pose proof (compute_part_ok _ _ Hp') as KP'.
  set (n := length (blocks 0 (r_choices r))) in *. set (n' := length (blocks 0 (r_choices r'))) in *.
  assert (En' : n' = n + copies q). { unfold n, n'. rewrite EC, blocks_more, app_length, block_length. auto. }
  assert (En : n = first_index (r_choices r) (length (r_choices r))) by (unfold n; apply blocks_length).
  assert (Hraw' : raw_constraints (mkCtx (build_slots r') css' (blocks 0 (r_choices r'))) (r_exprs r') = Ok (concat built ++ parts')).
  { unfold raw_constraints. rewrite (built_more q r r' css css' WE NM EN), Hb. cbn [bind x_choices]. rewrite Hp'. reflexivity. }
  pose proof (raw_indexed (mkCtx (build_slots r') css' (blocks 0 (r_choices r'))) (r_choices r') _ _ eq_refl Hraw') as HI'. cbn [x_choices x_slots x_choosers] in HI'. fold n' in HI'. rewrite ES, EL in HI'.
  pose proof (b_raw_indexed _ _ _ _ _ _ B) as HI. fold n in HI.
  pose proof (bf_cs _ _ _ _ _ _ B) as Hred. fold n in Hred. rewrite Eraw in Hred, HI.
  destruct (reduce_grow (concat built) parts parts' n n' (length (build_slots r)) (length css) cs) as (cs' & Hred' & GW); auto; try lia.
  { intros k Hk. apply KP in Hk. eapply part_kinds; eauto. } { intros k Hk. apply KP' in Hk. eapply part_kinds; eauto. }
  { intros k Hk. apply KP'. rewrite EC. apply part_constraint_old. apply KP; auto. }
  { intros k Hk. apply KP' in Hk. rewrite EC in Hk. apply part_constraint_more in Hk as [Hk|Hk]; [left; apply KP; auto|right].
    rewrite <- En, <- En' in Hk. auto. }
  assert (HC' : prefs_complete r').
  { intros c' Hc'. apply In_nth_error in Hc' as [p Hc']. pose proof (we_choosers _ _ _ WE) as HF.
    assert (K : exists c, nth_error (r_choosers r) p = Some c /\ exists y, cs_prefs c' = cs_prefs c ++ [y]).
    { clear -HF Hc'. revert p Hc'. induction HF as [|a b t t' [_ K] _ IH]; intros [|p] Hc'; cbn in *; try discriminate; [|apply IH; auto].
      injection Hc' as ->. exists a. auto. }
    destruct K as (c & Hc & y & ->). rewrite EC, !app_length. cbn. f_equal. apply (bf_complete _ _ _ _ _ _ B). eapply nth_error_In; eauto. }
  destruct (build_succeeds pr r' (concat built ++ parts') cs' HU' HC') as (d' & Hd'); auto.
  exists d'. split; auto. destruct (build_inv _ _ _ Hd') as (raw0 & cs0 & css0 & B').
  assert (E0 : css0 = css'). { rewrite (bf_css _ _ _ _ _ _ B'), (bf_max _ _ _ _ _ _ B'). reflexivity. } subst css0.
  assert (E1 : raw0 = concat built ++ parts') by (pose proof (bf_raw _ _ _ _ _ _ B') as E; congruence). subst raw0.
  assert (E2 : cs0 = cs') by (pose proof (bf_cs _ _ _ _ _ _ B') as E; fold n' in E; congruence). subst cs0.
  pose proof (b_choices_length _ _ _ _ _ _ B) as LC. pose proof (b_choices_length _ _ _ _ _ _ B') as LC'. fold n in LC. fold n' in LC'.
  assert (AUD : forall a b, one_audience d' a b -> a < n -> one_audience d a b /\ b < n).
  { intros a b HA Ha. apply (b_linked _ _ _ _ _ _ B') in HA. apply (gw_linked _ _ _ _ GW) in HA as [<- |[(K1 & K2 & K3)|[K1 K2]]]; [|split; auto|lia].
    - split; auto. apply rst_refl. - apply (b_linked _ _ _ _ _ _ B). auto. }
  assert (AUD0 : forall a b, one_audience d a b -> one_audience d' a b).
  { intros a b HA. apply (b_linked _ _ _ _ _ _ B'). apply (gw_linked_old _ _ _ _ GW). apply (b_linked _ _ _ _ _ _ B). auto. }
  assert (BL : forall c, c < n -> nth_error (blocks 0 (r_choices r')) c = nth_error (blocks 0 (r_choices r)) c).
  { intros c Hc. rewrite EC, blocks_more. apply nth_error_app1. auto. }
  constructor.
  - rewrite (bf_slots _ _ _ _ _ _ B), (bf_slots _ _ _ _ _ _ B'). auto.
  - rewrite LC, LC'. auto.
  - destruct (b_prefs _ _ _ _ _ _ B HU) as [L _]. destruct (b_prefs _ _ _ _ _ _ B' HU') as [L' _]. rewrite L, L'.
    apply (Forall2_length' _ _ _ (we_choosers _ _ _ WE)).
  - intros c ch Hc. pose proof (nth_error_lt _ _ _ Hc) as Hcn. rewrite LC in Hcn.
    destruct (nth_error_ex (i_choices d') c) as [ch' Hc']; [lia|]. exists ch'. split; auto.
    destruct (b_choice_nth _ _ _ _ _ _ B _ _ Hc) as (cd & Hcd & N1 & _ & O1).
    destruct (b_choice_nth _ _ _ _ _ _ B' _ _ Hc') as (cd' & Hcd' & N2 & _ & O2).
    rewrite BL in Hcd' by auto. assert (cd' = cd) by congruence. subst cd'. split; [congruence|].
    destruct (b_bounds _ _ _ _ _ _ B _ _ Hc) as (K & (c1 & cd1 & A1 & X1 & M1) & M2).
    destruct (b_bounds _ _ _ _ _ _ B' _ _ Hc') as (K' & (c1' & cd1' & A1' & X1' & M1') & M2').
    pose proof (wf_bounds_u32 _ (b_wf _ _ _ _ _ _ B HU) ch (nth_error_In _ _ Hc)) as U.
    pose proof (wf_bounds_u32 _ (b_wf _ _ _ _ _ _ B' HU') ch' (nth_error_In _ _ Hc')) as U'.
    assert (G : forall c2 cd2, one_audience d c c2 -> nth_error (blocks 0 (r_choices r)) c2 = Some cd2 -> (ch_min cd2 <= ch_min ch' /\ ch_max ch' <= ch_max cd2)%N).
    { intros c2 cd2 HA HX. apply (K' c2 cd2); [apply AUD0; auto|]. rewrite BL; auto. eapply nth_error_lt; eauto. }
    assert (G' : forall c2 cd2, one_audience d' c c2 -> nth_error (blocks 0 (r_choices r')) c2 = Some cd2 -> (ch_min cd2 <= ch_min ch /\ ch_max ch <= ch_max cd2)%N).
    { intros c2 cd2 HA HX. destruct (AUD _ _ HA Hcn) as [HA2 Hl]. apply (K c2 cd2); auto. rewrite <- BL; auto. }
    destruct (G _ _ A1 X1) as [G1 _]. destruct (G' _ _ A1' X1') as [G1' _].
    split; [lia|]. split; [|congruence].
    assert (ch_max ch' <= ch_max ch)%N. { destruct M2 as [-> |(c2 & cd2 & A2 & X2 & <-)]; [lia|]. apply (G _ _ A2 X2). }
    assert (ch_max ch <= ch_max ch')%N. { destruct M2' as [-> |(c2 & cd2 & A2 & X2 & <-)]; [lia|]. apply (G' _ _ A2 X2). }
    lia.
  - intros c ch' Hc Hc'. rewrite LC in Hc. destruct (b_choice_nth _ _ _ _ _ _ B' _ _ Hc') as (cd & Hcd & _ & _ & ->).
    rewrite EC, blocks_more, nth_error_app2 in Hcd by auto. apply nth_error_In in Hcd. unfold block in Hcd. apply in_map_iff in Hcd as (k & <- & _).
    apply (we_optional _ _ _ WE).
  - intros EM p ch ch' Hch Hch' c Hc. rewrite LC in Hc.
    destruct (b_prefs _ _ _ _ _ _ B HU) as [L HP]. destruct (b_prefs _ _ _ _ _ _ B' HU') as [L' HP'].
    destruct (nth_error_ex (r_choosers r) p) as [cd Hcd]. { rewrite <- L. eapply nth_error_lt; eauto. }
    destruct (Forall2_nth _ _ _ (we_choosers _ _ _ WE) _ _ Hcd) as (cd' & Hcd' & _ & y & Ey).
    destruct (HP p cd Hcd) as (ch0 & E0 & _ & LP & V). assert (ch0 = ch) by congruence. subst ch0.
    destruct (HP' p cd' Hcd') as (ch0 & E0' & _ & LP' & V'). assert (ch0 = ch') by congruence. subst ch0. fold n in LP. fold n' in LP'.
    destruct (nth_error_ex (cs_prefs ch) c) as [x Hx]; [lia|]. destruct (nth_error_ex (cs_prefs ch') c) as [x' Hx']; [lia|].
    rewrite Hx, Hx'. f_equal. destruct (V c x Hx) as [V1 V2]. destruct (V' c x' Hx') as [V1' V2'].
    assert (DEC : In (p, c) (in_pairs cs) \/ ~ In (p, c) (in_pairs cs)).
    { destruct (in_dec (fun a b : nat * nat => ltac:(decide equality; apply Nat.eq_dec) : {a = b} + {a <> b}) (p, c) (in_pairs cs)); auto. }
    destruct DEC as [D|D]. { rewrite (V1 D), V1'; auto. apply (gw_in _ _ _ _ GW); auto. }
    assert (D' : ~ In (p, c) (in_pairs cs')) by (intros K; apply D; apply (gw_in _ _ _ _ GW); auto).
    destruct (V2 D) as [U1 (c1 & A1 & U2)]. destruct (V2' D') as [U1' (c1' & A1' & U2')].
    assert (SP : forall c0, c0 < n -> nth_error (spread (r_choices r') (map (fun z => i_max_pref d' - z)%N (cs_prefs cd'))) c0 =
                          nth_error (spread (r_choices r) (map (fun z => i_max_pref d - z)%N (cs_prefs cd))) c0).
    { intros c0 Hc0. rewrite EM, EC, Ey, map_app. cbn [map].
      assert (LL : length (map (fun z => i_max_pref d - z)%N (cs_prefs cd)) = length (r_choices r)).
      { rewrite map_length. apply (bf_complete _ _ _ _ _ _ B). eapply nth_error_In; eauto. }
      rewrite spread_more by auto. apply nth_error_app1. rewrite spread_length by auto. lia. }
    destruct (AUD _ _ A1' Hc) as [A2 Hl]. rewrite SP in U2' by auto. specialize (U1 _ _ A2 U2').
    assert (Hl1 : c1 < n). { apply (AUD c c1); auto. }
    rewrite <- SP in U2 by auto. specialize (U1' _ _ (AUD0 _ _ A1) U2). lia.
  - intros P CL HM k Hk. apply (b_processed _ _ _ _ _ _ B) in Hk. revert k Hk. apply (gw_down _ _ _ _ GW P CL).
    intros k Hk. apply HM. apply (b_processed _ _ _ _ _ _ B'). auto.
  - intros P CL HF HM k Hk. apply (b_processed _ _ _ _ _ _ B') in Hk. revert k Hk. apply (gw_up _ _ _ _ GW P CL).
    + rewrite <- LC, <- LC'. auto.
    + intros k Hk. apply HM. apply (b_processed _ _ _ _ _ _ B). auto.
Qed.

(** ** Solutions *)
Section Sol.
Variables (q : proto) (d d' : input_data).
Hypothesis XC : extra_choice q d d'.
Hypothesis HW : wf_input d.
Variable S : scheduling.
Hypothesis LS : length S = length (i_choices d).
Let S' := without q S.

Lemma xs_in c s : scheduled_in S' c s <-> scheduled_in S c s.
Proof.
  unfold scheduled_in, S', without. destruct (Nat.lt_ge_cases c (length S)) as [K|K].
  - rewrite nth_error_app1 by auto. tauto.
  - rewrite nth_error_app2 by auto. split; intros H.
    + apply nth_error_In, repeat_spec in H. discriminate.
    + apply nth_error_lt in H. lia.
Qed.
Lemma xs_held c : held S' c <-> held S c.
Proof. unfold held. split; intros (s & H); exists s; apply xs_in; auto. Qed.
Lemma xs_not c : c < length (i_choices d) -> not_held S' c <-> not_held S c.
Proof. intros Hc. unfold not_held, S', without. rewrite nth_error_app1 by lia. tauto. Qed.
Lemma xs_new c : length (i_choices d) <= c < length (i_choices d') -> not_held S' c.
Proof.
  intros Hc. unfold not_held, S', without. rewrite nth_error_app2 by lia. rewrite (xc_n _ _ _ XC) in Hc.
  rewrite (nth_error_nth' _ None) by (rewrite repeat_length; lia). f_equal. apply nth_repeat.
Qed.
Lemma xs_length : length S' = length (i_choices d').
Proof. unfold S', without. rewrite app_length, repeat_length, (xc_n _ _ _ XC). lia. Qed.

Lemma cardinal_ext' (P Q : nat -> Prop) m : (forall x, P x <-> Q x) -> cardinal P m -> cardinal Q m.
Proof. intros E (l & H1 & H2 & H3). exists l. split; auto. split; auto. intros x. rewrite H2. auto. Qed.

Lemma xs_sched k : sched_shape d k -> sched_means S' k <-> sched_means S k.
Proof.
  unfold sched_shape, sched_means. destruct k as [kk a t x]; cbn [c_kind c_left c_right c_extra].
  destruct kk; try tauto; destruct t; try tauto; intros HI; try (destruct x; try tauto).
  all: try (rewrite !xs_in; tauto).
  all: try (split; intros H s0; specialize (H s0); rewrite ?xs_in in *; tauto).
  - (* offset *) destruct HI as [I1 I2]. rewrite !xs_not by auto. split; (intros [H|(s & s' & H1 & H2 & H3)]; [left; auto|right; exists s, s'; rewrite ?xs_in in *; auto]).
  - split; intros (m & Hm & Hr); exists m; (split; [|auto]); (eapply cardinal_ext'; [|exact Hm]); intros c; rewrite xs_in; tauto.
Qed.
Lemma xs_asg A k : asg_means S' A k <-> asg_means S A k.
Proof.
  unfold asg_means. destruct k as [kk a t x]; cbn [c_kind c_left c_right c_extra].
  destruct kk; try tauto; destruct t; try tauto; rewrite ?xs_held; tauto.
Qed.
Lemma xs_fresh A k : fresh (length (i_choices d)) (length (i_choices d')) k -> means S' A k.
Proof.
  intros (a & b & Ha & Hb & E).
  assert (NH : forall c, length (i_choices d) <= c < length (i_choices d') -> ~ held S' c).
  { intros c Hc (s & Hs). pose proof (xs_new c Hc) as Q. unfold not_held, scheduled_in in *. congruence. }
  destruct E as [-> |[-> |(z & ->)]]; unfold means, sched_means, asg_means; cbn.
  - intros K. exfalso. apply (NH a); auto.
  - intros s [K _]. apply (NH a); [auto|exists s; auto].
  - left. split; apply xs_new; auto.
Qed.
Lemma slot_sum_more f (cs more : list choice_data) (T : scheduling) k s : length T = length cs -> slot_sum f (cs ++ more) (T ++ repeat None k) s = slot_sum f cs T s.
Proof.
  revert T. induction cs as [|c t IH]; intros [|x T] HL; cbn [app slot_sum length] in *; try discriminate.
  - revert more. induction k as [|k IHk]; intros [|m more]; cbn; auto.
  - rewrite IH by lia. auto.
Qed.
Lemma slot_sum_same f (cs cs' : list choice_data) s : forall T, length cs' = length cs -> (forall c a b, nth_error cs c = Some a -> nth_error cs' c = Some b -> f a = f b) ->
  slot_sum f cs T s = slot_sum f cs' T s.
Proof.
  revert cs'. induction cs as [|a t IH]; intros [|b t'] T HL H; cbn in *; try discriminate; auto.
  destruct T as [|x T]; auto. rewrite (H 0 a b eq_refl eq_refl). f_equal. apply IH; [lia|]. intros c. apply (H (Datatypes.S c)).
Qed.
Lemma xs_sum f : (forall c c' : choice_data, ch_min c' = ch_min c -> ch_max c' = ch_max c -> f c' = f c) -> forall s, slot_sum f (i_choices d') S' s = slot_sum f (i_choices d) S s.
Proof.
  intros Hf s. rewrite <- (firstn_skipn (length (i_choices d)) (i_choices d')).
  pose proof (xc_n _ _ _ XC) as HN.
  assert (L1 : length (firstn (length (i_choices d)) (i_choices d')) = length (i_choices d)) by (rewrite firstn_length; lia).
  unfold S', without. rewrite slot_sum_more by lia. apply slot_sum_same; auto.
  intros c a b Ha Hb. destruct (xc_choice _ _ _ XC c b Hb) as (ch' & Hc' & _ & E1 & E2 & _).
  assert (a = ch').
  { pose proof (nth_error_lt _ _ _ Hb) as Hc. pose proof (firstn_skipn (length (i_choices d)) (i_choices d')) as E. rewrite <- E in Hc'.
    rewrite nth_error_app1 in Hc' by lia. congruence. }
  subst a. apply Hf; auto.
Qed.
Lemma sched_kind_of d0 k : wf_input d0 -> In k (i_sched d0) -> sched_kind k = true.
Proof.
  intros W Hk. pose proof (wf_sched _ W k Hk) as Q. destruct k as [kk a t x]. unfold sched_shape in Q. cbn in Q. unfold sched_kind. cbn.
  destruct kk; try contradiction; reflexivity.
Qed.
Lemma asg_kind_of d0 k : wf_input d0 -> In k (i_assign d0) -> sched_kind k = false.
Proof.
  intros W Hk. pose proof (wf_asg _ W k Hk) as Q. destruct k as [kk a t x]. unfold asg_shape in Q. cbn in Q. unfold sched_kind. cbn.
  destruct kk; try contradiction; reflexivity.
Qed.
Lemma means_sched d0 T A k : wf_input d0 -> In k (i_sched d0) -> means T A k <-> sched_means T k.
Proof. intros W Hk. pose proof (sched_kind_of d0 k W Hk) as E. unfold means. unfold sched_kind in E. rewrite E. tauto. Qed.
Lemma means_asg d0 T A k : wf_input d0 -> In k (i_assign d0) -> means T A k <-> asg_means T A k.
Proof. intros W Hk. pose proof (asg_kind_of d0 k W Hk) as E. unfold means. unfold sched_kind in E. rewrite E. tauto. Qed.

Hypothesis HW' : wf_input d'.
Lemma xs_all A : (forall k, In k (i_sched d') \/ In k (i_assign d') -> means S' A k) <-> (forall k, In k (i_sched d) \/ In k (i_assign d) -> means S A k).
Proof.
  assert (T : forall k, In k (i_sched d) \/ In k (i_assign d) -> means S' A k <-> means S A k).
  { intros k [Hk|Hk].
    - rewrite !(means_sched d _ A k HW Hk). apply xs_sched. apply (wf_sched _ HW); auto.
    - rewrite !(means_asg d _ A k HW Hk). apply xs_asg. }
  split; intros H.
  - intros k Hk. apply T; auto. revert k Hk. apply (xc_down _ _ _ XC _ (means_closed S' A)). auto.
  - apply (xc_up _ _ _ XC _ (means_closed S' A)); [apply xs_fresh|]. intros k Hk. apply T; auto.
Qed.
Lemma xs_alls : (forall k, In k (i_sched d') -> sched_means S' k) <-> (forall k, In k (i_sched d) -> sched_means S k).
Proof.
  split; intros H k Hk.
  - apply xs_sched; [apply (wf_sched _ HW); auto|]. apply (xc_down _ _ _ XC _ (smeans_closed S')) with (k := k); auto; [|apply (sched_kind_of d); auto].
    intros k0 [K|K] E; auto. rewrite (asg_kind_of d' k0 HW' K) in E. discriminate.
  - apply (xc_up _ _ _ XC _ (smeans_closed S')) with (k := k); auto; [| |apply (sched_kind_of d'); auto].
    + intros k0 K E. pose proof (xs_fresh [] k0 K) as Q. unfold means in Q. unfold sched_kind in E. rewrite E in Q. auto.
    + intros k0 [K|K] E; [apply xs_sched; auto; apply (wf_sched _ HW); auto|]. rewrite (asg_kind_of d k0 HW K) in E. discriminate.
Qed.

Lemma xs_valid_scheduling : valid_scheduling d' S' <-> valid_scheduling d S.
Proof.
  pose proof (xc_slots _ _ _ XC) as ES. pose proof (xc_np _ _ _ XC) as EP.
  split; intros V; constructor.
  - exact LS.
  - intros c s Hs. rewrite <- ES. apply (vs_range _ _ V c). apply xs_in; auto.
  - intros c ch Hc Hn. destruct (xc_choice _ _ _ XC c ch Hc) as (ch' & Hc' & _ & _ & _ & <-). apply (vs_optional _ _ V c); auto.
    apply xs_not; auto. eapply nth_error_lt; eauto.
  - intros s Hs. rewrite <- ES in Hs. pose proof (vs_sums _ _ V _ Hs) as K. rewrite !xs_sum, EP in K by auto. auto.
  - apply xs_alls. apply (vs_cons _ _ V).
  - apply xs_length.
  - intros c s Hs. rewrite ES. apply (vs_range _ _ V c). apply xs_in; auto.
  - intros c ch' Hc' Hn. destruct (Nat.lt_ge_cases c (length (i_choices d))) as [K|K]; [|eapply (xc_new _ _ _ XC); eauto].
    destruct (nth_error_ex _ _ K) as [ch Hc]. destruct (xc_choice _ _ _ XC c ch Hc) as (ch0 & Hc0 & _ & _ & _ & E).
    assert (ch0 = ch') by congruence. subst ch0. rewrite E. apply (vs_optional _ _ V c); auto. apply xs_not; auto.
  - intros s Hs. rewrite !xs_sum, EP by auto. rewrite ES in Hs. apply (vs_sums _ _ V); auto.
  - apply xs_alls. apply (vs_cons _ _ V).
Qed.
Lemma xs_one A : one_choice_per_slot d' S' A <-> one_choice_per_slot d S A.
Proof.
  unfold one_choice_per_slot. rewrite (xc_slots _ _ _ XC), (xc_np _ _ _ XC).
  split; intros [L H]; (split; [exact L|]); intros p row Hrow; destruct (H p row Hrow) as (K1 & K2 & K3); (split; [exact K1|]); (split; [intros c Hc; apply xs_held; auto|]);
    intros s Hs; destruct (K3 s Hs) as (c & [Hc1 Hc2] & HQ); exists c; (split; [split; [auto|apply xs_in; auto]|]); intros c0 [Hc0 Hs0]; apply HQ; split; auto; apply xs_in; auto.
Qed.
Lemma xs_bounds A : bounds_respected d' S' A <-> bounds_respected d S A.
Proof.
  split; intros H.
  - intros c ch Hc Hh. destruct (xc_choice _ _ _ XC c ch Hc) as (ch' & Hc' & _ & <- & <- & _). apply (H c ch' Hc'). apply xs_held; auto.
  - intros c ch' Hc' Hh. apply xs_held in Hh. assert (K : c < length (i_choices d)).
    { destruct Hh as (s & Hs). unfold scheduled_in in Hs. apply nth_error_lt in Hs. lia. }
    destruct (nth_error_ex _ _ K) as [ch Hc]. destruct (xc_choice _ _ _ XC c ch Hc) as (ch0 & Hc0 & _ & E1 & E2 & _).
    assert (ch0 = ch') by congruence. subst ch0. rewrite E1, E2. apply (H c ch Hc); auto.
Qed.
Lemma xs_respects A : respects_all d' S' A <-> respects_all d S A.
Proof.
  split; intros R.
  - assert (K : forall k, In k (i_sched d) \/ In k (i_assign d) -> means S A k).
    { apply xs_all. intros k [Hk|Hk]; [apply (means_sched d')|apply (means_asg d')]; auto; apply R; auto. }
    constructor; [apply xs_one, R|apply xs_bounds, R| |]; intros k Hk.
    + apply (means_sched d S A k HW Hk). auto. + apply (means_asg d S A k HW Hk). auto.
  - assert (K : forall k, In k (i_sched d') \/ In k (i_assign d') -> means S' A k).
    { apply xs_all. intros k [Hk|Hk]; [apply (means_sched d)|apply (means_asg d)]; auto; apply R; auto. }
    constructor; [apply xs_one, R|apply xs_bounds, R| |]; intros k Hk.
    + apply (means_sched d' S' A k HW' Hk). auto. + apply (means_asg d' S' A k HW' Hk). auto.
Qed.
Lemma xs_valid A : valid_solution d' S' A <-> valid_solution d S A.
Proof. split; intros [V R]; split; first [apply xs_valid_scheduling; exact V | apply xs_respects; exact R]. Qed.

Lemma xs_evaluate pr pow g A : fits d -> fits d' -> i_max_pref d' = i_max_pref d -> valid_solution d S A ->
  evaluate pr pow g d' (SolComplete S' A) = evaluate pr pow g d (SolComplete S A).
Proof.
  intros FI FI' EM V. pose proof (proj2 (xs_valid A) V) as V'.
  assert (F : sol_is_feasible d S A = Ok true).
  { destruct V as [W R]. apply sol_is_feasible_complete; auto; [exact (vs_range _ _ W)]. }
  assert (F' : sol_is_feasible d' S' A = Ok true).
  { destruct V' as [W R]. apply sol_is_feasible_complete; auto; [exact (vs_length _ _ W)|exact (vs_range _ _ W)]. }
  assert (CP : forall X (h : N -> outcome X) p s,
    (let* c := choice_of A p s in let* ch := get (i_choosers d') p in let* pref := get (cs_prefs ch) c in h pref) =
    (let* c := choice_of A p s in let* ch := get (i_choosers d) p in let* pref := get (cs_prefs ch) c in h pref)).
  { intros X h p s. destruct (choice_of A p s) as [c| |] eqn:EC; cbn [bind]; auto.
    assert (Hc : c < length (i_choices d)).
    { unfold choice_of in EC. apply bind_ok in EC as (row & Hrow & EC). apply get_ok in Hrow, EC.
      destruct (ra_one _ _ _ (vsol_rest _ _ _ V)) as [_ K]. destruct (K p row Hrow) as (_ & K2 & _).
      destruct (K2 c (nth_error_In _ _ EC)) as (t & Ht). unfold scheduled_in in Ht. apply nth_error_lt in Ht. lia. }
    unfold get. destruct (nth_error (i_choosers d) p) as [ch|] eqn:E.
    - destruct (nth_error_ex (i_choosers d') p) as [ch' E']. { rewrite (xc_np _ _ _ XC). eapply nth_error_lt; eauto. }
      rewrite E'. cbn [bind]. rewrite (xc_pref _ _ _ XC EM p ch ch' E E' c Hc). auto.
    - rewrite (proj2 (nth_error_None (i_choosers d') p)); auto. rewrite (xc_np _ _ _ XC). apply nth_error_None; auto. }
  assert (EJ : evaluate_major d' A = evaluate_major d A).
  { unfold evaluate_major, n_slots, n_choosers. rewrite (xc_slots _ _ _ XC), (xc_np _ _ _ XC).
    apply mfold_same. intros b p. apply mfold_same. intros b0 s. apply (CP _ (fun pref => Ok (N.max b0 pref))). }
  assert (EH : pref_histogram pr d' A = pref_histogram pr d A).
  { unfold pref_histogram, n_slots, n_choosers. rewrite (xc_slots _ _ _ XC), (xc_np _ _ _ XC), EM.
    destruct (add_u32 pr (i_max_pref d) 1); cbn [bind]; auto.
    apply mfold_same. intros b p. apply mfold_same. intros b0 s.
    apply (CP _ (fun pref => let i := N.to_nat pref in let* m := get b0 i in set b0 i (m + 1)%N)). }
  unfold evaluate, evaluate_minor. rewrite EJ, EH, F, F'.
  replace (scoring_scaling pow d') with (scoring_scaling pow d); auto.
  unfold scoring_scaling. rewrite EM. auto.
Qed.
End Sol.
