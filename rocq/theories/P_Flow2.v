(** The schedule state of the assignment solver. *)
From Verif Require Import Base M_Data M_Scoring M_Flow Spec P_Sums P_Search1 P_Feasible P_Flow1.
From Coq Require Import Permutation.

Local Notation np d := (length (i_choosers d)).
Local Notation nc d := (length (i_choices d)).
Local Notation ns d := (length (i_slots d)).

(** ** swap_remove *)
Lemma position_some c l i : position c l = Some i -> nth_error l i = Some c.
Proof.
  revert i; induction l as [|x l IH]; intros i H; cbn [position] in H; [discriminate|].
  destruct (Nat.eqb_spec x c) as [->|]; [injection H as <-; auto|].
  destruct (position c l) as [j|]; [|discriminate]. injection H as <-. cbn. auto.
Qed.
Lemma position_none c l : position c l = None -> ~ In c l.
Proof.
  induction l as [|x l IH]; intros H; [auto|]. cbn [position] in H. destruct (Nat.eqb_spec x c) as [->|Hne]; [discriminate|].
  destruct (position c l); [discriminate|]. intros [E|Hin]; auto. exact (IH eq_refl Hin).
Qed.
Lemma removelast_snoc {A} (l : list A) z : removelast (l ++ [z]) = l.
Proof. rewrite removelast_app by discriminate. cbn. apply app_nil_r. Qed.
Lemma upd_app_l {A} (l m : list A) i x : i < length l -> upd (l ++ m) i x = upd l i x ++ m.
Proof. revert i; induction l as [|a l IH]; intros [|i] H; cbn in *; try lia; auto. f_equal. apply IH. lia. Qed.
Lemma upd_app_r {A} (l m : list A) x : upd (l ++ m) (length l) x = l ++ upd m 0 x.
Proof. induction l as [|a l IH]; cbn; auto. f_equal; auto. Qed.
Lemma upd_perm (l : list nat) i c z : nth_error l i = Some c -> Permutation (c :: upd l i z) (z :: l).
Proof.
  revert i; induction l as [|a l IH]; intros [|i] H; cbn in H; try discriminate.
  - injection H as ->. cbn [upd]. apply perm_swap.
  - cbn [upd]. rewrite perm_swap, (perm_swap a z). constructor. auto.
Qed.
Lemma swap_remove_perm l i c : nth_error l i = Some c -> Permutation (c :: swap_remove l i) l.
Proof.
  intros H. unfold swap_remove. destruct (rev l) as [|z m] eqn:E.
  - apply (f_equal (@rev nat)) in E. rewrite rev_involutive in E. subst. destruct i; discriminate.
  - assert (El : l = rev m ++ [z]) by (rewrite <- (rev_involutive l), E; reflexivity). rewrite El in *. clear E El.
    destruct (Nat.lt_ge_cases i (length (rev m))) as [Hi|Hi].
    + rewrite upd_app_l by auto. rewrite removelast_snoc. rewrite nth_error_app1 in H by auto.
      rewrite (upd_perm _ _ _ _ H). apply Permutation_cons_append.
    + rewrite nth_error_app2 in H by auto. destruct (i - length (rev m)) eqn:Ei; [|cbn in H; destruct n; discriminate].
      injection H as ->. replace i with (length (rev m)) by lia. rewrite upd_app_r. cbn [upd]. rewrite removelast_snoc. apply Permutation_cons_append.
Qed.

(** ** What the lists and sums hold for a scheduling *)
Record holds (pr : profile) (d : input_data) (S : scheduling) (st : list (list nat) * list N) : Prop := {
  ho_len : length (fst st) = ns d;
  ho_in : forall s l, nth_error (fst st) s = Some l -> NoDup l /\ forall c, In c l <-> scheduled_in S c s;
  ho_clen : length (snd st) = ns d;
  ho_cov : forall s v, nth_error (snd st) s = Some v -> rep pr v (slot_sum ch_min (i_choices d) S s)
}.

Section State.
Context (pr : profile) (d : input_data) (HW : wf_input d).

Lemma min_u32 c ch : nth_error (i_choices d) c = Some ch -> (ch_min ch <= u32_max)%N.
Proof. intros H. apply (wf_bounds_u32 _ HW). eapply nth_error_In; eauto. Qed.

Lemma place_holds S st c s st' : holds pr d S st -> nth_error S c = Some None -> place pr d st c s = Ok st' -> holds pr d (upd S c (Some s)) st'.
Proof.
  intros H HS. unfold place. destruct st as [by_slot cov]. intros E.
  apply bind_ok in E as (l & Hl & E). apply bind_ok in E as (by2 & Hby & E). apply bind_ok in E as (ch & Hch & E).
  apply bind_ok in E as (v & Hv & E). apply bind_ok in E as (v2 & Hv2 & E). apply bind_ok in E as (cov2 & Hcov & E). injection E as <-.
  apply get_ok in Hl, Hch, Hv. apply set_ok in Hby as [Hs ->]. apply set_ok in Hcov as [Hs2 ->].
  destruct H as [H1 H2 H3 H4]. cbn [fst snd] in *. constructor; cbn [fst snd].
  - rewrite upd_length; auto.
  - intros t m Hm. assert (HcS : c < length S) by (apply nth_error_Some; congruence).
    assert (G : forall x, scheduled_in (upd S c (Some s)) x t <-> (x = c /\ t = s) \/ scheduled_in S x t).
    { intros x. unfold scheduled_in. rewrite nth_error_upd. destruct (Nat.eqb_spec c x) as [<-|Hne].
      - apply Nat.ltb_lt in HcS. rewrite HcS, HS. split; [intros Ex; injection Ex as ->; auto|]. intros [[_ ->]|Ex]; congruence.
      - split; auto. intros [[Ex _]|Ex]; congruence. }
    rewrite nth_error_upd in Hm. destruct (Nat.eqb_spec s t) as [<-|Hne].
    + apply Nat.ltb_lt in Hs. rewrite Hs in Hm. injection Hm as <-. destruct (H2 _ _ Hl) as [ND HI]. split.
      * eapply Permutation_NoDup; [apply Permutation_cons_append|]. constructor; auto. intros Hin. apply HI in Hin. unfold scheduled_in in Hin. congruence.
      * intros x. rewrite in_app_iff, G, HI. cbn [In]. intuition.
    + destruct (H2 _ _ Hm) as [ND HI]. split; auto. intros x. rewrite G, HI. intuition congruence.
  - rewrite upd_length; auto.
  - intros t w Hw. pose proof (slot_sum_upd ch_min (i_choices d) S c t (Some s) None ch HS Hch) as ES. cbn [weigh] in ES.
    rewrite nth_error_upd in Hw. destruct (Nat.eqb_spec s t) as [<-|Hne].
    + apply Nat.ltb_lt in Hs2. rewrite Hs2 in Hw. injection Hw as <-.
      replace (slot_sum ch_min (i_choices d) (upd S c (Some s)) s) with (slot_sum ch_min (i_choices d) S s + ch_min ch)%N by lia.
      eapply rep_add; eauto using min_u32.
    + replace (slot_sum ch_min (i_choices d) (upd S c (Some s)) t) with (slot_sum ch_min (i_choices d) S t) by lia. eauto.
Qed.
Lemma place_total S st c s : holds pr d S st -> length S = nc d -> nth_error S c = Some None -> s < ns d ->
  (pr = Release \/ slot_sum ch_min (i_choices d) (upd S c (Some s)) s <= u32_max)%N -> exists st', place pr d st c s = Ok st'.
Proof.
  intros H HL HS Hs HB. unfold place. destruct st as [by_slot cov]. pose proof (ho_len _ _ _ _ H) as E1. pose proof (ho_clen _ _ _ _ H) as E2. cbn [fst snd] in *.
  unfold get at 1. destruct (nth_error by_slot s) as [l|] eqn:El; [|apply nth_error_None in El; lia]. cbn [bind].
  unfold set at 1. destruct (Nat.ltb_spec s (length by_slot)); [|lia]. cbn [bind].
  assert (Hc : c < nc d) by (rewrite <- HL; apply nth_error_Some; congruence).
  unfold get at 1. destruct (nth_error (i_choices d) c) as [ch|] eqn:Ech; [|apply nth_error_None in Ech; lia]. cbn [bind].
  unfold get at 1. destruct (nth_error cov s) as [v|] eqn:Ev; [|apply nth_error_None in Ev; lia]. cbn [bind].
  assert (exists v', add_u32 pr v (ch_min ch) = Ok v') as [v' ->].
  { unfold add_u32. destruct (N.leb_spec (v + ch_min ch) u32_max); eauto. case_eq pr; intros Epr; eauto. exfalso. destruct HB as [HB|HB]; [congruence|].
    pose proof (ho_cov _ _ _ _ H s v Ev) as R. rewrite Epr in R. destruct R as [R _]. subst v.
    pose proof (slot_sum_upd ch_min (i_choices d) S c s (Some s) None ch HS Ech) as ES. cbn [weigh] in ES. rewrite Nat.eqb_refl in ES. lia. }
  cbn [bind]. unfold set. destruct (Nat.ltb_spec s (length cov)); [|lia]. cbn [bind]. eauto.
Qed.

(** Taking a choice out. *)
Definition take (st : list (list nat) * list N) (choice s : nat) : outcome (list (list nat) * list N) :=
  let '(by_slot, cov) := st in
  let* l := get by_slot s in
  let* by_slot := match position choice l with Some i => set by_slot s (swap_remove l i) | None => Ok by_slot end in
  let* ch := get (i_choices d) choice in
  let* v := get cov s in
  let* v := sub_u32 pr v (ch_min ch) in
  let* cov := set cov s v in
  Ok (by_slot, cov).
Lemma take_holds S st c s : holds pr d S st -> length S = nc d -> nth_error S c = Some (Some s) -> s < ns d ->
  exists st', take st c s = Ok st' /\ holds pr d (upd S c None) st'.
Proof.
  intros H HL HS Hs. unfold take. destruct st as [by_slot cov]. destruct H as [H1 H2 H3 H4]. cbn [fst snd] in *.
  unfold get at 1. destruct (nth_error by_slot s) as [l|] eqn:El; [|apply nth_error_None in El; lia]. cbn [bind].
  destruct (H2 _ _ El) as [ND HI].
  destruct (position c l) as [i|] eqn:Ep; [|exfalso; apply position_none in Ep; apply Ep, HI, HS].
  apply position_some in Ep. unfold set at 1. destruct (Nat.ltb_spec s (length by_slot)) as [Hlt|]; [|lia]. cbn [bind].
  assert (Hc : c < nc d) by (rewrite <- HL; apply nth_error_Some; congruence).
  unfold get at 1. destruct (nth_error (i_choices d) c) as [ch|] eqn:Ech; [|apply nth_error_None in Ech; lia]. cbn [bind].
  unfold get at 1. destruct (nth_error cov s) as [v|] eqn:Ev; [|apply nth_error_None in Ev; lia]. cbn [bind].
  pose proof (fun t => slot_sum_upd ch_min (i_choices d) S c t None (Some s) ch HS Ech) as ES. cbn [weigh] in ES.
  pose proof (H4 _ _ Ev) as R. pose proof (ES s) as ESs. rewrite Nat.eqb_refl in ESs.
  replace (slot_sum ch_min (i_choices d) S s) with (slot_sum ch_min (i_choices d) (upd S c None) s + ch_min ch)%N in R by lia.
  destruct (rep_sub pr v _ (ch_min ch) (min_u32 _ _ Ech) R) as (r & -> & Rr). cbn [bind].
  unfold set. destruct (Nat.ltb_spec s (length cov)) as [Hlt2|]; [|lia]. cbn [bind]. eexists. split; [reflexivity|].
  pose proof (swap_remove_perm l i c Ep) as HP. assert (ND' : NoDup (c :: swap_remove l i)) by (eapply Permutation_NoDup; [symmetry; exact HP|auto]).
  inversion ND' as [|? ? Hni ND'']; subst.
  constructor; cbn [fst snd].
  - rewrite upd_length; auto.
  - intros t m Hm.
    assert (G : forall x, scheduled_in (upd S c None) x t <-> x <> c /\ scheduled_in S x t).
    { intros x. unfold scheduled_in. rewrite nth_error_upd. destruct (Nat.eqb_spec c x) as [<-|Hne].
      - destruct (Nat.ltb_spec c (length S)); split; try discriminate; intros [? ?]; congruence.
      - split; [intros; split; congruence|tauto]. }
    rewrite nth_error_upd in Hm. destruct (Nat.eqb_spec s t) as [<-|Hne].
    + destruct (Nat.ltb_spec s (length by_slot)); [|lia]. injection Hm as <-. split; auto. intros x. rewrite G, <- HI.
      split.
      * intros Hx. split; [intros ->; auto|]. eapply Permutation_in; [exact HP|right; auto].
      * intros [Hx1 Hx2]. apply (Permutation_in x (Permutation_sym HP)) in Hx2. destruct Hx2; congruence.
    + destruct (H2 _ _ Hm) as [NDm HIm]. split; auto. intros x. rewrite G, HIm. split; [|tauto]. intros Hx. split; auto. intros ->. unfold scheduled_in in Hx. congruence.
  - rewrite upd_length; auto.
  - intros t w Hw. rewrite nth_error_upd in Hw. pose proof (ES t) as ESt. destruct (Nat.eqb_spec s t) as [<-|Hne].
    + destruct (Nat.ltb_spec s (length cov)); [|lia]. injection Hw as <-. auto.
    + replace (slot_sum ch_min (i_choices d) (upd S c None) t) with (slot_sum ch_min (i_choices d) S t) by lia. auto.
Qed.

Lemma move_unfold st c old new : move_choice pr d st c old new =
  if opt_nat_eqb old new then Ok st
  else let* st := match old with None => Ok st | Some s => take st c s end in
       match new with None => Ok st | Some s => place pr d st c s end.
Proof. unfold move_choice. destruct (opt_nat_eqb old new); auto. Qed.
Lemma upd_upd {A} (l : list A) i x y : upd (upd l i x) i y = upd l i y.
Proof. revert i; induction l as [|a l IH]; intros [|i]; cbn; auto. f_equal; auto. Qed.
Lemma upd_same {A} (l : list A) i x : nth_error l i = Some x -> upd l i x = l.
Proof. revert i; induction l as [|a l IH]; intros [|i] H; cbn in *; try discriminate; [congruence|]. f_equal; auto. Qed.
Lemma move_holds S st c old new st' : holds pr d S st -> length S = nc d -> nth_error S c = Some old -> (forall s, old = Some s -> s < ns d) ->
  move_choice pr d st c old new = Ok st' -> holds pr d (upd S c new) st'.
Proof.
  intros H HL HS Ho E. rewrite move_unfold in E. destruct (opt_nat_eqb old new) eqn:Eo.
  - apply opt_nat_eqb_spec in Eo as ->. injection E as <-. rewrite upd_same; auto.
  - apply bind_ok in E as (st1 & E1 & E2).
    assert (H1 : holds pr d (upd S c None) st1).
    { destruct old as [s|].
      - destruct (take_holds S st c s H HL HS (Ho s eq_refl)) as (st2 & E3 & H2). congruence.
      - injection E1 as <-. rewrite upd_same; auto. }
    destruct new as [s|]; [|injection E2 as <-; auto].
    rewrite <- (upd_upd S c None (Some s)). eapply place_holds; eauto. apply nth_error_upd_same. apply nth_error_Some. congruence.
Qed.
Lemma move_total S st c old new : holds pr d S st -> length S = nc d -> nth_error S c = Some old -> (forall s, old = Some s -> s < ns d) ->
  (forall s, new = Some s -> s < ns d /\ (pr = Release \/ slot_sum ch_min (i_choices d) (upd S c new) s <= u32_max)%N) ->
  exists st', move_choice pr d st c old new = Ok st'.
Proof.
  intros H HL HS Ho Hn. rewrite move_unfold. destruct (opt_nat_eqb old new); eauto.
  assert (exists st1, (match old with None => Ok st | Some s => take st c s end) = Ok st1 /\ holds pr d (upd S c None) st1) as (st1 & -> & H1).
  { destruct old as [s|].
    - apply (take_holds S st c s H HL HS (Ho s eq_refl)).
    - eexists. split; eauto. rewrite upd_same; auto. }
  cbn [bind]. destruct new as [s|]; eauto. destruct (Hn s eq_refl) as [Hs HB].
  eapply place_total; eauto.
  - rewrite upd_length; auto.
  - apply nth_error_upd_same. apply nth_error_Some. congruence.
  - rewrite upd_upd. auto.
Qed.

(** The loop: the first choices are where the new scheduling puts them, the rest
    where the old one did. *)
Lemma loop_holds : forall olds news pre st st', length olds = length news -> length (pre ++ olds) = nc d ->
  (forall c s, nth_error olds c = Some (Some s) -> s < ns d) ->
  holds pr d (pre ++ olds) st ->
  mfold (fun st con => move_choice pr d st (fst con) (fst (snd con)) (snd (snd con)))
    (combine (seq (length pre) (length olds)) (combine olds news)) st = Ok st' ->
  holds pr d (pre ++ news) st'.
Proof.
  induction olds as [|o olds IH]; intros [|n news] pre st st' HL HC HR H E; cbn in HL; try lia.
  - injection E as <-. auto.
  - cbn [length seq combine mfold fst snd] in E. apply bind_ok in E as (st1 & E1 & E2).
    apply (move_holds (pre ++ o :: olds)) in E1; auto.
    + rewrite upd_app_r in E1. cbn [upd] in E1. replace (pre ++ n :: olds) with ((pre ++ [n]) ++ olds) in E1 by (rewrite <- app_assoc; auto).
      replace (pre ++ n :: news) with ((pre ++ [n]) ++ news) by (rewrite <- app_assoc; auto).
      apply (IH news (pre ++ [n]) st1 st'); auto.
      * rewrite app_length in *. cbn in *. rewrite app_length. cbn. lia.
      * intros c s Hc. apply (HR (Datatypes.S c) s). auto.
      * rewrite app_length. cbn [length]. rewrite Nat.add_1_r. auto.
    + rewrite nth_error_app2, Nat.sub_diag by lia. auto.
    + intros s ->. apply (HR 0 s). auto.
Qed.
Lemma slot_sum_app : forall (cs1 cs2 : list choice_data) S1 S2 s, length S1 = length cs1 -> (slot_sum ch_min (cs1 ++ cs2) (S1 ++ S2) s = slot_sum ch_min cs1 S1 s + slot_sum ch_min cs2 S2 s)%N.
Proof.
  induction cs1 as [|c cs IH]; intros cs2 [|x S1] S2 s H; cbn in H; try lia; [reflexivity|].
  cbn [slot_sum app]. rewrite IH by lia. lia.
Qed.
Lemma mix_le pre olds news s : length olds = length news -> length (pre ++ olds) = nc d -> forall rest, length rest = length pre ->
  (slot_sum ch_min (i_choices d) (pre ++ olds) s <= slot_sum ch_min (i_choices d) (rest ++ olds) s + slot_sum ch_min (i_choices d) (pre ++ news) s)%N.
Proof.
  intros HL HC rest Hr. rewrite <- (firstn_skipn (length pre) (i_choices d)). rewrite app_length in HC.
  assert (length (firstn (length pre) (i_choices d)) = length pre) by (rewrite firstn_length; lia).
  rewrite !slot_sum_app by lia. lia.
Qed.
Lemma loop_total old new : length old = nc d -> length new = nc d ->
  (forall c s, nth_error old c = Some (Some s) -> s < ns d) -> (forall c s, nth_error new c = Some (Some s) -> s < ns d) ->
  (pr = Release \/ forall s, slot_sum ch_min (i_choices d) old s + slot_sum ch_min (i_choices d) new s <= u32_max)%N ->
  forall olds news pre rest st, old = rest ++ olds -> new = pre ++ news -> length pre = length rest ->
  holds pr d (pre ++ olds) st ->
  exists st', mfold (fun st con => move_choice pr d st (fst con) (fst (snd con)) (snd (snd con)))
    (combine (seq (length pre) (length olds)) (combine olds news)) st = Ok st'.
Proof.
  intros HO HN RO RN HB. induction olds as [|o olds IH]; intros [|n news] pre rest st E1 E2 HL H; subst old new; rewrite app_length in *; cbn [length] in *; try lia; [cbn; eauto|].
  cbn [seq combine mfold fst snd].
  assert (Hup : upd (pre ++ o :: olds) (length pre) n = (pre ++ [n]) ++ olds) by (rewrite upd_app_r, <- app_assoc; reflexivity).
  destruct (move_total (pre ++ o :: olds) st (length pre) o n) as [st1 E1].
  - auto.
  - rewrite app_length. cbn. lia.
  - rewrite nth_error_app2, Nat.sub_diag by lia. auto.
  - intros s ->. apply (RO (length rest) s). rewrite nth_error_app2, Nat.sub_diag by lia. auto.
  - intros s ->. split.
    + apply (RN (length pre) s). rewrite nth_error_app2, Nat.sub_diag by lia. auto.
    + destruct HB as [HB|HB]; [auto|right]. rewrite Hup. specialize (HB s).
      pose proof (mix_le (pre ++ [Some s]) olds news s ltac:(lia) ltac:(rewrite !app_length; cbn; lia) (rest ++ [o]) ltac:(rewrite !app_length; cbn; lia)) as M.
      rewrite <- !app_assoc in M. cbn [app] in M. rewrite <- app_assoc. cbn [app]. lia.
  - rewrite E1. cbn [bind]. pose proof E1 as E1'. apply (move_holds (pre ++ o :: olds)) in E1'; auto.
    + rewrite Hup in E1'. destruct (IH news (pre ++ [n]) (rest ++ [o]) st1) as [st' E']; auto.
      * rewrite <- app_assoc; auto.
      * rewrite <- app_assoc; auto.
      * rewrite !app_length. cbn. lia.
      * rewrite app_length in E'. cbn [length] in E'. rewrite Nat.add_1_r in E'. eauto.
    + rewrite app_length. cbn. lia.
    + rewrite nth_error_app2, Nat.sub_diag by lia. auto.
    + intros s ->. apply (RO (length rest) s). rewrite nth_error_app2, Nat.sub_diag by lia. auto.
Qed.
End State.

(** ** Blocked edges *)
(** Chooser [p] must not use choice [c] in slot [s]. *)
Definition banned (d : input_data) (S : scheduling) (p s c : nat) : Prop :=
  exists k, In k (i_assign d) /\ c_left k = p /\
    ((c_kind k = ChooserIsInChoice /\ exists c0, c_right k = TChoice c0 /\ c0 <> c /\ scheduled_in S c0 s /\ scheduled_in S c s) \/
     (c_kind k = ChooserIsNotInChoice /\ c_right k = TChoice c /\ s < ns d)).

Lemma other_choice_ok k c : con_other_choice k = Ok c <-> c_right k = TChoice c.
Proof. unfold con_other_choice. destruct (c_right k); split; congruence. Qed.
Lemma mmap_in_iff {A B} (f : A -> outcome B) l r y : mmap f l = Ok r -> (In y r <-> exists x, In x l /\ f x = Ok y).
Proof.
  revert r; induction l as [|a l IH]; intros r H; cbn [mmap] in H.
  - injection H as <-. split; [intros []|intros (x & [] & _)].
  - apply bind_ok in H as (y0 & H0 & H). apply bind_ok in H as (ys & H1 & H). injection H as <-. cbn [In]. rewrite (IH _ H1). split.
    + intros [<-|(x & Hx & E)]; eauto.
    + intros (x & [->|Hx] & E); [left; congruence|eauto].
Qed.

Section Blocked.
Context (pr : profile) (d : input_data) (sd : static) (HW : wf_input d) (HL : layout d sd).

Lemma build_blocked_spec S st b : holds pr d S st -> length S = nc d -> (forall c s, scheduled_in S c s -> s < ns d) ->
  build_blocked d sd S (fst st) = Ok b ->
  forall x y, In (x, y) b <-> exists p s c, p < np d /\ s < ns d /\ c < nc d /\ x = seat d p s /\ y = room d c /\ banned d S p s c.
Proof.
  intros H HS HR E x y. unfold build_blocked in E. apply bind_ok in E as (ls & Els & E). injection E as <-.
  rewrite in_concat. split.
  - intros (l & Hl & Hxy). apply (mmap_in_iff _ _ _ _ Els) in Hl as (k & Hk & El). pose proof (wf_asg _ HW k Hk) as W. unfold asg_shape in W. unfold blocked_one in El.
    destruct (c_kind k) eqn:Ek; try discriminate; try (injection El as <-; destruct Hxy); destruct (c_right k) as [| |c0| |] eqn:Er; try (exfalso; exact W);
      unfold con_other_choice in El; rewrite Er in El; cbn [bind] in El.
    + apply bind_ok in El as (os & Hos & El). apply get_ok in Hos. destruct os as [s|]; [|injection El as <-; destruct Hxy].
      apply bind_ok in El as (from & Hf & El). apply (chooser_node_ok d sd HL) in Hf as (Hp & Hs & ->).
      apply bind_ok in El as (cs & Hcs & El). apply get_ok in Hcs.
      apply (mmap_in_iff _ _ _ _ El) in Hxy as (c & Hc & E). apply filter_In in Hc as [Hc Hne]. apply bind_ok in E as (to & Hto & E). injection E as <- <-.
      apply (choice_node_ok d sd HL) in Hto as [Hcl ->]. apply (ho_in _ _ _ _ H _ _ Hcs) in Hc.
      exists (c_left k), s, c. repeat split; auto. exists k. split; auto. split; auto. left. split; auto. exists c0.
      apply negb_true_iff, Nat.eqb_neq in Hne. repeat split; auto.
    + apply bind_ok in El as (to & Hto & El). apply (choice_node_ok d sd HL) in Hto as [Hcl ->].
      apply (mmap_in_iff _ _ _ _ El) in Hxy as (s & Hs & E). apply bind_ok in E as (from & Hf & E). injection E as <- <-.
      apply (chooser_node_ok d sd HL) in Hf as (Hp & Hsl & ->). exists (c_left k), s, c0. repeat split; auto. exists k. auto 10.
  - intros (p & s & c & Hp & Hs & Hc & -> & -> & (k & Hk & Ep & HB)).
    destruct (In_nth_error _ _ Hk) as [i Hi]. destruct (mmap_nth _ _ _ _ _ Els Hi) as (l & Hl & El). exists l. split; [eapply nth_error_In; eauto|].
    unfold blocked_one in El. unfold con_other_choice in El. destruct HB as [(Ek & c0 & Er & Hne & H0 & H1)|(Ek & Er & _)]; rewrite Ek, Er in El; cbn [bind] in El.
    + apply bind_ok in El as (os & Hos & El). apply get_ok in Hos. unfold scheduled_in in H0. rewrite H0 in Hos. injection Hos as <-.
      apply bind_ok in El as (from & Hf & El). apply (chooser_node_ok d sd HL) in Hf as (_ & _ & ->).
      apply bind_ok in El as (cs & Hcs & El). apply get_ok in Hcs. apply (mmap_in_iff _ _ _ _ El). exists c. split.
      * apply filter_In. split; [apply (ho_in _ _ _ _ H _ _ Hcs); auto|]. apply negb_true_iff, Nat.eqb_neq. auto.
      * rewrite (proj2 (choice_node_ok d sd HL c _) (conj Hc eq_refl)). cbn [bind]. subst p. reflexivity.
    + rewrite (proj2 (choice_node_ok d sd HL c _) (conj Hc eq_refl)) in El. cbn [bind] in El. apply (mmap_in_iff _ _ _ _ El). exists s. split; [apply in_seq; lia|].
      rewrite (proj2 (chooser_node_ok d sd HL (c_left k) s _) (conj (eq_ind_r (fun q => q < np d) Hp Ep) (conj Hs eq_refl))). cbn [bind]. subst p. reflexivity.
Qed.
Lemma build_blocked_total S st : holds pr d S st -> length S = nc d -> (forall c s, scheduled_in S c s -> s < ns d) ->
  exists b, build_blocked d sd S (fst st) = Ok b.
Proof.
  intros H HS HR. unfold build_blocked. destruct (mmap_ok (blocked_one d sd S (fst st)) (i_assign d)) as [ls ->]; [|cbn; eauto].
  intros k Hk. pose proof (wf_asg _ HW k Hk) as W. unfold asg_shape in W. unfold blocked_one.
  destruct (c_kind k) eqn:Ek; try (exfalso; exact W); eauto; destruct (c_right k) as [| |c0| |] eqn:Er; try (exfalso; exact W);
    unfold con_other_choice; rewrite Er; cbn [bind]; destruct W as [W1 W2].
  - unfold get at 1. destruct (nth_error S c0) as [os|] eqn:E0; [|apply nth_error_None in E0; lia]. cbn [bind]. destruct os as [s|]; eauto.
    assert (Hs : s < ns d) by (apply (HR c0); auto).
    rewrite (proj2 (chooser_node_ok d sd HL (c_left k) s _) (conj W1 (conj Hs eq_refl))). cbn [bind].
    unfold get at 1. destruct (nth_error (fst st) s) as [cs|] eqn:Ecs; [|apply nth_error_None in Ecs; rewrite (ho_len _ _ _ _ H) in Ecs; lia]. cbn [bind].
    apply mmap_ok. intros c Hc. apply filter_In in Hc as [Hc _]. apply (ho_in _ _ _ _ H _ _ Ecs) in Hc.
    assert (Hcl : c < nc d) by (rewrite <- HS; apply nth_error_Some; unfold scheduled_in in Hc; congruence).
    rewrite (proj2 (choice_node_ok d sd HL c _) (conj Hcl eq_refl)). cbn; eauto.
  - rewrite (proj2 (choice_node_ok d sd HL c0 _) (conj W2 eq_refl)). cbn [bind]. apply mmap_ok. intros s Hs. apply in_seq in Hs.
    rewrite (proj2 (chooser_node_ok d sd HL (c_left k) s _) (conj W1 (conj (proj2 Hs) eq_refl))). cbn; eauto.
Qed.

(** ** The whole state *)
Record state_for (S : scheduling) (st : sched_state) : Prop := {
  sf_slots : ss_slots st = S;
  sf_len : length S = nc d;
  sf_range : forall c s, scheduled_in S c s -> s < ns d;
  sf_holds : holds pr d S (ss_by_slot st, ss_cov st);
  sf_blocked : forall x y, In (x, y) (ss_blocked st) <->
     exists p s c, p < np d /\ s < ns d /\ c < nc d /\ x = seat d p s /\ y = room d c /\ banned d S p s c
}.
Lemma blank_holds : holds pr d (repeat None (nc d)) (repeat [] (ns d), repeat 0%N (ns d)).
Proof.
  constructor; cbn [fst snd].
  - apply repeat_length.
  - intros s l Hl. apply nth_error_repeat_inv in Hl as [-> _]. split; [constructor|]. intros c. split; [intros []|].
    unfold scheduled_in. intros Hc. apply nth_error_repeat_inv in Hc as [E _]. discriminate.
  - apply repeat_length.
  - intros s v Hv. apply nth_error_repeat_inv in Hv as [-> _].
    replace (slot_sum ch_min (i_choices d) (repeat None (nc d)) s) with 0%N; [destruct pr; [split; [auto|unfold u32_max; lia]|reflexivity]|].
    induction (i_choices d) as [|c cs IH]; cbn [length repeat slot_sum]; auto.
Qed.
Lemma scratch_loop_eq S st : mfold (fun st cs => match snd cs with Some s => place pr d st (fst cs) s | None => Ok st end)
               (combine (seq 0 (length S)) S) st
  = mfold (fun st con => move_choice pr d st (fst con) (fst (snd con)) (snd (snd con)))
    (combine (seq 0 (length S)) (combine (repeat None (length S)) S)) st.
Proof.
  generalize 0 as k. revert st. induction S as [|x S IH]; intros st k; [reflexivity|]. cbn [length seq repeat combine mfold fst snd].
  destruct x as [s|].
  - rewrite move_unfold. cbn [opt_nat_eqb bind]. destruct (place pr d st k s); cbn [bind]; auto.
  - unfold move_choice at 1. cbn [opt_nat_eqb bind]. auto.
Qed.
Lemma blank_range c s : nth_error (repeat (@None nat) (nc d)) c = Some (Some s) -> s < ns d.
Proof. intros Hc. apply nth_error_repeat_inv in Hc as [E _]. discriminate. Qed.
Lemma scratch_for S st : length S = nc d -> (forall c s, scheduled_in S c s -> s < ns d) -> scratch_state pr d sd S = Ok st -> state_for S st.
Proof.
  intros HS HR E. unfold scratch_state in E. rewrite scratch_loop_eq in E. apply bind_ok in E as (bc & E1 & E). apply bind_ok in E as (b & E2 & E). injection E as <-.
  assert (H : holds pr d S bc).
  { apply (loop_holds pr d HW (repeat None (length S)) S [] (repeat [] (ns d), repeat 0%N (ns d)) bc).
    - apply repeat_length.
    - cbn [app]. rewrite repeat_length. auto.
    - intros c s. rewrite HS. apply blank_range.
    - cbn [app]. rewrite HS. apply blank_holds.
    - cbn [length]. rewrite repeat_length. exact E1. }
  constructor; cbn [ss_slots ss_by_slot ss_cov ss_blocked]; auto.
  - destruct bc; auto.
  - apply (build_blocked_spec S bc b); auto.
Qed.
Lemma update_for S0 st0 S st : state_for S0 st0 -> length S = nc d -> (forall c s, scheduled_in S c s -> s < ns d) ->
  update_state pr d sd st0 S = Ok st -> state_for S st.
Proof.
  intros H0 HS HR E. unfold update_state in E. rewrite (sf_slots _ _ H0) in E. apply bind_ok in E as (bc & E1 & E). apply bind_ok in E as (b & E2 & E). injection E as <-.
  assert (H : holds pr d S bc).
  { apply (loop_holds pr d HW S0 S [] (ss_by_slot st0, ss_cov st0) bc); auto.
    - rewrite HS. apply (sf_len _ _ H0).
    - apply (sf_len _ _ H0).
    - apply (sf_range _ _ H0).
    - apply (sf_holds _ _ H0). }
  constructor; cbn [ss_slots ss_by_slot ss_cov ss_blocked]; auto.
  - destruct bc; auto.
  - apply (build_blocked_spec S bc b); auto.
Qed.
Lemma scratch_total S : length S = nc d -> (forall c s, scheduled_in S c s -> s < ns d) ->
  (pr = Release \/ forall s, slot_sum ch_min (i_choices d) S s <= u32_max)%N -> exists st, scratch_state pr d sd S = Ok st.
Proof.
  intros HS HR HB. unfold scratch_state. rewrite scratch_loop_eq.
  destruct (loop_total pr d HW (repeat None (nc d)) S (repeat_length _ _) HS blank_range HR) with
     (olds := repeat (@None nat) (nc d)) (news := S) (pre := @nil (option nat)) (rest := @nil (option nat)) (st := (repeat (@nil nat) (ns d), repeat 0%N (ns d))) as [bc E]; auto.
  - destruct HB as [HB|HB]; [auto|right]. intros s. specialize (HB s).
    assert (slot_sum ch_min (i_choices d) (repeat None (nc d)) s = 0%N) as ->; [|lia].
    clear. induction (i_choices d) as [|c cs IH]; cbn [length repeat slot_sum]; auto.
  - apply blank_holds.
  - rewrite repeat_length in E. cbn [length] in E. rewrite HS, E. cbn [bind].
    assert (H : holds pr d S bc).
    { apply (loop_holds pr d HW (repeat None (nc d)) S [] (repeat [] (ns d), repeat 0%N (ns d)) bc).
      - rewrite repeat_length. auto.
      - cbn [app]. apply repeat_length.
      - apply blank_range.
      - apply blank_holds.
      - cbn [length]. rewrite repeat_length. exact E. }
    destruct (build_blocked_total S bc H HS HR) as [b ->]. cbn; eauto.
Qed.
Lemma update_total S0 st0 S : state_for S0 st0 -> length S = nc d -> (forall c s, scheduled_in S c s -> s < ns d) ->
  (pr = Release \/ forall s, slot_sum ch_min (i_choices d) S0 s + slot_sum ch_min (i_choices d) S s <= u32_max)%N -> exists st, update_state pr d sd st0 S = Ok st.
Proof.
  intros H0 HS HR HB. unfold update_state. rewrite (sf_slots _ _ H0).
  destruct (loop_total pr d HW S0 S (sf_len _ _ H0) HS (sf_range _ _ H0) HR HB S0 S [] [] (ss_by_slot st0, ss_cov st0)) as [bc E]; auto.
  - apply (sf_holds _ _ H0).
  - cbn [length] in E. rewrite E. cbn [bind].
    assert (H : holds pr d S bc).
    { apply (loop_holds pr d HW S0 S [] (ss_by_slot st0, ss_cov st0) bc); auto.
      - rewrite HS. apply (sf_len _ _ H0).
      - apply (sf_len _ _ H0).
      - apply (sf_range _ _ H0).
      - apply (sf_holds _ _ H0). }
    destruct (build_blocked_total S bc H HS HR) as [b ->]. cbn; eauto.
Qed.
End Blocked.
