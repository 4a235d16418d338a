(** The generated flow instance, written out. *)
From Verif Require Import Base M_Data M_Scoring M_Flow Spec P_Sums P_Search1 P_Feasible P_Flow1 P_Flow2.
From Coq Require Import Permutation.

Local Notation np d := (length (i_choosers d)).
Local Notation nc d := (length (i_choices d)).
Local Notation ns d := (length (i_slots d)).

(** ** Folds *)
Lemma mfold_flat_map {A B C} (f : B -> C -> outcome B) (g : A -> list C) l b :
  mfold f (flat_map g l) b = mfold (fun b x => mfold f (g x) b) l b.
Proof. revert b; induction l as [|a l IH]; intros b; cbn [flat_map mfold]; auto. rewrite mfold_app. destruct (mfold f (g a) b); cbn [bind]; auto. Qed.
Lemma mfold_map {A B C} (f : B -> C -> outcome B) (g : A -> C) l b : mfold f (map g l) b = mfold (fun b x => f b (g x)) l b.
Proof. revert b; induction l as [|a l IH]; intros b; cbn [map mfold]; auto. destruct (f b (g a)); cbn [bind]; auto. Qed.
Lemma mfold_ext {A B} (f g : B -> A -> outcome B) l b : (forall b x, In x l -> f b x = g b x) -> mfold f l b = mfold g l b.
Proof.
  revert b; induction l as [|a l IH]; intros b H; cbn [mfold]; auto. rewrite H by (left; auto). destruct (g b a); cbn [bind]; auto.
  apply IH. intros; apply H; right; auto.
Qed.
Lemma in_combine_seq_l {A} (l : list A) : forall n x i, In (i, x) (combine (seq n (length l)) l) <-> n <= i /\ nth_error l (i - n) = Some x.
Proof.
  induction l as [|a l IH]; intros n x i; cbn [length seq combine].
  - split; [intros []|]. intros [_ H]. destruct (i - n); discriminate.
  - cbn [In]. rewrite IH. split.
    + intros [E|[H1 H2]].
      * injection E as <- <-. rewrite Nat.sub_diag. auto.
      * split; [lia|]. replace (i - n) with (S (i - S n)) by lia. auto.
    + intros [H1 H2]. destruct (Nat.eq_dec n i) as [->|Hne].
      * rewrite Nat.sub_diag in H2. injection H2 as ->. auto.
      * right. split; [lia|]. replace (i - n) with (S (i - S n)) in H2 by lia. auto.
Qed.
Lemma in_indexed {A} (l : list A) x i : In (i, x) (combine (seq 0 (length l)) l) <-> nth_error l i = Some x.
Proof. rewrite in_combine_seq_l, Nat.sub_0_r. split; [tauto|]. split; [lia|auto]. Qed.
Lemma NoDup_flat_map {A B} (f : A -> list B) l : NoDup l -> (forall x, In x l -> NoDup (f x)) ->
  (forall x y b, In x l -> In y l -> In b (f x) -> In b (f y) -> x = y) -> NoDup (flat_map f l).
Proof.
  induction l as [|a l IH]; intros ND H1 H2; cbn [flat_map]; [constructor|]. inversion ND; subst.
  assert (G : forall (l1 l2 : list B), NoDup l1 -> NoDup l2 -> (forall b, In b l1 -> ~ In b l2) -> NoDup (l1 ++ l2)).
  { clear. induction l1 as [|x l1 IH]; intros l2 N1 N2 HD; cbn; auto. inversion N1; subst. constructor.
    - rewrite in_app_iff. intros [?|?]; auto. eapply HD; [left; reflexivity|auto].
    - apply IH; auto. intros b Hb. apply HD. right; auto. }
  apply G.
  - apply H1. left; auto.
  - apply IH; auto. { intros; apply H1; right; auto. } intros x y b Hx Hy. apply H2; right; auto.
  - intros b Hb Hin. apply in_flat_map in Hin as (y & Hy & Hb'). assert (a = y) by (eapply H2; eauto; [left|right]; auto). subst. contradiction.
Qed.
Lemma NoDup_indexed {A} (l : list A) n : NoDup (combine (seq n (length l)) l).
Proof.
  revert n; induction l as [|a l IH]; intros n; cbn [length seq combine]; constructor; auto.
  intros H. apply in_combine_seq_l in H as [H _]. lia.
Qed.

(** ** The held choices and the possible seats *)
Definition helds (S : scheduling) : list (nat * nat) :=
  flat_map (fun cs => match snd cs with Some s => [(fst cs, s)] | None => [] end) (combine (seq 0 (length S)) S).
Lemma helds_in S c s : In (c, s) (helds S) <-> scheduled_in S c s.
Proof.
  unfold helds. rewrite in_flat_map. split.
  - intros ([c' x] & Hx & Hin). cbn [fst snd] in Hin. destruct x as [s'|]; [|destruct Hin]. destruct Hin as [E|[]]. injection E as -> ->.
    apply in_indexed in Hx. exact Hx.
  - intros H. exists (c, Some s). split; [apply in_indexed; exact H|left; auto].
Qed.
Lemma helds_nodup S : NoDup (helds S).
Proof.
  unfold helds. apply NoDup_flat_map.
  - apply NoDup_indexed.
  - intros [c [s|]] _; cbn; repeat constructor; auto.
  - intros [c x] [c' x'] [b b'] Hx Hy Hb Hb'. cbn [fst snd] in *. destruct x as [s|], x' as [s'|]; try (destruct Hb; fail); try (destruct Hb'; fail).
    destruct Hb as [E|[]], Hb' as [E'|[]]. congruence.
Qed.
Lemma helds_fst S c s s' : In (c, s) (helds S) -> In (c, s') (helds S) -> s = s'.
Proof. rewrite !helds_in. unfold scheduled_in. congruence. Qed.
Lemma mfold_held {B} (F : B -> nat * nat -> outcome B) S b :
  mfold (fun b cs => match snd cs with None => Ok b | Some s => F b (fst cs, s) end) (combine (seq 0 (length S)) S) b = mfold F (helds S) b.
Proof.
  unfold helds. rewrite mfold_flat_map. apply mfold_ext. intros b0 [c [s|]] _; cbn [fst snd mfold].
  - destruct (F b0 (c, s)); reflexivity.
  - reflexivity.
Qed.

Definition seats (d : input_data) (by_slot : list (list nat)) : list (nat * nat * nat) :=
  flat_map (fun p => flat_map (fun sc => map (fun c => (p, fst sc, c)) (snd sc)) (combine (seq 0 (length by_slot)) by_slot)) (seq 0 (np d)).
Lemma seats_in d by_slot p s c : In (p, s, c) (seats d by_slot) <-> p < np d /\ exists l, nth_error by_slot s = Some l /\ In c l.
Proof.
  unfold seats. rewrite in_flat_map. split.
  - intros (p' & Hp & H). apply in_flat_map in H as ([s' l] & Hl & H). apply in_map_iff in H as (c' & E & Hc). cbn [fst snd] in *. injection E as -> -> ->.
    apply in_seq in Hp. apply in_indexed in Hl. split; [lia|eauto].
  - intros (Hp & l & Hl & Hc). exists p. split; [apply in_seq; lia|]. apply in_flat_map. exists (s, l). split; [apply in_indexed; auto|].
    cbn [fst snd]. apply in_map. auto.
Qed.
Lemma seats_nodup d by_slot : (forall s l, nth_error by_slot s = Some l -> NoDup l) -> NoDup (seats d by_slot).
Proof.
  intros H. unfold seats. apply NoDup_flat_map.
  - apply seq_NoDup.
  - intros p _. apply NoDup_flat_map.
    + apply NoDup_indexed.
    + intros [s l] Hl. cbn [fst snd]. apply in_indexed in Hl. apply FinFun.Injective_map_NoDup; [|eauto]. intros a b E. congruence.
    + intros [s l] [s' l'] b Hl Hl' Hb Hb'. cbn [fst snd] in *. apply in_map_iff in Hb as (c & <- & _). apply in_map_iff in Hb' as (c' & E & _).
      injection E as E1 E2. subst. apply in_indexed in Hl, Hl'. congruence.
  - intros p p' b _ _ Hb Hb'. apply in_flat_map in Hb as (x & _ & Hb). apply in_flat_map in Hb' as (x' & _ & Hb').
    apply in_map_iff in Hb as (c & <- & _). apply in_map_iff in Hb' as (c' & E & _). congruence.
Qed.

Definition prefN (d : input_data) (p c : nat) : N :=
  match nth_error (i_choosers d) p with Some x => match nth_error (cs_prefs x) c with Some y => y | None => 0%N end | None => 0%N end.
Lemma prefN_pref d p c y : pref_of d p c y -> prefN d p c = y.
Proof. intros (x & Hx & Hy). unfold prefN. rewrite Hx, Hy. reflexivity. Qed.
Lemma prefN_of d p c : wf_input d -> p < np d -> c < nc d -> pref_of d p c (prefN d p c).
Proof.
  intros HW Hp Hc. unfold prefN, pref_of. destruct (nth_error (i_choosers d) p) as [x|] eqn:E; [|apply nth_error_None in E; lia].
  pose proof (wf_prefs _ HW x (nth_error_In _ _ E)) as L. destruct (nth_error (cs_prefs x) c) as [y|] eqn:Ey; [|apply nth_error_None in Ey; lia]. eauto.
Qed.
Definition minN (d : input_data) (c : nat) : N := match nth_error (i_choices d) c with Some ch => ch_min ch | None => 0%N end.
Definition maxN (d : input_data) (c : nat) : N := match nth_error (i_choices d) c with Some ch => ch_max ch | None => 0%N end.

Definition usable (d : input_data) (st : sched_state) (limit : N) (t : nat * nat * nat) : bool :=
  let '(p, s, c) := t in (prefN d p c <=? limit)%N && negb (is_blocked st (seat d p s) (room d c)).
Definition tedge (d : input_data) (cost : N -> Z) (t : nat * nat * nat) : edge :=
  let '(p, s, c) := t in mkEdge (seat d p s) (room d c) 1 (cost (prefN d p c)).
Definition hedge (d : input_data) (cs : nat * nat) : edge :=
  mkEdge (room d (fst cs)) (exit d (snd cs)) (Z.of_N (maxN d (fst cs)) - Z.of_N (minN d (fst cs))) 0.
Definition tris (d : input_data) (st : sched_state) (limit : N) : list (nat * nat * nat) := filter (usable d st limit) (seats d (ss_by_slot st)).

(** ** Supplies *)
Definition with_supply (f : flow) (s : list Z) : flow := mkFlow s (fl_edges f) (fl_map f) (fl_groups f) (fl_blocked f).
Lemma set_supplies {A} (step : flow -> A -> outcome flow) (g : A -> nat) (h : A -> Z) : forall l f f',
  (forall f x f1, In x l -> step f x = Ok f1 -> set_supply f (g x) (h x) = Ok f1) ->
  NoDup (map g l) -> mfold step l f = Ok f' ->
  exists sup, f' = with_supply f sup /\ length sup = length (fl_supply f) /\
    (forall x, In x l -> nth_error sup (g x) = Some (h x)) /\ (forall n, ~ In n (map g l) -> nth_error sup n = nth_error (fl_supply f) n).
Proof.
  induction l as [|a l IH]; intros f f' HS ND H; cbn [mfold] in H.
  - injection H as <-. exists (fl_supply f). repeat split; auto. { destruct f; auto. } intros x [].
  - apply bind_ok in H as (f1 & H1 & H2). apply HS in H1; [|left; auto]. unfold set_supply in H1. apply bind_ok in H1 as (s1 & Hs1 & H1). injection H1 as <-.
    apply set_ok in Hs1 as [Hlt ->]. cbn [map] in ND. inversion ND as [|? ? Hni ND']; subst.
    destruct (IH _ _ (fun f x f1 Hx => HS f x f1 (or_intror Hx)) ND' H2) as (sup & -> & L & E1 & E2). cbn [fl_supply] in *.
    exists sup. split; [reflexivity|]. rewrite upd_length in L. split; auto. split.
    + intros x [<-|Hx]; auto. rewrite E2 by auto. apply nth_error_upd_same. auto.
    + cbn [map In]. intros n Hn. rewrite E2 by tauto. apply nth_error_upd_other. tauto.
Qed.

Section Build.
Context (pr : profile) (d : input_data) (sd : static) (HW : wf_input d) (HL : layout d sd).
Context (cost : N -> Z) (S : scheduling) (st : sched_state) (limit : N) (HSt : state_for pr d S st).

Lemma seats_sched p s c : In (p, s, c) (seats d (ss_by_slot st)) <-> p < np d /\ scheduled_in S c s.
Proof.
  rewrite seats_in. pose proof (sf_holds _ _ _ _ HSt) as H. split.
  - intros (Hp & l & Hl & Hc). split; auto. apply (ho_in _ _ _ _ H _ _ Hl). auto.
  - intros (Hp & Hc). split; auto. pose proof (sf_range _ _ _ _ HSt c s Hc) as Hs. pose proof (ho_len _ _ _ _ H) as L. cbn [fst] in L.
    destruct (nth_error (ss_by_slot st) s) as [l|] eqn:El; [|apply nth_error_None in El; lia]. exists l. split; auto. apply (ho_in _ _ _ _ H _ _ El). auto.
Qed.
Lemma sched_lt c s : scheduled_in S c s -> c < nc d /\ s < ns d.
Proof.
  intros H. split; [|apply (sf_range _ _ _ _ HSt c s H)]. rewrite <- (sf_len _ _ _ _ HSt). apply nth_error_Some. unfold scheduled_in in H. congruence.
Qed.
Lemma seats_nd : NoDup (seats d (ss_by_slot st)).
Proof. apply seats_nodup. intros s l Hl. apply (ho_in _ _ _ _ (sf_holds _ _ _ _ HSt) _ _ Hl). Qed.
Lemma tris_in p s c : In (p, s, c) (tris d st limit) <-> p < np d /\ scheduled_in S c s /\ (prefN d p c <= limit)%N /\ ~ banned d S p s c.
Proof.
  unfold tris. rewrite filter_In, seats_sched. unfold usable. rewrite andb_true_iff, N.leb_le, negb_true_iff.
  assert (G : p < np d -> scheduled_in S c s -> (is_blocked st (seat d p s) (room d c) = false <-> ~ banned d S p s c)).
  { intros Hp Hc. destruct (sched_lt c s Hc) as [Hcl Hsl]. unfold is_blocked. rewrite existsb_false. split.
    - intros H HB. assert (Hin : In (seat d p s, room d c) (ss_blocked st)) by (apply (sf_blocked _ _ _ _ HSt); eauto 12).
      apply H in Hin. cbn [fst snd] in Hin. rewrite !Nat.eqb_refl in Hin. discriminate.
    - intros HB [x y] Hin. cbn [fst snd]. apply (sf_blocked _ _ _ _ HSt) in Hin as (p' & s' & c' & Hp' & Hs' & Hc' & -> & -> & HB').
      destruct (Nat.eqb_spec (seat d p' s') (seat d p s)) as [E|]; auto. destruct (Nat.eqb_spec (room d c') (room d c)) as [E'|]; auto.
      apply seat_inj in E as [-> ->]; auto. apply room_inj in E' as ->. contradiction. }
  split; [intros [[H1 H2] [H3 H4]]|intros (H1 & H2 & H3 & H4)]; repeat split; auto; apply G; auto.
Qed.
Lemma tris_nd : NoDup (tris d st limit).
Proof. apply NoDup_filter, seats_nd. Qed.

Lemma as_i32_ok n z : as_i32 n = Ok z -> (Z.of_N n <= i32_max)%Z /\ z = Z.of_N n.
Proof. unfold as_i32. destruct (Z.leb_spec (Z.of_N n) i32_max); [|discriminate]. intros E. injection E as <-. auto. Qed.
Lemma to_i32_ok n z : to_i32 n = Ok z -> z = Z.of_nat n.
Proof. unfold to_i32. destruct (Z.of_nat n <=? i32_max)%Z; [|discriminate]. congruence. Qed.

(** What the supplies are. *)
Record supplied (sup : list Z) : Prop := {
  su_len : length sup = nodes d;
  su_seat : forall p s, p < np d -> s < ns d -> nth_error sup (seat d p s) = Some 1%Z;
  su_room : forall c, c < nc d -> nth_error sup (room d c) = Some (if is_some (match nth_error S c with Some (Some s) => Some s | _ => None end) then (- Z.of_N (minN d c))%Z else 0%Z);
  su_exit : forall s, s < ns d -> exists v, nth_error (ss_cov st) s = Some v /\ nth_error sup (exit d s) = Some (- (Z.of_nat (np d) - Z.of_N v))%Z
}.
Lemma supplies_ok f : flow_supplies d sd st (sd_flow sd) = Ok f ->
  exists sup, f = mkFlow sup [] [] [] [] /\ supplied sup /\ forall c s, scheduled_in S c s -> (Z.of_N (minN d c) <= i32_max)%Z.
Proof.
  unfold flow_supplies. intros H. rewrite (la_flow _ _ HL) in H. apply bind_ok in H as (f1 & H1 & H). apply bind_ok in H as (f2 & H2 & H3).
  (* seats *)
  pose (pl := flat_map (fun p => map (fun s => (p, s)) (seq 0 (ns d))) (seq 0 (np d))).
  assert (Hpl : forall p s, In (p, s) pl <-> p < np d /\ s < ns d).
  { intros p s. unfold pl. rewrite in_flat_map. split.
    - intros (q & Hq & Hin). apply in_map_iff in Hin as (t & E & Ht). injection E as -> ->. apply in_seq in Hq, Ht. lia.
    - intros [Hp Hs]. exists p. split; [apply in_seq; lia|]. apply in_map_iff. exists s. split; auto. apply in_seq; lia. }
  assert (H1' : mfold (fun f ps => let* n := chooser_node sd (fst ps) (snd ps) in set_supply f n 1%Z) pl (mkFlow (repeat 0%Z (nodes d)) [] [] [] []) = Ok f1).
  { unfold pl. rewrite mfold_flat_map. rewrite <- H1. apply mfold_ext. intros b p _. rewrite mfold_map. reflexivity. }
  apply (set_supplies _ (fun ps => seat d (fst ps) (snd ps)) (fun _ => 1%Z)) in H1' as (sup1 & -> & L1 & E1 & E1').
  2: { intros f0 [p s] f3 _ E. apply bind_ok in E as (n & Hn & E). apply (chooser_node_ok d sd HL) in Hn as (_ & _ & ->). exact E. }
  2: { assert (NDpl : NoDup pl).
       { apply NoDup_flat_map; [apply seq_NoDup| |].
         - intros p _. apply FinFun.Injective_map_NoDup; [intros a b E; congruence|apply seq_NoDup].
         - intros p q b _ _ Hb Hb'. apply in_map_iff in Hb as (s & <- & _). apply in_map_iff in Hb' as (t & E & _). congruence. }
       clear - NDpl Hpl. induction pl as [|[p s] l IH]; cbn [map fst snd]; [constructor|]. inversion NDpl as [|? ? Hni ND']; subst.
       assert (forall q t, In (q, t) ((p, s) :: l) -> t < ns d) by (clear - Hpl; intros q t Hin; apply Hpl in Hin; tauto).
       constructor.
       - intros Hin. apply in_map_iff in Hin as ([q t] & E & Hin). cbn [fst snd] in E. apply seat_inj in E as [-> ->]; auto.
         + apply (H q); right; auto.
         + apply (H p); left; auto.
       - clear IH. assert (Hd : forall q t, In (q, t) l -> t < ns d) by (intros q t Hin; apply (H q); right; auto). clear - ND' Hd.
         induction l as [|[q t] l IH]; cbn [map]; [constructor|]. inversion ND' as [|? ? Hni ND'']; subst. constructor.
         + intros Hin. apply in_map_iff in Hin as ([q' t'] & E & Hin). cbn [fst snd] in E. apply seat_inj in E as [-> ->]; auto.
           * apply (Hd q'); right; auto.
           * apply (Hd q); left; auto.
         + apply IH; auto. intros q' t' Hin. apply (Hd q'). right; auto. }
  (* rooms *)
  rewrite (sf_slots _ _ _ _ HSt) in H2.
  assert (H2' : mfold (fun f cs => let* n := get (sd_choice sd) (fst cs) in let* ch := get (i_choices d) (fst cs) in let* m := as_i32 (ch_min ch) in set_supply f n (- m)) (helds S)
     (with_supply (mkFlow (repeat 0%Z (nodes d)) [] [] [] []) sup1) = Ok f2).
  { rewrite <- mfold_held. exact H2. }
  assert (Hmin : forall c s, scheduled_in S c s -> (Z.of_N (minN d c) <= i32_max)%Z).
  { intros c s Hc. apply helds_in in Hc. revert H2' Hc. generalize (with_supply (mkFlow (repeat 0%Z (nodes d)) [] [] [] []) sup1) as g. clear.
    induction (helds S) as [|x l IH]; intros g H Hc; [destruct Hc|]. cbn [mfold] in H. apply bind_ok in H as (g1 & Hg & H). destruct Hc as [->|Hc]; [|eauto].
    cbn [fst] in Hg. apply bind_ok in Hg as (n & _ & Hg). apply bind_ok in Hg as (ch & Hch & Hg). apply bind_ok in Hg as (m & Hm & _). apply as_i32_ok in Hm as [Hm _].
    apply get_ok in Hch. unfold minN. rewrite Hch. auto. }
  apply (set_supplies _ (fun cs => room d (fst cs)) (fun cs => (- Z.of_N (minN d (fst cs)))%Z)) in H2' as (sup2 & -> & L2 & E2 & E2').
  2: { intros f0 [c s] f3 _ E. cbn [fst] in *. apply bind_ok in E as (n & Hn & E). apply (choice_node_ok d sd HL) in Hn as (_ & ->).
       apply bind_ok in E as (ch & Hch & E). apply bind_ok in E as (m & Hm & E). apply as_i32_ok in Hm as [_ ->]. apply get_ok in Hch. unfold minN. rewrite Hch. exact E. }
  2: { assert (forall l, NoDup l -> (forall c s s', In (c, s) l -> In (c, s') l -> s = s') -> NoDup (map (fun cs : nat * nat => room d (fst cs)) l)) as G.
       { clear. induction l as [|[c s] l IH]; intros ND H; cbn [map fst]; [constructor|]. inversion ND as [|? ? Hni ND']; subst. constructor.
         - intros Hin. apply in_map_iff in Hin as ([c' s'] & E & Hin). cbn [fst] in E. apply room_inj in E as ->.
           assert (s' = s) as -> by (eapply H; [right; eauto|left; auto]). contradiction.
         - apply IH; auto. intros c0 s0 s0' Ha Hb. eapply H; right; eauto. }
       apply G; [apply helds_nodup|]. intros; eapply helds_fst; eauto. }
  (* exits *)
  pose (cov s := match nth_error (ss_cov st) s with Some v => v | None => 0%N end).
  apply (set_supplies _ (fun s => exit d s) (fun s => (- (Z.of_nat (np d) - Z.of_N (cov s)))%Z)) in H3 as (sup3 & -> & L3 & E3 & E3').
  2: { intros f0 s f3 _ E. apply bind_ok in E as (n & Hn & E). apply (slot_node_ok d sd HL) in Hn as (_ & ->).
       apply bind_ok in E as (a & Ha & E). apply bind_ok in E as (v & Hv & E). apply bind_ok in E as (b & Hb & E).
       apply to_i32_ok in Ha as ->. apply as_i32_ok in Hb as [_ ->]. apply get_ok in Hv. unfold cov. rewrite Hv. exact E. }
  2: { apply FinFun.Injective_map_NoDup; [intros a b; apply exit_inj|apply seq_NoDup]. }
  cbn [with_supply fl_supply fl_edges fl_map fl_groups fl_blocked] in *. exists sup3. split; [reflexivity|]. split; [|exact Hmin].
  rewrite repeat_length in L1. constructor.
  - lia.
  - intros p s Hp Hs. rewrite E3', E2'.
    + apply (E1 (p, s)). apply Hpl; auto.
    + intros Hin. apply in_map_iff in Hin as (cs & E & _). symmetry in E. eapply seat_room; eauto.
    + intros Hin. apply in_map_iff in Hin as (cs & E & _). symmetry in E. eapply seat_exit; eauto.
  - intros c Hc. rewrite E3'. 2: { intros Hin. apply in_map_iff in Hin as (s & E & _). symmetry in E. eapply room_exit; eauto. }
    pose proof (sf_len _ _ _ _ HSt) as LS. destruct (nth_error S c) as [[s|]|] eqn:Es.
    + cbn [is_some]. apply (E2 (c, s)). apply helds_in. exact Es.
    + cbn [is_some]. rewrite E2'.
      * rewrite E1'; [apply nth_error_repeat_lt; apply room_lt; auto|]. intros Hin. apply in_map_iff in Hin as ([p s] & E & Hin). apply Hpl in Hin as [? ?]. eapply seat_room; eauto.
      * intros Hin. apply in_map_iff in Hin as ([c' s] & E & Hin). cbn [fst] in E. apply room_inj in E as ->. apply helds_in in Hin. unfold scheduled_in in Hin. congruence.
    + apply nth_error_None in Es. lia.
  - intros s Hs. pose proof (ho_clen _ _ _ _ (sf_holds _ _ _ _ HSt)) as LC. cbn [snd] in LC.
    destruct (nth_error (ss_cov st) s) as [v|] eqn:Ev; [|apply nth_error_None in Ev; lia]. exists v. split; auto. rewrite (E3 s) by (apply in_seq; lia). unfold cov. rewrite Ev. reflexivity.
Qed.

(** ** Edges *)
Lemma chooser_edges_ok f f' : node_count f = nodes d -> flow_chooser_edges d sd st cost limit f = Ok f' ->
  f' = add_all f (map (tedge d cost) (tris d st limit)) /\
  forall p s c, In (p, s, c) (tris d st limit) -> (N.of_nat (seat d p s) <= u32_max /\ N.of_nat (room d c) <= u32_max)%N.
Proof.
  intros _ H.
  assert (H' : mfold (fun f t => chooser_edge d sd st cost limit (fst (fst t)) (snd (fst t)) (snd t) f) (seats d (ss_by_slot st)) f = Ok f').
  { rewrite <- H. unfold flow_chooser_edges, seats. rewrite mfold_flat_map. apply mfold_ext. intros b p _. rewrite mfold_flat_map. apply mfold_ext.
    intros b' [s l] _. cbn [fst snd]. rewrite mfold_map. reflexivity. }
  clear H. unfold tris. revert f H'. induction (seats d (ss_by_slot st)) as [|[[p s] c] l IH]; intros f H; cbn [mfold filter fst snd] in *.
  - injection H as <-. split; auto. intros p s c [].
  - apply bind_ok in H as (f1 & H1 & H). apply IH in H as [-> IHb]. clear IH. unfold chooser_edge in H1.
    apply bind_ok in H1 as (from & Hf & H1). apply (chooser_node_ok d sd HL) in Hf as (Hp & Hs & ->).
    apply bind_ok in H1 as (x & Hx & H1). apply get_ok in Hx. apply bind_ok in H1 as (y & Hy & H1). apply get_ok in Hy.
    assert (E : prefN d p c = y) by (apply prefN_pref; exists x; auto). assert (U : usable d st limit (p, s, c) = (y <=? limit)%N && negb (is_blocked st (seat d p s) (room d c))) by (cbn [usable]; rewrite E; auto). rewrite U. clear U.
    destruct (N.ltb_spec limit y) as [Hlt|Hle].
    + injection H1 as <-. destruct (N.leb_spec y limit); [lia|]. cbn [andb]. auto.
    + destruct (N.leb_spec y limit); [|lia]. cbn [andb]. apply bind_ok in H1 as (to & Hto & H1). apply (choice_node_ok d sd HL) in Hto as (Hc & ->).
      destruct (is_blocked st (seat d p s) (room d c)); cbn [negb].
      * injection H1 as <-. auto.
      * apply bind_ok in H1 as (k & Hk & H1). apply edge_id_ok in Hk as [Hu ->]. apply add_keyed_ok in H1 as (-> & _ & _). cbn [map tedge]. rewrite E. split; auto.
        intros p' s' c' [Hin|Hin]; [injection Hin as <- <- <-; auto|eauto].
Qed.
Lemma sub_width a b w z : (Z.of_N b <= i32_max)%Z -> (a <= u32_max)%N -> sub_u32 pr a b = Ok w -> as_i32 w = Ok z -> (b <= a)%N /\ z = (Z.of_N a - Z.of_N b)%Z.
Proof.
  intros Hb Ha Hw Hz. apply as_i32_ok in Hz as [Hz ->]. unfold sub_u32 in Hw. unfold i32_max, u32_max in *. destruct (N.leb_spec b a).
  - injection Hw as <-. split; lia.
  - destruct pr; [discriminate|]. injection Hw as <-. lia.
Qed.
Lemma choice_edges_ok f f' : (forall c s, scheduled_in S c s -> (Z.of_N (minN d c) <= i32_max)%Z) -> flow_choice_edges pr d sd st f = Ok f' ->
  f' = add_all f (map (hedge d) (helds S)) /\
  forall c s, scheduled_in S c s -> (minN d c <= maxN d c)%N /\ (N.of_nat (room d c) <= u32_max /\ N.of_nat (exit d s) <= u32_max)%N.
Proof.
  intros HM H. unfold flow_choice_edges in H. rewrite (sf_slots _ _ _ _ HSt) in H.
  pose (F := fun (f : flow) (cs : nat * nat) => let* from := get (sd_choice sd) (fst cs) in
                         let* to := get (sd_slot sd) (snd cs) in
                         let* k := edge_id from to in
                         let* ch := get (i_choices d) (fst cs) in
                         let* w := sub_u32 pr (ch_max ch) (ch_min ch) in
                         let* w := as_i32 w in
                         add_keyed_edge f k from to w 0).
  assert (H' : mfold F (helds S) f = Ok f') by (rewrite <- mfold_held; exact H). clear H.
  assert (HM' : forall c s, In (c, s) (helds S) -> (Z.of_N (minN d c) <= i32_max)%Z) by (intros c s Hin; apply helds_in in Hin; eauto).
  assert (G : f' = add_all f (map (hedge d) (helds S)) /\ forall c s, In (c, s) (helds S) -> (minN d c <= maxN d c)%N /\ (N.of_nat (room d c) <= u32_max /\ N.of_nat (exit d s) <= u32_max)%N).
  { revert f H' HM'. clear HM. induction (helds S) as [|[c s] l IH]; intros f H HM; cbn [mfold] in H.
    - injection H as <-. split; auto. intros c s [].
    - apply bind_ok in H as (f1 & H1 & H). apply IH in H as [-> IHb]; [|intros; eapply HM; right; eauto]. clear IH. unfold F in H1. cbn [fst snd] in H1.
      apply bind_ok in H1 as (from & Hf & H1). apply (choice_node_ok d sd HL) in Hf as (Hc & ->).
      apply bind_ok in H1 as (to & Ht & H1). apply (slot_node_ok d sd HL) in Ht as (Hs & ->).
      apply bind_ok in H1 as (k & Hk & H1). apply edge_id_ok in Hk as [Hu ->]. apply bind_ok in H1 as (ch & Hch & H1). apply get_ok in Hch.
      apply bind_ok in H1 as (w & Hw & H1). apply bind_ok in H1 as (z & Hz & H1). apply add_keyed_ok in H1 as (-> & _ & _).
      pose proof (HM c s (or_introl eq_refl)) as Hm. unfold minN in Hm. rewrite Hch in Hm.
      destruct (sub_width (ch_max ch) (ch_min ch) w z) as [Hle ->]; auto. { apply (wf_bounds_u32 _ HW). eapply nth_error_In; eauto. }
      split.
      + cbn [map]. unfold hedge at 2. cbn [fst snd]. unfold maxN, minN. rewrite Hch. reflexivity.
      + intros c' s' [Hin|Hin]; [|eauto]. injection Hin as <- <-. unfold minN, maxN. rewrite Hch. auto. }
  destruct G as [-> G]. split; auto. intros c s Hc. apply G. apply helds_in. auto.
Qed.

(** ** Groups *)
Definition tie_all (f : flow) (ts : list (list N)) : flow := fold_left create_edge_group ts f.
Lemma tie_all_app f a b : tie_all f (a ++ b) = tie_all (tie_all f a) b.
Proof. apply fold_left_app. Qed.
Lemma tie_fold {A} (step : flow -> A -> outcome flow) (Q : A -> list N -> Prop) l : forall f f',
  (forall f x f1, In x l -> step f x = Ok f1 -> exists ts, f1 = tie_all f ts /\ forall t, In t ts <-> Q x t) ->
  mfold step l f = Ok f' -> exists ts, f' = tie_all f ts /\ forall t, In t ts <-> exists x, In x l /\ Q x t.
Proof.
  induction l as [|a l IH]; intros f f' HS H; cbn [mfold] in H.
  - injection H as <-. exists []. split; auto. intros t. split; [intros []|]. intros (x & [] & _).
  - apply bind_ok in H as (f1 & H1 & H). destruct (HS f a f1 (or_introl eq_refl) H1) as (ts1 & -> & E1).
    destruct (IH (tie_all f ts1) f' (fun f x f1 Hx => HS f x f1 (or_intror Hx)) H) as (ts2 & -> & E2).
    exists (ts1 ++ ts2). rewrite tie_all_app. split; auto. intros t. rewrite in_app_iff, E1, E2. cbn [In]. split.
    + intros [Hq|(x & Hx & Hq)]; eauto.
    + intros (x & [<-|Hx] & Hq); eauto.
Qed.
Definition pair_tie (k : constraint) (t : list N) : Prop :=
  c_kind k = ChoosersHaveSameChoices /\ exists p' s c, c_right k = TChooser p' /\ scheduled_in S c s /\
    t = [key (seat d (c_left k) s) (room d c); key (seat d p' s) (room d c)].
Definition group_keys (g : list nat) (p : nat) : list N :=
  flat_map (fun c => match nth_error S c with Some (Some s) => [key (seat d p s) (room d c)] | _ => [] end) g.
Definition group_tie (g : list nat) (t : list N) : Prop := length g <> 1 /\ exists p, p < np d /\ t = group_keys g p.
Lemma groups_ok f f' : create_edge_groups d sd st f = Ok f' ->
  exists ts, f' = tie_all f ts /\ forall t, In t ts <-> (exists k, In k (i_assign d) /\ pair_tie k t) \/ (exists g, In g (i_groups d) /\ group_tie g t).
Proof.
  unfold create_edge_groups. intros H. apply bind_ok in H as (f1 & H1 & H2).
  apply (tie_fold _ pair_tie) in H1 as (ts1 & -> & E1).
  - apply (tie_fold _ group_tie) in H2 as (ts2 & -> & E2).
    + exists (ts1 ++ ts2). rewrite tie_all_app. split; auto. intros t. rewrite in_app_iff, E1, E2. tauto.
    + intros f0 g f3 _ E. destruct (Nat.eqb_spec (length g) 1) as [E1g|Hne].
      * injection E as <-. exists []. split; auto. intros t. split; [intros []|]. intros [Hn _]. contradiction.
      * apply (tie_fold _ (fun p t => t = group_keys g p)) in E as (ts & -> & E).
        -- exists ts. split; auto. intros t. rewrite E. unfold group_tie. split.
           ++ intros (p & Hp & ->). split; auto. apply in_seq in Hp. exists p. split; auto. lia.
           ++ intros (_ & p & Hp & ->). exists p. split; auto. apply in_seq. lia.
        -- intros f4 p f5 _ E4. unfold audience_group in E4. apply bind_ok in E4 as (keys & Hk & E4). injection E4 as <-.
           rewrite (sf_slots _ _ _ _ HSt) in Hk.
           exists [keys]. split; auto. assert (keys = group_keys g p) as ->; [|intros t; cbn [In]; split; [intros [<-|[]]; auto|intros ->; auto]].
           assert (G : forall g acc keys, mfold (fun keys c =>
              let* s := get S c in match s with None => Ok keys | Some s => let* from := chooser_node sd p s in let* to := get (sd_choice sd) c in
                  let* k := edge_id from to in Ok (keys ++ [k]) end) g acc = Ok keys -> keys = acc ++ group_keys g p).
           { clear - HL. induction g as [|c g IH]; intros acc keys H; cbn [mfold] in H; [injection H as <-; cbn; rewrite app_nil_r; auto|].
             apply bind_ok in H as (acc2 & H1 & H2). apply IH in H2 as ->. apply bind_ok in H1 as (os & Hos & H1). apply get_ok in Hos.
             unfold group_keys. cbn [flat_map]. rewrite Hos. destruct os as [s|]; [|injection H1 as <-; auto].
             apply bind_ok in H1 as (from & Hf & H1). apply (chooser_node_ok d sd HL) in Hf as (_ & _ & ->).
             apply bind_ok in H1 as (to & Hto & H1). apply (choice_node_ok d sd HL) in Hto as (_ & ->).
             apply bind_ok in H1 as (k & Hkk & H1). apply edge_id_ok in Hkk as [_ ->]. injection H1 as <-. rewrite <- app_assoc. reflexivity. }
           apply (G g [] keys). exact Hk.
  - intros f0 k f3 Hk E. unfold pair_groups in E. destruct (kind_eqb (c_kind k) ChoosersHaveSameChoices) eqn:Ek; cbn [negb] in E.
    + pose proof (wf_asg _ HW k Hk) as W. unfold asg_shape in W.
      assert (Ekk : c_kind k = ChoosersHaveSameChoices) by (unfold kind_eqb in Ek; destruct (c_kind k); try discriminate; auto). rewrite Ekk in W.
      destruct (c_right k) as [| | |p'|] eqn:Er; try (exfalso; exact W). unfold con_other_chooser in E. rewrite Er in E. cbn [bind] in E.
      apply (tie_fold _ (fun s t => exists c, scheduled_in S c s /\ t = [key (seat d (c_left k) s) (room d c); key (seat d p' s) (room d c)])) in E as (ts & -> & E).
      * exists ts. split; auto. intros t. rewrite E. unfold pair_tie. split.
        -- intros (s & Hs & c & Hc & ->). split; auto. exists p', s, c. auto.
        -- intros (_ & p2 & s & c & Er2 & Hc & ->). assert (p2 = p') as -> by congruence. exists s. split; [apply in_seq; pose proof (sched_lt _ _ Hc); lia|]. eauto.
      * intros f4 s f5 Hs E4. apply bind_ok in E4 as (cs & Hcs & E4). apply get_ok in Hcs.
        apply (tie_fold _ (fun c t => t = [key (seat d (c_left k) s) (room d c); key (seat d p' s) (room d c)])) in E4 as (ts & -> & E4).
        -- exists ts. split; auto. intros t. rewrite E4. split.
           ++ intros (c & Hc & ->). exists c. split; auto. apply (ho_in _ _ _ _ (sf_holds _ _ _ _ HSt) _ _ Hcs). auto.
           ++ intros (c & Hc & ->). exists c. split; auto. apply (ho_in _ _ _ _ (sf_holds _ _ _ _ HSt) _ _ Hcs). auto.
        -- intros f6 c f7 _ E6. apply bind_ok in E6 as (a & Ha & E6). apply (chooser_node_ok d sd HL) in Ha as (_ & _ & ->).
           apply bind_ok in E6 as (b & Hb & E6). apply (choice_node_ok d sd HL) in Hb as (_ & ->).
           apply bind_ok in E6 as (a' & Ha' & E6). apply (chooser_node_ok d sd HL) in Ha' as (_ & _ & ->).
           apply bind_ok in E6 as (k1 & Hk1 & E6). apply edge_id_ok in Hk1 as [_ ->]. apply bind_ok in E6 as (k2 & Hk2 & E6). apply edge_id_ok in Hk2 as [_ ->].
           injection E6 as <-. exists [[key (seat d (c_left k) s) (room d c); key (seat d p' s) (room d c)]]. split; auto.
           intros t. cbn [In]. split; [intros [<-|[]]; auto|intros ->; auto].
    + injection E as <-. exists []. split; auto. intros t. split; [intros []|]. intros [Ekk _]. rewrite Ekk in Ek. discriminate.
Qed.

(** ** Everything together *)
Record built (f : flow) : Prop := {
  bu_supply : supplied (fl_supply f);
  bu_edges : fl_edges f = map (tedge d cost) (tris d st limit) ++ map (hedge d) (helds S);
  bu_keyed : keyed f;
  bu_small : small f;
  bu_width : forall c s, scheduled_in S c s -> (minN d c <= maxN d c)%N;
  bu_ties : exists ts f0, f = tie_all f0 ts /\ fl_groups f0 = [] /\ fl_blocked f0 = [] /\
     forall t, In t ts <-> (exists k, In k (i_assign d) /\ pair_tie k t) \/ (exists g, In g (i_groups d) /\ group_tie g t)
}.
Lemma tie_all_fields f ts : fl_supply (tie_all f ts) = fl_supply f /\ fl_edges (tie_all f ts) = fl_edges f /\ fl_map (tie_all f ts) = fl_map f.
Proof.
  revert f; induction ts as [|t ts IH]; intros f; cbn [tie_all fold_left]; auto. specialize (IH (create_edge_group f t)) as (E1 & E2 & E3). unfold tie_all in *.
  rewrite E1, E2, E3. unfold create_edge_group. destruct (forallb _ t); auto.
Qed.
Lemma build_ok f : build_flow pr d sd cost st limit = Ok f -> built f.
Proof.
  unfold build_flow. intros H. apply bind_ok in H as (f1 & H1 & H). apply bind_ok in H as (f2 & H2 & H). apply bind_ok in H as (f3 & H3 & H4).
  apply supplies_ok in H1 as (sup & -> & HS & HM). apply chooser_edges_ok in H2 as [-> U2]; [|apply (su_len _ HS)].
  apply choice_edges_ok in H3 as [-> U3]; auto. apply groups_ok in H4 as (ts & -> & HT).
  rewrite <- add_all_app in *. set (f0 := mkFlow sup [] [] [] []) in *. set (es := map (tedge d cost) (tris d st limit) ++ map (hedge d) (helds S)) in *.
  destruct (add_all_fields f0 es) as (A1 & A2 & A3 & A4). destruct (tie_all_fields (add_all f0 es) ts) as (B1 & B2 & B3).
  assert (K : keyed (add_all f0 es)) by (apply add_all_keyed; reflexivity).
  constructor.
  - rewrite B1, A1. exact HS.
  - rewrite B2, A2. reflexivity.
  - unfold keyed. rewrite B3, B2. exact K.
  - unfold small. rewrite B2, A2. intros e He. cbn [f0 fl_edges app] in He. unfold es in He. apply in_app_or in He as [He|He]; apply in_map_iff in He as (t & <- & Ht).
    + destruct t as [[p s] c]. cbn [tedge e_from e_to]. apply U2. auto.
    + destruct t as [c s]. cbn [hedge e_from e_to fst snd]. apply helds_in in Ht. apply U3 in Ht. tauto.
  - intros c s Hc. apply (U3 c s Hc).
  - exists ts, (add_all f0 es). split; auto.
Qed.
End Build.
