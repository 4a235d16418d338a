(** Points of the generated instance, in terms of seats and widths. *)
From Verif Require Import Base M_Data M_Scoring M_Flow Spec P_Sums P_Search1 P_Feasible P_Flow1 P_Flow2 P_Flow3.
From Coq Require Import Permutation.

Local Notation np d := (length (i_choosers d)).
Local Notation nc d := (length (i_choices d)).
Local Notation ns d := (length (i_slots d)).

(** ** Integer sums *)
Lemma zsum_app {A} (g : A -> Z) l m : zsum g (l ++ m) = (zsum g l + zsum g m)%Z.
Proof. induction l as [|a l IH]; cbn [app zsum fold_right]; auto. fold (zsum g (l ++ m)). fold (zsum g l). lia. Qed.
Lemma zsum_cons {A} (g : A -> Z) a l : zsum g (a :: l) = (g a + zsum g l)%Z. Proof. reflexivity. Qed.
Lemma zsum_map {A B} (g : B -> Z) (h : A -> B) l : zsum g (map h l) = zsum (fun a => g (h a)) l.
Proof. induction l as [|a l IH]; auto. cbn [map]. rewrite !zsum_cons, IH. auto. Qed.
Lemma zsum_ext {A} (g h : A -> Z) l : (forall a, In a l -> g a = h a) -> zsum g l = zsum h l.
Proof. induction l as [|a l IH]; intros H; auto. rewrite !zsum_cons, IH, (H a); auto; [left; auto|]. intros; apply H; right; auto. Qed.
Lemma zsum_zero {A} (g : A -> Z) l : (forall a, In a l -> g a = 0%Z) -> zsum g l = 0%Z.
Proof. induction l as [|a l IH]; intros H; auto. rewrite zsum_cons, IH, (H a); auto; [left; auto|]. intros; apply H; right; auto. Qed.
Lemma zsum_flat_map {A B} (g : B -> Z) (h : A -> list B) l : zsum g (flat_map h l) = zsum (fun a => zsum g (h a)) l.
Proof. induction l as [|a l IH]; auto. cbn [flat_map]. rewrite zsum_app, zsum_cons, IH. auto. Qed.
Lemma zsum_filter {A} (g : A -> Z) (b : A -> bool) l : zsum g (filter b l) = zsum (fun a => if b a then g a else 0%Z) l.
Proof. induction l as [|a l IH]; auto. cbn [filter]. rewrite zsum_cons. destruct (b a); rewrite ?zsum_cons, IH; lia. Qed.
Lemma zsum_perm {A} (g : A -> Z) l m : Permutation l m -> zsum g l = zsum g m.
Proof. induction 1; rewrite ?zsum_cons; try lia; congruence. Qed.
Lemma zsum_combine_map {A B} (g : B * Z -> Z) (h : A -> B) (v : A -> Z) l : zsum g (combine (map h l) (map v l)) = zsum (fun a => g (h a, v a)) l.
Proof. induction l as [|a l IH]; auto. cbn [map combine]. rewrite !zsum_cons, IH. auto. Qed.
Lemma zsum_add {A} (g h : A -> Z) l : zsum (fun a => g a + h a)%Z l = (zsum g l + zsum h l)%Z.
Proof. induction l as [|a l IH]; auto. rewrite !zsum_cons, IH. lia. Qed.
Lemma zsum_sub {A} (g h : A -> Z) l : zsum (fun a => g a - h a)%Z l = (zsum g l - zsum h l)%Z.
Proof. induction l as [|a l IH]; auto. rewrite !zsum_cons, IH. lia. Qed.
Lemma zsum_swap {A B} (g : A -> B -> Z) l m : zsum (fun a => zsum (g a) m) l = zsum (fun b => zsum (fun a => g a b) l) m.
Proof.
  induction l as [|a l IH].
  - cbn. symmetry. apply zsum_zero. auto.
  - rewrite zsum_cons, IH, <- zsum_add. apply zsum_ext. intros b _. rewrite zsum_cons. auto.
Qed.
Lemma zsum_one {A} (g : A -> Z) l x : NoDup l -> In x l -> (forall a, In a l -> a <> x -> g a = 0%Z) -> zsum g l = g x.
Proof.
  induction l as [|a l IH]; intros ND Hx H; [destruct Hx|]. inversion ND; subst. rewrite zsum_cons. destruct Hx as [<-|Hx].
  - rewrite zsum_zero; [lia|]. intros b Hb. apply H; [right; auto|]. intros ->. contradiction.
  - rewrite IH; auto. { rewrite (H a); [lia|left; auto|]. intros ->. contradiction. } intros b Hb. apply H. right; auto.
Qed.
Lemma zsum_nonneg {A} (g : A -> Z) l : (forall a, In a l -> 0 <= g a)%Z -> (0 <= zsum g l)%Z.
Proof. induction l as [|a l IH]; intros H; [cbn; lia|]. rewrite zsum_cons. pose proof (H a (or_introl eq_refl)). assert (0 <= zsum g l)%Z by (apply IH; intros; apply H; right; auto). lia. Qed.
Lemma zsum_count {A} (b : A -> bool) l : zsum (fun a => if b a then 1%Z else 0%Z) l = Z.of_nat (length (filter b l)).
Proof. induction l as [|a l IH]; auto. rewrite zsum_cons, IH. cbn [filter]. destruct (b a); cbn [length]; lia. Qed.
(** A 0/1 family summing to 1 has exactly one 1. *)
Lemma zsum_unit {A} (g : A -> Z) l : NoDup l -> (forall a, In a l -> g a = 0 \/ g a = 1)%Z -> zsum g l = 1%Z ->
  exists x, In x l /\ g x = 1%Z /\ forall y, In y l -> g y = 1%Z -> y = x.
Proof.
  induction l as [|a l IH]; intros ND H E; [discriminate|]. inversion ND; subst. rewrite zsum_cons in E.
  assert (Hl : forall b, In b l -> (g b = 0 \/ g b = 1)%Z) by (intros; apply H; right; auto).
  destruct (H a (or_introl eq_refl)) as [Ha|Ha].
  - destruct IH as (x & Hx & Ex & Hu); auto; [lia|]. exists x. split; [right; auto|]. split; auto. intros y [<-|Hy] Ey; [lia|auto].
  - exists a. split; [left; auto|]. split; auto. intros y [<-|Hy] Ey; auto. exfalso.
    assert (1 <= zsum g l)%Z; [|lia]. clear - Hl Hy Ey. induction l as [|b l IH]; [destruct Hy|]. rewrite zsum_cons.
    assert (0 <= zsum g l)%Z by (apply zsum_nonneg; intros z Hz; destruct (Hl z (or_intror Hz)); lia).
    destruct Hy as [->|Hy]; [lia|]. assert (1 <= zsum g l)%Z by (apply IH; auto; intros; apply Hl; right; auto). destruct (Hl b (or_introl eq_refl)); lia.
Qed.

(** ** Ties *)
Definition look (f : flow) (x : list Z) (k : N) : Z := match find_edge f k with Some i => nth i x 0%Z | None => 0%Z end.
Definition tie_ok (f : flow) (x : list Z) (t : list N) : Prop := exists sw, (sw = 0%Z \/ sw = 1%Z) /\ forall k, In k t -> look f x k = sw.
Definition group_ok (x : list Z) (g : list nat) : Prop := exists sw, (sw = 0%Z \/ sw = 1%Z) /\ forall i, In i g -> nth_error x i = Some sw.
Lemma known_in f ks i : In i (known_edges f ks) <-> exists k, In k ks /\ find_edge f k = Some i.
Proof.
  unfold known_edges. rewrite in_flat_map. split.
  - intros (k & Hk & Hi). destruct (find_edge f k) eqn:E; [destruct Hi as [<-|[]]; eauto|destruct Hi].
  - intros (k & Hk & E). exists k. rewrite E. split; auto. left; auto.
Qed.
Lemma tie_all_find f ts k : find_edge (tie_all f ts) k = find_edge f k.
Proof. unfold find_edge. destruct (tie_all_fields f ts) as (_ & _ & ->). reflexivity. Qed.
Lemma ties_iff x ts : forall f, (forall k i, find_edge f k = Some i -> i < length x) ->
  ((forall g, In g (fl_groups (tie_all f ts)) -> group_ok x g) /\ (forall i, In i (fl_blocked (tie_all f ts)) -> nth_error x i = Some 0%Z)) <->
  ((forall g, In g (fl_groups f) -> group_ok x g) /\ (forall i, In i (fl_blocked f) -> nth_error x i = Some 0%Z)) /\ (forall t, In t ts -> tie_ok f x t).
Proof.
  induction ts as [|t ts IH]; intros f HR.
  - cbn [tie_all fold_left]. split; [intros H; split; auto; intros t []|tauto].
  - change (tie_all f (t :: ts)) with (tie_all (create_edge_group f t) ts).
    assert (EF : forall k, find_edge (create_edge_group f t) k = find_edge f k) by (intros k; exact (tie_all_find f [t] k)).
    rewrite IH by (intros k i; rewrite EF; apply HR).
    assert (ET : forall u, tie_ok (create_edge_group f t) x u <-> tie_ok f x u).
    { intros u. unfold tie_ok. split; intros (sw & H1 & H2); exists sw; split; auto; intros k Hk; specialize (H2 k Hk); unfold look in *; rewrite EF in *; auto. }
    assert (NI : forall i v, i < length x -> (nth_error x i = Some v <-> nth i x 0%Z = v)).
    { intros i v Hi. split; [apply nth_error_nth|]. intros <-. apply nth_error_nth'. auto. }
    assert (E0 : (forall g, In g (fl_groups (create_edge_group f t)) -> group_ok x g) /\ (forall i, In i (fl_blocked (create_edge_group f t)) -> nth_error x i = Some 0%Z)
              <-> ((forall g, In g (fl_groups f) -> group_ok x g) /\ (forall i, In i (fl_blocked f) -> nth_error x i = Some 0%Z)) /\ tie_ok f x t).
    { unfold create_edge_group. destruct (forallb (fun k => is_some (find_edge f k)) t) eqn:EB; cbn [fl_groups fl_blocked].
      - rewrite forallb_forall in EB.
        assert (E1 : group_ok x (known_edges f t) <-> tie_ok f x t).
        { unfold group_ok, tie_ok. split; intros (sw & H1 & H2); exists sw; split; auto.
          - intros k Hk. specialize (EB k Hk). unfold look. destruct (find_edge f k) as [i|] eqn:E; [|discriminate].
            apply NI; [eauto|]. apply H2. apply known_in. eauto.
          - intros i Hi. apply known_in in Hi as (k & Hk & E). apply NI; [eauto|]. specialize (H2 k Hk). unfold look in H2. rewrite E in H2. auto. }
        rewrite <- E1. split.
        + intros [H1 H2]. split; [split; auto; intros g Hg; apply H1, in_or_app; auto|]. apply H1, in_or_app. right; left; auto.
        + intros [[H1 H2] H3]. split; auto. intros g Hg. apply in_app_or in Hg as [Hg|[<-|[]]]; auto.
      - assert (exists k0, In k0 t /\ find_edge f k0 = None) as (k0 & Hk0 & E0).
        { clear - EB. induction t as [|k t IH]; [discriminate|]. cbn [forallb] in EB. destruct (find_edge f k) eqn:E.
          - cbn [is_some andb] in EB. destruct (IH EB) as (k1 & ? & ?). exists k1. split; auto. right; auto.
          - exists k. split; auto. left; auto. }
        assert (E1 : (forall i, In i (known_edges f t) -> nth_error x i = Some 0%Z) <-> tie_ok f x t).
        { split.
          - intros H. exists 0%Z. split; auto. intros k Hk. unfold look. destruct (find_edge f k) as [i|] eqn:E; auto. apply NI; [eauto|]. apply H. apply known_in; eauto.
          - intros (sw & _ & H2) i Hi. assert (sw = 0%Z) as -> by (rewrite <- (H2 k0 Hk0); unfold look; rewrite E0; auto).
            apply known_in in Hi as (k & Hk & E). apply NI; [eauto|]. specialize (H2 k Hk). unfold look in H2. rewrite E in H2. auto. }
        rewrite <- E1. split.
        + intros [H1 H2]. split; [split; auto|]; intros i Hi; apply H2; apply in_or_app; auto.
        + intros [[H1 H2] H3]. split; auto. intros i Hi. apply in_app_or in Hi as [Hi|Hi]; auto. }
    rewrite E0. split.
    + intros [[H1 H2] H3]. split; auto. intros u [<-|Hu]; auto. apply ET; auto.
    + intros [H1 H2]. split; [split; auto; apply H2; left; auto|]. intros u Hu. apply ET. apply H2. right; auto.
Qed.

Section Points.
Context (pr : profile) (d : input_data) (HW : wf_input d).
Context (cost : N -> Z) (S : scheduling) (st : sched_state) (limit : N) (HSt : state_for pr d S st).
Context (f : flow) (HB : built d cost S st limit f).
Context (Hsum : forall s, (slot_sum ch_min (i_choices d) S s <= u32_max)%N).

(** The meaning of the integer program, in terms of seats [V] and of the number
    [W] of attendees above the minimum. *)
Record lp_point (V : nat -> nat -> nat -> Z) (W : nat -> Z) : Prop := {
  lp_01 : forall p s c, p < np d -> scheduled_in S c s -> (V p s c = 0 \/ V p s c = 1)%Z;
  lp_allowed : forall p s c, p < np d -> scheduled_in S c s -> V p s c = 1%Z -> (prefN d p c <= limit)%N /\ ~ banned d S p s c;
  lp_width : forall c s, scheduled_in S c s -> (0 <= W c <= Z.of_N (maxN d c) - Z.of_N (minN d c))%Z;
  lp_seat : forall p s l, p < np d -> nth_error (ss_by_slot st) s = Some l -> zsum (V p s) l = 1%Z;
  lp_room : forall c s, scheduled_in S c s -> (zsum (fun p => V p s c) (seq 0 (np d)) - W c = Z.of_N (minN d c))%Z;
  lp_exit : forall s l, nth_error (ss_by_slot st) s = Some l -> zsum W l = (Z.of_nat (np d) - Z.of_N (slot_sum ch_min (i_choices d) S s))%Z;
  lp_pairs : forall k p' c s, In k (i_assign d) -> c_kind k = ChoosersHaveSameChoices -> c_right k = TChooser p' -> scheduled_in S c s ->
     V (c_left k) s c = V p' s c;
  lp_groups : forall g p a sa b sb, In g (i_groups d) -> length g <> 1 -> p < np d -> In a g -> In b g -> scheduled_in S a sa -> scheduled_in S b sb -> V p sa a = V p sb b
}.
Definition point_of (V : nat -> nat -> nat -> Z) (W : nat -> Z) : list Z :=
  map (fun t => V (fst (fst t)) (snd (fst t)) (snd t)) (tris d st limit) ++ map (fun cs => W (fst cs)) (helds S).

Local Notation E := (fl_edges f).
Lemma edges_split : E = map (tedge d cost) (tris d st limit) ++ map (hedge d) (helds S).
Proof. apply (bu_edges _ _ _ _ _ _ HB). Qed.
Lemma tri_facts p s c : In (p, s, c) (tris d st limit) -> p < np d /\ s < ns d /\ c < nc d /\ scheduled_in S c s.
Proof.
  intros H. apply (tris_in pr d S st limit HSt) in H as (Hp & Hc & _). destruct (sched_lt pr d S st HSt c s Hc). auto.
Qed.
Lemma ends_nodup : NoDup (map ends E).
Proof.
  rewrite edges_split, map_app, !map_map.
  assert (G : forall (l1 l2 : list (nat * nat)), NoDup l1 -> NoDup l2 -> (forall b, In b l1 -> ~ In b l2) -> NoDup (l1 ++ l2)).
  { clear. induction l1 as [|x l1 IH]; intros l2 N1 N2 HD; cbn; auto. inversion N1; subst. constructor.
    - rewrite in_app_iff. intros [?|?]; auto. eapply HD; [left; reflexivity|auto].
    - apply IH; auto. intros b Hb. apply HD. right; auto. }
  assert (I : forall {A} (h : A -> nat * nat) l, NoDup l -> (forall a b, In a l -> In b l -> h a = h b -> a = b) -> NoDup (map h l)).
  { clear. intros A h. induction l as [|a l IH]; intros ND H; cbn [map]; constructor; inversion ND; subst.
    - intros Hin. apply in_map_iff in Hin as (b & Eb & Hb). assert (b = a) by (apply H; auto; [right|left]; auto). subst. contradiction.
    - apply IH; auto. intros x y Hx Hy. apply H; right; auto. }
  apply G.
  - apply I; [apply (tris_nd pr d S st limit HSt)|]. intros [[p s] c] [[p' s'] c'] H H' Ee. cbn [tedge ends e_from e_to] in Ee. injection Ee as E1 E2.
    apply tri_facts in H as (_ & Hs & _). apply tri_facts in H' as (_ & Hs' & _). apply seat_inj in E1 as [-> ->]; auto. apply room_inj in E2 as ->. auto.
  - apply I; [apply helds_nodup|]. intros [c s] [c' s'] H H' Ee. cbn [hedge ends e_from e_to fst snd] in Ee. injection Ee as E1 E2. apply room_inj in E1 as ->. apply exit_inj in E2 as ->. auto.
  - intros b Hb Hb'. apply in_map_iff in Hb as ([[p s] c] & <- & Hb). apply in_map_iff in Hb' as ([c' s'] & Ee & _). cbn [tedge hedge ends e_from e_to fst snd] in Ee. injection Ee as E1 _.
    apply tri_facts in Hb as (Hp & Hs & _). symmetry in E1. eapply seat_room; eauto.
Qed.
Lemma find_at i e : nth_error E i = Some e -> find_edge f (key (e_from e) (e_to e)) = Some i.
Proof.
  intros Hi. destruct (bu_small _ _ _ _ _ _ HB e (nth_error_In _ _ Hi)) as [U1 U2].
  destruct (find_edge f (key (e_from e) (e_to e))) as [j|] eqn:Ef.
  - apply find_edge_some in Ef as (e' & Hj & Ee); auto; try apply (bu_keyed _ _ _ _ _ _ HB); try apply (bu_small _ _ _ _ _ _ HB).
    f_equal. apply (proj1 (NoDup_nth_error (map ends E)) ends_nodup).
    + rewrite map_length. apply nth_error_Some. congruence.
    + rewrite !nth_error_map, Hi, Hj. cbn. f_equal. exact Ee.
  - exfalso. apply find_edge_none in Ef; auto; try apply (bu_keyed _ _ _ _ _ _ HB); try apply (bu_small _ _ _ _ _ _ HB).
    apply Ef. change (e_from e, e_to e) with (ends e). apply in_map. eapply nth_error_In; eauto.
Qed.
Lemma look_absent x a b : (N.of_nat a <= u32_max)%N -> (N.of_nat b <= u32_max)%N -> ~ In (a, b) (map ends E) -> look f x (key a b) = 0%Z.
Proof.
  intros Ua Ub H. unfold look. destruct (find_edge f (key a b)) as [i|] eqn:Ef; auto. exfalso. apply H.
  apply find_edge_some in Ef as (e & Hi & Ee); auto; try apply (bu_keyed _ _ _ _ _ _ HB); try apply (bu_small _ _ _ _ _ _ HB).
  rewrite <- Ee. apply in_map. eapply nth_error_In; eauto.
Qed.
(** Every seat whose room is held has small node numbers, unless nothing about it
    was built. *)
Definition seat_small (p s c : nat) : Prop := (N.of_nat (seat d p s) <= u32_max /\ N.of_nat (room d c) <= u32_max)%N.
Lemma room_small c s : scheduled_in S c s -> (N.of_nat (room d c) <= u32_max)%N.
Proof.
  intros H. assert (Hin : In (hedge d (c, s)) E) by (rewrite edges_split; apply in_or_app; right; apply in_map, helds_in; auto).
  apply (bu_small _ _ _ _ _ _ HB) in Hin. cbn [hedge e_from fst] in Hin. tauto.
Qed.
Lemma seat_is_small p s c : p < np d -> scheduled_in S c s -> seat_small p s c.
Proof.
  intros Hp Hc. pose proof (room_small c s Hc) as R. split; auto. destruct (sched_lt pr d S st HSt c s Hc) as [_ Hs]. pose proof (seat_lt d p s Hp Hs). unfold room in R. lia.
Qed.

Lemma point_length V W : length (point_of V W) = length E.
Proof. unfold point_of. rewrite edges_split, !app_length, !map_length. auto. Qed.

Lemma look_tri V W p s c : In (p, s, c) (tris d st limit) -> look f (point_of V W) (key (seat d p s) (room d c)) = V p s c.
Proof.
  intros H. destruct (In_nth_error _ _ H) as [i Hi].
  assert (He : nth_error E i = Some (tedge d cost (p, s, c))).
  { rewrite edges_split, nth_error_app1, nth_error_map, Hi; auto. rewrite map_length. apply nth_error_Some. congruence. }
  apply find_at in He. cbn [tedge e_from e_to] in He. unfold look. rewrite He. apply nth_error_nth. unfold point_of.
  rewrite nth_error_app1, nth_error_map, Hi; auto. rewrite map_length. apply nth_error_Some. congruence.
Qed.
Lemma look_seat V W p s c : (forall p s c, p < np d -> scheduled_in S c s -> (V p s c = 0 \/ V p s c = 1)%Z) ->
  (forall p s c, p < np d -> scheduled_in S c s -> V p s c = 1%Z -> (prefN d p c <= limit)%N /\ ~ banned d S p s c) ->
  p < np d -> scheduled_in S c s -> look f (point_of V W) (key (seat d p s) (room d c)) = V p s c.
Proof.
  intros H1 H2 Hp Hc. destruct (H1 p s c Hp Hc) as [E0|E0].
  - destruct (in_dec (fun a b : nat * nat * nat => ltac:(decide equality; [apply Nat.eq_dec|decide equality; apply Nat.eq_dec])) (p, s, c) (tris d st limit)) as [Hin|Hni].
    + apply look_tri; auto.
    + rewrite E0. destruct (seat_is_small p s c Hp Hc). apply look_absent; auto. rewrite edges_split, map_app, !map_map. intros Hin. apply in_app_or in Hin as [Hin|Hin].
      * apply in_map_iff in Hin as ([[p' s'] c'] & Ee & Ht). cbn [tedge ends e_from e_to] in Ee. injection Ee as E1 E2. pose proof (tri_facts _ _ _ Ht) as (_ & Hs' & _).
        apply seat_inj in E1 as [-> ->]; auto; [|apply (sched_lt pr d S st HSt c s Hc)]. apply room_inj in E2 as ->. contradiction.
      * apply in_map_iff in Hin as ([c' s'] & Ee & Ht). cbn [hedge ends e_from e_to fst snd] in Ee. injection Ee as E1 _. symmetry in E1. eapply seat_room; [| |exact E1]; auto. apply (sched_lt pr d S st HSt c s Hc).
  - apply look_tri. apply (tris_in pr d S st limit HSt). destruct (H2 p s c Hp Hc E0). auto.
Qed.

(** Sums over the usable seats. *)
Lemma tris_sum (g : nat * nat * nat -> Z) : (forall p s c, p < np d -> scheduled_in S c s -> ~ In (p, s, c) (tris d st limit) -> g (p, s, c) = 0%Z) ->
  zsum g (tris d st limit) = zsum (fun p => zsum (fun sc => zsum (fun c => g (p, fst sc, c)) (snd sc)) (combine (seq 0 (length (ss_by_slot st))) (ss_by_slot st))) (seq 0 (np d)).
Proof.
  intros H. unfold tris. rewrite zsum_filter.
  rewrite (zsum_ext _ g).
  - unfold seats. rewrite zsum_flat_map. apply zsum_ext. intros p _. rewrite zsum_flat_map. apply zsum_ext. intros [s l] _. rewrite zsum_map. reflexivity.
  - intros [[p s] c] Hin. destruct (usable d st limit (p, s, c)) eqn:Eu; auto. apply (seats_sched pr d S st HSt) in Hin as [Hp Hc]. symmetry. apply H; auto.
    unfold tris. rewrite filter_In. intros [_ Hu]. congruence.
Qed.
Lemma in_flow V W n : inflow f (point_of V W) n =
  (zsum (fun t => if (e_to (tedge d cost t) =? n)%nat then V (fst (fst t)) (snd (fst t)) (snd t) else 0) (tris d st limit) +
   zsum (fun cs => if (exit d (snd cs) =? n)%nat then W (fst cs) else 0) (helds S))%Z.
Proof.
  unfold inflow, point_of. rewrite edges_split, combine_app by (rewrite !map_length; auto). rewrite zsum_app, !zsum_combine_map. reflexivity.
Qed.
Lemma out_flow V W n : outflow f (point_of V W) n =
  (zsum (fun t => if (e_from (tedge d cost t) =? n)%nat then V (fst (fst t)) (snd (fst t)) (snd t) else 0) (tris d st limit) +
   zsum (fun cs => if (room d (fst cs) =? n)%nat then W (fst cs) else 0) (helds S))%Z.
Proof.
  unfold outflow, point_of. rewrite edges_split, combine_app by (rewrite !map_length; auto). rewrite zsum_app, !zsum_combine_map. reflexivity.
Qed.
Lemma objective_eq V W : objective f (point_of V W) =
  zsum (fun t => (cost (prefN d (fst (fst t)) (snd t)) * V (fst (fst t)) (snd (fst t)) (snd t))%Z) (tris d st limit).
Proof.
  unfold objective, point_of. rewrite edges_split, combine_app by (rewrite !map_length; auto). rewrite zsum_app, !zsum_combine_map.
  rewrite (zsum_zero _ (helds S)); [|intros [c s] _; reflexivity]. rewrite Z.add_0_r. apply zsum_ext. intros [[p s] c] _. reflexivity.
Qed.

Local Notation by_slot := (ss_by_slot st).
Local Notation slots := (combine (seq 0 (length (ss_by_slot st))) (ss_by_slot st)).
Lemma slot_list s : s < ns d -> exists l, nth_error by_slot s = Some l.
Proof.
  intros Hs. pose proof (ho_len _ _ _ _ (sf_holds _ _ _ _ HSt)) as L. cbn [fst] in L. destruct (nth_error by_slot s) as [l|] eqn:El; [eauto|apply nth_error_None in El; lia].
Qed.
Lemma slot_list_in s l c : nth_error by_slot s = Some l -> (In c l <-> scheduled_in S c s).
Proof. intros Hl. apply (ho_in _ _ _ _ (sf_holds _ _ _ _ HSt) _ _ Hl). Qed.
Lemma slot_list_nd s l : nth_error by_slot s = Some l -> NoDup l.
Proof. intros Hl. apply (ho_in _ _ _ _ (sf_holds _ _ _ _ HSt) _ _ Hl). Qed.
Lemma slot_list_lt s l : nth_error by_slot s = Some l -> s < ns d.
Proof. intros Hl. pose proof (ho_len _ _ _ _ (sf_holds _ _ _ _ HSt)) as L. cbn [fst] in L. rewrite <- L. apply nth_error_Some. congruence. Qed.
Lemma slots_one (g : nat * list nat -> Z) s l : nth_error by_slot s = Some l -> (forall s' l', s' <> s -> nth_error by_slot s' = Some l' -> g (s', l') = 0%Z) -> zsum g slots = g (s, l).
Proof.
  intros Hl H. apply zsum_one.
  - apply NoDup_indexed.
  - apply in_indexed. auto.
  - intros [s' l'] Hin Hne. apply in_indexed in Hin. apply H; auto. intros ->. congruence.
Qed.

(** Flow at the three kinds of nodes, for a family that is 0 on unusable seats. *)
Section Balance.
Context (V : nat -> nat -> nat -> Z) (W : nat -> Z).
Context (H0 : forall p s c, p < np d -> scheduled_in S c s -> ~ In (p, s, c) (tris d st limit) -> V p s c = 0%Z).
Lemma balance_seat p s l : p < np d -> nth_error by_slot s = Some l ->
  (inflow f (point_of V W) (seat d p s) - outflow f (point_of V W) (seat d p s) = - zsum (V p s) l)%Z.
Proof.
  intros Hp Hl. pose proof (slot_list_lt _ _ Hl) as Hs. rewrite in_flow, out_flow.
  rewrite (zsum_zero _ (tris d st limit)). 2: { intros [[p' s'] c'] _. cbn [tedge e_to]. destruct (Nat.eqb_spec (room d c') (seat d p s)) as [Eq|]; auto. symmetry in Eq. exfalso. eapply seat_room; eauto. }
  rewrite (zsum_zero _ (helds S)). 2: { intros [c' s'] _. cbn [fst snd]. destruct (Nat.eqb_spec (exit d s') (seat d p s)) as [Eq|]; auto. symmetry in Eq. exfalso. eapply seat_exit; eauto. }
  rewrite (zsum_zero _ (helds S)). 2: { intros [c' s'] _. cbn [fst snd]. destruct (Nat.eqb_spec (room d c') (seat d p s)) as [Eq|]; auto. symmetry in Eq. exfalso. eapply seat_room; eauto. }
  rewrite (tris_sum (fun t => if e_from (tedge d cost t) =? seat d p s then V (fst (fst t)) (snd (fst t)) (snd t) else 0%Z)).
  2: { intros p' s' c' Hp' Hc' Hni. cbn [fst snd]. rewrite H0 by auto. destruct (_ =? _); auto. }
  rewrite (zsum_one _ (seq 0 (np d)) p); [|apply seq_NoDup|apply in_seq; lia|].
  - rewrite (slots_one _ s l Hl).
    + cbn [fst snd tedge e_from]. rewrite Nat.eqb_refl. change (fun c => V p s c) with (V p s). lia.
    + intros s' l' Hne Hl'. cbn [fst snd tedge e_from]. apply zsum_zero. intros c _. destruct (Nat.eqb_spec (seat d p s') (seat d p s)) as [Eq|]; auto.
      apply seat_inj in Eq as [_ ->]; auto; [contradiction|]. eapply slot_list_lt; eauto.
  - intros p' Hp' Hne. apply zsum_zero. intros [s' l'] Hin. apply in_indexed in Hin. cbn [fst snd tedge e_from]. apply zsum_zero. intros c _.
    destruct (Nat.eqb_spec (seat d p' s') (seat d p s)) as [Eq|]; auto. apply seat_inj in Eq as [-> ->]; auto; [contradiction|]. eapply slot_list_lt; eauto.
Qed.
Lemma balance_room c s : scheduled_in S c s ->
  (inflow f (point_of V W) (room d c) - outflow f (point_of V W) (room d c) = zsum (fun p => V p s c) (seq 0 (np d)) - W c)%Z.
Proof.
  intros Hc. destruct (sched_lt pr d S st HSt c s Hc) as [Hcl Hsl]. rewrite in_flow, out_flow.
  rewrite (zsum_zero (fun cs => if exit d (snd cs) =? room d c then _ else _)). 2: { intros [c' s'] Hin. cbn [fst snd]. destruct (Nat.eqb_spec (exit d s') (room d c)) as [Eq|]; auto. symmetry in Eq. exfalso. eapply room_exit; [|exact Eq]; auto. }
  rewrite (zsum_zero (fun t => if e_from (tedge d cost t) =? room d c then _ else _)).
  2: { intros [[p' s'] c'] Ht. apply tri_facts in Ht as (Hp' & Hs' & _). cbn [tedge e_from]. destruct (Nat.eqb_spec (seat d p' s') (room d c)) as [Eq|]; auto. exfalso. eapply seat_room; [| |exact Eq]; auto. }
  rewrite (zsum_one (fun cs => if room d (fst cs) =? room d c then W (fst cs) else 0%Z) (helds S) (c, s)); [|apply helds_nodup|apply helds_in; auto|].
  2: { intros [c' s'] Hin Hne. cbn [fst]. destruct (Nat.eqb_spec (room d c') (room d c)) as [Eq|]; auto. apply room_inj in Eq as ->.
       assert (s' = s) as -> by (eapply helds_fst; [exact Hin|apply helds_in; auto]). contradiction. }
  cbn [fst]. rewrite Nat.eqb_refl.
  rewrite (tris_sum (fun t => if e_to (tedge d cost t) =? room d c then V (fst (fst t)) (snd (fst t)) (snd t) else 0%Z)).
  2: { intros p' s' c' Hp' Hc' Hni. cbn [fst snd]. rewrite H0 by auto. destruct (_ =? _); auto. }
  replace (zsum (fun p => zsum _ slots) (seq 0 (np d))) with (zsum (fun p => V p s c) (seq 0 (np d))); [lia|].
  apply zsum_ext. intros p Hp. destruct (slot_list s Hsl) as [l Hl]. rewrite (slots_one _ s l Hl).
  - cbn [fst snd tedge e_to]. rewrite (zsum_one _ l c); [rewrite Nat.eqb_refl; auto|eapply slot_list_nd; eauto|eapply slot_list_in; eauto|].
    intros c' _ Hne. destruct (Nat.eqb_spec (room d c') (room d c)) as [Eq|]; auto. apply room_inj in Eq. contradiction.
  - intros s' l' Hne Hl'. cbn [fst snd tedge e_to]. apply zsum_zero. intros c' Hc'. destruct (Nat.eqb_spec (room d c') (room d c)) as [Eq|]; auto. apply room_inj in Eq as ->.
    apply (slot_list_in _ _ _ Hl') in Hc'. unfold scheduled_in in *. congruence.
Qed.
Lemma balance_empty_room c : c < nc d -> nth_error S c = Some None -> inflow f (point_of V W) (room d c) = 0%Z /\ outflow f (point_of V W) (room d c) = 0%Z.
Proof.
  intros Hcl Hc. rewrite in_flow, out_flow. split.
  - rewrite !zsum_zero; auto.
    + intros [c' s'] Hin. cbn [fst snd]. destruct (Nat.eqb_spec (exit d s') (room d c)) as [Eq|]; auto. symmetry in Eq. exfalso. eapply room_exit; [|exact Eq]; auto.
    + intros [[p' s'] c'] Ht. apply tri_facts in Ht as (_ & _ & _ & Ht). cbn [tedge e_to]. destruct (Nat.eqb_spec (room d c') (room d c)) as [Eq|]; auto. apply room_inj in Eq as ->.
      unfold scheduled_in in Ht. congruence.
  - rewrite !zsum_zero; auto.
    + intros [c' s'] Hin. cbn [fst snd]. destruct (Nat.eqb_spec (room d c') (room d c)) as [Eq|]; auto. apply room_inj in Eq as ->. apply helds_in in Hin. unfold scheduled_in in Hin. congruence.
    + intros [[p' s'] c'] Ht. apply tri_facts in Ht as (Hp' & Hs' & _). cbn [tedge e_from]. destruct (Nat.eqb_spec (seat d p' s') (room d c)) as [Eq|]; auto. exfalso. eapply seat_room; [| |exact Eq]; auto.
Qed.
Lemma balance_exit s l : nth_error by_slot s = Some l ->
  (inflow f (point_of V W) (exit d s) - outflow f (point_of V W) (exit d s) = zsum W l)%Z.
Proof.
  intros Hl. rewrite in_flow, out_flow. pose proof (slot_list_lt _ _ Hl) as Hs.
  rewrite (zsum_zero (fun t => if e_to (tedge d cost t) =? exit d s then _ else _)).
  2: { intros [[p' s'] c'] Ht. apply tri_facts in Ht as (_ & _ & Hc' & _). cbn [tedge e_to]. destruct (Nat.eqb_spec (room d c') (exit d s)) as [Eq|]; auto. exfalso. eapply room_exit; [|exact Eq]; auto. }
  rewrite (zsum_zero (fun t => if e_from (tedge d cost t) =? exit d s then _ else _)).
  2: { intros [[p' s'] c'] Ht. apply tri_facts in Ht as (Hp' & Hs' & _). cbn [tedge e_from]. destruct (Nat.eqb_spec (seat d p' s') (exit d s)) as [Eq|]; auto. exfalso. eapply seat_exit; [| |exact Eq]; auto. }
  rewrite (zsum_zero (fun cs => if room d (fst cs) =? exit d s then _ else _)).
  2: { intros [c' s'] Hin. apply helds_in in Hin. destruct (sched_lt pr d S st HSt _ _ Hin). cbn [fst]. destruct (Nat.eqb_spec (room d c') (exit d s)) as [Eq|]; auto. exfalso. eapply room_exit; [|exact Eq]; auto. }
  assert (G : zsum (fun cs => if exit d (snd cs) =? exit d s then W (fst cs) else 0%Z) (helds S) = zsum (fun cs => W (fst cs)) (map (fun c => (c, s)) l)).
  { rewrite <- (zsum_filter (fun cs => W (fst cs)) (fun cs => exit d (snd cs) =? exit d s)). apply zsum_perm. apply NoDup_Permutation.
    - apply NoDup_filter, helds_nodup.
    - apply FinFun.Injective_map_NoDup; [intros a b Eq; congruence|eapply slot_list_nd; eauto].
    - intros [c' s']. rewrite filter_In, helds_in, in_map_iff. cbn [snd]. rewrite Nat.eqb_eq. split.
      + intros [H1 H2]. apply exit_inj in H2 as ->. exists c'. split; auto. eapply slot_list_in; eauto.
      + intros (c2 & Eq & H2). injection Eq as -> ->. split; auto. eapply slot_list_in; eauto. }
  rewrite G, zsum_map. cbn [fst]. change (fun c => W c) with W. lia.
Qed.
End Balance.
Lemma cov_exact s v : nth_error (ss_cov st) s = Some v -> v = slot_sum ch_min (i_choices d) S s.
Proof. intros Hv. eapply rep_exact; [apply Hsum|]. apply (ho_cov _ _ _ _ (sf_holds _ _ _ _ HSt)). exact Hv. Qed.

Lemma find_range k i : find_edge f k = Some i -> i < length E.
Proof.
  unfold find_edge. destruct (find _ (fl_map f)) as [[k' j]|] eqn:Ef; [|discriminate]. intros Ei. injection Ei as <-. apply find_some in Ef as [Hin _].
  rewrite (bu_keyed _ _ _ _ _ _ HB) in Hin. apply in_rev in Hin. apply in_combine_r in Hin. apply in_seq in Hin. lia.
Qed.

Lemma ties_point V W : lp_point V W -> forall t, (exists k, In k (i_assign d) /\ pair_tie d S k t) \/ (exists g, In g (i_groups d) /\ group_tie d S g t) -> tie_ok f (point_of V W) t.
Proof.
  intros HP. pose proof (lp_01 _ _ HP) as H01. pose proof (lp_allowed _ _ HP) as HA.
  intros t [(k & Hk & Ek & p' & s & c & Er & Hc & ->)|(g & Hg & Hlen & p & Hp & ->)].
  - pose proof (wf_asg _ HW k Hk) as Wk. unfold asg_shape in Wk. rewrite Ek, Er in Wk. destruct Wk as [W1 W2].
    exists (V (c_left k) s c). split; [apply H01; auto|]. intros key0 [<-|[<-|[]]]; rewrite look_seat; auto. symmetry. eapply (lp_pairs _ _ HP); eauto.
  - unfold tie_ok. destruct (group_keys d S g p) as [|k0 ks] eqn:EG.
    + exists 0%Z. split; auto. intros k [].
    + assert (Hall : forall k, In k (group_keys d S g p) -> exists a sa, In a g /\ scheduled_in S a sa /\ k = key (seat d p sa) (room d a)).
      { intros k Hin. unfold group_keys in Hin. apply in_flat_map in Hin as (a & Ha & Hin). destruct (nth_error S a) as [[sa|]|] eqn:Es; [destruct Hin as [<-|[]]; exists a, sa; auto|destruct Hin|destruct Hin]. }
      destruct (Hall k0) as (a & sa & Ha & Hsa & _); [rewrite EG; left; auto|]. exists (V p sa a). split; [apply H01; auto|].
      intros k Hin. rewrite <- EG in Hin. apply Hall in Hin as (b & sb & Hb & Hsb & ->). rewrite look_seat; auto. symmetry. eapply (lp_groups _ _ HP); eauto.
Qed.

Lemma node_cases n : n < nodes d -> (exists p s, p < np d /\ s < ns d /\ n = seat d p s) \/ (exists c, c < nc d /\ n = room d c) \/ (exists s, s < ns d /\ n = exit d s).
Proof.
  unfold nodes. intros H. destruct (Nat.lt_ge_cases n (np d * ns d)) as [H1|H1].
  - left. pose proof (wf_slots _ HW) as Hne. exists (n / ns d), (n mod ns d). split; [apply Nat.div_lt_upper_bound; lia|]. split; [apply Nat.mod_upper_bound; auto|].
    unfold seat. rewrite Nat.mul_comm. apply Nat.div_mod. auto.
  - right. destruct (Nat.lt_ge_cases n (np d * ns d + nc d)) as [H2|H2].
    + left. exists (n - np d * ns d). unfold room. lia.
    + right. exists (n - (np d * ns d + nc d)). unfold exit. lia.
Qed.

Theorem point_feasible V W : lp_point V W -> feasible_point f (point_of V W).
Proof.
  intros HP. pose proof (lp_01 _ _ HP) as H01. pose proof (lp_allowed _ _ HP) as HA.
  destruct (bu_ties _ _ _ _ _ _ HB) as (ts & f0 & Ef & G0 & B0 & HT).
  assert (HR : forall k i, find_edge f0 k = Some i -> i < length (point_of V W)).
  { intros k i Hk. rewrite point_length. rewrite <- (tie_all_find f0 ts), <- Ef in Hk. eapply find_range; eauto. }
  assert (TT : forall t, In t ts -> tie_ok f0 (point_of V W) t).
  { intros t Ht. apply HT in Ht. apply (ties_point V W HP) in Ht as (sw & S1 & S2). exists sw. split; auto. intros k Hk. rewrite <- (S2 k Hk). unfold look. rewrite Ef, tie_all_find. auto. }
  destruct (proj2 (ties_iff (point_of V W) ts f0 HR)) as [TG TB].
  { split; auto. rewrite G0, B0. split; intros ? []. }
  rewrite <- Ef in TG, TB.
  assert (H0 : forall p s c, p < np d -> scheduled_in S c s -> ~ In (p, s, c) (tris d st limit) -> V p s c = 0%Z).
  { intros p s c Hp Hc Hni. destruct (H01 p s c Hp Hc) as [|E1]; auto. exfalso. apply Hni. apply (tris_in pr d S st limit HSt). destruct (HA p s c Hp Hc E1). auto. }
  constructor; auto.
  - apply point_length.
  - intros i e v He Hv. rewrite edges_split in He. unfold point_of in Hv. destruct (Nat.lt_ge_cases i (length (tris d st limit))) as [Hi|Hi].
    + rewrite nth_error_app1, nth_error_map in He by (rewrite map_length; auto). rewrite nth_error_app1, nth_error_map in Hv by (rewrite map_length; auto).
      destruct (nth_error (tris d st limit) i) as [[[p s] c]|] eqn:Et; [|discriminate]. cbn [option_map tedge fst snd] in *. injection He as <-. injection Hv as <-. cbn [e_max].
      apply nth_error_In, tri_facts in Et as (Hp & _ & _ & Hc). destruct (H01 p s c Hp Hc); lia.
    + rewrite nth_error_app2, nth_error_map in He by (rewrite map_length; auto). rewrite nth_error_app2, nth_error_map in Hv by (rewrite map_length; auto). rewrite map_length in *.
      destruct (nth_error (helds S) _) as [[c s]|] eqn:Et; [|discriminate]. cbn [option_map fst snd] in *. injection He as <-. injection Hv as <-. cbn [hedge e_max fst].
      apply nth_error_In, helds_in in Et. apply (lp_width _ _ HP c s Et).
  - intros n v Hn. pose proof (bu_supply _ _ _ _ _ _ HB) as HS.
    assert (Hlt : n < nodes d) by (rewrite <- (su_len _ _ _ _ HS); apply nth_error_Some; congruence).
    destruct (node_cases n Hlt) as [(p & s & Hp & Hs & ->)|[(c & Hc & ->)|(s & Hs & ->)]].
    + rewrite (su_seat _ _ _ _ HS) in Hn by auto. injection Hn as <-. destruct (slot_list s Hs) as [l Hl]. rewrite (balance_seat V W H0 p s l) by auto. rewrite (lp_seat _ _ HP p s l); auto.
    + rewrite (su_room _ _ _ _ HS) in Hn by auto. injection Hn as <-. destruct (nth_error S c) as [[s|]|] eqn:Es; cbn [is_some].
      * rewrite (balance_room V W H0 c s Es). rewrite (lp_room _ _ HP c s Es). lia.
      * destruct (balance_empty_room V W c Hc Es) as [-> ->]. lia.
      * apply nth_error_None in Es. rewrite (sf_len _ _ _ _ HSt) in Es. lia.
    + destruct (su_exit _ _ _ _ HS s Hs) as (u & Hu & Hn'). rewrite Hn' in Hn. injection Hn as <-. apply cov_exact in Hu as ->. destruct (slot_list s Hs) as [l Hl].
      rewrite (balance_exit V W s l Hl). rewrite (lp_exit _ _ HP s l Hl). lia.
Qed.

Definition V_of (x : list Z) (p s c : nat) : Z := look f x (key (seat d p s) (room d c)).
Definition W_of (x : list Z) (c : nat) : Z := match nth_error S c with Some (Some s) => look f x (key (room d c) (exit d s)) | _ => 0%Z end.
Lemma point_eq x : length x = length E -> x = point_of (V_of x) (W_of x).
Proof.
  intros HLx.
  assert (G : forall i, nth_error x i = nth_error (point_of (V_of x) (W_of x)) i).
  { intros i. destruct (nth_error E i) as [e|] eqn:He.
    - assert (Hlt : i < length E) by (apply nth_error_Some; congruence).
      assert (L : look f x (key (e_from e) (e_to e)) = nth i x 0%Z) by (unfold look; rewrite (find_at i e He); auto).
      rewrite (nth_error_nth' x 0%Z) by lia. symmetry. rewrite edges_split in He. unfold point_of. destruct (Nat.lt_ge_cases i (length (tris d st limit))) as [Hi|Hi].
      + rewrite nth_error_app1, nth_error_map in He by (rewrite map_length; auto). rewrite nth_error_app1, nth_error_map by (rewrite map_length; auto).
        destruct (nth_error (tris d st limit) i) as [[[p s] c]|] eqn:Et; [|discriminate]. cbn [option_map fst snd] in *. injection He as <-. cbn [tedge e_from e_to] in L. unfold V_of. rewrite L. auto.
      + rewrite nth_error_app2, nth_error_map in He by (rewrite map_length; auto). rewrite nth_error_app2, nth_error_map by (rewrite map_length; auto). rewrite map_length in *.
        destruct (nth_error (helds S) _) as [[c s]|] eqn:Et; [|discriminate]. cbn [option_map fst snd] in *. injection He as <-. cbn [hedge e_from e_to fst snd] in L.
        apply nth_error_In, helds_in in Et. unfold W_of. unfold scheduled_in in Et. rewrite Et, L. auto.
    - assert (Hge : length E <= i) by (apply nth_error_None; auto). rewrite !(proj2 (nth_error_None _ i)); auto; rewrite ?point_length; lia. }
  clear - G. revert G. generalize (point_of (V_of x) (W_of x)) as y. induction x as [|a x IH]; intros [|b y] G; auto.
  - specialize (G 0). discriminate.
  - specialize (G 0). discriminate.
  - f_equal; [specialize (G 0); cbn in G; congruence|]. apply IH. intros i. apply (G (Datatypes.S i)).
Qed.

Theorem feasible_is_point x : feasible_point f x -> exists V W, lp_point V W /\ x = point_of V W.
Proof.
  intros HF. pose proof (point_eq x (fp_length _ _ HF)) as EX. set (V := V_of x) in *. set (W := W_of x) in *.
  assert (H0 : forall p s c, p < np d -> scheduled_in S c s -> ~ In (p, s, c) (tris d st limit) -> V p s c = 0%Z).
  { intros p s c Hp Hc Hni. destruct (seat_is_small p s c Hp Hc). apply look_absent; auto. rewrite edges_split, map_app, !map_map. intros Hin. apply in_app_or in Hin as [Hin|Hin].
    - apply in_map_iff in Hin as ([[p' s'] c'] & Ee & Ht). cbn [tedge ends e_from e_to] in Ee. injection Ee as E1 E2. pose proof (tri_facts _ _ _ Ht) as (_ & Hs' & _).
      apply seat_inj in E1 as [-> ->]; auto; [|apply (sched_lt pr d S st HSt c s Hc)]. apply room_inj in E2 as ->. contradiction.
    - apply in_map_iff in Hin as ([c' s'] & Ee & Ht). cbn [hedge ends e_from e_to fst snd] in Ee. injection Ee as E1 _. symmetry in E1. eapply seat_room; [| |exact E1]; auto. apply (sched_lt pr d S st HSt c s Hc). }
  assert (HTri : forall p s c, In (p, s, c) (tris d st limit) -> (0 <= V p s c <= 1)%Z).
  { intros p s c Ht. destruct (In_nth_error _ _ Ht) as [i Hi].
    assert (He : nth_error E i = Some (tedge d cost (p, s, c))).
    { rewrite edges_split, nth_error_app1, nth_error_map, Hi; auto. rewrite map_length. apply nth_error_Some. congruence. }
    assert (Hv : nth_error x i = Some (V p s c)).
    { rewrite EX. unfold point_of. rewrite nth_error_app1, nth_error_map, Hi; auto. rewrite map_length. apply nth_error_Some. congruence. }
    apply (fp_bounds _ _ HF i _ _ He Hv). }
  assert (H01 : forall p s c, p < np d -> scheduled_in S c s -> (V p s c = 0 \/ V p s c = 1)%Z).
  { intros p s c Hp Hc. destruct (in_dec (fun a b : nat * nat * nat => ltac:(decide equality; [apply Nat.eq_dec|decide equality; apply Nat.eq_dec])) (p, s, c) (tris d st limit)) as [Hin|Hni]; [|auto].
    specialize (HTri _ _ _ Hin). lia. }
  destruct (bu_ties _ _ _ _ _ _ HB) as (ts & f0 & Ef & G0 & B0 & HT).
  assert (TT : forall t, In t ts -> tie_ok f x t).
  { intros t Ht. assert (HR : forall k i, find_edge f0 k = Some i -> i < length x).
    { intros k i Hk. rewrite (fp_length _ _ HF). rewrite <- (tie_all_find f0 ts), <- Ef in Hk. eapply find_range; eauto. }
    destruct (proj1 (ties_iff x ts f0 HR)) as [_ TT].
    { rewrite <- Ef. split; [apply (fp_groups _ _ HF)|apply (fp_blocked _ _ HF)]. }
    destruct (TT t Ht) as (sw & S1 & S2). exists sw. split; auto. intros k Hk. rewrite <- (S2 k Hk). unfold look. rewrite Ef, tie_all_find. auto. }
  pose proof (bu_supply _ _ _ _ _ _ HB) as HS.
  exists V, W. split; [|exact EX]. constructor; auto.
  - intros p s c Hp Hc E1. destruct (in_dec (fun a b : nat * nat * nat => ltac:(decide equality; [apply Nat.eq_dec|decide equality; apply Nat.eq_dec])) (p, s, c) (tris d st limit)) as [Hin|Hni].
    + apply (tris_in pr d S st limit HSt) in Hin. tauto.
    + rewrite H0 in E1 by auto. discriminate.
  - intros c s Hc. destruct (In_nth_error _ _ (proj2 (helds_in S c s) Hc)) as [i Hi].
    assert (He : nth_error E (length (tris d st limit) + i) = Some (hedge d (c, s))).
    { rewrite edges_split, nth_error_app2 by (rewrite map_length; lia). rewrite map_length, nth_error_map. replace (length (tris d st limit) + i - length (tris d st limit)) with i by lia. rewrite Hi. auto. }
    assert (Hv : nth_error x (length (tris d st limit) + i) = Some (W c)).
    { rewrite EX. unfold point_of. rewrite nth_error_app2 by (rewrite map_length; lia). rewrite map_length, nth_error_map. replace (length (tris d st limit) + i - length (tris d st limit)) with i by lia. rewrite Hi. auto. }
    apply (fp_bounds _ _ HF _ _ _ He Hv).
  - intros p s l Hp Hl. pose proof (slot_list_lt _ _ Hl) as Hs. pose proof (fp_balance _ _ HF (seat d p s) 1%Z (su_seat _ _ _ _ HS p s Hp Hs)) as B.
    rewrite EX, (balance_seat V W H0 p s l) in B by auto. lia.
  - intros c s Hc. destruct (sched_lt pr d S st HSt c s Hc) as [Hcl _]. pose proof (fp_balance _ _ HF (room d c) _ (su_room _ _ _ _ HS c Hcl)) as B.
    unfold scheduled_in in Hc. rewrite Hc in B. cbn [is_some] in B. rewrite EX, (balance_room V W H0 c s Hc) in B. lia.
  - intros s l Hl. destruct (su_exit _ _ _ _ HS s (slot_list_lt _ _ Hl)) as (u & Hu & Hn). pose proof (fp_balance _ _ HF (exit d s) _ Hn) as B. apply cov_exact in Hu as ->.
    rewrite EX, (balance_exit V W s l Hl) in B. lia.
  - intros k p' c s Hk Ek Er Hc. destruct (TT [key (seat d (c_left k) s) (room d c); key (seat d p' s) (room d c)]) as (sw & _ & HK).
    + apply HT. left. exists k. split; auto. split; auto. exists p', s, c. auto.
    + unfold V, V_of. rewrite (HK (key (seat d (c_left k) s) (room d c))) by (left; auto). rewrite (HK (key (seat d p' s) (room d c))) by (right; left; auto). auto.
  - intros g p a sa b sb Hg Hlen Hp Ha Hb Hsa Hsb. destruct (TT (group_keys d S g p)) as (sw & _ & HK).
    + apply HT. right. exists g. split; auto. split; auto. exists p. auto.
    + assert (KI : forall a sa, In a g -> scheduled_in S a sa -> In (key (seat d p sa) (room d a)) (group_keys d S g p)).
      { intros a0 s0 H1 H2. unfold group_keys. apply in_flat_map. exists a0. split; auto. unfold scheduled_in in H2. rewrite H2. left; auto. }
      unfold V, V_of. rewrite (HK _ (KI a sa Ha Hsa)), (HK _ (KI b sb Hb Hsb)). auto.
Qed.
End Points.
