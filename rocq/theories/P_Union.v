(** Union-find: the groups are the connected components of the joins. *)
From Verif Require Import Base M_Union.
From Coq Require Import Relations Sorted.

(** ** Chains of joins (specification) *)
Definition linked (js : list (nat * nat)) (x y : nat) : Prop :=
  clos_refl_sym_trans nat (fun a b => In (a, b) js) x y.

Lemma linked_mono js js' x y : incl js js' -> linked js x y -> linked js' x y.
Proof.
  intros Hi H. induction H; [apply rst_step; auto|apply rst_refl|apply rst_sym; auto|eapply rst_trans; eauto].
Qed.

(** ** Invariant *)
Record uf_inv (n : nat) (u : uf) : Prop := {
  ui_p : length (uf_parents u) = n;
  ui_h : length (uf_heights u) = n;
  ui_up : forall i j, nth_error (uf_parents u) i = Some (Some j) ->
          j < n /\ nth i (uf_heights u) 0 < nth j (uf_heights u) 0
}.

Lemma nth_error_bound {A} (l : list A) i x : nth_error l i = Some x -> i < length l.
Proof. intros H. apply nth_error_Some. congruence. Qed.
Lemma nth_error_ex {A} (l : list A) i : i < length l -> exists x, nth_error l i = Some x.
Proof. intros H. destruct (nth_error l i) eqn:E; eauto. apply nth_error_None in E. lia. Qed.

Lemma uf_walk_ok n u : uf_inv n u ->
  forall fuel V i, NoDup V -> (forall v, In v V -> v < n /\ nth v (uf_heights u) 0 < nth i (uf_heights u) 0) ->
    i < n -> n < length V + fuel ->
    exists r, uf_walk fuel (uf_parents u) i = Ok r.
Proof.
  intros HI. destruct HI as [HP HH HU].
  induction fuel as [|f IH]; intros V i HN HV Hi Hl; cbn [uf_walk].
  - exfalso. assert (length V <= n); [|lia].
    rewrite <- (seq_length n 0). apply NoDup_incl_length; auto.
    intros v Hv. apply in_seq. destruct (HV v Hv). lia.
  - destruct (nth_error_ex (uf_parents u) i) as [p Hp]; [lia|].
    rewrite (proj2 (get_ok _ _ _) Hp). cbn [bind]. destruct p as [j|]; eauto.
    destruct (HU _ _ Hp) as [Hj Hlt]. apply (IH (i :: V)); auto.
    + constructor; auto. intros Hin. destruct (HV i Hin). lia.
    + intros v [<-|Hv]; [split; auto|]. destruct (HV v Hv). split; auto. lia.
    + cbn [length]. lia.
Qed.

Inductive root (ps : list (option nat)) : nat -> nat -> Prop :=
| root_here i : nth_error ps i = Some None -> root ps i i
| root_up i j r : nth_error ps i = Some (Some j) -> root ps j r -> root ps i r.

Lemma uf_walk_root fuel ps i r : uf_walk fuel ps i = Ok r -> root ps i r.
Proof.
  revert i; induction fuel as [|f IH]; cbn; intros i H; [discriminate|].
  apply bind_ok in H as (p & Hp & H). apply get_ok in Hp. destruct p as [j|].
  - eapply root_up; eauto.
  - injection H as <-. apply root_here; auto.
Qed.

Lemma root_fun ps i r r' : root ps i r -> root ps i r' -> r = r'.
Proof.
  intros H; revert r'. induction H; intros r' H'; inversion H'; subst; try congruence; auto.
  apply IHroot. congruence.
Qed.
Lemma root_is_root ps i r : root ps i r -> nth_error ps r = Some None.
Proof. intros H; induction H; auto. Qed.

Lemma uf_find_spec n u e : uf_inv n u -> e < n -> exists r, uf_find u e = Ok r /\ root (uf_parents u) e r.
Proof.
  intros HI He. unfold uf_find. destruct HI as [HP HH HU] eqn:E. rewrite HP.
  destruct (Nat.ltb_spec e n); [|lia].
  destruct (uf_walk_ok n u HI (S n) [] e) as [r Hr]; cbn; auto; try lia; try constructor; try contradiction.
  exists r. split; auto. eapply uf_walk_root; eauto.
Qed.

Lemma uf_find_root n u e r : uf_inv n u -> uf_find u e = Ok r -> e < n /\ root (uf_parents u) e r.
Proof.
  intros HI H. unfold uf_find in H. rewrite (ui_p _ _ HI) in H.
  destruct (Nat.ltb_spec e n); [|discriminate]. split; auto. eapply uf_walk_root; eauto.
Qed.

Lemma uf_find_panic n u e : uf_inv n u -> n <= e -> uf_find u e = Panic.
Proof. intros HI He. unfold uf_find. rewrite (ui_p _ _ HI). destruct (Nat.ltb_spec e n); auto; lia. Qed.

Lemma uf_new_inv n u : uf_new n = Ok u -> uf_inv n u.
Proof.
  unfold uf_new. intros H. apply bind_ok in H as (z & _ & H). injection H as <-.
  constructor; cbn; try apply repeat_length.
  intros i j Hij. apply nth_error_In, repeat_spec in Hij. discriminate.
Qed.

Lemma root_join ps li ri :
  nth_error ps li = Some None -> nth_error ps ri = Some None -> li <> ri ->
  forall x r, root ps x r -> root (upd ps li (Some ri)) x (if r =? li then ri else r).
Proof.
  intros Hl Hr Hne x r H. induction H as [i Hi|i j r Hij H IH].
  - destruct (Nat.eqb_spec i li) as [->|Hn].
    + eapply root_up with (j := ri).
      * apply nth_error_upd_same. eapply nth_error_bound; eauto.
      * apply root_here. rewrite nth_error_upd_other; auto.
    + apply root_here. rewrite nth_error_upd_other; auto.
  - eapply root_up; [|exact IH]. rewrite nth_error_upd_other; auto. intros ->. congruence.
Qed.

Lemma nth_upd (l : list nat) i j x d : i < length l ->
  nth j (upd l i x) d = if i =? j then x else nth j l d.
Proof.
  intros Hi. destruct (Nat.eqb_spec i j) as [<-|Hne].
  - apply nth_error_nth. apply nth_error_upd_same; auto.
  - destruct (Nat.lt_ge_cases j (length l)) as [Hj|Hj].
    + destruct (nth_error_ex l j Hj) as [y Hy].
      rewrite (nth_error_nth _ _ d Hy). apply nth_error_nth. rewrite nth_error_upd_other; auto.
    + rewrite !nth_overflow; auto. rewrite upd_length; auto.
Qed.

Lemma uf_join_spec n u l r : uf_inv n u -> l < n -> r < n ->
  exists u', uf_join u l r = Ok u' /\ uf_inv n u' /\
    exists a b, root (uf_parents u) l a /\ root (uf_parents u) r b /\
      ((forall x rx, root (uf_parents u) x rx -> root (uf_parents u') x (if rx =? a then b else rx)) \/
       (forall x rx, root (uf_parents u) x rx -> root (uf_parents u') x (if rx =? b then a else rx))).
Proof.
  intros HI Hl Hr. unfold uf_join.
  destruct (uf_find_spec n u l HI Hl) as (a & Ea & Ra). destruct (uf_find_spec n u r HI Hr) as (b & Eb & Rb).
  rewrite Ea, Eb; cbn [bind].
  pose proof (root_is_root _ _ _ Ra) as Ia. pose proof (root_is_root _ _ _ Rb) as Ib.
  destruct HI as [HP HH HU] eqn:EI.
  assert (Ha : a < n) by (apply nth_error_bound in Ia; lia).
  assert (Hb : b < n) by (apply nth_error_bound in Ib; lia).
  destruct (Nat.eqb_spec a b) as [<-|Hab].
  { exists u. split; auto. split; auto. exists a, a. split; auto. split; auto. left.
    intros x rx Hx. destruct (Nat.eqb_spec rx a) as [->|]; auto. }
  assert (Hga : get (uf_heights u) a = Ok (nth a (uf_heights u) 0)).
  { apply get_ok. apply nth_error_nth'. lia. }
  assert (Hgb : get (uf_heights u) b = Ok (nth b (uf_heights u) 0)).
  { apply get_ok. apply nth_error_nth'. lia. }
  rewrite Hga, Hgb; cbn [bind].
  assert (G : forall li ri, nth_error (uf_parents u) li = Some None -> nth_error (uf_parents u) ri = Some None ->
    li <> ri -> li < n -> ri < n ->
    exists u', (let* ps := set (uf_parents u) li (Some ri) in
      let* hs := set (uf_heights u) ri (Nat.max (nth ri (uf_heights u) 0) (nth li (uf_heights u) 0 + 1)) in
      Ok (mkUF ps hs)) = Ok u' /\ uf_inv n u' /\
      (forall x rx, root (uf_parents u) x rx -> root (uf_parents u') x (if rx =? li then ri else rx))).
  { intros li ri Il Ir Hne Hli Hri. unfold set. rewrite HP, HH.
    destruct (Nat.ltb_spec li n); [|lia]. destruct (Nat.ltb_spec ri n); [|lia]. cbn [bind].
    eexists; split; [reflexivity|]. split.
    - constructor; cbn; rewrite ?upd_length; auto.
      intros i j Hij. rewrite !nth_upd by lia. rewrite nth_error_upd in Hij.
      destruct (Nat.eqb_spec li i) as [<-|Hni].
      + destruct (li <? _); [|discriminate]. injection Hij as <-.
        destruct (Nat.eqb_spec ri li); [lia|]. rewrite Nat.eqb_refl. split; [auto|lia].
      + destruct (HU _ _ Hij) as [Hj Hlt]. split; auto.
        destruct (Nat.eqb_spec ri i) as [<-|]; [congruence|].
        destruct (Nat.eqb_spec ri j) as [<-|]; lia.
    - cbn. apply root_join; auto. }
  destruct (nth b (uf_heights u) 0 <? nth a (uf_heights u) 0).
  - destruct (G b a) as (u' & E & I & R); auto. exists u'. split; [exact E|]. split; auto.
    exists a, b. split; auto.
  - destruct (G a b) as (u' & E & I & R); auto. exists u'. split; [exact E|]. split; auto.
    exists a, b. split; auto.
Qed.

Lemma uf_join_bound n u l r u' : uf_inv n u -> uf_join u l r = Ok u' -> l < n /\ r < n.
Proof.
  intros HI H. unfold uf_join in H. apply bind_ok in H as (a & Ha & H). apply bind_ok in H as (b & Hb & H).
  split; eapply uf_find_root; eauto.
Qed.

(** ** Connectivity *)
Definition uf_conn (n : nat) (u : uf) (js : list (nat * nat)) : Prop :=
  uf_inv n u /\ (forall a b, In (a, b) js -> a < n /\ b < n) /\
  forall x y rx ry, root (uf_parents u) x rx -> root (uf_parents u) y ry -> (rx = ry <-> linked js x y).

Lemma root_total n u x : uf_inv n u -> x < n -> exists r, root (uf_parents u) x r.
Proof. intros HI Hx. destruct (uf_find_spec n u x HI Hx) as (r & _ & H). eauto. Qed.
Lemma root_lt n u x r : uf_inv n u -> root (uf_parents u) x r -> x < n /\ r < n.
Proof.
  intros HI H. pose proof (ui_p _ _ HI). split.
  - inversion H; subst; eapply nth_error_bound in H1; lia.
  - apply root_is_root in H. apply nth_error_bound in H. lia.
Qed.

Lemma uf_new_conn n u : uf_new n = Ok u -> uf_conn n u [].
Proof.
  intros H. pose proof (uf_new_inv _ _ H) as HI. split; auto. split; [intros a b []|].
  unfold uf_new in H. apply bind_ok in H as (z & _ & H). injection H as <-. cbn.
  assert (R : forall x r, root (repeat None n) x r -> r = x).
  { intros x r Hr. inversion Hr; subst; auto. apply nth_error_In, repeat_spec in H. discriminate. }
  intros x y rx ry Hx Hy. apply R in Hx, Hy. subst. split.
  - intros ->. apply rst_refl.
  - intros HL. clear -HL. induction HL; try contradiction; congruence.
Qed.

Lemma uf_join_conn n u js l r u' :
  uf_conn n u js -> uf_join u l r = Ok u' -> uf_conn n u' (js ++ [(l, r)]).
Proof.
  intros (HI & HB & HC) HJ. destruct (uf_join_bound _ _ _ _ _ HI HJ) as [Hl Hr].
  destruct (uf_join_spec n u l r HI Hl Hr) as (u2 & E & I & a & b & Ra & Rb & HR).
  rewrite E in HJ. injection HJ as <-. split; auto. split.
  { intros x y Hxy. apply in_app_or in Hxy as [Hxy|[Hxy|[]]]; [eapply HB; eauto|].
    injection Hxy as <- <-. auto. }
  assert (Hinc : incl js (js ++ [(l, r)])) by (intros p Hp; apply in_or_app; auto).
  assert (Hstep : linked (js ++ [(l, r)]) l r) by (apply rst_step, in_or_app; right; left; auto).
  assert (Hlift : forall x y rx ry, root (uf_parents u) x rx -> root (uf_parents u) y ry -> rx = ry ->
             linked (js ++ [(l, r)]) x y).
  { intros x y rx ry Hx Hy Hxy. eapply linked_mono; eauto. eapply HC; eauto. }
  (* the merged root is reached by both classes *)
  assert (HM : exists m, (m = a \/ m = b) /\
     forall x rx, root (uf_parents u) x rx -> root (uf_parents u2) x (if (rx =? a) || (rx =? b) then m else rx)).
  { destruct HR as [HR|HR].
    - exists b. split; auto. intros x rx Hx. specialize (HR x rx Hx).
      destruct (Nat.eqb_spec rx a); cbn [orb]; auto. destruct (Nat.eqb_spec rx b) as [->|]; auto.
    - exists a. split; auto. intros x rx Hx. specialize (HR x rx Hx).
      destruct (Nat.eqb_spec rx a) as [->|]; cbn [orb]; auto.
      destruct (Nat.eqb_spec a b); subst; auto. }
  destruct HM as (m & Hm & HM).
  assert (Hab : forall x rx, root (uf_parents u) x rx -> (rx =? a) || (rx =? b) = true ->
            linked (js ++ [(l, r)]) x l).
  { intros x rx Hx Hor. apply orb_true_iff in Hor as [Ha|Ha]; apply Nat.eqb_eq in Ha; subst.
    - exact (Hlift x l a a Hx Ra eq_refl).
    - exact (rst_trans _ _ _ _ _ (Hlift x r b b Hx Rb eq_refl) (rst_sym _ _ _ _ Hstep)). }
  intros x y rx ry Hx Hy.
  destruct (root_total n u x HI) as [ox Ox]. { eapply root_lt in Hx; eauto; tauto. }
  destruct (root_total n u y HI) as [oy Oy]. { eapply root_lt in Hy; eauto; tauto. }
  rewrite (root_fun _ _ _ _ Hx (HM _ _ Ox)), (root_fun _ _ _ _ Hy (HM _ _ Oy)). split.
  - intros Heq. destruct ((ox =? a) || (ox =? b)) eqn:E1, ((oy =? a) || (oy =? b)) eqn:E2.
    + eapply rst_trans; [eapply Hab; eauto|]. apply rst_sym. eapply Hab; eauto.
    + subst oy. apply orb_false_iff in E2 as [E2 E3]. apply Nat.eqb_neq in E2, E3. destruct Hm; congruence.
    + subst ox. apply orb_false_iff in E1 as [E2' E3]. apply Nat.eqb_neq in E2', E3. destruct Hm; congruence.
    + eapply Hlift; eauto.
  - intros HL.
    assert (G : forall x y, linked (js ++ [(l, r)]) x y -> x < n ->
       y < n /\ forall ox oy, root (uf_parents u) x ox -> root (uf_parents u) y oy ->
       (if (ox =? a) || (ox =? b) then m else ox) = (if (oy =? a) || (oy =? b) then m else oy)).
    { clear x y rx ry Hx Hy ox Ox oy Oy HL. intros x y HL.
      assert (G : forall x y, linked (js ++ [(l, r)]) x y -> (x < n <-> y < n) /\ forall ox oy,
        root (uf_parents u) x ox -> root (uf_parents u) y oy ->
        (if (ox =? a) || (ox =? b) then m else ox) = (if (oy =? a) || (oy =? b) then m else oy)).
      { clear x y HL. intros x y HL. induction HL as [x y Hxy|x|x y HL IH|x y z HL1 IH1 HL2 IH2].
        - apply in_app_or in Hxy as [Hxy|[Hxy|[]]].
          + destruct (HB _ _ Hxy). split; [tauto|]. intros ox oy Ox Oy.
            assert (ox = oy) as ->; auto. eapply HC; eauto. apply rst_step; auto.
          + injection Hxy as <- <-. split; [tauto|]. intros ox oy Ox Oy.
            rewrite (root_fun _ _ _ _ Ox Ra), (root_fun _ _ _ _ Oy Rb).
            rewrite !Nat.eqb_refl, orb_true_r. reflexivity.
        - split; [tauto|]. intros ox oy Ox Oy. rewrite (root_fun _ _ _ _ Ox Oy). auto.
        - destruct IH as [I1 I2]. split; [tauto|]. intros ox oy Ox Oy. symmetry; auto.
        - destruct IH1 as [I1 I2], IH2 as [I3 I4]. split; [tauto|]. intros ox oz Ox Oz.
          destruct (root_lt _ _ _ _ HI Ox) as [Hxn _].
          destruct (root_total n u y HI) as [oy Oy]; [tauto|]. exact (eq_trans (I2 ox oy Ox Oy) (I4 oy oz Oy Oz)). }
      intros Hx. destruct (G _ _ HL) as [G1 G2]. split; [tauto|auto]. }
    destruct (root_lt _ _ _ _ HI Ox) as [Hxn _].
    destruct (G _ _ HL Hxn) as [_ G2]. apply G2; auto.
Qed.

Definition uf_joins (js : list (nat * nat)) (u : uf) : outcome uf :=
  mfold (fun u p => uf_join u (fst p) (snd p)) js u.

Lemma uf_joins_conn n js : forall js0 u u', uf_conn n u js0 -> uf_joins js u = Ok u' -> uf_conn n u' (js0 ++ js).
Proof.
  induction js as [|[l r] js IH]; intros js0 u u' HC H; cbn in H.
  - injection H as <-. rewrite app_nil_r; auto.
  - apply bind_ok in H as (u1 & H1 & H). pose proof (uf_join_conn _ _ _ _ _ _ HC H1) as HC1.
    specialize (IH _ _ _ HC1 H). rewrite <- app_assoc in IH. exact IH.
Qed.

Lemma uf_joins_ok n js : forall u, uf_inv n u -> (forall a b, In (a, b) js -> a < n /\ b < n) ->
  exists u', uf_joins js u = Ok u' /\ uf_inv n u'.
Proof.
  induction js as [|[l r] js IH]; intros u HI HB; cbn.
  - eauto.
  - destruct (HB l r) as [Hl Hr]; [left; auto|].
    destruct (uf_join_spec n u l r HI Hl Hr) as (u1 & E & I & _).
    unfold uf_joins; cbn [mfold fst snd]. rewrite E; cbn [bind]. apply IH; auto. intros a b Hab. apply HB; right; auto.
Qed.

Lemma uf_joins_bound n js : forall u u', uf_inv n u -> uf_joins js u = Ok u' -> forall a b, In (a, b) js -> a < n /\ b < n.
Proof.
  intros u u' HI H a b Hab. unfold uf_joins in H.
  assert (HC : uf_inv n u' /\ (forall a b, In (a,b) js -> a < n /\ b < n)).
  { clear a b Hab. revert u HI H. induction js as [|[l r] js IH]; intros u HI H; cbn in H.
    - injection H as <-. split; auto. intros a b [].
    - apply bind_ok in H as (u1 & H1 & H). destruct (uf_join_bound _ _ _ _ _ HI H1) as [Hl Hr].
      destruct (uf_join_spec n u l r HI Hl Hr) as (u2 & E & I & _). assert (u2 = u1) by (cbn in *; congruence). subst.
      destruct (IH u1 I H) as [I' HB]. split; auto. intros a b [E'|Hab]; [injection E' as <- <-; auto|auto]. }
  apply HC; auto.
Qed.

(** ** The BTreeMap grouping *)
Definition key_group {A} (f : A -> nat) (l : list A) (m : list (nat * list A)) : Prop :=
  StronglySorted (fun a b => fst a < fst b) m /\
  (forall k vs, In (k, vs) m -> vs = filter (fun x => f x =? k) l /\ vs <> []) /\
  (forall x, In x l -> exists vs, In (f x, vs) m).

Lemma bt_push_keys {A} (m : list (nat * list A)) k v k' :
  In k' (map fst (bt_push m k v)) <-> k' = k \/ In k' (map fst m).
Proof.
  induction m as [|[k0 vs] t IH]; cbn [bt_push map fst In].
  - intuition congruence.
  - assert (Hsym : forall a b : nat, a = b <-> b = a) by (split; auto).
    destruct (Nat.ltb_spec k k0); cbn [map fst In]; [rewrite (Hsym k k'); tauto|].
    destruct (Nat.eqb_spec k k0) as [->|Hne]; cbn [map fst In]; [rewrite (Hsym k0 k'); tauto|].
    rewrite IH. tauto.
Qed.

Lemma bt_push_sorted {A} (m : list (nat * list A)) k v :
  StronglySorted (fun a b => fst a < fst b) m -> StronglySorted (fun a b => fst a < fst b) (bt_push m k v).
Proof.
  induction m as [|[k0 vs] t IH]; intros H; cbn [bt_push].
  - repeat constructor.
  - inversion H as [|? ? Ht Hf]; subst. destruct (Nat.ltb_spec k k0).
    + constructor; auto. constructor; auto. eapply Forall_impl; [|exact Hf]. cbn. intros [a b]; cbn; lia.
    + destruct (Nat.eqb_spec k k0).
      * constructor; auto.
      * constructor; auto. rewrite Forall_forall in *. intros [k1 vs1] Hin. cbn.
        assert (Hk : In k1 (map fst (bt_push t k v))) by (apply in_map_iff; exists (k1, vs1); auto).
        apply bt_push_keys in Hk as [->|Hk]; [lia|].
        apply in_map_iff in Hk as ((k2 & vs2) & <- & Hin2). apply (Hf _ Hin2).
Qed.

Lemma bt_push_in {A} (m : list (nat * list A)) k v k' vs :
  StronglySorted (fun a b => fst a < fst b) m ->
  In (k', vs) (bt_push m k v) <->
  (k' <> k /\ In (k', vs) m) \/
  (k' = k /\ ((exists vs0, In (k, vs0) m /\ vs = vs0 ++ [v]) \/ ((forall vs0, ~ In (k, vs0) m) /\ vs = [v]))).
Proof.
  induction m as [|[k0 vs0] t IH]; intros HS; cbn [bt_push].
  - cbn. split.
    + intros [E|[]]; injection E as -> ->. right. split; auto.
    + intros [[_ []]|[-> [(x & [] & _)|[_ ->]]]]. auto.
  - inversion HS as [|? ? Ht Hf]; subst. rewrite Forall_forall in Hf.
    destruct (Nat.ltb_spec k k0).
    + assert (Hno : forall vs1, ~ In (k, vs1) ((k0, vs0) :: t)).
      { intros vs1 [E|Hin]; [injection E as -> ->; lia|]. specialize (Hf _ Hin). cbn in Hf. lia. }
      split.
      * intros [E|Hin]; [injection E as -> ->; right; split; auto|].
        left. split; auto. intros ->. eapply Hno; eauto.
      * intros [[_ Hin]|[-> [(x & Hin & _)|[_ ->]]]]; [right; auto|exfalso; eapply Hno; eauto|left; auto].
    + destruct (Nat.eqb_spec k k0) as [->|Hne].
      * assert (Hno : forall vs1, ~ In (k0, vs1) t).
        { intros vs1 Hin. specialize (Hf _ Hin). cbn in Hf. lia. }
        split.
        -- intros [E|Hin]; [injection E as -> <-; right; split; auto; left; exists vs0; split; [left; auto|auto]|].
           left. split; [|right; auto]. intros ->. eapply Hno; eauto.
        -- intros [[Hk [E|Hin]]|[-> [(x & [E|Hin] & ->)|[Hn ->]]]].
           ++ injection E as -> ->. contradiction.
           ++ right; auto.
           ++ injection E as ->. left; auto.
           ++ exfalso; eapply Hno; eauto.
           ++ exfalso; eapply Hn; left; auto.
      * cbn [In]. rewrite IH by auto. split.
        -- intros [E|[[Hk Hin]|[-> [(x & Hin & ->)|[Hn ->]]]]].
           ++ injection E as -> ->. left. split; auto.
           ++ left; auto.
           ++ right. split; auto. left. exists x. auto.
           ++ right. split; auto. right. split; auto. intros vs1 [E|Hin]; [injection E as -> ->; lia|eapply Hn; eauto].
        -- intros [[Hk [E|Hin]]|[-> [(x & [E|Hin] & ->)|[Hn ->]]]].
           ++ left; auto.
           ++ right; left; auto.
           ++ injection E as -> ->. lia.
           ++ right; right. split; auto. left. eauto.
           ++ right; right. split; auto. right. split; auto. intros vs1 Hin. eapply Hn. right; eauto.
Qed.

Lemma key_group_push {A} (f : A -> nat) l m v :
  key_group f l m -> key_group f (l ++ [v]) (bt_push m (f v) v).
Proof.
  intros (HS & HF & HT). split; [apply bt_push_sorted; auto|]. split.
  - intros k vs Hin. rewrite filter_app. cbn [filter].
    apply bt_push_in in Hin; auto. destruct Hin as [[Hk Hin]|[-> Hin]].
    + destruct (Nat.eqb_spec (f v) k); [congruence|]. rewrite app_nil_r. auto.
    + rewrite Nat.eqb_refl. destruct Hin as [(vs0 & Hin & ->)|[Hn ->]].
      * destruct (HF _ _ Hin) as [<- _]. split; auto. destruct vs0; discriminate.
      * split; [|discriminate]. replace (filter (fun x => f x =? f v) l) with (@nil A); auto.
        symmetry. destruct (filter (fun x => f x =? f v) l) as [|y t] eqn:E; auto. exfalso.
        assert (Hy : In y (filter (fun x => f x =? f v) l)) by (rewrite E; left; auto).
        apply filter_In in Hy as [Hy Hyk]. apply Nat.eqb_eq in Hyk.
        destruct (HT y Hy) as [vs0 Hin]. rewrite Hyk in Hin. eapply Hn; eauto.
  - intros x Hx. apply in_app_or in Hx as [Hx|[<-|[]]].
    + destruct (HT x Hx) as [vs Hin]. destruct (Nat.eq_dec (f x) (f v)) as [E|E].
      * rewrite E in *. exists (vs ++ [v]). apply bt_push_in; auto. right. split; auto. left. eauto.
      * exists vs. apply bt_push_in; auto.
    + assert (Hk : In (f v) (map fst (bt_push m (f v) v))) by (apply bt_push_keys; auto).
      apply in_map_iff in Hk as ((k & vs) & E & Hin). cbn in E. subst. eauto.
Qed.

Lemma key_group_fold {A} (f : A -> nat) l : forall l0 m, key_group f l0 m ->
  key_group f (l0 ++ l) (fold_left (fun m x => bt_push m (f x) x) l m).
Proof.
  induction l as [|x l IH]; intros l0 m H; cbn.
  - rewrite app_nil_r; auto.
  - replace (l0 ++ x :: l) with ((l0 ++ [x]) ++ l) by (rewrite <- app_assoc; auto).
    apply IH. apply key_group_push; auto.
Qed.

Lemma key_group_nil {A} (f : A -> nat) : key_group f [] [].
Proof. split; [constructor|]. split; [intros k vs []|intros x []]. Qed.

(** ** Groups *)
Record is_groups (n : nat) (R : nat -> nat -> Prop) (gs : list (list nat)) : Prop := {
  ig_cover : forall x, x < n -> exists g, In g gs /\ In x g;
  ig_range : forall g x, In g gs -> In x g -> x < n;
  ig_class : forall g x y, In g gs -> In x g -> (In y g <-> y < n /\ R x y);
  ig_one : forall g g' x, In g gs -> In g' gs -> In x g -> In x g' -> g = g';
  ig_sorted : forall g, In g gs -> StronglySorted lt g;
  ig_nonempty : forall g, In g gs -> g <> [];
  ig_nodup : NoDup gs
}.

Lemma seq_sorted k n : StronglySorted lt (seq k n).
Proof.
  revert k; induction n as [|n IH]; intros k; cbn; constructor; auto.
  apply Forall_forall. intros x Hx. apply in_seq in Hx. lia.
Qed.
Lemma filter_sorted {A} (R : A -> A -> Prop) f l : StronglySorted R l -> StronglySorted R (filter f l).
Proof.
  induction 1; cbn; [constructor|]. destruct (f a); auto. constructor; auto.
  rewrite Forall_forall in *. intros x Hx. apply filter_In in Hx as [Hx _]. auto.
Qed.

Lemma uf_groups_spec n u js : uf_conn n u js -> exists gs, uf_groups u = Ok gs /\ is_groups n (linked js) gs.
Proof.
  intros (HI & HB & HC). unfold uf_groups. rewrite (ui_p _ _ HI).
  pose (f := fun e => match uf_find u e with Ok r => r | _ => 0 end).
  rewrite (mfold_pure _ (fun m e => bt_push m (f e) e)).
  2:{ intros b x Hx. apply in_seq in Hx. destruct (uf_find_spec n u x HI) as (r & E & _); [lia|].
      unfold f. rewrite E. reflexivity. }
  cbn [bind]. eexists; split; [reflexivity|].
  pose proof (key_group_fold f (seq 0 n) [] [] (key_group_nil f)) as (HS & HF & HT). cbn [app] in *.
  set (m := fold_left _ _ _) in *.
  assert (Hf : forall x, x < n -> root (uf_parents u) x (f x)).
  { intros x Hx. destruct (uf_find_spec n u x HI Hx) as (r & E & Hr). unfold f. rewrite E; auto. }
  assert (Hg : forall g, In g (map snd m) -> exists k, In (k, g) m /\ g = filter (fun x => f x =? k) (seq 0 n) /\ g <> []).
  { intros g Hin. apply in_map_iff in Hin as ((k & vs) & E & Hin). cbn in E. subst. exists k.
    destruct (HF _ _ Hin). auto. }
  constructor.
  - intros x Hx. destruct (HT x) as [vs Hin]; [apply in_seq; lia|]. exists vs. split.
    + apply in_map_iff. exists (f x, vs); auto.
    + destruct (HF _ _ Hin) as [-> _]. apply filter_In. split; [apply in_seq; lia|apply Nat.eqb_refl].
  - intros g x Hin Hx. destruct (Hg _ Hin) as (k & _ & -> & _). apply filter_In in Hx as [Hx _].
    apply in_seq in Hx. lia.
  - intros g x y Hin Hx. destruct (Hg _ Hin) as (k & _ & -> & _). apply filter_In in Hx as [Hx Hk].
    apply in_seq in Hx. apply Nat.eqb_eq in Hk. subst k. rewrite filter_In, in_seq, Nat.eqb_eq. split.
    + intros [Hy E]. split; [lia|]. eapply HC; [apply Hf; lia|apply Hf; lia|]. auto.
    + intros [Hy HL]. split; [lia|]. symmetry. eapply HC; [apply Hf; lia|apply Hf; lia|]. auto.
  - intros g g' x Hin Hin' Hx Hx'. destruct (Hg _ Hin) as (k & _ & -> & _), (Hg _ Hin') as (k' & _ & -> & _).
    apply filter_In in Hx as [_ Hk]. apply filter_In in Hx' as [_ Hk']. apply Nat.eqb_eq in Hk, Hk'. rewrite <- Hk, <- Hk'. reflexivity.
  - intros g Hin. destruct (Hg _ Hin) as (k & _ & -> & _). apply filter_sorted, seq_sorted.
  - intros g Hin. destruct (Hg _ Hin) as (k & _ & _ & H); auto.
  - assert (GN : forall m', StronglySorted (fun a b => fst a < fst b) m' -> incl m' m -> NoDup (map snd m')).
    { induction 1 as [|[k vs] t Ht IH Hfa]; intros Hinc; cbn; constructor.
      - intros Hin. apply in_map_iff in Hin as ((k' & vs') & E & Hin). cbn in E. subst vs'.
        rewrite Forall_forall in Hfa. specialize (Hfa _ Hin). cbn in Hfa.
        destruct (HF k vs) as [E1 Hne]; [apply Hinc; left; auto|].
        destruct (HF k' vs) as [E2 _]; [apply Hinc; right; auto|].
        destruct vs as [|v vs]; [congruence|].
        assert (H1 : In v (filter (fun x => f x =? k) (seq 0 n))) by (rewrite <- E1; left; auto).
        assert (H2 : In v (filter (fun x => f x =? k') (seq 0 n))) by (rewrite <- E2; left; auto).
        apply filter_In in H1 as [_ H1]. apply filter_In in H2 as [_ H2].
        apply Nat.eqb_eq in H1, H2. lia.
      - apply IH. intros x Hx. apply Hinc. right; auto. }
    apply GN; auto. intros x; auto.
Qed.
