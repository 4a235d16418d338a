(** Tags, range, slice. *)
From Verif Require Import Base M_Data M_Names M_Build M_Script Spec_Script P_Script1.
From Coq Require Import String Ascii.
Notation length := Datatypes.length.
Notation get := Base.get.

Lemma as_i32_small z : (i32_min <= z <= i32_max)%Z -> as_i32 z = z.
Proof. unfold as_i32, i32_min, i32_max. intros H. rewrite Z.mod_small; lia. Qed.
Lemma z_to_u32_ok z n : z_to_u32 z = Ok n -> Z.of_N n = z.
Proof.
  unfold z_to_u32. destruct ((0 <=? z)%Z && _) eqn:E; [|discriminate]. intros H; injection H as <-.
  apply andb_true_iff in E as [E _]. apply Z.leb_le in E. lia.
Qed.
Lemma u32_to_i32_ok n z : u32_to_i32 n = Ok z -> z = Z.of_N n.
Proof. unfold u32_to_i32. destruct (_ <=? _)%Z; [|discriminate]. intros H; injection H as <-. auto. Qed.
Lemma parse_uint_ok s n : parse_string_uint s = Ok n -> signed_numeral s (Z.of_N n).
Proof.
  unfold parse_string_uint. destruct (parse_i64 s) as [z|] eqn:E; [|discriminate]. intros H. apply z_to_u32_ok in H. subst.
  apply parse_i64_ok; auto.
Qed.
Lemma tag_literal a t p q : small_tag a -> eval_tag a = Ok t -> apply_tag p t = Ok q -> literal a p q.
Proof.
  intros Hs He Ha. destruct a as [k v|k s|lo hi|lo hi|b]; cbn [eval_tag small_tag] in *.
  - injection He as <-. unfold tag_int in Ha. rewrite as_i32_small in Ha by auto.
    destruct k; cbn [tag_of apply_tag t_tag t_vals get nth_error bind] in Ha; apply bind_ok in Ha as (n & Hn & Ha);
      injection Ha as <-; apply z_to_u32_ok in Hn; cbn; eauto.
  - unfold tag_str in He. apply bind_ok in He as (n & Hn & He). apply bind_ok in He as (z & Hz & He). injection He as <-.
    apply parse_uint_ok in Hn. apply u32_to_i32_ok in Hz. subst z.
    destruct k; cbn [tag_of apply_tag t_tag t_vals get nth_error bind] in Ha; apply bind_ok in Ha as (m & Hm & Ha);
      injection Ha as <-; apply z_to_u32_ok in Hm; apply N2Z.inj in Hm; subst m; cbn; eauto.
  - injection He as <-. unfold bounds_int in Ha. rewrite !as_i32_small in Ha by tauto.
    cbn [apply_tag t_tag t_vals get nth_error bind] in Ha. apply bind_ok in Ha as (n & Hn & Ha). apply bind_ok in Ha as (m & Hm & Ha).
    injection Ha as <-. apply z_to_u32_ok in Hn, Hm. cbn. eauto 10.
  - unfold bounds_str in He. apply bind_ok in He as (x & Hx & He). apply bind_ok in He as (y & Hy & He).
    apply bind_ok in He as (x' & Hx' & He). apply bind_ok in He as (y' & Hy' & He). injection He as <-.
    apply parse_uint_ok in Hx, Hy. apply u32_to_i32_ok in Hx', Hy'. subst.
    cbn [apply_tag t_tag t_vals get nth_error bind] in Ha. apply bind_ok in Ha as (n & Hn & Ha). apply bind_ok in Ha as (m & Hm & Ha).
    injection Ha as <-. apply z_to_u32_ok in Hn, Hm. apply N2Z.inj in Hn, Hm. subst. cbn. eauto 10.
  - injection He as <-. cbn [optional_if apply_tag t_tag t_vals get nth_error bind] in Ha. injection Ha as <-. destruct b; reflexivity.
Qed.
Lemma tags_literal tags : forall ts p q, Forall small_tag tags -> mmap eval_tag tags = Ok ts -> mfold apply_tag ts p = Ok q ->
  literally tags p q.
Proof.
  induction tags as [|a tags IH]; intros ts p q Hs He Ha; cbn [mmap] in He.
  - injection He as <-. cbn in Ha. injection Ha as <-. constructor.
  - apply bind_ok in He as (t & Ht & He). apply bind_ok in He as (ts' & Hts & He). injection He as <-.
    cbn [mfold] in Ha. apply bind_ok in Ha as (p1 & Hp1 & Ha). inversion Hs; subst.
    econstructor; [eapply tag_literal; eauto|eauto].
Qed.

Lemma z_to_u32_in z : in_range z -> z_to_u32 z = Ok (Z.to_N z).
Proof.
  unfold in_range, i32_max, z_to_u32. intros H. destruct (Z.leb_spec 0 z); [|lia]. destruct (Z.leb_spec z 4294967295); [auto|lia].
Qed.
Lemma u32_to_i32_in n : in_range (Z.of_N n) -> u32_to_i32 n = Ok (Z.of_N n).
Proof. unfold in_range, u32_to_i32. intros H. destruct (Z.leb_spec (Z.of_N n) i32_max); [auto|lia]. Qed.
Lemma parse_uint_in s n : signed_numeral s (Z.of_N n) -> in_range (Z.of_N n) -> parse_string_uint s = Ok n.
Proof.
  intros H Hr. apply parse_i64_ok in H. unfold parse_string_uint. rewrite H, z_to_u32_in by auto. f_equal. lia.
Qed.
Lemma as_i32_in z : in_range z -> as_i32 z = z.
Proof. intros [H1 H2]. apply as_i32_small. unfold i32_min. lia. Qed.
Lemma num_accepted k z p : in_range z -> exists q, apply_tag p (mkTag (tag_of k) [z]) = Ok q.
Proof.
  intros H. destruct k; cbn [tag_of apply_tag t_tag t_vals get nth_error bind];
    unfold apply_tag; cbn [t_tag t_vals get nth_error bind]; rewrite z_to_u32_in by auto; cbn [bind]; eauto.
Qed.
Lemma bounds_accepted x y p : in_range x -> in_range y -> exists q, apply_tag p (mkTag TBounds [x; y]) = Ok q.
Proof.
  intros H1 H2. unfold apply_tag; cbn [t_tag t_vals get nth_error bind]. rewrite (z_to_u32_in x) by auto. cbn [bind].
  rewrite z_to_u32_in by auto. cbn [bind]. eauto.
Qed.
Lemma tag_accepted a p : fair_tag a -> exists t q, eval_tag a = Ok t /\ apply_tag p t = Ok q.
Proof.
  destruct a as [k v|k s|lo hi|lo hi|b]; cbn [fair_tag eval_tag].
  - intros H. unfold tag_int. rewrite as_i32_in by auto. destruct (num_accepted k v p H) as [q Hq]. eauto.
  - intros (n & Hn & Hr). unfold tag_str. rewrite (parse_uint_in _ _ Hn Hr). cbn [bind]. rewrite u32_to_i32_in by auto. cbn [bind].
    destruct (num_accepted k _ p Hr) as [q Hq]. eauto.
  - intros [H1 H2]. unfold bounds_int. rewrite !as_i32_in by auto. destruct (bounds_accepted lo hi p H1 H2) as [q Hq]. eauto.
  - intros [(n & Hn & Hr) (m & Hm & Hq)]. unfold bounds_str. rewrite (parse_uint_in _ _ Hn Hr), (parse_uint_in _ _ Hm Hq). cbn [bind].
    rewrite !u32_to_i32_in by auto. cbn [bind]. destruct (bounds_accepted _ _ p Hr Hq) as [q Hq']. eauto.
  - intros _. exists (optional_if b). cbn. eauto.
Qed.
Lemma tags_accepted tags : forall p, Forall fair_tag tags -> exists ts q, mmap eval_tag tags = Ok ts /\ mfold apply_tag ts p = Ok q.
Proof.
  induction tags as [|a tags IH]; intros p H; [exists [], p; auto|]. inversion H; subst.
  destruct (tag_accepted a p H2) as (t & q & Ht & Hq). destruct (IH q H3) as (ts & q' & Hts & Hq').
  exists (t :: ts), q'. cbn [mmap mfold]. rewrite Ht. cbn [bind]. rewrite Hts. cbn [bind]. rewrite Hq. auto.
Qed.
Lemma fair_small a : fair_tag a -> small_tag a.
Proof. destruct a; cbn; unfold in_range, i32_min; try tauto; lia. Qed.

(** ** range *)
Lemma count_up_nth n : forall x i, nth_error (count_up x n) i = if (i <? n)%nat then Some (x + Z.of_nat i)%Z else None.
Proof.
  induction n as [|n IH]; intros x i; cbn [count_up].
  - destruct i; reflexivity.
  - destruct i as [|i]; cbn [nth_error].
    + rewrite Z.add_0_r. reflexivity.
    + rewrite IH. change (Datatypes.S i <? Datatypes.S n)%nat with (i <? n)%nat.
      destruct (i <? n)%nat; auto. f_equal. lia.
Qed.
Lemma range_nth x y i z : nth_error (range x y) i = Some z <-> z = (x + Z.of_nat i)%Z /\ (z <= y)%Z.
Proof.
  unfold range. destruct (Z.leb_spec x y).
  - rewrite count_up_nth. destruct (Nat.ltb_spec i (Z.to_nat (y - x + 1))).
    + split; intros Hz; [injection Hz as <-; lia|]. destruct Hz as [-> _]. auto.
    + split; [discriminate|]. lia.
  - split; [destruct i; discriminate|lia].
Qed.

(** ** slice *)
Lemma nth_firstn_skipn {A} (l : list A) x n i :
  nth_error (firstn n (skipn x l)) i = if (i <? n)%nat then nth_error l (x + i) else None.
Proof.
  revert x i l. induction n as [|n IH]; intros x i l; [destruct i; reflexivity|].
  assert (G : forall j, nth_error (skipn x l) j = nth_error l (x + j)).
  { clear. revert l. induction x as [|x IH]; intros [|a l] j; cbn; auto. destruct j; auto. }
  destruct (skipn x l) as [|a t] eqn:E.
  - cbn [firstn]. rewrite <- (G i). destruct i; destruct (_ <? _)%nat; reflexivity.
  - cbn [firstn]. destruct i as [|i].
    + rewrite <- (G 0). reflexivity.
    + cbn [nth_error]. change (Datatypes.S i <? Datatypes.S n)%nat with (i <? n)%nat.
      assert (Hs : skipn (Datatypes.S x) l = t).
      { clear - E. revert l E. induction x as [|x IH]; intros [|b l] E; cbn in *; try discriminate; [congruence|]. apply IH; auto. }
      rewrite <- Hs, IH. replace (x + Datatypes.S i) with (Datatypes.S x + i) by lia. auto.
Qed.
Lemma slice_spec {A} (l : list A) x y :
  match slice l x y with
  | Ok r => ~ slice_bad l x y /\
            forall i a, nth_error r i = Some a <-> (x + Z.of_nat i <= slice_end l y)%Z /\ nth_error l (Z.to_nat x + i) = Some a
  | Err _ => slice_bad l x y
  | Panic => False
  end.
Proof.
  unfold slice, slice_bad, slice_end.
  destruct (Z.ltb_spec x 0); [cbn; lia|]. destruct (Z.ltb_spec y 0); [cbn; lia|]. cbn [orb].
  destruct (Nat.leb_spec (length l) (Z.to_nat x)) as [|Hx]; [lia|].
  destruct (Z.eqb_spec y i64_max) as [Ey|Ey]; cbn [bind].
  - destruct (Nat.ltb_spec (length l - 1) (Z.to_nat x)); [lia|]. split; [lia|]. intros i a.
    rewrite nth_firstn_skipn. destruct (Nat.ltb_spec i (length l - 1 - Z.to_nat x + 1)).
    + split; [intros; split; auto; lia|tauto].
    + split; [discriminate|]. lia.
  - destruct (Nat.leb_spec (length l) (Z.to_nat y)); cbn [bind]; [lia|].
    destruct (Nat.ltb_spec (Z.to_nat y) (Z.to_nat x)).
    + split; [lia|]. intros i a. split; [destruct i; discriminate|]. lia.
    + split; [lia|]. intros i a. rewrite nth_firstn_skipn. destruct (Nat.ltb_spec i (Z.to_nat y - Z.to_nat x + 1)).
      * split; [intros; split; auto; lia|tauto].
      * split; [discriminate|]. lia.
Qed.

(** ** Time strings that are not time strings *)
Lemma time_text_last s z : time_text s z -> s = ""%string \/ exists p u m, s = (p ++ String u "")%string /\ In (u, m) units.
Proof.
  induction 1 as [|ds u m rest z Hn Hd Hu Hr IH]; [auto|]. right. destruct IH as [-> |(p & v & m' & -> & Hv)].
  - exists (digits_text ds), u, m. auto.
  - exists (digits_text ds ++ String u p)%string, v, m'. split; auto. rewrite app_assoc_s. auto.
Qed.
