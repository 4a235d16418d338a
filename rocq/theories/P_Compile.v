(** Compilation of declared choices: parts, names, continuations, preferences. *)
From Verif Require Import Base M_Data Spec M_Union M_Names M_Build Spec_Input P_Union P_Scoring P_Con.
From Coq Require Import Relations Sorted.

(** ** The compiled list in closed form *)
Definition mk_part (off : nat) (p : proto) (k : nat) : choice_data :=
  mkChoice (if k =? 0 then p_name p else part_name k (p_name p)) (p_min p) (p_max p)
           (if k + 1 <? copies p then Some (off + k + 1) else None) (p_optional p).
Definition block (off : nat) (p : proto) : list choice_data := map (mk_part off p) (seq 0 (copies p)).
Fixpoint blocks (off : nat) (ps : list proto) : list choice_data :=
  match ps with
  | [] => []
  | p :: t => block off p ++ blocks (off + copies p) t
  end.

Fixpoint spread {X} (ps : list proto) (row : list X) : list X :=
  match ps, row with
  | p :: t, x :: r => repeat x (copies p) ++ spread t r
  | _, _ => row
  end.

Lemma copies_pos p : 1 <= copies p.
Proof. unfold copies. lia. Qed.

Lemma compile_one_spec chs css p :
  compile_one (chs, css) p =
  (chs ++ block (length chs) p,
   map (fun c => mkChooser (cs_name c)
          (if 1 <? N.to_nat (p_parts p) then repeat_pref 0 (length chs) (N.to_nat (p_parts p)) (cs_prefs c)
           else cs_prefs c)) css).
Proof.
  unfold compile_one. destruct (Nat.ltb_spec 1 (N.to_nat (p_parts p))) as [H|H].
  - f_equal. f_equal. unfold block. replace (copies p) with (S (N.to_nat (p_parts p) - 1)) by (unfold copies; lia).
    cbn [seq map]. f_equal.
    + unfold mk_part. cbn [Nat.eqb Nat.add]. f_equal.
      destruct (Nat.ltb_spec 1 (copies p)) as [|HH]; [f_equal; lia|unfold copies in HH; lia].
    + apply map_ext_in. intros k Hk. apply in_seq in Hk. unfold mk_part.
      destruct (Nat.eqb_spec k 0); [lia|]. f_equal.
      destruct (Nat.eqb_spec k (N.to_nat (p_parts p) - 1)), (Nat.ltb_spec (k + 1) (copies p)) as [HH|HH];
        unfold copies in HH; try lia; auto.
  - f_equal.
    + f_equal. unfold block. replace (copies p) with 1 by (unfold copies; lia). cbn [seq map]. f_equal.
      unfold mk_part. cbn [Nat.eqb Nat.add]. f_equal.
      destruct (Nat.ltb_spec 1 (copies p)) as [HH|]; [unfold copies in HH; lia|auto].
    + rewrite <- (map_id css) at 1. apply map_ext. intros [n pr]; reflexivity.
Qed.

Lemma repeat_pref_at a : forall i idx n x b, i + length a = idx ->
  repeat_pref i idx n (a ++ x :: b) = a ++ repeat x n ++ b.
Proof.
  induction a as [|y a IH]; intros i idx n x b H; cbn [app repeat_pref length] in *.
  - replace i with idx by lia. rewrite Nat.eqb_refl. f_equal.
    assert (G : forall j l, idx < j -> repeat_pref j idx n l = l).
    { intros j l; revert j. induction l as [|z l IHl]; intros j Hj; cbn; auto.
      destruct (Nat.eqb_spec j idx); [lia|]. cbn. rewrite IHl by lia. auto. }
    apply G. lia.
  - destruct (Nat.eqb_spec i idx); [lia|]. cbn. f_equal. apply IH. lia.
Qed.

Definition upd_row (off : nat) (p : proto) (row : list N) : list N :=
  if 1 <? N.to_nat (p_parts p) then repeat_pref 0 off (N.to_nat (p_parts p)) row else row.
Fixpoint rows_after (off : nat) (ps : list proto) (row : list N) : list N :=
  match ps with
  | [] => row
  | p :: t => rows_after (off + copies p) t (upd_row off p row)
  end.

Lemma block_length off p : length (block off p) = copies p.
Proof. unfold block. rewrite map_length, seq_length; auto. Qed.

Lemma fold_compile ps : forall chs css,
  fold_left compile_one ps (chs, css) =
  (chs ++ blocks (length chs) ps,
   map (fun c => mkChooser (cs_name c) (rows_after (length chs) ps (cs_prefs c))) css).
Proof.
  induction ps as [|p t IH]; intros chs css; cbn [fold_left blocks rows_after].
  - rewrite app_nil_r. f_equal. rewrite <- (map_id css) at 1. apply map_ext. intros []; reflexivity.
  - rewrite compile_one_spec, IH, app_length, block_length, map_map, app_assoc. f_equal.
Qed.

Lemma rows_after_spread ps : forall off pre row,
  length pre = off -> length row = length ps -> rows_after off ps (pre ++ row) = pre ++ spread ps row.
Proof.
  induction ps as [|p t IH]; intros off pre [|x row] Hp HL; try discriminate; cbn [rows_after spread]; auto.
  assert (E : upd_row off p (pre ++ x :: row) = (pre ++ repeat x (copies p)) ++ row).
  { unfold upd_row. destruct (Nat.ltb_spec 1 (N.to_nat (p_parts p))) as [H|H].
    - rewrite repeat_pref_at by lia. rewrite <- app_assoc. do 3 f_equal. unfold copies. lia.
    - replace (copies p) with 1 by (unfold copies; lia). rewrite <- app_assoc. reflexivity. }
  rewrite E, IH.
  - rewrite <- app_assoc. reflexivity.
  - rewrite app_length, repeat_length. lia.
  - cbn in HL. lia.
Qed.

Lemma compile_spec ps css chs css' :
  (forall c, In c css -> length (cs_prefs c) = length ps) ->
  compile_choices ps css = (chs, css') ->
  chs = blocks 0 ps /\ css' = map (fun c => mkChooser (cs_name c) (spread ps (cs_prefs c))) css.
Proof.
  intros HL H. unfold compile_choices in H. rewrite fold_compile in H. cbn in H. injection H as <- <-.
  split; auto. apply map_ext_in. intros c Hc. f_equal. apply (rows_after_spread ps 0 [] (cs_prefs c)); auto.
Qed.

(** ** Indices *)
Lemma first_index_0 ps : first_index ps 0 = 0.
Proof. destruct ps; auto. Qed.
Lemma first_index_S ps i p : nth_error ps i = Some p -> first_index ps (S i) = first_index ps i + copies p.
Proof.
  revert i; induction ps as [|q t IH]; intros [|i] H; cbn in *; try discriminate.
  - injection H as ->. rewrite first_index_0. lia.
  - specialize (IH _ H). cbn in IH. lia.
Qed.
Lemma first_index_mono ps i j p : nth_error ps i = Some p -> i < j -> j <= length ps ->
  first_index ps i + copies p <= first_index ps j.
Proof.
  intros Hi Hij Hj. rewrite <- (first_index_S _ _ _ Hi).
  revert Hj. induction Hij as [|j Hij IH]; intros Hj; auto.
  destruct (nth_error ps j) as [q|] eqn:E; [|apply nth_error_None in E; lia].
  rewrite (first_index_S _ _ _ E). specialize (IH ltac:(lia)). lia.
Qed.
Lemma is_part_unique ps i k j l c : is_part ps i k c -> is_part ps j l c -> i = j /\ k = l.
Proof.
  intros (p & Hp & Hk & ->) (q & Hq & Hl & E).
  pose proof (nth_error_lt _ _ _ Hp) as HLp. pose proof (nth_error_lt _ _ _ Hq) as HLq.
  destruct (lt_eq_lt_dec i j) as [[H|H]|H].
  - pose proof (first_index_mono ps i j p Hp H ltac:(lia)). lia.
  - subst. lia.
  - pose proof (first_index_mono ps j i q Hq H ltac:(lia)). lia.
Qed.

Lemma blocks_length ps : forall off, length (blocks off ps) = first_index ps (length ps).
Proof.
  induction ps as [|p t IH]; intros off; cbn [blocks first_index length]; auto. rewrite app_length, block_length, IH. auto.
Qed.

Lemma blocks_nth ps : forall off i k p, nth_error ps i = Some p -> k < copies p ->
  nth_error (blocks off ps) (first_index ps i + k) = Some (mk_part (off + first_index ps i) p k).
Proof.
  induction ps as [|q t IH]; intros off [|i] k p Hi Hk; cbn in Hi; try discriminate; cbn [blocks first_index].
  - injection Hi as ->. cbn [Nat.add]. rewrite nth_error_app1 by (rewrite block_length; auto).
    unfold block. rewrite nth_error_map. rewrite (nth_error_nth' _ 0) by (rewrite seq_length; auto).
    cbn [option_map]. rewrite seq_nth by auto. rewrite Nat.add_0_r; auto.
  - rewrite nth_error_app2 by (rewrite block_length; lia). rewrite block_length.
    replace (copies q + first_index t i + k - copies q) with (first_index t i + k) by lia.
    rewrite (IH _ _ _ _ Hi Hk). f_equal. f_equal. lia.
Qed.

Lemma part_exists ps c : c < first_index ps (length ps) -> exists i k, is_part ps i k c.
Proof.
  revert c; induction ps as [|p t IH]; intros c Hc; cbn [first_index length] in Hc; [lia|].
  destruct (Nat.lt_ge_cases c (copies p)) as [H|H].
  - exists 0, c, p. repeat split; auto.
  - destruct (IH (c - copies p)) as (i & k & q & Hq & Hk & E); [lia|].
    exists (S i), k, q. repeat split; auto. cbn [first_index]. lia.
Qed.
Lemma part_bound ps i k c : is_part ps i k c -> c < first_index ps (length ps).
Proof.
  intros (p & Hp & Hk & ->). pose proof (nth_error_lt _ _ _ Hp).
  pose proof (first_index_mono ps i (length ps) p Hp ltac:(lia) ltac:(lia)). lia.
Qed.

Lemma spread_nth {X} ps : forall (row : list X) i k p, length row = length ps -> nth_error ps i = Some p -> k < copies p ->
  nth_error (spread ps row) (first_index ps i + k) = nth_error row i.
Proof.
  induction ps as [|q t IH]; intros [|x row] [|i] k p HL Hi Hk; cbn [nth_error spread first_index length] in *; try discriminate.
  - injection Hi as ->. rewrite nth_error_app1 by (rewrite repeat_length; auto).
    rewrite (nth_error_nth' _ x) by (rewrite repeat_length; auto). f_equal. apply nth_repeat.
  - rewrite nth_error_app2 by (rewrite repeat_length; lia). rewrite repeat_length.
    replace (copies q + first_index t i + k - copies q) with (first_index t i + k) by lia.
    apply (IH row i k p); auto; lia.
Qed.
Lemma spread_length {X} ps : forall (row : list X), length row = length ps -> length (spread ps row) = first_index ps (length ps).
Proof.
  induction ps as [|q t IH]; intros [|x row] HL; cbn [spread first_index length] in *; try discriminate; auto.
  rewrite app_length, repeat_length, IH; lia.
Qed.

(** ** Continuation groups *)
Definition cont_ok (chs : list choice_data) : Prop :=
  forall c cd n, nth_error chs c = Some cd -> ch_cont cd = Some n -> n < length chs.

Lemma blocks_cont ps c cd n : nth_error (blocks 0 ps) c = Some cd -> ch_cont cd = Some n ->
  exists i k, is_part ps i k c /\ is_part ps i (S k) n.
Proof.
  intros H Hn. pose proof (nth_error_lt _ _ _ H) as HL. rewrite blocks_length in HL.
  destruct (part_exists _ _ HL) as (i & k & p & Hp & Hk & ->).
  rewrite (blocks_nth ps 0 i k p Hp Hk) in H. injection H as <-. cbn [mk_part ch_cont] in Hn.
  destruct (Nat.ltb_spec (k + 1) (copies p)); [|discriminate]. injection Hn as <-.
  exists i, k. split; exists p; repeat split; auto; lia.
Qed.
Lemma blocks_cont_ok ps : cont_ok (blocks 0 ps).
Proof.
  intros c cd n H Hn. destruct (blocks_cont _ _ _ _ H Hn) as (i & k & _ & H2).
  rewrite blocks_length. eapply part_bound; eauto.
Qed.

Definition cont_pairs (chs : list choice_data) (l : list nat) : list (nat * nat) :=
  flat_map (fun i => match nth_error chs i with
                     | Some c => match ch_cont c with Some n => [(i, n)] | None => [] end
                     | None => [] end) l.
Lemma cont_pairs_in chs l a b : In (a, b) (cont_pairs chs l) <->
  In a l /\ exists c, nth_error chs a = Some c /\ ch_cont c = Some b.
Proof.
  unfold cont_pairs. rewrite in_flat_map. split.
  - intros (x & Hx & H). destruct (nth_error chs x) as [c|] eqn:E; [|destruct H].
    destruct (ch_cont c) eqn:E2; [|destruct H]. destruct H as [H|[]]. injection H as -> ->. eauto.
  - intros (Hl & c & E & E2). exists a. rewrite E, E2. split; auto. left; auto.
Qed.

Definition cont_step (chs : list choice_data) (u : uf) (i : nat) : outcome uf :=
  let* c := get chs i in match ch_cont c with Some next => uf_join u i next | None => Ok u end.
Lemma cont_fold chs : forall l u, (forall i, In i l -> i < length chs) ->
  mfold (cont_step chs) l u = uf_joins (cont_pairs chs l) u.
Proof.
  unfold uf_joins. induction l as [|i l IH]; intros u HB; cbn [mfold]; auto.
  unfold cont_step at 1. unfold cont_pairs; cbn [flat_map]; fold (cont_pairs chs l).
  destruct (nth_error chs i) as [c|] eqn:E.
  - rewrite (proj2 (get_ok _ _ _) E). cbn [bind]. destruct (ch_cont c) as [n|].
    + cbn [app mfold fst snd]. destruct (uf_join u i n); cbn [bind]; auto. apply IH. intros; apply HB; right; auto.
    + cbn [app bind]. apply IH. intros; apply HB; right; auto.
  - exfalso. apply nth_error_None in E. specialize (HB i (or_introl eq_refl)). lia.
Qed.

Lemma part_linked ps i p : nth_error ps i = Some p ->
  forall k, k < copies p ->
  linked (cont_pairs (blocks 0 ps) (seq 0 (length (blocks 0 ps)))) (first_index ps i) (first_index ps i + k).
Proof.
  intros Hp. induction k as [|k IH]; intros Hk.
  - rewrite Nat.add_0_r. apply rst_refl.
  - refine (rst_trans _ _ _ _ _ (IH ltac:(lia)) _). apply rst_step. apply cont_pairs_in.
    pose proof (blocks_nth ps 0 i k p Hp ltac:(lia)) as HN. split.
    + apply in_seq. split; [lia|]. apply nth_error_lt in HN. lia.
    + eexists; split; [exact HN|]. cbn [mk_part ch_cont]. destruct (Nat.ltb_spec (k + 1) (copies p)); [|lia]. f_equal; lia.
Qed.

Lemma linked_part ps a b : linked (cont_pairs (blocks 0 ps) (seq 0 (length (blocks 0 ps)))) a b ->
  a = b \/ exists i k l, is_part ps i k a /\ is_part ps i l b.
Proof.
  induction 1 as [x y H| | |x y z H1 [->|(i & k & l & Ha & Hb)] H2 [->|(i' & k' & l' & Hc & Hd)]]; auto.
  - right. apply cont_pairs_in in H as (_ & c & E & E2). destruct (blocks_cont _ _ _ _ E E2) as (i & k & Hx & Hy). eauto.
  - destruct IHclos_refl_sym_trans as [->|(i & k & l & Ha & Hb)]; eauto 6.
  - right; eauto.
  - right; eauto.
  - right. destruct (is_part_unique _ _ _ _ _ _ Hb Hc) as [-> ->]. eauto.
Qed.

Lemma sorted_ext (l1 : list nat) : forall l2, StronglySorted lt l1 -> StronglySorted lt l2 ->
  (forall x, In x l1 <-> In x l2) -> l1 = l2.
Proof.
  induction l1 as [|a l1 IH]; intros [|b l2] H1 H2 HE; auto.
  - exfalso. apply (HE b). left; auto.
  - exfalso. apply (HE a). left; auto.
  - inversion H1; subst. inversion H2; subst. rewrite Forall_forall in *.
    assert (a = b).
    { destruct (proj1 (HE a) (or_introl eq_refl)) as [->|Ha]; auto.
      destruct (proj2 (HE b) (or_introl eq_refl)) as [->|Hb]; auto.
      specialize (H4 _ Hb). specialize (H6 _ Ha). lia. }
    subst b. f_equal. apply IH; auto. intros x. split; intros Hx.
    + destruct (proj1 (HE x) (or_intror Hx)) as [->|]; auto. specialize (H4 _ Hx). lia.
    + destruct (proj2 (HE x) (or_intror Hx)) as [->|]; auto. specialize (H6 _ Hx). lia.
Qed.

Lemma part_pairs_in : forall n off a b0 l,
  part_pairs off a (seq b0 n) = Ok l ->
  forall k, In k l <-> exists y, y < n /\
    (k = mkC ChoicesHaveSameChoosers a (TChoice (b0 + y)) ENone \/
     k = mkC ChoicesHaveOffset a (TChoice (b0 + y)) (EOffset (Z.of_nat (off + y)))).
Proof.
  induction n as [|n IH]; intros off a b0 l H k; cbn [seq part_pairs] in H.
  - injection H as <-. split; [intros []|]. intros (y & Hy & _). lia.
  - apply bind_ok in H as (z & Hz & H). apply bind_ok in H as (r & Hr & H). injection H as <-.
    unfold to_i32 in Hz. destruct (Z.of_nat off <=? i32_max)%Z; [|discriminate]. injection Hz as <-.
    cbn [In]. rewrite (IH _ _ _ _ Hr). split.
    + intros [<-|[<-|(y & Hy & E)]].
      * exists 0. rewrite !Nat.add_0_r. split; [lia|auto].
      * exists 0. rewrite !Nat.add_0_r. split; [lia|auto].
      * exists (S y). split; [lia|]. replace (b0 + S y) with (S b0 + y) by lia. replace (off + S y) with (S off + y) by lia. auto.
    + intros (y & Hy & E). destruct y as [|y].
      * rewrite !Nat.add_0_r in E. destruct E as [-> | ->]; auto.
      * right; right. exists y. split; [lia|]. replace (S b0 + y) with (b0 + S y) by lia. replace (S off + y) with (off + S y) by lia. auto.
Qed.

Lemma group_part_in : forall n a l, group_part_constraints (seq a n) = Ok l ->
  forall k, In k l <-> exists x y, x < y /\ y < n /\
    (k = mkC ChoicesHaveSameChoosers (a + x) (TChoice (a + y)) ENone \/
     k = mkC ChoicesHaveOffset (a + x) (TChoice (a + y)) (EOffset (Z.of_nat (y - x)))).
Proof.
  induction n as [|n IH]; intros a l H k; cbn [seq group_part_constraints] in H.
  - injection H as <-. split; [intros []|]. intros (x & y & _ & Hy & _). lia.
  - apply bind_ok in H as (u & Hu & H). apply bind_ok in H as (v & Hv & H). injection H as <-.
    rewrite in_app_iff, (part_pairs_in _ _ _ _ _ Hu), (IH _ _ Hv). split.
    + intros [(y & Hy & E)|(x & y & Hxy & Hy & E)].
      * exists 0, (S y). rewrite Nat.add_0_r. replace (a + S y) with (S a + y) by lia.
        replace (S y - 0) with (1 + y) by lia. repeat split; auto; lia.
      * exists (S x), (S y). replace (a + S x) with (S a + x) by lia. replace (a + S y) with (S a + y) by lia.
        repeat split; auto; lia.
    + intros (x & y & Hxy & Hy & E). destruct x as [|x].
      * left. exists (y - 1). rewrite Nat.add_0_r in E. replace (S a + (y - 1)) with (a + y) by lia.
        replace (1 + (y - 1)) with (y - 0) by lia. split; auto; lia.
      * right. exists x, (y - 1). replace (S a + x) with (a + S x) by lia. replace (S a + (y - 1)) with (a + y) by lia.
        replace (y - 1 - x) with (y - S x) by lia. repeat split; auto; lia.
Qed.

Lemma part_pairs_total : forall l off a, (Z.of_nat (off + length l) <= i32_max)%Z -> exists r, part_pairs off a l = Ok r.
Proof.
  induction l as [|b l IH]; intros off a H; cbn [part_pairs length] in *; eauto.
  unfold to_i32. destruct (Z.leb_spec (Z.of_nat off) i32_max); [|lia]. cbn [bind].
  destruct (IH (S off) a) as [r ->]; [lia|]. cbn. eauto.
Qed.
Lemma group_part_total : forall l, (Z.of_nat (length l) <= i32_max)%Z -> exists r, group_part_constraints l = Ok r.
Proof.
  induction l as [|b l IH]; intros H; cbn [group_part_constraints length] in *; eauto.
  destruct (part_pairs_total l 1 b) as [r ->]; [lia|]. cbn [bind].
  destruct IH as [v ->]; [lia|]. cbn. eauto.
Qed.

(** The part constraints are exactly those of pairs of parts of one declared choice. *)
Definition part_constraint (ps : list proto) (k : constraint) : Prop :=
  exists i x y cx cy, x < y /\ is_part ps i x cx /\ is_part ps i y cy /\
    (k = mkC ChoicesHaveSameChoosers cx (TChoice cy) ENone \/
     k = mkC ChoicesHaveOffset cx (TChoice cy) (EOffset (Z.of_nat (y - x)))).

Lemma compute_part_unfold chs : compute_part_constraints chs =
  let* u := uf_new (length chs) in
  let* u := mfold (cont_step chs) (seq 0 (length chs)) u in
  let* gs := uf_groups u in
  let* l := mmap group_part_constraints gs in
  Ok (List.concat l).
Proof. reflexivity. Qed.

Lemma sorted_seq a n : StronglySorted lt (seq a n).
Proof.
  revert a; induction n; intros a; cbn; constructor; auto. apply Forall_forall. intros x Hx. apply in_seq in Hx. lia.
Qed.

Lemma cont_group ps gs :
  is_groups (length (blocks 0 ps)) (linked (cont_pairs (blocks 0 ps) (seq 0 (length (blocks 0 ps))))) gs ->
  (forall g, In g gs -> exists i p, nth_error ps i = Some p /\ g = seq (first_index ps i) (copies p)) /\
  (forall i p, nth_error ps i = Some p -> In (seq (first_index ps i) (copies p)) gs).
Proof.
  intros HG.
  assert (K : forall g i p k, In g gs -> nth_error ps i = Some p -> k < copies p -> In (first_index ps i + k) g ->
              g = seq (first_index ps i) (copies p)).
  { intros g i p k Hg Hp Hk Hin.
    assert (HB : forall l, l < copies p -> first_index ps i + l < length (blocks 0 ps)).
    { intros l Hl. rewrite blocks_length. apply (part_bound ps i l). exists p; repeat split; auto. }
    apply sorted_ext; [apply (ig_sorted _ _ _ HG g Hg)|apply sorted_seq|].
    intros c. rewrite (ig_class _ _ _ HG g _ c Hg Hin), in_seq. split.
    - intros [Hc HL]. destruct (linked_part _ _ _ HL) as [<-|(i' & k' & l' & Hx & Hy)]; [lia|].
      assert (Hp' : is_part ps i k (first_index ps i + k)) by (exists p; auto).
      destruct (is_part_unique _ _ _ _ _ _ Hp' Hx) as [<- <-]. destruct Hy as (q & Hq & Hl & ->).
      replace q with p in * by congruence. lia.
    - intros Hc. split.
      + replace c with (first_index ps i + (c - first_index ps i)) by lia. apply HB. lia.
      + refine (rst_trans _ _ _ _ _ (rst_sym _ _ _ _ (part_linked ps i p Hp k Hk)) _).
        replace c with (first_index ps i + (c - first_index ps i)) by lia. apply (part_linked ps i p Hp); lia. }
  split.
  - intros g Hg. pose proof (ig_nonempty _ _ _ HG g Hg) as Hne. destruct g as [|c g]; [congruence|].
    pose proof (ig_range _ _ _ HG _ c Hg (or_introl eq_refl)) as Hc. rewrite blocks_length in Hc.
    destruct (part_exists _ _ Hc) as (i & k & p & Hp & Hk & E).
    exists i, p. split; auto. apply (K _ i p k); auto. left; auto.
  - intros i p Hp. pose proof (copies_pos p).
    destruct (ig_cover _ _ _ HG (first_index ps i + 0)) as (g & Hg & Hin).
    { rewrite blocks_length. apply (part_bound ps i 0). exists p; repeat split; auto. }
    rewrite <- (K g i p 0 Hg Hp ltac:(lia) Hin). auto.
Qed.

Lemma cont_pairs_bound ps a b : In (a, b) (cont_pairs (blocks 0 ps) (seq 0 (length (blocks 0 ps)))) ->
  a < length (blocks 0 ps) /\ b < length (blocks 0 ps).
Proof.
  intros H. apply cont_pairs_in in H as (Ha & c & E & E2). apply in_seq in Ha. split; [lia|].
  eapply blocks_cont_ok; eauto.
Qed.

Lemma compute_part_ok ps l : compute_part_constraints (blocks 0 ps) = Ok l ->
  forall k, In k l <-> part_constraint ps k.
Proof.
  rewrite compute_part_unfold. intros H. apply bind_ok in H as (u & H1 & H). apply bind_ok in H as (u' & H2 & H).
  apply bind_ok in H as (gs & H3 & H). apply bind_ok in H as (ls & H4 & H). injection H as <-.
  rewrite cont_fold in H2 by (intros i Hi; apply in_seq in Hi; lia).
  apply (uf_joins_conn _ _ _ _ _ (uf_new_conn _ _ H1)) in H2. cbn [app] in H2.
  destruct (uf_groups_spec _ _ _ H2) as (gs' & E & G). rewrite E in H3. injection H3 as <-.
  destruct (cont_group ps gs' G) as [G1 G2]. intros k. rewrite in_concat. split.
  - intros (x & Hx & Hk). destruct (mmap_in _ _ _ _ H4 Hx) as (g & Hg & Eg).
    destruct (G1 g Hg) as (i & p & Hp & ->). pose proof (proj1 (group_part_in _ _ _ Eg k) Hk) as (a & b & Hab & Hb & Ek).
    exists i, a, b, (first_index ps i + a), (first_index ps i + b).
    split; [auto|]. split; [exists p; repeat split; auto; lia|]. split; [exists p; repeat split; auto; lia|]. auto.
  - intros (i & a & b & ca & cb & Hab & (p & Hp & Ha & ->) & (q & Hq & Hb & ->) & Ek).
    replace q with p in * by congruence.
    destruct (mmap_in_fwd _ _ _ _ H4 (G2 i p Hp)) as (x & Hx & Eg). exists x. split; auto.
    apply (group_part_in _ _ _ Eg). eauto 6.
Qed.

Lemma compute_part_total ps : (Z.of_nat (length (blocks 0 ps)) <= i32_max)%Z ->
  exists l, compute_part_constraints (blocks 0 ps) = Ok l.
Proof.
  intros Hn. rewrite compute_part_unfold. destruct (uf_new_total _ Hn) as [u Hu]. rewrite Hu. cbn [bind].
  rewrite cont_fold by (intros i Hi; apply in_seq in Hi; lia).
  destruct (uf_joins_ok (length (blocks 0 ps)) (cont_pairs (blocks 0 ps) (seq 0 (length (blocks 0 ps)))) u) as (u' & Hu' & _).
  { apply uf_new_inv; auto. } { intros a b; apply cont_pairs_bound. }
  rewrite Hu'. cbn [bind].
  apply (uf_joins_conn _ _ _ _ _ (uf_new_conn _ _ Hu)) in Hu'. cbn [app] in Hu'.
  destruct (uf_groups_spec _ _ _ Hu') as (gs & -> & G). cbn [bind].
  destruct (mmap_ok group_part_constraints gs) as [ls ->]; [|cbn; eauto].
  intros g Hg. apply group_part_total. destruct (cont_group ps gs G) as [G1 _].
  destruct (G1 g Hg) as (i & p & Hp & ->). rewrite seq_length.
  pose proof (nth_error_lt _ _ _ Hp). pose proof (first_index_mono ps i (length ps) p Hp ltac:(lia) ltac:(lia)) as HM.
  rewrite blocks_length in Hn. lia.
Qed.
