(** Proofs about schedulings, assignments and scoring. *)
From Verif Require Import Base M_Data M_Scoring Spec.
From Coq Require Import Permutation Sorting.Sorted.

(** ** Small list facts *)

Lemma nth_error_in_range {A} (l : list A) i : i < length l -> exists x, nth_error l i = Some x.
Proof.
  intros H. destruct (nth_error l i) eqn:E; eauto.
  apply nth_error_None in E; lia.
Qed.

Lemma nth_error_lt {A} (l : list A) i x : nth_error l i = Some x -> i < length l.
Proof. intros H. apply nth_error_Some; congruence. Qed.

(** Sorting *)
Lemma insert_nat_perm x l : Permutation (x :: l) (insert_nat x l).
Proof.
  induction l as [|h t IH]; cbn; auto.
  destruct (x <=? h); auto.
  rewrite perm_swap. constructor. exact IH.
Qed.

Lemma sort_nat_perm l : Permutation l (sort_nat l).
Proof.
  induction l as [|h t IH]; cbn; auto.
  rewrite <- insert_nat_perm. constructor; exact IH.
Qed.

Lemma insert_nat_sorted x l : LocallySorted le l -> LocallySorted le (insert_nat x l).
Proof.
  induction l as [|h t IH]; cbn; intros H; [constructor|].
  destruct (Nat.leb_spec x h).
  - constructor; auto.
  - inversion H; subst; cbn in *.
    + constructor; [constructor|lia].
    + destruct (Nat.leb_spec x b).
      * constructor; [constructor; auto|lia].
      * constructor; auto. 
Qed.

Lemma sort_nat_sorted l : LocallySorted le (sort_nat l).
Proof. induction l; cbn; [constructor|]. apply insert_nat_sorted; auto. Qed.

Lemma sorted_perm_eq (l1 l2 : list nat) :
  LocallySorted le l1 -> LocallySorted le l2 -> Permutation l1 l2 -> l1 = l2.
Proof.
  intros H1 H2. apply Sorted_LocallySorted_iff in H1, H2.
  apply Sorted_StronglySorted in H1; [|intros x y z; lia].
  apply Sorted_StronglySorted in H2; [|intros x y z; lia].
  revert l2 H2; induction H1 as [|a l1 H1 IH Ha]; intros l2 H2 HP.
  - symmetry; apply Permutation_nil; auto.
  - destruct H2 as [|b l2 H2 Hb].
    + apply Permutation_sym, Permutation_nil in HP; discriminate.
    + assert (a = b) as ->.
      { rewrite Forall_forall in Ha, Hb.
        assert (In a (b :: l2)) as Hin1 by (eapply Permutation_in; [exact HP | left; auto]).
        assert (In b (a :: l1)) as Hin2
          by (eapply Permutation_in; [apply Permutation_sym; exact HP | left; auto]).
        destruct Hin1 as [?|Hin1]; auto. destruct Hin2 as [?|Hin2]; auto.
        specialize (Hb _ Hin1). specialize (Ha _ Hin2). lia. }
      f_equal. apply IH; auto. eapply Permutation_cons_inv; eauto.
Qed.

Lemma sort_nat_eq_iff l1 l2 : sort_nat l1 = sort_nat l2 <-> Permutation l1 l2.
Proof.
  split; intros H.
  - rewrite (sort_nat_perm l1), H, <- sort_nat_perm; auto.
  - apply sorted_perm_eq; try apply sort_nat_sorted.
    rewrite <- !sort_nat_perm; auto.
Qed.

Lemma list_nat_eqb_spec a b : list_nat_eqb a b = true <-> a = b.
Proof.
  revert b; induction a as [|x a IH]; intros [|y b]; cbn; split; intros H; try congruence.
  - apply andb_true_iff in H as [H1 H2]. apply Nat.eqb_eq in H1. apply IH in H2. congruence.
  - injection H as -> ->. rewrite Nat.eqb_refl; cbn; apply IH; auto.
Qed.

(** ** Scheduling constraints *)

Definition in_slotb (S : scheduling) (s c : nat) : bool :=
  match nth_error S c with Some x => opt_nat_eqb x (Some s) | None => false end.

Lemma in_slotb_spec S s c : in_slotb S s c = true <-> scheduled_in S c s.
Proof.
  unfold in_slotb, scheduled_in. destruct (nth_error S c) as [x|].
  - rewrite opt_nat_eqb_spec; split; congruence.
  - split; discriminate.
Qed.

Lemma count_fold (S : scheduling) s l n :
  (forall c, In c l -> c < length S) ->
  mfold (fun n c => let* x := slot_of S c in
                    Ok (if opt_nat_eqb x (Some s) then Datatypes.S n else n)) l n
  = Ok (n + length (filter (in_slotb S s) l)).
Proof.
  revert n; induction l as [|c l IH]; intros n H; cbn [mfold filter].
  - cbn. rewrite Nat.add_0_r; auto.
  - destruct (nth_error_in_range S c) as [x Hx]; [apply H; left; auto|].
    unfold slot_of, get at 1. rewrite Hx. cbn [bind].
    rewrite IH by (intros; apply H; right; auto).
    assert (in_slotb S s c = opt_nat_eqb x (Some s)) as -> by (unfold in_slotb; rewrite Hx; auto).
    destruct (opt_nat_eqb x (Some s)); cbn [length]; f_equal; lia.
Qed.

Lemma count_in_slot_ok d S s :
  length S = n_choices d ->
  count_in_slot d S s = Ok (length (filter (in_slotb S s) (seq 0 (n_choices d)))).
Proof.
  intros HL. unfold count_in_slot. rewrite count_fold; auto.
  intros c Hc. apply in_seq in Hc. lia.
Qed.

Lemma cardinal_unique P n m : cardinal P n -> cardinal P m -> n = m.
Proof.
  intros (l1 & N1 & H1 & <-) (l2 & N2 & H2 & <-).
  apply Permutation_length, NoDup_Permutation; auto.
  intros x; rewrite H1, H2; tauto.
Qed.

Lemma cardinal_slot d S s :
  length S = n_choices d ->
  cardinal (fun c => scheduled_in S c s) (length (filter (in_slotb S s) (seq 0 (n_choices d)))).
Proof.
  intros HL. exists (filter (in_slotb S s) (seq 0 (n_choices d))).
  split; [apply NoDup_filter, seq_NoDup|]. split; auto.
  intros c. rewrite filter_In, in_slotb_spec, in_seq. split; [tauto|].
  intros H; split; auto. apply nth_error_lt in H. lia.
Qed.

Lemma limit_ok_spec o a b : limit_ok o a b = true <-> rel_holds o a b.
Proof.
  destruct o; cbn; rewrite ?negb_true_iff.
  - apply N.eqb_eq.
  - rewrite N.ltb_lt; lia.
  - rewrite N.leb_le; lia.
  - rewrite N.eqb_neq; tauto.
  - apply N.leb_le.
  - apply N.ltb_lt.
Qed.

Lemma filter_length_le {A} (f : A -> bool) l : length (filter f l) <= length l.
Proof. induction l; cbn; auto. destruct (f a); cbn; lia. Qed.

Lemma sat_u32_small n : (N.of_nat n <= u32_max)%N -> sat_u32 n = N.of_nat n.
Proof. unfold sat_u32; lia. Qed.

Lemma slot_of_get S c x : nth_error S c = Some x -> slot_of S c = Ok x.
Proof. unfold slot_of, get; intros ->; auto. Qed.

Lemma to_i32_ok n z : to_i32 n = Ok z -> z = Z.of_nat n.
Proof. unfold to_i32. destruct (Z.leb _ _); congruence. Qed.

(** Partial correctness of one scheduling-constraint test. *)
Lemma sat_sched1_correct d S k b :
  fits d -> length S = n_choices d -> sched_shape d k ->
  sat_sched1 d S k = Ok b -> (b = true <-> sched_means S k).
Proof.
  intros HF HL HS H.
  destruct k as [kd l r e]; unfold sched_shape, sat_sched1, sched_means in *; cbn [c_kind c_left c_right c_extra] in *.
  destruct kd; try contradiction.
  - destruct r; try contradiction. destruct HS as [H1 H2].
    destruct (nth_error_in_range S l) as [x Hx]; [unfold n_choices in *; lia|].
    rewrite (slot_of_get _ _ _ Hx) in H; cbn in H. injection H as <-.
    unfold scheduled_in. rewrite opt_nat_eqb_spec, Hx. split; congruence.
  - destruct r; try contradiction. destruct HS as [H1 H2].
    destruct (nth_error_in_range S l) as [x Hx]; [unfold n_choices in *; lia|].
    rewrite (slot_of_get _ _ _ Hx) in H; cbn in H. injection H as <-.
    unfold scheduled_in. rewrite negb_true_iff.
    destruct (opt_nat_eqb x (Some s)) eqn:E.
    + apply opt_nat_eqb_spec in E; split; [discriminate|]. rewrite Hx, E. congruence.
    + split; auto. intros _ H. rewrite Hx in H. injection H as ->.
      rewrite (proj2 (opt_nat_eqb_spec _ _) eq_refl) in E; discriminate.
  - destruct r; try contradiction. destruct HS as [H1 H2].
    destruct (nth_error_in_range S l) as [x Hx]; [unfold n_choices in *; lia|].
    destruct (nth_error_in_range S c) as [y Hy]; [unfold n_choices in *; lia|].
    rewrite (slot_of_get _ _ _ Hx) in H; cbn in H. rewrite (slot_of_get _ _ _ Hy) in H; cbn in H.
    injection H as <-. rewrite opt_nat_eqb_spec. unfold scheduled_in.
    rewrite Hx, Hy. split.
    + intros ->; tauto.
    + intros H. destruct x as [s|], y as [s'|]; auto.
      * specialize (H s). destruct H as [H _]. specialize (H eq_refl). congruence.
      * specialize (H s). destruct H as [H _]. specialize (H eq_refl). congruence.
      * specialize (H s'). destruct H as [_ H]. specialize (H eq_refl). congruence.
  - destruct r; try contradiction. destruct HS as [H1 H2].
    destruct (nth_error_in_range S l) as [x Hx]; [unfold n_choices in *; lia|].
    destruct (nth_error_in_range S c) as [y Hy]; [unfold n_choices in *; lia|].
    rewrite (slot_of_get _ _ _ Hx) in H; cbn in H.
    unfold scheduled_in. rewrite Hx, Hy.
    destruct x as [s|]; cbn in H.
    + rewrite (slot_of_get _ _ _ Hy) in H; cbn in H.
      destruct y as [s'|]; cbn in H.
      * injection H as <-. rewrite negb_true_iff, Nat.eqb_neq. split.
        -- intros Hne t [E1 E2]. congruence.
        -- intros H E. apply (H s). subst; auto.
      * injection H as <-. split; auto. intros _ t [_ E]; discriminate.
    + injection H as <-. split; auto. intros _ t [E _]; discriminate.
  - destruct r; try contradiction. destruct e; try contradiction. destruct HS as [H1 H2].
    destruct (nth_error_in_range S l) as [x Hx]; [unfold n_choices in *; lia|].
    destruct (nth_error_in_range S c) as [y Hy]; [unfold n_choices in *; lia|].
    rewrite (slot_of_get _ _ _ Hx) in H; cbn in H. rewrite (slot_of_get _ _ _ Hy) in H; cbn in H.
    unfold not_held, scheduled_in. rewrite Hx, Hy.
    destruct x as [s|], y as [s'|].
    + apply bind_ok in H as (r' & Hr & H). apply bind_ok in H as (l' & Hl & H).
      cbn in H. injection H as <-. apply to_i32_ok in Hr, Hl. subst.
      rewrite Z.eqb_eq. split.
      * intros E. right. exists s, s'. repeat split; auto. lia.
      * intros [[E _]|(a & a' & E1 & E2 & E)]; [discriminate|].
        injection E1 as <-. injection E2 as <-. lia.
    + injection H as <-. split; [discriminate|].
      intros [[E _]|(a & a' & E1 & E2 & E)]; discriminate.
    + injection H as <-. split; [discriminate|].
      intros [[_ E]|(a & a' & E1 & E2 & E)]; discriminate.
    + injection H as <-. split; auto.
  - destruct r; try contradiction. destruct e; try contradiction. destruct HS as [H1 H2].
    rewrite count_in_slot_ok in H by auto. cbn in H. injection H as <-.
    pose proof (filter_length_le (in_slotb S l) (seq 0 (n_choices d))) as Hle.
    rewrite seq_length in Hle.
    rewrite sat_u32_small.
    2:{ destruct HF as [_ F _]. unfold n_choices, u32_max in *; lia. }
    rewrite limit_ok_spec. pose proof (cardinal_slot d S l HL) as HC. split.
    + intros Hr. eexists; split; [exact HC | exact Hr].
    + intros (m & Hm & Hr). rewrite (cardinal_unique _ _ _ HC Hm). exact Hr.
Qed.

(** ... and it never panics on schedulings whose slots are in range. *)
Lemma sat_sched1_total d S k :
  fits d -> length S = n_choices d -> (forall c s, scheduled_in S c s -> s < n_slots d) ->
  sched_shape d k -> exists b, sat_sched1 d S k = Ok b.
Proof.
  intros HF HL HR HS.
  assert (Hi : forall c s, scheduled_in S c s -> to_i32 s = Ok (Z.of_nat s)).
  { intros c s H. specialize (HR c s H). unfold to_i32.
    destruct (Z.leb_spec (Z.of_nat s) i32_max); auto.
    destruct HF as [_ _ F]. unfold n_slots in *; lia. }
  destruct k as [kd l r e]; unfold sched_shape, sat_sched1 in *; cbn [c_kind c_left c_right c_extra] in *.
  destruct kd; try contradiction;
    (destruct r; try contradiction); try (destruct e; try contradiction);
    destruct HS as [H1 H2];
    try (destruct (nth_error_in_range S l) as [x Hx]; [unfold n_choices in *; lia|];
         rewrite (slot_of_get _ _ _ Hx); cbn);
    try (destruct (nth_error_in_range S c) as [y Hy]; [unfold n_choices in *; lia|]).
  all: try (rewrite (slot_of_get _ _ _ Hy); cbn).
  all: eauto.
  all: try (destruct x as [s|]; cbn; eauto).
  all: try (destruct y as [s'|]; cbn; eauto).
  - rewrite (Hi _ _ Hy); cbn. rewrite (Hi _ _ Hx); cbn. eauto.
  - rewrite count_in_slot_ok by auto. cbn. eauto.
Qed.

Lemma sat_sched_correct d S b :
  fits d -> wf_input d -> length S = n_choices d ->
  sat_sched d S = Ok b -> (b = true <-> forall k, In k (i_sched d) -> sched_means S k).
Proof.
  intros HF HW HL. unfold sat_sched.
  assert (Hs : forall k, In k (i_sched d) -> sched_shape d k) by (apply wf_sched; auto).
  revert Hs b. generalize (i_sched d). intros l; induction l as [|k l IH]; cbn; intros Hs b H.
  - injection H as <-. split; auto. intros _ k [].
  - apply bind_ok in H as (b1 & H1 & H).
    apply sat_sched1_correct in H1; auto.
    destruct b1.
    + apply IH in H; auto. rewrite H. split.
      * intros Hl k' [<-|Hk]; auto. apply H1; auto.
      * intros Hl k' Hk; auto.
    + injection H as <-. split; [discriminate|].
      intros Hl. assert (false = true) by (apply H1; auto). discriminate.
Qed.

Lemma sat_sched_total d S :
  fits d -> wf_input d -> length S = n_choices d ->
  (forall c s, scheduled_in S c s -> s < n_slots d) -> exists b, sat_sched d S = Ok b.
Proof.
  intros. apply mforall_ok. intros k Hk. apply sat_sched1_total; auto. apply wf_sched; auto.
Qed.

(** ** Rows of an assignment *)

Lemma mmap_get {B} (l : list B) :
  mmap (fun s => get l s) (seq 0 (length l)) = Ok l.
Proof.
  assert (G : forall k m, k + m = length l ->
    mmap (fun s => get l s) (seq k m) = Ok (skipn k l)).
  { intros k m; revert k; induction m as [|m IH]; intros k H; cbn.
    - rewrite skipn_all2 by lia; auto.
    - destruct (nth_error_in_range l k) as [x Hx]; [lia|].
      unfold get at 1. rewrite Hx; cbn. rewrite IH by lia. cbn. f_equal.
      symmetry. clear - Hx. revert k Hx. induction l as [|h t IHl]; intros [|k] Hx; cbn in *; try discriminate.
      + congruence.
      + apply IHl in Hx. rewrite Hx. auto. }
  rewrite G by auto. auto.
Qed.

Section Rows.
Variable d : input_data.
Variable A : assignment.
Hypothesis HdimA : length A = n_choosers d.
Hypothesis HdimR : forall p row, nth_error A p = Some row -> length row = n_slots d.

Lemma choice_of_row p row s :
  nth_error A p = Some row -> choice_of A p s = get row s.
Proof. intros H. unfold choice_of, get at 1. rewrite H; cbn; auto. Qed.

Lemma choices_ordered_ok p row :
  nth_error A p = Some row -> choices_ordered d A p = Ok (sort_nat row).
Proof.
  intros H. unfold choices_ordered.
  assert (E : mmap (fun s => choice_of A p s) (seq 0 (n_slots d)) = Ok row).
  { rewrite <- (HdimR _ _ H). etransitivity; [|apply mmap_get].
    unfold choice_of, get at 1. rewrite H. reflexivity. }
  rewrite E; auto.
Qed.

Lemma is_in_choice_ok p row c :
  nth_error A p = Some row -> is_in_choice d A p c = Ok (existsb (fun x => x =? c) row).
Proof.
  intros H. unfold is_in_choice. rewrite <- (HdimR _ _ H).
  assert (G : forall k m, k + m = length row ->
    mexists (fun s => let* x := choice_of A p s in Ok (x =? c)) (seq k m)
      = Ok (existsb (fun x => x =? c) (skipn k row))).
  { intros k m; revert k; induction m as [|m IH]; intros k Hk; cbn [seq mexists].
    - rewrite skipn_all2 by lia; auto.
    - destruct (nth_error_in_range row k) as [x Hx]; [lia|].
      rewrite (choice_of_row _ _ _ H). unfold get. rewrite Hx; cbn.
      assert (skipn k row = x :: skipn (S k) row) as ->.
      { clear - Hx. revert k Hx. induction row as [|h t IHl]; intros [|k] Hx; cbn in *; try discriminate.
        + congruence.
        + apply IHl in Hx. rewrite Hx. auto. }
      rewrite IH by lia. cbn [existsb]. destruct (x =? c); auto. }
  rewrite G by auto. auto.
Qed.

(** the multiset of choosers of a choice *)
Definition chooser_multi (c p : nat) : list nat :=
  match nth_error A p with Some row => repeat p (count_occ Nat.eq_dec row c) | None => [] end.

Lemma repeat_snoc {B} (x : B) n : repeat x n ++ [x] = repeat x (S n).
Proof. induction n; cbn; auto. rewrite IHn; auto. Qed.

Lemma choosers_inner p row c acc :
  nth_error A p = Some row ->
  mfold (fun acc' s => let* x := choice_of A p s in
                       Ok (if x =? c then acc' ++ [p] else acc'))
        (seq 0 (n_slots d)) acc = Ok (acc ++ chooser_multi c p).
Proof.
  intros H. unfold chooser_multi. rewrite H. rewrite <- (HdimR _ _ H).
  assert (G : forall k m acc, k + m = length row ->
    mfold (fun acc' s => let* x := choice_of A p s in
                       Ok (if x =? c then acc' ++ [p] else acc')) (seq k m) acc
      = Ok (acc ++ repeat p (count_occ Nat.eq_dec (skipn k row) c))).
  { intros k m; revert k; induction m as [|m IH]; intros k acc' Hk; cbn [seq mfold].
    - rewrite skipn_all2 by lia; cbn. rewrite app_nil_r; auto.
    - destruct (nth_error_in_range row k) as [x Hx]; [lia|].
      rewrite (choice_of_row _ _ _ H). unfold get. rewrite Hx; cbn [bind].
      assert (skipn k row = x :: skipn (S k) row) as ->.
      { clear - Hx. revert k Hx. induction row as [|h t IHl]; intros [|k] Hx; cbn in *; try discriminate.
        + congruence.
        + apply IHl in Hx. rewrite Hx. auto. }
      rewrite IH by lia. cbn [count_occ].
      destruct (Nat.eqb_spec x c) as [->|Hne].
      + destruct (Nat.eq_dec c c); [|congruence]. cbn. rewrite <- app_assoc. auto.
      + destruct (Nat.eq_dec x c); [congruence|]. auto. }
  rewrite G by auto. auto.
Qed.

Lemma choosers_ordered_ok c :
  choosers_ordered d A c = Ok (sort_nat (flat_map (chooser_multi c) (seq 0 (n_choosers d)))).
Proof.
  unfold choosers_ordered.
  assert (G : forall l acc, (forall p, In p l -> p < n_choosers d) ->
    mfold (fun acc p =>
              mfold (fun acc' s => let* x := choice_of A p s in
                                   Ok (if x =? c then acc' ++ [p] else acc'))
                    (seq 0 (n_slots d)) acc) l acc
    = Ok (acc ++ flat_map (chooser_multi c) l)).
  { induction l as [|p l IH]; intros acc Hl; cbn [mfold flat_map].
    - rewrite app_nil_r; auto.
    - destruct (nth_error_in_range A p) as [row Hrow].
      { rewrite HdimA. apply Hl; left; auto. }
      rewrite (choosers_inner _ _ _ _ Hrow). cbn [bind].
      rewrite IH by (intros; apply Hl; right; auto). rewrite app_assoc; auto. }
  rewrite G. { cbn. auto. }
  intros p Hp. apply in_seq in Hp; lia.
Qed.

Definition attendsb (c p : nat) : bool :=
  match nth_error A p with Some row => existsb (fun x => x =? c) row | None => false end.

Lemma existsb_eqb_In c row : existsb (fun x => x =? c) row = true <-> In c row.
Proof.
  rewrite existsb_exists. split.
  - intros (x & Hx & E). apply Nat.eqb_eq in E. subst; auto.
  - intros H. exists c. split; auto. apply Nat.eqb_refl.
Qed.

Lemma attendsb_spec c p : attendsb c p = true <-> attends A p c.
Proof.
  unfold attendsb, attends. destruct (nth_error A p) as [row|].
  - rewrite existsb_eqb_In. split; [eauto|]. intros (r & E & H). injection E as <-; auto.
  - split; [discriminate|]. intros (r & E & _); discriminate.
Qed.

Lemma attends_lt p c : attends A p c -> p < n_choosers d.
Proof. intros (row & H & _). apply nth_error_lt in H. lia. Qed.

Definition rows_nodup : Prop := forall p row, nth_error A p = Some row -> NoDup row.

Lemma chooser_multi_filter c :
  rows_nodup ->
  flat_map (chooser_multi c) (seq 0 (n_choosers d)) = filter (attendsb c) (seq 0 (n_choosers d)).
Proof.
  intros HN. generalize (seq 0 (n_choosers d)). intros l. induction l as [|p l IH]; cbn; auto.
  rewrite IH. unfold chooser_multi, attendsb.
  destruct (nth_error A p) as [row|] eqn:E; cbn; auto.
  specialize (HN _ _ E).
  destruct (existsb (fun x => x =? c) row) eqn:Ex.
  - apply existsb_eqb_In in Ex.
    assert (count_occ Nat.eq_dec row c = 1) as ->; auto.
    apply NoDup_count_occ'; auto.
  - assert (~ In c row) as Hn by (rewrite <- existsb_eqb_In; congruence).
    assert (count_occ Nat.eq_dec row c = 0) as -> by (apply count_occ_not_In; auto); auto.
Qed.

Lemma choosers_eq_iff c c' :
  rows_nodup ->
  (sort_nat (flat_map (chooser_multi c) (seq 0 (n_choosers d))) =
   sort_nat (flat_map (chooser_multi c') (seq 0 (n_choosers d)))
   <-> forall p, attends A p c <-> attends A p c').
Proof.
  intros HN. rewrite sort_nat_eq_iff, !chooser_multi_filter by auto. split.
  - intros HP p. rewrite <- !attendsb_spec.
    assert (Hin : forall x y, Permutation (filter (attendsb x) (seq 0 (n_choosers d)))
                                (filter (attendsb y) (seq 0 (n_choosers d))) ->
                  attendsb x p = true -> attendsb y p = true).
    { intros x y HPxy Hx.
      assert (In p (filter (attendsb x) (seq 0 (n_choosers d)))) as Hi.
      { apply filter_In; split; auto. apply in_seq.
        pose proof (attends_lt p x (proj1 (attendsb_spec _ _) Hx)). lia. }
      eapply Permutation_in in Hi; [|exact HPxy]. apply filter_In in Hi; tauto. }
    split; apply Hin; auto. apply Permutation_sym; auto.
  - intros H. apply NoDup_Permutation; try apply NoDup_filter, seq_NoDup.
    intros p. rewrite !filter_In, !attendsb_spec, H. tauto.
Qed.

Lemma choices_eq_iff p p' row row' :
  rows_nodup -> nth_error A p = Some row -> nth_error A p' = Some row' ->
  (sort_nat row = sort_nat row' <-> forall c, attends A p c <-> attends A p' c).
Proof.
  intros HN H H'. rewrite sort_nat_eq_iff.
  assert (Hiff : forall q r, nth_error A q = Some r -> forall c, attends A q c <-> In c r).
  { intros q r Hq c. unfold attends. split; [|eauto]. intros (r' & E & Hc). congruence. }
  split.
  - intros HP c. rewrite (Hiff _ _ H), (Hiff _ _ H').
    split; apply Permutation_in; auto. apply Permutation_sym; auto.
  - intros He. apply NoDup_Permutation; [eapply HN; eauto .. |].
    intros c. rewrite <- (Hiff _ _ H), <- (Hiff _ _ H'). auto.
Qed.

Lemma sat_asg1_correct S k :
  length S = n_choices d -> asg_shape d k -> rows_nodup ->
  exists b, sat_asg1 d S A k = Ok b /\ (b = true <-> asg_means S A k).
Proof.
  intros HL HS HN.
  assert (Hrow : forall p, p < length (i_choosers d) -> exists row, nth_error A p = Some row).
  { intros p Hp. apply nth_error_in_range. rewrite HdimA. exact Hp. }
  assert (Hslot : forall c, c < length (i_choices d) -> exists x, nth_error S c = Some x).
  { intros p Hp. apply nth_error_in_range. rewrite HL. exact Hp. }
  destruct k as [kd l r e]; unfold asg_shape, sat_asg1, asg_means in *; cbn [c_kind c_left c_right c_extra] in *.
  destruct kd; try contradiction; (destruct r; try contradiction); destruct HS as [H1 H2]; cbn [con_other_choice con_other_chooser c_right bind].
  - destruct (Hslot c H2) as [y Hy]. destruct (Hslot l H1) as [x Hx].
    rewrite (slot_of_get _ _ _ Hy); cbn [bind].
    unfold held, scheduled_in. rewrite Hx, Hy.
    destruct y as [y|]; cbn.
    2:{ exists true; split; auto. split; auto. intros _ _ [s E]; discriminate. }
    rewrite (slot_of_get _ _ _ Hx); cbn [bind].
    destruct x as [x|]; cbn.
    2:{ exists true; split; auto. split; auto. intros _ [s E]; discriminate. }
    rewrite !choosers_ordered_ok; cbn. eexists; split; [reflexivity|].
    rewrite list_nat_eqb_spec, choosers_eq_iff by auto.
    split; auto. intros H; apply H; eauto.
  - destruct (Hslot c H2) as [y Hy].
    rewrite (slot_of_get _ _ _ Hy); cbn [bind].
    unfold held, scheduled_in. rewrite Hy.
    destruct y as [y|]; cbn.
    2:{ exists true; split; auto. split; auto. intros _ [s E]; discriminate. }
    destruct (Hrow l H1) as [row Hr]. rewrite (is_in_choice_ok _ _ _ Hr).
    eexists; split; [reflexivity|]. rewrite existsb_eqb_In.
    unfold attends. rewrite Hr. split; [eauto|]. intros H.
    destruct H as (r' & E & Hi); eauto. congruence.
  - destruct (Hrow l H1) as [row Hr]. rewrite (is_in_choice_ok _ _ _ Hr); cbn.
    eexists; split; [reflexivity|].
    rewrite negb_true_iff, <- not_true_iff_false, existsb_eqb_In.
    unfold attends. rewrite Hr. split.
    + intros Hn (r' & E & Hi); apply Hn; congruence.
    + intros Hn Hi; apply Hn; eauto.
  - destruct (Hrow l H1) as [row Hr]. destruct (Hrow p H2) as [row' Hr'].
    rewrite (choices_ordered_ok _ _ Hr), (choices_ordered_ok _ _ Hr'); cbn.
    eexists; split; [reflexivity|].
    rewrite list_nat_eqb_spec. apply choices_eq_iff; auto.
Qed.

(** Even before the one-choice-per-slot rule is known the checks return. *)
Lemma sat_asg1_total S k :
  length S = n_choices d -> asg_shape d k -> exists b, sat_asg1 d S A k = Ok b.
Proof.
  intros HL HS.
  assert (Hrow : forall p, p < length (i_choosers d) -> exists row, nth_error A p = Some row).
  { intros p Hp. apply nth_error_in_range. rewrite HdimA. exact Hp. }
  assert (Hslot : forall c, c < length (i_choices d) -> exists x, nth_error S c = Some x).
  { intros p Hp. apply nth_error_in_range. rewrite HL. exact Hp. }
  destruct k as [kd l r e]; unfold asg_shape, sat_asg1 in *; cbn [c_kind c_left c_right c_extra] in *.
  destruct kd; try contradiction; (destruct r; try contradiction); destruct HS as [H1 H2]; cbn [con_other_choice con_other_chooser c_right bind].
  - destruct (Hslot c H2) as [y Hy]. destruct (Hslot l H1) as [x Hx].
    rewrite (slot_of_get _ _ _ Hy); cbn [bind]. destruct y; cbn; eauto.
    rewrite (slot_of_get _ _ _ Hx); cbn [bind]. destruct x; cbn; eauto.
    rewrite !choosers_ordered_ok; cbn. eauto.
  - destruct (Hslot c H2) as [y Hy].
    rewrite (slot_of_get _ _ _ Hy); cbn [bind]. destruct y; cbn; eauto.
    destruct (Hrow l H1) as [row Hr]. rewrite (is_in_choice_ok _ _ _ Hr). eauto.
  - destruct (Hrow l H1) as [row Hr]. rewrite (is_in_choice_ok _ _ _ Hr); cbn. eauto.
  - destruct (Hrow l H1) as [row Hr]. destruct (Hrow p H2) as [row' Hr'].
    rewrite (choices_ordered_ok _ _ Hr), (choices_ordered_ok _ _ Hr'); cbn. eauto.
Qed.

End Rows.

Lemma sat_asg_correct d S A :
  wf_input d -> length S = n_choices d -> length A = n_choosers d ->
  (forall p row, nth_error A p = Some row -> length row = n_slots d) -> rows_nodup A ->
  exists b, sat_asg d S A = Ok b /\ (b = true <-> forall k, In k (i_assign d) -> asg_means S A k).
Proof.
  intros HW HL HA HR HN. unfold sat_asg.
  assert (Hs : forall k, In k (i_assign d) -> asg_shape d k) by (apply wf_asg; auto).
  revert Hs. generalize (i_assign d). intros l; induction l as [|k l IH]; cbn; intros Hs.
  - exists true. split; auto. split; auto. intros _ k [].
  - destruct (sat_asg1_correct d A HA HR S k) as (b1 & E1 & H1); auto.
    rewrite E1; cbn. destruct b1.
    + destruct IH as (b & E & H); auto. rewrite E. exists b; split; auto. rewrite H. split.
      * intros Hl k' [<-|Hk]; auto. apply H1; auto.
      * intros Hl k' Hk; auto.
    + exists false; split; auto. split; [discriminate|].
      intros Hl. assert (false = true) by (apply H1; auto). discriminate.
Qed.

Lemma sat_asg_total d S A :
  wf_input d -> length S = n_choices d -> length A = n_choosers d ->
  (forall p row, nth_error A p = Some row -> length row = n_slots d) ->
  exists b, sat_asg d S A = Ok b.
Proof.
  intros. apply mforall_ok. intros k Hk. apply sat_asg1_total; auto. apply wf_asg; auto.
Qed.
