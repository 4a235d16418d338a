(** [Scheduling::is_feasible] and [Scoring::is_feasible] decide the
    specification. *)
From Verif Require Import Base M_Data M_Scoring Spec P_Scoring.
From Coq Require Import Permutation.

(** ** The coverage loop, on a list of choices *)

Fixpoint cover_list (slots : scheduling) (l : list nat) (taken : list bool) (counts : list N)
  : outcome (option (list bool * list N)) :=
  match l with
  | [] => Ok (Some (taken, counts))
  | choice :: t =>
      let* os := get slots choice in
      let* sl := expect os in
      let* b := get taken sl in
      if b then Ok None else
      let* taken' := set taken sl true in
      let* n := get counts choice in
      let* counts' := set counts choice (n + 1)%N in
      cover_list slots t taken' counts'
  end.

Lemma skipn_cons {A} (l : list A) k x : nth_error l k = Some x -> skipn k l = x :: skipn (S k) l.
Proof.
  revert k; induction l as [|h t IH]; intros [|k] H; cbn in *; try discriminate.
  - congruence.
  - apply IH in H. rewrite H. auto.
Qed.

Lemma cover_row_list slots A p row taken counts :
  nth_error A p = Some row ->
  cover_row slots A p (seq 0 (length row)) taken counts = cover_list slots row taken counts.
Proof.
  intros H.
  assert (G : forall m k taken counts, k + m = length row ->
    cover_row slots A p (seq k m) taken counts = cover_list slots (skipn k row) taken counts).
  { induction m as [|m IH]; intros k tk cn Hk; cbn [seq cover_row].
    - rewrite skipn_all2 by lia; auto.
    - destruct (nth_error_in_range row k) as [x Hx]; [lia|].
      rewrite (choice_of_row _ _ _ _ H). unfold get at 1. rewrite Hx; cbn [bind].
      rewrite (skipn_cons _ _ _ Hx). cbn [cover_list].
      destruct (get slots x) as [os| |]; cbn [bind]; auto.
      destruct os as [sl|]; cbn [expect bind]; auto.
      destruct (get tk sl) as [b| |]; cbn [bind]; auto.
      destruct b; auto.
      destruct (set tk sl true); cbn [bind]; auto.
      destruct (get cn x); cbn [bind]; auto.
      destruct (set cn x _); cbn [bind]; auto.
      apply IH; lia. }
  rewrite G by auto; auto.
Qed.

Lemma cover_row_list' slots A p row ns taken counts :
  nth_error A p = Some row -> length row = ns ->
  cover_row slots A p (seq 0 ns) taken counts = cover_list slots row taken counts.
Proof. intros H <-. apply cover_row_list; auto. Qed.

Definition count_of (l : list nat) (c : nat) : N := N.of_nat (count_occ Nat.eq_dec l c).

(** What a successful pass over a row establishes. *)
Lemma cover_list_sound slots l : forall taken counts taken' counts',
  cover_list slots l taken counts = Ok (Some (taken', counts')) ->
  length taken' = length taken /\ length counts' = length counts /\
  (forall c, In c l -> exists s, nth_error slots c = Some (Some s) /\ nth_error taken s = Some false) /\
  NoDup (map (fun c => nth_error slots c) l) /\
  (forall c x, nth_error counts c = Some x -> nth_error counts' c = Some (x + count_of l c)%N).
Proof.
  induction l as [|c l IH]; intros tk cn tk' cn' H; cbn [cover_list] in H.
  - injection H as <- <-. repeat split; auto.
    + intros c [].
    + constructor.
    + intros c x E. unfold count_of; cbn. rewrite N.add_0_r; auto.
  - apply bind_ok in H as (os & H1 & H). apply get_ok in H1.
    destruct os as [s|]; [|discriminate]. cbn [expect bind] in H.
    apply bind_ok in H as (b & H2 & H). apply get_ok in H2.
    destruct b; [discriminate|].
    apply bind_ok in H as (tk1 & H3 & H). apply set_ok in H3 as [L3 ->].
    apply bind_ok in H as (n & H4 & H). apply get_ok in H4.
    apply bind_ok in H as (cn1 & H5 & H). apply set_ok in H5 as [L5 ->].
    apply IH in H as (E1 & E2 & E3 & E4 & E5).
    rewrite !upd_length in *. repeat split; auto.
    + intros c' [<-|Hc']; eauto.
      destruct (E3 _ Hc') as (s' & Hs' & Ht'). exists s'; split; auto.
      rewrite nth_error_upd in Ht'. destruct (Nat.eqb_spec s s') as [->|].
      * destruct (Nat.ltb_spec s' (length tk)); discriminate.
      * auto.
    + cbn [map]. constructor; auto. rewrite in_map_iff. intros (c' & E & Hc').
      destruct (E3 _ Hc') as (s' & Hs' & Ht'). rewrite H1, Hs' in E. injection E as ->.
      rewrite nth_error_upd_same in Ht'; auto. discriminate.
    + intros c' x Hx. unfold count_of; cbn [count_occ].
      specialize (E5 c'). rewrite nth_error_upd in E5.
      destruct (Nat.eq_dec c c') as [->|Hne].
      * rewrite Nat.eqb_refl in E5. destruct (Nat.ltb_spec c' (length cn)); [|lia].
        rewrite (E5 _ eq_refl). unfold count_of. f_equal. rewrite H4 in Hx. injection Hx as ->. lia.
      * destruct (Nat.eqb_spec c c'); [congruence|]. apply E5; auto.
Qed.

Lemma cover_list_complete slots l : forall taken counts,
  (forall c, In c l -> exists s, nth_error slots c = Some (Some s) /\ nth_error taken s = Some false) ->
  NoDup (map (fun c => nth_error slots c) l) ->
  (forall c, In c l -> c < length counts) ->
  exists r, cover_list slots l taken counts = Ok (Some r).
Proof.
  induction l as [|c l IH]; intros tk cn H1 H2 H3; cbn [cover_list]; eauto.
  destruct (H1 c) as (s & Hs & Ht); [left; auto|].
  unfold get at 1. rewrite Hs; cbn [bind expect]. unfold get at 1. rewrite Ht; cbn [bind].
  unfold set at 1. pose proof (nth_error_lt _ _ _ Ht) as Hl.
  destruct (Nat.ltb_spec s (length tk)); [|lia]. cbn [bind].
  assert (Hc : c < length cn) by (apply H3; left; auto).
  destruct (nth_error_in_range cn c Hc) as [n Hn].
  unfold get at 1. rewrite Hn; cbn [bind].
  unfold set at 1. destruct (Nat.ltb_spec c (length cn)); [|lia]. cbn [bind].
  cbn [map] in H2. inversion H2 as [|? ? Hni Hnd]; subst.
  apply IH; auto.
  - intros c' Hc'. destruct (H1 c') as (s' & Hs' & Ht'); [right; auto|].
    exists s'; split; auto. rewrite nth_error_upd_other; auto.
    intros ->. apply Hni. rewrite Hs, <- Hs'. rewrite in_map_iff. eauto.
  - intros c' Hc'. rewrite upd_length. apply H3; right; auto.
Qed.

(** On schedulable rows the loop never panics. *)
Lemma cover_list_total slots l : forall taken counts,
  (forall c, In c l -> exists s, nth_error slots c = Some (Some s) /\ s < length taken) ->
  (forall c, In c l -> c < length counts) ->
  exists r, cover_list slots l taken counts = Ok r /\
            (forall tk cn, r = Some (tk, cn) -> length tk = length taken /\ length cn = length counts).
Proof.
  induction l as [|c l IH]; intros tk cn H1 H3; cbn [cover_list].
  { eexists; split; eauto. intros ? ? E; injection E as <- <-; auto. }
  destruct (H1 c) as (s & Hs & Ht); [left; auto|].
  unfold get at 1. rewrite Hs; cbn [bind expect].
  destruct (nth_error_in_range tk s Ht) as [b Hb].
  unfold get at 1. rewrite Hb; cbn [bind].
  destruct b. { eexists; split; eauto. discriminate. }
  unfold set at 1. destruct (Nat.ltb_spec s (length tk)); [|lia]. cbn [bind].
  assert (Hc : c < length cn) by (apply H3; left; auto).
  destruct (nth_error_in_range cn c Hc) as [n Hn].
  unfold get at 1. rewrite Hn; cbn [bind].
  unfold set at 1. destruct (Nat.ltb_spec c (length cn)); [|lia]. cbn [bind].
  destruct (IH (upd tk s true) (upd cn c (n + 1)%N)) as (r & Hr & HL).
  - intros c' Hc'. rewrite upd_length. apply H1; right; auto.
  - intros c' Hc'. rewrite upd_length. apply H3; right; auto.
  - exists r; split; auto. intros tk' cn' E. apply HL in E. rewrite !upd_length in E. auto.
Qed.

(** ** One choice per slot *)

Lemma nth_error_repeat_inv {A} (x y : A) n i : nth_error (repeat x n) i = Some y -> y = x /\ i < n.
Proof.
  intros H. assert (i < n) by (apply nth_error_lt in H; rewrite repeat_length in H; auto).
  split; auto. rewrite nth_error_repeat in H by auto. congruence.
Qed.

(** the row of a chooser, seen as the list of slots it occupies *)
Lemma row_exactly_one (S : scheduling) (row : list nat) (ns : nat) :
  length row = ns ->
  (forall c, In c row -> exists s, nth_error S c = Some (Some s) /\ s < ns) ->
  NoDup (map (fun c => nth_error S c) row) ->
  forall s, s < ns -> exists! c, In c row /\ scheduled_in S c s.
Proof.
  intros HL HR HN s Hs.
  assert (Hin : In (Some (Some s)) (map (fun c => nth_error S c) row)).
  { assert (Hincl : incl (map (fun s => Some (Some s)) (seq 0 ns)) (map (fun c => nth_error S c) row)).
    { apply NoDup_length_incl; auto.
      - rewrite !map_length, seq_length. lia.
      - intros x Hx. apply in_map_iff in Hx as (c & <- & Hc).
        destruct (HR c Hc) as (t & Ht & Hlt). rewrite Ht. apply in_map_iff. exists t; split; auto.
        apply in_seq; lia. }
    apply Hincl. apply in_map_iff. exists s; split; auto. apply in_seq; lia. }
  apply in_map_iff in Hin as (c & Hc & Hin). exists c. split; [split; auto|].
  intros c' [Hin' Hc']. unfold scheduled_in in *.
  assert (Hinj : forall l, NoDup (map (fun c => nth_error S c) l) ->
            forall x y, In x l -> In y l -> nth_error S x = nth_error S y -> x = y).
  { induction l as [|h t IH]; cbn; intros Hn x y Hx Hy E; [contradiction|].
    inversion Hn as [|? ? Hni Hnd]; subst.
    destruct Hx as [->|Hx], Hy as [->|Hy]; auto.
    - exfalso; apply Hni. rewrite E. apply in_map_iff; eauto.
    - exfalso; apply Hni. rewrite <- E. apply in_map_iff; eauto. }
  eapply Hinj; eauto. congruence.
Qed.

Lemma NoDup_map_inv' {A B} (f : A -> B) l : NoDup (map f l) -> NoDup l.
Proof. apply NoDup_map_inv. Qed.

Lemma one_choice_row_slots (S : scheduling) (row : list nat) (ns : nat) :
  length row = ns ->
  (forall s, s < ns -> exists! c, In c row /\ scheduled_in S c s) ->
  (forall c, In c row -> exists s, nth_error S c = Some (Some s) /\ s < ns) /\
  NoDup (map (fun c => nth_error S c) row).
Proof.
  intros HL HU.
  set (img := map (fun c => nth_error S c) row).
  set (tgt := map (fun s => Some (Some s)) (seq 0 ns)).
  assert (Hincl : incl tgt img).
  { intros x Hx. apply in_map_iff in Hx as (s & <- & Hs). apply in_seq in Hs.
    destruct (HU s) as (c & (Hc & Hcs) & _); [lia|].
    unfold img. apply in_map_iff. exists c; split; auto. }
  assert (Hnd : NoDup tgt).
  { apply FinFun.Injective_map_NoDup; [|apply seq_NoDup]. intros x y E; congruence. }
  assert (Hlen : length img = length tgt) by (unfold img, tgt; rewrite !map_length, seq_length; auto).
  assert (HPn : NoDup img) by (eapply NoDup_incl_NoDup; [exact Hnd | lia | exact Hincl]).
  split; auto.
  intros c Hc.
  assert (In (nth_error S c) tgt) as Hin.
  { assert (Hincl2 : incl img tgt) by (apply NoDup_length_incl; auto; lia).
    apply Hincl2. unfold img. apply in_map_iff; eauto. }
  apply in_map_iff in Hin as (s & E & Hs). exists s; split; auto. apply in_seq in Hs; lia.
Qed.

(** ** Attendance counts over all choosers *)

Fixpoint total_count (rows : list (list nat)) (c : nat) : N :=
  match rows with [] => 0%N | r :: t => (count_of r c + total_count t c)%N end.

Lemma total_count_app r1 r2 c : total_count (r1 ++ r2) c = (total_count r1 c + total_count r2 c)%N.
Proof. induction r1; cbn; auto. rewrite IHr1. lia. Qed.

Lemma firstn_S {A} (l : list A) k x : nth_error l k = Some x -> firstn (S k) l = firstn k l ++ [x].
Proof.
  revert k; induction l as [|h t IH]; intros [|k] H; cbn in *; try discriminate.
  - congruence.
  - f_equal. apply IH; auto.
Qed.

Lemma cover_all_sound d S A : forall m k counts counts',
  length A = n_choosers d ->
  (forall p row, nth_error A p = Some row -> length row = n_slots d) ->
  k + m = n_choosers d ->
  cover_all d S A (seq k m) counts = Ok (Some counts') ->
  length counts' = length counts /\
  (forall p row, k <= p -> nth_error A p = Some row ->
     (forall c, In c row -> exists s, nth_error S c = Some (Some s) /\ s < n_slots d) /\
     NoDup (map (fun c => nth_error S c) row)) /\
  (forall c x, nth_error counts c = Some x ->
     nth_error counts' c = Some (x + total_count (skipn k A) c)%N).
Proof.
  induction m as [|m IH]; intros k cn cn' HA HR Hk H; cbn [seq cover_all] in H.
  - injection H as <-. repeat split; auto.
    + intros c Hc. apply nth_error_lt in H0. lia.
    + apply nth_error_lt in H0. lia.
    + intros c x E. rewrite skipn_all2 by lia. cbn. rewrite N.add_0_r. auto.
  - destruct (nth_error_in_range A k) as [row Hrow]; [lia|].
    apply bind_ok in H as (r & H1 & H).
    rewrite (cover_row_list' _ _ _ _ _ _ _ Hrow (HR _ _ Hrow)) in H1.
    destruct r as [[tk cn1]|]; [|discriminate].
    apply cover_list_sound in H1 as (_ & E2 & E3 & E4 & E5).
    apply IH in H as (F1 & F2 & F3); auto; [|lia].
    split; [lia|]. split.
    + intros p row' Hp Hp'. destruct (Nat.eq_dec k p) as [<-|Hne].
      * assert (row' = row) as -> by congruence. split; auto.
        intros c Hc. destruct (E3 c Hc) as (s & Hs & Ht). exists s; split; auto.
        apply nth_error_repeat_inv in Ht; tauto.
      * apply (F2 p); auto. lia.
    + intros c x E. apply E5 in E. apply F3 in E. rewrite E, (skipn_cons _ _ _ Hrow). cbn [total_count].
      f_equal; lia.
Qed.

Lemma cover_all_complete d S A : forall m k counts,
  length A = n_choosers d ->
  (forall p row, nth_error A p = Some row ->
     length row = n_slots d /\
     (forall c, In c row -> exists s, nth_error S c = Some (Some s) /\ s < n_slots d) /\
     NoDup (map (fun c => nth_error S c) row)) ->
  length S = length counts ->
  k + m = n_choosers d ->
  exists counts', cover_all d S A (seq k m) counts = Ok (Some counts').
Proof.
  induction m as [|m IH]; intros k cn HA HR HL Hk; cbn [seq cover_all]; eauto.
  destruct (nth_error_in_range A k) as [row Hrow]; [lia|].
  destruct (HR _ _ Hrow) as (R1 & R2 & R3).
  rewrite (cover_row_list' _ _ _ _ _ _ _ Hrow R1).
  destruct (cover_list_complete S row (repeat false (n_slots d)) cn) as [[tk' cn'] Hr]; auto.
  - intros c Hc. destruct (R2 c Hc) as (s & Hs & Hlt). exists s; split; auto.
    apply nth_error_repeat; auto.
  - intros c Hc. destruct (R2 c Hc) as (s & Hs & Hlt). apply nth_error_lt in Hs. lia.
  - rewrite Hr; cbn [bind]. apply cover_list_sound in Hr as (_ & E2 & _).
    apply IH; auto; lia.
Qed.

Lemma cover_all_total d S A : forall m k counts,
  length A = n_choosers d ->
  (forall p row, nth_error A p = Some row ->
     length row = n_slots d /\
     (forall c, In c row -> exists s, nth_error S c = Some (Some s) /\ s < n_slots d)) ->
  length S = length counts ->
  k + m = n_choosers d ->
  exists r, cover_all d S A (seq k m) counts = Ok r /\ (forall cn, r = Some cn -> length cn = length counts).
Proof.
  induction m as [|m IH]; intros k cn HA HR HL Hk; cbn [seq cover_all].
  { eexists; split; eauto. intros cn' E; injection E as <-; auto. }
  destruct (nth_error_in_range A k) as [row Hrow]; [lia|].
  destruct (HR _ _ Hrow) as (R1 & R2).
  rewrite (cover_row_list' _ _ _ _ _ _ _ Hrow R1).
  destruct (cover_list_total S row (repeat false (n_slots d)) cn) as (r & Hr & HrL); auto.
  - intros c Hc. rewrite repeat_length. auto.
  - intros c Hc. destruct (R2 c Hc) as (s & Hs & Hlt). apply nth_error_lt in Hs. lia.
  - rewrite Hr; cbn [bind]. destruct r as [[tk' cn']|].
    + destruct (HrL _ _ eq_refl) as [_ E2].
      destruct (IH (Datatypes.S k) cn') as (r & Er & HL'); auto; try lia.
      exists r; split; auto. intros. rewrite <- E2. auto.
    + eexists; split; eauto. discriminate.
Qed.

(** number of attendees *)
Lemma total_count_cardinal (A : assignment) c :
  rows_nodup A ->
  exists m, cardinal (fun p => attends A p c) m /\ total_count A c = N.of_nat m.
Proof.
  intros HN.
  exists (length (filter (attendsb A c) (seq 0 (length A)))). split.
  - exists (filter (attendsb A c) (seq 0 (length A))). split; [apply NoDup_filter, seq_NoDup|].
    split; auto. intros p. rewrite filter_In, attendsb_spec, in_seq. split; [tauto|].
    intros H; split; auto. destruct H as (row & H & _). apply nth_error_lt in H. lia.
  - assert (G : forall m k, k + m = length A ->
       total_count (skipn k A) c = N.of_nat (length (filter (attendsb A c) (seq k m)))).
    { induction m as [|m IH]; intros k Hk.
      - rewrite skipn_all2 by lia. auto.
      - destruct (nth_error_in_range A k) as [row Hrow]; [lia|].
        rewrite (skipn_cons _ _ _ Hrow). cbn [seq filter total_count]. rewrite IH by lia.
        unfold attendsb at 2. rewrite Hrow. specialize (HN _ _ Hrow).
        unfold count_of. destruct (existsb (fun x => x =? c) row) eqn:E.
        + apply existsb_eqb_In in E. cbn [length].
          assert (count_occ Nat.eq_dec row c = 1) as -> by (apply NoDup_count_occ'; auto). lia.
        + assert (~ In c row) as Hn by (rewrite <- existsb_eqb_In; congruence).
          assert (count_occ Nat.eq_dec row c = 0) as -> by (apply count_occ_not_In; auto). lia. }
    rewrite <- (G (length A) 0) by auto. auto.
Qed.

Lemma rows_nodup_of_map (S : scheduling) (A : assignment) :
  (forall p row, nth_error A p = Some row -> NoDup (map (fun c => nth_error S c) row)) -> rows_nodup A.
Proof. intros H p row Hp. eapply NoDup_map_inv. eapply H; eauto. Qed.

Lemma mmap_slots d (S : scheduling) :
  length S = n_choices d -> mmap (fun c => slot_of S c) (seq 0 (n_choices d)) = Ok S.
Proof. intros H. rewrite <- H. apply mmap_get. Qed.

(** ** Scoring::is_feasible is sound ... *)
Theorem sol_is_feasible_sound d S A :
  fits d -> wf_input d -> length S = n_choices d -> length A = n_choosers d ->
  (forall p row, nth_error A p = Some row -> length row = n_slots d) ->
  sol_is_feasible d S A = Ok true -> respects_all d S A.
Proof.
  intros HF HW HL HA HR H. unfold sol_is_feasible in H.
  rewrite mmap_slots in H by auto. cbn [bind] in H.
  apply bind_ok in H as (b1 & H1 & H). destruct b1; [|discriminate]. cbn [negb] in H.
  apply bind_ok in H as (b2 & H2 & H). destruct b2; [|discriminate]. cbn [negb] in H.
  apply bind_ok in H as (r & H3 & H). destruct r as [counts|]; [|discriminate].
  apply cover_all_sound in H3 as (E1 & E2 & E3); auto.
  assert (Hnd : rows_nodup A).
  { apply (rows_nodup_of_map S). intros p row Hp. apply (E2 p row); [lia|auto]. }
  constructor.
  - split; auto. intros p row Hp. destruct (E2 p row) as [R1 R2]; auto; [lia|].
    split; [eapply HR; eauto|]. split.
    + intros c Hc. destruct (R1 c Hc) as (s & Hs & _). exists s; auto.
    + apply row_exactly_one; auto. eapply HR; eauto.
  - intros c ch Hch [s Hs].
    destruct (total_count_cardinal A c Hnd) as (m & Hm & Em). exists m; split; auto.
    rewrite mforall_true in H. specialize (H c).
    assert (Hc : c < n_choices d) by (apply nth_error_lt in Hch; auto).
    rewrite in_seq in H. specialize (H ltac:(lia)).
    rewrite (slot_of_get _ _ _ Hs) in H. cbn [bind] in H.
    assert (Hcnt : get counts c = Ok (0 + total_count (skipn 0 A) c)%N).
    { apply get_ok, E3, nth_error_repeat. exact Hc. }
    rewrite Hcnt in H.
    cbn [bind] in H. rewrite (proj2 (get_ok (i_choices d) c _) Hch) in H. cbn [bind] in H.
    injection H as H. apply negb_true_iff, orb_false_iff in H as [Ha Hb].
    cbn [skipn] in *. apply N.ltb_ge in Ha, Hb. lia.
  - apply (sat_sched_correct d S true) in H1; auto. apply H1; auto.
  - destruct (sat_asg_correct d S A) as (b & Eb & Hb); auto.
    rewrite H2 in Eb. injection Eb as <-. apply Hb; auto.
Qed.

(** ... and complete ... *)
Theorem sol_is_feasible_complete d S A :
  fits d -> wf_input d -> length S = n_choices d ->
  (forall c s, scheduled_in S c s -> s < n_slots d) ->
  respects_all d S A -> sol_is_feasible d S A = Ok true.
Proof.
  intros HF HW HL HS [[HA HO] HB HC1 HC2]. unfold sol_is_feasible.
  assert (HR : forall p row, nth_error A p = Some row ->
     length row = n_slots d /\
     (forall c, In c row -> exists s, nth_error S c = Some (Some s) /\ s < n_slots d) /\
     NoDup (map (fun c => nth_error S c) row)).
  { intros p row Hp. destruct (HO p row Hp) as (R1 & R2 & R3). split; auto.
    apply one_choice_row_slots; auto. }
  assert (Hnd : rows_nodup A).
  { apply (rows_nodup_of_map S). intros p row Hp. eapply HR; eauto. }
  rewrite mmap_slots by auto. cbn [bind].
  destruct (sat_sched_total d S) as [b1 H1]; auto. rewrite H1; cbn [bind].
  apply (sat_sched_correct d S b1) in H1; auto. rewrite (proj2 H1 HC1). cbn [negb].
  destruct (sat_asg_correct d S A) as (b & Eb & Hb); auto. { intros; eapply HR; eauto. }
  rewrite Eb; cbn [bind]. rewrite (proj2 Hb HC2). cbn [negb].
  destruct (cover_all_complete d S A (n_choosers d) 0 (repeat 0%N (n_choices d))) as [counts Hc]; auto.
  { rewrite repeat_length; auto. }
  rewrite Hc; cbn [bind].
  apply cover_all_sound in Hc as (E1 & E2 & E3); auto. 2:{ intros; eapply HR; eauto. }
  apply mforall_true. intros c Hc. apply in_seq in Hc.
  destruct (nth_error_in_range S c) as [x Hx]; [lia|].
  rewrite (slot_of_get _ _ _ Hx). cbn [bind]. destruct x as [s|]; auto.
  assert (Hcnt : get counts c = Ok (0 + total_count (skipn 0 A) c)%N).
  { apply get_ok, E3, nth_error_repeat. lia. }
  rewrite Hcnt.
  cbn [bind]. destruct (nth_error_in_range (i_choices d) c) as [ch Hch]; [unfold n_choices in *; lia|].
  rewrite (proj2 (get_ok (i_choices d) c _) Hch). cbn [bind]. f_equal.
  destruct (HB c ch Hch) as (m & Hm & Hb1 & Hb2); [exists s; auto|].
  destruct (total_count_cardinal A c Hnd) as (m' & Hm' & Em').
  rewrite (cardinal_unique _ _ _ Hm' Hm) in Em'. cbn [skipn]. rewrite Em'.
  apply negb_true_iff, orb_false_iff. rewrite !N.ltb_ge. lia.
Qed.

(** ... and does not panic when the assigned choices take place. *)
Theorem sol_is_feasible_total d S A :
  fits d -> wf_input d -> length S = n_choices d -> length A = n_choosers d ->
  (forall p row, nth_error A p = Some row -> length row = n_slots d) ->
  (forall c s, scheduled_in S c s -> s < n_slots d) ->
  (forall p c, attends A p c -> held S c) ->
  exists b, sol_is_feasible d S A = Ok b.
Proof.
  intros HF HW HL HA HR HS HH. unfold sol_is_feasible.
  rewrite mmap_slots by auto. cbn [bind].
  destruct (sat_sched_total d S) as [b1 H1]; auto. rewrite H1; cbn [bind].
  destruct b1; cbn [negb]; eauto.
  destruct (sat_asg_total d S A) as [b2 H2]; auto. rewrite H2; cbn [bind].
  destruct b2; cbn [negb]; eauto.
  destruct (cover_all_total d S A (n_choosers d) 0 (repeat 0%N (n_choices d))) as (r & Hr & Hrl); auto.
  { intros p row Hp. split; eauto. intros c Hc. destruct (HH p c) as [s Hs]; [exists row; auto|].
    exists s; split; auto. eapply HS; eauto. }
  { rewrite repeat_length; auto. }
  rewrite Hr; cbn [bind]. destruct r as [counts|]; eauto.
  apply mforall_ok. intros c Hc. apply in_seq in Hc.
  destruct (nth_error_in_range S c) as [x Hx]; [lia|].
  rewrite (slot_of_get _ _ _ Hx). cbn [bind]. destruct x as [s|]; eauto.
  destruct (nth_error_in_range counts c) as [n Hn].
  { rewrite (Hrl _ eq_refl), repeat_length. lia. }
  rewrite (proj2 (get_ok counts c _) Hn). cbn [bind].
  destruct (nth_error_in_range (i_choices d) c) as [ch Hch]; [unfold n_choices in *; lia|].
  rewrite (proj2 (get_ok (i_choices d) c _) Hch). cbn [bind]. eauto.
Qed.

(** ** Slot sums follow from attendance *)

Lemma cardinal_filter_lt (P : nat -> bool) n :
  cardinal (fun x => x < n /\ P x = true) (length (filter P (seq 0 n))).
Proof.
  exists (filter P (seq 0 n)). split; [apply NoDup_filter, seq_NoDup|]. split; auto.
  intros x. rewrite filter_In, in_seq. split; intros [? ?]; split; auto; lia.
Qed.

(** total attendance of the choices of one slot = number of choosers *)
Fixpoint slot_total (A : assignment) (i : nat) (S : scheduling) (s : nat) : N :=
  match S with
  | [] => 0%N
  | x :: S' => ((match x with Some t => if Nat.eqb t s then total_count A i else 0 | None => 0 end)
                + slot_total A (i + 1) S' s)%N
  end.

Lemma slot_total_cons r A : forall S i s,
  slot_total (r :: A) i S s = (slot_total [r] i S s + slot_total A i S s)%N.
Proof.
  induction S as [|x S IH]; intros i s; cbn [slot_total]; auto.
  rewrite IH. destruct x as [t|]; [destruct (Nat.eqb t s)|]; cbn [total_count]; lia.
Qed.

Lemma slot_total_row_gen row s S' : forall T i,
  (forall k, nth_error S' (i + k) = nth_error T k) ->
  slot_total [row] i T s = N.of_nat (length (filter (fun c => (i <=? c) && in_slotb S' s c) row)).
Proof.
  induction T as [|x T IH]; intros i HT; cbn [slot_total].
  - assert (filter (fun c => (i <=? c) && in_slotb S' s c) row = []) as ->; auto.
    clear - HT. induction row as [|c row IH]; cbn; auto.
    destruct (Nat.leb_spec i c); cbn; auto.
    specialize (HT (c - i)). replace (i + (c - i)) with c in HT by lia.
    unfold in_slotb. rewrite HT. destruct (c - i); cbn; auto.
  - rewrite IH.
    2:{ intros k. specialize (HT (Datatypes.S k)). cbn in HT. rewrite <- HT. f_equal; lia. }
    assert (Hi : in_slotb S' s i = match x with Some t => Nat.eqb t s | None => false end).
    { specialize (HT 0). rewrite Nat.add_0_r in HT. cbn in HT. unfold in_slotb. rewrite HT.
      destruct x; cbn; auto. }
    cbn [total_count]. unfold count_of.
    assert (G : length (filter (fun c => (i <=? c) && in_slotb S' s c) row) =
      (if in_slotb S' s i then count_occ Nat.eq_dec row i else 0) +
      length (filter (fun c => (i + 1 <=? c) && in_slotb S' s c) row)).
    { clear - row. induction row as [|c row IH]; cbn [filter count_occ length].
      - destruct (in_slotb S' s i); auto.
      - destruct (Nat.eq_dec c i) as [->|Hne].
        + rewrite Nat.leb_refl. destruct (Nat.leb_spec (i + 1) i); [lia|]. cbn [andb].
          destruct (in_slotb S' s i); cbn [length]; lia.
        + destruct (Nat.leb_spec i c), (Nat.leb_spec (i + 1) c); try lia; cbn [andb].
          * destruct (in_slotb S' s c); cbn [length]; lia.
          * lia. }
    rewrite G, Hi. destruct x as [t|]; [destruct (Nat.eqb t s)|]; lia.
Qed.

Lemma slot_total_row row s S :
  slot_total [row] 0 S s = N.of_nat (length (filter (in_slotb S s) row)).
Proof.
  rewrite (slot_total_row_gen row s S S 0) by auto.
  reflexivity.
Qed.

Lemma filter_unique_length {A} (f : A -> bool) (l : list A) :
  NoDup l -> (exists! x, In x l /\ f x = true) -> length (filter f l) = 1.
Proof.
  intros HN (x & [Hx Hfx] & Hu).
  assert (NoDup (filter f l)) as HNf by (apply NoDup_filter; auto).
  assert (Hall : forall y, In y (filter f l) -> y = x).
  { intros y Hy. apply filter_In in Hy. symmetry. apply Hu; auto. }
  assert (In x (filter f l)) by (apply filter_In; auto).
  destruct (filter f l) as [|a [|b t]]; cbn; auto.
  - contradiction.
  - exfalso. inversion HNf as [|? ? Hni _]; subst. apply Hni.
    rewrite (Hall a), (Hall b); cbn; auto.
Qed.

Lemma slot_total_all d S A s :
  one_choice_per_slot d S A -> s < length (i_slots d) ->
  slot_total A 0 S s = N.of_nat (length (i_choosers d)).
Proof.
  intros [HA HO] Hs. rewrite <- HA. clear HA.
  assert (G : forall rows, (forall row, In row rows -> length (filter (in_slotb S s) row) = 1) ->
            slot_total rows 0 S s = N.of_nat (length rows)).
  { induction rows as [|r rows IH]; intros H.
    - cbn [length]. clear. generalize 0 at 1. induction S as [|x S IHS]; intros i; cbn; auto.
      rewrite IHS. destruct x as [t|]; [destruct (Nat.eqb t s)|]; reflexivity.
    - rewrite slot_total_cons, slot_total_row, IH by (intros; apply H; right; auto).
      rewrite H by (left; auto). cbn [length]. lia. }
  apply G. intros row Hrow. apply In_nth_error in Hrow as [p Hp].
  destruct (HO p row Hp) as (R1 & R2 & R3).
  destruct (one_choice_row_slots S row _ R1 R3) as [_ HN].
  apply filter_unique_length. { eapply NoDup_map_inv; eauto. }
  destruct (R3 s Hs) as (c & [Hc Hcs] & Hu). exists c. split.
  - split; auto. apply in_slotb_spec; auto.
  - intros c' [Hc' Hs']. apply Hu. split; auto. apply in_slotb_spec; auto.
Qed.

(** The bounds of the choices of a slot admit all choosers as soon as every held
    choice respects its bounds: this part of the scheduling check is implied. *)
Lemma slot_sums_from_attendance d S A s :
  length S = length (i_choices d) ->
  one_choice_per_slot d S A -> bounds_respected d S A -> s < length (i_slots d) ->
  (slot_sum ch_min (i_choices d) S s <= N.of_nat (length (i_choosers d)) /\
   N.of_nat (length (i_choosers d)) <= slot_sum ch_max (i_choices d) S s)%N.
Proof.
  intros HL HO HB Hs. rewrite <- (slot_total_all d S A s HO Hs).
  assert (Hnd : rows_nodup A).
  { destruct HO as [_ HO]. intros p row Hp. destruct (HO p row Hp) as (R1 & _ & R3).
    eapply NoDup_map_inv. apply (one_choice_row_slots S row _ R1 R3). }
  assert (HC : forall c ch, nth_error (i_choices d) c = Some ch -> nth_error S c = Some (Some s) ->
     (ch_min ch <= total_count A c /\ total_count A c <= ch_max ch)%N).
  { intros c ch Hc Hcs. destruct (HB c ch Hc) as (m & Hm & H1 & H2); [exists s; auto|].
    destruct (total_count_cardinal A c Hnd) as (m' & Hm' & Em').
    rewrite (cardinal_unique _ _ _ Hm' Hm) in Em'. lia. }
  clear HO HB Hnd.
  assert (G : forall cs T i, length T = length cs ->
     (forall k ch, nth_error cs k = Some ch -> nth_error T k = Some (Some s) ->
        (ch_min ch <= total_count A (i + k) /\ total_count A (i + k) <= ch_max ch)%N) ->
     (slot_sum ch_min cs T s <= slot_total A i T s /\ slot_total A i T s <= slot_sum ch_max cs T s)%N).
  { induction cs as [|ch cs IH]; intros [|x T] i HT H; cbn in HT; try lia; cbn [slot_sum slot_total].
    - lia.
    - destruct (IH T (i + 1)) as [I1 I2]; [lia| |].
      + intros k ch' Hk Hk'. replace (i + 1 + k) with (i + Datatypes.S k) by lia. apply H; auto.
      + destruct x as [t|]; [destruct (Nat.eqb_spec t s) as [->|]|]; try lia.
        specialize (H 0 ch eq_refl eq_refl). rewrite Nat.add_0_r in H. lia. }
  apply G; auto.
Qed.

(** ** Scheduling::is_feasible *)

(** What a [Some] result of the summing loop shows, whatever the sums did. *)
Lemma feas_sums_shape p d : forall T idx mn mx mn' mx',
  feas_sums p d idx T mn mx = Ok (Some (mn', mx')) ->
  length mn' = length mn /\ length mx' = length mx /\
  (forall k, nth_error T k = Some None ->
     exists ch, nth_error (i_choices d) (idx + k) = Some ch /\ ch_optional ch = true) /\
  (forall k s, nth_error T k = Some (Some s) -> s < length mn).
Proof.
  induction T as [|x T IH]; intros idx mn mx mn' mx' H; cbn [feas_sums] in H.
  - injection H as <- <-. repeat split; auto; intros [|k]; cbn; discriminate.
  - destruct x as [slot|].
    + apply bind_ok in H as (c & H1 & H).
      apply bind_ok in H as (a & H2 & H). apply bind_ok in H as (a' & H3 & H).
      apply bind_ok in H as (mn1 & H4 & H). apply set_ok in H4 as [L4 ->].
      apply bind_ok in H as (b & H5 & H). apply bind_ok in H as (b' & H6 & H).
      apply bind_ok in H as (mx1 & H7 & H). apply set_ok in H7 as [L7 ->].
      apply IH in H as (E1 & E2 & E3 & E4). rewrite !upd_length in *. repeat split; auto.
      * intros [|k] Hk; cbn in Hk; [discriminate|]. replace (idx + Datatypes.S k) with (Datatypes.S idx + k) by lia; auto.
      * intros [|k] s Hk; cbn in Hk; [congruence|]; eauto.
    + apply bind_ok in H as (c & H1 & H). apply get_ok in H1.
      destruct (ch_optional c) eqn:Eo; [|discriminate].
      apply IH in H as (E1 & E2 & E3 & E4). repeat split; auto.
      * intros [|k] Hk; cbn in Hk.
        -- rewrite Nat.add_0_r. eauto.
        -- replace (idx + Datatypes.S k) with (Datatypes.S idx + k) by lia; auto.
      * intros [|k] s Hk; cbn in Hk; [discriminate|]; eauto.
Qed.

Definition at_ (l : list N) (s : nat) : N := nth s l 0%N.

Lemma at_upd l i j x : at_ (upd l i x) j = if (i =? j) && (i <? length l) then x else at_ l j.
Proof.
  unfold at_. destruct (Nat.eqb_spec i j) as [->|Hne]; cbn [andb].
  - destruct (Nat.ltb_spec j (length l)).
    + erewrite nth_error_nth; [reflexivity|]. apply nth_error_upd_same; auto.
    + rewrite !nth_overflow; auto. rewrite upd_length; auto.
  - revert i j Hne; induction l as [|h t IH]; intros [|i] [|j] Hne; cbn; auto; try lia.
Qed.

Lemma at_get l s : s < length l -> get l s = Ok (at_ l s).
Proof.
  intros H. apply get_ok. unfold at_. apply nth_error_nth'; auto.
Qed.

(** no addition overflows, in either profile *)
Lemma add_u32_ok p a b : (a + b <= u32_max)%N -> add_u32 p a b = Ok (a + b)%N.
Proof. intros H. unfold add_u32. destruct (N.leb_spec (a + b) u32_max); auto. lia. Qed.

Lemma add_u32_debug a b r : add_u32 Debug a b = Ok r -> r = (a + b)%N.
Proof. unfold add_u32. destruct (N.leb _ _); congruence. Qed.

(** Exact behaviour of the loop when the sums fit into [u32]. *)
Lemma feas_sums_exact p d : forall T cs idx mn mx,
  (forall k, nth_error (i_choices d) (idx + k) = nth_error cs k) ->
  length T = length cs -> length mn = length mx ->
  (forall k s, nth_error T k = Some (Some s) -> s < length mn) ->
  (forall s, at_ mn s + slot_sum ch_min cs T s <= u32_max)%N ->
  (forall s, at_ mx s + slot_sum ch_max cs T s <= u32_max)%N ->
  exists r, feas_sums p d idx T mn mx = Ok r /\
    match r with
    | None => exists k ch, nth_error T k = Some None /\ nth_error cs k = Some ch /\ ch_optional ch = false
    | Some (mn', mx') =>
        (forall k ch, nth_error T k = Some None -> nth_error cs k = Some ch -> ch_optional ch = true) /\
        length mn' = length mn /\ length mx' = length mx /\
        (forall s, s < length mn -> at_ mn' s = (at_ mn s + slot_sum ch_min cs T s)%N) /\
        (forall s, s < length mn -> at_ mx' s = (at_ mx s + slot_sum ch_max cs T s)%N)
    end.
Proof.
  induction T as [|x T IH]; intros [|c cs] idx mn mx Hcs HT HM HR B1 B2; cbn in HT; try lia; cbn [feas_sums].
  - eexists; split; [reflexivity|]. cbn. repeat split; auto; try (intros; lia).
    intros [|k]; discriminate.
  - assert (Hc : nth_error (i_choices d) idx = Some c) by (rewrite <- (Nat.add_0_r idx), Hcs; auto).
    rewrite (proj2 (get_ok _ _ _) Hc). cbn [bind].
    assert (Hcs' : forall k, nth_error (i_choices d) (Datatypes.S idx + k) = nth_error cs k).
    { intros k. specialize (Hcs (Datatypes.S k)). cbn [nth_error] in Hcs. rewrite <- Hcs. f_equal; lia. }
    destruct x as [slot|].
    + assert (Hs : slot < length mn) by (apply (HR 0); auto).
      rewrite at_get by auto. cbn [bind].
      pose proof (B1 slot) as B1s. pose proof (B2 slot) as B2s. cbn [slot_sum] in B1s, B2s.
      rewrite Nat.eqb_refl in B1s, B2s.
      rewrite add_u32_ok by lia. cbn [bind].
      unfold set at 1. destruct (Nat.ltb_spec slot (length mn)); [|lia]. cbn [bind].
      rewrite at_get by lia. cbn [bind]. rewrite add_u32_ok by lia. cbn [bind].
      unfold set at 1. destruct (Nat.ltb_spec slot (length mx)); [|lia]. cbn [bind].
      destruct (IH cs (Datatypes.S idx) (upd mn slot (at_ mn slot + ch_min c)%N) (upd mx slot (at_ mx slot + ch_max c)%N))
        as (r & Er & Hr); auto.
      * rewrite !upd_length; auto.
      * intros k s Hk. rewrite upd_length. apply (HR (Datatypes.S k)); auto.
      * intros s. rewrite at_upd. specialize (B1 s). cbn [slot_sum] in B1.
        destruct (Nat.eqb_spec slot s) as [->|]; cbn [andb].
        -- destruct (Nat.ltb_spec s (length mn)); lia.
        -- lia.
      * intros s. rewrite at_upd. specialize (B2 s). cbn [slot_sum] in B2.
        destruct (Nat.eqb_spec slot s) as [->|]; cbn [andb].
        -- destruct (Nat.ltb_spec s (length mx)); lia.
        -- lia.
      * exists r; split; auto. destruct r as [[mn' mx']|].
        -- destruct Hr as (R1 & R2 & R3 & R4 & R5). rewrite !upd_length in *. repeat split; auto.
           ++ intros [|k] ch Hk Hk'; cbn in Hk, Hk'; [discriminate|]; eauto.
           ++ intros s Hs'. rewrite R4, at_upd by auto. cbn [slot_sum].
              destruct (Nat.eqb_spec slot s) as [->|]; cbn [andb]; [|lia].
              destruct (Nat.ltb_spec s (length mn)); lia.
           ++ intros s Hs'. rewrite R5, at_upd by auto. cbn [slot_sum].
              destruct (Nat.eqb_spec slot s) as [->|]; cbn [andb]; [|lia].
              destruct (Nat.ltb_spec s (length mx)); lia.
        -- destruct Hr as (k & ch & K1 & K2 & K3). exists (Datatypes.S k), ch; auto.
    + destruct (ch_optional c) eqn:Eo.
      * destruct (IH cs (Datatypes.S idx) mn mx) as (r & Er & Hr); auto.
        -- intros k s Hk. apply (HR (Datatypes.S k)); auto.
        -- exists r; split; auto. destruct r as [[mn' mx']|].
           ++ destruct Hr as (R1 & R2 & R3 & R4 & R5). repeat split; auto.
              intros [|k] ch Hk Hk'; cbn in Hk, Hk'; [congruence|]; eauto.
           ++ destruct Hr as (k & ch & K1 & K2 & K3). exists (Datatypes.S k), ch; auto.
      * eexists; split; [reflexivity|]. exists 0, c; auto.
Qed.

(** the sums of one scheduling all fit into [u32] *)
Definition sums_fit (d : input_data) (S : scheduling) : Prop :=
  forall s, (slot_sum ch_min (i_choices d) S s <= u32_max /\ slot_sum ch_max (i_choices d) S s <= u32_max)%N.

Lemma at_zeros n s : at_ (repeat 0%N n) s = 0%N.
Proof. unfold at_. revert s; induction n; intros [|s]; cbn; auto. Qed.

Lemma sum_check_true mn mx cnt n :
  length mn = n -> length mx = n ->
  mforall (fun slot => let* a := get mn slot in let* b := get mx slot in
                       Ok (negb ((cnt <? a)%N || (b <? cnt)%N))) (seq 0 n)
  = Ok (forallb (fun s => negb ((cnt <? at_ mn s)%N || (at_ mx s <? cnt)%N)) (seq 0 n)).
Proof.
  intros H1 H2. apply mforall_pure. intros s Hs. apply in_seq in Hs.
  rewrite !at_get by lia. auto.
Qed.

(** With sums in range, the check decides the specification (both profiles). *)
Theorem sched_is_feasible_exact p d S :
  fits d -> wf_input d -> length S = n_choices d ->
  (forall c s, scheduled_in S c s -> s < n_slots d) ->
  sums_fit d S ->
  exists b, sched_is_feasible p d S = Ok b /\ (b = true <-> valid_scheduling d S).
Proof.
  intros HF HW HL HR HB. unfold sched_is_feasible.
  destruct (feas_sums_exact p d S (i_choices d) 0 (repeat 0%N (n_slots d)) (repeat 0%N (n_slots d)))
    as (r & Er & Hr); auto.
  { intros k s Hk. rewrite repeat_length. eapply HR; eauto. }
  { intros s. rewrite at_zeros. apply HB. }
  { intros s. rewrite at_zeros. apply HB. }
  rewrite Er; cbn [bind]. destruct r as [[mn mx]|].
  - destruct Hr as (R1 & R2 & R3 & R4 & R5). rewrite repeat_length in *.
    rewrite sum_check_true by auto. cbn [bind].
    assert (Hcnt : sat_u32 (n_choosers d) = N.of_nat (length (i_choosers d))).
    { apply sat_u32_small. destruct HF as [F _ _]. unfold n_choosers; lia. }
    rewrite Hcnt.
    destruct (forallb _ _) eqn:Eb.
    + destruct (sat_sched_total d S) as [b Hb]; auto. exists b; split; auto.
      rewrite (sat_sched_correct d S b) by auto. split.
      * intros Hk. constructor; auto.
        -- intros c ch Hc Hn. eapply R1; eauto.
        -- intros s Hs. rewrite forallb_forall in Eb. specialize (Eb s).
           rewrite in_seq in Eb. specialize (Eb ltac:(unfold n_slots; lia)).
           apply negb_true_iff, orb_false_iff in Eb as [E1 E2]. apply N.ltb_ge in E1, E2.
           rewrite R4, at_zeros in E1 by (unfold n_slots; lia).
           rewrite R5, at_zeros in E2 by (unfold n_slots; lia). lia.
      * intros [_ _ _ _ V]; auto.
    + exists false; split; auto. split; [discriminate|]. intros [_ _ _ V _]. exfalso.
      apply not_true_iff_false in Eb. apply Eb. apply forallb_forall. intros s Hs.
      apply in_seq in Hs. apply negb_true_iff, orb_false_iff. rewrite !N.ltb_ge.
      rewrite R4, R5, at_zeros by lia. specialize (V s). unfold n_slots in *. lia.
  - exists false; split; auto. split; [discriminate|]. intros [_ _ V _ _].
    destruct Hr as (k & ch & K1 & K2 & K3). rewrite (V k ch K2 K1) in K3. discriminate.
Qed.

(** Without the range assumption on the sums: everything but the sums. *)
Theorem sched_is_feasible_sound p d S :
  fits d -> wf_input d -> length S = n_choices d ->
  sched_is_feasible p d S = Ok true ->
  (forall c s, scheduled_in S c s -> s < length (i_slots d)) /\
  (forall c ch, nth_error (i_choices d) c = Some ch -> not_held S c -> ch_optional ch = true) /\
  (forall k, In k (i_sched d) -> sched_means S k).
Proof.
  intros HF HW HL H. unfold sched_is_feasible in H.
  apply bind_ok in H as (r & Hr & H). destruct r as [[mn mx]|]; [|discriminate].
  apply bind_ok in H as (ok & Hok & H). destruct ok; [|discriminate].
  apply feas_sums_shape in Hr as (E1 & E2 & E3 & E4). rewrite repeat_length in *.
  repeat split.
  - intros c s Hc. apply (E4 c s Hc).
  - intros c ch Hc Hn. destruct (E3 c Hn) as (ch' & Hc' & Ho). cbn in Hc'. congruence.
  - apply (sat_sched_correct d S true) in H; auto. apply H; auto.
Qed.

(** In a debug build a [true] answer is always right. *)
Lemma feas_sums_debug d : forall T cs idx mn mx mn' mx',
  (forall k, nth_error (i_choices d) (idx + k) = nth_error cs k) ->
  length T = length cs -> length mn = length mx ->
  feas_sums Debug d idx T mn mx = Ok (Some (mn', mx')) ->
  (forall s, s < length mn -> at_ mn' s = (at_ mn s + slot_sum ch_min cs T s)%N) /\
  (forall s, s < length mn -> at_ mx' s = (at_ mx s + slot_sum ch_max cs T s)%N).
Proof.
  induction T as [|x T IH]; intros [|c cs] idx mn mx mn' mx' Hcs HT HM H; cbn in HT; try lia; cbn [feas_sums] in H.
  - injection H as <- <-. cbn. split; intros; lia.
  - assert (Hc : nth_error (i_choices d) idx = Some c) by (rewrite <- (Nat.add_0_r idx), Hcs; auto).
    rewrite (proj2 (get_ok _ _ _) Hc) in H. cbn [bind] in H.
    assert (Hcs' : forall k, nth_error (i_choices d) (Datatypes.S idx + k) = nth_error cs k).
    { intros k. specialize (Hcs (Datatypes.S k)). cbn [nth_error] in Hcs. rewrite <- Hcs. f_equal; lia. }
    destruct x as [slot|].
    + apply bind_ok in H as (a & H2 & H). apply bind_ok in H as (a' & H3 & H).
      apply bind_ok in H as (mn1 & H4 & H). apply set_ok in H4 as [L4 ->].
      apply bind_ok in H as (b & H5 & H). apply bind_ok in H as (b' & H6 & H).
      apply bind_ok in H as (mx1 & H7 & H). apply set_ok in H7 as [L7 ->].
      apply add_u32_debug in H3, H6. rewrite at_get in H2 by auto. rewrite at_get in H5 by auto.
      injection H2 as <-. injection H5 as <-. subst a' b'.
      apply (IH cs) in H as [I1 I2]; auto; [|rewrite !upd_length; auto].
      rewrite !upd_length in *. split; intros s Hs.
      * rewrite I1, at_upd by auto. cbn [slot_sum].
        destruct (Nat.eqb_spec slot s) as [->|]; cbn [andb]; [|lia].
        destruct (Nat.ltb_spec s (length mn)); lia.
      * rewrite I2, at_upd by auto. cbn [slot_sum].
        destruct (Nat.eqb_spec slot s) as [->|]; cbn [andb]; [|lia].
        destruct (Nat.ltb_spec s (length mx)); lia.
    + destruct (ch_optional c); [|discriminate]. apply (IH cs) in H as [I1 I2]; auto.
Qed.

Theorem sched_is_feasible_debug d S :
  fits d -> wf_input d -> length S = n_choices d ->
  sched_is_feasible Debug d S = Ok true -> valid_scheduling d S.
Proof.
  intros HF HW HL H.
  destruct (sched_is_feasible_sound Debug d S HF HW HL H) as (V1 & V2 & V3).
  constructor; auto.
  unfold sched_is_feasible in H.
  apply bind_ok in H as (r & Hr & H). destruct r as [[mn mx]|]; [|discriminate].
  pose proof (feas_sums_shape _ _ _ _ _ _ _ _ Hr) as (E1 & E2 & _). rewrite repeat_length in *.
  apply (feas_sums_debug d S (i_choices d)) in Hr as [I1 I2]; auto.
  rewrite repeat_length in *.
  rewrite sum_check_true in H by auto. cbn [bind] in H.
  destruct (forallb _ _) eqn:Eb; [|discriminate].
  intros s Hs. rewrite forallb_forall in Eb. specialize (Eb s).
  rewrite in_seq in Eb. specialize (Eb ltac:(unfold n_slots; lia)).
  apply negb_true_iff, orb_false_iff in Eb as [F1 F2]. apply N.ltb_ge in F1, F2.
  rewrite sat_u32_small in F1, F2 by (destruct HF as [F _ _]; unfold n_choosers; lia).
  rewrite I1, at_zeros in F1 by auto. rewrite I2, at_zeros in F2 by auto.
  unfold n_choosers in *. lia.
Qed.
