(** The invariant of the scheduling search: structure and bookkeeping (C47). *)
From Verif Require Import Base M_Data Spec M_Scoring P_Scoring P_Feasible Spec_Search M_Rng M_Critical M_Search P_Sums P_Rng.
From Coq Require Import Permutation.

(** Where the decisions so far put the choices. *)
Definition placed (dec : list decision) : scheduling := map dec_slot dec.

(** [v] is the machine value of the exact sum [e]. *)
Definition rep (pr : profile) (v e : N) : Prop :=
  match pr with Debug => v = e /\ (e <= u32_max)%N | Release => v = (e mod 4294967296)%N end.
Lemma rep_exact pr v e : (e <= u32_max)%N -> rep pr v e -> v = e.
Proof.
  unfold rep, u32_max. destruct pr; [tauto|]. intros H ->. apply N.mod_small. lia.
Qed.
Lemma rep_add pr v e x r : (x <= u32_max)%N -> rep pr v e -> add_u32 pr v x = Ok r -> rep pr r (e + x)%N.
Proof.
  unfold rep, add_u32, u32_max. intros Hx. destruct (N.leb_spec (v + x) 4294967295) as [H|H]; destruct pr; try discriminate.
  - intros [-> _] E. injection E as <-. split; auto.
  - intros -> E. injection E as <-. rewrite <- (N.mod_small (e mod 4294967296 + x) 4294967296) by lia. apply N.add_mod_idemp_l. lia.
  - intros -> E. injection E as <-. apply N.add_mod_idemp_l. lia.
Qed.
Lemma rep_sub pr v e x : (x <= u32_max)%N -> rep pr v (e + x)%N -> exists r, sub_u32 pr v x = Ok r /\ rep pr r e.
Proof.
  unfold rep, sub_u32, u32_max. intros Hx. destruct pr.
  - intros [-> H]. destruct (N.leb_spec x (e + x)); [|lia]. eexists; split; [reflexivity|]. split; lia.
  - intros ->. pose proof (N.div_mod (e + x) 4294967296 ltac:(lia)) as E2. pose proof (N.mod_lt (e + x) 4294967296 ltac:(lia)) as L2.
    set (q := ((e + x) / 4294967296)%N) in *. set (r := ((e + x) mod 4294967296)%N) in *. clearbody q r.
    destruct (N.leb_spec x r) as [H|H]; eexists; (split; [reflexivity|]).
    + apply (N.mod_unique e 4294967296 q); lia.
    + apply (N.mod_unique e 4294967296 (q - 1)); lia.
Qed.

(** [l] lists the machine values of the slot sums of [f]. *)
Definition tracks (pr : profile) (f : choice_data -> N) (d : input_data) (dec : list decision) (l : list N) : Prop :=
  length l = length (i_slots d) /\
  forall s v, nth_error l s = Some v -> rep pr v (slot_sum f (i_choices d) (placed dec) s).

Lemma map_upd {A B} (f : A -> B) l : forall i x, map f (upd l i x) = upd (map f l) i (f x).
Proof. induction l as [|a l IH]; intros [|i] x; cbn; auto. rewrite IH; auto. Qed.
Lemma placed_upd dec c x : placed (upd dec c x) = upd (placed dec) c (dec_slot x).
Proof. apply map_upd. Qed.
Lemma placed_nth dec c x : nth_error dec c = Some x -> nth_error (placed dec) c = Some (dec_slot x).
Proof. intros H. unfold placed. apply map_nth_error; auto. Qed.
Lemma placed_length dec : length (placed dec) = length dec.
Proof. apply map_length. Qed.

Lemma weigh_same f ch s : weigh f ch (Some s) s = f ch.
Proof. cbn. rewrite Nat.eqb_refl. auto. Qed.
Lemma weigh_other f ch s t : s <> t -> weigh f ch (Some s) t = 0%N.
Proof. cbn. destruct (Nat.eqb_spec s t); congruence. Qed.

Lemma tracks_add pr f d dec l l' c x s ch : tracks pr f d dec l -> nth_error dec c = Some x -> dec_slot x = None ->
  nth_error (i_choices d) c = Some ch -> (f ch <= u32_max)%N -> bump (add_u32 pr) l s (f ch) = Ok l' ->
  tracks pr f d (upd dec c (InSlot s)) l'.
Proof.
  intros [HL HT] Hx Hn Hc Hf H. unfold bump in H. apply bind_ok in H as (a & Ha & H). apply bind_ok in H as (b & Hb & H).
  apply set_ok in H as [Hs ->]. apply get_ok in Ha. split; [rewrite upd_length; auto|]. intros t v Hv.
  pose proof (slot_sum_upd f (i_choices d) (placed dec) c t (Some s) None ch) as E.
  rewrite placed_upd. cbn [dec_slot]. rewrite <- Hn in E at 1. specialize (E (placed_nth _ _ _ Hx) Hc). cbn [weigh] in E.
  destruct (Nat.eq_dec s t) as [<-|Hne].
  - rewrite nth_error_upd_same in Hv by auto. injection Hv as <-. rewrite Nat.eqb_refl in E.
    replace (slot_sum f (i_choices d) (upd (placed dec) c (Some s)) s) with (slot_sum f (i_choices d) (placed dec) s + f ch)%N by lia.
    eapply rep_add; eauto.
  - rewrite nth_error_upd_other in Hv by auto. destruct (Nat.eqb_spec s t); [contradiction|].
    replace (slot_sum f (i_choices d) (upd (placed dec) c (Some s)) t) with (slot_sum f (i_choices d) (placed dec) t) by lia. eauto.
Qed.
Lemma tracks_add_total pr f d dec l c x s ch : tracks pr f d dec l -> nth_error dec c = Some x -> dec_slot x = None ->
  length dec = length (i_choices d) ->
  nth_error (i_choices d) c = Some ch -> (total f d <= u32_max)%N -> s < length (i_slots d) ->
  exists l', bump (add_u32 pr) l s (f ch) = Ok l'.
Proof.
  intros [HL HT] Hx Hn HD Hc Hf Hs. unfold bump. destruct (nth_error_in_range l s) as [v Hv]; [lia|].
  rewrite (proj2 (get_ok _ _ _) Hv). cbn [bind].
  pose proof (slot_sum_upd f (i_choices d) (placed dec) c s (Some s) None ch) as E.
  rewrite <- Hn in E at 1. specialize (E (placed_nth _ _ _ Hx) Hc). rewrite weigh_same in E. cbn [weigh] in E.
  pose proof (slot_sum_total f d (upd (placed dec) c (Some s)) s) as B. rewrite upd_length, placed_length in B. specialize (B HD).
  pose proof (rep_exact pr v (slot_sum f (i_choices d) (placed dec) s) ltac:(lia) (HT s v Hv)) as ->.
  rewrite add_u32_ok by lia. cbn [bind]. unfold set. destruct (Nat.ltb_spec s (length l)); [eauto|lia].
Qed.
Lemma tracks_sub pr f d dec l c s ch y : tracks pr f d dec l -> nth_error dec c = Some (InSlot s) -> dec_slot y = None ->
  s < length (i_slots d) -> nth_error (i_choices d) c = Some ch -> (f ch <= u32_max)%N ->
  exists l', bump (sub_u32 pr) l s (f ch) = Ok l' /\ tracks pr f d (upd dec c y) l'.
Proof.
  intros [HL HT] Hx Hy Hs Hc Hf. unfold bump. destruct (nth_error_in_range l s) as [v Hv]; [lia|].
  rewrite (proj2 (get_ok _ _ _) Hv). cbn [bind].
  assert (E : forall t, (slot_sum f (i_choices d) (placed (upd dec c y)) t + weigh f ch (Some s) t = slot_sum f (i_choices d) (placed dec) t)%N).
  { intros t. rewrite placed_upd, Hy. pose proof (slot_sum_upd f (i_choices d) (placed dec) c t None (Some s) ch (placed_nth _ _ _ Hx) Hc) as E.
    cbn [weigh] in E |- *. lia. }
  pose proof (HT s v Hv) as R. rewrite <- (E s), weigh_same in R. destruct (rep_sub pr v _ (f ch) Hf R) as (r & -> & Rr). cbn [bind].
  unfold set. destruct (Nat.ltb_spec s (length l)); [|lia]. eexists; split; [reflexivity|].
  split; [rewrite upd_length; auto|]. intros t w Hw. destruct (Nat.eq_dec s t) as [<-|Hne].
  - rewrite nth_error_upd_same in Hw by auto. injection Hw as <-. auto.
  - rewrite nth_error_upd_other in Hw by auto. specialize (HT t w Hw). rewrite <- (E t), weigh_other, N.add_0_r in HT; auto.
Qed.
(** Deciding "not held" on an undecided choice, or undeciding it, moves no sum. *)
Lemma tracks_none pr f d dec l c x y : tracks pr f d dec l -> nth_error dec c = Some x -> dec_slot x = None -> dec_slot y = None ->
  c < length (i_choices d) -> tracks pr f d (upd dec c y) l.
Proof.
  intros [HL HT] Hx Hn Hy Hc. split; auto. intros s v Hv. rewrite placed_upd, Hy.
  destruct (nth_error_in_range (i_choices d) c Hc) as [ch Hch].
  pose proof (slot_sum_upd f (i_choices d) (placed dec) c s None None ch) as E. rewrite <- Hn in E at 1.
  specialize (E (placed_nth _ _ _ Hx) Hch). cbn [weigh] in E.
  replace (slot_sum f (i_choices d) (upd (placed dec) c None) s) with (slot_sum f (i_choices d) (placed dec) s) by lia. eauto.
Qed.

(** A candidate the search may try for choice [c]. *)
Definition cand_ok (d : input_data) (c : nat) (x : option nat) : Prop :=
  match x with
  | Some s => s < length (i_slots d)
  | None => exists ch, nth_error (i_choices d) c = Some ch /\ ch_optional ch = true
  end.
Fixpoint buckets_ok (d : input_data) (order : list nat) (stack : list (list (option nat))) : Prop :=
  match stack with
  | [] => True
  | b :: rest => (forall c, nth_error order (length rest) = Some c -> forall x, In x b -> cand_ok d c x) /\
                 length b <= length (i_slots d) + 1 /\ buckets_ok d order rest
  end.

Record state_ok (pr : profile) (d : input_data) (st : sstate) : Prop := {
  so_len : length (st_dec st) = length (i_choices d);
  so_slots : forall c s, nth_error (st_dec st) c = Some (InSlot s) -> s < length (i_slots d);
  so_omit : forall c, nth_error (st_dec st) c = Some Omitted -> cand_ok d c None;
  so_min : tracks pr ch_min d (st_dec st) (st_min st);
  so_max : tracks pr ch_max d (st_dec st) (st_max st);
  so_cnt : tracks pr one d (st_dec st) (st_cnt st)
}.

Record inv (pr : profile) (d : input_data) (order : list nat) (m : mach) : Prop := {
  iv_depth : m_depth m <= length order;
  iv_stack : length (m_stack m) <= length order /\ (length (m_stack m) = m_depth m \/ length (m_stack m) = Datatypes.S (m_depth m));
  iv_dec : forall i c, nth_error order i = Some c -> (nth_error (st_dec (m_st m)) c = Some Undecided <-> m_depth m <= i);
  iv_buckets : buckets_ok d order (m_stack m);
  iv_state : state_ok pr d (m_st m)
}.

Lemma state_undecide pr d st c y : wf_input d -> state_ok pr d st -> c < length (i_choices d) -> dec_slot y = None ->
  (y = Omitted -> cand_ok d c None) ->
  exists st', remove_sums pr d st c = Ok st' /\ st_dec st' = st_dec st /\
    state_ok pr d (mkState (upd (st_dec st) c y) (st_min st') (st_max st') (st_cnt st')).
Proof.
  intros HW [H1 H2 H3 H4 H5 H6] Hc Hy Ho. unfold remove_sums. destruct (nth_error_in_range (st_dec st) c) as [x Hx]; [lia|].
  rewrite (proj2 (get_ok _ _ _) Hx). cbn [bind].
  destruct (nth_error_in_range (i_choices d) c Hc) as [ch Hch]. destruct (wf_bounds_u32 _ HW ch (nth_error_In _ _ Hch)) as [B1 B2].
  assert (HS : forall c0 s, nth_error (upd (st_dec st) c y) c0 = Some (InSlot s) -> s < length (i_slots d)).
  { intros c0 s. rewrite nth_error_upd. destruct (c =? c0); [|apply H2]. destruct (c <? _); intros E; [|discriminate].
    injection E as ->. discriminate. }
  assert (HO : forall c0, nth_error (upd (st_dec st) c y) c0 = Some Omitted -> cand_ok d c0 None).
  { intros c0. rewrite nth_error_upd. destruct (Nat.eqb_spec c c0) as [->|]; [|apply H3]. destruct (c0 <? _); intros E; [|discriminate].
    injection E as ->. auto. }
  destruct x as [| |s].
  1,2: exists st; split; [reflexivity|]; split; [reflexivity|]; constructor; cbn [st_dec st_min st_max st_cnt]; auto;
       [rewrite upd_length; auto|eapply tracks_none; eauto..].
  rewrite (proj2 (get_ok _ _ _) Hch). cbn [bind].
  destruct (tracks_sub pr ch_min d _ _ c s ch y H4 Hx Hy (H2 _ _ Hx) Hch B1) as (l1 & -> & T1). cbn [bind].
  destruct (tracks_sub pr ch_max d _ _ c s ch y H5 Hx Hy (H2 _ _ Hx) Hch B2) as (l2 & -> & T2). cbn [bind].
  destruct (tracks_sub pr one d _ _ c s ch y H6 Hx Hy (H2 _ _ Hx) Hch ltac:(unfold one, u32_max; lia)) as (l3 & E3 & T3).
  change (one ch) with 1%N in E3. rewrite E3. cbn [bind].
  eexists; split; [reflexivity|]. split; [reflexivity|]. constructor; cbn [st_dec st_min st_max st_cnt]; auto. rewrite upd_length; auto.
Qed.

Lemma clear_ok pr d st c : wf_input d -> state_ok pr d st -> c < length (i_choices d) ->
  exists st', clear_decision pr d st c = Ok st' /\ state_ok pr d st' /\ st_dec st' = upd (st_dec st) c Undecided.
Proof.
  intros HW HS Hc. destruct (state_undecide pr d st c Undecided HW HS Hc eq_refl ltac:(discriminate)) as (st' & E & ED & HS').
  unfold clear_decision. rewrite E. cbn [bind]. unfold set. rewrite ED.
  destruct (Nat.ltb_spec c (length (st_dec st))); [|rewrite (so_len _ _ _ HS) in *; lia]. cbn [bind].
  eexists; split; [reflexivity|]. split; auto.
Qed.

Lemma apply_ok pr d st c x st' : wf_input d -> state_ok pr d st -> c < length (i_choices d) ->
  nth_error (st_dec st) c = Some Undecided -> cand_ok d c x -> apply_decision pr d st c x = Ok st' ->
  state_ok pr d st' /\ st_dec st' = upd (st_dec st) c (match x with Some s => InSlot s | None => Omitted end).
Proof.
  intros HW HS Hc Hu Hx H. unfold apply_decision, remove_sums in H. rewrite (proj2 (get_ok _ _ _) Hu) in H. cbn [bind] in H.
  pose proof HS as [H1 H2 H3 H4 H5 H6].
  destruct (nth_error_in_range (i_choices d) c Hc) as [ch Hch]. destruct (wf_bounds_u32 _ HW ch (nth_error_In _ _ Hch)) as [B1 B2].
  destruct x as [s|].
  - rewrite (proj2 (get_ok _ _ _) Hch) in H. cbn [bind] in H.
    apply bind_ok in H as (l1 & E1 & H). apply bind_ok in H as (l2 & E2 & H). apply bind_ok in H as (l3 & E3 & H).
    apply bind_ok in H as (dec & E4 & H). apply set_ok in E4 as [_ ->]. injection H as <-. cbn [st_dec]. split; auto.
    constructor; cbn [st_dec st_min st_max st_cnt].
    + rewrite upd_length; auto.
    + intros c0 t. rewrite nth_error_upd. destruct (c =? c0); [|apply H2]. destruct (c <? _); intros E; [|discriminate]. injection E as <-. auto.
    + intros c0. rewrite nth_error_upd. destruct (c =? c0); [|apply H3]. destruct (c <? _); discriminate.
    + eapply tracks_add; eauto.
    + eapply tracks_add; eauto.
    + eapply tracks_add; eauto. unfold one, u32_max; lia.
  - apply bind_ok in H as (dec & E4 & H). apply set_ok in E4 as [_ ->]. injection H as <-. cbn [st_dec]. split; auto.
    constructor; cbn [st_dec st_min st_max st_cnt].
    + rewrite upd_length; auto.
    + intros c0 t. rewrite nth_error_upd. destruct (c =? c0); [|apply H2]. destruct (c <? _); intros E; [|discriminate]. discriminate.
    + intros c0. rewrite nth_error_upd. destruct (Nat.eqb_spec c c0) as [->|]; [|apply H3]. auto.
    + eapply tracks_none; eauto.
    + eapply tracks_none; eauto.
    + eapply tracks_none; eauto.
Qed.

(** ** Candidates *)
Lemma mfilter_in {A} (f : A -> outcome bool) l r : mfilter f l = Ok r -> forall x, In x r <-> In x l /\ f x = Ok true.
Proof.
  revert r; induction l as [|a l IH]; cbn; intros r H x.
  - injection H as <-. cbn. tauto.
  - apply bind_ok in H as (b & Hb & H). apply bind_ok in H as (t & Ht & H). injection H as <-. specialize (IH t Ht x).
    destruct b; cbn [In]; rewrite IH; intuition; try congruence.
Qed.
Lemma mfilter_length {A} (f : A -> outcome bool) l r : mfilter f l = Ok r -> length r <= length l.
Proof.
  revert r; induction l as [|a l IH]; cbn; intros r H.
  - injection H as <-. auto.
  - apply bind_ok in H as (b & Hb & H). apply bind_ok in H as (t & Ht & H). injection H as <-. specialize (IH t Ht). destruct b; cbn; lia.
Qed.
Lemma mfilter_nodup {A} (f : A -> outcome bool) l r : NoDup l -> mfilter f l = Ok r -> NoDup r.
Proof.
  revert r; induction l as [|a l IH]; cbn; intros r HN H.
  - injection H as <-. auto.
  - apply bind_ok in H as (b & Hb & H). apply bind_ok in H as (t & Ht & H). injection H as <-. inversion HN; subst.
    destruct b; auto. constructor; auto. rewrite (mfilter_in _ _ _ Ht). tauto.
Qed.
Lemma insert_key_perm x l : Permutation (x :: l) (insert_key x l).
Proof. induction l as [|y l IH]; cbn; auto. destruct (key_le x y); auto. rewrite perm_swap. constructor; auto. Qed.
Lemma sort_key_perm l : Permutation l (sort_key l).
Proof. induction l as [|x l IH]; cbn; auto. rewrite <- insert_key_perm. constructor; auto. Qed.

Lemma feasible_slots_perm pr d o t st c l : fair o -> feasible_slots pr d o t st c = Ok l ->
  exists ch slots none_ok, nth_error (i_choices d) c = Some ch /\
    (if ch_optional ch then sat_constraints pr d c None st else Ok false) = Ok none_ok /\
    passing_slots pr d st c = Ok slots /\ Permutation (map Some slots ++ if none_ok : bool then [None] else []) l.
Proof.
  intros HF H. unfold feasible_slots in H. apply bind_ok in H as (ch & Hch & H). apply get_ok in Hch.
  apply bind_ok in H as (none_ok & Hn & H). apply bind_ok in H as (slots & Hs & H). apply bind_ok in H as (keyed & Hk & H).
  exists ch, slots, none_ok. repeat (split; auto).
  set (L := map (fun ks : N * nat => Some (snd ks)) (sort_key keyed)) in H. set (R := if none_ok then [None] else []) in *.
  destruct (riffle_shuffle_perm o t L R HF) as (res & E & HP). rewrite E in H. injection H as <-.
  rewrite <- HP. apply Permutation_app_tail. unfold L. rewrite <- (Permutation_map _ (sort_key_perm keyed)).
  assert (E2 : map snd keyed = slots).
  { clear - Hk. revert keyed Hk. induction slots as [|s slots IH]; cbn; intros keyed H; [injection H as <-; auto|].
    apply bind_ok in H as (y & Hy & H). apply bind_ok in Hy as (mm & _ & Hy). injection Hy as <-.
    apply bind_ok in H as (ys & Hys & H). injection H as <-. cbn. f_equal; auto. }
  rewrite <- E2, map_map. apply Permutation_refl.
Qed.

Lemma node_candidates_ok pr d o sets suffix t st depth c l : fair o -> node_candidates pr d o sets suffix t st depth c = Ok l ->
  (forall x, In x l -> cand_ok d c x) /\ length l <= length (i_slots d) + 1.
Proof.
  intros HF H. unfold node_candidates in H.
  apply bind_ok in H as (avail & _ & H). apply bind_ok in H as (imp & _ & H). apply bind_ok in H as (dead & _ & H).
  destruct dead; [injection H as <-; split; [intros ? []|cbn; lia]|].
  apply bind_ok in H as (crit & Hc & H). destruct crit as [|s [|s' crit]].
  - destruct (feasible_slots_perm _ _ _ _ _ _ _ HF H) as (ch & slots & none_ok & Hch & Hn & Hs & HP). split.
    + intros x Hx. apply (Permutation_in _ (Permutation_sym HP)) in Hx. apply in_app_or in Hx as [Hx|Hx].
      * apply in_map_iff in Hx as (s & <- & Hin). apply (mfilter_in _ _ _ Hs) in Hin as [Hin _]. apply in_seq in Hin. cbn. lia.
      * destruct none_ok; [|destruct Hx]. destruct Hx as [<-|[]]. cbn. exists ch; split; auto. destruct (ch_optional ch); auto; discriminate.
    + rewrite <- (Permutation_length HP), app_length, map_length. pose proof (mfilter_length _ _ _ Hs) as L. rewrite seq_length in L.
      destruct none_ok; cbn; lia.
  - apply bind_ok in H as (b & _ & H). injection H as <-.
    assert (In s [s]) as Hin by (left; auto). apply (mfilter_in _ _ _ Hc) in Hin as [Hin _]. apply in_seq in Hin.
    destruct b; [|split; [intros ? []|cbn; lia]]. split; [|cbn; lia]. intros x [<-|[]]. cbn. lia.
  - injection H as <-. split; [intros ? []|cbn; lia].
Qed.

(** ** One turn *)
Record turn (pr : profile) (d : input_data) (o : oracle) (late : nat -> bool) (sets : list cset) (order : list nat) (suffix : list N)
  (m : mach) (choice : nat) (bucket : list (option nat)) (rest : list (list (option nat))) : Prop := {
  tu_choice : nth_error order (m_depth m) = Some choice;
  tu_late : late (m_tick m) = false;
  tu_stack : (length (m_stack m) <= m_depth m /\ rest = m_stack m /\
              node_candidates pr d o sets suffix (Datatypes.S (m_tick m)) (m_st m) (m_depth m) choice = Ok bucket) \/
             (m_depth m < length (m_stack m) /\ m_stack m = bucket :: rest);
  tu_rest : length rest = m_depth m
}.
Lemma step_inv pr d o late sets order suffix m r : step pr d o late sets order suffix m = Ok r ->
  (exists m' choice bucket rest, r = Continue m' /\ turn pr d o late sets order suffix m choice bucket rest /\
     ((exists depth' prev st, bucket = [] /\ m_depth m = Datatypes.S depth' /\ nth_error order depth' = Some prev /\
         clear_decision pr d (m_st m) prev = Ok st /\ m' = mkMach st rest depth' (Datatypes.S (Datatypes.S (m_tick m)))) \/
      (exists next bucket' st, bucket = next :: bucket' /\ apply_decision pr d (m_st m) choice next = Ok st /\
         m' = mkMach st (bucket' :: rest) (Datatypes.S (m_depth m)) (Datatypes.S (Datatypes.S (m_tick m)))))) \/
  (m_depth m < length order /\ late (m_tick m) = true /\ r = Done STimeout (Datatypes.S (m_tick m))) \/
  (exists choice rest, r = Done SExhausted (Datatypes.S (Datatypes.S (m_tick m))) /\ m_depth m = 0 /\ turn pr d o late sets order suffix m choice [] rest) \/
  (length order <= m_depth m /\ exists res, leaf pr d (m_st m) = Ok res /\ r = Done res (m_tick m)).
Proof.
  unfold step. intros H. destruct (Nat.ltb_spec (m_depth m) (length order)) as [Hlt|Hge].
  2:{ right; right; right. split; auto. apply bind_ok in H as (res & Hr & H). injection H as <-. eauto. }
  destruct (late (m_tick m)) eqn:El. { injection H as <-. right; left; auto. }
  apply bind_ok in H as (choice & Hch & H). apply get_ok in Hch. apply bind_ok in H as (stack & Hst & H).
  destruct stack as [|bucket rest]; [discriminate|].
  destruct (Nat.eqb_spec (length rest) (m_depth m)) as [Hr|]; [|discriminate]. cbn [negb] in H.
  assert (HT : turn pr d o late sets order suffix m choice bucket rest).
  { constructor; auto. destruct (Nat.leb_spec (length (m_stack m)) (m_depth m)) as [L|L].
    - apply bind_ok in Hst as (b & Hb & E). injection E as <- <-. left; auto.
    - injection Hst as E. right; auto. }
  destruct bucket as [|next bucket'].
  - destruct (m_depth m) as [|depth'] eqn:Ed.
    + injection H as <-. right; right; left. exists choice, rest. auto.
    + apply bind_ok in H as (prev & Hp & H). apply get_ok in Hp. apply bind_ok in H as (st & Hc & H). injection H as <-.
      left. do 4 eexists. split; [reflexivity|]. split; [exact HT|]. left. exists depth', prev, st. auto.
  - apply bind_ok in H as (st & Hc & H). injection H as <-. left. do 4 eexists. split; [reflexivity|]. split; [exact HT|].
    right. exists next, bucket', st. auto.
Qed.

(** The start of a search. *)
Lemma nth_error_repeat_lt {A} (x : A) n i : i < n -> nth_error (repeat x n) i = Some x.
Proof. revert i; induction n as [|n IH]; intros [|i] H; cbn; auto; try lia. apply IH; lia. Qed.
Lemma slot_sum_none f cs : forall S s, (forall c x, nth_error S c = Some x -> x = None) -> slot_sum f cs S s = 0%N.
Proof.
  induction cs as [|c cs IH]; intros [|x S] s H; cbn [slot_sum]; auto. rewrite (H 0 x eq_refl). rewrite IH; auto.
  intros c0 y Hy. apply (H (Datatypes.S c0) y Hy).
Qed.
Lemma start_state_ok pr d : state_ok pr d (new_state (length (i_choices d)) (length (i_slots d))).
Proof.
  assert (HT : forall f, tracks pr f d (repeat Undecided (length (i_choices d))) (repeat 0%N (length (i_slots d)))).
  { intros f. split; [apply repeat_length|]. intros s v Hv. apply nth_error_repeat_inv in Hv as [-> _].
    rewrite slot_sum_none; [destruct pr; cbn; unfold u32_max; auto; split; lia|].
    intros c x Hx. unfold placed in Hx. rewrite nth_error_map in Hx. destruct (nth_error _ c) eqn:E; [|discriminate].
    apply nth_error_repeat_inv in E as [-> _]. cbn in Hx. congruence. }
  constructor; cbn [new_state st_dec st_min st_max st_cnt]; auto.
  - apply repeat_length.
  - intros c s Hc. apply nth_error_repeat_inv in Hc as [E _]. discriminate.
  - intros c Hc. apply nth_error_repeat_inv in Hc as [E _]. discriminate.
Qed.

Definition start (d : input_data) (tick : nat) : mach := mkMach (new_state (length (i_choices d)) (length (i_slots d))) [] 0 tick.
(** [order] lists every choice once. *)
Definition is_order (d : input_data) (order : list nat) : Prop := Permutation (seq 0 (length (i_choices d))) order.
Lemma order_lt d order i c : is_order d order -> nth_error order i = Some c -> c < length (i_choices d).
Proof. intros HO H. apply nth_error_In, (Permutation_in _ (Permutation_sym HO)), in_seq in H. lia. Qed.
Lemma order_nodup d order : is_order d order -> NoDup order.
Proof. intros HO. eapply Permutation_NoDup; [exact HO|apply seq_NoDup]. Qed.
Lemma order_length d order : is_order d order -> length order = length (i_choices d).
Proof. intros HO. rewrite <- (Permutation_length HO), seq_length. auto. Qed.
Lemma order_inj d order i j c : is_order d order -> nth_error order i = Some c -> nth_error order j = Some c -> i = j.
Proof.
  intros HO Hi Hj. eapply (proj1 (NoDup_nth_error order) (order_nodup _ _ HO)); [eapply nth_error_lt; eauto|congruence].
Qed.
Lemma order_all d order c : is_order d order -> c < length (i_choices d) -> exists i, nth_error order i = Some c.
Proof. intros HO Hc. apply In_nth_error. eapply Permutation_in; [exact HO|]. apply in_seq. lia. Qed.

Lemma start_inv pr d order tick : is_order d order -> inv pr d order (start d tick).
Proof.
  intros HO. constructor; cbn; auto using start_state_ok; try lia.
  intros i c Hc. split; [lia|]. intros _. apply nth_error_repeat_lt. eapply order_lt; eauto.
Qed.

Section Steps.
  Variables (pr : profile) (d : input_data) (o : oracle) (late : nat -> bool) (sets : list cset) (order : list nat) (suffix : list N).
  Hypothesis HW : wf_input d.
  Hypothesis HF : fair o.
  Hypothesis HO : is_order d order.

  Lemma turn_buckets m choice bucket rest : inv pr d order m -> turn pr d o late sets order suffix m choice bucket rest ->
    buckets_ok d order (bucket :: rest).
  Proof.
    intros [I1 I2 I3 I4 I5] [T1 T2 T3 T4]. destruct T3 as [(_ & -> & HN)|(_ & <-)]; auto.
    destruct (node_candidates_ok _ _ _ _ _ _ _ _ _ _ HF HN) as [C1 C2]. cbn [buckets_ok]. repeat split; auto.
    intros c Hc x Hx. rewrite T4, T1 in Hc. injection Hc as <-. auto.
  Qed.

  Lemma step_keeps m m' : inv pr d order m -> step pr d o late sets order suffix m = Ok (Continue m') -> inv pr d order m'.
  Proof.
    intros HI H. apply step_inv in H as [(m'' & choice & bucket & rest & E & HT & HC)|[(_ & _ & E)|[(c & r & E & _)|(_ & r & _ & E)]]];
      try discriminate. injection E as <-.
    pose proof (turn_buckets _ _ _ _ HI HT) as HB. pose proof HI as [I1 I2 I3 I4 I5]. destruct HT as [T1 T2 T3 T4].
    pose proof (nth_error_lt _ _ _ T1) as Hlt.
    destruct HC as [(depth' & prev & st & -> & Ed & Hp & Hc & ->)|(next & bucket' & st & -> & Ha & ->)].
    - destruct HB as (_ & _ & HB). pose proof (order_lt _ _ _ _ HO Hp) as Hpl.
      destruct (clear_ok pr d (m_st m) prev HW I5 Hpl) as (st' & E & S' & D'). rewrite E in Hc. injection Hc as <-.
      constructor; cbn [m_st m_stack m_depth]; auto; try lia.
      + intros i c Hi. rewrite D', nth_error_upd. destruct (Nat.eqb_spec prev c) as [->|Hne].
        * assert (i = depth') as -> by (eapply order_inj; eauto). rewrite (so_len _ _ _ I5).
          destruct (Nat.ltb_spec c (length (i_choices d))); [|lia]. split; auto.
        * rewrite (I3 i c Hi). assert (i <> depth') by congruence. lia.
    - destruct HB as (HB1 & HB2 & HB). cbn [length] in HB2.
      assert (Hu : nth_error (st_dec (m_st m)) choice = Some Undecided) by (apply (I3 _ _ T1); auto).
      assert (Hcand : cand_ok d choice next) by (apply HB1; [rewrite T4; auto|left; auto]).
      destruct (apply_ok _ _ _ _ _ _ HW I5 (order_lt _ _ _ _ HO T1) Hu Hcand Ha) as [S' D'].
      constructor; cbn [m_st m_stack m_depth buckets_ok length]; auto; try lia.
      + intros i c Hi. rewrite D', nth_error_upd. destruct (Nat.eqb_spec choice c) as [->|Hne].
        * assert (i = m_depth m) as -> by (eapply order_inj; eauto). rewrite (so_len _ _ _ I5).
          pose proof (order_lt _ _ _ _ HO T1). destruct (Nat.ltb_spec c (length (i_choices d))); [|lia].
          split; [|lia]. destruct next; discriminate.
        * rewrite (I3 i c Hi). assert (i <> m_depth m) by congruence. lia.
      + repeat split; auto; [|lia]. intros c Hc x Hx. apply HB1; auto. right; auto.
  Qed.
End Steps.
