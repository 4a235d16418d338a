(** Proofs for C82: how far the counter advances. *)
From Verif Require Import Base M_Data M_Scoring M_Rng M_Critical M_Search M_Flow M_Climb P_Climb1 M_Effort Spec_Effort P_Effort.
From Coq Require Import Permutation Sorted.

(** The counter after instances with the limits [ls]. *)
Definition after (m : meter) (ls : list N) : meter :=
  mkMeter (mt_count m + length ls) (mt_sent m ++ seq (mt_count m + 1) (length ls)) (mt_limits m ++ ls).
Lemma after_nil m : after m [] = m.
Proof. destruct m. unfold after. cbn. rewrite !app_nil_r, Nat.add_0_r. auto. Qed.
Lemma after_one m x : tick_meter x m = after m [x]. Proof. destruct m; reflexivity. Qed.
Lemma after_app m a b : after (after m a) b = after m (a ++ b).
Proof.
  unfold after. cbn [mt_count mt_sent mt_limits]. rewrite app_length, seq_app, <- !app_assoc, Nat.add_assoc.
  replace (mt_count m + length a + 1) with (mt_count m + 1 + length a) by lia. reflexivity.
Qed.

Section Flow.
Context (pr : profile) (d : input_data) (sd : static) (cost : N -> Z) (ev : env) (dl : bool).
Lemma limit_meter st limit t m r t' m' : solve_with_limit_m pr d sd cost ev dl st limit t m = Ok (r, t', m') ->
  (m' = m /\ dl = true /\ ev_expired ev t = true) \/ m' = after m [limit].
Proof.
  unfold solve_with_limit_m. destruct (dl && ev_expired ev t) eqn:E1.
  - intros H. injection H as <- <- <-. apply andb_true_iff in E1. tauto.
  - intros H. apply bind_ok in H as (f & _ & H). right. rewrite <- after_one. destruct (dl && ev_expired ev (t + 1)); [congruence|].
    destruct (ev_lp ev (t + 2) f); [|congruence]. apply bind_ok in H as (A & _ & H). congruence.
Qed.
Lemma width_left low high : low <= high -> low + (high - low) / 2 - low <= (high + 1 - low) / 2.
Proof. intros H. pose proof (Nat.div_le_mono (high - low) (high + 1 - low) 2 ltac:(lia) ltac:(lia)). lia. Qed.
Lemma width_right low high : low <= high -> high - (low + (high - low) / 2) <= (high + 1 - low) / 2.
Proof.
  intros H. set (x := high - low). assert (high + 1 - low = x + 1) by lia. rewrite H0.
  pose proof (Nat.div_mod (x) 2 ltac:(lia)). pose proof (Nat.div_mod (x + 1) 2 ltac:(lia)).
  pose proof (Nat.mod_upper_bound x 2 ltac:(lia)). pose proof (Nat.mod_upper_bound (x + 1) 2 ltac:(lia)). lia.
Qed.
(** The number of halvings of [n] candidates. *)
Definition halvings (n : nat) : nat := match n with O => 0 | _ => Nat.log2 n + 1 end.
Lemma halvings_mono a b : a <= b -> halvings a <= halvings b.
Proof. intros H. destruct a as [|a]; [cbn; lia|]. destruct b as [|b]; [lia|]. unfold halvings. pose proof (Nat.log2_le_mono _ _ H). lia. Qed.
Lemma halvings_half n : 1 <= n -> halvings (n / 2) + 1 <= halvings n.
Proof.
  intros H. destruct n as [|n]; [lia|]. unfold halvings at 2. destruct n as [|n].
  - cbn. lia.
  - set (n' := S (S n)). assert (X : 1 <= n' / 2) by (apply Nat.div_le_lower_bound; unfold n'; lia).
    pose proof (Nat.log2_double (n' / 2) ltac:(lia)) as HL.
    pose proof (Nat.log2_le_mono (2 * (n' / 2)) n' ltac:(apply Nat.mul_div_le; lia)) as HM.
    unfold halvings. destruct (n' / 2); lia.
Qed.
Definition at_indices (levels : list N) (is : list nat) (ls : list N) : Prop := Forall2 (fun i x => nth_error levels i = Some x) is ls.
Lemma two_length {A B} (R : A -> B -> Prop) l m : Forall2 R l m -> length l = length m.
Proof. induction 1; cbn; auto. Qed.
Lemma search_meter st levels start fuel : forall low high best o t m r o' t' m', start <= low ->
  level_search_m (solve_with_limit_m pr d sd cost ev dl st) levels start fuel low high best o t m = Some (Ok (r, o', t', m')) ->
  exists is ls, m' = after m ls /\ at_indices levels is ls /\ NoDup is /\ (forall i, In i is -> low <= i <= high) /\
    length ls <= halvings (high + 1 - low) /\ (dl = false -> low <= high -> 1 <= length ls).
Proof.
  induction fuel as [|fuel IH]; intros low high best o t m r o' t' m' Hs; cbn [level_search_m]; destruct (Nat.leb_spec low high) as [Hle|Hgt]; cbn [negb]; try discriminate.
  1,3: intros H; assert (m' = m) by congruence; subst m'; exists [], []; rewrite after_nil; split; auto; split; [constructor|]; split; [constructor|];
       split; [intros i []|]; split; [cbn; lia|lia].
  set (mid := low + (high - low) / 2). assert (Hm : low <= mid <= high).
  { unfold mid. pose proof (Nat.div_le_upper_bound (high - low) 2 (high - low) ltac:(lia) ltac:(lia)). lia. }
  pose proof (width_left low high Hle) as WL. pose proof (width_right low high Hle) as WR. fold mid in WL, WR. clearbody mid.
  destruct (get levels mid) as [limit| |] eqn:EG; try discriminate. assert (HN : nth_error levels mid = Some limit).
  { unfold get in EG. destruct (nth_error levels mid); congruence. }
  destruct (solve_with_limit_m pr d sd cost ev dl st limit t m) as [[[r1 t1] m1]| |] eqn:ES; try discriminate.
  pose proof (limit_meter _ _ _ _ _ _ _ ES) as HM.
  assert (G : exists is1 ls1, m1 = after m ls1 /\ at_indices levels is1 ls1 /\ (is1 = [] \/ is1 = [mid]) /\ (dl = false -> is1 = [mid])).
  { destruct HM as [(-> & H1 & _)|HM]; [exists [], []; rewrite after_nil; split; auto; split; [constructor|]; split; auto; congruence|].
    exists [mid], [limit]. split; auto. split; [constructor; auto; constructor|]. auto. }
  clear HM ES. destruct G as (is1 & ls1 & -> & HI & Hone & Hall).
  assert (HL1 : length ls1 = length is1) by (symmetry; eapply two_length; eauto).
  pose proof (halvings_half (high + 1 - low) ltac:(lia)) as HH.
  assert (Fin : forall low' high' is2 ls2, start <= low' -> m' = after (after m ls1) ls2 -> at_indices levels is2 ls2 -> NoDup is2 ->
     (forall i, In i is2 -> low' <= i <= high') -> length ls2 <= halvings (high' + 1 - low') ->
     (low' = low /\ high' + 1 = mid) \/ (low' = mid + 1 /\ high' = high) ->
     exists is ls, m' = after m ls /\ at_indices levels is ls /\ NoDup is /\ (forall i, In i is -> low <= i <= high) /\
       length ls <= halvings (high + 1 - low) /\ (dl = false -> low <= high -> 1 <= length ls)).
  { intros low' high' is2 ls2 _ E H1 H2 H3 H4 Hcase. exists (is1 ++ is2), (ls1 ++ ls2). rewrite <- after_app. split; auto.
    split; [apply Forall2_app; auto|].
    assert (Hr : forall i, In i is2 -> low <= i <= high /\ i <> mid) by (intros i Hi; specialize (H3 i Hi); lia).
    split. { destruct Hone as [-> | ->]; auto. cbn. constructor; auto. intros X. apply Hr in X. lia. }
    split. { intros i Hi. apply in_app_or in Hi as [Hi|Hi]; [|apply Hr in Hi; lia]. destruct Hone as [-> | ->]; cbn in Hi; [tauto|]. destruct Hi as [<-|[]]; lia. }
    assert (HW : halvings (high' + 1 - low') <= halvings ((high + 1 - low) / 2)) by (apply halvings_mono; lia).
    rewrite app_length, HL1. split; [destruct Hone as [-> | ->]; cbn [length]; lia|].
    intros Hd _. rewrite (Hall Hd). cbn. lia. }
  destruct r1 as [A| |].
  - destruct (Nat.eqb_spec mid start) as [->|Hne].
    + intros H. assert (m' = after m ls1) by congruence. subst m'. apply (Fin (start + 1) high [] []); try (constructor; fail); try lia.
      all: try (rewrite after_nil; auto); try (intros i []); try (cbn; lia).
    + intros H. assert (1 <= mid) by lia. destruct (IH _ _ _ _ _ _ _ _ _ _ Hs H) as (is2 & ls2 & K1 & K2 & K3 & K4 & K5 & _).
      apply (Fin low (mid - 1) is2 ls2); auto. left. lia.
  - intros H. destruct (IH _ _ _ _ _ _ _ _ _ _ (Nat.le_trans _ _ _ Hs (Nat.le_trans _ _ _ (proj1 Hm) (Nat.le_add_r mid 1))) H) as (is2 & ls2 & K1 & K2 & K3 & K4 & K5 & _).
    apply (Fin (mid + 1) high is2 ls2); auto. lia.
  - intros H. destruct (IH _ _ _ _ _ _ _ _ _ _ (Nat.le_trans _ _ _ Hs (Nat.le_trans _ _ _ (proj1 Hm) (Nat.le_add_r mid 1))) H) as (is2 & ls2 & K1 & K2 & K3 & K4 & K5 & _).
    apply (Fin (mid + 1) high is2 ls2); auto. lia.
Qed.

(** Where the search starts. *)
Lemma position_sorted b : forall l i0, StronglySorted N.lt l ->
  match position_from b i0 l with
  | Some i => i0 <= i /\ i < i0 + length l /\ length l - (i - i0) = length (filter (fun x => b <=? x)%N l) /\
              (forall j x, i - i0 <= j -> nth_error l j = Some x -> (b <= x)%N)
  | None => filter (fun x => b <=? x)%N l = []
  end.
Proof.
  induction l as [|x l IH]; intros i0 HS; cbn [position_from filter]; auto. inversion HS as [|? ? HS' HF]; subst.
  destruct (N.leb_spec b x) as [Hb|Hb].
  - rewrite Nat.sub_diag. split; auto. cbn [length]. split; [lia|]. rewrite Forall_forall in HF.
    assert (X : forall y, In y l -> (b <= y)%N) by (intros y Hy; specialize (HF y Hy); lia).
    split. { f_equal. rewrite Nat.sub_0_r. clear -X. induction l as [|y l IH]; cbn; auto. rewrite (proj2 (N.leb_le b y)) by (apply X; left; auto). cbn. f_equal. apply IH. intros z Hz. apply X. right; auto. }
    intros [|j] y _ Hy; cbn in Hy; [congruence|]. apply X. eapply nth_error_In; eauto.
  - specialize (IH (S i0) HS'). destruct (position_from b (S i0) l) as [i|]; auto. destruct IH as (H1 & H2 & H3 & H4). cbn [length].
    split; [lia|]. split; [lia|]. split; [rewrite <- H3; lia|]. intros [|j] y Hj Hy; [lia|]. cbn in Hy. apply (H4 j y); auto. lia.
Qed.
Lemma start_ok bound : StronglySorted N.lt (i_levels d) -> i_levels d <> [] ->
  search_start d bound < length (i_levels d) /\ length (i_levels d) - search_start d bound = candidates d bound /\
  forall j x, search_start d bound <= j -> nth_error (i_levels d) j = Some x -> (bound <= x)%N \/ forall y, In y (i_levels d) -> (y <= x)%N.
Proof.
  intros HS HN. unfold search_start, candidates. pose proof (position_sorted bound (i_levels d) 0 HS) as H.
  assert (L : 1 <= length (i_levels d)) by (destruct (i_levels d); [congruence|cbn; lia]).
  destruct (position_from bound 0 (i_levels d)) as [i|].
  - destruct H as (_ & H2 & H3 & H4). rewrite Nat.sub_0_r in H3. split; [lia|]. split; [lia|]. intros j x Hj Hx. left. apply (H4 j x); auto. lia.
  - rewrite H. cbn. split; [lia|]. split; [lia|]. intros j x Hj Hx. right. intros y Hy.
    assert (j = length (i_levels d) - 1). { assert (j < length (i_levels d)) by (apply nth_error_Some; congruence). lia. } subst j.
    clear -HS Hx Hy. revert Hx. induction (i_levels d) as [|z l IH]; [destruct Hy|]. inversion HS as [|? ? HS' HF]; subst. destruct l as [|z' l].
    + cbn. intros E. injection E as <-. destruct Hy as [<-|[]]. lia.
    + intros E. replace (length (z :: z' :: l) - 1) with (S (length (z' :: l) - 1)) in E by (cbn; lia). cbn [nth_error] in E.
      destruct Hy as [<-|Hy]; [|apply IH; auto]. rewrite Forall_forall in HF. specialize (HF x (nth_error_In _ _ E)). lia.
Qed.

(** One call. *)
Lemma until_meter greedy bound sv S t m a m' :
  solve_until_m pr d sd cost greedy bound ev dl sv S t m = Some (Ok (a, m')) -> StronglySorted N.lt (i_levels d) ->
  exists ls, m' = after m ls /\
    (ar_cached a = true -> ls = []) /\
    (greedy = true -> length ls <= 1 /\ forall x, In x ls -> x = i_max_pref d) /\
    (greedy = false -> length ls <= Nat.log2 (candidates d bound) + 1 /\ NoDup ls /\
       forall x, In x ls -> In x (i_levels d) /\ ((bound <= x)%N \/ forall y, In y (i_levels d) -> (y <= x)%N)) /\
    (dl = false -> ar_cached a = false -> greedy = true \/ i_levels d <> [] -> 1 <= length ls).
Proof.
  intros H HS. unfold solve_until_m in H. destruct (prepare_state pr d sd (sv_state sv) S) as [st| |]; try discriminate.
  match type of H with context [match sv_cache sv with Some _ => _ | None => ?f end] => set (fresh := f) in H end.
  assert (Z : forall a0, a0 = a -> m' = m -> ar_cached a0 = true -> exists ls, m' = after m ls /\
    (ar_cached a = true -> ls = []) /\
    (greedy = true -> length ls <= 1 /\ forall x, In x ls -> x = i_max_pref d) /\
    (greedy = false -> length ls <= Nat.log2 (candidates d bound) + 1 /\ NoDup ls /\
       forall x, In x ls -> In x (i_levels d) /\ ((bound <= x)%N \/ forall y, In y (i_levels d) -> (y <= x)%N)) /\
    (dl = false -> ar_cached a = false -> greedy = true \/ i_levels d <> [] -> 1 <= length ls)).
  { intros a0 -> -> HC. exists []. rewrite after_nil. split; auto. split; auto. cbn. split; [intros _; split; [lia|intros x []]|].
    split; [intros _; split; [lia|]; split; [constructor|intros x []]|]. congruence. }
  assert (F : fresh = Some (Ok (a, m')) -> exists ls, m' = after m ls /\
    (ar_cached a = true -> ls = []) /\
    (greedy = true -> length ls <= 1 /\ forall x, In x ls -> x = i_max_pref d) /\
    (greedy = false -> length ls <= Nat.log2 (candidates d bound) + 1 /\ NoDup ls /\
       forall x, In x ls -> In x (i_levels d) /\ ((bound <= x)%N \/ forall y, In y (i_levels d) -> (y <= x)%N)) /\
    (dl = false -> ar_cached a = false -> greedy = true \/ i_levels d <> [] -> 1 <= length ls)).
  { clear Z H. unfold fresh. clear fresh. destruct greedy.
    - intros H. injection H as H. apply bind_ok in H as (((r & t') & m1) & H1 & H2).
      assert (m' = m1 /\ ar_cached a = false) as [-> HC].
      { destruct r; injection H2 as <- <-; split; auto. }
      destruct (limit_meter _ _ _ _ _ _ _ H1) as [(-> & HD & _)| ->].
      + exists []. rewrite after_nil. split; auto. split; auto. split; [intros _; split; [cbn; lia|intros x []]|]. split; [discriminate|]. congruence.
      + exists [i_max_pref d]. split; auto. split; [congruence|]. split; [intros _; split; [cbn; lia|intros x [<-|[]]; auto]|]. split; [discriminate|]. cbn. lia.
    - destruct (length (i_levels d)) as [|last] eqn:EL.
      + intros H. assert (m' = m) by congruence. subst m'. exists []. rewrite after_nil. split; auto. split; auto. split; [discriminate|].
        split; [intros _; split; [cbn; lia|]; split; [constructor|intros x []]|].
        intros _ _ [X|X]; [discriminate|]. destruct (i_levels d); [congruence|cbn in EL; lia].
      + destruct (level_search_m _ _ _ _ _ _ _ _ _ _) as [[[[[best o] t'] m1]| |]|] eqn:ES; try discriminate. intros H.
        assert (m' = m1 /\ ar_cached a = false) as [-> HC].
        { injection H as <- <-. split; auto. destruct best; reflexivity. }
        assert (HNE : i_levels d <> []) by (intros X; rewrite X in EL; discriminate).
        destruct (start_ok bound HS HNE) as (K1 & K2 & K3).
        destruct (search_meter _ _ _ _ _ _ _ _ _ _ _ _ _ _ (Nat.le_refl _) ES) as (is & ls & -> & HI & HD & HR & HL & HG).
        exists ls. split; auto. split; [congruence|]. split; [discriminate|].
        assert (HX : forall x, In x ls -> exists i, In i is /\ nth_error (i_levels d) i = Some x).
        { clear -HI. induction HI as [|i x is ls H HI IH]; [intros ? []|]. intros y [<-|Hy]; [exists i; split; auto; left; auto|].
          destruct (IH y Hy) as (j & H1 & H2). exists j. split; auto. right; auto. }
        split; [|intros Hd _ _; apply HG; auto; lia].
        intros _. split.
        { replace (last + 1 - search_start d bound) with (candidates d bound) in HL by lia. unfold halvings in HL.
          destruct (candidates d bound); lia. }
        split.
        { assert (ND : NoDup (i_levels d)).
          { clear -HS. induction HS as [|x l HS IH HF]; constructor; auto. intros X. rewrite Forall_forall in HF. specialize (HF x X). lia. }
          clear -HI HD ND. induction HI as [|i x is ls H HI IH]; constructor; inversion HD; subst; auto.
          intros X. assert (exists j, In j is /\ nth_error (i_levels d) j = Some x) as (j & Hj & Hx).
          { clear -HI X. induction HI as [|i y is ls H HI IH]; [destruct X|]. destruct X as [<-|X]; [exists i; split; auto; left; auto|].
            destruct (IH X) as (j & H1 & H2). exists j. split; auto. right; auto. }
          assert (i = j). { apply (proj1 (NoDup_nth_error _) ND); [apply nth_error_Some; congruence|congruence]. } subst j. auto. }
        intros x Hx. destruct (HX x Hx) as (i & Hi & Hn). split; [eapply nth_error_In; eauto|]. apply (K3 i x); auto. apply HR in Hi. lia. }
  destruct (sv_cache sv) as [[[slots A] opt]|]; auto. destruct (same_slots slots (ss_slots st) && opt); auto.
  assert (X : mkAnswer (Some A) true true (mkSolver (Some st) (Some (slots, A, opt))) t = a /\ m' = m) by (split; congruence).
  destruct X as [X1 X2]. apply (Z _ X1 X2). reflexivity.
Qed.
End Flow.
