(** Neighbourhoods of the local search. *)
From Verif Require Import Base M_Data Spec M_Scoring P_Scoring P_Feasible M_Rng P_Rng M_Critical M_Search M_Flow P_Search3 Spec_Calls P_Flow7 M_Climb Spec_Climb.
From Coq Require Import Permutation.

Lemma bindo_ok {A B} (x : option (outcome A)) (f : A -> option (outcome B)) b :
  bindo x f = Some (Ok b) -> exists a, x = Some (Ok a) /\ f a = Some (Ok b).
Proof. destruct x as [[a| |]|]; cbn; intros H; try discriminate. eauto. Qed.

(** ** Single moves *)
Definition enc (x : option nat) : nat := match x with None => 0 | Some n => Datatypes.S n end.
Definition dec (n : nat) : option nat := match n with O => None | Datatypes.S n => Some n end.
Lemma enc_dec n : enc (dec n) = n. Proof. destruct n; reflexivity. Qed.
Lemma dec_enc x : dec (enc x) = x. Proof. destruct x; reflexivity. Qed.
Lemma opt_ge_enc a b : opt_ge a b = (enc b <=? enc a).
Proof. destruct a, b; cbn; auto. Qed.
Definition target (cur q : nat) : nat := if cur <=? q then Datatypes.S q else q.
Lemma target_dec cur q :
  (if opt_ge (dec q) cur then match dec q with Some s => Some (s + 1) | None => Some 0 end else dec q) = dec (target (enc cur) q).
Proof.
  rewrite opt_ge_enc, enc_dec. unfold target. destruct (enc cur <=? q); auto. destruct q as [|q]; cbn; auto. do 2 f_equal. lia.
Qed.
Lemma neighbor_eq d S key : length (i_choices d) <> 0 -> length S = length (i_choices d) ->
  exists cur, nth_error S (key mod length (i_choices d)) = Some cur /\
  neighbor d S key = Ok (upd S (key mod length (i_choices d)) (dec (target (enc cur) (key / length (i_choices d))))).
Proof.
  intros Hn HL. unfold neighbor. destruct (Nat.eqb_spec (length (i_choices d)) 0); [lia|].
  pose proof (Nat.mod_upper_bound key (length (i_choices d)) Hn) as Hm.
  destruct (nth_error S (key mod length (i_choices d))) as [cur|] eqn:E; [|apply nth_error_None in E; lia].
  exists cur. split; auto. unfold get at 1. rewrite E. cbn [bind].
  change (match key / length (i_choices d) with 0 => None | Datatypes.S n => Some n end) with (dec (key / length (i_choices d))).
  rewrite target_dec. unfold set. destruct (Nat.ltb_spec (key mod length (i_choices d)) (length S)); [|lia]. cbn [bind].
  unfold with_data. rewrite upd_length, HL, Nat.eqb_refl. auto.
Qed.
Lemma target_range cur q n : q < n -> cur <= n -> target cur q <= n /\ target cur q <> cur.
Proof. unfold target. intros H1 H2. destruct (Nat.leb_spec cur q); lia. Qed.
Lemma target_inj cur q q' : target cur q = target cur q' -> q = q'.
Proof. unfold target. destruct (Nat.leb_spec cur q), (Nat.leb_spec cur q'); lia. Qed.
Lemma target_onto cur t n : t <= n -> t <> cur -> cur <= n -> exists q, q < n /\ target cur q = t.
Proof.
  intros H1 H2 H3. destruct (Nat.lt_ge_cases cur t).
  - exists (t - 1). unfold target. destruct (Nat.leb_spec cur (t - 1)); lia.
  - exists t. unfold target. destruct (Nat.leb_spec cur t); lia.
Qed.
Lemma dec_inj a b : dec a = dec b -> a = b.
Proof. intros H. rewrite <- (enc_dec a), <- (enc_dec b), H. auto. Qed.
Lemma key_split n m key : n <> 0 -> key < n * m -> key mod n < n /\ key / n < m.
Proof. intros H1 H2. split; [apply Nat.mod_upper_bound; auto|]. apply Nat.div_lt_upper_bound; auto. Qed.
Lemma enc_in d S c cur : shaped d S -> nth_error S c = Some cur -> enc cur <= length (i_slots d).
Proof. intros [_ HR] H. destruct cur as [s|]; cbn; [|lia]. apply (HR c s). exact H. Qed.

Lemma neighbor_move d S key : shaped d S -> key < n_cells d -> exists S', neighbor d S key = Ok S' /\ one_move d S S'.
Proof.
  intros HS Hk. pose proof HS as [HL _]. unfold n_cells in Hk. assert (Hn : length (i_choices d) <> 0) by nia.
  destruct (neighbor_eq d S key Hn HL) as (cur & E & ->). eexists. split; [reflexivity|].
  destruct (key_split _ _ _ Hn Hk) as [H1 H2]. destruct (target_range (enc cur) _ _ H2 (enc_in _ _ _ _ HS E)) as [H3 H4].
  split; [apply upd_length|]. exists (key mod length (i_choices d)). split; auto.
  assert (HX : forall v, nth_error (upd S (key mod length (i_choices d)) v) (key mod length (i_choices d)) = Some v).
  { intros v. apply nth_error_upd_same. rewrite HL. auto. }
  split; [|split].
  - rewrite HX, E. intros F. injection F as F. apply H4. rewrite <- F at 2. rewrite enc_dec. auto.
  - intros s Hs. unfold scheduled_in in Hs. rewrite HX in Hs. injection Hs as Hs.
    destruct (target (enc cur) (key / length (i_choices d))) as [|t]; cbn in Hs; [discriminate|]. injection Hs as <-. lia.
  - intros c' Hc. apply nth_error_upd_other. auto.
Qed.
Lemma move_neighbor d S S' : shaped d S -> one_move d S S' ->
  exists! key, key < n_cells d /\ neighbor d S key = Ok S'.
Proof.
  intros HS (HL' & c & Hc & Hne & HR & HO). pose proof HS as [HL _]. assert (Hn : length (i_choices d) <> 0) by lia.
  destruct (nth_error S c) as [cur|] eqn:E; [|apply nth_error_None in E; lia].
  destruct (nth_error S' c) as [v|] eqn:E'; [|apply nth_error_None in E'; lia].
  assert (Hv : enc v <= length (i_slots d)). { destruct v as [s|]; cbn; [|lia]. apply HR in E'. exact E'. }
  assert (Hd : enc v <> enc cur). { intros F. apply Hne. f_equal. rewrite <- (dec_enc v), F, dec_enc. auto. }
  destruct (target_onto _ _ _ Hv Hd (enc_in _ _ _ _ HS E)) as (q & Hq & Ht).
  remember (length (i_choices d)) as n eqn:En.
  assert (Em : (c + q * n) mod n = c) by (rewrite Nat.mod_add by auto; apply Nat.mod_small; auto).
  assert (Ed : (c + q * n) / n = q) by (rewrite Nat.div_add by auto; rewrite Nat.div_small by auto; auto).
  exists (c + q * n). split.
  - split; [unfold n_cells; rewrite <- En; nia|].
    destruct (neighbor_eq d S (c + q * n) ltac:(lia) ltac:(lia)) as (cur' & E1 & ->). rewrite <- En in *. rewrite Em, Ed in *. rewrite E in E1. injection E1 as <-.
    rewrite Ht, dec_enc. f_equal. apply nth_error_ext. intros i. destruct (Nat.eq_dec i c) as [->|Hi].
    + rewrite E'. apply nth_error_upd_same. rewrite HL. auto.
    + rewrite HO by auto. apply nth_error_upd_other. auto.
  - intros key [Hk Hkey]. destruct (neighbor_eq d S key ltac:(lia) ltac:(lia)) as (cur' & E1 & E2). rewrite E2 in Hkey. injection Hkey as Hkey. unfold n_cells in Hk. rewrite <- En in *.
    destruct (key_split n _ key Hn Hk) as [H1 H2].
    assert (Hk1 : key mod n = c).
    { destruct (Nat.eq_dec (key mod n) c) as [|F]; auto. exfalso. apply Hne. rewrite <- E', <- Hkey, nth_error_upd_other by auto. rewrite E. reflexivity. }
    rewrite Hk1 in *. rewrite E in E1. injection E1 as <-.
    assert (Hk2 : target (enc cur) (key / n) = enc v).
    { rewrite <- Hkey, nth_error_upd_same in E' by (rewrite HL; auto). injection E' as <-. rewrite enc_dec. auto. }
    rewrite <- Ht in Hk2. apply target_inj in Hk2. rewrite (Nat.div_mod key n Hn), Hk1, Hk2. lia.
Qed.

(** ** Swaps *)
Lemma upd_perm {A} (l : list A) : forall i c x, nth_error l i = Some x -> Permutation (c :: l) (x :: upd l i c).
Proof.
  induction l as [|y l IH]; intros [|i] c x E; cbn in E; try discriminate.
  - injection E as ->. cbn. apply perm_swap.
  - cbn. rewrite perm_swap, (IH _ _ _ E). apply perm_swap.
Qed.
Lemma rotate_ok idx : forall c S, NoDup idx -> (forall i, In i idx -> i < length S) ->
  exists S' out, rotate idx c S = Ok S' /\ length S' = length S /\ Permutation (c :: S) (out :: S') /\
    (forall i, ~ In i idx -> nth_error S' i = nth_error S i) /\
    (idx = [] -> out = c) /\ (forall b, nth_error idx (length idx - 1) = Some b -> nth_error S b = Some out) /\
    (forall a, nth_error idx 0 = Some a -> nth_error S' a = Some c) /\
    (forall k a b, nth_error idx k = Some a -> nth_error idx (Datatypes.S k) = Some b -> nth_error S' b = nth_error S a).
Proof.
  induction idx as [|i idx IH]; intros c S HN HR; cbn [rotate].
  - exists S, c. repeat split; auto; intros; try discriminate.
  - assert (Hi : i < length S) by (apply HR; left; auto).
    destruct (nth_error S i) as [x|] eqn:E; [|apply nth_error_None in E; lia].
    unfold get, set. rewrite E. cbn [bind]. destruct (Nat.ltb_spec i (length S)); [|lia]. cbn [bind].
    inversion HN as [|? ? Hni HN']; subst.
    destruct (IH x (upd S i c) HN') as (S' & out & -> & HL & HP & HO & H0 & Hlast & Hfirst & Hnext).
    { intros j Hj. rewrite upd_length. apply HR. right. auto. }
    rewrite upd_length in HL. exists S', out. split; auto. split; auto. split; [|split; [|split; [|split; [|split]]]].
    + rewrite (upd_perm S i c x E). auto.
    + intros j Hj. rewrite HO by (intros F; apply Hj; right; auto). apply nth_error_upd_other. intros F. apply Hj. left. auto.
    + intros F. discriminate.
    + intros b Hb. destruct idx as [|j idx].
      * cbn in Hb. injection Hb as <-. rewrite H0; auto.
      * replace (length (j :: idx) - 1) with (length idx) in Hlast by (cbn; lia). cbn in Hb. specialize (Hlast b Hb).
        rewrite nth_error_upd_other in Hlast; auto. intros F. subst b. apply Hni. eapply nth_error_In. exact Hb.
    + intros a Ha. cbn in Ha. injection Ha as <-. rewrite HO by auto. apply nth_error_upd_same. auto.
    + intros k a b Ha Hb. destruct k as [|k]; cbn in Ha, Hb.
      * injection Ha as <-. rewrite (Hfirst b Hb). rewrite E. auto.
      * rewrite (Hnext k a b Ha Hb). apply nth_error_upd_other. intros F. subst a. apply Hni. eapply nth_error_In. eauto.
Qed.

Lemma random_index_lt pr o len t i : fair o -> random_index pr o len t = Ok i -> i < len.
Proof.
  intros HF H. unfold random_index, to_i32 in H. destruct (Z.leb_spec (Z.of_nat len) i32_max) as [Hl|]; [|discriminate]. cbn [bind] in H.
  destruct len as [|len].
  - cbn in H. unfold next_in_range, i32_wrap in H. cbn in H. discriminate.
  - destruct (next_in_range_ok pr (o_sample o t) 0 (Z.of_nat (Datatypes.S len)) (fair_sample o HF t)) as (z & E & Hz); unfold i32_min in *; try lia.
    rewrite E in H. cbn [bind] in H. destruct (Z.ltb_spec z 0); [lia|]. injection H as <-. lia.
Qed.
Lemma random_index_total pr o len t : fair o -> 0 < len -> (Z.of_nat len <= i32_max)%Z ->
  random_index pr o len t = Ok (Z.to_nat (o_sample o t mod Z.of_nat len)).
Proof.
  intros HF H0 Hl. unfold random_index, to_i32. destruct (Z.leb_spec (Z.of_nat len) i32_max); [|lia]. cbn [bind].
  pose proof (fair_sample o HF t) as Hs. unfold next_in_range, i32_wrap, rem_euclid, i32_min, i32_max in *.
  rewrite Z.sub_0_r. destruct (Z.leb_spec (-2147483648) (Z.of_nat len)); [|lia]. destruct (Z.leb_spec (Z.of_nat len) 2147483647); [|lia]. cbn [andb bind].
  destruct (Z.eqb_spec (Z.of_nat len) 0); [lia|]. destruct (Z.eqb_spec (Z.of_nat len) (-1)); [lia|]. rewrite andb_false_r. cbn [bind].
  rewrite Z.abs_eq by lia. pose proof (Z.mod_pos_bound (o_sample o t) (Z.of_nat len) ltac:(lia)).
  rewrite Z.add_0_l.
  destruct (Z.leb_spec (-2147483648) (o_sample o t mod Z.of_nat len)); [|lia].
  destruct (Z.leb_spec (o_sample o t mod Z.of_nat len) 2147483647); [|lia]. cbn [andb bind].
  destruct (Z.ltb_spec (o_sample o t mod Z.of_nat len) 0); [lia|]. auto.
Qed.
Lemma fresh_index_ok pr o len taken : fair o -> forall fuel t i t', fresh_index pr o len taken fuel t = Some (Ok (i, t')) -> i < len /\ ~ In i taken.
Proof.
  intros HF. induction fuel as [|fuel IH]; intros t i t' H; cbn [fresh_index] in H; [discriminate|].
  apply bindo_ok in H as (j & Ej & H). injection Ej as Ej. destruct (existsb (Nat.eqb j) taken) eqn:E.
  - eapply IH; eauto.
  - injection H as <- <-. split; [eapply random_index_lt; eauto|]. intros F.
    assert (X : existsb (Nat.eqb j) taken = true) by (apply existsb_exists; exists j; split; auto; apply Nat.eqb_refl). congruence.
Qed.
Lemma grow_cycle_ok pr o len sw : fair o -> forall fuel idx t idx' t', NoDup idx -> (forall i, In i idx -> i < len) ->
  grow_cycle pr o len sw fuel idx t = Some (Ok (idx', t')) ->
  NoDup idx' /\ (forall i, In i idx' -> i < len) /\ (exists more, idx' = idx ++ more) /\ length idx' <= Nat.max (length idx) (len / 2).
Proof.
  intros HF. induction fuel as [|fuel IH]; intros idx t idx' t' HN HR H; cbn [grow_cycle] in H; [discriminate|].
  apply bindo_ok in H as (z & _ & H). destruct ((z =? 0)%Z && (length idx <? len / 2)) eqn:E.
  - apply andb_prop in E as [_ E]. apply Nat.ltb_lt in E. apply bindo_ok in H as ([i t1] & Ei & H). cbn [fst snd] in H.
    apply fresh_index_ok in Ei as [Hi Hni]; auto. apply IH in H.
    + destruct H as (H1 & H2 & (more & ->) & H4). split; auto. split; auto. rewrite app_length in H4. cbn in H4.
      split; [exists ([i] ++ more); rewrite app_assoc; auto|]. rewrite !app_length in *. cbn in *. lia.
    + apply (Permutation_NoDup (Permutation_cons_append idx i)). constructor; auto.
    + intros j Hj. apply in_app_or in Hj as [Hj|[<-|[]]]; auto.
  - injection H as <- <-. split; auto. split; auto. split; [exists []; rewrite app_nil_r; auto|lia].
Qed.
Lemma last_nth (l : list nat) d : l <> [] -> nth_error l (length l - 1) = Some (last l d).
Proof.
  induction l as [|x l IH]; [congruence|]. intros _. destruct l as [|y l]; [reflexivity|].
  change (last (x :: y :: l) d) with (last (y :: l) d). rewrite <- IH by discriminate. cbn. rewrite Nat.sub_0_r. auto.
Qed.
Lemma swap_neighbor_ok pr d o sw S t S' t' : fair o -> swap_neighbor pr d o sw S t = Some (Ok (S', t')) ->
  exists cycle, NoDup cycle /\ cycle <> [] /\ (forall c, In c cycle -> c < length S) /\ length cycle <= Nat.max 1 (length S / 2) /\
    rotated cycle S S' /\ Permutation S S' /\ length S' = length (i_choices d).
Proof.
  intros HF H. unfold swap_neighbor in H. apply bindo_ok in H as (i & Ei & H). injection Ei as Ei. apply random_index_lt in Ei; auto.
  apply bindo_ok in H as ([idx t1] & Eg & H). cbn [fst snd] in H.
  apply grow_cycle_ok in Eg as (HN & HR & (more & EM) & HLn); auto; [|constructor; [intros []|constructor]|intros j [<-|[]]; auto].
  assert (Hne : idx <> []) by (rewrite EM; discriminate).
  pose proof (last_nth idx 0 Hne) as HLast. pose proof (HR _ (nth_error_In _ _ HLast)) as Hlt.
  injection H as H. apply bind_ok in H as (carry & Ec & H). unfold get in Ec.
  destruct (nth_error S (last idx 0)) as [x|] eqn:Ex; [|discriminate]. injection Ec as ->.
  destruct (rotate_ok idx carry S HN HR) as (S1 & out & Er & HL & HP & HO & _ & Hl & Hf & Hnx). rewrite Er in H. cbn [bind] in H.
  unfold with_data in H. destruct (Nat.eqb_spec (length S1) (length (i_choices d))) as [Ed|]; [|discriminate]. cbn [bind] in H. injection H as <- <-.
  exists idx. split; auto. split; auto. split; auto. split; [cbn in HLn; auto|].
  pose proof (Hl _ HLast) as Hout. rewrite Ex in Hout. injection Hout as <-.
  split; [|split; auto; apply Permutation_cons_inv in HP; auto].
  split; auto. split; auto. split; auto.
  intros a b Ha Hb. rewrite (Hf a Ha). rewrite HLast in Hb. injection Hb as <-. auto.
Qed.
Lemma perm_in_range {S S' : scheduling} n : Permutation S S' -> (forall c s, scheduled_in S c s -> s < n) -> forall c s, scheduled_in S' c s -> s < n.
Proof.
  intros HP HR c s H. apply nth_error_In in H. apply (Permutation_in _ (Permutation_sym HP)) in H. apply In_nth_error in H as (c' & H). eapply HR. exact H.
Qed.

(** ** The list of neighbours *)
Definition is_neighbor (pr : profile) (d : input_data) (S S' : scheduling) : Prop :=
  shaped d S' /\ sched_is_feasible pr d S' = Ok true /\
  (one_move d S S' \/ exists cycle, NoDup cycle /\ (forall c, In c cycle -> c < length S) /\ rotated cycle S S').
Lemma one_move_shaped d S S' : shaped d S -> one_move d S S' -> shaped d S'.
Proof.
  intros [HL HR] (HL' & c & Hc & _ & H1 & H2). split; [congruence|]. intros c' s Hs. destruct (Nat.eq_dec c' c) as [->|F]; auto.
  unfold scheduled_in in Hs. rewrite H2 in Hs by auto. eapply HR. exact Hs.
Qed.
Lemma add_swap_ok pr d o sw S res t res' t' : fair o -> shaped d S -> add_swap pr d o sw S res t = Some (Ok (res', t')) ->
  exists more, res' = res ++ more /\ length more <= 1 /\ forall n, In n more -> is_neighbor pr d S n.
Proof.
  intros HF HS H. unfold add_swap in H. apply bindo_ok in H as ([n t1] & En & H). cbn [fst snd] in H.
  apply bindo_ok in H as (ok & Eo & H). injection Eo as Eo. apply some_inj, ok_inj in H. destruct ok.
  - injection H as <- <-. exists [n]. split; auto. split; auto. intros m [<-|[]].
    apply swap_neighbor_ok in En as (cyc & H1 & _ & H3 & _ & H5 & H6 & H7); auto.
    split; [|split; auto; right; exists cyc; auto]. split; [exact H7|]. eapply perm_in_range; eauto. apply HS.
  - injection H as <- <-. exists []. rewrite app_nil_r. split; auto. split; [cbn; lia|]. intros m [].
Qed.
Lemma key_neighbors_ok pr d o sw max swaps S : fair o -> shaped d S -> forall keys index res t res' t',
  (forall k, In k keys -> k < n_cells d) ->
  key_neighbors pr d o sw max swaps S keys index res t = Some (Ok (res', t')) ->
  exists more, res' = res ++ more /\ length res' <= Nat.max (length res) (max + if swaps then 1 else 0) /\ (forall n, In n more -> is_neighbor pr d S n) /\
    length more <= (if swaps then 2 else 1) * length keys /\
    (index + length keys <= max * 32 + 1 -> length res' < max ->
     forall k n, In k keys -> neighbor d S k = Ok n -> sched_is_feasible pr d n = Ok true -> In n more).
Proof.
  intros HF HS. induction keys as [|k keys IH]; intros index res t res' t' HK H; cbn [key_neighbors] in H.
  - injection H as <- <-. exists []. rewrite app_nil_r. split; auto. split; [lia|]. split; [intros n []|]. split; [cbn; lia|]. intros _ _ k n [].
  - destruct (Nat.leb_spec max (length res)) as [Hm|Hm].
    { injection H as <- <-. exists []. rewrite app_nil_r. split; auto. split; [lia|]. split; [intros n []|]. split; [cbn; lia|]. intros; lia. }
    destruct (Nat.ltb_spec (max * 32) index) as [Hx|Hx].
    { injection H as <- <-. exists []. rewrite app_nil_r. split; auto. split; [lia|]. split; [intros n []|]. split; [cbn; lia|]. cbn [length]. intros; lia. }
    apply bindo_ok in H as (n & En & H). injection En as En. apply bindo_ok in H as (ok & Eo & H). injection Eo as Eo.
    destruct (neighbor_move d S k HS (HK k (or_introl eq_refl))) as (n' & En' & HM). rewrite En in En'. injection En' as <-.
    destruct ok; cbn [negb] in H.
    + apply bindo_ok in H as ([r1 t1] & Er & H). cbn [fst snd] in H.
      assert (Hr : exists more, r1 = (res ++ [n]) ++ more /\ length more <= (if swaps then 1 else 0) /\ forall m, In m more -> is_neighbor pr d S m).
      { destruct swaps; [eapply add_swap_ok; eauto|]. injection Er as <- <-. exists []. rewrite app_nil_r. split; auto. split; auto. intros m []. }
      destruct Hr as (m1 & -> & Hl1 & Hn1).
      apply IH in H as (m2 & -> & Hl2 & Hn2 & Hc2 & HC); [|intros k' Hk'; apply HK; right; auto].
      exists ([n] ++ m1 ++ m2). rewrite !app_assoc. split; auto. rewrite !app_length in *. cbn [length] in *.
      split; [destruct swaps; lia|]. split; [|split; [destruct swaps; lia|]].
      * intros m Hm'. rewrite <- app_assoc in Hm'. apply in_app_or in Hm' as [[<-|[]]|Hm'].
        -- split; [eapply one_move_shaped; eauto|]. split; auto.
        -- apply in_app_or in Hm' as [Hm'|Hm']; auto.
      * intros Hi Hl k' n' [<-|Hk'] Ek' Hf'.
        -- rewrite En in Ek'. injection Ek' as <-. left. auto.
        -- apply in_or_app. right. eapply HC; eauto; lia.
    + apply IH in H as (m2 & -> & Hl2 & Hn2 & Hc2 & HC); [|intros k' Hk'; apply HK; right; auto].
      exists m2. split; auto. split; auto. split; auto. cbn [length]. split; [lia|]. intros Hi Hl k' n' [<-|Hk'] Ek' Hf'.
      * rewrite En in Ek'. injection Ek' as <-. congruence.
      * eapply HC; eauto; lia.
Qed.
Lemma swap_neighbors_ok pr d o sw max S : fair o -> shaped d S -> forall tries res t res' t',
  swap_neighbors pr d o sw max S tries res t = Some (Ok (res', t')) ->
  exists more, res' = res ++ more /\ length res' <= Nat.max (length res) max /\ forall n, In n more -> is_neighbor pr d S n.
Proof.
  intros HF HS. induction tries as [|tries IH]; intros res t res' t' H; cbn [swap_neighbors] in H.
  - injection H as <- <-. exists []. rewrite app_nil_r. split; auto. split; [lia|]. intros n [].
  - destruct (Nat.leb_spec max (length res)).
    { injection H as <- <-. exists []. rewrite app_nil_r. split; auto. split; [lia|]. intros n []. }
    apply bindo_ok in H as ([r1 t1] & Er & H). cbn [fst snd] in H. apply add_swap_ok in Er as (m1 & -> & Hl1 & Hn1); auto.
    apply IH in H as (m2 & -> & Hl2 & Hn2). exists (m1 ++ m2). rewrite app_assoc. split; auto. rewrite !app_length in *.
    split; [lia|]. intros n Hn. apply in_app_or in Hn as [Hn|Hn]; auto.
Qed.
Lemma pick_neighbors_ok pr d o sw max S t res t' : fair o -> shaped d S -> pick_neighbors pr d o sw max S t = Some (Ok (res, t')) ->
  (forall n, In n res -> is_neighbor pr d S n) /\ length res <= max + (if (1 <? length (i_choices d)) && (1 <? length (i_slots d)) then 1 else 0) /\
  (2 * n_cells d < max -> forall n, one_move d S n -> sched_is_feasible pr d n = Ok true -> In n res).
Proof.
  intros HF HS H. unfold pick_neighbors in H.
  set (swaps := (1 <? length (i_choices d)) && (1 <? length (i_slots d))) in *.
  destruct (if max <? n_cells d then (o_shuffle o t (seq 0 (n_cells d)), t + 1) else (seq 0 (n_cells d), t)) as [keys t0] eqn:EK.
  assert (HP : Permutation (seq 0 (n_cells d)) keys).
  { destruct (max <? n_cells d); injection EK as <- <-; auto. apply fair_shuffle; auto. }
  assert (HK : forall k, In k keys <-> k < n_cells d).
  { intros k. split; intros Hk.
    - apply (Permutation_in _ (Permutation_sym HP)) in Hk. apply in_seq in Hk. lia.
    - apply (Permutation_in _ HP). apply in_seq. lia. }
  assert (HKl : length keys = n_cells d) by (rewrite <- (Permutation_length HP), seq_length; auto).
  apply bindo_ok in H as ([r1 t1] & Er & H).
  apply key_neighbors_ok in Er as (m1 & E1 & Hl & Hn & Hc & HC); auto; [|intros k Hk; apply HK; auto].
  cbn in E1, Hl, HC. subst m1. rewrite HKl in *.
  assert (G : forall n, 2 * n_cells d < max -> one_move d S n -> sched_is_feasible pr d n = Ok true -> In n r1).
  { intros n Hm Ho Hf. destruct (move_neighbor d S n HS Ho) as (k & [Hk Ek] & _). eapply HC; eauto.
    - nia.
    - destruct swaps; lia.
    - apply HK; auto. }
  destruct (swaps && (length r1 <? max)) eqn:EB.
  - apply andb_prop in EB as [_ EB]. apply Nat.ltb_lt in EB.
    apply swap_neighbors_ok in H as (m2 & -> & Hl2 & Hn2); auto. split; [intros n Hx; apply in_app_or in Hx as [Hx|Hx]; auto|].
    split; [lia|]. intros Hm n Ho Hf. apply in_or_app. left. auto.
  - injection H as <- <-. split; [auto|split; auto].
Qed.
